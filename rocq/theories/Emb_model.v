(** Model of the cost functions of theseus/embodied that are written against
    the LieGroup interface: Between, Local, MovingFrameBetween and
    DoubleIntegrator (error and jacobians), for one batch element.  The Python
    code calls the methods of whatever LieGroup subclass it is given; [LieGroup]
    below is that interface and [vector_group], [so2_group], [se2_group],
    [so3_group], [se3_group] are the subclasses (Point2 and Point3 are Vectors
    of 2 and 3 components).  A tensor computation that divides by zero is
    [None]. *)
From Coq Require Import Reals List Arith.
Import ListNotations.
From Verif Require Import Geo_spec Geo3_spec Geo4_spec RSum SE2_model SO3_model SE3_model.
Local Open Scope R_scope.

(** theseus/geometry/lie_group.py: the methods a subclass provides, and the
    torch operations on its Jacobians and tangent vectors *)
Record LieGroup := mkLieGroup {
  elt : Type; tangent : Type; jacobian : Type;
  inverse : elt -> elt;
  compose : elt -> elt -> elt;
  compose_jac : elt -> elt -> jacobian * jacobian;
  adjoint : elt -> jacobian;
  log_map : elt -> option tangent;
  log_map_jac : elt -> option jacobian;
  (* torch.matmul, unary minus, torch.eye, torch.zeros, product with a scalar *)
  jmul : jacobian -> jacobian -> jacobian;
  jneg : jacobian -> jacobian;
  jeye : jacobian;
  jzero : jacobian;
  jscale : R -> jacobian -> jacobian;
  (* difference of tangent vectors and product with a scalar *)
  tsub : tangent -> tangent -> tangent;
  tscale : R -> tangent -> tangent }.

Arguments inverse {_} _.
Arguments compose {_} _ _.
Arguments compose_jac {_} _ _.
Arguments adjoint {_} _.
Arguments log_map {_} _.
Arguments log_map_jac {_} _.
Arguments jmul {_} _ _.
Arguments jneg {_} _.
Arguments jeye {_}.
Arguments jzero {_}.
Arguments jscale {_} _ _.
Arguments tsub {_} _ _.
Arguments tscale {_} _ _.

(** lie_group.py:125-136 (between), 177-178 (_inverse_jacobian) *)
Definition between {G} (a b : elt G) : elt G := compose (inverse a) b.
Definition between_jac {G} (a b : elt G) : jacobian G * jacobian G :=
  let Jinv := jneg (adjoint a) in
  let '(Jcmp0, Jcmp1) := compose_jac (inverse a) b in
  (jmul Jcmp0 Jinv, Jcmp1).
(** lie_group.py:180-195 (_local_impl) *)
Definition local {G} (a b : elt G) : option (tangent G) := log_map (between a b).
Definition local_jac {G} (a b : elt G) : option (jacobian G * jacobian G) :=
  let diff := between a b in
  do dlog <- log_map_jac diff;
  Some (jmul (jneg (adjoint (inverse diff))) dlog, dlog).

(** embodied/measurements/between.py:34-36 (error), 38-45 (jacobians) *)
Definition between_error {G} (v0 v1 measurement : elt G) : option (tangent G) :=
  let var_diff := between v0 v1 in
  local measurement var_diff.
Definition between_jacobians {G} (v0 v1 measurement : elt G) : option (list (jacobian G) * tangent G) :=
  let var_diff := between v0 v1 in
  let e := compose (inverse measurement) var_diff in
  do error <- log_map e;
  do dlog <- log_map_jac e;
  Some ([jmul (jneg dlog) (adjoint (inverse var_diff)); dlog], error).

(** embodied/misc/local_cost_fn.py:39-40 (error), 42-61 (jacobians); [fast] is
    the global flag fast_approx_local_jacobians.  The cached identity is the
    identity matrix; see [local_cache_step] for the cache itself. *)
Definition local_error {G} (var target : elt G) : option (tangent G) := local target var.
Definition local_jacobians {G} (fast : bool) (var target : elt G) : option (list (jacobian G) * tangent G) :=
  if fast then do error <- local target var; Some ([jeye], error)
  else
    do error <- local target var;
    do Jlist <- local_jac target var;
    Some ([snd Jlist], error).

(** local_cost_fn.py:44-53: which identity jacobians() hands out in fast mode.
    A tensor is described by its batch size and its dtype. *)
Record tensor_info := mkTI { ti_batch : nat; ti_dtype : dtype }.
Definition local_cache_step (cache : option tensor_info) (var : tensor_info) : tensor_info * option tensor_info :=
  match cache with
  | Some c => if Nat.eqb (ti_batch c) (ti_batch var) then (c, Some c)
              else (var, Some var)
  | None => (var, Some var)
  end.

(** embodied/measurements/moving_frame_between.py:40-44 (error), 46-63
    (jacobians, in the order frame1, frame2, pose1, pose2) *)
Definition mfb_error {G} (frame1 frame2 pose1 pose2 measurement : elt G) : option (tangent G) :=
  let pose1__frame := between frame1 pose1 in
  let pose2__frame := between frame2 pose2 in
  let var_diff := between pose1__frame pose2__frame in
  local measurement var_diff.
Definition mfb_jacobians {G} (frame1 frame2 pose1 pose2 measurement : elt G) : option (list (jacobian G) * tangent G) :=
  let pose1__frame := between frame1 pose1 in
  let '(JB1_f1, JB1_p1) := between_jac frame1 pose1 in
  let pose2__frame := between frame2 pose2 in
  let '(JB2_f2, JB2_p2) := between_jac frame2 pose2 in
  let var_diff := between pose1__frame pose2__frame in
  let '(J_Bout_B1, J_Bout_B2) := between_jac pose1__frame pose2__frame in
  do error <- local measurement var_diff;
  let J_out_f1 := jmul J_Bout_B1 JB1_f1 in
  let J_out_p1 := jmul J_Bout_B1 JB1_p1 in
  let J_out_f2 := jmul J_Bout_B2 JB2_f2 in
  let J_out_p2 := jmul J_Bout_B2 JB2_p2 in
  Some ([J_out_f1; J_out_f2; J_out_p1; J_out_p2], error).

(** embodied/motionmodel/double_integrator.py:42-80.  The error has 2 dof
    components and each Jacobian 2 dof rows: both are pairs (first dof, last dof). *)
Definition di_error_from_pose_diff {G} (dt : R) (pose_diff vel1 vel2 : tangent G) : tangent G * tangent G :=
  (tsub pose_diff (tscale dt vel1), tsub vel2 vel1).
Definition di_error {G} (dt : R) (pose1 : elt G) (vel1 : tangent G) (pose2 : elt G) (vel2 : tangent G)
  : option (tangent G * tangent G) :=
  do pose_diff <- local pose1 pose2;
  Some (di_error_from_pose_diff dt pose_diff vel1 vel2).
Definition di_jacobians {G} (dt : R) (pose1 : elt G) (vel1 : tangent G) (pose2 : elt G) (vel2 : tangent G)
  : option (list (jacobian G * jacobian G) * (tangent G * tangent G)) :=
  do pose_diff <- local pose1 pose2;
  do Jlocal <- local_jac pose1 pose2;
  let error := di_error_from_pose_diff dt pose_diff vel1 vel2 in
  let Jerr_pose1 := (fst Jlocal, jzero) in
  let Jerr_vel1 := (jscale (- dt) jeye, jneg jeye) in
  let Jerr_pose2 := (snd Jlocal, jzero) in
  let Jerr_vel2 := (jzero, jeye) in
  Some ([Jerr_pose1; Jerr_vel1; Jerr_pose2; Jerr_vel2], error).

(** ** the subclasses *)
(** theseus/geometry/vector.py:165-236: n components; indices from n on are
    meaningless *)
Definition vec_eye (i j : nat) : R := if Nat.eqb i j then 1 else 0.
Definition vec_mm (n : nat) (A B : nat -> nat -> R) (i j : nat) : R := rsum n (fun k => A i k * B k j).
Definition vec_neg (A : nat -> nat -> R) (i j : nat) : R := - A i j.
Definition vector_group (n : nat) : LieGroup := mkLieGroup
  (nat -> R) (nat -> R) (nat -> nat -> R)
  (fun g i => - g i)
  (fun g h i => g i + h i)
  (fun _ _ => (vec_eye, vec_eye))
  (fun _ => vec_eye)
  (fun g => Some g)
  (fun _ => Some vec_eye)
  (vec_mm n) vec_neg vec_eye
  (fun _ _ => 0)
  (fun c A i j => c * A i j)
  (fun u v i => u i - v i)
  (fun c u i => c * u i).
(** theseus/geometry/so2.py *)
Definition so2_group : LieGroup := mkLieGroup
  SO2 R R so2_inverse so2_compose so2_compose_jac so2_adjoint
  (fun g => Some (so2_log_map g)) (fun g => Some (so2_log_map_jac g))
  Rmult Ropp 1 0 Rmult Rminus Rmult.
(** theseus/geometry/se2.py *)
Definition scal_m3 (c : R) (m : M3) : M3 := mkM3 (c * d00 m) (c * d01 m) (c * d02 m)
  (c * d10 m) (c * d11 m) (c * d12 m) (c * d20 m) (c * d21 m) (c * d22 m).
Definition se2_group (d : dtype) : LieGroup := mkLieGroup
  SE2 V3 M3 se2_inverse se2_compose se2_compose_jac se2_adjoint
  (se2_log_map d) (se2_log_map_jac d)
  mul3 opp_m3 I3 mzero scal_m3 sub3 scal3.
(** theseus/geometry/so3.py *)
Definition so3_group (d : dtype) : LieGroup := mkLieGroup
  M3 V3 M3 so3_inverse so3_compose so3_compose_jac_theseus so3_adjoint
  (so3_log d) (so3_jlog d)
  mul3 opp_m3 I3 mzero scal_m3 sub3 scal3.
(** theseus/geometry/se3.py *)
Definition scal66 (c : R) (m : M66) : M66 :=
  mkM66 (scal_m3 c (mll m)) (scal_m3 c (mla m)) (scal_m3 c (mal m)) (scal_m3 c (maa m)).
Definition se3_group (d : dtype) : LieGroup := mkLieGroup
  Rig Tw M66 se3_inverse se3_compose se3_compose_jac_theseus se3_adjoint
  (se3_log d) (se3_jlog d)
  mul66 opp66 I66 (mkM66 mzero mzero mzero mzero) scal66 vsub6 tscal.
