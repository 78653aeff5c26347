(** Model of theseus/geometry/so2.py, theseus/geometry/se2.py and the parts of
    theseus/geometry/lie_group.py they use, for one batch element (the code
    applies the same formulas to every row of the batch).  Real arithmetic
    replaces floating point; a division by zero (inf or nan in torch) is [None]
    and everything computed from it is [None]. *)
From Coq Require Import Reals Lra.
From Verif Require Import Geo_spec.
Local Open Scope R_scope.

(** torch dtypes supported by theseus, theseus/global_params.py:15-21 *)
Inductive dtype := F32 | F64.

(** theseus/global_params.py:47-59 (_TheseusGlobalParams.reset).  reset sets
    so2_norm_eps_float32 twice and never so2_norm_eps_float64, which keeps the
    dataclass default 0 of line 30. *)
Definition so2_norm_eps (d : dtype) : R := match d with F32 => / 10 ^ 12 | F64 => 0 end.
Definition so2_matrix_eps (d : dtype) : R := match d with F32 => / 10 ^ 5 | F64 => 4 / 10 ^ 7 end.
Definition se2_near_zero_eps (d : dtype) : R := match d with F32 => 3 / 100 | F64 => / 10 ^ 6 end.
Definition se2_d_near_zero_eps (d : dtype) : R := match d with F32 => / 10 | F64 => / 10 ^ 3 end.

(** torch comparison a < b *)
Definition lt_b (a b : R) : bool := if Rlt_dec a b then true else false.
(** torch.where on one element: both branches have been computed *)
Definition where_ {A} (b : bool) (x y : A) : A := if b then x else y.
(** torch division *)
Definition div_ (a b : R) : option R := if Req_EM_T b 0 then None else Some (a / b).
Definition bind {A B} (x : option A) (f : A -> option B) : option B :=
  match x with Some a => f a | None => None end.
Notation "'do' x <- e ; f" := (bind e (fun x => f)) (at level 200, x ident, e at level 100, f at level 200).

(** torch.atan2(s, c) *)
Definition atan2 (s c : R) : R :=
  if Rlt_dec 0 c then atan (s / c)
  else if Rlt_dec c 0 then (if Rle_dec 0 s then atan (s / c) + PI else atan (s / c) - PI)
  else if Rlt_dec 0 s then PI / 2 else if Rlt_dec s 0 then - (PI / 2) else 0.

(** ** SO2: rows [cos, sin] *)
Record SO2 := mkSO2 { co : R; si : R }.

(** so2.py:99-100 (update_from_angle), so2.py:167-185 (exp_map and its Jacobian) *)
Definition so2_exp_map (th : R) : SO2 := mkSO2 (cos th) (sin th).
Definition so2_exp_map_jac (th : R) : R := 1.
(** so2.py:206-222 *)
Definition so2_log_map (g : SO2) : R := atan2 (si g) (co g).
Definition so2_log_map_jac (g : SO2) : R := 1.
(** so2.py:116-117 *)
Definition so2_adjoint (g : SO2) : R := 1.
(** so2.py:224-230 *)
Definition so2_compose (g h : SO2) : SO2 :=
  mkSO2 (co g * co h - si g * si h) (si g * co h + co g * si h).
(** so2.py:232-234 *)
Definition so2_inverse (g : SO2) : SO2 := mkSO2 (co g) (- si g).
(** so2.py:257-276 (_rotate_from_cos_sin) *)
Definition rotate_from_cos_sin (p : V2) (c s : R) : V2 :=
  mkV2 (c * a0 p - s * a1 p) (s * a0 p + c * a1 p).
(** so2.py:311-318 *)
Definition so2_to_matrix (g : SO2) : M2 := mkM2 (co g) (- si g) (si g) (co g).
(** so2.py:278-291: the point and [Jrot; Jpnt] *)
Definition so2_rotate (g : SO2) (p : V2) : V2 := rotate_from_cos_sin p (co g) (si g).
Definition so2_rotate_Jrot (g : SO2) (p : V2) : V2 :=
  let ret := so2_rotate g p in mkV2 (- a1 ret) (a0 ret).
Definition so2_rotate_Jpnt (g : SO2) : M2 := so2_to_matrix g.
(** so2.py:293-306 *)
Definition so2_unrotate (g : SO2) (p : V2) : V2 := rotate_from_cos_sin p (co g) (- si g).
Definition so2_unrotate_Jrot (g : SO2) (p : V2) : V2 :=
  let ret := so2_unrotate g p in mkV2 (a1 ret) (- a0 ret).
Definition so2_unrotate_Jpnt (g : SO2) : M2 := tr2 (so2_to_matrix g).
(** so2.py:321-330 (hat, vee without its check) *)
Definition so2_hat (w : R) : M2 := mkM2 0 (- w) w 0.
Definition so2_vee (m : M2) : R := c10 m.
(** so2.py:188-204 *)
Definition so2_normalize (d : dtype) (t : V2) : option V2 :=
  let data_norm := sqrt (a0 t * a0 t + a1 t * a1 t) in
  let near_zero := lt_b data_norm (so2_norm_eps d) in
  let data_norm_nz := where_ near_zero 1 data_norm in
  do q0 <- div_ (a0 t) data_norm_nz;
  do q1 <- div_ (a1 t) data_norm_nz;
  Some (where_ near_zero (mkV2 1 0) (mkV2 q0 q1)).
(** so2.py:132-145 (_check_tensor_impl) *)
Definition so2_check_tensor (d : dtype) (t : V2) : Prop :=
  Rabs (sqrt (a0 t * a0 t + a1 t * a1 t) - 1) <= so2_matrix_eps d.
(** so2.py:119-129 (_project_impl, one gradient row) *)
Definition so2_project (g : SO2) (grad : V2) : R := a0 grad * - si g + a1 grad * co g.

(** ** SE2: rows [x, y, cos, sin] *)
Record SE2 := mkSE2 { px : R; py : R; pc : R; ps : R }.

(** se2.py:126-128, 139-141 *)
Definition se2_rotation (g : SE2) : SO2 := mkSO2 (pc g) (ps g).
Definition se2_translation (g : SE2) : V2 := mkV2 (px g) (py g).
(** se2.py:157-163 (update_from_rot_and_trans) *)
Definition se2_of (r : SO2) (p : V2) : SE2 := mkSE2 (a0 p) (a1 p) (co r) (si r).
(** se2.py:110-111 *)
Definition se2_init : SE2 := mkSE2 0 0 1 0.

(** se2.py:239-269: exp_map *)
Definition se2_exp_map (d : dtype) (v : V3) : option SE2 :=
  let theta := b2 v in
  let rotation := so2_exp_map theta in
  let cosine := co rotation in let sine := si rotation in
  let small_theta := lt_b (Rabs theta) (se2_near_zero_eps d) in
  let theta2 := theta ^ 2 in let theta3 := theta ^ 3 in
  let theta_nz := where_ small_theta 1 theta in
  do q1 <- div_ sine theta_nz;
  do q2 <- div_ (cosine - 1) theta_nz;
  let sine_by_theta := where_ small_theta (1 - theta2 / 6) q1 in
  let cosine_minus_one_by_theta := where_ small_theta (- theta / 2 + theta3 / 24) q2 in
  let x := sine_by_theta * b0 v + cosine_minus_one_by_theta * b1 v in
  let y := sine_by_theta * b1 v - cosine_minus_one_by_theta * b0 v in
  Some (se2_of rotation (mkV2 x y)).

(** se2.py:271-300: the Jacobian exp_map appends *)
Definition se2_exp_map_jac (d : dtype) (v : V3) : option M3 :=
  let theta := b2 v in
  let cosine := cos theta in let sine := sin theta in
  let small_theta := lt_b (Rabs theta) (se2_near_zero_eps d) in
  let theta2 := theta ^ 2 in let theta3 := theta ^ 3 in
  let theta_nz := where_ small_theta 1 theta in
  do q1 <- div_ sine theta_nz;
  do q2 <- div_ (cosine - 1) theta_nz;
  let sine_by_theta := where_ small_theta (1 - theta2 / 6) q1 in
  let cosine_minus_one_by_theta := where_ small_theta (- theta / 2 + theta3 / 24) q2 in
  let theta2_nz := where_ small_theta 1 theta2 in
  do q3 <- div_ (theta - sine) theta2_nz;
  do q4 <- div_ (cosine - 1) theta2_nz;
  let theta_minus_sine_by_theta2 := where_ small_theta (theta - theta3 / 120) q3 in
  let cosine_minus_one_by_theta2 := where_ small_theta (- (1 / 2) + theta2 / 24) q4 in
  Some (mkM3
    sine_by_theta (- cosine_minus_one_by_theta)
    (theta_minus_sine_by_theta2 * b0 v + cosine_minus_one_by_theta2 * b1 v)
    cosine_minus_one_by_theta sine_by_theta
    (theta_minus_sine_by_theta2 * b1 v - cosine_minus_one_by_theta2 * b0 v)
    0 0 1).

(** se2.py:165-187: _log_map_impl *)
Definition se2_log_map (d : dtype) (g : SE2) : option V3 :=
  let rotation := se2_rotation g in
  let theta := so2_log_map rotation in
  let cosine := co rotation in let sine := si rotation in
  let small_theta := lt_b (Rabs theta) (se2_near_zero_eps d) in
  let sine_nz := where_ small_theta 1 sine in
  do q <- div_ theta sine_nz;
  let half_theta_by_tan_half_theta :=
    (1 / 2) * (1 + cosine) * where_ small_theta (1 + sine ^ 2 / 6) q in
  let half_theta := (1 / 2) * theta in
  let ux := half_theta_by_tan_half_theta * px g + half_theta * py g in
  let uy := half_theta_by_tan_half_theta * py g - half_theta * px g in
  Some (mkV3 ux uy theta).

(** se2.py:189-228: the Jacobian log_map appends *)
Definition se2_log_map_jac (d : dtype) (g : SE2) : option M3 :=
  do u <- se2_log_map d g;
  let ux := b0 u in let uy := b1 u in let theta := b2 u in
  let cosine := pc g in let sine := ps g in
  let half_theta := (1 / 2) * theta in
  let theta2 := theta ^ 2 in let theta3 := theta * theta2 in
  let d_small_theta := lt_b (Rabs theta) (se2_d_near_zero_eps d) in
  let theta_nz := where_ d_small_theta 1 theta in
  let one_minus_cosine_nz := where_ d_small_theta 1 (1 - cosine) in
  do q1 <- div_ (half_theta * sine) one_minus_cosine_nz;
  let half_theta_sine_by_one_minus_cosine := where_ d_small_theta (1 - theta2 / 12) q1 in
  do q2 <- div_ 1 theta_nz;
  do q3 <- div_ ((1 / 2) * sine) one_minus_cosine_nz;
  let coeff := where_ d_small_theta (theta / 12 + theta3 / 720) (q2 - q3) in
  Some (mkM3
    half_theta_sine_by_one_minus_cosine (- half_theta) (coeff * ux + (1 / 2) * uy)
    half_theta half_theta_sine_by_one_minus_cosine (coeff * uy - (1 / 2) * ux)
    0 0 1).

(** se2.py:309-316 *)
Definition se2_adjoint (g : SE2) : M3 :=
  let r := so2_to_matrix (se2_rotation g) in
  mkM3 (c00 r) (c01 r) (py g) (c10 r) (c11 r) (- px g) 0 0 1.
(** se2.py:318-332; Point2.compose is vector addition *)
Definition se2_compose (g h : SE2) : SE2 :=
  let rotation_1 := se2_rotation g in
  let rotation_2 := se2_rotation h in
  se2_of (so2_compose rotation_1 rotation_2)
         (add2 (se2_translation g) (so2_rotate rotation_1 (se2_translation h))).
(** se2.py:334-339 *)
Definition se2_inverse (g : SE2) : SE2 :=
  let ir := so2_inverse (se2_rotation g) in
  se2_of ir (so2_rotate ir (mkV2 (- px g) (- py g))).
(** se2.py:367-372 *)
Definition se2_to_matrix (g : SE2) : M3 :=
  let r := so2_to_matrix (se2_rotation g) in
  mkM3 (c00 r) (c01 r) (px g) (c10 r) (c11 r) (py g) 0 0 1.
(** se2.py:375-382, 385-397 (vee without its check) *)
Definition se2_hat (v : V3) : M3 := mkM3 0 (- b2 v) (b0 v) (b2 v) 0 (b1 v) 0 0 0.
Definition se2_vee (m : M3) : V3 := mkV3 (d02 m) (d12 m) (d10 m).
(** se2.py:399-432: transform_to and its Jacobians *)
Definition se2_transform_to (g : SE2) (p : V2) : V2 :=
  rotate_from_cos_sin (mkV2 (a0 p - px g) (a1 p - py g)) (pc g) (- ps g).
Definition se2_transform_to_Jg (g : SE2) (p : V2) : M23 :=
  let ret := se2_transform_to g p in mkM23 (-1) 0 (a1 ret) 0 (-1) (- a0 ret).
Definition se2_transform_to_Jpnt (g : SE2) : M2 := mkM2 (pc g) (ps g) (- ps g) (pc g).
(** se2.py:434-465: transform_from and its Jacobians *)
Definition se2_transform_from (g : SE2) (p : V2) : V2 :=
  let temp := rotate_from_cos_sin p (pc g) (ps g) in
  mkV2 (a0 temp + px g) (a1 temp + py g).
Definition se2_transform_from_Jg (g : SE2) (p : V2) : M23 :=
  let temp := rotate_from_cos_sin p (pc g) (ps g) in
  mkM23 (pc g) (- ps g) (- a1 temp) (ps g) (pc g) (a0 temp).
Definition se2_transform_from_Jpnt (g : SE2) : M2 := mkM2 (pc g) (- ps g) (ps g) (pc g).
(** se2.py:143-150 (xy), 130-136 (theta): value and Jacobian *)
Definition se2_xy (g : SE2) : V2 := mkV2 (px g) (py g).
Definition se2_xy_jac (g : SE2) : M23 :=
  let r := so2_to_matrix (se2_rotation g) in mkM23 (c00 r) (c01 r) 0 (c10 r) (c11 r) 0.
Definition se2_theta (g : SE2) : R := so2_log_map (se2_rotation g).
Definition se2_theta_jac (g : SE2) : V3 := mkV3 0 0 1.
(** se2.py:303-307 *)
Definition se2_normalize (d : dtype) (x y : R) (t : V2) : option SE2 :=
  do r <- so2_normalize d t; Some (mkSE2 x y (a0 r) (a1 r)).
(** se2.py:341-365 (_project_impl, one gradient row) *)
Definition se2_project (g : SE2) (gxy gcs : V2) : V3 :=
  mkV3 (a0 gxy * pc g + a1 gxy * ps g)
       (a0 gxy * - ps g + a1 gxy * pc g)
       (a0 gcs * - ps g + a1 gcs * pc g).

(** ** lie_group.py, instantiated *)
(** lie_group.py:162-174 (_compose_jacobian), 177-178 (_inverse_jacobian) *)
Definition so2_compose_jac (g h : SO2) : R * R := (so2_adjoint (so2_inverse h), 1).
Definition so2_inverse_jac (g : SO2) : R := - so2_adjoint g.
Definition se2_compose_jac (g h : SE2) : M3 * M3 := (se2_adjoint (se2_inverse h), I3).
Definition se2_inverse_jac (g : SE2) : M3 := opp_m3 (se2_adjoint g).
(** lie_group.py:125-136 (between) *)
Definition so2_between (g h : SO2) : SO2 := so2_compose (so2_inverse g) h.
Definition so2_between_jac (g h : SO2) : R * R :=
  let '(J0, J1) := so2_compose_jac (so2_inverse g) h in (J0 * so2_inverse_jac g, J1).
Definition se2_between (g h : SE2) : SE2 := se2_compose (se2_inverse g) h.
Definition se2_between_jac (g h : SE2) : M3 * M3 :=
  let '(J0, J1) := se2_compose_jac (se2_inverse g) h in (mul3 J0 (se2_inverse_jac g), J1).
(** lie_group.py:180-195 (_local_impl) *)
Definition so2_local (g h : SO2) : R := so2_log_map (so2_between g h).
Definition so2_local_jac (g h : SO2) : R * R :=
  let diff := so2_between g h in
  let dlog := so2_log_map_jac diff in (- so2_adjoint (so2_inverse diff) * dlog, dlog).
Definition se2_local (d : dtype) (g h : SE2) : option V3 := se2_log_map d (se2_between g h).
Definition se2_local_jac (d : dtype) (g h : SE2) : option (M3 * M3) :=
  let diff := se2_between g h in
  do dlog <- se2_log_map_jac d diff;
  Some (mul3 (opp_m3 (se2_adjoint (se2_inverse diff))) dlog, dlog).
(** lie_group.py:197-198 (_retract_impl) *)
Definition so2_retract (g : SO2) (v : R) : SO2 := so2_compose g (so2_exp_map v).
Definition se2_retract (d : dtype) (g : SE2) (v : V3) : option SE2 :=
  do e <- se2_exp_map d v; Some (se2_compose g e).
