(** Model of torchlie/torchlie/functional/so3_impl.py, of the parts of
    torchlie/torchlie/functional/lie_group.py it uses, and of
    theseus/geometry/so3.py, for one batch element (the code applies the same
    formulas to every element of the batch).  Real arithmetic replaces floating
    point; a division by zero (inf or nan in torch) is [None]. *)
From Coq Require Import Reals Lra.
From Verif Require Import Geo_spec Geo3_spec SE2_model.
Local Open Scope R_scope.

(** torchlie/torchlie/global_params.py:44-58 (_TorchLieGlobalParams.reset) *)
Definition so3_near_pi_eps (d : dtype) : R := match d with F32 => / 10 ^ 2 | F64 => / 10 ^ 7 end.
Definition so3_near_zero_eps (d : dtype) : R := match d with F32 => / 10 ^ 2 | F64 => 5 / 10 ^ 3 end.
Definition so3_d_near_zero_eps (d : dtype) : R := match d with F32 => 2 / 10 | F64 => / 10 ^ 2 end.
Definition so3_matrix_eps (d : dtype) : R := match d with F32 => 4 / 10 ^ 4 | F64 => / 10 ^ 6 end.
Definition so3_quat_eps (d : dtype) : R := match d with F32 => 2 / 10 ^ 4 | F64 => 5 / 10 ^ 7 end.
Definition so3_hat_eps (d : dtype) : R := match d with F32 => 5 / 10 ^ 6 | F64 => 5 / 10 ^ 7 end.
(** theseus/global_params.py:52,58 *)
Definition so3_to_quaternion_sqrt_eps (d : dtype) : R := / 10 ^ 6.

(** torch comparison a <= b *)
Definition le_b (a b : R) : bool := if Rle_dec a b then true else false.
(** torch.linalg.norm of a 3-vector *)
Definition norm3 (v : V3) : R := sqrt (b0 v * b0 v + b1 v * b1 v + b2 v * b2 v).
(** torchlie/torchlie/functional/constants.py:18 *)
Definition NON_ZERO : R := 1.

(** so3_impl.py:587-600 (_hat_impl), 940-950 (_lift_impl): the same entries *)
Definition so3_hat (v : V3) : M3 := mkM3
  0 (- b2 v) (b1 v)
  (b2 v) 0 (- b0 v)
  (- b1 v) (b0 v) 0.
Definition so3_lift (v : V3) : M3 := so3_hat v.
(** so3_impl.py:633-642 (_vee_impl, without its check) *)
Definition so3_vee (m : M3) : V3 := mkV3
  ((1 / 2) * (d21 m - d12 m)) ((1 / 2) * (d02 m - d20 m)) ((1 / 2) * (d10 m - d01 m)).
(** so3_impl.py:977-986 (_project_impl); the same entries in 342-349, 616-623, 922-929 *)
Definition so3_project (m : M3) : V3 := mkV3 (d21 m - d12 m) (d02 m - d20 m) (d10 m - d01 m).

(** so3_impl.py:220-235, 251-260: what _exp_impl_helper returns beside the rotation *)
Record ExpAux := mkAux { x_theta : R; x_theta2 : R; x_theta_nz : R; x_theta2_nz : R;
                         x_sine : R; x_cosine : R; x_sbt : R; x_omc : R }.
Definition so3_exp_aux (d : dtype) (v : V3) : option ExpAux :=
  let theta := norm3 v in
  let theta2 := theta ^ 2 in
  let near_zero := lt_b theta (so3_near_zero_eps d) in
  let theta_nz := where_ near_zero NON_ZERO theta in
  let theta2_nz := where_ near_zero NON_ZERO theta2 in
  do q1 <- div_ 8 (4 + theta2);
  let cosine := where_ near_zero (q1 - 1) (cos theta) in
  let sine := sin theta in
  do q2 <- div_ sine theta_nz;
  let sine_by_theta := where_ near_zero ((1 / 2) * cosine + 1 / 2) q2 in
  do q3 <- div_ (1 - cosine) theta2_nz;
  let one_minus_cosine_by_theta2 := where_ near_zero ((1 / 2) * sine_by_theta) q3 in
  Some (mkAux theta theta2 theta_nz theta2_nz sine cosine sine_by_theta one_minus_cosine_by_theta2).
(** so3_impl.py:237-250: the rotation assembled from those numbers *)
Definition so3_exp_mat (x : ExpAux) (v : V3) : M3 :=
  let ret i j := x_omc x * i * j in
  let s0 := x_sbt x * b0 v in let s1 := x_sbt x * b1 v in let s2 := x_sbt x * b2 v in
  mkM3
    (ret (b0 v) (b0 v) + x_cosine x) (ret (b0 v) (b1 v) - s2) (ret (b0 v) (b2 v) + s1)
    (ret (b1 v) (b0 v) + s2) (ret (b1 v) (b1 v) + x_cosine x) (ret (b1 v) (b2 v) - s0)
    (ret (b2 v) (b0 v) - s1) (ret (b2 v) (b1 v) + s0) (ret (b2 v) (b2 v) + x_cosine x).
(** so3_impl.py:264-267 (_exp_impl) *)
Definition so3_exp (d : dtype) (v : V3) : option M3 :=
  do x <- so3_exp_aux d v; Some (so3_exp_mat x v).

(** so3_impl.py:270-290 (_jexp_impl_helper) *)
Definition so3_jexp_mat (v : V3) (sbt omc tms : R) : M3 :=
  let jac i j := tms * (i * j) in
  let t0 := omc * b0 v in let t1 := omc * b1 v in let t2 := omc * b2 v in
  mkM3
    (jac (b0 v) (b0 v) + sbt) (jac (b0 v) (b1 v) + t2) (jac (b0 v) (b2 v) - t1)
    (jac (b1 v) (b0 v) - t2) (jac (b1 v) (b1 v) + sbt) (jac (b1 v) (b2 v) + t0)
    (jac (b2 v) (b0 v) + t1) (jac (b2 v) (b1 v) - t0) (jac (b2 v) (b2 v) + sbt).
(** so3_impl.py:293-320 (_jexp_impl): the Jacobian *)
Definition so3_jexp (d : dtype) (v : V3) : option M3 :=
  do x <- so3_exp_aux d v;
  let near_zero := lt_b (x_theta x) (so3_near_zero_eps d) in
  let theta3_nz := x_theta_nz x * x_theta2_nz x in
  do q <- div_ (x_theta x - x_sine x) theta3_nz;
  let theta_minus_sine_by_theta3 := where_ near_zero 0 q in
  Some (so3_jexp_mat v (x_sbt x) (x_omc x) theta_minus_sine_by_theta3).
(** so3_impl.py:336-350 (Exp.backward); [group] is the saved output *)
Definition so3_exp_backward (d : dtype) (v : V3) (group grad : M3) : option V3 :=
  do jac <- so3_jexp d v;
  let dR := mul3 (tr3 group) grad in
  Some (app3 (tr3 jac) (so3_project dR)).

(** so3_impl.py:366-384 (_sine_axis_fn: all of its variants compute these) *)
Definition so3_sine_axis (g : M3) : V3 := mkV3
  ((1 / 2) * (d21 g - d12 g)) ((1 / 2) * (d02 g - d20 g)) ((1 / 2) * (d10 g - d01 g)).
(** row i, column i and entry i, for an index i computed as 0, 1 or 2 *)
Definition row3 (i : nat) (g : M3) : V3 :=
  match i with O => mkV3 (d00 g) (d01 g) (d02 g) | 1%nat => mkV3 (d10 g) (d11 g) (d12 g)
             | _ => mkV3 (d20 g) (d21 g) (d22 g) end.
Definition col3 (i : nat) (g : M3) : V3 := row3 i (tr3 g).
Definition nth3 (i : nat) (v : V3) : R := match i with O => b0 v | 1%nat => b1 v | _ => b2 v end.
(** v[i] -= x *)
Definition sub_at (i : nat) (v : V3) (x : R) : V3 :=
  match i with O => mkV3 (b0 v - x) (b1 v) (b2 v) | 1%nat => mkV3 (b0 v) (b1 v - x) (b2 v)
             | _ => mkV3 (b0 v) (b1 v) (b2 v - x) end.
(** so3_impl.py:412-417; theseus/geometry/so3.py:212-214 *)
Definition so3_major (g : M3) : nat :=
  let one := andb (lt_b (d00 g) (d11 g)) (lt_b (d22 g) (d11 g)) in
  let two := andb (lt_b (d00 g) (d22 g)) (lt_b (d11 g) (d22 g)) in
  ((if one then 1 else 0) + 2 * (if two then 1 else 0))%nat.
(** so3_impl.py:420-421; theseus/geometry/so3.py:215-218 *)
Definition so3_sel_rows (g : M3) (cosine : R) : V3 :=
  let major := so3_major g in
  sub_at major (scal3 (1 / 2) (add3 (row3 major g) (col3 major g))) cosine.
(** torch.sign *)
Definition sign_ (x : R) : R := if Rlt_dec 0 x then 1 else if Rlt_dec x 0 then -1 else 0.
Definition div3_ (v : V3) (x : R) : option V3 :=
  do q0 <- div_ (b0 v) x; do q1 <- div_ (b1 v) x; do q2 <- div_ (b2 v) x; Some (mkV3 q0 q1 q2).

(** so3_impl.py:392-395: sine, cosine, theta *)
Definition so3_cosine (g : M3) : R := (1 / 2) * (d00 g + d11 g + d22 g - 1).
Definition so3_sine (g : M3) : R := norm3 (so3_sine_axis g).
Definition so3_theta (g : M3) : R := atan2 (so3_sine g) (so3_cosine g).
(** so3_impl.py:390-433 (_log_impl_helper) *)
Definition so3_log (d : dtype) (g : M3) : option V3 :=
  let sine_axis := so3_sine_axis g in
  let cosine := so3_cosine g in
  let sine := so3_sine g in
  let theta := so3_theta g in
  let near_zero := lt_b theta (so3_near_zero_eps d) in
  let near_pi := le_b (1 + cosine) (so3_near_pi_eps d) in
  let near_zero_or_near_pi := orb near_zero near_pi in
  let sine_nz := where_ near_zero_or_near_pi NON_ZERO sine in
  let ret := do q <- div_ theta sine_nz;
             let scale := where_ near_zero_or_near_pi (1 + sine ^ 2 / 6) q in
             Some (mkV3 (b0 sine_axis * scale) (b1 sine_axis * scale) (b2 sine_axis * scale)) in
  let sel_rows := so3_sel_rows g cosine in
  let axis := div3_ sel_rows (where_ near_zero NON_ZERO (norm3 sel_rows)) in
  let sign_tmp := sign_ (nth3 (so3_major g) sine_axis) in
  let sign := if Req_EM_T sign_tmp 0 then 1 else sign_tmp in
  where_ near_pi (do a <- axis; Some (scal3 (theta * sign) a)) ret.

(** so3_impl.py:442-463 (_jlog_impl_helper): the coefficients a and b *)
Definition so3_jlog_coefs (d : dtype) (theta sine cosine : R) : option (R * R) :=
  let d_near_zero := lt_b theta (so3_d_near_zero_eps d) in
  let theta2 := theta ^ 2 in
  let sine_theta := sine * theta in
  let two_cosine_minus_two := 2 * cosine - 2 in
  let two_cosine_minus_two_nz := where_ d_near_zero NON_ZERO two_cosine_minus_two in
  let theta2_nz := where_ d_near_zero NON_ZERO theta2 in
  do q1 <- div_ (- sine_theta) two_cosine_minus_two_nz;
  let a := where_ d_near_zero (1 - theta2 / 12) q1 in
  do q2 <- div_ (sine_theta + two_cosine_minus_two) (theta2_nz * two_cosine_minus_two_nz);
  let b := where_ d_near_zero (1 / 12 + theta2 / 720) q2 in
  Some (a, b).
(** so3_impl.py:465-479: the matrix assembled from them *)
Definition so3_jlog_mat (v : V3) (a b : R) : M3 :=
  let bv := scal3 b v in
  let h := scal3 (1 / 2) v in
  mkM3
    (b0 bv * b0 v + a) (b0 bv * b1 v - b2 h) (b0 bv * b2 v + b1 h)
    (b1 bv * b0 v + b2 h) (b1 bv * b1 v + a) (b1 bv * b2 v - b0 h)
    (b2 bv * b0 v - b1 h) (b2 bv * b1 v + b0 h) (b2 bv * b2 v + a).
(** so3_impl.py:482-486 (_jlog_impl): the Jacobian *)
Definition so3_jlog (d : dtype) (g : M3) : option M3 :=
  do v <- so3_log d g;
  do ab <- so3_jlog_coefs d (so3_theta g) (so3_sine g) (so3_cosine g);
  Some (so3_jlog_mat v (fst ab) (snd ab)).
(** so3_impl.py:489-496 (_log_backward) *)
Definition so3_log_backward (g jacobian : M3) (grad : V3) : M3 :=
  let half := mkM3
    ((1 / 2) * d00 jacobian) ((1 / 2) * d01 jacobian) ((1 / 2) * d02 jacobian)
    ((1 / 2) * d10 jacobian) ((1 / 2) * d11 jacobian) ((1 / 2) * d12 jacobian)
    ((1 / 2) * d20 jacobian) ((1 / 2) * d21 jacobian) ((1 / 2) * d22 jacobian) in
  mul3 g (so3_lift (app3 (tr3 half) grad)).

(** so3_impl.py:534-536 (_adjoint_impl) and Adjoint.backward 550-552 *)
Definition so3_adjoint (g : M3) : M3 := g.
Definition so3_adjoint_backward (grad : M3) : M3 := grad.
(** so3_impl.py:561-563 (_inverse_impl), Inverse.backward 576-578; theseus/geometry/so3.py:184-187 *)
Definition so3_inverse (g : M3) : M3 := tr3 g.
Definition so3_inverse_backward (grad : M3) : M3 := tr3 grad.
(** torchlie lie_group.py:29-33 (JInverseImplFactory); theseus lie_group.py:177-178 *)
Definition so3_inverse_jac (g : M3) : M3 := opp_m3 (so3_adjoint g).
(** Hat.backward so3_impl.py:614-623, Vee.backward 657-659 *)
Definition so3_hat_backward (grad : M3) : V3 := so3_project grad.
Definition so3_vee_backward (grad : V3) : M3 :=
  let h := so3_hat grad in mkM3
    ((1 / 2) * d00 h) ((1 / 2) * d01 h) ((1 / 2) * d02 h)
    ((1 / 2) * d10 h) ((1 / 2) * d11 h) ((1 / 2) * d12 h)
    ((1 / 2) * d20 h) ((1 / 2) * d21 h) ((1 / 2) * d22 h).

(** so3_impl.py:669-672 (_compose_impl) *)
Definition so3_compose (g h : M3) : M3 := mul3 g h.
(** so3_impl.py:675-685 (_jcompose_impl) *)
Definition so3_compose_jac (g h : M3) : M3 * M3 := (tr3 h, I3).
(** theseus/geometry/lie_group.py:162-174 (_compose_jacobian) *)
Definition so3_compose_jac_theseus (g h : M3) : M3 * M3 := (so3_adjoint (so3_inverse h), I3).
(** Compose.backward so3_impl.py:702-707 *)
Definition so3_compose_backward (g h grad : M3) : M3 * M3 :=
  (mul3 grad (tr3 h), mul3 (tr3 g) grad).

(** so3_impl.py:717-721 (_transform_impl), 724-735 (_jtransform_impl) *)
Definition so3_transform (g : M3) (p : V3) : V3 := app3 g p.
Definition so3_transform_jac (g : M3) (p : V3) : M3 * M3 := (mul3 (opp_m3 g) (so3_hat p), g).
(** a column times a row *)
Definition outer (u v : V3) : M3 := mkM3
  (b0 u * b0 v) (b0 u * b1 v) (b0 u * b2 v)
  (b1 u * b0 v) (b1 u * b1 v) (b1 u * b2 v)
  (b2 u * b0 v) (b2 u * b1 v) (b2 u * b2 v).
(** TransformFrom.backward so3_impl.py:752-759 *)
Definition so3_transform_backward (g : M3) (p grad : V3) : M3 * V3 :=
  (outer grad p, app3 (tr3 g) grad).
(** so3_impl.py:769-773 (_untransform_impl), 776-787 (_juntransform_impl) *)
Definition so3_untransform (g : M3) (p : V3) : V3 := app3 (tr3 g) p.
Definition so3_untransform_jac (g : M3) (p : V3) : M3 * M3 :=
  (so3_hat (so3_untransform g p), tr3 g).
(** Untransform.backward so3_impl.py:804-811 *)
Definition so3_untransform_backward (g : M3) (p grad : V3) : M3 * V3 :=
  (outer p grad, app3 g grad).

(** so3_impl.py: Lift.backward 965-967, Project.backward 1001-1003 *)
Definition so3_lift_backward (grad : M3) : V3 := so3_project grad.
Definition so3_project_backward (grad : V3) : M3 := so3_lift grad.
(** so3_impl.py:1013-1027 (_left_act_impl) with tensors of shape 3x3 (dim_out = 0)
    and torchlie lie_group.py:36-48 (LeftProjectImplFactory) *)
Definition so3_left_act (g m : M3) : M3 := mul3 g m.
Definition so3_left_project (g m : M3) : V3 := so3_project (so3_left_act (so3_inverse g) m).
(** theseus/geometry/so3.py:102-114 (_project_impl, dense): temp = (grad^T g)^T *)
Definition so3_project_impl (g grad : M3) : V3 :=
  let temp := mkM3
    (d00 grad * d00 g + d10 grad * d10 g + d20 grad * d20 g)
    (d01 grad * d00 g + d11 grad * d10 g + d21 grad * d20 g)
    (d02 grad * d00 g + d12 grad * d10 g + d22 grad * d20 g)
    (d00 grad * d01 g + d10 grad * d11 g + d20 grad * d21 g)
    (d01 grad * d01 g + d11 grad * d11 g + d21 grad * d21 g)
    (d02 grad * d01 g + d12 grad * d11 g + d22 grad * d21 g)
    (d00 grad * d02 g + d10 grad * d12 g + d20 grad * d22 g)
    (d01 grad * d02 g + d11 grad * d12 g + d21 grad * d22 g)
    (d02 grad * d02 g + d12 grad * d12 g + d22 grad * d22 g) in
  so3_project temp.

(** so3_impl.py:821-852 (_quaternion_to_rotation_impl); the same body in 862-890 *)
Definition so3_quat_norm (q : Quat) : R := sqrt (qw q * qw q + qx q * qx q + qy q * qy q + qz q * qz q).
Definition so3_quat_normalized (q : Quat) : option Quat :=
  let n := so3_quat_norm q in
  do w <- div_ (qw q) n; do x <- div_ (qx q) n; do y <- div_ (qy q) n; do z <- div_ (qz q) n;
  Some (mkQ w x y z).
Definition so3_quat_mat (q : Quat) : M3 :=
  let w := qw q in let x := qx q in let y := qy q in let z := qz q in
  let q00 := w * w in let q01 := w * x in let q02 := w * y in let q03 := w * z in
  let q11 := x * x in let q12 := x * y in let q13 := x * z in
  let q22 := y * y in let q23 := y * z in let q33 := z * z in
  mkM3 (q00 + q11 - q22 - q33) (2 * (q12 - q03)) (2 * (q13 + q02))
       (2 * (q12 + q03)) (q00 - q11 + q22 - q33) (2 * (q23 - q01))
       (2 * (q13 - q02)) (2 * (q23 + q01)) (q00 - q11 - q22 + q33).
Definition so3_quaternion_to_rotation (q : Quat) : option M3 :=
  do u <- so3_quat_normalized q; Some (so3_quat_mat u).
(** so3_impl.py:892-898: the 3x4 Jacobian, as its first column and its last three *)
Definition so3_jquaternion_to_rotation (q : Quat) : option (V3 * M3) :=
  do u <- so3_quat_normalized q;
  let n := so3_quat_norm q in
  do t0 <- div_ (-2 * qw u) n; do t1 <- div_ (-2 * qx u) n;
  do t2 <- div_ (-2 * qy u) n; do t3 <- div_ (-2 * qz u) n;
  let t := mkV3 t1 t2 t3 in
  let h := so3_hat t in
  Some (t, mkM3 (- t0) (d01 h) (d02 h) (d10 h) (- t0) (d12 h) (d20 h) (d21 h) (- t0)).

(** theseus/geometry/so3.py:193-236 (to_quaternion) *)
Definition clamp (x lo hi : R) : R := Rmin (Rmax x lo) hi.
Definition so3_to_quaternion (d : dtype) (g : M3) : option Quat :=
  let sine_axis := so3_sine_axis g in
  let w := (1 / 2) * sqrt (clamp (1 + d00 g + d11 g + d22 g) 0 4) in
  let near_zero := lt_b (1 - so3_near_zero_eps d) w in
  let near_pi := le_b w (so3_near_pi_eps d) in
  let ret := div3_ (scal3 (1 / 2) sine_axis) (where_ near_pi 1 w) in
  let cosine_near_pi := (1 / 2) * (d00 g + d11 g + d22 g - 1) in
  let sel_rows := so3_sel_rows g cosine_near_pi in
  let sgn := if Rle_dec 0 (nth3 (so3_major g) sine_axis) then 1 else -1 in
  let axis := do a <- div3_ sel_rows (where_ near_zero 1 (norm3 sel_rows)); Some (scal3 sgn a) in
  let sine_half_theta :=
    sqrt (clamp ((1 / 2) * (1 - cosine_near_pi)) (so3_to_quaternion_sqrt_eps d) 1) in
  do xyz <- where_ near_pi (do a <- axis; Some (scal3 sine_half_theta a)) ret;
  Some (mkQ w (b0 xyz) (b1 xyz) (b2 xyz)).

(** so3_impl.py:1133-1141 (_normalize_impl_helper) on the factors torch.svd
    returns: u and v are orthogonal and the tensor is u diag(s) v^T *)
Definition so3_normalize_from_svd (u v : M3) : M3 :=
  let sign := det3 (mul3 u v) in
  let vt := tr3 (mkM3
    (d00 v) (d01 v) (where_ (lt_b 0 sign) (d02 v) (- d02 v))
    (d10 v) (d11 v) (where_ (lt_b 0 sign) (d12 v) (- d12 v))
    (d20 v) (d21 v) (where_ (lt_b 0 sign) (d22 v) (- d22 v))) in
  mul3 u vt.

(** so3_impl.py:30-47 (check_group_tensor, with torchlie checks enabled) *)
Definition so3_check_group (d : dtype) (g : M3) : Prop :=
  let e := so3_matrix_eps d in
  let p := sub_m3 (mul3 g (tr3 g)) I3 in
  (Rabs (d00 p) < e /\ Rabs (d01 p) < e /\ Rabs (d02 p) < e
   /\ Rabs (d10 p) < e /\ Rabs (d11 p) < e /\ Rabs (d12 p) < e
   /\ Rabs (d20 p) < e /\ Rabs (d21 p) < e /\ Rabs (d22 p) < e)
  /\ Rabs (det3 g - 1) < e.
(** so3_impl.py:68-82 (check_hat_tensor, with torchlie checks enabled) *)
Definition so3_check_hat (d : dtype) (m : M3) : Prop :=
  let e := so3_hat_eps d in
  Rabs (d00 m + d00 m) <= e /\ Rabs (d10 m + d01 m) <= e /\ Rabs (d20 m + d02 m) <= e
  /\ Rabs (d11 m + d11 m) <= e /\ Rabs (d21 m + d12 m) <= e /\ Rabs (d22 m + d22 m) <= e.

(** theseus/geometry/lie_group.py:125-137, 180-199 for SO3: between, local and
    retract with the Jacobians between and local append *)
Definition so3_between (g h : M3) : M3 := so3_compose (so3_inverse g) h.
Definition so3_between_jac (g h : M3) : M3 * M3 :=
  let '(j0, j1) := so3_compose_jac_theseus (so3_inverse g) h in
  (mul3 j0 (so3_inverse_jac g), j1).
Definition so3_retract (d : dtype) (g : M3) (delta : V3) : option M3 :=
  do e <- so3_exp d delta; Some (so3_compose g e).
Definition so3_local (d : dtype) (g h : M3) : option V3 := so3_log d (so3_between g h).
Definition so3_local_jac (d : dtype) (g h : M3) : option (M3 * M3) :=
  let diff := so3_between g h in
  do dlog <- so3_jlog d diff;
  Some (mul3 (opp_m3 (so3_adjoint (so3_inverse diff))) dlog, dlog).

(** so3_impl.py:1148-1190 (_normalize_backward_helper, with torch.where(F == 0,
    inf, F).pow(-1) = 0 where F is 0).  [sign] is the determinant saved by the
    forward pass. *)
Definition skew3_ (m : M3) : M3 := sub_m3 m (tr3 m).
Definition had3 (m n : M3) : M3 := mkM3
  (d00 m * d00 n) (d01 m * d01 n) (d02 m * d02 n)
  (d10 m * d10 n) (d11 m * d11 n) (d12 m * d12 n)
  (d20 m * d20 n) (d21 m * d21 n) (d22 m * d22 n).
Definition scale_last_col (m : M3) (x : R) : M3 := mkM3
  (d00 m) (d01 m) (d02 m * x) (d10 m) (d11 m) (d12 m * x) (d20 m) (d21 m) (d22 m * x).
Definition inv_or_0 (x : R) : R := if Req_EM_T x 0 then 0 else / x.
Definition so3_normalize_F (s : V3) : M3 :=
  let q0 := b0 s ^ 2 in let q1 := b1 s ^ 2 in let q2 := b2 s ^ 2 in
  mkM3 (inv_or_0 (q0 - q0)) (inv_or_0 (q1 - q0)) (inv_or_0 (q2 - q0))
       (inv_or_0 (q0 - q1)) (inv_or_0 (q1 - q1)) (inv_or_0 (q2 - q1))
       (inv_or_0 (q0 - q2)) (inv_or_0 (q1 - q2)) (inv_or_0 (q2 - q2)).
(** columns (rows) of m multiplied by the entries of s *)
Definition mul_cols (m : M3) (s : V3) : M3 := mkM3
  (d00 m * b0 s) (d01 m * b1 s) (d02 m * b2 s)
  (d10 m * b0 s) (d11 m * b1 s) (d12 m * b2 s)
  (d20 m * b0 s) (d21 m * b1 s) (d22 m * b2 s).
Definition mul_rows (s : V3) (m : M3) : M3 := mkM3
  (b0 s * d00 m) (b0 s * d01 m) (b0 s * d02 m)
  (b1 s * d10 m) (b1 s * d11 m) (b1 s * d12 m)
  (b2 s * d20 m) (b2 s * d21 m) (b2 s * d22 m).
Definition plus_m3 (m n : M3) : M3 := mkM3
  (d00 m + d00 n) (d01 m + d01 n) (d02 m + d02 n)
  (d10 m + d10 n) (d11 m + d11 n) (d12 m + d12 n)
  (d20 m + d20 n) (d21 m + d21 n) (d22 m + d22 n).
Definition so3_normalize_backward (u : M3) (s : V3) (v : M3) (sign : R) (grad : M3) : M3 :=
  let grad_u := mul3 grad (scale_last_col v sign) in
  let grad_v := mul3 (tr3 grad) (scale_last_col u sign) in
  let F := so3_normalize_F s in
  let u_term := mul3 u (had3 F (skew3_ (mul3 (tr3 u) grad_u))) in
  let u_term := mul3 (mul_cols u_term s) (tr3 v) in
  let v_term := mul3 (had3 F (skew3_ (mul3 (tr3 v) grad_v))) (tr3 v) in
  let v_term := mul3 u (mul_rows s v_term) in
  plus_m3 u_term v_term.
