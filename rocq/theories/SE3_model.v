(** Model of torchlie/torchlie/functional/se3_impl.py, of the parts of
    torchlie/torchlie/functional/lie_group.py it uses, and of
    theseus/geometry/se3.py, for one batch element (the code applies the same
    formulas to every element of the batch).  Real arithmetic replaces floating
    point; a division by zero (inf or nan in torch) is [None]. *)
From Coq Require Import Reals Lra.
From Verif Require Import Geo_spec Geo3_spec Geo4_spec SE2_model SO3_model.
Local Open Scope R_scope.

(** torch.cross, the product of a row and a column, and the difference of 3-vectors *)
Definition cross_ (u v : V3) : V3 := mkV3
  (b1 u * b2 v - b2 u * b1 v) (b2 u * b0 v - b0 u * b2 v) (b0 u * b1 v - b1 u * b0 v).
Definition dot_ (u v : V3) : R := b0 u * b0 v + b1 u * b1 v + b2 u * b2 v.
Definition minus3 (u v : V3) : V3 := mkV3 (b0 u - b0 v) (b1 u - b1 v) (b2 u - b2 v).

(** se3_impl.py:172-216 (_exp_impl_helper): the motion, and
    theta_minus_sine_by_theta3_t *)
Definition se3_exp_tms (d : dtype) (x : ExpAux) : option R :=
  let near_zero := lt_b (x_theta x) (so3_near_zero_eps d) in
  let theta3_nz := x_theta_nz x * x_theta2_nz x in
  do q <- div_ (x_theta x - x_sine x) theta3_nz;
  Some (where_ near_zero (1 / 6 - x_theta2 x / 120) q).
Definition se3_exp_mat (x : ExpAux) (tms : R) (v : Tw) : Rig :=
  let w := ang v in
  let t := scal3 (x_sbt x) (lin v) in
  let t := add3 t (scal3 (x_omc x) (cross_ w (lin v))) in
  let t := add3 t (scal3 tms (scal3 (dot_ w (lin v)) w)) in
  mkRig (so3_exp_mat x w) t.
Definition se3_exp (d : dtype) (v : Tw) : option Rig :=
  do x <- so3_exp_aux d (ang v);
  do tms <- se3_exp_tms d x;
  Some (se3_exp_mat x tms v).

(** torchlie/torchlie/functional/constants.py:21-23 *)
Definition NEAR_ZERO_D_ONE_MINUS_COSINE_BY_THETA2 : R := - 1 / 12.
Definition NEAR_ZERO_D_THETA_MINUS_SINE_BY_THETA3 : R := - 1 / 60.
(** diagonal(m) += x, in place *)
Definition add_diag (m : M3) (x : R) : M3 := mkM3
  (d00 m + x) (d01 m) (d02 m) (d10 m) (d11 m + x) (d12 m) (d20 m) (d21 m) (d22 m + x).
(** se3_impl.py:263-277: jac_temp_t *)
Definition se3_jexp_temp (v w : V3) (omc tms domc dtms : R) : M3 :=
  let wv := cross_ w v in
  let wwv := cross_ w wv in
  let sw := scal3 tms w in
  let t := outer (add3 (scal3 domc wv) (scal3 dtms wwv)) w in
  let t := sub_m3 t (outer v sw) in
  let jac_temp_v := minus3 (scal3 (- omc) v) (scal3 tms wv) in
  let t := plus_m3 t (so3_hat jac_temp_v) in
  add_diag t (dot_ sw v).
(** se3_impl.py:225-310 (_jexp_impl_helper, _jexp_impl): the Jacobian *)
Definition se3_jexp (d : dtype) (v : Tw) : option M66 :=
  do x <- so3_exp_aux d (ang v);
  do tms <- se3_exp_tms d x;
  let near_zero := lt_b (x_theta x) (so3_near_zero_eps d) in
  let tms_rot := where_ near_zero 0 tms in
  let rot := so3_exp_mat x (ang v) in
  let j := so3_jexp_mat (ang v) (x_sbt x) (x_omc x) tms_rot in
  do q1 <- div_ (x_sbt x - 2 * x_omc x) (x_theta2_nz x);
  let domc := where_ near_zero NEAR_ZERO_D_ONE_MINUS_COSINE_BY_THETA2 q1 in
  do q2 <- div_ (x_omc x - 3 * tms) (x_theta2_nz x);
  let dtms := where_ near_zero NEAR_ZERO_D_THETA_MINUS_SINE_BY_THETA3 q2 in
  let temp := se3_jexp_temp (lin v) (ang v) (x_omc x) tms domc dtms in
  Some (mkM66 j (mul3 (tr3 rot) temp) mzero j).
(** se3_impl.py:911-923 (_project_impl); the same entries in 334-343, 637-649 *)
Definition se3_project (m : Rig) : Tw := mkTw (rp m) (so3_project (rr m)).
(** se3_impl.py:326-346 (Exp.backward); [group] is the saved output *)
Definition se3_exp_backward (d : dtype) (v : Tw) (group grad : Rig) : option Tw :=
  do jacs <- se3_jexp d v;
  let dg := mkRig (mul3 (tr3 (rr group)) (rr grad)) (app3 (tr3 (rr group)) (rp grad)) in
  Some (app66 (tr66 jacs) (se3_project dg)).

(** se3_impl.py:354-396 (_log_impl_helper): a, b, and the two parts of the result *)
Definition se3_log_coefs (d : dtype) (theta sine cosine : R) : option (R * R) :=
  let near_zero := lt_b theta (so3_near_zero_eps d) in
  let theta2 := theta ^ 2 in
  let sine_theta := sine * theta in
  let two_cosine_minus_two := 2 * cosine - 2 in
  let two_cosine_minus_two_nz := where_ near_zero NON_ZERO two_cosine_minus_two in
  let theta2_nz := where_ near_zero NON_ZERO theta2 in
  do q1 <- div_ (- sine_theta) two_cosine_minus_two_nz;
  let a := where_ near_zero (1 - theta2 / 12) q1 in
  do q2 <- div_ (sine_theta + two_cosine_minus_two) (theta2_nz * two_cosine_minus_two_nz);
  let b := where_ near_zero (1 / 12 + theta2 / 720) q2 in
  Some (a, b).
Definition se3_log_lin (a b : R) (w p : V3) : V3 :=
  let t := scal3 a p in
  let t := minus3 t (scal3 (1 / 2) (cross_ w p)) in
  add3 t (scal3 b (scal3 (dot_ w p) w)).
Definition se3_log (d : dtype) (g : Rig) : option Tw :=
  do w <- so3_log d (rr g);
  do ab <- se3_log_coefs d (so3_theta (rr g)) (so3_sine (rr g)) (so3_cosine (rr g));
  Some (mkTw (se3_log_lin (fst ab) (snd ab) w (rp g)) w).

(** se3_impl.py:422-435 (_jlog_impl_helper): c and d *)
Definition se3_jlog_coefs (d : dtype) (theta sine cosine : R) : option (R * R) :=
  let d_near_zero := lt_b theta (so3_d_near_zero_eps d) in
  let near_zero := lt_b theta (so3_near_zero_eps d) in
  let theta2 := theta ^ 2 in
  let two_cosine_minus_two_nz := where_ near_zero NON_ZERO (2 * cosine - 2) in
  let theta2_nz := where_ near_zero NON_ZERO theta2 in
  let theta_nz := where_ d_near_zero NON_ZERO theta in
  let theta4_nz := theta2_nz ^ 2 in
  do q1 <- div_ (- (2 * two_cosine_minus_two_nz + theta * sine + theta2))
                (theta4_nz * two_cosine_minus_two_nz);
  let c := where_ d_near_zero (- 1 / 360 - theta2 / 7560) q1 in
  do q2 <- div_ (theta - sine) (theta_nz * two_cosine_minus_two_nz);
  let dd := where_ d_near_zero (- 1 / 6 - theta2 / 180) q2 in
  Some (c, dd).
(** se3_impl.py:437-455: the block of the linear part and the angle *)
Definition se3_jlog_la (l w : V3) (b c dd : R) : M3 :=
  let e := dot_ w l in
  let ce_w := scal3 (c * e) w in
  let bw := scal3 b w in
  let t := outer ce_w w in
  let t := plus_m3 t (plus_m3 (outer bw l) (outer l bw)) in
  let t := add_diag t (e * dd) in
  let h := scal3 (1 / 2) l in
  mkM3 (d00 t) (d01 t - b2 h) (d02 t + b1 h)
       (d10 t + b2 h) (d11 t) (d12 t - b0 h)
       (d20 t - b1 h) (d21 t + b0 h) (d22 t).
(** se3_impl.py:405-484 (_jlog_impl_helper, _jlog_impl): the Jacobian *)
Definition se3_jlog (d : dtype) (g : Rig) : option M66 :=
  do xi <- se3_log d g;
  let theta := so3_theta (rr g) in let sine := so3_sine (rr g) in let cosine := so3_cosine (rr g) in
  do ab <- so3_jlog_coefs d theta sine cosine;
  do cd <- se3_jlog_coefs d theta sine cosine;
  let j := so3_jlog_mat (ang xi) (fst ab) (snd ab) in
  Some (mkM66 j (se3_jlog_la (lin xi) (ang xi) (snd ab) (fst cd) (snd cd)) mzero j).
(** se3_impl.py:876-882 (_lift_impl) *)
Definition se3_lift (v : Tw) : Rig := mkRig (so3_lift (ang v)) (lin v).
(** se3_impl.py:487-493 (_log_backward) *)
Definition se3_log_backward (g : Rig) (jacobian : M66) (grad : Tw) : Rig :=
  let jac_by_g := app66 (tr66 jacobian) grad in
  let temp2 := se3_lift (mkTw (lin jac_by_g) (scal3 (1 / 2) (ang jac_by_g))) in
  mkRig (mul3 (rr g) (rr temp2)) (app3 (rr g) (rp temp2)).

(** se3_impl.py:531-538 (_adjoint_impl), Adjoint.backward 556-569 *)
Definition se3_adjoint (g : Rig) : M66 :=
  mkM66 (rr g) (mul3 (so3_hat (rp g)) (rr g)) mzero (rr g).
Definition se3_adjoint_backward (g : Rig) (grad : M66) : Rig := mkRig
  (sub_m3 (plus_m3 (mll grad) (maa grad)) (mul3 (so3_hat (rp g)) (mla grad)))
  (so3_project (mul3 (mla grad) (tr3 (rr g)))).
(** se3_impl.py:578-581 (_inverse_impl), Inverse.backward 598-604 *)
Definition se3_inverse (g : Rig) : Rig :=
  let r := tr3 (rr g) in mkRig r (app3 (opp_m3 r) (rp g)).
Definition se3_inverse_backward (g grad : Rig) : Rig := mkRig
  (sub_m3 (tr3 (rr grad)) (outer (rp g) (rp grad)))
  (app3 (opp_m3 (rr g)) (rp grad)).
(** torchlie lie_group.py:29-33 (JInverseImplFactory) *)
Definition se3_inverse_jac (g : Rig) : M66 := opp66 (se3_adjoint g).
(** se3_impl.py:614-622 (_hat_impl), Hat.backward 637-649 *)
Definition se3_hat (v : Tw) : M44 := mkM44 (so3_hat (ang v)) (lin v) zero3 0.
Definition se3_hat_backward (grad : M44) : Tw := mkTw (q31 grad) (so3_project (q33 grad)).
(** se3_impl.py:659-672 (_vee_impl without its check), Vee.backward 687-693 *)
Definition se3_vee (m : M44) : Tw := mkTw (q31 m) (so3_vee (q33 m)).
Definition se3_vee_backward (grad : Tw) : M44 :=
  mkM44 (so3_vee_backward (ang grad)) (lin grad) zero3 0.
(** se3_impl.py:50-63 (check_hat_tensor, with torchlie checks enabled): t_[..., -1]
    is the last column *)
Definition se3_check_hat (d : dtype) (m : M44) : Prop :=
  let e := so3_hat_eps d in
  Rmax (Rmax (Rabs (b0 (q31 m))) (Rabs (b1 (q31 m)))) (Rmax (Rabs (b2 (q31 m))) (Rabs (q11 m))) <= e
  /\ so3_check_hat d (q33 m).

(** se3_impl.py:703-708 (_compose_impl), 711-724 (_jcompose_impl), Compose.backward 740-747 *)
Definition se3_compose (g h : Rig) : Rig :=
  mkRig (mul3 (rr g) (rr h)) (add3 (app3 (rr g) (rp h)) (rp g)).
Definition se3_compose_jac (g h : Rig) : M66 * M66 :=
  (se3_adjoint (se3_inverse h), mkM66 I3 mzero mzero I3).
Definition se3_compose_backward (g h grad : Rig) : Rig * Rig :=
  (mkRig (plus_m3 (mul3 (rr grad) (tr3 (rr h))) (outer (rp grad) (rp h))) (rp grad),
   mkRig (mul3 (tr3 (rr g)) (rr grad)) (app3 (tr3 (rr g)) (rp grad))).

(** se3_impl.py:757-761 (_transform_impl), 764-777 (_jtransform_impl), TransformFrom.backward 794-803 *)
Definition se3_transform (g : Rig) (p : V3) : V3 := add3 (rp g) (app3 (rr g) p).
Definition se3_transform_jac (g : Rig) (p : V3) : M36 * M3 :=
  (mkM36 (rr g) (mul3 (opp_m3 (rr g)) (so3_hat p)), rr g).
Definition se3_transform_backward (g : Rig) (p grad : V3) : Rig * V3 :=
  (mkRig (outer grad p) grad, app3 (tr3 (rr g)) grad).
(** se3_impl.py:813-817 (_untransform_impl), 820-835 (_juntransform_impl), Untransform.backward 852-867 *)
Definition se3_untransform (g : Rig) (p : V3) : V3 := app3 (tr3 (rr g)) (minus3 p (rp g)).
Definition se3_untransform_jac (g : Rig) (p : V3) : M36 * M3 :=
  (mkM36 (opp_m3 I3) (so3_hat (se3_untransform g p)), tr3 (rr g)).
Definition se3_untransform_backward (g : Rig) (p grad : V3) : Rig * V3 :=
  let tmp := minus3 p (rp g) in
  let grad_input1 := app3 (rr g) grad in
  (mkRig (outer tmp grad) (opp3 grad_input1), grad_input1).

(** Lift.backward se3_impl.py:897-899, Project.backward 938-940 *)
Definition se3_lift_backward (grad : Rig) : Tw := se3_project grad.
Definition se3_project_backward (grad : Tw) : Rig := se3_lift grad.
(** torchlie lie_group.py:36-48 with se3_impl.py:952-959 (_left_act_impl): only
    the rotation acts *)
Definition se3_left_act (g m : Rig) : Rig := mkRig (mul3 (rr g) (rr m)) (app3 (rr g) (rp m)).
Definition se3_left_project (g m : Rig) : Tw := se3_project (se3_left_act (se3_inverse g) m).
(** theseus/geometry/se3.py:97-113 (_project_impl, dense) *)
Definition se3_project_impl (g grad : Rig) : Tw :=
  let temp := mkRig (mul3 (tr3 (rr g)) (rr grad)) (app3 (tr3 (rr g)) (rp grad)) in
  mkTw (rp temp) (mkV3 (d21 (rr temp) - d12 (rr temp)) (d02 (rr temp) - d20 (rr temp))
                       (d10 (rr temp) - d01 (rr temp))).

(** se3_impl.py:1064-1068 (_normalize_impl) and Normalize.backward 1090-1097, on
    the factors torch.svd returns for the rotation block *)
Definition se3_normalize_from_svd (u v : M3) (p : V3) : Rig := mkRig (so3_normalize_from_svd u v) p.
Definition se3_normalize_backward (u : M3) (s : V3) (v : M3) (sign : R) (grad : Rig) : Rig :=
  mkRig (so3_normalize_backward u s v sign (rr grad)) (rp grad).

(** theseus/geometry/se3.py:126-143 (x_y_z_unit_quaternion_to_SE3), 276-282
    (to_x_y_z_quaternion), 199-203 (to_matrix) *)
Definition se3_from_xyz_quaternion (p : V3) (q : Quat) : option Rig :=
  do r <- so3_quaternion_to_rotation q; Some (mkRig r p).
Definition se3_to_xyz_quaternion (d : dtype) (g : Rig) : option (V3 * Quat) :=
  do q <- so3_to_quaternion d (rr g); Some (rp g, q).
Definition se3_to_matrix (g : Rig) : M44 := mkM44 (rr g) (rp g) zero3 1.

(** theseus/geometry/lie_group.py:125-137, 162-199 for SE3 *)
Definition se3_compose_jac_theseus (g h : Rig) : M66 * M66 := (se3_adjoint (se3_inverse h), I66).
Definition se3_between (g h : Rig) : Rig := se3_compose (se3_inverse g) h.
Definition se3_between_jac (g h : Rig) : M66 * M66 :=
  let '(j0, j1) := se3_compose_jac_theseus (se3_inverse g) h in
  (mul66 j0 (se3_inverse_jac g), j1).
Definition se3_retract (d : dtype) (g : Rig) (delta : Tw) : option Rig :=
  do e <- se3_exp d delta; Some (se3_compose g e).
Definition se3_local (d : dtype) (g h : Rig) : option Tw := se3_log d (se3_between g h).
Definition se3_local_jac (d : dtype) (g h : Rig) : option (M66 * M66) :=
  let diff := se3_between g h in
  do dlog <- se3_jlog d diff;
  Some (mul66 (opp66 (se3_adjoint (se3_inverse diff))) dlog, dlog).
