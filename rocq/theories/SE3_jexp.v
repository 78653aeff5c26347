(** C37: the Jacobian of SE3.exp.  It is exact above the angle threshold and at
    zero angle, and first-order accurate in between. *)
From Coq Require Import Reals Lra Psatz.
From Coquelicot Require Import Coquelicot.
From Verif Require Import Geo_spec Geo3_spec Geo4_spec Trig Exp_unique SE2_model SE2_group SE2_exp SE2_jac
  SO3_model SO3_exp SO3_jexp SO3_group SO3_quat SO3_ops SE3_model SE3_group SE3_exp.
Local Open Scope R_scope.

Lemma jexp_matc : forall v s o m, so3_jexp_mat v s o m = matc s (- o) m v.
Proof. intros []; intros. apply M3_ext; cbn; ring. Qed.

Lemma se3_jexp_big : forall d v, so3_near_zero_eps d <= norm3 (ang v) ->
  se3_jexp d v = let w := ang v in let th := norm3 w in
    let c := cos th in let s := sin th / th in let o := (1 - c) / th ^ 2 in
    let m := (th - sin th) / (th * th ^ 2) in
    Some (mkM66 (matc s (- o) m w)
      (mul3 (tr3 (matc c s o w)) (se3_jexp_temp (lin v) w o m ((s - 2 * o) / th ^ 2) ((o - 3 * m) / th ^ 2)))
      mzero (matc s (- o) m w)).
Proof.
  intros d v H. unfold se3_jexp. rewrite (exp_aux_big d _ H). unfold bind at 1. rewrite (tms_big d _ H).
  unfold bind at 1. cbn [x_theta x_theta2 x_theta_nz x_theta2_nz x_sine x_cosine x_sbt x_omc].
  rewrite lt_b_false by exact H. pose proof (so3_eps_pos d).
  assert (N : norm3 (ang v) ^ 2 <> 0) by (apply pow_nonzero; lra).
  rewrite !div_some by exact N. unfold bind, where_. cbv zeta.
  rewrite exp_mat_matc, jexp_matc. reflexivity.
Qed.
Lemma se3_jexp_small : forall d v, norm3 (ang v) < so3_near_zero_eps d ->
  se3_jexp d v = let w := ang v in let n := dot3 w w in
    Some (mkM66 (matc (4 / (4 + n)) (- (2 / (4 + n))) 0 w)
      (mul3 (tr3 (matc (8 / (4 + n) - 1) (4 / (4 + n)) (2 / (4 + n)) w))
         (se3_jexp_temp (lin v) w (2 / (4 + n)) (1 / 6 - n / 120) (- 1 / 12) (- 1 / 60)))
      mzero (matc (4 / (4 + n)) (- (2 / (4 + n))) 0 w)).
Proof.
  intros d v H. unfold se3_jexp. rewrite (exp_aux_small d _ H). unfold bind at 1.
  unfold se3_exp_tms at 1. cbn [x_theta x_theta2 x_theta_nz x_theta2_nz x_sine x_cosine x_sbt x_omc].
  rewrite lt_b_true by exact H. rewrite div_some by lra. unfold bind at 1.
  cbn [x_theta x_theta2 x_theta_nz x_theta2_nz x_sine x_cosine x_sbt x_omc]. unfold bind at 1.
  rewrite !div_some by lra. unfold bind, where_. cbv zeta.
  rewrite exp_mat_matc, jexp_matc. cbn [x_cosine x_sbt x_omc]. rewrite norm3_sq2. reflexivity.
Qed.
Theorem C37_exp_jac_total : forall d v, exists J, se3_jexp d v = Some J.
Proof.
  intros d v. destruct (Rlt_le_dec (norm3 (ang v)) (so3_near_zero_eps d)) as [S|B].
  - rewrite (se3_jexp_small d v S). eauto.
  - rewrite (se3_jexp_big d v B). eauto.
Qed.

Lemma matc_mul : forall c s o m w, c + o * dot3 w w = 1 -> s * s = o * (1 + c) ->
  mul3 (matc c s o w) (matc s (- o) m w) = matc s o m w.
Proof.
  intros c s o m [x y z] H1 H2. unfold dot3 in H1. cbn [b0 b1 b2] in H1.
  set (n := x * x + y * y + z * z) in *.
  assert (X : x * x = n - y * y - z * z) by (unfold n; ring). clearbody n.
  assert (C : c = 1 - o * n) by lra. subst c.
  apply M3_ext; cbn [mul3 matc d00 d01 d02 d10 d11 d12 d20 d21 d22 b0 b1 b2]; ring [X H2].
Qed.
Lemma temp_app : forall v w o m o' m' x,
  app3 (se3_jexp_temp v w o m o' m') x =
  add3 (add3 (scal3 (- (m' * dot3 w w) - 2 * m) (scal3 (dot3 w x) v)) (scal3 o' (scal3 (dot3 w x) (cross w v))))
   (add3 (add3 (scal3 (m' * dot3 w v) (scal3 (dot3 w x) w)) (scal3 o (cross x v)))
      (add3 (scal3 (m * dot3 v x) w) (scal3 (m * dot3 w v) x))).
Proof. intros [] [] o m o' m' []. unfold se3_jexp_temp, dot3, dot_. apply V3_ext; cbn; ring. Qed.
(** the derivative of (s I + o hat(w) + m w w^T) v when everything moves *)
Lemma deriv_V : forall s o m s' o' m' w dw l dl,
  deriv s 0 s' -> deriv o 0 o' -> deriv m 0 m' ->
  deriv3 (fun t => app3 (matc (s t) (o t) (m t) (line w dw t)) (line l dl t)) 0
   (add3 (app3 (matc (s 0) (o 0) (m 0) w) dl)
     (add3 (add3 (scal3 s' l) (scal3 o' (cross w l)))
       (add3 (add3 (scal3 (m' * dot3 w l) w) (scal3 (o 0) (cross dw l)))
          (add3 (scal3 (m 0 * dot3 l dw) w) (scal3 (m 0 * dot3 w l) dw))))).
Proof.
  intros s o m s' o' m' w dw l dl DS DO DM.
  pose proof (deriv_matc s o m s' o' m' w dw DS DO DM) as D.
  assert (DL : deriv3 (line l dl) 0 dl).
  { destruct l as [x y z], dl as [x' y' z']. unfold deriv3, line, add3, scal3; cbn [b0 b1 b2]. repeat split; dgo; ring. }
  pose proof (deriv_app3 _ _ 0 _ _ D DL) as Q. cbv beta in Q. rewrite !line_0 in Q.
  eapply deriv3_eq; [|exact Q].
  generalize (s 0) (o 0) (m 0). intros. destruct w, dw, l, dl. unfold dot3. apply V3_ext; cbn; ring.
Qed.

Definition tline (v dv : Tw) (t : R) : Tw := tadd v (tscal t dv).
Lemma tline_ang : forall v dv t, ang (tline v dv t) = line (ang v) (ang dv) t.
Proof. reflexivity. Qed.
Lemma tline_lin : forall v dv t, lin (tline v dv t) = line (lin v) (lin dv) t.
Proof. reflexivity. Qed.
Lemma tline_0 : forall v dv, tline v dv 0 = v.
Proof. intros. apply Tw_ext; apply line_0. Qed.

Lemma exp_rr : forall d v g, se3_exp d v = Some g -> so3_exp d (ang v) = Some (rr g).
Proof.
  intros d v g E. destruct (C37_exp_rigid d v) as (g' & E' & _ & R). rewrite E in E'.
  apply some_inj in E'. subst g'. exact R.
Qed.
Lemma jexp_maa : forall d v J, se3_jexp d v = Some J ->
  so3_jexp d (ang v) = Some (maa J) /\ mal J = mzero /\ mll J = maa J.
Proof.
  intros d v J E. destruct (Rlt_le_dec (norm3 (ang v)) (so3_near_zero_eps d)) as [S|B].
  - rewrite (se3_jexp_small d v S) in E. cbv zeta in E. apply some_inj in E. subst J. cbn [maa mal mll].
    rewrite (jexp_mat_small d _ S), jexp_matc. auto.
  - rewrite (se3_jexp_big d v B) in E. cbv zeta in E. apply some_inj in E. subst J. cbn [maa mal mll].
    rewrite (jexp_mat_big d _ B), jexp_matc. auto.
Qed.

(** the rotation part of the velocity is exact in both branches *)
Lemma exp_jac_rot : forall d v dv J g M, len3 (ang v) <> so3_near_zero_eps d ->
  se3_jexp d v = Some J -> se3_exp d v = Some g ->
  (forall t, se3_exp d (tadd v (tscal t dv)) = Some (M t)) ->
  M 0 = g /\ deriv_m3 (fun t => rr (M t)) 0 (mul3 (rr g) (so3_alg (ang (app66 J dv)))).
Proof.
  intros d v dv J g M NE EJ EG EM. split.
  - specialize (EM 0). change (tadd v (tscal 0 dv)) with (tline v dv 0) in EM. rewrite tline_0, EG in EM.
    apply some_inj in EM. symmetry. exact EM.
  - destruct (jexp_maa d v J EJ) as (JR & Z & _).
    cbn [app66 ang]. rewrite Z, app3_zero_m, add3_0_l.
    apply (C36_exp_jac d (ang v) (ang dv) (maa J) (rr g) _ NE JR (exp_rr d v g EG)).
    intro t. apply (exp_rr d _ _ (EM t)).
Qed.

Lemma tms_d : forall v dl, norm3 v <> 0 -> let th := norm3 v in let m := dot3 v dl in
  deriv (fun t => (norm3 (line v dl t) - sin (norm3 (line v dl t))) / (norm3 (line v dl t) * norm3 (line v dl t) ^ 2)) 0
    (((1 - cos th) / th ^ 2 - 3 * ((th - sin th) / (th * th ^ 2))) / th ^ 2 * m).
Proof.
  intros v dl N th m. pose proof (deriv_norm v dl N) as D. fold th m in D.
  assert (Z : norm3 (line v dl 0) = th) by (rewrite line_0; reflexivity).
  eapply deriv_val; [|apply (d_comp (fun u => (u - sin u) / (u * u ^ 2)) (fun t => norm3 (line v dl t))); [exact D|]].
  2: cbv beta; rewrite Z; apply is_derive_Reals; auto_derive; [|reflexivity].
  2: { apply Rmult_integral_contrapositive_currified; [exact N|]. rewrite Rmult_1_r.
       apply Rmult_integral_contrapositive_currified; exact N. }
  cbv beta. field. exact N.
Qed.

(** exp's Jacobian for angles above the threshold *)
Theorem C37_exp_jac : forall d v dv J g M, so3_near_zero_eps d < len3 (ang v) ->
  se3_jexp d v = Some J -> se3_exp d v = Some g ->
  (forall t, se3_exp d (tadd v (tscal t dv)) = Some (M t)) ->
  moves6 M g (app66 J dv).
Proof.
  intros d v dv J g M B EJ EG EM. apply moves6_iff.
  destruct (exp_jac_rot d v dv J g M ltac:(lra) EJ EG EM) as (M0 & DR).
  split; [exact M0|]. split; [exact DR|].
  rewrite <- norm3_len in B. pose proof (so3_eps_pos d) as EP.
  assert (N : norm3 (ang v) <> 0) by lra.
  change (forall t, se3_exp d (tline v dv t) = Some (M t)) in EM.
  destruct (cont_norm (ang v) (ang dv) (norm3 (ang v) - so3_near_zero_eps d) ltac:(lra)) as (r & Hr & C).
  destruct (big_coefs (ang v) (ang dv) N) as (_ & DS & DO). pose proof (tms_d (ang v) (ang dv) N) as DM. cbv zeta in DM.
  pose proof (deriv_V _ _ _ _ _ _ (ang v) (ang dv) (lin v) (lin dv) DS DO DM) as D. cbv beta in D. rewrite line_0 in D.
  assert (L : forall t, Rabs (t - 0) < r -> app3 (matc (sin (norm3 (line (ang v) (ang dv) t)) / norm3 (line (ang v) (ang dv) t))
       ((1 - cos (norm3 (line (ang v) (ang dv) t))) / norm3 (line (ang v) (ang dv) t) ^ 2)
       ((norm3 (line (ang v) (ang dv) t) - sin (norm3 (line (ang v) (ang dv) t))) / (norm3 (line (ang v) (ang dv) t) * norm3 (line (ang v) (ang dv) t) ^ 2))
       (line (ang v) (ang dv) t)) (line (lin v) (lin dv) t) = rp (M t)).
  { intros t Ht. rewrite Rminus_0_r in Ht. specialize (C t Ht). apply Rabs_def2 in C.
    specialize (EM t). rewrite se3_exp_big in EM by (rewrite tline_ang; lra). cbv zeta in EM. apply some_inj in EM.
    rewrite <- EM. rewrite !tline_ang, tline_lin. reflexivity. }
  assert (EX : forall f h l, (forall x, Rabs (x - 0) < r -> f x = h x) -> deriv3 f 0 l -> deriv3 h 0 l).
  { intros f h l E (A0&A1&A2). repeat split; (eapply deriv_ext_loc; [exact Hr| |eassumption]);
      intros x Hx; cbv beta; rewrite (E x Hx); reflexivity. }
  apply (EX _ _ _ L). eapply deriv3_eq; [|exact D]. clear D L EX DS DO DM EM DR M0 C.
  rewrite (se3_jexp_big d v) in EJ by lra. cbv zeta in EJ. apply some_inj in EJ. subst J.
  rewrite (se3_exp_big d v) in EG by lra. cbv zeta in EG. apply some_inj in EG. subst g. cbn [rr app66 lin mll mla].
  set (w := ang v) in *. set (th := norm3 w) in *.
  assert (Q : dot3 w w = th ^ 2) by (unfold th; rewrite norm3_sq2; reflexivity).
  pose proof (sin2cos2 th) as SC.
  assert (RO : rotation3 (matc (cos th) (sin th / th) ((1 - cos th) / th ^ 2) w)).
  { destruct (C36_exp_rotation d w) as (g & E & H). rewrite (so3_exp_big d w) in E by (fold th; lra).
    apply some_inj in E. fold th in E. subst g. exact H. }
  rewrite app3_add, <- !app3_mul, <- mul3_assoc, (rot_right _ RO), mul3_I_l.
  rewrite matc_mul.
  2: rewrite Q; field; exact N.
  2: { assert (QQ : sin th ^ 2 = 1 - cos th ^ 2) by (cbn; lra). field_simplify_eq; [|exact N]. ring [QQ]. }
  f_equal. rewrite temp_app. f_equal.
  - rewrite !scal3_scal3, Q. f_equal. f_equal; field; exact N.
  - f_equal. f_equal. rewrite scal3_scal3. f_equal. ring.
Qed.

Lemma tms_small_d : forall v dl, deriv (fun t => 1 / 6 - dot3 (line v dl t) (line v dl t) / 120) 0 (- 1 / 60 * dot3 v dl).
Proof.
  intros v dl. pose proof (deriv_dot v dl) as D.
  eapply deriv_val; [|apply d_minus; [apply d_const|]].
  2: eapply (deriv_val _ _ (2 * dot3 v dl * / 120 + dot3 (line v dl 0) (line v dl 0) * 0)); [reflexivity|].
  2: apply (derivable_pt_lim_mult (fun t => dot3 (line v dl t) (line v dl t)) (fun _ => / 120)); [exact D|apply d_const].
  field.
Qed.
Lemma len_zero : forall v, len3 v <= 0 -> v = zero3.
Proof. intros v H. apply norm3_zero. rewrite norm3_len. pose proof (len3_pos v). lra. Qed.

(** below the threshold: the rotation part is exact, and the velocity of the
    translation differs from what the Jacobian predicts by at most
    theta |dw| |v| / 4 + theta^2 |dv| / 6; at zero angle the Jacobian is exact *)
Theorem C37_exp_jac_small_angle : forall d v dv J g M, len3 (ang v) < so3_near_zero_eps d ->
  se3_jexp d v = Some J -> se3_exp d v = Some g ->
  (forall t, se3_exp d (tadd v (tscal t dv)) = Some (M t)) ->
  M 0 = g /\ deriv_m3 (fun t => rr (M t)) 0 (mul3 (rr g) (so3_alg (ang (app66 J dv))))
  /\ exists L, deriv3 (fun t => rp (M t)) 0 L
     /\ len3 (sub3 L (app3 (rr g) (lin (app66 J dv))))
        <= len3 (ang v) * len3 (ang dv) * len3 (lin v) / 4 + len3 (ang v) ^ 2 * len3 (lin dv) / 6.
Proof.
  intros d v dv J g M B EJ EG EM.
  destruct (exp_jac_rot d v dv J g M ltac:(lra) EJ EG EM) as (M0 & DR).
  split; [exact M0|]. split; [exact DR|].
  rewrite <- norm3_len in B. pose proof (so3_eps_pos d) as EP.
  change (forall t, se3_exp d (tline v dv t) = Some (M t)) in EM.
  destruct (cont_norm (ang v) (ang dv) (so3_near_zero_eps d - norm3 (ang v)) ltac:(lra)) as (r & Hr & C).
  destruct (small_coefs3 (ang v) (ang dv)) as (_ & DS & DO). pose proof (tms_small_d (ang v) (ang dv)) as DM.
  pose proof (deriv_V _ _ _ _ _ _ (ang v) (ang dv) (lin v) (lin dv) DS DO DM) as D. cbv beta in D. rewrite line_0 in D.
  match type of D with deriv3 _ _ ?L => exists L end. split.
  - assert (L : forall t, Rabs (t - 0) < r -> app3 (matc (4 / (4 + dot3 (line (ang v) (ang dv) t) (line (ang v) (ang dv) t)))
       (2 / (4 + dot3 (line (ang v) (ang dv) t) (line (ang v) (ang dv) t)))
       (1 / 6 - dot3 (line (ang v) (ang dv) t) (line (ang v) (ang dv) t) / 120)
       (line (ang v) (ang dv) t)) (line (lin v) (lin dv) t) = rp (M t)).
    { intros t Ht. rewrite Rminus_0_r in Ht. specialize (C t Ht). apply Rabs_def2 in C.
      specialize (EM t). rewrite se3_exp_small in EM by (rewrite tline_ang; lra). cbv zeta in EM. apply some_inj in EM.
      rewrite <- EM. rewrite !tline_ang, tline_lin. reflexivity. }
    destruct D as (A0&A1&A2). repeat split; (eapply deriv_ext_loc; [exact Hr| |eassumption]);
      intros x Hx; cbv beta; rewrite (L x Hx); reflexivity.
  - clear D DS DO DM EM DR M0 C.
    rewrite (se3_jexp_small d v) in EJ by lra. cbv zeta in EJ. apply some_inj in EJ. subst J.
    rewrite (se3_exp_small d v) in EG by lra. cbv zeta in EG. apply some_inj in EG. subst g. cbn [rr app66 lin mll mla].
    change (norm3 (ang v)) with (len3 (ang v)) in B.
    pose proof (len3_sq (ang v)) as Q. pose proof (len3_pos (ang v)) as TP. pose proof (dot3_pos (ang v)) as NP.
    set (w := ang v) in *. set (th := len3 w) in *. set (n := dot3 w w) in *.
    assert (RO : rotation3 (matc (8 / (4 + n) - 1) (4 / (4 + n)) (2 / (4 + n)) w)).
    { destruct (C36_exp_rotation d w) as (g & E & H). rewrite (so3_exp_small d w) in E by exact B.
      apply some_inj in E. subst g. exact H. }
    rewrite app3_add, <- !app3_mul, <- mul3_assoc, (rot_right _ RO), mul3_I_l.
    rewrite matc_mul; [|fold n; field; lra|field; lra]. rewrite temp_app.
    set (k := / (4 + n)). assert (K : 0 < k <= / 4).
    { split; [apply Rinv_0_lt_compat; lra|]. apply Rinv_le_contravar; lra. }
    assert (K2 : k * (4 + n) = 1) by (unfold k; field; lra).
    set (l := lin v). set (dl := lin dv). set (dw := ang dv).
    (* the difference *)
    match goal with |- len3 ?e <= _ => replace e with
      (add3 (add3 (scal3 ((2 * (1 / 6 - n / 120) - 8 * k * k - n / 60) * dot3 w dw) l)
            (scal3 ((1 / 12 - 4 * k * k) * dot3 w dw) (cross w l)))
         (scal3 ((1 / 6 - n / 120) * dot3 w dl) w)) end.
    2: { fold n k. generalize (4 / (4 + n)) (2 / (4 + n)). clearbody k. clear - n. clearbody n.
         intros s o. destruct w, dw, l, dl. unfold dot3. apply V3_ext; cbn; field. }
    assert (C1 : Rabs (2 * (1 / 6 - n / 120) - 8 * k * k - n / 60) <= 1 / 5).
    { assert (N1 : n <= / 10000) by nra. assert (k = 1 / 4 - k * n / 4) by lra.
      assert (0 <= k * n <= / 40000) by nra. assert (1 / 16 - / 10000 <= k * k <= 1 / 16) by nra.
      apply Rabs_le. lra. }
    assert (C2 : Rabs (1 / 12 - 4 * k * k) <= 1 / 5).
    { assert (N1 : n <= / 10000) by nra. assert (k = 1 / 4 - k * n / 4) by lra.
      assert (0 <= k * n <= / 40000) by nra. assert (1 / 16 - / 10000 <= k * k <= 1 / 16) by nra.
      apply Rabs_le. lra. }
    assert (C3 : Rabs (1 / 6 - n / 120) <= 1 / 6).
    { assert (N1 : n <= / 10000) by nra. apply Rabs_le. lra. }
    eapply Rle_trans; [apply add_len|]. eapply Rle_trans; [apply Rplus_le_compat_r, add_len|].
    rewrite !scal_len, !Rabs_mult. fold th.
    pose proof (dot3_len w dw) as D1. pose proof (dot3_len w dl) as D2. pose proof (cross_len w l) as D3.
    fold th in D1, D2, D3.
    pose proof (len3_pos l) as PL. pose proof (len3_pos dl) as PDL. pose proof (len3_pos dw) as PDW.
    pose proof (len3_pos (cross w l)) as PC.
    pose proof (Rabs_pos (dot3 w dw)) as P1. pose proof (Rabs_pos (dot3 w dl)) as P2.
    set (a := Rabs (dot3 w dw)) in *. set (b := Rabs (dot3 w dl)) in *. set (c := len3 (cross w l)) in *.
    set (e1 := Rabs (2 * _ - _ - _)) in *. set (e2 := Rabs (1 / 12 - _)) in *. set (e3 := Rabs (1 / 6 - _)) in *.
    assert (E1 : 0 <= e1) by apply Rabs_pos. assert (E2 : 0 <= e2) by apply Rabs_pos. assert (E3 : 0 <= e3) by apply Rabs_pos.
    assert (T : th <= / 100) by lra.
    clearbody a b c e1 e2 e3 th. set (L := len3 l) in *. set (DL := len3 dl) in *. set (DW := len3 dw) in *.
    clearbody L DL DW. clear - C1 C2 C3 D1 D2 D3 PL PDL PDW PC P1 P2 E1 E2 E3 T TP.
    assert (A1 : e1 * a * L <= 1 / 5 * (th * DW) * L).
    { apply Rmult_le_compat_r; [exact PL|]. apply Rmult_le_compat; assumption. }
    assert (A2 : e2 * a * c <= 1 / 5 * (th * DW) * (/ 100 * L)).
    { apply Rmult_le_compat; try assumption; [apply Rmult_le_pos; assumption| |].
      - apply Rmult_le_compat; assumption.
      - eapply Rle_trans; [exact D3|]. apply Rmult_le_compat_r; assumption. }
    assert (A3 : e3 * b * th <= 1 / 6 * (th * DL) * th).
    { apply Rmult_le_compat_r; [exact TP|]. apply Rmult_le_compat; assumption. }
    assert (A4 : 0 <= th * DW * L) by (apply Rmult_le_pos; [apply Rmult_le_pos|]; assumption).
    lra.
Qed.

(** the Jacobian below the threshold is not exact: along a screw motion the
    translation exp computes changes with the angle although the Jacobian says
    it does not *)
Theorem C37_exp_jac_small_refuted : forall d t, 0 < t < so3_near_zero_eps d ->
  exists v dv J g M, len3 (ang v) = t /\ se3_jexp d v = Some J /\ se3_exp d v = Some g
  /\ (forall t, se3_exp d (tadd v (tscal t dv)) = Some (M t)) /\ ~ moves6 M g (app66 J dv).
Proof.
  intros d t H. set (v := mkTw (mkV3 0 0 1) (mkV3 0 0 t)). set (dv := mkTw zero3 (mkV3 0 0 1)).
  destruct (C37_exp_jac_total d v) as (J & EJ). destruct (C37_exp_rigid d v) as (g & EG & _).
  set (M := fun s => match se3_exp d (tadd v (tscal s dv)) with Some m => m | None => g end).
  assert (EM : forall s, se3_exp d (tadd v (tscal s dv)) = Some (M s)).
  { intro s. unfold M. destruct (C37_exp_rigid d (tadd v (tscal s dv))) as (m & E & _). rewrite E. reflexivity. }
  exists v, dv, J, g, M. pose proof (so3_eps_pos d) as EP.
  assert (N : len3 (ang v) = t).
  { unfold len3, v, dot3. cbn [ang b0 b1 b2]. replace (0 * 0 + 0 * 0 + t * t) with (t * t) by ring. apply sqrt_square. lra. }
  split; [exact N|]. split; [exact EJ|]. split; [exact EG|]. split; [exact EM|]. intro MV.
  apply moves6_iff in MV. destruct MV as (_ & _ & (_ & _ & D)). cbv beta in D.
  change (len3 (ang v)) with (norm3 (ang v)) in N.
  assert (DP : deriv (fun s => b2 (rp (M s))) 0 (- 8 * t / (4 + t ^ 2) ^ 2 + t / 3 - t ^ 3 / 30)).
  { destruct (cont_norm (ang v) (ang dv) (so3_near_zero_eps d - norm3 (ang v)) ltac:(lra)) as (r & Hr & C).
    apply (deriv_ext_loc (fun s => 4 / (4 + (t + s) ^ 2) + (1 / 6 - (t + s) ^ 2 / 120) * (t + s) ^ 2) _ 0 _ r Hr).
    - intros s Hs. rewrite Rminus_0_r in Hs. specialize (C s Hs). apply Rabs_def2 in C.
      specialize (EM s). change (tadd v (tscal s dv)) with (tline v dv s) in EM.
      rewrite se3_exp_small in EM by (rewrite tline_ang; lra). cbv zeta in EM. apply some_inj in EM. rewrite <- EM.
      cbn [rp]. replace (dot3 (ang (tline v dv s)) (ang (tline v dv s))) with ((t + s) ^ 2)
        by (unfold dot3, v, dv; cbn; ring).
      replace (ang (tline v dv s)) with (mkV3 0 0 (t + s)) by (unfold v, dv; apply V3_ext; cbn; ring).
      replace (lin (tline v dv s)) with (mkV3 0 0 1) by (unfold v, dv; apply V3_ext; cbn; ring).
      cbn [app3 matc d20 d21 d22 b0 b1 b2]. ring.
    - apply is_derive_Reals. auto_derive.
      + nra.
      + field. nra. }
  pose proof (deriv_unique _ _ _ _ D DP) as E. clear D DP EM.
  rewrite (se3_jexp_small d v) in EJ by lra. cbv zeta in EJ. apply some_inj in EJ. subst J.
  rewrite (se3_exp_small d v) in EG by lra. cbv zeta in EG. apply some_inj in EG. subst g.
  cbn [rr app66 lin mll mla] in E.
  rewrite <- norm3_sq2, N in E.
  assert (RO : rotation3 (matc (8 / (4 + t ^ 2) - 1) (4 / (4 + t ^ 2)) (2 / (4 + t ^ 2)) (ang v))).
  { destruct (C36_exp_rotation d (ang v)) as (g & EE & HH). rewrite (so3_exp_small d (ang v)) in EE by lra.
    rewrite <- norm3_sq2, N in EE. apply some_inj in EE. subst g. exact HH. }
  replace (lin dv) with zero3 in E by reflexivity.
  rewrite app3_zero_v, add3_0_l, <- app3_mul, <- mul3_assoc, (rot_right _ RO), mul3_I_l in E.
  rewrite temp_app in E. unfold v, dv in E. cbn [lin ang] in E. unfold dot3 in E. cbn [add3 scal3 cross b0 b1 b2] in E.
  assert (E' : - 8 * t / (4 + t ^ 2) ^ 2 + t / 3 - t ^ 3 / 30 = 0) by (rewrite <- E; field; nra).
  assert (K : 1 / 3 <= 8 / (4 + t ^ 2) ^ 2).
  { assert (t ^ 2 <= / 10000) by nra. assert (P : 0 < 4 + t ^ 2) by nra.
    assert (Q : (4 + t ^ 2) ^ 2 <= 24) by nra. assert (0 < (4 + t ^ 2) ^ 2) by (apply pow_lt; exact P).
    unfold Rdiv. replace (1 * / 3) with (8 * / 24) by field.
    apply Rmult_le_compat_l; [lra|]. apply Rinv_le_contravar; assumption. }
  assert (Z : t * (1 / 3 - 8 / (4 + t ^ 2) ^ 2 - t ^ 2 / 30) = 0).
  { rewrite <- E'. field. nra. }
  apply Rmult_integral in Z. destruct Z as [Z|Z]; [lra|]. assert (0 < t ^ 2) by nra. lra.
Qed.

(** retract(g, t dl) leaves g with body velocity dl *)
Theorem C37_retract_velocity : forall d g dl h, rigid3 g ->
  (forall t, se3_retract d g (tscal t dl) = Some (h t)) -> moves6 h g dl.
Proof.
  intros d g dl h Hg H. pose proof (so3_eps_pos d) as EP.
  assert (Z : len3 (ang tzero) = 0).
  { unfold len3, tzero, dot3, zero3. cbn [ang b0 b1 b2]. replace (0 * 0 + 0 * 0 + 0 * 0) with 0 by ring. apply sqrt_0. }
  assert (DZ : dot3 (ang tzero) (ang tzero) = 0) by (unfold dot3, tzero, zero3; cbn [ang b0 b1 b2]; ring).
  pose (M := fun t => match se3_exp d (tscal t dl) with Some e => e | None => g end).
  assert (EM : forall t, se3_exp d (tscal t dl) = Some (M t)).
  { intro t. unfold M. destruct (C37_exp_rigid d (tscal t dl)) as (e & E & _). rewrite E. reflexivity. }
  assert (TL : forall t, tadd tzero (tscal t dl) = tscal t dl) by (intro t; destruct dl as [[] []]; apply Tw_ext; apply V3_ext; cbn; ring).
  assert (EM' : forall t, se3_exp d (tadd tzero (tscal t dl)) = Some (M t)) by (intro t; rewrite TL; apply EM).
  assert (E0 : se3_exp d tzero = Some (mkRig I3 zero3)).
  { rewrite se3_exp_small by (change (norm3 (ang tzero)) with (len3 (ang tzero)); lra). cbv zeta. rewrite DZ. f_equal.
    apply Rig_ext; cbn [rr rp].
    - apply M3_ext; cbn [tzero ang matc I3 zero3 d00 d01 d02 d10 d11 d12 d20 d21 d22 b0 b1 b2]; field.
    - apply app3_zero_v. }
  destruct (C37_exp_jac_total d tzero) as (J & EJ).
  destruct (C37_exp_jac_small_angle d tzero dl J (mkRig I3 zero3) M ltac:(lra) EJ E0 EM') as (M0 & DR & L & DL & B).
  rewrite Z in B. replace (_ + _) with 0 in B by (field || ring). apply len_zero in B.
  assert (JI : app66 J dl = dl).
  { rewrite (se3_jexp_small d tzero) in EJ by (change (norm3 (ang tzero)) with (len3 (ang tzero)); lra).
    cbv zeta in EJ. rewrite DZ in EJ. apply some_inj in EJ. subst J.
    destruct dl as [[x y z] [x' y' z']].
    apply Tw_ext; apply V3_ext; unfold app66, se3_jexp_temp, dot_; cbn; field. }
  rewrite JI in *.
  assert (MV : moves6 M (mkRig I3 zero3) dl).
  { apply moves6_iff. split; [exact M0|]. split; [exact DR|]. cbn [rr] in *. rewrite app3_I in *.
    eapply deriv3_eq; [|exact DL]. destruct L, (lin dl). injection B. intros. apply V3_ext; cbn; lra. }
  assert (CG : moves6 (fun _ => g) g tzero).
  { apply moves6_iff. split; [reflexivity|]. split.
    - eapply deriv_m3_eq; [|apply deriv_const_m3]. destruct (rr g). apply M3_ext; cbn; ring.
    - eapply deriv3_eq; [|apply deriv_const3]. symmetry. apply app3_zero_v. }
  assert (HI : rigid3 (mkRig I3 zero3)) by (apply rot_I).
  pose proof (compose_moves g (mkRig I3 zero3) (fun _ => g) M tzero dl Hg HI CG MV) as Q.
  destruct (C37_group g g g Hg Hg Hg) as (_&_&_&GI&_). rewrite GI in Q.
  replace (tadd _ dl) with dl in Q.
  2: { destruct dl as [[] []]. unfold app66, tzero, tadd. cbn [lin ang]. rewrite !app3_zero_v.
       apply Tw_ext; apply V3_ext; cbn; ring. }
  assert (HM : forall t, se3_compose g (M t) = h t).
  { intro t. specialize (H t). unfold se3_retract in H. rewrite EM in H. apply some_inj in H. exact H. }
  destruct Q as (Q0 & Q1). split; [rewrite <- HM; exact Q0|].
  destruct Q1 as (A & B1 & C & D).
  split; [|split; [|split]].
  - destruct A as (V0&V1&V2&V3&V4&V5&V6&V7&V8).
    repeat split; (eapply deriv_ext; [|eassumption]); intro t; cbv beta; rewrite HM; reflexivity.
  - destruct B1 as (V0&V1&V2). repeat split; (eapply deriv_ext; [|eassumption]); intro t; cbv beta; rewrite HM; reflexivity.
  - destruct C as (V0&V1&V2). repeat split; (eapply deriv_ext; [|eassumption]); intro t; cbv beta; reflexivity.
  - exact D.
Qed.

(** Exp's backward pass: the gradient of any linear function of the result *)
Theorem C37_exp_backward : forall d v dv g grad b M, so3_near_zero_eps d < len3 (ang v) ->
  se3_exp d v = Some g -> se3_exp_backward d v g grad = Some b ->
  (forall t, se3_exp d (tadd v (tscal t dv)) = Some (M t)) ->
  deriv (fun t => frob34 grad (M t)) 0 (dot6 b dv).
Proof.
  intros d v dv g grad b M B EG EB EM. unfold se3_exp_backward in EB.
  destruct (se3_jexp d v) as [J|] eqn:EJ; [|discriminate]. cbv beta iota zeta delta [bind] in EB.
  apply some_inj in EB. subst b.
  pose proof (C37_exp_jac d v dv J g M B EJ EG EM) as MV.
  destruct (C37_project g M (app66 J dv) grad MV) as (D & _).
  eapply deriv_val; [|exact D].
  change (se3_left_project g grad) with (se3_project (mkRig (mul3 (tr3 (rr g)) (rr grad)) (app3 (tr3 (rr g)) (rp grad)))).
  generalize (se3_project (mkRig (mul3 (tr3 (rr g)) (rr grad)) (app3 (tr3 (rr g)) (rp grad)))).
  intros [p q]. destruct dv as [x y], J as [a b c e]. unfold dot6, app66, tr66. cbn [lin ang mll mla mal maa].
  assert (T : forall m u w, dot3 u (app3 m w) = dot3 (app3 (tr3 m) u) w) by (intros [] [] []; unfold dot3; cbn; ring).
  assert (A : forall u w z, dot3 u (add3 w z) = dot3 u w + dot3 u z) by (intros [] [] []; unfold dot3; cbn; ring).
  assert (A' : forall u w z, dot3 (add3 w z) u = dot3 w u + dot3 z u) by (intros [] [] []; unfold dot3; cbn; ring).
  rewrite !A, !A', !T. ring.
Qed.
