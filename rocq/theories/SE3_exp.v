(** C37: SE3.exp and the matrix exponential. *)
From Coq Require Import Reals Lra Psatz.
From Coquelicot Require Import Coquelicot.
From Verif Require Import Geo_spec Geo3_spec Geo4_spec Trig Exp_unique SE2_model SE2_group SE2_exp SE2_jac
  SO3_model SO3_exp SO3_jexp SO3_group SO3_quat SO3_ops SE3_model SE3_group.
Local Open Scope R_scope.

Lemma matc_app : forall c s o w v, app3 (matc c s o w) v
  = add3 (add3 (scal3 c v) (scal3 s (cross w v))) (scal3 o (scal3 (dot3 w v) w)).
Proof. intros c s o [] []. unfold dot3. apply V3_ext; cbn; ring. Qed.

Lemma tms_big : forall d v, so3_near_zero_eps d <= norm3 v ->
  se3_exp_tms d (mkAux (norm3 v) (norm3 v ^ 2) (norm3 v) (norm3 v ^ 2)
    (sin (norm3 v)) (cos (norm3 v)) (sin (norm3 v) / norm3 v) ((1 - cos (norm3 v)) / norm3 v ^ 2))
  = Some ((norm3 v - sin (norm3 v)) / (norm3 v * norm3 v ^ 2)).
Proof.
  intros d v H. pose proof (so3_eps_pos d). unfold se3_exp_tms. cbn [x_theta x_theta_nz x_theta2_nz x_sine].
  rewrite lt_b_false by exact H. rewrite div_some; [reflexivity|].
  apply Rmult_integral_contrapositive_currified; [lra|]. apply pow_nonzero. lra.
Qed.
Lemma se3_exp_big : forall d v, so3_near_zero_eps d <= norm3 (ang v) ->
  se3_exp d v = let th := norm3 (ang v) in
    Some (mkRig (matc (cos th) (sin th / th) ((1 - cos th) / th ^ 2) (ang v))
                (app3 (matc (sin th / th) ((1 - cos th) / th ^ 2) ((th - sin th) / (th * th ^ 2)) (ang v)) (lin v))).
Proof.
  intros d v H. unfold se3_exp. rewrite (exp_aux_big d _ H). unfold bind at 1. rewrite (tms_big d _ H).
  unfold bind. cbv zeta. f_equal. unfold se3_exp_mat. cbn [x_sbt x_omc].
  rewrite exp_mat_matc. cbn [x_cosine x_sbt x_omc]. rewrite matc_app. reflexivity.
Qed.
Lemma se3_exp_small : forall d v, norm3 (ang v) < so3_near_zero_eps d ->
  se3_exp d v = let n := dot3 (ang v) (ang v) in
    Some (mkRig (matc (8 / (4 + n) - 1) (4 / (4 + n)) (2 / (4 + n)) (ang v))
                (app3 (matc (4 / (4 + n)) (2 / (4 + n)) (1 / 6 - n / 120) (ang v)) (lin v))).
Proof.
  intros d v H. unfold se3_exp. rewrite (exp_aux_small d _ H). unfold bind at 1.
  unfold se3_exp_tms. cbn [x_theta x_theta2 x_theta_nz x_theta2_nz x_sine].
  rewrite lt_b_true by exact H. rewrite div_some by lra. unfold bind. cbv zeta. f_equal.
  unfold se3_exp_mat. cbn [x_sbt x_omc]. rewrite exp_mat_matc. cbn [x_cosine x_sbt x_omc].
  rewrite matc_app. unfold where_. rewrite norm3_sq2. reflexivity.
Qed.

(** exp never fails and returns a rigid motion *)
Theorem C37_exp_rigid : forall d v, exists g, se3_exp d v = Some g /\ rigid3 g
  /\ so3_exp d (ang v) = Some (rr g).
Proof.
  intros d v. destruct (C36_exp_rotation d (ang v)) as (r & E & H).
  destruct (Rlt_le_dec (norm3 (ang v)) (so3_near_zero_eps d)) as [S|B].
  - rewrite (se3_exp_small d v S). cbv zeta. eexists. split; [reflexivity|]. unfold rigid3. cbn [rr].
    rewrite (so3_exp_small d _ S) in *. apply some_inj in E. subst r. auto.
  - rewrite (se3_exp_big d v B). cbv zeta. eexists. split; [reflexivity|]. unfold rigid3. cbn [rr].
    rewrite (so3_exp_big d _ B) in *. apply some_inj in E. subst r. auto.
Qed.

(** ** the 4x4 exponential *)
Definition Ecur (w : V3) (t : R) : M3 :=
  let th := norm3 w in
  if Req_EM_T th 0 then I3 else matc (cos (th * t)) (sin (th * t) / th) ((1 - cos (th * t)) / th ^ 2) w.
Definition Vcur (w : V3) (t : R) : M3 :=
  let th := norm3 w in
  if Req_EM_T th 0 then matc t 0 0 w
  else matc (sin (th * t) / th) ((1 - cos (th * t)) / th ^ 2) ((th * t - sin (th * t)) / th ^ 3) w.

Lemma Ecur_0 : forall w, Ecur w 0 = I3.
Proof.
  intro w. unfold Ecur. destruct (Req_EM_T (norm3 w) 0) as [Z|N]; [reflexivity|].
  rewrite Rmult_0_r, cos_0, sin_0. apply M3_ext; cbn; field; exact N.
Qed.
Lemma Vcur_0 : forall w, Vcur w 0 = mzero.
Proof.
  intro w. unfold Vcur. destruct (Req_EM_T (norm3 w) 0) as [Z|N].
  - apply M3_ext; cbn; ring.
  - rewrite Rmult_0_r, cos_0, sin_0. apply M3_ext; cbn; field; exact N.
Qed.
Lemma Ecur_1 : forall w, Ecur w 1 = E3 w.
Proof. intro w. unfold Ecur, E3. rewrite Rmult_1_r. reflexivity. Qed.
Lemma Ecur_comm : forall w t, mul3 (Ecur w t) (so3_alg w) = mul3 (so3_alg w) (Ecur w t).
Proof.
  intros w t. unfold Ecur. destruct (Req_EM_T (norm3 w) 0).
  - rewrite mul3_I_l, mul3_I_r. reflexivity.
  - apply M3_ext; cbn; ring.
Qed.
Lemma matc_deriv_const : forall c s o w t c' s' o', deriv c t c' -> deriv s t s' -> deriv o t o' ->
  deriv_m3 (fun t => matc (c t) (s t) (o t) w) t (matc c' s' o' w).
Proof.
  intros c s o w t c' s' o' DC DS DO. unfold deriv_m3, matc. cbn [d00 d01 d02 d10 d11 d12 d20 d21 d22].
  repeat split; (eapply deriv_val; [|repeat dstep]); cbv beta; ring.
Qed.
Lemma matc_alg : forall c s o w, mul3 (matc c s o w) (so3_alg w) = matc (- s * dot3 w w) c s w.
Proof. intros c s o []. unfold dot3. apply M3_ext; cbn; ring. Qed.
Lemma coefs_t : forall th t, th <> 0 ->
  deriv (fun t => cos (th * t)) t (- (sin (th * t) / th) * (th ^ 2))
  /\ deriv (fun t => sin (th * t) / th) t (cos (th * t))
  /\ deriv (fun t => (1 - cos (th * t)) / th ^ 2) t (sin (th * t) / th)
  /\ deriv (fun t => (th * t - sin (th * t)) / th ^ 3) t ((1 - cos (th * t)) / th ^ 2).
Proof.
  intros th t N. repeat split; apply is_derive_Reals; auto_derive; try exact I; field; exact N.
Qed.
Lemma Ecur_d : forall w t, deriv_m3 (Ecur w) t (mul3 (Ecur w t) (so3_alg w)).
Proof.
  intros w t. unfold Ecur. destruct (Req_EM_T (norm3 w) 0) as [Z|N].
  - apply norm3_zero in Z. subst w. eapply deriv_m3_eq; [|apply deriv_const_m3]. apply M3_ext; cbn; ring.
  - destruct (coefs_t (norm3 w) t N) as (DC & DS & DO & _).
    eapply deriv_m3_eq; [|apply matc_deriv_const; [exact DC|exact DS|exact DO]].
    rewrite matc_alg, norm3_sq2. reflexivity.
Qed.
Lemma Vcur_d : forall w t, deriv_m3 (Vcur w) t (Ecur w t).
Proof.
  intros w t. unfold Ecur, Vcur. destruct (Req_EM_T (norm3 w) 0) as [Z|N].
  - apply norm3_zero in Z. subst w. eapply deriv_m3_eq; [|apply matc_deriv_const; [apply d_id|apply d_const|apply d_const]].
    apply M3_ext; cbn; ring.
  - destruct (coefs_t (norm3 w) t N) as (_ & DS & DO & DM).
    apply matc_deriv_const; assumption.
Qed.
Lemma skew_quad : forall w r, dot3 r (app3 (tr3 (so3_alg w)) r) = 0.
Proof. intros [] []. unfold dot3; cbn. ring. Qed.
Lemma deriv_zero_const3 : forall F, (forall t, deriv3 F t zero3) -> forall t, F t = F 0.
Proof.
  intros F H t. apply V3_ext.
  - apply (deriv_zero_const (fun t => b0 (F t))); intro s; apply (H s).
  - apply (deriv_zero_const (fun t => b1 (F t))); intro s; apply (H s).
  - apply (deriv_zero_const (fun t => b2 (F t))); intro s; apply (H s).
Qed.

Lemma is_exp_44 : forall v m, is_exp_m44 (se3_alg v) m
  <-> m = mkM44 (E3 (ang v)) (app3 (Vcur (ang v) 1) (lin v)) zero3 1.
Proof.
  intros [l w] m. cbn [lin ang]. split.
  - intros (G & G0 & GD & G1).
    assert (GR : forall t, q33 (G t) = Ecur w t).
    { apply (sol_unique (so3_alg w) (Ecur w) (Ecur_0 w) (Ecur_d w) (Ecur_comm w)).
      - rewrite G0. reflexivity.
      - intro t. destruct (GD t) as (D & _). eapply deriv_m3_eq; [|exact D].
        cbn [mul44 se3_alg q33 q31 q13 q11 ang]. rewrite colrow_0, madd_0_r. reflexivity. }
    assert (GZ : forall t, q13 (G t) = zero3).
    { intro t. assert (S : forall t, deriv (fun t => dot3 (q13 (G t)) (q13 (G t))) t 0).
      { intro s. destruct (GD s) as (_ & _ & D & _).
        cbn [mul44 se3_alg q33 q31 q13 q11 ang] in D.
        replace (scal3 (q11 (G s)) zero3) with zero3 in D by (apply V3_ext; cbn; ring).
        rewrite add3_0_r in D. destruct D as (A0 & A1 & A2).
        unfold dot3. eapply deriv_val; [|apply deriv_dot3; eassumption].
        pose proof (skew_quad w (q13 (G s))) as Q. unfold dot3 in Q. lra. }
      pose proof (deriv_zero_const _ S t) as E. cbv beta in E. rewrite G0 in E. cbn [I44 q13] in E.
      assert (Z : dot3 zero3 zero3 = 0) by (unfold dot3; cbn; ring).
      rewrite Z in E. apply norm3_zero. unfold norm3. unfold dot3 in E. rewrite E. apply sqrt_0. }
    assert (GC : forall t, q11 (G t) = 1).
    { intro t. assert (S : forall t, deriv (fun t => q11 (G t)) t 0).
      { intro s. destruct (GD s) as (_ & _ & _ & D). eapply deriv_val; [|exact D].
        cbn [mul44 se3_alg q33 q31 q13 q11 ang lin]. rewrite GZ. unfold dot3; cbn. ring. }
      pose proof (deriv_zero_const _ S t) as E. cbv beta in E. rewrite G0 in E. exact E. }
    assert (GP : forall t, q31 (G t) = app3 (Vcur w t) l).
    { intro t. assert (S : forall t, deriv3 (fun t => sub3 (q31 (G t)) (app3 (Vcur w t) l)) t zero3).
      { intro s. destruct (GD s) as (_ & D & _). cbn [mul44 se3_alg q33 q31 q13 q11 ang lin] in D.
        rewrite scal3_0, add3_0_r, GR in D.
        pose proof (deriv_app3 (Vcur w) (fun _ => l) s _ _ (Vcur_d w s) (deriv_const3 l s)) as D2. cbv beta in D2.
        rewrite app3_zero_v, add3_0_r in D2.
        destruct D as (A0&A1&A2), D2 as (B0&B1&B2). unfold deriv3, sub3. cbn [b0 b1 b2 zero3].
        repeat split; (eapply deriv_val; [|apply d_minus; eassumption]); ring. }
      pose proof (deriv_zero_const3 _ S t) as E. cbv beta in E. rewrite G0, Vcur_0, app3_zero_m in E. cbn [I44 q31] in E.
      destruct (q31 (G t)), (app3 (Vcur w t) l). injection E. intros. apply V3_ext; cbn; lra. }
    rewrite <- G1. apply M44_ext; cbn [q33 q31 q13 q11].
    + rewrite GR. apply Ecur_1.
    + apply GP.
    + apply GZ.
    + apply GC.
  - intros ->. exists (fun t => mkM44 (Ecur w t) (app3 (Vcur w t) l) zero3 1). split; [|split].
    + rewrite Ecur_0, Vcur_0, app3_zero_m. reflexivity.
    + intro t. unfold deriv_m44. cbn [mul44 se3_alg q33 q31 q13 q11 ang lin].
      rewrite colrow_0, madd_0_r, scal3_0, add3_0_r, app3_zero_v, scal3_1, add3_0_l.
      split; [apply Ecur_d|]. split; [|split; [apply deriv_const3|]].
      * eapply deriv3_eq; [|apply (deriv_app3 (Vcur w) (fun _ => l) t _ _ (Vcur_d w t) (deriv_const3 l t))].
        cbv beta. rewrite app3_zero_v. apply add3_0_r.
      * eapply deriv_val; [|apply d_const]. unfold dot3; cbn. ring.
    + rewrite Ecur_1. reflexivity.
Qed.

(** exp is the matrix exponential of hat(v): exactly, unless the angle is
    positive and below the branch threshold *)
Theorem C37_exp_is_exponential : forall d v g,
  so3_near_zero_eps d <= len3 (ang v) \/ ang v = zero3 -> se3_exp d v = Some g ->
  forall m, is_exp_m44 (se3_alg v) m <-> m = hmat g.
Proof.
  intros d v g H E m. rewrite is_exp_44.
  assert (hmat g = mkM44 (E3 (ang v)) (app3 (Vcur (ang v) 1) (lin v)) zero3 1) as ->; [|tauto].
  pose proof (so3_eps_pos d) as EP. unfold hmat. destruct H as [H|H].
  - rewrite <- norm3_len in H. rewrite (se3_exp_big d v H) in E. cbv zeta in E. apply some_inj in E. subst g.
    cbn [rr rp]. unfold E3, Vcur. destruct (Req_EM_T (norm3 (ang v)) 0); [lra|].
    rewrite Rmult_1_r. replace (norm3 (ang v) ^ 3) with (norm3 (ang v) * norm3 (ang v) ^ 2) by ring. reflexivity.
  - destruct v as [l w]. cbn [ang] in H. subst w. cbn [lin ang].
    assert (Z : norm3 zero3 = 0).
    { unfold norm3, zero3. cbn [b0 b1 b2]. replace (0 * 0 + 0 * 0 + 0 * 0) with 0 by ring. apply sqrt_0. }
    rewrite se3_exp_small in E by (cbn [ang]; lra). cbv zeta in E. apply some_inj in E. subst g. cbn [rr rp lin ang].
    replace (dot3 zero3 zero3) with 0 by (unfold dot3, zero3; cbn [b0 b1 b2]; ring).
    unfold E3, Vcur. destruct (Req_EM_T (norm3 zero3) 0); [|lra].
    apply M44_ext; cbn [q33 q31 q13 q11]; try reflexivity.
    + apply M3_ext; cbn [matc I3 zero3 d00 d01 d02 d10 d11 d12 d20 d21 d22 b0 b1 b2]; field.
    + f_equal. apply M3_ext; cbn [matc I3 zero3 d00 d01 d02 d10 d11 d12 d20 d21 d22 b0 b1 b2]; field.
Qed.

(** ** lengths *)
Lemma len3_pos : forall v, 0 <= len3 v.
Proof. intro. apply sqrt_pos. Qed.
Lemma len3_sq : forall v, len3 v * len3 v = dot3 v v.
Proof. intro v. apply (norm3_sq v). Qed.
Lemma sq_le : forall a b, 0 <= b -> a * a <= b * b -> a <= b.
Proof. intros a b B H. nra. Qed.
Lemma lagrange : forall u v, dot3 u v * dot3 u v + dot3 (cross u v) (cross u v) = dot3 u u * dot3 v v.
Proof. intros [] []. unfold dot3, cross; cbn. ring. Qed.
Lemma dot3_len : forall u v, Rabs (dot3 u v) <= len3 u * len3 v.
Proof.
  intros u v. apply sq_le. { apply Rmult_le_pos; apply len3_pos. }
  replace (Rabs (dot3 u v) * Rabs (dot3 u v)) with (dot3 u v * dot3 u v)
    by (rewrite <- Rabs_mult, Rabs_pos_eq; nra).
  replace (len3 u * len3 v * (len3 u * len3 v)) with ((len3 u * len3 u) * (len3 v * len3 v)) by ring.
  rewrite !len3_sq, <- lagrange. pose proof (dot3_pos (cross u v)). lra.
Qed.
Lemma cross_len : forall u v, len3 (cross u v) <= len3 u * len3 v.
Proof.
  intros u v. apply sq_le. { apply Rmult_le_pos; apply len3_pos. }
  replace (len3 u * len3 v * (len3 u * len3 v)) with ((len3 u * len3 u) * (len3 v * len3 v)) by ring.
  rewrite !len3_sq, <- lagrange. nra.
Qed.
Lemma scal_len : forall a v, len3 (scal3 a v) = Rabs a * len3 v.
Proof.
  intros a v. unfold len3. rewrite <- (sqrt_Rsqr_abs a). rewrite <- sqrt_mult_alt by apply Rle_0_sqr.
  f_equal. destruct v. unfold dot3, Rsqr; cbn. ring.
Qed.
Lemma add_len : forall u v, len3 (add3 u v) <= len3 u + len3 v.
Proof.
  intros u v. pose proof (len3_pos u). pose proof (len3_pos v). apply sq_le; [lra|].
  rewrite len3_sq. replace (dot3 (add3 u v) (add3 u v)) with (dot3 u u + dot3 v v + 2 * dot3 u v)
    by (destruct u, v; unfold dot3; cbn; ring).
  pose proof (dot3_len u v) as D. apply Rabs_le_between in D.
  pose proof (len3_sq u). pose proof (len3_sq v). nra.
Qed.

Lemma tmsc_coef : forall t, 0 < t < 1 -> Rabs ((t - sin t) / t ^ 3 - (1 / 6 - t ^ 2 / 120)) <= t ^ 4 / 5040.
Proof.
  intros t H. pose proof (sin_le_5 t ltac:(lra)). pose proof (sin_ge_7 t ltac:(lra)).
  assert (P : 0 < t ^ 3) by (apply pow_lt; lra).
  assert (Q : 0 < / t ^ 3) by (apply Rinv_0_lt_compat; exact P).
  apply Rabs_le.
  assert (A : 1 / 6 - t ^ 2 / 120 <= (t - sin t) / t ^ 3).
  { replace (1 / 6 - t ^ 2 / 120) with ((t ^ 3 / 6 - t ^ 5 / 120) / t ^ 3) by (field; lra).
    apply Rmult_le_compat_r; lra. }
  assert (B : (t - sin t) / t ^ 3 <= 1 / 6 - t ^ 2 / 120 + t ^ 4 / 5040).
  { replace (1 / 6 - t ^ 2 / 120 + t ^ 4 / 5040) with ((t ^ 3 / 6 - t ^ 5 / 120 + t ^ 7 / 5040) / t ^ 3) by (field; lra).
    apply Rmult_le_compat_r; lra. }
  assert (0 <= t ^ 4) by (apply pow_le; lra). lra.
Qed.
Lemma matc_app_len : forall c s o w v,
  len3 (app3 (matc c s o w) v) <= (Rabs c + Rabs s * len3 w + Rabs o * (len3 w * len3 w)) * len3 v.
Proof.
  intros c s o w v. rewrite matc_app.
  eapply Rle_trans; [apply add_len|]. eapply Rle_trans; [apply Rplus_le_compat_r, add_len|].
  rewrite !scal_len. pose proof (cross_len w v) as C. pose proof (dot3_len w v) as D.
  pose proof (Rabs_pos s). pose proof (Rabs_pos o). pose proof (len3_pos w). pose proof (len3_pos v).
  assert (Rabs s * len3 (cross w v) <= Rabs s * (len3 w * len3 v)) by (apply Rmult_le_compat_l; lra).
  assert (Rabs (dot3 w v) * len3 w <= (len3 w * len3 v) * len3 w) by (apply Rmult_le_compat_r; lra).
  assert (Rabs o * (Rabs (dot3 w v) * len3 w) <= Rabs o * ((len3 w * len3 v) * len3 w)) by (apply Rmult_le_compat_l; lra).
  lra.
Qed.
Lemma matc_sub : forall c s o c' s' o' w v,
  sub3 (app3 (matc c s o w) v) (app3 (matc c' s' o' w) v) = app3 (matc (c - c') (s - s') (o - o') w) v.
Proof. intros c s o c' s' o' [] []. apply V3_ext; cbn; ring. Qed.

(** inside the small-angle branch: every entry of the rotation is within
    theta^3/10 of the exponential's, and the translation within theta^2 |v| / 10 *)
Theorem C37_exp_small_angle : forall d v g m,
  len3 (ang v) < so3_near_zero_eps d -> se3_exp d v = Some g -> is_exp_m44 (se3_alg v) m ->
  near_m3 (len3 (ang v) ^ 3 / 10) (rr g) (q33 m)
  /\ len3 (sub3 (rp g) (q31 m)) <= len3 (ang v) ^ 2 * len3 (lin v) / 10
  /\ q13 m = zero3 /\ q11 m = 1.
Proof.
  intros d v g m H E M. apply is_exp_44 in M. subst m. cbn [q33 q31 q13 q11].
  split; [|split; [|split; reflexivity]].
  - destruct (C37_exp_rigid d v) as (g' & E' & _ & R). rewrite E in E'. apply some_inj in E'. subst g'.
    apply (C36_exp_small_angle d (ang v) (rr g) _ H R). apply is_exp_E3. reflexivity.
  - rewrite <- norm3_len in H. rewrite (se3_exp_small d v H) in E. cbv zeta in E. apply some_inj in E. subst g.
    cbn [rp]. rewrite <- norm3_sq2. unfold Vcur. pose proof (so3_eps_pos d).
    destruct (Req_EM_T (norm3 (ang v)) 0) as [Z|N].
    + assert (W : ang v = zero3) by (apply norm3_zero; exact Z). rewrite W. rewrite matc_sub.
      eapply Rle_trans; [apply matc_app_len|].
      assert (LZ : len3 zero3 = 0) by (rewrite <- norm3_len, <- W; exact Z).
      change (norm3 zero3) with (len3 zero3). rewrite LZ. replace (4 / (4 + 0 ^ 2) - 1) with 0 by field. rewrite Rabs_R0.
      pose proof (len3_pos (lin v)). nra.
    + rewrite Rmult_1_r. pose proof (norm3_pos (ang v)). rewrite matc_sub.
      eapply Rle_trans; [apply matc_app_len|]. change (len3 (ang v)) with (norm3 (ang v)). set (t := norm3 (ang v)) in *.
      pose proof (sinc_coef t ltac:(lra)) as S. pose proof (cosc_coef t ltac:(lra)) as O.
      pose proof (tmsc_coef t ltac:(lra)) as T.
      assert (S' : Rabs (4 / (4 + t ^ 2) - sin t / t) <= t ^ 2 / 12) by (apply Rabs_le; lra).
      assert (O' : Rabs (2 / (4 + t ^ 2) - (1 - cos t) / t ^ 2) <= t ^ 2 / 8) by (apply Rabs_le; lra).
      rewrite Rabs_minus_sym in T.
      assert (T0 : 0 < t <= / 100) by lra. clearbody t. clear S O.
      set (x := Rabs (4 / _ - _)) in *. set (y := Rabs (2 / _ - _)) in *. set (z := Rabs (1 / 6 - _ - _)) in *.
      pose proof (Rabs_pos (2 / (4 + t ^ 2) - (1 - cos t) / t ^ 2)) as Y0. fold y in Y0.
      pose proof (Rabs_pos (1 / 6 - t ^ 2 / 120 - (t - sin t) / t ^ 3)) as Z0. fold z in Z0.
      clearbody x y z. pose proof (len3_pos (lin v)) as L.
      apply Rle_trans with (t ^ 2 / 10 * len3 (lin v)); [|lra].
      apply Rmult_le_compat_r; [exact L|].
      assert (t ^ 2 <= / 10000) by nra.
      assert (y * t <= t ^ 2 / 8 * / 100) by nra.
      assert (t ^ 4 / 5040 <= t ^ 2) by (replace (t ^ 4) with (t ^ 2 * t ^ 2) by ring; nra).
      assert (z * (t * t) <= t ^ 2 * / 10000) by nra. nra.
Qed.
(** the error of the translation is really of that order: for a unit rotation
    axis and a unit velocity across it the result is off by at least theta^2/13 *)
Theorem C37_exp_small_angle_error : forall d t g m, 0 < t < so3_near_zero_eps d ->
  se3_exp d (mkTw (mkV3 1 0 0) (mkV3 0 0 t)) = Some g ->
  is_exp_m44 (se3_alg (mkTw (mkV3 1 0 0) (mkV3 0 0 t))) m ->
  t ^ 2 / 13 <= b0 (q31 m) - b0 (rp g).
Proof.
  intros d t g m H E M. apply is_exp_44 in M. subst m. cbn [q31 ang lin].
  pose proof (so3_eps_pos d).
  assert (N : norm3 (mkV3 0 0 t) = t).
  { unfold norm3. cbn [b0 b1 b2]. replace (0 * 0 + 0 * 0 + t * t) with (t * t) by ring. apply sqrt_square. lra. }
  rewrite se3_exp_small in E by (cbn [ang]; lra). cbv zeta in E. apply some_inj in E. subst g. cbn [rp ang lin].
  rewrite <- norm3_sq2, N. unfold Vcur. rewrite N. destruct (Req_EM_T t 0); [lra|]. rewrite Rmult_1_r.
  cbn [app3 matc d00 d01 d02 b0 b1 b2].
  pose proof (sin_ge_3 t ltac:(lra)) as S3.
  assert (A' : 1 - t ^ 2 / 6 <= sin t / t).
  { replace (1 - t ^ 2 / 6) with ((t - t ^ 3 / 6) / t) by (field; lra).
    apply Rmult_le_compat_r; [|lra]. left. apply Rinv_0_lt_compat. lra. }
  assert (K : 4 / (4 + t ^ 2) = 1 - t ^ 2 / 4 + (t ^ 4 / 4) * / (4 + t ^ 2)) by (field; nra).
  assert (K1 : / (4 + t ^ 2) <= / 4) by (apply Rinv_le_contravar; nra).
  rewrite K. assert (U : 0 <= t ^ 2 <= / 10000) by nra.
  assert (t ^ 4 <= t ^ 2 * / 10000) by (replace (t ^ 4) with (t ^ 2 * t ^ 2) by ring; apply Rmult_le_compat_l; lra).
  assert (0 <= t ^ 4) by (apply pow_le; lra).
  assert (t ^ 4 / 4 * / (4 + t ^ 2) <= t ^ 4 / 4 * / 4) by (apply Rmult_le_compat_l; lra).
  lra.
Qed.
