(** C36: the Jacobian SO3.exp returns is the exact right derivative of the
    function SO3.exp computes, in both of its branches. *)
From Coq Require Import Reals Lra Psatz.
From Coquelicot Require Import Coquelicot.
From Verif Require Import Geo_spec Geo3_spec Trig Exp_unique SE2_model SE2_group SE2_exp SE2_jac
  SO3_model SO3_exp.
Local Open Scope R_scope.

Definition line (v dl : V3) (t : R) : V3 := add3 v (scal3 t dl).
Lemma line_0 : forall v dl, line v dl 0 = v.
Proof. intros [] []. apply V3_ext; cbn; ring. Qed.

Lemma deriv_dot : forall v dl, deriv (fun t => dot3 (line v dl t) (line v dl t)) 0 (2 * dot3 v dl).
Proof.
  intros [x y z] [p q r]. unfold line, add3, scal3, dot3; cbn [b0 b1 b2].
  dgo. ring.
Qed.
Lemma cont_norm : forall v dl e, 0 < e -> exists r, 0 < r /\
  forall t, Rabs t < r -> Rabs (norm3 (line v dl t) - norm3 v) < e.
Proof.
  intros v dl e He.
  assert (C : continuity_pt (fun t => norm3 (line v dl t)) 0).
  { unfold norm3. apply (continuity_pt_comp (fun t => dot3 (line v dl t) (line v dl t)) sqrt).
    - apply derivable_continuous_pt. exists (2 * dot3 v dl). apply deriv_dot.
    - apply continuity_pt_sqrt. apply dot3_pos. }
  destruct (C e He) as (r & Hr & Hc). exists r. split; [exact Hr|].
  intros t Ht. destruct (Req_EM_T t 0) as [->|N].
  - rewrite line_0. unfold Rminus. rewrite Rplus_opp_r, Rabs_R0. exact He.
  - specialize (Hc t). unfold dist in Hc; cbn in Hc. unfold R_dist in Hc.
    rewrite line_0 in Hc. apply Hc. split.
    + split; [exact I|]. congruence.
    + rewrite Rminus_0_r. exact Ht.
Qed.
Lemma deriv_norm : forall v dl, norm3 v <> 0 ->
  deriv (fun t => norm3 (line v dl t)) 0 (dot3 v dl / norm3 v).
Proof.
  intros v dl N. pose proof (norm3_pos v) as P. pose proof (norm3_sq v) as Q.
  assert (D : 0 < dot3 v v) by nra.
  eapply deriv_val; [|apply (d_comp sqrt (fun t => dot3 (line v dl t) (line v dl t)))].
  2: apply deriv_dot.
  2: rewrite line_0; apply is_derive_Reals; auto_derive; [exact D|reflexivity].
  cbv beta. change (sqrt (dot3 v v)) with (norm3 v). field. exact N.
Qed.

(** the derivative of c I + s hat(v) + o v v^T along a line *)
Lemma deriv_matc : forall c s o c' s' o' v dl,
  deriv c 0 c' -> deriv s 0 s' -> deriv o 0 o' ->
  deriv_m3 (fun t => matc (c t) (s t) (o t) (line v dl t)) 0
   (mkM3
    (o' * b0 v * b0 v + o 0 * (b0 dl * b0 v + b0 v * b0 dl) + c')
    (o' * b0 v * b1 v + o 0 * (b0 dl * b1 v + b0 v * b1 dl) - (s' * b2 v + s 0 * b2 dl))
    (o' * b0 v * b2 v + o 0 * (b0 dl * b2 v + b0 v * b2 dl) + (s' * b1 v + s 0 * b1 dl))
    (o' * b1 v * b0 v + o 0 * (b1 dl * b0 v + b1 v * b0 dl) + (s' * b2 v + s 0 * b2 dl))
    (o' * b1 v * b1 v + o 0 * (b1 dl * b1 v + b1 v * b1 dl) + c')
    (o' * b1 v * b2 v + o 0 * (b1 dl * b2 v + b1 v * b2 dl) - (s' * b0 v + s 0 * b0 dl))
    (o' * b2 v * b0 v + o 0 * (b2 dl * b0 v + b2 v * b0 dl) - (s' * b1 v + s 0 * b1 dl))
    (o' * b2 v * b1 v + o 0 * (b2 dl * b1 v + b2 v * b1 dl) + (s' * b0 v + s 0 * b0 dl))
    (o' * b2 v * b2 v + o 0 * (b2 dl * b2 v + b2 v * b2 dl) + c')).
Proof.
  intros c s o c' s' o' [x y z] [p q r] DC DS DO.
  unfold deriv_m3, matc, line, add3, scal3.
  cbn [d00 d01 d02 d10 d11 d12 d20 d21 d22 b0 b1 b2].
  repeat split; (eapply deriv_val; [|repeat dstep]); cbv beta; ring.
Qed.

Lemma jexp_mat_big : forall d v, so3_near_zero_eps d <= norm3 v ->
  so3_jexp d v = Some (so3_jexp_mat v (sin (norm3 v) / norm3 v) ((1 - cos (norm3 v)) / norm3 v ^ 2)
    ((norm3 v - sin (norm3 v)) / (norm3 v * norm3 v ^ 2))).
Proof.
  intros d v H. pose proof (so3_eps_pos d) as P. unfold so3_jexp. rewrite (exp_aux_big d v H).
  unfold bind at 1. cbn [x_theta x_theta_nz x_theta2_nz x_sine x_sbt x_omc].
  rewrite lt_b_false by exact H. unfold where_. rewrite div_some; [reflexivity|].
  apply Rmult_integral_contrapositive_currified; [lra|]. apply pow_nonzero. lra.
Qed.
Lemma jexp_mat_small : forall d v, norm3 v < so3_near_zero_eps d ->
  so3_jexp d v = Some (so3_jexp_mat v (4 / (4 + dot3 v v)) (2 / (4 + dot3 v v)) 0).
Proof.
  intros d v H. unfold so3_jexp. rewrite (exp_aux_small d v H).
  unfold bind at 1. cbn [x_theta x_theta_nz x_theta2_nz x_sine x_sbt x_omc].
  rewrite lt_b_true by exact H. unfold where_. rewrite div_some by lra. unfold bind.
  rewrite norm3_sq2. reflexivity.
Qed.

(** coefficients along the line, true branch *)
Lemma big_coefs : forall v dl, norm3 v <> 0 ->
  let th := norm3 v in let m := dot3 v dl in
  deriv (fun t => cos (norm3 (line v dl t))) 0 (- (sin th / th) * m)
  /\ deriv (fun t => sin (norm3 (line v dl t)) / norm3 (line v dl t)) 0
       ((cos th - sin th / th) / th ^ 2 * m)
  /\ deriv (fun t => (1 - cos (norm3 (line v dl t))) / norm3 (line v dl t) ^ 2) 0
       ((sin th / th - 2 * ((1 - cos th) / th ^ 2)) / th ^ 2 * m).
Proof.
  intros v dl N th m. pose proof (deriv_norm v dl N) as D. fold th m in D.
  assert (Z : norm3 (line v dl 0) = th) by (rewrite line_0; reflexivity).
  repeat split.
  - eapply deriv_val; [|apply (d_comp cos (fun t => norm3 (line v dl t))); [exact D|]].
    2: apply derivable_pt_lim_cos. cbv beta. rewrite Z. field. exact N.
  - eapply deriv_val; [|apply (d_comp (fun u => sin u / u) (fun t => norm3 (line v dl t))); [exact D|]].
    2: cbv beta; rewrite Z; apply is_derive_Reals; auto_derive; [exact N|reflexivity].
    cbv beta. field. exact N.
  - eapply deriv_val; [|apply (d_comp (fun u => (1 - cos u) / u ^ 2) (fun t => norm3 (line v dl t))); [exact D|]].
    2: cbv beta; rewrite Z; apply is_derive_Reals; auto_derive; [|reflexivity].
    2: rewrite Rmult_1_r; apply Rmult_integral_contrapositive_currified; exact N.
    cbv beta. field. exact N.
Qed.
Lemma small_coefs3 : forall v dl,
  let k := / (4 + dot3 v v) in let m := dot3 v dl in
  deriv (fun t => 8 / (4 + dot3 (line v dl t) (line v dl t)) - 1) 0 (- 16 * k * k * m)
  /\ deriv (fun t => 4 / (4 + dot3 (line v dl t) (line v dl t))) 0 (- 8 * k * k * m)
  /\ deriv (fun t => 2 / (4 + dot3 (line v dl t) (line v dl t))) 0 (- 4 * k * k * m).
Proof.
  intros v dl k m. pose proof (deriv_dot v dl) as D. fold m in D.
  assert (Z : dot3 (line v dl 0) (line v dl 0) = dot3 v v) by (rewrite line_0; reflexivity).
  pose proof (dot3_pos v) as P.
  assert (G : forall a, deriv (fun t => a / (4 + dot3 (line v dl t) (line v dl t))) 0 (- (a * 2) * k * k * m)).
  { intro a. eapply deriv_val;
      [|apply (d_comp (fun u => a / (4 + u)) (fun t => dot3 (line v dl t) (line v dl t))); [exact D|]].
    2: cbv beta; rewrite Z; apply is_derive_Reals; auto_derive; [lra|reflexivity].
    cbv beta. unfold k. field. lra. }
  repeat split.
  - eapply deriv_val; [|eapply d_minus; [apply G|apply d_const]]. cbv beta. ring.
  - eapply deriv_val; [|apply G]. ring.
  - eapply deriv_val; [|apply G]. ring.
Qed.

Lemma exp_velocity : forall v dl J c s o c' s' o' tms, 
  deriv c 0 c' -> deriv s 0 s' -> deriv o 0 o' ->
  J = so3_jexp_mat v (s 0) (o 0) tms ->
  (exists k, k * dot3 v v = 1 /\ c' = - s 0 * dot3 v dl /\ s' = (c 0 - s 0) * k * dot3 v dl
     /\ o' = (s 0 - 2 * o 0) * k * dot3 v dl /\ o 0 = (1 - c 0) * k /\ tms = (1 - s 0) * k
     /\ s 0 * s 0 = (1 - c 0 * c 0) * k)
  \/ (exists k, dot3 v v * k = 1 - 4 * k /\ c' = - 16 * k * k * dot3 v dl /\ s' = - 8 * k * k * dot3 v dl
     /\ o' = - 4 * k * k * dot3 v dl /\ c 0 = 8 * k - 1 /\ s 0 = 4 * k /\ o 0 = 2 * k /\ tms = 0) ->
  deriv_m3 (fun t => matc (c t) (s t) (o t) (line v dl t)) 0
    (mul3 (matc (c 0) (s 0) (o 0) v) (so3_alg (app3 J dl))).
Proof.
  intros [x y z] [p q r] J c s o c' s' o' tms DC DS DO ->.
  pose proof (deriv_matc c s o c' s' o' (mkV3 x y z) (mkV3 p q r) DC DS DO) as D.
  generalize dependent (c 0). intros C0. generalize dependent (s 0). intros S0. 
  generalize dependent (o 0). intros O0 D [H|H].
  - destruct H as (k & K & C & S & O & OO & T & SS).
    match type of D with deriv_m3 _ _ ?L => assert (E : L = mul3 (matc C0 S0 O0 (mkV3 x y z))
      (so3_alg (app3 (so3_jexp_mat (mkV3 x y z) S0 O0 tms) (mkV3 p q r)))) end; [|rewrite E in D; exact D].
    clear D DC DS DO. subst c' s' o' O0 tms. unfold dot3 in *. cbn [b0 b1 b2] in *.
    set (n := x * x + y * y + z * z) in *.
    assert (X : x * x = n - y * y - z * z) by (unfold n; ring). clearbody n.
    apply M3_ext; cbn; ring [X SS K].
  - destruct H as (k & K & C & S & O & OC & OS & OO & T).
    match type of D with deriv_m3 _ _ ?L => assert (E : L = mul3 (matc C0 S0 O0 (mkV3 x y z))
      (so3_alg (app3 (so3_jexp_mat (mkV3 x y z) S0 O0 tms) (mkV3 p q r)))) end; [|rewrite E in D; exact D].
    clear D DC DS DO. subst c' s' o' C0 S0 O0 tms. unfold dot3 in *. cbn [b0 b1 b2] in *.
    set (n := x * x + y * y + z * z) in *.
    assert (X : x * x = n - y * y - z * z) by (unfold n; ring). clearbody n.
    apply M3_ext; cbn; ring [X K].
Qed.

(** exp_map's Jacobian: for every tangent vector v whose length is not exactly
    the branch threshold and every direction dl, the velocity of exp(v + t dl)
    at t = 0 is exp(v) hat(J dl) *)
Theorem C36_exp_jac : forall d v dl J g M, len3 v <> so3_near_zero_eps d ->
  so3_jexp d v = Some J -> so3_exp d v = Some g ->
  (forall t, so3_exp d (add3 v (scal3 t dl)) = Some (M t)) ->
  deriv_m3 M 0 (mul3 g (so3_alg (app3 J dl))).
Proof.
  intros d v dl J g M NE EJ EG EM. rewrite <- norm3_len in NE.
  change (forall t, so3_exp d (line v dl t) = Some (M t)) in EM.
  destruct (Rlt_le_dec (norm3 v) (so3_near_zero_eps d)) as [S|B].
  - rewrite (jexp_mat_small d v S) in EJ. apply some_inj in EJ.
    rewrite (so3_exp_small d v S) in EG. apply some_inj in EG. subst g.
    destruct (cont_norm v dl (so3_near_zero_eps d - norm3 v) ltac:(lra)) as (r & Hr & C).
    destruct (small_coefs3 v dl) as (DC & DS & DO). pose proof (dot3_pos v) as P.
    pose proof (exp_velocity v dl J _ _ _ _ _ _ 0 DC DS DO ltac:(cbv beta; rewrite line_0; symmetry; exact EJ)) as V.
    cbv beta in V. rewrite line_0 in V.
    assert (L : forall t, Rabs t < r -> matc (8 / (4 + dot3 (line v dl t) (line v dl t)) - 1)
       (4 / (4 + dot3 (line v dl t) (line v dl t))) (2 / (4 + dot3 (line v dl t) (line v dl t))) (line v dl t) = M t).
    { intros t Ht. specialize (C t Ht). apply Rabs_def2 in C.
      specialize (EM t). rewrite so3_exp_small in EM by lra. apply some_inj in EM. exact EM. }
    destruct V as (V0&V1&V2&V3&V4&V5&V6&V7&V8).
    { right. exists (/ (4 + dot3 v v)). repeat split; try reflexivity; field; lra. }
    repeat split; (eapply deriv_ext_loc; [exact Hr| |eassumption]); intros t Ht; cbv beta;
      rewrite Rminus_0_r in Ht; rewrite (L t Ht); reflexivity.
  - rewrite (jexp_mat_big d v B) in EJ. apply some_inj in EJ.
    rewrite (so3_exp_big d v B) in EG. apply some_inj in EG. subst g.
    pose proof (so3_eps_pos d) as EP.
    destruct (cont_norm v dl (norm3 v - so3_near_zero_eps d) ltac:(lra)) as (r & Hr & C).
    assert (N : norm3 v <> 0) by lra.
    destruct (big_coefs v dl N) as (DC & DS & DO).
    pose proof (exp_velocity v dl J _ _ _ _ _ _ _ DC DS DO ltac:(cbv beta; rewrite line_0; symmetry; exact EJ)) as V.
    cbv beta in V. rewrite line_0 in V.
    assert (L : forall t, Rabs t < r -> matc (cos (norm3 (line v dl t)))
       (sin (norm3 (line v dl t)) / norm3 (line v dl t))
       ((1 - cos (norm3 (line v dl t))) / norm3 (line v dl t) ^ 2) (line v dl t) = M t).
    { intros t Ht. specialize (C t Ht). apply Rabs_def2 in C.
      specialize (EM t). rewrite so3_exp_big in EM by lra. apply some_inj in EM. exact EM. }
    destruct V as (V0&V1&V2&V3&V4&V5&V6&V7&V8).
    { left. exists (/ norm3 v ^ 2). rewrite <- norm3_sq2.
      pose proof (sin2cos2 (norm3 v)) as Q.
      assert (QQ : sin (norm3 v) ^ 2 = 1 - cos (norm3 v) ^ 2) by (cbn; lra).
      repeat split; try reflexivity; try (field; exact N).
      field_simplify_eq; [|exact N]. ring [QQ]. }
    repeat split; (eapply deriv_ext_loc; [exact Hr| |eassumption]); intros t Ht; cbv beta;
      rewrite Rminus_0_r in Ht; rewrite (L t Ht); reflexivity.
Qed.

Theorem C36_exp_jac_total : forall d v, exists J, so3_jexp d v = Some J.
Proof.
  intros d v. destruct (Rlt_le_dec (norm3 v) (so3_near_zero_eps d)) as [S|B].
  - rewrite (jexp_mat_small d v S). eauto.
  - rewrite (jexp_mat_big d v B). eauto.
Qed.

(** witness: both branches are met *)
Example exp_jac_cases : len3 (mkV3 0 0 1) <> so3_near_zero_eps F64 /\ len3 zero3 <> so3_near_zero_eps F64.
Proof.
  unfold len3, dot3, zero3; cbn [b0 b1 b2].
  replace (0 * 0 + 0 * 0 + 1 * 1) with 1 by ring. replace (0 * 0 + 0 * 0 + 0 * 0) with 0 by ring.
  rewrite sqrt_1, sqrt_0. cbn. lra.
Qed.
