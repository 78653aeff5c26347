(** C35 (Jacobians of exp_map and log_map) and C48 (Jacobians of compose,
    inverse, between, local, transform_from, transform_to, xy, theta, rotate,
    unrotate) of the planar groups.  A Jacobian J of an operation with respect
    to a group argument g is correct when, for every tangent vector delta, the
    velocity at t = 0 of the result along t |-> retract(g, t delta) is
       - J delta, if the result is a vector;
       - result * hat(J delta), if the result is a group element. *)
From Coq Require Import Reals Lra Psatz.
From Coquelicot Require Import Coquelicot.
From Verif Require Import Geo_spec Trig Exp_unique SE2_model SE2_group SE2_exp.
Local Open Scope R_scope.

(** ** the true Jacobian of the exponential *)
Lemma deriv_quad : forall f l K, 0 < K ->
  (forall x, Rabs x < 1 -> Rabs (f x - f 0 - l * x) <= K * x ^ 2) -> deriv f 0 l.
Proof.
  intros f l K HK H e He.
  assert (0 < Rmin 1 (e / K)).
  { apply Rmin_pos; [lra|]. apply Rdiv_lt_0_compat; assumption. }
  exists (mkposreal _ H0). intros h Nh Hh. cbn in Hh. rewrite Rplus_0_l.
  pose proof (Rmin_l 1 (e / K)). pose proof (Rmin_r 1 (e / K)).
  specialize (H h ltac:(lra)).
  replace ((f h - f 0) / h - l) with ((f h - f 0 - l * h) / h) by (field; exact Nh).
  unfold Rdiv. rewrite Rabs_mult, Rabs_inv.
  assert (P : 0 < Rabs h) by (apply Rabs_pos_lt; exact Nh).
  apply (Rmult_lt_reg_r (Rabs h)); [exact P|].
  rewrite Rmult_assoc, Rinv_l by lra. rewrite Rmult_1_r.
  eapply Rle_lt_trans; [exact H|]. rewrite <- (abs_pow2 h).
  assert (Rabs h < e / K) by lra.
  assert (K * Rabs h < e).
  { replace e with (K * (e / K)) by (field; lra). apply Rmult_lt_compat_l; assumption. }
  nra.
Qed.

Definition sinc (x : R) := if Req_EM_T x 0 then 1 else sin x / x.
Definition cosc (x : R) := if Req_EM_T x 0 then 0 else (cos x - 1) / x.

Lemma sinc_near : forall x, Rabs x < 1 -> Rabs (sinc x - sinc 0 - 0 * x) <= 1 * x ^ 2.
Proof.
  intros x Hx. unfold sinc. destruct (Req_EM_T 0 0); [|congruence].
  destruct (Req_EM_T x 0) as [->|N].
  - replace (1 - 1 - 0 * 0) with 0 by ring. rewrite Rabs_R0. lra.
  - pose proof (sinc_bound x N) as B. apply Rabs_le_between in B. apply Rabs_le.
    assert (0 <= x ^ 2 <= 1) by (rewrite <- abs_pow2; pose proof (Rabs_pos x); nra).
    replace (x ^ 4) with (x ^ 2 * x ^ 2) in B by ring. nra.
Qed.
Lemma cosc_near : forall x, Rabs x < 1 -> Rabs (cosc x - cosc 0 - (- (1 / 2)) * x) <= 1 * x ^ 2.
Proof.
  intros x Hx. unfold cosc. destruct (Req_EM_T 0 0); [|congruence].
  destruct (Req_EM_T x 0) as [->|N].
  - replace (0 - 0 - - (1 / 2) * 0) with 0 by ring. rewrite Rabs_R0. lra.
  - pose proof (cosc_bound x N) as B. pose proof (Rabs_pos x).
    replace ((cos x - 1) / x - 0 - - (1 / 2) * x)
      with (x ^ 3 / 24 - (- x / 2 + x ^ 3 / 24 - (cos x - 1) / x)) by (field; assumption).
    eapply Rle_trans; [apply Rabs_triang|]. rewrite Rabs_Ropp.
    replace (Rabs (x ^ 3 / 24)) with (Rabs x ^ 3 / 24)
      by (unfold Rdiv; rewrite Rabs_mult, RPow_abs, (Rabs_pos_eq (/ 24)) by lra; reflexivity).
    rewrite <- (abs_pow2 x). set (a := Rabs x) in *. clearbody a.
    assert (0 <= a ^ 2) by nra.
    replace (a ^ 3) with (a ^ 2 * a) by ring. replace (a ^ 5) with (a ^ 2 * a * (a * a)) in B by ring.
    assert (a ^ 2 * a <= a ^ 2) by nra. assert (0 <= a ^ 2 * a) by nra.
    assert (a ^ 2 * a * (a * a) <= a ^ 2 * a) by nra. nra.
Qed.
Lemma deriv_sinc0 : deriv sinc 0 0.
Proof. apply (deriv_quad _ _ 1); [lra|]. exact sinc_near. Qed.
Lemma deriv_cosc0 : deriv cosc 0 (- (1 / 2)).
Proof. apply (deriv_quad _ _ 1); [lra|]. exact cosc_near. Qed.
Lemma deriv_sinc : forall x, x <> 0 -> deriv sinc x ((cos x * x - sin x) / (x * x)).
Proof.
  intros x N. apply (deriv_ext_loc (fun x => sin x / x) _ _ _ (Rabs x)).
  - apply Rabs_pos_lt; assumption.
  - intros y Hy. unfold sinc. destruct (Req_EM_T y 0) as [->|]; [|reflexivity].
    rewrite Rminus_0_l, Rabs_Ropp in Hy. lra.
  - apply is_derive_Reals. auto_derive; [assumption|]. field. assumption.
Qed.
Lemma deriv_cosc : forall x, x <> 0 -> deriv cosc x ((- sin x * x - (cos x - 1)) / (x * x)).
Proof.
  intros x N. apply (deriv_ext_loc (fun x => (cos x - 1) / x) _ _ _ (Rabs x)).
  - apply Rabs_pos_lt; assumption.
  - intros y Hy. unfold cosc. destruct (Req_EM_T y 0) as [->|]; [|reflexivity].
    rewrite Rminus_0_l, Rabs_Ropp in Hy. lra.
  - apply is_derive_Reals. auto_derive; [assumption|]. field. assumption.
Qed.

Lemma E2_sinc : forall v, E2 v = mkSE2
  (sinc (b2 v) * b0 v + cosc (b2 v) * b1 v) (sinc (b2 v) * b1 v - cosc (b2 v) * b0 v)
  (cos (b2 v)) (sin (b2 v)).
Proof.
  intro v. unfold E2, sinc, cosc. destruct (Req_EM_T (b2 v) 0) as [->|]; [|reflexivity].
  rewrite cos_0, sin_0. apply SE2_ext; cbn; ring.
Qed.

(** polynomial combinations of differentiable functions *)
Lemma d_const : forall c t, deriv (fun _ => c) t 0.
Proof. intros. apply derivable_pt_lim_const. Qed.
Lemma d_id : forall t, deriv (fun t => t) t 1.
Proof. intros. apply derivable_pt_lim_id. Qed.
Lemma d_plus : forall f g t x y, deriv f t x -> deriv g t y -> deriv (fun t => f t + g t) t (x + y).
Proof. intros. apply derivable_pt_lim_plus; assumption. Qed.
Lemma d_minus : forall f g t x y, deriv f t x -> deriv g t y -> deriv (fun t => f t - g t) t (x - y).
Proof. intros. apply derivable_pt_lim_minus; assumption. Qed.
Lemma d_opp : forall f t x, deriv f t x -> deriv (fun t => - f t) t (- x).
Proof. intros. apply derivable_pt_lim_opp; assumption. Qed.
Lemma d_mult : forall f g t x y, deriv f t x -> deriv g t y ->
  deriv (fun t => f t * g t) t (x * g t + f t * y).
Proof. intros. apply derivable_pt_lim_mult; assumption. Qed.
Lemma d_comp : forall f g t x y, deriv g t x -> deriv f (g t) y -> deriv (fun t => f (g t)) t (y * x).
Proof. intros. apply (derivable_pt_lim_comp g f); assumption. Qed.

Ltac dpoly := lazymatch goal with
  | |- deriv (fun t => ?c) _ _ => first [ eassumption | apply d_const ]
  end.
Ltac dstep := first [ eassumption | apply d_id | apply d_const
  | lazymatch goal with
    | |- deriv (fun t => @?f t + @?g t) ?x _ => eapply (d_plus f g)
    | |- deriv (fun t => @?f t - @?g t) ?x _ => eapply (d_minus f g)
    | |- deriv (fun t => @?f t * @?g t) ?x _ => eapply (d_mult f g)
    | |- deriv (fun t => - @?f t) ?x _ => eapply (d_opp f)
    end ].
Ltac dgo := eapply deriv_val; [| repeat dstep ]; cbv beta.

(** the right Jacobian of the exponential: the code's exact formulas *)
Definition Jexp (v : V3) : M3 :=
  let th := b2 v in
  let a := sinc th in let b := cosc th in
  let p := if Req_EM_T th 0 then 0 else (th - sin th) / th ^ 2 in
  let q := if Req_EM_T th 0 then - (1 / 2) else (cos th - 1) / th ^ 2 in
  mkM3 a (- b) (p * b0 v + q * b1 v) b a (p * b1 v - q * b0 v) 0 0 1.

Lemma deriv_m3_ext : forall F G t L, (forall x, F x = G x) -> deriv_m3 F t L -> deriv_m3 G t L.
Proof.
  intros F G t L E (?&?&?&?&?&?&?&?&?).
  repeat split; (eapply deriv_ext; [|eassumption]); intro x; cbv beta; rewrite E; reflexivity.
Qed.

Lemma Jexp_correct : forall v dl M,
  (forall t, is_exp_m3 (se2_alg (add3 v (scal3 t dl))) (M t)) ->
  deriv_m3 M 0 (mul3 (M 0) (se2_alg (app3 (Jexp v) dl))).
Proof.
  intros v dl M H.
  assert (HM : forall t, M t = se2_to_matrix (E2 (add3 v (scal3 t dl)))).
  { intro t. apply is_exp_E2, H. }
  assert (H0 : M 0 = se2_to_matrix (E2 v)).
  { rewrite HM. do 2 f_equal. apply V3_ext; cbn; ring. }
  rewrite H0. clear H.
  destruct v as [u0 u1 th], dl as [e0 e1 w].
  assert (L : deriv (fun t => th + t * w) 0 w) by (dgo; ring).
  assert (Z : th + 0 * w = th) by ring.
  assert (DC : deriv (fun t => cos (th + t * w)) 0 (- sin th * w)).
  { apply (d_comp cos _ 0 w (- sin th)); [exact L|]. cbn. rewrite Z. apply derivable_pt_lim_cos. }
  assert (DS : deriv (fun t => sin (th + t * w)) 0 (cos th * w)).
  { apply (d_comp sin _ 0 w (cos th)); [exact L|]. cbn. rewrite Z. apply derivable_pt_lim_sin. }
  assert (Q : sin th ^ 2 = 1 - cos th ^ 2) by (pose proof (sin2cos2 th); lra).
  assert (K : exists sa sb,
    deriv sinc th sa /\ deriv cosc th sb
    /\ ((th = 0 /\ sa = 0 /\ sb = - (1 / 2)) \/
        (th <> 0 /\ sa = (cos th * th - sin th) / (th * th) /\ sb = (- sin th * th - (cos th - 1)) / (th * th)))).
  { destruct (Req_EM_T th 0) as [->|N].
    - exists 0, (- (1 / 2)). split; [exact deriv_sinc0|]. split; [exact deriv_cosc0|]. left; auto.
    - eexists _, _. split; [apply deriv_sinc; exact N|]. split; [apply deriv_cosc; exact N|]. right; auto. }
  destruct K as (sa & sb & Da & Db & K).
  assert (DA : deriv (fun t => sinc (th + t * w)) 0 (sa * w)).
  { apply (d_comp sinc _ 0 w sa); [exact L|]. cbn. rewrite Z. exact Da. }
  assert (DB : deriv (fun t => cosc (th + t * w)) 0 (sb * w)).
  { apply (d_comp cosc _ 0 w sb); [exact L|]. cbn. rewrite Z. exact Db. }
  clear H0 Da Db.
  assert (RES : (sinc th = 1 /\ cosc th = 0 /\ th = 0 /\ sa = 0 /\ sb = - (1/2)) \/
          (sinc th = sin th / th /\ cosc th = (cos th - 1) / th /\ th <> 0
            /\ sa = (cos th * th - sin th) / (th * th) /\ sb = (- sin th * th - (cos th - 1)) / (th * th))).
  { destruct K as [(-> & K1 & K2)|(N & K1 & K2)].
    - left. unfold sinc, cosc. destruct (Req_EM_T 0 0); [|congruence]. auto.
    - right. unfold sinc, cosc. destruct (Req_EM_T th 0); [contradiction|]. auto. }
  clear K.
  apply (deriv_m3_ext (fun t => se2_to_matrix (mkSE2
    (sinc (th + t * w) * (u0 + t * e0) + cosc (th + t * w) * (u1 + t * e1))
    (sinc (th + t * w) * (u1 + t * e1) - cosc (th + t * w) * (u0 + t * e0))
    (cos (th + t * w)) (sin (th + t * w))))).
  { intro t; rewrite HM, E2_sinc; reflexivity. } clear HM.
  unfold Jexp. rewrite E2_sinc. cbn [b0 b1 b2].
  unfold deriv_m3.
  repeat split; cbn; dgo; rewrite ?Rmult_0_l, ?Rplus_0_r;
    destruct (Req_EM_T th 0) as [TZ|N];
    (destruct RES as [(R1 & R2 & T0 & R3 & R4)|(R1 & R2 & T0 & R3 & R4)]; try contradiction;
     rewrite ?R1, ?R2, ?R3, ?R4; clear R1 R2 R3 R4);
    try ring; try (rewrite TZ, cos_0, sin_0; field);
    try (field_simplify_eq; [|assumption]; ring [Q]).
Qed.

(** exp_map's Jacobian, where the code uses the exact formulas or the angle is
    0, is the derivative of the exponential *)
Lemma code_Jexp : forall d v, se2_near_zero_eps d <= Rabs (b2 v) \/ b2 v = 0 ->
  se2_exp_map_jac d v = Some (Jexp v).
Proof.
  intros d v H. pose proof (eps_pos d) as P. unfold se2_exp_map_jac, Jexp, sinc, cosc.
  destruct (Req_EM_T (b2 v) 0) as [Z|Z].
  - rewrite lt_b_true by (rewrite Z, Rabs_R0; lra). cbn -[pow].
    rewrite !div_some by lra. cbn -[pow]. f_equal. rewrite Z. apply M3_ext; cbn; field.
  - destruct H as [H|H]; [|contradiction].
    rewrite lt_b_false by assumption. cbn -[pow].
    rewrite !div_some; try assumption; try (apply pow_nonzero; assumption). reflexivity.
Qed.

Theorem C35_exp_jac : forall d v J dl M,
  se2_near_zero_eps d <= Rabs (b2 v) \/ b2 v = 0 ->
  se2_exp_map_jac d v = Some J ->
  (forall t, is_exp_m3 (se2_alg (add3 v (scal3 t dl))) (M t)) ->
  deriv_m3 M 0 (mul3 (M 0) (se2_alg (app3 J dl))).
Proof.
  intros d v J dl M H E HM. rewrite code_Jexp in E by assumption. injection E as <-.
  apply Jexp_correct. exact HM.
Qed.

Theorem C35_exp_jac_total : forall d v, exists J, se2_exp_map_jac d v = Some J.
Proof.
  intros d v. destruct (Rlt_dec (Rabs (b2 v)) (se2_near_zero_eps d)) as [H|H].
  - unfold se2_exp_map_jac. rewrite lt_b_true by assumption. cbn -[pow].
    rewrite !div_some by lra. cbn -[pow]. eauto.
  - eexists. apply code_Jexp. left. lra.
Qed.

(** tangents are determined by the velocity of the curve *)
Lemma tangent_unique : forall M L L', 
  (exists v, is_exp_m3 (se2_alg v) (M 0)) ->
  deriv_m3 M 0 (mul3 (M 0) (se2_alg L)) -> deriv_m3 M 0 (mul3 (M 0) (se2_alg L')) -> L = L'.
Proof.
  intros M L L' [v Hv] A B. apply is_exp_E2 in Hv.
  assert (V : se2_valid (E2 v)).
  { rewrite E2_sinc. unfold se2_valid; cbn. pose proof (sin2cos2 (b2 v)). lra. }
  assert (E : mul3 (M 0) (se2_alg L) = mul3 (M 0) (se2_alg L')).
  { destruct A as (?&?&?&?&?&?&?&?&?), B as (?&?&?&?&?&?&?&?&?).
    apply M3_ext; eapply deriv_unique; eassumption. }
  rewrite Hv in E. clear Hv A B.
  destruct (C34_se2_matrix) as (_ & _ & I & _). destruct (I _ V) as [I1 _].
  apply (f_equal (mul3 (se2_to_matrix (se2_inverse (E2 v))))) in E.
  rewrite <- !mul3_assoc, I1, !mul3_I_l in E.
  destruct L, L'. unfold se2_alg in E. cbn in E. injection E. intros. subst. reflexivity.
Qed.

(** F52: everywhere else in the small-angle branch the third column is wrong:
    the coefficient of u is about theta instead of theta/6 (se2.py:275 lacks the
    division by 6).  The error vector is at least 4/5 |theta| |u|. *)
Theorem C35_exp_jac_small_refuted : forall d v J M L,
  0 < Rabs (b2 v) < se2_near_zero_eps d ->
  se2_exp_map_jac d v = Some J ->
  (forall t, is_exp_m3 (se2_alg (add3 v (scal3 t (mkV3 0 0 1)))) (M t)) ->
  deriv_m3 M 0 (mul3 (M 0) (se2_alg L)) ->
  (4 / 5 * b2 v) ^ 2 * (b0 v ^ 2 + b1 v ^ 2) <= (d02 J - b0 L) ^ 2 + (d12 J - b1 L) ^ 2.
Proof.
  intros d v J M L [H0 H1] E HM HL. pose proof (eps_pos d) as P.
  assert (L = app3 (Jexp v) (mkV3 0 0 1)).
  { eapply tangent_unique; [|exact HL|apply Jexp_correct; exact HM].
    eexists. apply HM. }
  subst L. clear HM HL.
  unfold se2_exp_map_jac in E. rewrite lt_b_true in E by assumption. cbn -[pow] in E.
  rewrite !div_some in E by lra. cbn -[pow] in E. apply some_inj in E. subst J.
  destruct v as [u0 u1 th]. cbn [b0 b1 b2 Jexp app3 d00 d01 d02 d10 d11 d12 d20 d21 d22] in *.
  assert (N : th <> 0) by (intro; subst; rewrite Rabs_R0 in H0; lra).
  destruct (Req_EM_T th 0); [contradiction|].
  set (p := (th - sin th) / th ^ 2). set (q := (cos th - 1) / th ^ 2).
  set (a := th - th ^ 3 / 120 - p). set (b := - (1 / 2) + th ^ 2 / 24 - q).
  match goal with |- _ <= ?r => replace r with ((a ^ 2 + b ^ 2) * (u0 ^ 2 + u1 ^ 2)) by (unfold a, b; ring) end.
  assert (A : (4 / 5 * th) ^ 2 <= a ^ 2).
  { assert (Hp : p * th = 1 - sin th / th) by (unfold p; field; assumption).
    pose proof (sinc_bound th N) as B. set (sc := sin th / th) in *. clearbody sc.
    assert (W : 0 < th ^ 2 <= 9 / 10000).
    { rewrite <- abs_pow2. split; nra. }
    assert (At : a * th = th ^ 2 - th ^ 2 * th ^ 2 / 120 - p * th) by (unfold a; field).
    rewrite Hp in At. apply Rabs_le_between in B.
    replace (th ^ 4) with (th ^ 2 * th ^ 2) in B by ring.
    assert (G : 4 / 5 * th ^ 2 <= a * th) by nra.
    assert (G2 : (4 / 5 * th ^ 2) * (4 / 5 * th ^ 2) <= (a * th) * (a * th)).
    { apply Rmult_le_compat; nra. }
    apply (Rmult_le_reg_r (th ^ 2)); [lra|]. nra. }
  assert (0 <= b ^ 2) by apply pow2_ge_0.
  pose proof (pow2_ge_0 u0). pose proof (pow2_ge_0 u1).
  apply Rmult_le_compat_r; nra.
Qed.

(** the first two columns are within theta^4 in the small-angle branch *)
Theorem C35_exp_jac_small_partial : forall d v J M dl L,
  Rabs (b2 v) < se2_near_zero_eps d -> b2 dl = 0 ->
  se2_exp_map_jac d v = Some J ->
  (forall t, is_exp_m3 (se2_alg (add3 v (scal3 t dl))) (M t)) ->
  deriv_m3 M 0 (mul3 (M 0) (se2_alg L)) ->
  Rabs (b0 (app3 J dl) - b0 L) <= b2 v ^ 4 / 120 * Rabs (b0 dl) + Rabs (b2 v) ^ 5 / 720 * Rabs (b1 dl)
  /\ Rabs (b1 (app3 J dl) - b1 L) <= b2 v ^ 4 / 120 * Rabs (b1 dl) + Rabs (b2 v) ^ 5 / 720 * Rabs (b0 dl)
  /\ b2 (app3 J dl) = b2 L.
Proof.
  intros d v J M dl L H D0 E HM HL. pose proof (eps_pos d) as P.
  assert (L = app3 (Jexp v) dl).
  { eapply tangent_unique; [|exact HL|apply Jexp_correct; exact HM].
    eexists. apply HM. }
  subst L. clear HM HL.
  destruct (Req_EM_T (b2 v) 0) as [Z|N].
  { rewrite code_Jexp in E by (right; exact Z). apply some_inj in E. subst J.
    unfold Rminus. rewrite !Rplus_opp_r, Rabs_R0, Z, Rabs_R0. repeat split; lra. }
  unfold se2_exp_map_jac in E. rewrite lt_b_true in E by assumption. cbn -[pow] in E.
  rewrite !div_some in E by lra. cbn -[pow] in E. apply some_inj in E. subst J.
  pose proof (sinc_bound _ N) as S. pose proof (cosc_bound _ N) as C.
  destruct v as [u0 u1 th], dl as [e0 e1 w].
  unfold Jexp, sinc, cosc. cbn [b0 b1 b2 app3 d00 d01 d02 d10 d11 d12 d20 d21 d22] in *. subst w.
  destruct (Req_EM_T th 0); [contradiction|]. rewrite !Rmult_0_r, !Rplus_0_r.
  split; [|split; [|ring]].
  - apply close_lin; [exact S|].
    replace (- (- th / 2 + th ^ 3 / 24) - - ((cos th - 1) / th))
      with (- ((- th / 2 + th ^ 3 / 24) - (cos th - 1) / th)) by ring. rewrite Rabs_Ropp. exact C.
  - rewrite (Rplus_comm ((- th / 2 + th ^ 3 / 24) * e0)), (Rplus_comm ((cos th - 1) / th * e0)).
    apply close_lin; assumption.
Qed.

(** ** the velocity of retract *)
Lemma retract_curve : forall d g dl h,
  (forall t, se2_retract d g (scal3 t dl) = Some (h t)) ->
  h 0 = g
  /\ deriv (fun t => px (h t)) 0 (pc g * b0 dl - ps g * b1 dl)
  /\ deriv (fun t => py (h t)) 0 (ps g * b0 dl + pc g * b1 dl)
  /\ deriv (fun t => pc (h t)) 0 (- ps g * b2 dl)
  /\ deriv (fun t => ps (h t)) 0 (pc g * b2 dl).
Proof.
  intros d g [e0 e1 w] h H. pose proof (eps_pos d) as P.
  destruct g as [x y c s].
  set (k := fun t : R =>
    let A := 1 - (t * w) ^ 2 / 6 in let B := - (t * w) / 2 + (t * w) ^ 3 / 24 in
    let X := A * (t * e0) + B * (t * e1) in let Y := A * (t * e1) - B * (t * e0) in
    mkSE2 (x + (c * X - s * Y)) (y + (s * X + c * Y))
          (c * cos (t * w) - s * sin (t * w)) (s * cos (t * w) + c * sin (t * w))).
  set (r := se2_near_zero_eps d / (1 + Rabs w)).
  pose proof (Rabs_pos w) as Hw.
  assert (R0 : 0 < r) by (apply Rdiv_lt_0_compat; lra).
  assert (K : forall t, Rabs (t - 0) < r -> k t = h t).
  { intros t Ht. rewrite Rminus_0_r in Ht.
    assert (B : Rabs (t * w) < se2_near_zero_eps d).
    { rewrite Rabs_mult. pose proof (Rabs_pos t).
      assert (Rabs t * (1 + Rabs w) < se2_near_zero_eps d).
      { replace (se2_near_zero_eps d) with (r * (1 + Rabs w)) by (unfold r; field; lra).
        apply Rmult_lt_compat_r; lra. }
      nra. }
    specialize (H t). unfold se2_retract in H. rewrite exp_small in H by exact B.
    cbn -[pow se2_compose] in H. apply some_inj in H. rewrite <- H. reflexivity. }
  assert (H0 : h 0 = mkSE2 x y c s).
  { rewrite <- K by (rewrite Rminus_0_r, Rabs_R0; exact R0). unfold k.
    rewrite Rmult_0_l, cos_0, sin_0. apply SE2_ext; cbn; field. }
  split; [exact H0|]. cbn [b0 b1 b2 px py pc ps].
  repeat split; (eapply (deriv_ext_loc _ _ _ _ r R0); [intros z Hz; rewrite <- K by exact Hz; reflexivity|]);
    unfold k; cbn -[pow]; apply is_derive_Reals; auto_derive; try exact I; rewrite ?Rmult_0_l, ?cos_0, ?sin_0; field.
Qed.

(** [m] passes through [g] at time 0 with velocity [xi] in the frame of [g] *)
Definition vel (m : R -> SE2) (g : SE2) (xi : V3) :=
  m 0 = g
  /\ deriv (fun t => px (m t)) 0 (pc g * b0 xi - ps g * b1 xi)
  /\ deriv (fun t => py (m t)) 0 (ps g * b0 xi + pc g * b1 xi)
  /\ deriv (fun t => pc (m t)) 0 (- ps g * b2 xi)
  /\ deriv (fun t => ps (m t)) 0 (pc g * b2 xi).

Lemma vel_matrix : forall m g xi, vel m g xi ->
  deriv_m3 (fun t => se2_to_matrix (m t)) 0 (mul3 (se2_to_matrix g) (se2_alg xi)).
Proof.
  intros m g xi (H0 & D1 & D2 & D3 & D4).
  unfold deriv_m3; cbn. repeat split; dgo; ring.
Qed.

Lemma vel_compose_l : forall m g k xi, se2_valid k -> vel m g xi ->
  vel (fun t => se2_compose (m t) k) (se2_compose g k) (app3 (se2_adjoint (se2_inverse k)) xi).
Proof.
  intros m g k xi V (H0 & D1 & D2 & D3 & D4). unfold se2_valid in V.
  destruct k as [x y c s], xi as [e0 e1 w]. cbn [px py pc ps] in V.
  assert (Q : c * c = 1 - s * s) by lra.
  split; [rewrite H0; reflexivity|].
  unfg. repeat split; dgo; rewrite ?H0; cbn; ring [Q].
Qed.
Lemma vel_compose_r : forall m g k xi, vel m k xi ->
  vel (fun t => se2_compose g (m t)) (se2_compose g k) xi.
Proof.
  intros m g k xi (H0 & D1 & D2 & D3 & D4).
  destruct xi as [e0 e1 w].
  split; [rewrite H0; reflexivity|].
  unfg. repeat split; dgo; rewrite ?H0; cbn; ring.
Qed.
Lemma vel_inverse : forall m g xi, se2_valid g -> vel m g xi ->
  vel (fun t => se2_inverse (m t)) (se2_inverse g) (app3 (opp_m3 (se2_adjoint g)) xi).
Proof.
  intros m g xi V (H0 & D1 & D2 & D3 & D4). unfold se2_valid in V.
  destruct g as [x y c s], xi as [e0 e1 w]. cbn [px py pc ps] in V.
  assert (Q : c * c = 1 - s * s) by lra.
  split; [rewrite H0; reflexivity|].
  unfg. repeat split; dgo; rewrite ?H0; cbn; ring [Q].
Qed.
Lemma app3_mul : forall m n v, app3 (mul3 m n) v = app3 m (app3 n v).
Proof. intros [] [] []. apply V3_ext; cbn; ring. Qed.
Lemma app3_I : forall v, app3 I3 v = v.
Proof. intros []. apply V3_ext; cbn; ring. Qed.

Theorem C48_retract_velocity : forall d g dl h,
  (forall t, se2_retract d g (scal3 t dl) = Some (h t)) ->
  deriv_m3 (fun t => se2_to_matrix (h t)) 0 (mul3 (se2_to_matrix g) (se2_alg dl)).
Proof. intros d g dl h H. apply vel_matrix. exact (retract_curve d g dl h H). Qed.

(** ** operations whose result is a group element *)
Theorem C48_compose_jac : forall d g k dl h J0 J1, se2_valid k ->
  se2_compose_jac g k = (J0, J1) ->
  ((forall t, se2_retract d g (scal3 t dl) = Some (h t)) ->
    deriv_m3 (fun t => se2_to_matrix (se2_compose (h t) k)) 0
      (mul3 (se2_to_matrix (se2_compose g k)) (se2_alg (app3 J0 dl))))
  /\ ((forall t, se2_retract d k (scal3 t dl) = Some (h t)) ->
    deriv_m3 (fun t => se2_to_matrix (se2_compose g (h t))) 0
      (mul3 (se2_to_matrix (se2_compose g k)) (se2_alg (app3 J1 dl)))).
Proof.
  intros d g k dl h J0 J1 V E. unfold se2_compose_jac in E.
  assert (EJ : J0 = se2_adjoint (se2_inverse k) /\ J1 = I3) by (split; congruence).
  destruct EJ as [-> ->]. clear E. split; intro H; apply retract_curve in H.
  - apply (vel_matrix (fun t => se2_compose (h t) k)). apply vel_compose_l; assumption.
  - apply (vel_matrix (fun t => se2_compose g (h t))). rewrite app3_I. apply vel_compose_r; assumption.
Qed.

Theorem C48_inverse_jac : forall d g dl h, se2_valid g ->
  (forall t, se2_retract d g (scal3 t dl) = Some (h t)) ->
  deriv_m3 (fun t => se2_to_matrix (se2_inverse (h t))) 0
    (mul3 (se2_to_matrix (se2_inverse g)) (se2_alg (app3 (se2_inverse_jac g) dl))).
Proof.
  intros d g dl h V H. apply retract_curve in H.
  apply (vel_matrix (fun t => se2_inverse (h t))). apply vel_inverse; assumption.
Qed.

Theorem C48_between_jac : forall d g k dl h J0 J1, se2_valid g -> se2_valid k ->
  se2_between_jac g k = (J0, J1) ->
  ((forall t, se2_retract d g (scal3 t dl) = Some (h t)) ->
    deriv_m3 (fun t => se2_to_matrix (se2_between (h t) k)) 0
      (mul3 (se2_to_matrix (se2_between g k)) (se2_alg (app3 J0 dl))))
  /\ ((forall t, se2_retract d k (scal3 t dl) = Some (h t)) ->
    deriv_m3 (fun t => se2_to_matrix (se2_between g (h t))) 0
      (mul3 (se2_to_matrix (se2_between g k)) (se2_alg (app3 J1 dl)))).
Proof.
  intros d g k dl h J0 J1 Vg Vk E. unfold se2_between_jac, se2_compose_jac in E.
  assert (EJ : J0 = mul3 (se2_adjoint (se2_inverse k)) (se2_inverse_jac g) /\ J1 = I3) by (split; congruence).
  destruct EJ as [-> ->]. clear E. split; intro H; apply retract_curve in H.
  - apply (vel_matrix (fun t => se2_between (h t) k)). rewrite app3_mul.
    apply (vel_compose_l (fun t => se2_inverse (h t))); [exact Vk|]. apply vel_inverse; assumption.
  - apply (vel_matrix (fun t => se2_between g (h t))). rewrite app3_I. apply vel_compose_r; assumption.
Qed.

Ltac grp H := let H0 := fresh "H0" in let D1 := fresh in let D2 := fresh in let D3 := fresh in let D4 := fresh in
  destruct (retract_curve _ _ _ _ H) as (H0 & D1 & D2 & D3 & D4).

(** ** operations whose result is a point, or the angle *)
Theorem C48_transform_from_jac : forall d g p dl dp h,
  ((forall t, se2_retract d g (scal3 t dl) = Some (h t)) ->
    deriv2 (fun t => se2_transform_from (h t) p) 0 (app23 (se2_transform_from_Jg g p) dl))
  /\ deriv2 (fun t => se2_transform_from g (add2 p (scal2 t dp))) 0 (app2 (se2_transform_from_Jpnt g) dp).
Proof.
  intros. split; [intro H; grp H|]; destruct g as [x y c s], dl as [e0 e1 w];
    unfold deriv2, se2_transform_from_Jg, se2_transform_from_Jpnt; unfg; repeat split; dgo; rewrite ?H0; cbn; ring.
Qed.
Theorem C48_transform_to_jac : forall d g p dl dp h, se2_valid g ->
  ((forall t, se2_retract d g (scal3 t dl) = Some (h t)) ->
    deriv2 (fun t => se2_transform_to (h t) p) 0 (app23 (se2_transform_to_Jg g p) dl))
  /\ deriv2 (fun t => se2_transform_to g (add2 p (scal2 t dp))) 0 (app2 (se2_transform_to_Jpnt g) dp).
Proof.
  intros d g p dl dp h V. unfold se2_valid in V.
  assert (Q : pc g * pc g = 1 - ps g * ps g) by lra. clear V.
  split; [intro H; grp H|]; destruct g as [x y c s], dl as [e0 e1 w]; cbn [pc ps] in Q;
    unfold deriv2, se2_transform_to_Jg, se2_transform_to_Jpnt; unfg; repeat split; dgo; rewrite ?H0; cbn; ring [Q].
Qed.
Theorem C48_xy_jac : forall d g dl h,
  (forall t, se2_retract d g (scal3 t dl) = Some (h t)) ->
  deriv2 (fun t => se2_xy (h t)) 0 (app23 (se2_xy_jac g) dl).
Proof.
  intros d g dl h H; grp H. unfold deriv2, se2_xy, se2_xy_jac, app23; cbn. split; dgo; ring.
Qed.

(** ** log_map and local *)
Definition Jlog_code (th ux uy s c : R) : M3 :=
  let hh := 1 / 2 * th * s / (1 - c) in
  let k := 1 / th - 1 / 2 * s / (1 - c) in
  mkM3 hh (- (1 / 2 * th)) (k * ux + 1 / 2 * uy) (1 / 2 * th) hh (k * uy - 1 / 2 * ux) 0 0 1.

Lemma log_jac_big : forall d g, se2_valid g ->
  se2_d_near_zero_eps d <= Rabs (se2_theta g) < PI ->
  exists u, se2_log_map d g = Some u
    /\ se2_log_map_jac d g = Some (Jlog_code (b2 u) (b0 u) (b1 u) (ps g) (pc g)).
Proof.
  intros d g V [L U]. pose proof (eps_pos d). pose proof (deps_pos d).
  destruct (C35_exp_log d g V ltac:(lra)) as (u & Lg & E & B).
  exists u. split; [exact Lg|]. unfold se2_log_map_jac. rewrite Lg. cbn -[pow].
  assert (T : b2 u = se2_theta g).
  { symmetry. apply (theta_exp d); assumption. }
  rewrite T. rewrite lt_b_false by exact L. cbn -[pow].
  destruct (theta_spec g V) as (C & S & _).
  assert (N : se2_theta g <> 0) by (intro Z; rewrite Z, Rabs_R0 in L; lra).
  assert (cos (se2_theta g) < 1) by (apply cos_lt_1; lra).
  rewrite !div_some by lra. reflexivity.
Qed.

(** the logarithm along a curve that turns at constant speed *)
Lemma log_velocity : forall d g u xi m, se2_valid g ->
  se2_near_zero_eps d < Rabs (se2_theta g) < PI -> se2_log_map d g = Some u ->
  m 0 = g ->
  (forall t, pc (m t) = cos (se2_theta g + t * b2 xi) /\ ps (m t) = sin (se2_theta g + t * b2 xi)) ->
  deriv (fun t => px (m t)) 0 (pc g * b0 xi - ps g * b1 xi) ->
  deriv (fun t => py (m t)) 0 (ps g * b0 xi + pc g * b1 xi) ->
  exists w r, 0 < r /\ (forall t, Rabs t < r -> se2_log_map d (m t) = Some (w t))
    /\ deriv3 w 0 (app3 (Jlog_code (b2 u) (b0 u) (b1 u) (ps g) (pc g)) xi).
Proof.
  intros d g u xi m V [L U] Lg M0 MA D1 D2.
  destruct (theta_spec g V) as (C & S & B). pose proof (eps_pos d) as P.
  set (th := se2_theta g) in *.
  assert (N : th <> 0) by (intro Z; rewrite Z, Rabs_R0 in L; lra).
  assert (SN : sin th <> 0) by (apply sin_nonzero; lra).
  assert (CN : cos th < 1) by (apply cos_lt_1; lra).
  rewrite log_big in Lg; [|exact V|fold th; lra|rewrite <- S; exact SN].
  fold th in Lg. apply some_inj in Lg. subst u.
  set (om := b2 xi) in *.
  set (r := Rmin (Rabs th - se2_near_zero_eps d) (PI - Rabs th) / (1 + Rabs om)).
  assert (HR : 0 < Rmin (Rabs th - se2_near_zero_eps d) (PI - Rabs th)) by (apply Rmin_pos; lra).
  pose proof (Rabs_pos om) as HO.
  assert (R0 : 0 < r) by (apply Rdiv_lt_0_compat; lra).
  assert (IN : forall t, Rabs t < r -> se2_near_zero_eps d < Rabs (th + t * om) < PI).
  { intros t Ht.
    assert (X : Rabs (t * om) < Rmin (Rabs th - se2_near_zero_eps d) (PI - Rabs th)).
    { rewrite Rabs_mult. pose proof (Rabs_pos t).
      assert (Rabs t * (1 + Rabs om) < r * (1 + Rabs om)) by (apply Rmult_lt_compat_r; lra).
      replace (r * (1 + Rabs om)) with (Rmin (Rabs th - se2_near_zero_eps d) (PI - Rabs th)) in H0
        by (unfold r; field; lra). nra. }
    pose proof (Rmin_l (Rabs th - se2_near_zero_eps d) (PI - Rabs th)).
    pose proof (Rmin_r (Rabs th - se2_near_zero_eps d) (PI - Rabs th)).
    pose proof (Rabs_triang th (t * om)).
    pose proof (Rabs_triang_inv th (- (t * om))). rewrite Rabs_Ropp in H2.
    replace (th - - (t * om)) with (th + t * om) in H2 by ring. lra. }
  exists (fun t => mkV3
    (1 / 2 * (1 + cos (th + t * om)) * ((th + t * om) / sin (th + t * om)) * px (m t) + 1 / 2 * (th + t * om) * py (m t))
    (1 / 2 * (1 + cos (th + t * om)) * ((th + t * om) / sin (th + t * om)) * py (m t) - 1 / 2 * (th + t * om) * px (m t))
    (th + t * om)), r.
  split; [exact R0|]. split.
  - intros t Ht. specialize (IN t Ht). destruct (MA t) as [MC MS].
    assert (Vm : se2_valid (m t)).
    { unfold se2_valid. rewrite MC, MS. pose proof (sin2cos2 (th + t * om)). lra. }
    assert (T : se2_theta (m t) = th + t * om).
    { unfold se2_theta, so2_log_map, se2_rotation; cbn. rewrite MC, MS. apply atan2_angle.
      destruct IN as [_ IN]. apply Rabs_def2 in IN. lra. }
    rewrite log_big; [|exact Vm|rewrite T; lra|rewrite MS; apply sin_nonzero; lra].
    rewrite T, MC, MS. reflexivity.
  - assert (DH : deriv (fun t => 1 / 2 * (1 + cos (th + t * om)) * ((th + t * om) / sin (th + t * om))) 0
        (1 / 2 * (- sin th * (th / sin th) + (1 + cos th) * ((sin th - th * cos th) / (sin th * sin th))) * om)).
    { apply is_derive_Reals. auto_derive; rewrite Rmult_0_l, Rplus_0_r; [exact SN|]. field. exact SN. }
    assert (DT : deriv (fun t => 1 / 2 * (th + t * om)) 0 (1 / 2 * om)) by (dgo; ring).
    assert (Q : sin th ^ 2 = 1 - cos th ^ 2) by (pose proof (sin2cos2 th); lra).
    assert (Hsc : sin th / (1 - cos th) = (1 + cos th) / sin th).
    { field_simplify_eq; [rewrite Q; ring|lra]. }
    unfold deriv3. cbn [b0 b1 b2].
    split; [|split].
    + eapply deriv_val; [|apply d_plus; apply d_mult; [exact DH|exact D1|exact DT|exact D2]].
      cbv beta. rewrite M0, !Rmult_0_l, !Rplus_0_r. cbn.
      unfold Rdiv. rewrite !(Rmult_assoc _ (ps g) (/ (1 - pc g))). rewrite <- C, <- S. fold (Rdiv (sin th) (1 - cos th)). rewrite Hsc.
      fold om. field_simplify_eq; [|auto]. ring [Q].
    + eapply deriv_val; [|apply d_minus; apply d_mult; [exact DH|exact D2|exact DT|exact D1]].
      cbv beta. rewrite M0, !Rmult_0_l, !Rplus_0_r. cbn.
      unfold Rdiv. rewrite !(Rmult_assoc _ (ps g) (/ (1 - pc g))). rewrite <- C, <- S. fold (Rdiv (sin th) (1 - cos th)). rewrite Hsc.
      fold om. field_simplify_eq; [|auto]. ring [Q].
    + dgo. cbn. fold om. ring.
Qed.

Lemma retract_rot : forall d g v h, se2_retract d g v = Some h ->
  pc h = pc g * cos (b2 v) - ps g * sin (b2 v) /\ ps h = ps g * cos (b2 v) + pc g * sin (b2 v).
Proof.
  intros d g v h H. unfold se2_retract in H.
  destruct (C35_exp_valid d v) as (e & E & _ & R). rewrite E in H. cbn -[se2_compose] in H.
  apply some_inj in H. subst h. unfold se2_rotation, so2_exp_map in R.
  injection R as R1 R2. cbn. rewrite R1, R2. split; reflexivity.
Qed.

(** log_map's Jacobian is the derivative of log_map along retract *)
Theorem C35_log_jac : forall d g J dl h, se2_valid g ->
  se2_d_near_zero_eps d <= Rabs (se2_theta g) < PI ->
  se2_log_map_jac d g = Some J ->
  (forall t, se2_retract d g (scal3 t dl) = Some (h t)) ->
  exists w r, 0 < r /\ (forall t, Rabs t < r -> se2_log_map d (h t) = Some (w t))
    /\ deriv3 w 0 (app3 J dl).
Proof.
  intros d g J dl h V B EJ H. pose proof (deps_pos d).
  destruct (log_jac_big d g V B) as (u & Lg & EJ'). rewrite EJ in EJ'. apply some_inj in EJ'. subst J.
  destruct (theta_spec g V) as (C & S & _).
  pose proof (retract_curve d g dl h H) as (Hz & D1 & D2 & _).
  apply (log_velocity d g u dl h); try assumption; [lra|].
  intro t. destruct (retract_rot _ _ _ _ (H t)) as [R1 R2]. cbn in R1, R2.
  rewrite R1, R2, cos_plus, sin_plus, C, S. split; ring.
Qed.

(** and it exists there *)
Theorem C35_log_jac_total : forall d g, se2_valid g ->
  se2_d_near_zero_eps d <= Rabs (se2_theta g) < PI -> exists J, se2_log_map_jac d g = Some J.
Proof. intros d g V B. destruct (log_jac_big d g V B) as (u & _ & E). eauto. Qed.

(** conjugation and the Jacobian of the logarithm commute, so the order in
    which lie_group.py:190 multiplies them does not matter *)
Lemma Jlog_commutes : forall d g u, se2_valid g ->
  se2_d_near_zero_eps d <= Rabs (se2_theta g) < PI -> se2_log_map d g = Some u ->
  let J := Jlog_code (b2 u) (b0 u) (b1 u) (ps g) (pc g) in
  mul3 (opp_m3 (se2_adjoint (se2_inverse g))) J = mul3 J (opp_m3 (se2_adjoint (se2_inverse g))).
Proof.
  intros d g u V [L U] Lg. cbv zeta.
  pose proof (eps_pos d). pose proof (deps_pos d).
  destruct (theta_spec g V) as (C & S & B).
  set (th := se2_theta g) in *.
  assert (N : th <> 0) by (intro Z; rewrite Z, Rabs_R0 in L; lra).
  assert (SN : sin th <> 0) by (apply sin_nonzero; lra).
  assert (CN : cos th < 1) by (apply cos_lt_1; lra).
  rewrite log_big in Lg; [|exact V|fold th; lra|rewrite <- S; exact SN].
  fold th in Lg. apply some_inj in Lg. subst u.
  assert (Q : sin th ^ 2 = 1 - cos th ^ 2) by (pose proof (sin2cos2 th); lra).
  assert (Hsc : sin th / (1 - cos th) = (1 + cos th) / sin th).
  { field_simplify_eq; [rewrite Q; ring|lra]. }
  unfold Jlog_code. cbn [b0 b1 b2].
  replace (1 / 2 * th * ps g / (1 - pc g)) with (1 / 2 * th * ((1 + cos th) / sin th)).
  2:{ rewrite <- Hsc, C, S. unfold Rdiv. ring. }
  replace (1 / 2 * ps g / (1 - pc g)) with (1 / 2 * ((1 + cos th) / sin th)).
  2:{ rewrite <- Hsc, C, S. unfold Rdiv. ring. }
  clear V. clearbody th. destruct g as [x y c s]; cbn [px py pc ps] in *. subst c s.
  apply M3_ext; unfg; try ring; field_simplify_eq; auto; ring [Q].
Qed.

Theorem C48_local_jac : forall d g k dl h J0 J1, se2_valid g -> se2_valid k ->
  se2_d_near_zero_eps d <= Rabs (se2_theta (se2_between g k)) < PI ->
  se2_local_jac d g k = Some (J0, J1) ->
  ((forall t, se2_retract d g (scal3 t dl) = Some (h t)) ->
    exists w r, 0 < r /\ (forall t, Rabs t < r -> se2_local d (h t) k = Some (w t))
      /\ deriv3 w 0 (app3 J0 dl))
  /\ ((forall t, se2_retract d k (scal3 t dl) = Some (h t)) ->
    exists w r, 0 < r /\ (forall t, Rabs t < r -> se2_local d g (h t) = Some (w t))
      /\ deriv3 w 0 (app3 J1 dl)).
Proof.
  intros d g k dl h J0 J1 Vg Vk B EJ.
  destruct C34_se2_group as (_ & _ & _ & _ & _ & _ & _ & _ & GV).
  pose proof (GV g k Vg Vk) as V. set (f := se2_between g k) in *.
  pose proof (eps_pos d) as P1. pose proof (deps_pos d) as P2.
  destruct (log_jac_big d f V B) as (u & Lf & EJ').
  unfold se2_local_jac in EJ. fold f in EJ. rewrite EJ' in EJ. cbn [bind] in EJ.
  apply some_inj in EJ. apply pair_equal_spec in EJ. destruct EJ as [<- <-].
  rewrite (Jlog_commutes d f u V B Lf).
  destruct (theta_spec f V) as (C & S & _).
  split; intro H.
  - pose proof (retract_curve d g dl h H) as VH. rewrite app3_mul.
    assert (VB : vel (fun t => se2_between (h t) k) f (app3 (opp_m3 (se2_adjoint (se2_inverse f))) dl)).
    { assert (X : app3 (opp_m3 (se2_adjoint (se2_inverse f))) dl
               = app3 (se2_adjoint (se2_inverse k)) (app3 (opp_m3 (se2_adjoint g)) dl)).
      { clear - Vg. unfold f. unfold se2_valid in Vg. assert (Q : pc g * pc g = 1 - ps g * ps g) by lra.
        destruct g as [x y c s], k as [x' y' c' s'], dl. cbn [px py pc ps] in *.
        apply V3_ext; unfg; ring [Q]. }
      rewrite X. apply (vel_compose_l (fun t => se2_inverse (h t))); [exact Vk|].
      apply vel_inverse; [exact Vg|exact VH]. }
    destruct VB as (B0 & D1 & D2 & _ & _).
    apply (log_velocity d f u _ (fun t => se2_between (h t) k)); try assumption; [lra|].
    intro t. destruct (retract_rot _ _ _ _ (H t)) as [R1 R2]. cbn in R1, R2.
    rewrite cos_plus, sin_plus, C, S.
    replace (t * b2 (app3 (opp_m3 (se2_adjoint (se2_inverse f))) dl)) with (- (t * b2 dl)) by (cbn; ring).
    rewrite cos_neg, sin_neg. unfold f. cbn. rewrite R1, R2. split; ring.
  - pose proof (retract_curve d k dl h H) as VH.
    destruct (vel_compose_r _ (se2_inverse g) _ _ VH) as (B0 & D1 & D2 & _ & _).
    apply (log_velocity d f u _ (fun t => se2_between g (h t))); try assumption; [lra|].
    intro t. destruct (retract_rot _ _ _ _ (H t)) as [R1 R2]. cbn in R1, R2.
    rewrite cos_plus, sin_plus, C, S. unfold f. cbn. rewrite R1, R2. split; ring.
Qed.

(** theta() *)
Theorem C48_theta_jac : forall d g dl h, se2_valid g -> Rabs (se2_theta g) < PI ->
  (forall t, se2_retract d g (scal3 t dl) = Some (h t)) ->
  deriv (fun t => se2_theta (h t)) 0
    (b0 (se2_theta_jac g) * b0 dl + b1 (se2_theta_jac g) * b1 dl + b2 (se2_theta_jac g) * b2 dl).
Proof.
  intros d g dl h V B H. destruct (theta_spec g V) as (C & S & _).
  set (th := se2_theta g) in *. pose proof (Rabs_pos (b2 dl)).
  assert (R0 : 0 < (PI - Rabs th) / (1 + Rabs (b2 dl))) by (apply Rdiv_lt_0_compat; lra).
  apply (deriv_ext_loc (fun t => th + t * b2 dl) _ _ _ _ R0).
  - intros t Ht. rewrite Rminus_0_r in Ht.
    destruct (retract_rot _ _ _ _ (H t)) as [R1 R2]. cbn in R1, R2.
    unfold se2_theta, so2_log_map, se2_rotation. cbn. rewrite R1, R2.
    replace (pc g * cos (t * b2 dl) - ps g * sin (t * b2 dl)) with (cos (th + t * b2 dl))
      by (rewrite cos_plus, C, S; ring).
    replace (ps g * cos (t * b2 dl) + pc g * sin (t * b2 dl)) with (sin (th + t * b2 dl))
      by (rewrite sin_plus, C, S; ring).
    symmetry. apply atan2_angle.
    assert (X : Rabs (t * b2 dl) < PI - Rabs th).
    { rewrite Rabs_mult. pose proof (Rabs_pos t).
      assert (HM : Rabs t * (1 + Rabs (b2 dl)) < (PI - Rabs th) / (1 + Rabs (b2 dl)) * (1 + Rabs (b2 dl))) by (apply Rmult_lt_compat_r; lra).
      replace ((PI - Rabs th) / (1 + Rabs (b2 dl)) * (1 + Rabs (b2 dl))) with (PI - Rabs th) in HM by (field; lra). nra. }
    pose proof (Rabs_triang th (t * b2 dl)).
    assert (Y : Rabs (th + t * b2 dl) < PI) by lra. apply Rabs_def2 in Y. lra.
  - cbn. dgo. ring.
Qed.

(** ** SO2 *)
Theorem C48_so2_jacobians : forall g k dl p dp, so2_valid g -> so2_valid k ->
  let h := fun t => so2_retract g (t * dl) in
  let h' := fun t => so2_retract k (t * dl) in
  (* exp_map *)
  (forall th, deriv_m2 (fun t => so2_to_matrix (so2_exp_map (th + t * dl))) 0
      (mul2 (so2_to_matrix (so2_exp_map th)) (so2_alg (so2_exp_map_jac th * dl))))
  (* compose, inverse, between *)
  /\ deriv_m2 (fun t => so2_to_matrix (so2_compose (h t) k)) 0
      (mul2 (so2_to_matrix (so2_compose g k)) (so2_alg (fst (so2_compose_jac g k) * dl)))
  /\ deriv_m2 (fun t => so2_to_matrix (so2_compose g (h' t))) 0
      (mul2 (so2_to_matrix (so2_compose g k)) (so2_alg (snd (so2_compose_jac g k) * dl)))
  /\ deriv_m2 (fun t => so2_to_matrix (so2_inverse (h t))) 0
      (mul2 (so2_to_matrix (so2_inverse g)) (so2_alg (so2_inverse_jac g * dl)))
  /\ deriv_m2 (fun t => so2_to_matrix (so2_between (h t) k)) 0
      (mul2 (so2_to_matrix (so2_between g k)) (so2_alg (fst (so2_between_jac g k) * dl)))
  /\ deriv_m2 (fun t => so2_to_matrix (so2_between g (h' t))) 0
      (mul2 (so2_to_matrix (so2_between g k)) (so2_alg (snd (so2_between_jac g k) * dl)))
  (* rotate, unrotate *)
  /\ deriv2 (fun t => so2_rotate (h t) p) 0 (scal2 dl (so2_rotate_Jrot g p))
  /\ deriv2 (fun t => so2_rotate g (add2 p (scal2 t dp))) 0 (app2 (so2_rotate_Jpnt g) dp)
  /\ deriv2 (fun t => so2_unrotate (h t) p) 0 (scal2 dl (so2_unrotate_Jrot g p))
  /\ deriv2 (fun t => so2_unrotate g (add2 p (scal2 t dp))) 0 (app2 (so2_unrotate_Jpnt g) dp).
Proof.
  intros g k dl p dp Vg Vk h h'.
  assert (DC : deriv (fun t => cos (t * dl)) 0 0).
  { apply is_derive_Reals; auto_derive; [exact I|]. rewrite Rmult_0_l, sin_0. ring. }
  assert (DS : deriv (fun t => sin (t * dl)) 0 dl).
  { apply is_derive_Reals; auto_derive; [exact I|]. rewrite Rmult_0_l, cos_0. ring. }
  unfold h, h'. destruct g as [c s], k as [c' s'], p as [p0 p1], dp as [q0 q1].
  unfold deriv_m2, deriv2, so2_retract, so2_exp_map_jac, so2_compose_jac, so2_inverse_jac, so2_between_jac,
    so2_compose_jac, so2_rotate_Jrot, so2_rotate_Jpnt, so2_unrotate_Jrot, so2_unrotate_Jpnt, so2_exp_map.
  split; [intro th|]; unfg; repeat split;
    try (apply is_derive_Reals; auto_derive; [exact I|]; rewrite ?Rmult_0_l, ?Rplus_0_r; ring);
    (dgo; cbv beta; rewrite ?Rmult_0_l, ?cos_0, ?sin_0; unfold so2_inverse_jac, so2_adjoint; ring).
Qed.

Theorem C48_so2_log_local_jac : forall g k dl, so2_valid g -> so2_valid k ->
  (Rabs (so2_log_map g) < PI ->
    deriv (fun t => so2_log_map (so2_retract g (t * dl))) 0 (so2_log_map_jac g * dl))
  /\ (Rabs (so2_local g k) < PI ->
    deriv (fun t => so2_local (so2_retract g (t * dl)) k) 0 (fst (so2_local_jac g k) * dl)
    /\ deriv (fun t => so2_local g (so2_retract k (t * dl))) 0 (snd (so2_local_jac g k) * dl)).
Proof.
  assert (K : forall g s dl (m : R -> SO2), so2_valid g -> Rabs (so2_log_map g) < PI ->
     (forall t, m t = so2_compose g (so2_exp_map (s * (t * dl)))) ->
     deriv (fun t => so2_log_map (m t)) 0 (s * dl)).
  { intros g s dl m V B M. destruct (atan2_spec _ _ V) as (C & S & _).
    fold (so2_log_map g) in C, S. set (th := so2_log_map g) in *.
    pose proof (Rabs_pos (s * dl)).
    assert (R0 : 0 < (PI - Rabs th) / (1 + Rabs (s * dl))) by (apply Rdiv_lt_0_compat; lra).
    apply (deriv_ext_loc (fun t => th + t * (s * dl)) _ _ _ _ R0).
    - intros t Ht. rewrite Rminus_0_r in Ht. rewrite M.
      unfold so2_log_map. cbn. replace (s * (t * dl)) with (t * (s * dl)) by ring.
      replace (co g * cos (t * (s * dl)) - si g * sin (t * (s * dl))) with (cos (th + t * (s * dl)))
        by (rewrite cos_plus, C, S; ring).
      replace (si g * cos (t * (s * dl)) + co g * sin (t * (s * dl))) with (sin (th + t * (s * dl)))
        by (rewrite sin_plus, C, S; ring).
      symmetry. apply atan2_angle.
      assert (X : Rabs (t * (s * dl)) < PI - Rabs th).
      { rewrite Rabs_mult. pose proof (Rabs_pos t).
        assert (HM : Rabs t * (1 + Rabs (s * dl)) < (PI - Rabs th) / (1 + Rabs (s * dl)) * (1 + Rabs (s * dl))) by (apply Rmult_lt_compat_r; lra).
        replace ((PI - Rabs th) / (1 + Rabs (s * dl)) * (1 + Rabs (s * dl))) with (PI - Rabs th) in HM by (field; lra). nra. }
      pose proof (Rabs_triang th (t * (s * dl))).
      assert (Y : Rabs (th + t * (s * dl)) < PI) by lra. apply Rabs_def2 in Y. lra.
    - dgo. ring. }
  destruct C34_so2_group as (_ & GC & GI & GA & _).
  intros g k dl Vg Vk. split; [|split].
  - intro B. apply (K g 1 dl); try assumption. intro t. unfold so2_retract. rewrite Rmult_1_l. reflexivity.
  - unfold so2_local, so2_local_jac in *. cbn [fst]. eapply deriv_val; [|apply (K (so2_between g k) (-1) dl)].
    + unfold so2_log_map_jac, so2_adjoint. ring.
    + apply GC; [apply GI|]; assumption.
    + assumption.
    + intro t. replace (-1 * (t * dl)) with (- (t * dl)) by ring.
      apply SO2_ext; cbn; rewrite cos_neg, sin_neg; ring.
  - unfold so2_local, so2_local_jac in *. cbn [snd]. apply (K (so2_between g k) 1 dl).
    + apply GC; [apply GI|]; assumption.
    + assumption.
    + intro t. rewrite Rmult_1_l. apply SO2_ext; cbn; ring.
Qed.
