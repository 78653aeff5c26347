(** The laws of Mg_laws.v for SE3. *)
From Coq Require Import Reals List Arith Lia Lra Psatz.
From Coquelicot Require Import Coquelicot.
Import List ListNotations.
From Verif Require Import Geo_spec Geo3_spec Geo4_spec RSum Trig Exp_unique SE2_model SE2_group SE2_exp SE2_jac
  SO3_model SO3_exp SO3_jexp SO3_group SO3_log SO3_quat SO3_ops SO3_normback SE3_model SE3_group SE3_exp SE3_jexp SE3_log SE3_local
  Mg_model Mg_spec Mg_inv Mg_laws Mg_laws2.
Local Open Scope R_scope.

Lemma norm_zero3 : norm3 zero3 = 0.
Proof. rewrite norm3_len; unfold len3, zero3, dot3; cbn; rewrite Rmult_0_l, !Rplus_0_r; apply sqrt_0. Qed.
Lemma se3_exp_noang d l : se3_exp d (mkTw l zero3) = Some (mkRig I3 l).
Proof.
  pose proof (so3_eps_pos d) as P. rewrite se3_exp_small by (cbn [ang]; rewrite norm_zero3; lra). cbv zeta. cbn [ang lin].
  f_equal. destruct l. apply Rig_ext; cbn [rr rp]; [unfold matc, zero3, dot3, I3; apply M3_ext; cbn; field|].
  unfold app3, matc, zero3, dot3. apply V3_ext; cbn; field.
Qed.
Lemma so3_log_I d : so3_log d I3 = Some zero3.
Proof.
  pose proof (so3_eps_pos d) as P.
  destruct (C36_log_exp_small_angle d zero3 I3) as (u & L & Q).
  - rewrite <- norm3_len, norm_zero3. lra.
  - apply so3_exp_zero.
  - rewrite L. f_equal. rewrite <- (norm3_len zero3), norm_zero3 in Q. assert (Z : sub3 u zero3 = zero3) by (apply len_zero; lra).
    destruct u. unfold sub3, zero3 in Z. cbn in Z. injection Z as Z1 Z2 Z3. apply V3_ext; cbn; lra.
Qed.
Lemma I3_rot : rotation3 I3. Proof. split; [apply M3_ext; cbn; ring|unfold det3, I3; cbn; ring]. Qed.
Lemma se3_log_noang d p : se3_log d (mkRig I3 p) = Some (mkTw p zero3).
Proof.
  pose proof (so3_eps_pos d) as P. unfold se3_log. cbn [rr rp]. rewrite so3_log_I. cbv beta iota delta [bind].
  destruct (log_form d I3 zero3 I3_rot (so3_log_I d)) as (th & T & TH & TS & TC & F). rewrite norm_zero3 in F.
  assert (Z : th = 0).
  { destruct F as [[S N]|[S [N _]]]; [|lra]. destruct (Req_dec th 0) as [Y|Y]; [exact Y|]. exfalso. pose proof PI2_3_2.
    pose proof (sin_gt_0 th ltac:(lra) ltac:(lra)) as SP. pose proof (pow2_ge_0 (sin th)). nra. }
  rewrite TH, TS, TC, Z, sin_0, cos_0. unfold se3_log_coefs. rewrite lt_b_true by lra. unfold where_, NON_ZERO.
  rewrite !div_some by lra. cbv beta iota zeta delta [bind]. cbn [fst snd]. f_equal. f_equal. rewrite log_lin_app. destruct p.
  unfold app3, matc, zero3. apply V3_ext; cbn; field.
Qed.
Lemma se3_between_compose g e : rigid3 g -> se3_between g (se3_compose g e) = e.
Proof.
  intro Hg. destruct g as [R p], e as [S q]. unfold rigid3 in *. cbn [rr] in *.
  unfold se3_between, se3_compose, se3_inverse. cbn [rr rp].
  rewrite <- mul3_assoc, (proj1 Hg), mul3_I_l. f_equal.
  rewrite app3_add, app3_opp, <- app3_mul, (proj1 Hg), !app3_I.
  generalize (app3 (tr3 R) p). intros [p1 p2 p3]. destruct q as [q1 q2 q3]. apply V3_ext; unfold scal3, add3; c3; ring.
Qed.
Lemma se3_compose_between g k : rigid3 g -> se3_compose g (se3_between g k) = k.
Proof.
  intro Hg. destruct g as [R p], k as [S q]. unfold rigid3 in *. cbn [rr] in *.
  unfold se3_between, se3_compose, se3_inverse. cbn [rr rp].
  rewrite <- mul3_assoc, (rot_right R Hg), mul3_I_l. f_equal.
  rewrite app3_opp, app3_add, app3_scal, <- !app3_mul, (rot_right R Hg), !app3_I.
  destruct p as [p1 p2 p3], q as [q1 q2 q3]. apply V3_ext; unfold scal3, add3; c3; ring.
Qed.
Lemma se3_jexp_block d v J : se3_jexp d v = Some J -> exists A C, so3_jexp d (ang v) = Some A /\ J = mkM66 A C mzero A.
Proof.
  intro E. destruct (Rlt_le_dec (norm3 (ang v)) (so3_near_zero_eps d)) as [S|B].
  - rewrite (se3_jexp_small d v S) in E. cbv zeta in E. apply some_inj in E. subst J. rewrite (jexp_mat_small d _ S), jexp_matc. eauto.
  - rewrite (se3_jexp_big d v B) in E. cbv zeta in E. apply some_inj in E. subst J. rewrite (jexp_mat_big d _ B), jexp_matc. eauto.
Qed.
Lemma app3_inj R x y : rotation3 R -> app3 R x = app3 R y -> x = y.
Proof. intros H E. rewrite <- (app3_I x), <- (app3_I y), <- (proj1 H), !app3_mul, E. reflexivity. Qed.
Lemma deriv3_unique f t a b : deriv3 f t a -> deriv3 f t b -> a = b.
Proof. intros (A0 & A1 & A2) (B0 & B1 & B2). apply V3_ext; eapply deriv_unique; eassumption. Qed.
Lemma sub3_eq a b : len3 (sub3 a b) <= 0 -> a = b.
Proof. intro H. apply len_zero in H. destruct a, b. unfold sub3, zero3 in H. cbn in H. injection H as H0 H1 H2. apply V3_ext; cbn; lra. Qed.
Lemma se3_exp_moves d v eps J e M : len3 (ang v) = 0 \/ so3_near_zero_eps d < len3 (ang v) ->
  se3_jexp d v = Some J -> se3_exp d v = Some e -> (forall t, se3_exp d (tadd v (tscal t eps)) = Some (M t)) -> moves6 M e (app66 J eps).
Proof.
  intros B EJ EE EM. pose proof (so3_eps_pos d) as P. destruct B as [B|B].
  - destruct (C37_exp_jac_small_angle d v eps J e M ltac:(lra) EJ EE EM) as (M0 & D & L & DL & Q). apply moves6_iff.
    split; [exact M0|]. split; [exact D|]. rewrite B in Q.
    assert (E : L = app3 (rr e) (lin (app66 J eps))) by (apply sub3_eq; lra). rewrite <- E. exact DL.
  - apply (C37_exp_jac d v eps J e M); assumption.
Qed.
Lemma moves6_compose g M e xi : moves6 M e xi -> moves6 (fun t => se3_compose g (M t)) (se3_compose g e) xi.
Proof.
  rewrite !moves6_iff. intros (M0 & D & L). unfold se3_compose. cbn [rr rp]. split; [now rewrite M0|]. split.
  - rewrite mul3_assoc. apply (deriv_left (rr g) (fun t => rr (M t))). exact D.
  - rewrite app3_mul. destruct L as (L0 & L1 & L2).
    unfold deriv3, add3, app3. cbn [b0 b1 b2].
    repeat split; (eapply deriv_val; [|repeat dstep]); cbv beta; cbn; ring.
Qed.
Lemma se3_class_laws d : Laws (se3_class d) (se3_meaning d).
Proof.
  pose proof (so3_eps_pos d) as P.
  split; unclass; unfold regular; unclass.
  - intros g v V. unfold se3_retract. destruct (C37_exp_rigid d (tw_of v)) as (e & E & Ve & _). rewrite E. eexists. split; [reflexivity|].
    now apply rot_mul.
  - intros g k v Vg Vk E [A B]. apply omap in E. destruct E as (u & E & <-). exists k. split; [|reflexivity]. rewrite tw_of_of in *.
    destruct B as [B|B]; [|apply (C37_retract_local d g k u); try assumption; lra].
    assert (RB : rotation3 (rr (se3_between g k))) by (apply rot_mul; [now apply rot_tr|exact Vk]).
    unfold se3_local in E. destruct (C37_log_is_logarithm d _ u RB E) as (_ & LA & _).
    destruct (so3_log_zero d _ (ang u) RB LA B) as [RI AZ]. 
    pose proof (se3_compose_between g k Vg) as CB. unfold se3_retract.
    destruct (se3_between g k) as [S q] eqn:EB. cbn [rr] in RI. subst S. rewrite se3_log_noang in E. apply some_inj in E. subst u.
    rewrite se3_exp_noang. cbv beta iota delta [bind]. now rewrite CB.
  - intros g v k u V [A B] E1 E2. apply omap in E2. destruct E2 as (w & E2 & <-). apply of_tw_same. destruct B as [B|B].
    + unfold se3_retract in E1. assert (AZ : ang (tw_of v) = zero3) by (apply len_zero; lra).
      replace (tw_of v) with (mkTw (lin (tw_of v)) zero3) in E1 by (rewrite <- AZ; destruct (tw_of v); reflexivity).
      rewrite se3_exp_noang in E1. cbv beta iota delta [bind] in E1. apply some_inj in E1. subst k.
      unfold se3_local in E2. rewrite se3_between_compose in E2 by exact V. rewrite se3_log_noang in E2. apply some_inj in E2. subst w.
      rewrite <- AZ. destruct (tw_of v); reflexivity.
    + destruct (C37_local_retract d g k (tw_of v) V ltac:(lra) E1) as (_ & [L|[L _]]); rewrite E2 in L; [|discriminate]. apply some_inj in L. now symmetry.
  - intro v. destruct (C37_exp_jac_total d (tw_of v)) as (J & E). rewrite E. eexists. reflexivity.
  - intros u v J K S E1 E2. rewrite (tw_same u v S) in E1. rewrite E1 in E2. apply some_inj in E2. subst K. apply same_refl.
  - intros v J A E. apply omap in E. destruct E as (J' & E & <-). destruct (se3_jexp_block d _ J' E) as (S & C & ES & ->).
    destruct (so3_jac_inverse d (ang (tw_of v)) S A ES) as (K & H1 & H2).
    eexists. apply inverse_m66; [exact H1|exact H2|reflexivity].
  - intros g v eps J k h V [A B] EJ EK EH. apply omap in EJ. destruct EJ as (J' & EJ & <-). rewrite tw_of_vm66.
    unfold se3_retract in EK. destruct (se3_exp d (tw_of v)) as [e|] eqn:EE; [|discriminate]. cbv beta iota delta [bind] in EK. apply some_inj in EK. subst k.
    set (M := fun t => match se3_exp d (tadd (tw_of v) (tscal t (tw_of eps))) with Some m => m | None => mkRig I3 zero3 end).
    assert (EM : forall t, se3_exp d (tadd (tw_of v) (tscal t (tw_of eps))) = Some (M t)).
    { intro t. unfold M. destruct (C37_exp_rigid d (tadd (tw_of v) (tscal t (tw_of eps)))) as (m & -> & _). reflexivity. }
    assert (HM : forall t, se3_compose g (M t) = h t).
    { intro t. specialize (EH t). rewrite tw_shift in EH. unfold se3_retract in EH. rewrite EM in EH. cbv beta iota delta [bind] in EH. now apply some_inj in EH. }
    pose proof (moves6_compose g M e _ (se3_exp_moves d (tw_of v) (tw_of eps) J' e M B EJ EE EM)) as MV.
    apply moves6_iff in MV. destruct MV as (M0 & D & L). change (moves6 h (se3_compose g e) (app66 J' (tw_of eps))). apply moves6_iff.
    split; [now rewrite <- HM|]. split.
    + apply (deriv_m3_ext (fun t => rr (se3_compose g (M t)))); [intro x; now rewrite HM|exact D].
    + destruct L as (L0 & L1 & L2). repeat split; (eapply deriv_ext; [|eassumption]); intro x; cbv beta; now rewrite HM.
  - intros h k k' xi H <-. exact H.
  - intros h k xi xi' V H H'. change (moves6 h k (tw_of xi)) in H. change (moves6 h k (tw_of xi')) in H'.
    apply moves6_iff in H. apply moves6_iff in H'. destruct H as (_ & D & L), H' as (_ & D' & L').
    pose proof (deriv_m3_unique _ _ _ _ D D') as U. apply (so3_alg_inj _ _ _ V) in U.
    pose proof (deriv3_unique _ _ _ _ L L') as W. apply (app3_inj _ _ _ V) in W.
    unfold tw_of in U, W. cbn [ang lin] in U, W. injection U as U0 U1 U2. injection W as W0 W1 W2.
    intros i Hi. destruct i as [|[|[|[|[|[|i]]]]]]; try lia; assumption.
Qed.

Theorem class_laws : forall G M, theseus_class G M -> Laws G M.
Proof.
  intros G M H. destruct H; [apply vector_class_laws|apply so2_class_laws|apply se2_class_laws|apply so3_class_laws|apply se3_class_laws].
Qed.
