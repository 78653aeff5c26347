(** C88: numeric_jacobian converges to the derivative. *)
From Coq Require Import Reals List Arith Bool ZArith Lra Lia Psatz.
From Coquelicot Require Import Coquelicot.
From Verif Require Import Geo_spec Geo3_spec Geo4_spec RSum Trig Exp_unique SE2_model SE2_group SE2_exp SE2_jac SE2_curve SO3_model SO3_exp SO3_group SO3_ops SO3_log
  SE3_model SE3_group SE3_exp SE3_jexp SE3_log Emb_model Emb_spec Emb_laws Mg_laws2 Mg_laws3 Nd_model Nd_spec Nd_props Nd_jac.
Import List ListNotations.
Local Open Scope R_scope.

Record NLaws (o : NGroup) (C : Calculus (ng o)) : Prop := mkNLaws {
  n_group : theseus_group (ng o) C;
  n_rev : forall h g xi, passes C h g xi -> passes C (fun t => h (- t)) g (tscale (-1) xi);
  n_one : is_elt C (one C) /\ regular C (one C);
  n_back : forall h g xi, is_elt C g -> passes C h (between g g) xi -> passes C h (one C) xi;
  n_fst : forall g x, is_elt C g -> teq C (japp C (fst (between_jac g g)) x) (tscale (-1) x);
  n_neg : forall x, teq C (tscale (-1) (tscale (-1) x)) x;
  n_log1 : forall u i, log_map (one C) = Some u -> (i < ng_dof o)%nat -> ng_coord o u i = 0;
  n_tderiv : forall u x i, tderiv C u x -> (i < ng_dof o)%nat -> deriv (fun t => ng_coord o (u t) i) 0 (ng_coord o x i);
  n_teq : forall x y i, teq C x y -> (i < ng_dof o)%nat -> ng_coord o x i = ng_coord o y i;
  n_plus : forall x y i, (i < ng_dof o)%nat -> ng_coord o (tplus C x y) i = ng_coord o x i + ng_coord o y i;
  n_const : forall g x, passes C (fun _ => g) g (tscale 0 x);
  n_zero : forall J x y, teq C (tplus C (japp C J y) (tscale 0 x)) (japp C J y);
  n_retract : forall g d h, is_elt C g -> (d < ng_dof o)%nat -> (forall t, ng_retract o g (ng_vec o (axis (ng_dof o) d t)) = Some (h t)) ->
    curve C 1 h g (ng_vec o (axis (ng_dof o) d 1));
  n_elt : forall h g xi, passes C h g xi -> is_elt C (h 0) -> is_elt C g;
  n_near : forall r h xi, 0 < r -> curve C r h (one C) xi -> exists r', 0 < r' <= r /\ forall t, Rabs t < r' -> exists u, log_map (h t) = Some u;
  n_total : forall g v, is_elt C g -> exists g', ng_retract o g v = Some g' /\ is_elt C g' }.

Lemma d_rev : forall f l, deriv f 0 l -> deriv (fun t => f (- t)) 0 (- l).
Proof. intros f l D. apply dl_opp. rewrite Ropp_0. exact D. Qed.

Lemma vec_axis : forall n d t i, (i < n)%nat -> nth i (axis n d t) 0 = if Nat.eqb i d then t else 0.
Proof.
  intros n d t i H. unfold axis. rewrite (nth_indep _ 0 ((fun i => if Nat.eqb i d then t else 0) 0%nat)) by now rewrite map_length, seq_length.
  now rewrite (map_nth (fun i => if Nat.eqb i d then t else 0)), seq_nth.
Qed.
Lemma vector_nlaws : forall n, NLaws (vector_ng n) (vector_calculus n).
Proof.
  intro n. split; cbn -[rsum axis].
  - constructor.
  - intros h g xi P i Hi. destruct (P i Hi) as [H0 D]. rewrite Ropp_0. split; [exact H0|].
    eapply deriv_val; [|apply (d_rev (fun t => h t i)); exact D]. ring.
  - auto.
  - intros h g xi _ P i Hi. destruct (P i Hi) as [H0 D]. split; [rewrite H0; ring|exact D].
  - intros g x _ i Hi. rewrite vapp_mm, vapp_eye by exact Hi. rewrite vapp_neg, vapp_eye by exact Hi. ring.
  - intros x i Hi. ring.
  - intros u i E Hi. apply some_inj in E. now subst u.
  - intros u x i D Hi. apply D. exact Hi.
  - intros x y i E Hi. apply E. exact Hi.
  - reflexivity.
  - intros g x i Hi. split; [reflexivity|]. eapply deriv_val; [|apply d_const]. ring.
  - intros J x y i Hi. ring.
  - intros g d h _ Hd E. split; [|intros; exact Logic.I]. intros i Hi. cbn.
    assert (H : forall t, h t = fun i => g i + nth i (axis n d t) 0) by (intro t; specialize (E t); apply some_inj in E; now rewrite <- E).
    split; [rewrite H, vec_axis by exact Hi; destruct (Nat.eqb i d); ring|].
    rewrite vec_axis by exact Hi. apply (deriv_ext (fun t => g i + (if Nat.eqb i d then t else 0))); [intro t; rewrite H, vec_axis by exact Hi; reflexivity|].
    destruct (Nat.eqb i d).
    + eapply deriv_val; [|apply d_plus; [apply d_const|apply d_id]]. ring.
    + eapply deriv_val; [|apply d_plus; [apply d_const|apply d_const]]. ring.
  - auto.
  - intros r h xi Hr _. exists r. split; [lra|]. eauto.
  - intros g v _. eexists. split; [reflexivity|exact Logic.I].
Qed.

Lemma dc0 : deriv (fun t => cos t) 0 0.
Proof. eapply deriv_val; [|apply derivable_pt_lim_cos]. rewrite sin_0. ring. Qed.
Lemma ds0 : deriv (fun t => sin t) 0 1.
Proof. eapply deriv_val; [|apply derivable_pt_lim_sin]. apply cos_0. Qed.
Lemma so2_nlaws : NLaws so2_ng so2_calculus.
Proof.
  split.
  - constructor.
  - intros h g xi P. apply so2_passes in P. apply so2_passes. destruct P as (H0 & D0 & D1). rewrite Ropp_0. split; [exact H0|]. cbn.
    split; (eapply deriv_val; [|apply (d_rev (fun t => _ (h t))); eassumption]); ring.
  - cbn. split; lra.
  - cbn. intros h [c s] xi V P. cbn in *.
    replace (mkSO2 1 0) with (so2_compose (so2_inverse (mkSO2 c s)) (mkSO2 c s)); [exact P|].
    unfold so2_compose, so2_inverse. cbn. f_equal; nra.
  - cbn. intros g x _. unfold so2_adjoint. ring.
  - cbn. intros; ring.
  - cbn. intros u i E _. apply some_inj in E. subst u. unfold so2_log_map. cbn. rewrite <- cos_0 at 1. rewrite <- sin_0 at 1.
    apply atan2_angle. pose proof PI_RGT_0. lra.
  - cbn. intros u x i D _. exact D.
  - cbn. auto.
  - reflexivity.
  - intros g x. apply so2_passes. split; [reflexivity|]. cbn. split; (eapply deriv_val; [|apply d_const]); ring.
  - cbn. intros. ring.
  - intros g d h V Hd E. assert (d = 0)%nat by (cbn in Hd; lia). subst d.
    assert (H : forall t, h t = so2_retract g t) by (intro t; specialize (E t); cbn in E; now apply some_inj in E).
    split.
    + apply so2_passes. cbn in V. split; [|cbn; split].
      * rewrite H. unfold so2_retract, so2_compose, so2_exp_map. destruct g as [c s]. cbn. rewrite cos_0, sin_0. f_equal; ring.
      * apply (deriv_ext (fun t => co (so2_retract g t))); [intro t; now rewrite H|]. unfold so2_retract, so2_compose, so2_exp_map. cbn.
        eapply deriv_val; [|repeat first [apply dc0 | apply ds0 | dstep]]; cbv beta. rewrite ?cos_0, ?sin_0. ring.
      * apply (deriv_ext (fun t => si (so2_retract g t))); [intro t; now rewrite H|]. unfold so2_retract, so2_compose, so2_exp_map. cbn.
        eapply deriv_val; [|repeat first [apply dc0 | apply ds0 | dstep]]; cbv beta. rewrite ?cos_0, ?sin_0. ring.
    + intros t _. rewrite H. cbn in V. cbn. unfold so2_retract, so2_compose, so2_exp_map. destruct g as [c s]. cbn in *.
      pose proof (sin2_cos2 t) as Q. unfold Rsqr in Q.
      transitivity ((c * c + s * s) * (sin t * sin t + cos t * cos t)); [ring|]. rewrite V, Q. ring.
  - intros h g xi [H0 _] V. rewrite <- H0. exact V.
  - intros r h xi Hr _. exists r. split; [lra|]. cbn. eauto.
  - cbn. intros g v V. eexists. split; [reflexivity|]. unfold so2_retract, so2_compose, so2_exp_map. destruct g as [c s]. cbn in *.
    pose proof (sin2_cos2 v) as Q. unfold Rsqr in Q.
    transitivity ((c * c + s * s) * (sin v * sin v + cos v * cos v)); [ring|]. rewrite V, Q. ring.
Qed.

Lemma v3_axis : forall d t, (d < 3)%nat -> v3_of (axis 3 d t) = scal3 t (v3_of (axis 3 d 1)).
Proof. intros d t H. destruct d as [|[|[|d]]]; [| | |lia]; apply V3_ext; cbn; ring. Qed.
Lemma v3_deriv : forall u x i, deriv3 u 0 x -> (i < 3)%nat -> deriv (fun t => v3_at (u t) i) 0 (v3_at x i).
Proof. intros u x i (D0 & D1 & D2) H. destruct i as [|[|[|i]]]; [| | |lia]; assumption. Qed.
Lemma v3_plus : forall x y i, (i < 3)%nat -> v3_at (add3 x y) i = v3_at x i + v3_at y i.
Proof. intros [] [] i H. destruct i as [|[|[|i]]]; [| | |lia]; reflexivity. Qed.
Lemma v3_neg2 : forall x, scal3 (-1) (scal3 (-1) x) = x.
Proof. intros []. apply V3_ext; cbn; ring. Qed.
Lemma v3_zero : forall x y, add3 y (scal3 0 x) = y.
Proof. intros [] []. apply V3_ext; cbn; ring. Qed.

Lemma se2_theta_one : se2_theta (mkSE2 0 0 1 0) = 0.
Proof. unfold se2_theta, so2_log_map, se2_rotation. cbn. rewrite <- cos_0 at 1. rewrite <- sin_0 at 1. apply atan2_angle. pose proof PI_RGT_0. lra. Qed.
Lemma se2_log_one : forall d, se2_log_map d (mkSE2 0 0 1 0) = Some (mkV3 0 0 0).
Proof.
  intro d. pose proof (eps_pos d) as EP.
  unfold se2_log_map. fold (se2_theta (mkSE2 0 0 1 0)). rewrite se2_theta_one. rewrite lt_b_true by (rewrite Rabs_R0; lra).
  cbn -[pow]. rewrite div_some by lra. cbn -[pow]. f_equal. apply V3_ext; cbn; field.
Qed.
Lemma se2_between_self : forall g, pc g * pc g + ps g * ps g = 1 -> se2_compose (se2_inverse g) g = mkSE2 0 0 1 0.
Proof. intros g V. destruct C34_se2_group as (_ & _ & _ & _ & _ & _ & I & _). exact (proj1 (I g V)). Qed.
Lemma se2_log_some : forall d g, pc g * pc g + ps g * ps g = 1 -> 0 < pc g -> exists u, se2_log_map d g = Some u.
Proof.
  intros d g V P. destruct (theta_spec g V) as (C & S & B). destruct (Rlt_le_dec (Rabs (se2_theta g)) (se2_near_zero_eps d)) as [L|L].
  - rewrite SE2_exp.log_small by exact L. eauto.
  - assert (U : Rabs (se2_theta g) < PI).
    { apply Rabs_def1; [|lra]. destruct B as [_ [B|B]]; [exact B|]. exfalso. rewrite B, cos_PI in C. lra. }
    destruct (C35_exp_log d g V (conj L U)) as (v & E & _). eauto.
Qed.
Lemma near_one : forall (f : R -> R) r l, f 0 = 1 -> 0 < r -> deriv f 0 l -> exists r', 0 < r' <= r /\ forall t, Rabs t < r' -> 0 < f t.
Proof.
  intros f r l F0 Hr D.
  assert (CT : continuity_pt f 0) by (apply derivable_continuous_pt; eexists; exact D).
  destruct (CT 1 Rlt_0_1) as (al & Ha & Hc). cbn in Hc. unfold R_dist in Hc.
  exists (Rmin r al). split; [split; [apply Rmin_pos; lra|apply Rmin_l]|].
  intros t Ht. pose proof (Rmin_r r al) as MR. rewrite F0 in Hc.
  destruct (Req_dec t 0) as [->|N]; [lra|].
  assert (B : Rabs (f t - 1) < 1).
  { apply Hc. split; [split; [exact Logic.I|congruence]|]. rewrite Rminus_0_r. lra. }
  apply Rabs_def2 in B. lra.
Qed.
Lemma deriv_m3_rev : forall h m, deriv_m3 h 0 m -> deriv_m3 (fun t => h (- t)) 0 (opp_m3 m).
Proof. intros h m (A & B & C & D & E & F & G & H & K). unfold deriv_m3. repeat split; cbn; apply (d_rev (fun t => _ (h t))); assumption. Qed.
Lemma se2_nlaws : forall d, NLaws (se2_ng d) (se2_calculus d).
Proof.
  intro d. pose proof PI_RGT_0 as HPI. split.
  - constructor.
  - intros h g xi P. apply se2_passes in P. apply se2_passes. destruct P as (H0 & D0 & D1 & D2 & D3). unfold vel. rewrite Ropp_0.
    split; [exact H0|]. split; [|split; [|split]]; (eapply deriv_val; [|apply (d_rev (fun t => _ (h t))); eassumption]); cbn; ring.
  - cbn. split; [lra|]. exists 0. rewrite cos_0, sin_0. auto.
  - cbn. intros h g xi V P. rewrite (se2_between_self g V) in P. exact P.
  - intros g x V. pose proof (l_fst _ _ (se2_laws d) g g x V V) as E. cbn in E. cbn. rewrite E. unfold between. cbn.
    rewrite (se2_between_self g V). destruct x. apply V3_ext; cbn; ring.
  - exact v3_neg2.
  - cbn. intros u i E Hi. rewrite se2_log_one in E. apply some_inj in E. subst u. destruct i as [|[|[|i]]]; reflexivity.
  - exact v3_deriv.
  - cbn. intros; subst; reflexivity.
  - exact v3_plus.
  - intros g x. apply se2_passes. split; [reflexivity|]. cbn. split; [|split; [|split]]; (eapply deriv_val; [|apply d_const]); ring.
  - cbn. intros. apply v3_zero.
  - intros g k h V Hk E. cbn in V, Hk. cbn -[axis v3_of se2_retract] in E. split.
    + apply se2_passes. apply (retract_curve d). intro t. rewrite <- v3_axis by exact Hk. apply E.
    + intros t _. specialize (E t). unfold se2_retract in E. destruct (C35_exp_valid d (v3_of (axis 3 k t))) as (e & X & Ve & _).
      rewrite X in E. cbv beta iota delta [bind] in E. apply some_inj in E. rewrite <- E.
      destruct C34_se2_group as (_ & _ & Q & _). exact (Q g e V Ve).
  - intros h g xi [H0 _] V. rewrite <- H0. exact V.
  - intros r h xi Hr [P V]. apply se2_passes in P. destruct P as (H0 & _ & _ & D2 & _). cbn in V.
    assert (Z : pc (h 0) = 1) by (rewrite H0; reflexivity).
    destruct (near_one (fun t => pc (h t)) r _ Z Hr D2) as (r' & R1 & T).
    exists r'. split; [exact R1|]. intros t Ht. apply (se2_log_some d (h t)); [apply V; lra|apply T; exact Ht].
  - cbn -[se2_retract]. intros g v V. destruct (C35_exp_valid d v) as (e & X & Ve & _). unfold se2_retract. rewrite X. cbv beta iota delta [bind].
    eexists. split; [reflexivity|]. destruct C34_se2_group as (_ & _ & Q & _). exact (Q g e V Ve).
Qed.

Lemma trace_near : forall h r d l0 l1 l2, h 0 = I3 -> 0 < r -> deriv (fun t => d00 (h t)) 0 l0 -> deriv (fun t => d11 (h t)) 0 l1 -> deriv (fun t => d22 (h t)) 0 l2 ->
  exists r', 0 < r' <= r /\ forall t, Rabs t < r' -> so3_near_pi_eps d < (1 + d00 (h t) + d11 (h t) + d22 (h t)) / 2.
Proof.
  intros h r d l0 l1 l2 H0 Hr D0 D1 D2.
  assert (D : deriv (fun t => d00 (h t) + d11 (h t) + d22 (h t)) 0 (l0 + l1 + l2)) by (apply d_plus; [apply d_plus|]; assumption).
  assert (CT : continuity_pt (fun t => d00 (h t) + d11 (h t) + d22 (h t)) 0) by (apply derivable_continuous_pt; eexists; exact D).
  assert (EP : so3_near_pi_eps d < 1) by (destruct d; cbn; lra).
  destruct (CT 1 Rlt_0_1) as (al & Ha & Hc). cbn in Hc. unfold R_dist in Hc.
  exists (Rmin r al). split; [split; [apply Rmin_pos; lra|apply Rmin_l]|].
  intros t Ht. pose proof (Rmin_r r al) as MR. rewrite H0 in Hc. cbn in Hc.
  destruct (Req_dec t 0) as [->|N]; [rewrite H0; cbn; lra|].
  assert (B : Rabs (d00 (h t) + d11 (h t) + d22 (h t) - (1 + 1 + 1)) < 1).
  { apply Hc. split; [split; [exact Logic.I|congruence]|]. rewrite Rminus_0_r. lra. }
  apply Rabs_def2 in B. lra.
Qed.
Lemma log_some : forall d g, rotation3 g -> so3_near_pi_eps d < (1 + d00 g + d11 g + d22 g) / 2 -> exists u, so3_log d g = Some u.
Proof.
  intros d g H B. destruct (so3_log d g) as [u|] eqn:E; [eauto|]. exfalso. apply C36_log_defined in E; [|exact H]. destruct E as (E & _). lra.
Qed.
Lemma rot_angle_I : rot_angle I3 0.
Proof. unfold rot_angle. cbn. rewrite cos_0. pose proof PI_RGT_0. repeat split; lra. Qed.
Lemma so3_nlaws : forall d, NLaws (so3_ng d) (so3_calculus d).
Proof.
  intro d. pose proof PI_RGT_0 as HPI. split.
  - constructor.
  - intros h g xi [H0 D]. split; [rewrite Ropp_0; exact H0|].
    change (deriv_m3 (fun t => h (- t)) 0 (mul3 g (so3_alg (scal3 (-1) xi)))).
    assert (E : mul3 g (so3_alg (scal3 (-1) xi)) = opp_m3 (mul3 g (so3_alg xi))) by (destruct g, xi; apply M3_ext; cbn; ring).
    rewrite E. apply deriv_m3_rev. exact D.
  - cbn. split; [apply I3_rot|]. exists 0. split; [apply rot_angle_I|now right].
  - cbn. intros h g xi V P. change (so3_compose (so3_inverse g) g) with (mul3 (tr3 g) g) in P. rewrite (proj1 V) in P. exact P.
  - intros g x V. pose proof (l_fst _ _ (so3_laws d) g g x V V) as E. cbn in E. cbn. rewrite E. unfold between. cbn.
    change (so3_compose (so3_inverse g) g) with (mul3 (tr3 g) g). rewrite (proj1 V). destruct x. apply V3_ext; cbn; ring.
  - exact v3_neg2.
  - cbn. intros u i E Hi. rewrite so3_log_I in E. apply some_inj in E. subst u. destruct i as [|[|[|i]]]; reflexivity.
  - exact v3_deriv.
  - cbn. intros; subst; reflexivity.
  - exact v3_plus.
  - intros g x. split; [reflexivity|]. unfold deriv_m3. repeat split; (eapply deriv_val; [|apply d_const]); cbn; ring.
  - cbn. intros. apply v3_zero.
  - intros g k h V Hk E. cbn in V, Hk. cbn -[axis v3_of so3_retract] in E. split.
    + apply (C36_retract_velocity d). intro t. rewrite <- v3_axis by exact Hk. apply E.
    + intros t _. specialize (E t). unfold so3_retract in E. destruct (C36_exp_rotation d (v3_of (axis 3 k t))) as (e & X & Ve).
      rewrite X in E. cbv beta iota delta [bind] in E. apply some_inj in E. rewrite <- E. apply rot_mul; assumption.
  - intros h g xi [H0 _] V. rewrite <- H0. exact V.
  - intros r h xi Hr [[H0 (A & _ & _ & _ & B & _ & _ & _ & D)] V]. cbn in V. destruct (trace_near h r d _ _ _ H0 Hr A B D) as (r' & R1 & T).
    exists r'. split; [exact R1|]. intros t Ht. apply log_some; [apply V; lra|apply T; exact Ht].
  - cbn -[so3_retract]. intros g v V. destruct (C36_exp_rotation d v) as (e & X & Ve). unfold so3_retract. rewrite X. cbv beta iota delta [bind].
    eexists. split; [reflexivity|]. apply rot_mul; assumption.
Qed.

Lemma tw_axis : forall d t, (d < 6)%nat -> tw_of (axis 6 d t) = tscal t (tw_of (axis 6 d 1)).
Proof. intros d t H. destruct d as [|[|[|[|[|[|d]]]]]]; [| | | | | |lia]; apply tw_ext; apply V3_ext; cbn; ring. Qed.
Lemma se3_between_self : forall g, rigid3 g -> se3_compose (se3_inverse g) g = mkRig I3 zero3.
Proof.
  intros g H. pose proof (se3_between_compose g (mkRig I3 zero3) H) as E.
  destruct (C37_group g g g H H H) as (_ & _ & _ & Q & _). rewrite Q in E. exact E.
Qed.
Lemma se3_nlaws : forall d, NLaws (se3_ng d) (se3_calculus d).
Proof.
  intro d. pose proof PI_RGT_0 as HPI. split.
  - constructor.
  - intros h g xi P. change (moves6 h g xi) in P. change (moves6 (fun t => h (- t)) g (tscal (-1) xi)).
    apply moves6_iff in P. apply moves6_iff. destruct P as (H0 & D & L). split; [rewrite Ropp_0; exact H0|]. split.
    + replace (mul3 (rr g) (so3_alg (ang (tscal (-1) xi)))) with (opp_m3 (mul3 (rr g) (so3_alg (ang xi)))); [apply (deriv_m3_rev (fun t => rr (h t))); exact D|].
      destruct g as [[] []], xi as [[] []]. apply M3_ext; cbn; ring.
    + destruct L as (L0 & L1 & L2). unfold deriv3. split; [|split].
      * eapply deriv_val; [|apply (d_rev (fun t => b0 (rp (h t)))); exact L0]. destruct g as [[] []], xi as [[] []]. cbn. ring.
      * eapply deriv_val; [|apply (d_rev (fun t => b1 (rp (h t)))); exact L1]. destruct g as [[] []], xi as [[] []]. cbn. ring.
      * eapply deriv_val; [|apply (d_rev (fun t => b2 (rp (h t)))); exact L2]. destruct g as [[] []], xi as [[] []]. cbn. ring.
  - cbn. split; [apply I3_rot|]. exists 0. split; [apply rot_angle_I|now right].
  - cbn. intros h g xi V P. rewrite (se3_between_self g V) in P. exact P.
  - intros g x V. pose proof (l_fst _ _ (se3_laws d) g g x V V) as E. cbn in E. cbn. rewrite E. unfold between. cbn.
    rewrite (se3_between_self g V). destruct x as [[] []]. apply tw_ext; apply V3_ext; cbn; ring.
  - cbn. intros [[] []]. apply tw_ext; apply V3_ext; cbn; ring.
  - cbn. intros u i E Hi. rewrite se3_log_noang in E. apply some_inj in E. subst u. unfold tw_at, zero3. cbn.
    destruct i as [|[|[|[|[|[|i]]]]]]; try lia; reflexivity.
  - cbn. intros u x i (D0 & D1) Hi. unfold tw_at. destruct (Nat.ltb i 3) eqn:L.
    + apply Nat.ltb_lt in L. exact (v3_deriv (fun t => lin (u t)) (lin x) i D0 L).
    + apply Nat.ltb_ge in L. apply (v3_deriv (fun t => ang (u t)) (ang x) (i - 3)); [exact D1|lia].
  - cbn. intros; subst; reflexivity.
  - cbn. intros x y i Hi. unfold tw_at. destruct (Nat.ltb i 3) eqn:L.
    + apply Nat.ltb_lt in L. exact (v3_plus (lin x) (lin y) i L).
    + apply Nat.ltb_ge in L. apply (v3_plus (ang x) (ang y)). lia.
  - intros g x. change (moves6 (fun _ => g) g (tscal 0 x)). apply moves6_iff. split; [reflexivity|].
    destruct g as [[] []], x as [[] []]. split; [unfold deriv_m3|unfold deriv3]; repeat split; (eapply deriv_val; [|apply d_const]); cbn; ring.
  - cbn. intros J x y. generalize (app66 J y). intros [[] []]. destruct x as [[] []]. apply tw_ext; apply V3_ext; cbn; ring.
  - intros g k h V Hk E. cbn in V, Hk. cbn -[axis tw_of se3_retract] in E. split.
    + apply (C37_retract_velocity d); [exact V|]. intro t. rewrite <- tw_axis by exact Hk. apply E.
    + intros t _. specialize (E t). unfold se3_retract in E. destruct (C37_exp_rigid d (tw_of (axis 6 k t))) as (e & X & Ve & _).
      rewrite X in E. cbv beta iota delta [bind] in E. apply some_inj in E. rewrite <- E. destruct (C37_group g e g V Ve V) as (Q & _). exact Q.
  - intros h g xi [H0 _] V. rewrite <- H0. exact V.
  - intros r h xi Hr [P V]. change (moves6 h (mkRig I3 zero3) xi) in P. apply moves6_iff in P. destruct P as (H0 & (A & _ & _ & _ & B & _ & _ & _ & D) & _). cbn in V.
    assert (Z : rr (h 0) = I3) by (rewrite H0; reflexivity).
    destruct (trace_near (fun t => rr (h t)) r d _ _ _ Z Hr A B D) as (r' & R1 & T).
    exists r'. split; [exact R1|]. intros t Ht.
    destruct (se3_log d (h t)) as [u|] eqn:E; [eauto|]. exfalso. apply C37_log_defined in E; [|apply V; lra]. destruct E as (E & _). specialize (T t Ht). cbv beta in T. lra.
  - cbn -[se3_retract]. intros g v V. destruct (C37_exp_rigid d v) as (e & X & Ve & _). unfold se3_retract. rewrite X. cbv beta iota delta [bind].
    eexists. split; [reflexivity|]. destruct (C37_group g e g V Ve V) as (Q & _). exact Q.
Qed.
Lemma ng_laws : forall o C, theseus_ng o C -> NLaws o C.
Proof. intros o C []; [apply vector_nlaws|apply so2_nlaws|apply se2_nlaws|apply so3_nlaws|apply se3_nlaws]. Qed.

(** ** convergence *)
Lemma central_of : forall o C, theseus_ng o C -> forall r c g xi, 0 < r -> curve C r c g xi ->
  forall i, (i < ng_dof o)%nat -> forall eps, 0 < eps -> exists r', 0 < r' <= r /\ forall h u, 0 < h < r' -> local (c (- h)) (c h) = Some u ->
    Rabs (ng_coord o u i / (2 * h) - ng_coord o xi i) < eps.
Proof.
  intros o C T r c g xi Hr [P V] i Hi eps He. pose proof (ng_laws o C T) as N. pose proof (group_laws _ _ (n_group _ _ N)) as L.
  assert (V0 : is_elt C (c 0)) by (apply V; rewrite Rabs_R0; exact Hr).
  assert (Vg : is_elt C g) by exact (n_elt _ _ N _ _ _ P V0).
  assert (PB : passes C (fun t => between (c (- t)) (c t)) (one C) (tplus C xi xi)).
  { apply (n_back _ _ N _ g _ Vg). eapply (l_passes _ _ L); [|apply (l_moves _ _ L g g (fun t => c (- t)) c _ xi Vg Vg (n_rev _ _ N _ _ _ P) P)].
    apply (l_plus _ _ L); [|apply (l_refl _ _ L)]. eapply (l_trans _ _ L); [apply (n_fst _ _ N); exact Vg|apply (n_neg _ _ N)]. }
  assert (CB : curve C r (fun t => between (c (- t)) (c t)) (one C) (tplus C xi xi)).
  { split; [exact PB|]. intros t Ht. apply (l_between _ _ L); apply V; [rewrite Rabs_Ropp|]; exact Ht. }
  destruct (n_near _ _ N r _ _ Hr CB) as (r1 & R1 & LG).
  set (u := fun t => match log_map (between (c (- t)) (c t)) with Some u => u | None => xi end).
  assert (LU : forall t, Rabs t < r1 -> log_map (between (c (- t)) (c t)) = Some (u t)).
  { intros t Ht. destruct (LG t Ht) as (w & E). unfold u. now rewrite E. }
  assert (Z0 : Rabs 0 < r1) by (rewrite Rabs_R0; lra).
  destruct (l_start _ _ L _ _ _ PB (u 0) (LU 0 Z0)) as (v & EV & QV).
  destruct (n_one _ _ N) as [E1 G1].
  destruct (l_total _ _ L _ v E1 G1 EV) as (J & EJ).
  assert (CB1 : curve C r1 (fun t => between (c (- t)) (c t)) (one C) (tplus C xi xi)).
  { destruct CB as [A B]. split; [exact A|]. intros t Ht. apply B. lra. }
  pose proof (l_log _ _ L (one C) J _ _ u r1 (proj1 R1) CB1 G1 EJ LU) as TD.
  apply (l_tderiv _ _ L _ _ (tplus C xi xi)) in TD; [|apply (l_one _ _ L); exact EJ].
  pose proof (n_tderiv _ _ N _ _ i TD Hi) as D. rewrite (n_plus _ _ N) in D by exact Hi.
  assert (U0 : ng_coord o (u 0) i = 0) by (rewrite (n_teq _ _ N _ _ i QV Hi); exact (n_log1 _ _ N v i EV Hi)).
  destruct (D eps He) as [dl Hd]. pose proof (cond_pos dl) as DP.
  exists (Rmin r1 dl). split; [split; [apply Rmin_pos; lra|pose proof (Rmin_l r1 dl); lra]|].
  intros h w Hh EW. pose proof (Rmin_l r1 dl). pose proof (Rmin_r r1 dl).
  assert (AH : Rabs h = h) by (apply Rabs_right; lra).
  assert (w = u h) by (unfold local in EW; rewrite LU in EW by lra; now apply some_inj in EW). subst w.
  assert (Q : Rabs ((ng_coord o (u (0 + h)) i - ng_coord o (u 0) i) / h - (ng_coord o xi i + ng_coord o xi i)) < eps) by (apply Hd; [lra|lra]).
  rewrite Rplus_0_l, U0 in Q.
  replace (ng_coord o (u h) i / (2 * h) - ng_coord o xi i) with (/ 2 * ((ng_coord o (u h) i - 0) / h - (ng_coord o xi i + ng_coord o xi i))) by (field; lra).
  rewrite Rabs_mult, (Rabs_right (/ 2)) by lra. pose proof (Rabs_pos ((ng_coord o (u h) i - 0) / h - (ng_coord o xi i + ng_coord o xi i))). lra.
Qed.
(** Near 0 the output differences have a logarithm. *)
Lemma local_near : forall o C, theseus_ng o C -> forall r c g xi, 0 < r -> curve C r c g xi ->
  exists r', 0 < r' <= r /\ forall t, Rabs t < r' -> exists u, local (c (- t)) (c t) = Some u.
Proof.
  intros o C T r c g xi Hr [P V]. pose proof (ng_laws o C T) as N. pose proof (group_laws _ _ (n_group _ _ N)) as L.
  assert (V0 : is_elt C (c 0)) by (apply V; rewrite Rabs_R0; exact Hr).
  assert (Vg : is_elt C g) by exact (n_elt _ _ N _ _ _ P V0).
  assert (PB : passes C (fun t => between (c (- t)) (c t)) (one C) (tplus C xi xi)).
  { apply (n_back _ _ N _ g _ Vg). eapply (l_passes _ _ L); [|apply (l_moves _ _ L g g (fun t => c (- t)) c _ xi Vg Vg (n_rev _ _ N _ _ _ P) P)].
    apply (l_plus _ _ L); [|apply (l_refl _ _ L)]. eapply (l_trans _ _ L); [apply (n_fst _ _ N); exact Vg|apply (n_neg _ _ N)]. }
  apply (n_near _ _ N r _ (tplus C xi xi) Hr). split; [exact PB|]. intros t Ht. apply (l_between _ _ L); apply V; [rewrite Rabs_Ropp|]; exact Ht.
Qed.

(** Let argument k move along its axis d, and let the outputs (element b) then move along a curve
    of the group through g with velocity xi.  As the step goes to 0, entry (b, i, d) of Jacobian k
    tends to component i of xi. *)
Theorem C88_jacobian_limit : forall o C f args function_dim k a d b i r c g xi q,
  theseus_ng o C -> 0 < r -> nth_error args k = Some a -> (d < ng_dof (ga_ng a))%nat ->
  (exists a', In a' args /\ (b < length (ga_val a'))%nat) ->
  ng_dof o = rows_asked function_dim (ng_dof (ga_ng a)) -> (i < ng_dof o)%nat ->
  output_curve f args k d b r c -> curve C r c g xi ->
  (forall h, 0 < h < r -> exists js j, numeric_jacobian o f args function_dim h = Some js /\ nth_error js k = Some j /\ q h = j_at j b i d) ->
  tends_to q (ng_coord o xi i).
Proof.
  intros o C f args fd k a d b i r c g xi q T Hr N Hd (a' & Ia & Hb) Ho Hi OC CC HQ eps He.
  destruct (central_of o C T r c g xi Hr CC i Hi eps He) as (r' & R1 & B).
  exists r'. split; [lra|]. intros h Hh. destruct (HQ h ltac:(lra)) as (js & j & E & Nj & ->).
  destruct (C88_jacobian_entries o f args fd h js E) as [_ Q]. destruct (Q k a N) as (j' & Nj' & (_ & MB) & RW & CL & G).
  rewrite Nj in Nj'. injection Nj' as <-. destruct (G d Hd) as (am & ap & fm & fp & M1 & M2 & F1 & F2 & _ & X).
  specialize (MB a' Ia). destruct (X b i ltac:(lia) ltac:(lia)) as (gm & gp & u & O1 & O2 & LU & ->).
  assert (AH : Rabs h = h) by (apply Rabs_right; lra).
  rewrite (OC (- h) am fm ltac:(rewrite Rabs_Ropp; lra) M1 F1) in O1. injection O1 as <-.
  rewrite (OC h ap fp ltac:(lra) M2 F2) in O2. injection O2 as <-.
  replace (if Nat.eqb (ng_dof o) 1 then 0%nat else i) with i by (destruct (Nat.eqb (ng_dof o) 1) eqn:Z; [apply Nat.eqb_eq in Z; lia|reflexivity]).
  apply (B h u Hh LU).
Qed.

(** Outputs in a Vector: at most M h^2 / 6 from the derivative, where M bounds the third derivative
    of component i of the output as argument k moves along axis d. *)
Theorem C88_jacobian_vector_bound : forall n f args function_dim k a d b i h c g1 g2 g3 M js j,
  0 < h -> nth_error args k = Some a -> (d < ng_dof (ga_ng a))%nat ->
  (exists a', In a' args /\ (b < length (ga_val a'))%nat) ->
  n = rows_asked function_dim (ng_dof (ga_ng a)) -> (i < n)%nat ->
  (forall t args' out, - h <= t <= h -> moved args k d t args' -> f args' = Some out -> of_batch out b = Some (c t)) ->
  smooth3 (fun t => c t i) g1 g2 g3 h M ->
  numeric_jacobian (vector_ng n) f args function_dim h = Some js -> nth_error js k = Some j ->
  Rabs (j_at j b i d - g1 0) <= M * (h * h) / 6.
Proof.
  intros n f args fd k a d b i h c g1 g2 g3 M js j Hh N Hd (a' & Ia & Hb) Hn Hi OC S E Nj.
  destruct (C88_jacobian_entries (vector_ng n) f args fd h js E) as [_ Q]. destruct (Q k a N) as (j' & Nj' & (_ & MB) & RW & CL & G).
  rewrite Nj in Nj'. injection Nj' as <-. destruct (G d Hd) as (am & ap & fm & fp & M1 & M2 & F1 & F2 & _ & X).
  specialize (MB a' Ia). destruct (X b i ltac:(lia) ltac:(lia)) as (gm & gp & u & O1 & O2 & LU & ->).
  assert (Z1 : Some gm = Some (c (- h))) by (rewrite <- O1; exact (OC (- h) am fm ltac:(lra) M1 F1)).
  assert (Z2 : Some gp = Some (c h)) by (rewrite <- O2; exact (OC h ap fp ltac:(lra) M2 F2)).
  apply some_inj in Z1, Z2. subst gm gp.
  cbn [ng_dof vector_ng] in *.
  replace (if Nat.eqb n 1 then 0%nat else i) with i by (destruct (Nat.eqb n 1) eqn:Z; [apply Nat.eqb_eq in Z; lia|reflexivity]).
  cbn in LU. apply some_inj in LU. subst u. cbn [ng_coord vector_ng].
  replace ((fun i => - c (- h) i + c h i) i) with (c h i - c (- h) i) by (cbv beta; ring).
  exact (central_bound (fun t => c t i) g1 g2 g3 h M Hh S).
Qed.
