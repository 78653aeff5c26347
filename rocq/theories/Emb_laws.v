(** The facts about the LieGroup classes on which the theorems about the
    embodied cost functions rest, proved for each class. *)
From Coq Require Import Reals Lra Psatz List Arith Lia.
From Coquelicot Require Import Coquelicot.
From Verif Require Import Geo_spec Geo3_spec Geo4_spec RSum Trig Exp_unique SE2_model SE2_group SE2_exp SE2_jac SE2_curve
  SO3_model SO3_exp SO3_jexp SO3_group SO3_quat SO3_ops SO3_log SO3_jlog SE3_model SE3_group SE3_exp SE3_jexp SE3_log SE3_jlog SE3_local
  Emb_model Emb_spec.
Local Open Scope R_scope.

Record Laws (G : LieGroup) (C : Calculus G) : Prop := mkLaws {
  l_between : forall g k, is_elt C g -> is_elt C k -> is_elt C (between g k);
  l_moves : forall g k h h' xi xi', is_elt C g -> is_elt C k -> passes C h g xi -> passes C h' k xi' ->
    passes C (fun t => between (h t) (h' t)) (between g k) (tplus C (japp C (fst (between_jac g k)) xi) xi');
  l_moves_r : forall m k h xi, is_elt C m -> is_elt C k -> passes C h k xi ->
    passes C (fun t => between m (h t)) (between m k) xi;
  l_fst : forall g k x, is_elt C g -> is_elt C k ->
    teq C (japp C (fst (between_jac g k)) x) (japp C (jneg (adjoint (inverse (between g k)))) x);
  l_snd : forall g k x, teq C (japp C (snd (between_jac g k)) x) x;
  l_log : forall f J h xi u r, 0 < r -> curve C r h f xi -> regular C f -> log_map_jac f = Some J ->
    (forall t, Rabs t < r -> log_map (h t) = Some (u t)) -> tderiv C u (japp C J xi);
  l_commute : forall f J x, is_elt C f -> regular C f -> log_map_jac f = Some J ->
    teq C (japp C (jmul (jneg (adjoint (inverse f))) J) x) (japp C J (japp C (jneg (adjoint (inverse f))) x));
  l_start : forall h g xi, passes C h g xi -> forall u, log_map (h 0) = Some u ->
    exists v, log_map g = Some v /\ teq C u v;
  l_mul : forall A B x, teq C (japp C (jmul A B) x) (japp C A (japp C B x));
  l_neg : forall A B x, teq C (japp C (jmul (jneg A) B) x) (japp C A (japp C (jneg B) x));
  l_lin : forall J x y, teq C (japp C J (tplus C x y)) (tplus C (japp C J x) (japp C J y));
  l_cong : forall J x y, teq C x y -> teq C (japp C J x) (japp C J y);
  l_plus : forall x x' y y', teq C x x' -> teq C y y' -> teq C (tplus C x y) (tplus C x' y');
  l_refl : forall x, teq C x x;
  l_sym : forall x y, teq C x y -> teq C y x;
  l_trans : forall x y z, teq C x y -> teq C y z -> teq C x z;
  l_assoc : forall x y z, teq C (tplus C (tplus C x y) z) (tplus C x (tplus C y z));
  l_comm : forall x y, teq C (tplus C x y) (tplus C y x);
  l_tderiv : forall u x y, teq C x y -> tderiv C u x -> tderiv C u y;
  l_passes : forall h g x y, teq C x y -> passes C h g x -> passes C h g y;
  l_sub : forall u v a b c, tderiv C u a -> tderiv C v b ->
    tderiv C (fun t => tsub (u t) (tscale c (v t))) (tplus C a (japp C (jscale (- c) jeye) b));
  l_sub2 : forall u v a b, tderiv C u a -> tderiv C v b ->
    tderiv C (fun t => tsub (u t) (v t)) (tplus C (japp C jeye a) (japp C (jneg jeye) b));
  l_zero : forall x y, teq C (tplus C (japp C jzero x) y) y;
  l_eye : forall x, teq C (japp C jeye x) x;
  l_loc : forall u v x r, 0 < r -> (forall t, Rabs t < r -> u t = v t) -> tderiv C u x -> tderiv C v x;
  l_subc : forall x x' y, teq C x x' -> teq C (tsub x y) (tsub x' y);
  l_total : forall f v, is_elt C f -> regular C f -> log_map f = Some v -> exists J, log_map_jac f = Some J;
  l_one : forall J x, log_map_jac (one C) = Some J -> teq C (japp C J x) x }.

(** ** Vector *)
Lemma vapp_eye : forall n v i, (i < n)%nat -> vec_app n vec_eye v i = v i.
Proof.
  intros n v i H. unfold vec_app, vec_eye. rewrite (rsum_ext n _ (fun j => if Nat.eqb j i then v j else 0)).
  - rewrite rsum_delta. apply Nat.ltb_lt in H. rewrite H. reflexivity.
  - intros j _. rewrite Nat.eqb_sym. destruct (Nat.eqb j i); ring.
Qed.
Lemma vapp_mm : forall n A B x i, vec_app n (vec_mm n A B) x i = vec_app n A (vec_app n B x) i.
Proof.
  intros n A B x i. unfold vec_app, vec_mm.
  rewrite (rsum_ext n _ (fun j => rsum n (fun k => A i k * (B k j * x j)))).
  - rewrite rsum_exch. apply rsum_ext. intros k _. rewrite rsum_scal. reflexivity.
  - intros j _. rewrite <- rsum_scal_r. apply rsum_ext. intros k _. ring.
Qed.
Lemma vapp_neg : forall n A v i, vec_app n (vec_neg A) v i = - vec_app n A v i.
Proof.
  intros n A v i. unfold vec_app, vec_neg. rewrite <- rsum_opp. apply rsum_ext. intros j _. ring.
Qed.

Lemma vector_laws : forall n, Laws (vector_group n) (vector_calculus n).
Proof.
  intro n. split; cbn -[rsum]; try tauto.
  - (* moves *) intros g k h h' xi xi' _ _ H H' i Hi. destruct (H i Hi) as [H0 D], (H' i Hi) as [K0 D'].
    split; [rewrite H0, K0; reflexivity|].
    rewrite vapp_mm, vapp_eye, vapp_neg, vapp_eye by exact Hi.
    apply d_plus; [apply d_opp; exact D|exact D'].
  - intros m k h xi _ _ H i Hi. destruct (H i Hi) as [H0 D]. split; [rewrite H0; reflexivity|].
    eapply deriv_val; [|apply d_plus; [apply d_const|exact D]]. ring.
  - intros g k x _ _ i Hi. rewrite vapp_mm, vapp_eye by exact Hi. reflexivity.
  - intros _ _ x i Hi. apply vapp_eye. exact Hi.
  - (* log *) intros f J h xi u r Hr [P _] _ EJ U i Hi. apply some_inj in EJ. subst J.
    destruct (P i Hi) as [H0 D]. rewrite vapp_eye by exact Hi.
    apply (deriv_ext_loc (fun t => h t i) _ _ _ r Hr); [|exact D].
    intros t Ht. rewrite Rminus_0_r in Ht. specialize (U t Ht). apply some_inj in U. rewrite U. reflexivity.
  - intros f J x _ _ EJ i Hi. apply some_inj in EJ. subst J.
    rewrite vapp_mm, vapp_neg, !vapp_eye, vapp_neg, vapp_eye by exact Hi. reflexivity.
  - intros h g xi P u E. apply some_inj in E. subst u. exists g. split; [reflexivity|].
    intros i Hi. apply P. exact Hi.
  - intros A B x i Hi. apply vapp_mm.
  - intros A B x i Hi. rewrite vapp_mm, vapp_neg. unfold vec_app at 1 3. rewrite <- rsum_opp. apply rsum_ext. intros j _.
    rewrite vapp_neg. ring.
  - intros J x y i Hi. unfold vec_app. rewrite <- rsum_plus. apply rsum_ext. intros; ring.
  - intros J x y E i Hi. apply rsum_ext. intros j Hj. rewrite E by exact Hj. reflexivity.
  - intros x x' y y' E E' i Hi. rewrite E, E' by exact Hi. reflexivity.
  - intros x y E i Hi. symmetry. apply E. exact Hi.
  - intros x y z E E' i Hi. rewrite E, E' by exact Hi. reflexivity.
  - intros; ring.
  - intros; ring.
  - intros u x y E D i Hi. rewrite <- E by exact Hi. apply D. exact Hi.
  - intros h g x y E D i Hi. rewrite <- E by exact Hi. apply D. exact Hi.
  - intros u v a b c D D' i Hi.
    assert (E : vec_app n (fun i j => - c * vec_eye i j) b i = - c * b i).
    { transitivity (- c * vec_app n vec_eye b i); [|rewrite vapp_eye by exact Hi; reflexivity].
      unfold vec_app. rewrite <- rsum_scal. apply rsum_ext. intros; ring. }
    rewrite E.
    eapply deriv_val; [|apply d_minus; [apply D; exact Hi|apply d_mult; [apply d_const|apply D'; exact Hi]]]. cbv beta. ring.
  - intros u v a b D D' i Hi. rewrite vapp_neg, !vapp_eye by exact Hi.
    eapply deriv_val; [|apply d_minus; [apply D; exact Hi|apply D'; exact Hi]]. ring.
  - intros x y i Hi. unfold vec_app. rewrite rsum_0; [ring|]. intros; ring.
  - intros x i Hi. apply vapp_eye. exact Hi.
  - intros u v x r Hr E D i Hi. apply (deriv_ext_loc (fun t => u t i) _ _ _ r Hr); [|apply D; exact Hi].
    intros t Ht. rewrite Rminus_0_r in Ht. rewrite E by exact Ht. reflexivity.
  - intros x x' y E i Hi. rewrite E by exact Hi. reflexivity.
  - eauto.
  - intros J x EJ i Hi. apply some_inj in EJ. subst J. apply vapp_eye. exact Hi.
Qed.

(** ** SO2 *)
Lemma so2_passes : forall h g xi, passes so2_calculus h g xi <->
  h 0 = g /\ deriv (fun t => co (h t)) 0 (- si g * xi) /\ deriv (fun t => si (h t)) 0 (co g * xi).
Proof.
  intros h [c s] xi. cbn. unfold deriv_m2. cbn. split.
  - intros (H0 & D0 & D1 & D2 & D3). split; [exact H0|]. split.
    + eapply deriv_val; [|exact D0]. ring.
    + eapply deriv_val; [|exact D2]. ring.
  - intros (H0 & D0 & D1). split; [exact H0|]. repeat split; dgo; ring.
Qed.
Lemma so2_laws : Laws so2_group so2_calculus.
Proof.
  split; try (cbn; intros; subst; reflexivity); try (cbn; intros; ring).
  - cbn. intros [c s] [c' s']. cbn. intros V V'. transitivity ((c * c + s * s) * (c' * c' + s' * s')); [ring|].
    rewrite V, V'. ring.
  - intros g k h h' xi xi' Vg Vk P P'. apply so2_passes in P, P'. apply so2_passes.
    destruct P as (H0 & D0 & D1), P' as (K0 & E0 & E1). cbn in *.
    split; [rewrite H0, K0; reflexivity|].
    unfold so2_adjoint. split; dgo; rewrite H0, K0; ring.
  - intros m k h xi Vm Vk P. apply so2_passes in P. apply so2_passes. destruct P as (H0 & D0 & D1). cbn in *.
    split; [rewrite H0; reflexivity|]. split; dgo; ring.
  - cbn. intros g k x _ _. unfold so2_adjoint. ring.
  - intros f J h xi u r Hr [P V] RG EJ U. cbn in EJ, U, RG, V. apply some_inj in EJ. subst J.
    apply so2_passes in P. destruct P as (H0 & D0 & D1).
    assert (Vf : co f * co f + si f * si f = 1) by (rewrite <- H0; apply V; rewrite Rabs_R0; exact Hr).
    destruct (atan2_spec _ _ Vf) as (C & S & B).
    assert (BP : Rabs (atan2 (si f) (co f)) < PI).
    { apply Rabs_def1; [|lra]. destruct B as [_ [B|B]]; [exact B|]. exfalso. apply RG.
      rewrite <- C, B. apply cos_PI. }
    cbn. unfold so2_log_map_jac. rewrite Rmult_1_l.
    apply (deriv_ext_loc (fun t => atan2 (si (h t)) (co (h t))) _ _ _ r Hr).
    + intros t Ht. rewrite Rminus_0_r in Ht. specialize (U t Ht). apply some_inj in U. exact U.
    + apply (atan2_curve (fun t => co (h t)) (fun t => si (h t)) (atan2 (si f) (co f)) xi r Hr).
      * intros t Ht. apply V. exact Ht.
      * rewrite H0, C. reflexivity.
      * rewrite H0, S. reflexivity.
      * exact BP.
      * rewrite S. exact D0.
      * rewrite C. exact D1.
  - cbn. intros h g xi [H0 _] u E. rewrite <- H0. exists u. split; [exact E|reflexivity].
  - cbn. intros; subst; assumption.
  - cbn. intros; subst; assumption.
  - cbn. intros u v a b c D D'. dgo. ring.
  - cbn. intros u v a b D D'. dgo. ring.
  - cbn. intros u v x r Hr E D. apply (deriv_ext_loc u _ _ _ r Hr); [|exact D].
    intros t Ht. rewrite Rminus_0_r in Ht. apply E. exact Ht.
  - cbn. eauto.
  - cbn. intros J x EJ. apply some_inj in EJ. subst J. unfold so2_log_map_jac. ring.
Qed.

(** ** SE2 *)
Lemma se2_passes : forall d h g xi, passes (se2_calculus d) h g xi <-> vel h g xi.
Proof.
  intros d h g xi. split.
  - intros [H0 D]. destruct g as [x y c s], xi as [e0 e1 w]. unfold deriv_m3 in D. cbn in D.
    destruct D as (D00 & D01 & D02 & D10 & D11 & D12 & _). split; [exact H0|]. cbn.
    repeat split; (eapply deriv_val; [|eassumption]); ring.
  - intro V. split; [apply V|]. apply vel_matrix. exact V.
Qed.
Lemma deriv3_ext_loc : forall u v l r, 0 < r -> (forall t, Rabs t < r -> u t = v t) -> deriv3 u 0 l -> deriv3 v 0 l.
Proof.
  intros u v l r Hr E (D0 & D1 & D2). repeat split;
    (eapply (deriv_ext_loc _ _ _ _ r Hr); [|eassumption]); intros x Hx; rewrite Rminus_0_r in Hx; cbv beta; rewrite E by exact Hx; reflexivity.
Qed.
Lemma m3_alg_sub : forall u v a b c, deriv3 u 0 a -> deriv3 v 0 b ->
  deriv3 (fun t => sub3 (u t) (scal3 c (v t))) 0 (add3 a (app3 (scal_m3 (- c) I3) b)).
Proof.
  intros u v a b c (A0 & A1 & A2) (B0 & B1 & B2). repeat split; cbn; dgo; ring.
Qed.
Lemma m3_alg_sub2 : forall u v a b, deriv3 u 0 a -> deriv3 v 0 b ->
  deriv3 (fun t => sub3 (u t) (v t)) 0 (add3 (app3 I3 a) (app3 (opp_m3 I3) b)).
Proof.
  intros u v a b (A0 & A1 & A2) (B0 & B1 & B2). repeat split; cbn; dgo; ring.
Qed.
Lemma app3_neg : forall A B x, app3 (mul3 (opp_m3 A) B) x = app3 A (app3 (opp_m3 B) x).
Proof. intros [] [] []. apply V3_ext; cbn; ring. Qed.
Lemma app3_mzero : forall x y, add3 (app3 mzero x) y = y.
Proof. intros [] []. apply V3_ext; cbn; ring. Qed.
Lemma add3_as : forall x y z, add3 (add3 x y) z = add3 x (add3 y z).
Proof. intros [] [] []. apply V3_ext; cbn; ring. Qed.
Lemma add3_co : forall x y, add3 x y = add3 y x.
Proof. intros [] []. apply V3_ext; cbn; ring. Qed.

Lemma se2_laws : forall d, Laws (se2_group d) (se2_calculus d).
Proof.
  intro d.
  assert (FST : forall g k x, se2_valid g -> se2_valid k ->
    app3 (mul3 (se2_adjoint (se2_inverse k)) (opp_m3 (se2_adjoint g))) x
    = app3 (opp_m3 (se2_adjoint (se2_inverse (se2_between g k)))) x).
  { intros g k x Vg Vk. unfold se2_valid in *. assert (Q : pc g * pc g = 1 - ps g * ps g) by lra.
    destruct g as [gx gy c s], k as [kx ky c' s'], x. cbn [px py pc ps] in *.
    apply V3_ext; unfg; ring [Q]. }
  destruct C34_se2_group as (_ & _ & _ & _ & _ & _ & _ & _ & GV).
  destruct C34_se2_group as (_ & GI & _).
  split.
  - intros g k Vg Vk. exact (GV g k Vg Vk).
  - intros g k h h' xi xi' Vg Vk P P'. apply se2_passes in P, P'. apply se2_passes.
    cbn [between_jac fst japp se2_calculus jneg se2_group compose_jac se2_compose_jac inverse jmul adjoint].
    rewrite app3_mul. apply vel_compose; [exact Vk| |exact P'].
    apply (vel_inverse h g xi Vg P).
  - intros m k h xi Vm Vk P. apply se2_passes in P. apply se2_passes. apply (vel_compose_r h (se2_inverse m) k xi P).
  - intros g k x Vg Vk. apply FST; assumption.
  - intros g k x. apply app3_I.
  - intros f J h xi u r Hr [P V] (th & C & S & T) EJ U. apply se2_passes in P.
    assert (TH : se2_theta f = th).
    { unfold se2_theta, so2_log_map, se2_rotation. cbn. rewrite C, S. apply atan2_angle.
      pose proof PI_RGT_0. destruct T as [[_ T]|T]; [apply Rabs_def2 in T; lra|lra]. }
    destruct (se2_log_curve d f J xi h r Hr V P ltac:(rewrite TH; exact T) EJ) as (w & r' & R' & W & D).
    apply (deriv3_ext_loc w u _ (Rmin r r')); [apply Rmin_pos; assumption| |exact D].
    intros t Ht. assert (T1 : Rabs t < r) by (eapply Rlt_le_trans; [exact Ht|apply Rmin_l]).
    assert (T2 : Rabs t < r') by (eapply Rlt_le_trans; [exact Ht|apply Rmin_r]).
    specialize (U t T1). specialize (W t T2). cbn in U. rewrite W in U. apply some_inj in U. exact U.
  - intros f J x Vf (th & C & S & T) EJ. cbn.
    assert (TH : se2_theta f = th).
    { unfold se2_theta, so2_log_map, se2_rotation. cbn. rewrite C, S. apply atan2_angle.
      pose proof PI_RGT_0. destruct T as [[_ T]|T]; [apply Rabs_def2 in T; lra|lra]. }
    rewrite <- app3_mul. f_equal. destruct T as [T|T].
    + destruct (log_jac_big d f Vf ltac:(rewrite TH; exact T)) as (u & Lf & EJ'). cbn in EJ. rewrite EJ in EJ'. apply some_inj in EJ'. subst J.
      apply (Jlog_commutes d f u Vf); [rewrite TH; exact T|exact Lf].
    + subst th. rewrite cos_0 in C. rewrite sin_0 in S. pose proof (eps_pos d) as EP. pose proof (deps_pos d) as EP'.
      assert (LM : se2_log_map d f = Some (mkV3 (px f) (py f) 0)).
      { unfold se2_log_map. fold (se2_theta f). rewrite TH. rewrite lt_b_true by (rewrite Rabs_R0; lra).
        cbn -[pow]. rewrite C, S. rewrite div_some by lra. cbn -[pow]. f_equal. apply V3_ext; cbn; field. }
      cbn in EJ. unfold se2_log_map_jac in EJ. rewrite LM in EJ. cbn -[pow] in EJ.
      rewrite lt_b_true in EJ by (rewrite Rabs_R0; lra). cbn -[pow] in EJ.
      rewrite !div_some in EJ by lra. cbn -[pow] in EJ. apply some_inj in EJ. subst J.
      clear TH LM Vf. destruct f as [fx fy fc fs]. cbn [pc ps px py] in *. subst fc fs. apply M3_ext; unfg; field.
  - intros h g xi [H0 _] u E. rewrite <- H0. exists u. split; [exact E|reflexivity].
  - exact app3_mul.
  - exact app3_neg.
  - exact app3_add.
  - cbn. intros; subst; reflexivity.
  - cbn. intros; subst; reflexivity.
  - reflexivity.
  - cbn. intros; subst; reflexivity.
  - cbn. intros; subst; reflexivity.
  - exact add3_as.
  - exact add3_co.
  - cbn. intros; subst; assumption.
  - cbn. intros; subst; assumption.
  - exact m3_alg_sub.
  - exact m3_alg_sub2.
  - exact app3_mzero.
  - exact app3_I.
  - intros u v x r. apply deriv3_ext_loc.
  - cbn. intros; subst; reflexivity.
  - intros f v Vf (th & C & S & T) EL. cbn in *.
    assert (TH : se2_theta f = th).
    { unfold se2_theta, so2_log_map, se2_rotation. cbn. rewrite C, S. apply atan2_angle.
      pose proof PI_RGT_0. destruct T as [[_ T]|T]; [apply Rabs_def2 in T; lra|lra]. }
    destruct T as [T|T].
    + destruct (log_jac_big d f Vf ltac:(rewrite TH; exact T)) as (w & Lf & EJ'). eauto.
    + pose proof (eps_pos d) as EP. pose proof (deps_pos d) as EP'.
      assert (B2 : b2 v = 0).
      { unfold se2_log_map in EL. fold (se2_theta f) in EL. destruct (div_ _ _) in EL; [|discriminate]. cbn in EL.
        apply some_inj in EL. rewrite <- EL. cbn. rewrite TH. exact T. }
      unfold se2_log_map_jac. rewrite EL. cbn -[pow]. rewrite B2.
      rewrite lt_b_true by (rewrite Rabs_R0; lra). cbn -[pow]. rewrite !div_some by lra. cbn. eauto.
  - intros J x EJ. cbn in *. pose proof (eps_pos d) as EP. pose proof (deps_pos d) as EP'. pose proof PI_RGT_0.
    assert (TH : se2_theta (mkSE2 0 0 1 0) = 0).
    { unfold se2_theta, so2_log_map, se2_rotation. cbn. rewrite <- cos_0 at 1. rewrite <- sin_0 at 1. apply atan2_angle. lra. }
    assert (LM : se2_log_map d (mkSE2 0 0 1 0) = Some (mkV3 0 0 0)).
    { unfold se2_log_map. fold (se2_theta (mkSE2 0 0 1 0)). rewrite TH. rewrite lt_b_true by (rewrite Rabs_R0; lra).
      cbn -[pow]. rewrite div_some by lra. cbn -[pow]. f_equal. apply V3_ext; cbn; field. }
    unfold se2_log_map_jac in EJ. rewrite LM in EJ. cbn -[pow] in EJ.
    rewrite lt_b_true in EJ by (rewrite Rabs_R0; lra). cbn -[pow] in EJ.
    rewrite !div_some in EJ by lra. cbn -[pow] in EJ. apply some_inj in EJ. subst J.
    destruct x. apply V3_ext; cbn; field.
Qed.

(** ** SO3 *)
Lemma so3_compose_both : forall g k h h' xi xi', rotation3 k -> moves h g xi -> moves h' k xi' ->
  moves (fun t => mul3 (h t) (h' t)) (mul3 g k) (add3 (app3 (tr3 k) xi) xi').
Proof.
  intros g k h h' xi xi' Hk [H0 D] [K0 D']. split; [rewrite H0, K0; reflexivity|].
  pose proof (deriv_mul3 h h' 0 _ _ D D') as DD. cbv beta in DD. rewrite H0, K0 in DD.
  replace (mul3 (mul3 g k) (so3_alg (add3 (app3 (tr3 k) xi) xi'))) with (add_m3 (mul3 (mul3 g (so3_alg xi)) k) (mul3 g (mul3 k (so3_alg xi')))); [exact DD|].
  destruct (C36_adjoint (tr3 k) I3 xi (rot_tr k Hk) rot_I) as (A & _). unfold so3_adjoint, so3_inverse in A.
  assert (E : so3_alg (add3 (app3 (tr3 k) xi) xi') = add_m3 (so3_alg (app3 (tr3 k) xi)) (so3_alg xi')).
  { generalize (app3 (tr3 k) xi). intros [] . destruct xi'. apply M3_ext; cbn; ring. }
  rewrite E, <- A, tr3_tr3.
  assert (F : forall a b c, mul3 a (add_m3 b c) = add_m3 (mul3 a b) (mul3 a c)) by (intros [] [] []; apply M3_ext; cbn; ring).
  rewrite F. f_equal; rewrite !mul3_assoc; [|reflexivity].
  rewrite <- (mul3_assoc k (tr3 k)), (rot_right k Hk), mul3_I_l. reflexivity.
Qed.
Lemma so3_between_fst : forall g k, rotation3 g -> rotation3 k ->
  mul3 (so3_adjoint (so3_inverse k)) (opp_m3 (so3_adjoint g)) = opp_m3 (so3_adjoint (so3_inverse (so3_compose (so3_inverse g) k))).
Proof.
  intros g k _ _. unfold so3_adjoint, so3_inverse, so3_compose. rewrite tr3_mul, tr3_tr3.
  destruct g, k. apply M3_ext; cbn; ring.
Qed.
Lemma so3_commutes : forall d f J th, rotation3 f -> rot_angle f th -> th < PI -> so3_jlog d f = Some J ->
  mul3 (opp_m3 (so3_adjoint (so3_inverse f))) J = mul3 J (opp_m3 (so3_adjoint (so3_inverse f))).
Proof.
  intros d f J th Hf RA T EL.
  destruct (axis_angle f Hf) as (th' & a & T' & A & E & _).
  apply (rot_theta f th Hf) in RA. rewrite E, AA_theta in RA by assumption. subst th'.
  rewrite E in EL. destruct (jlog_AA d th a J ltac:(lra) A EL) as (p & q & _ & ->).
  assert (FI : opp_m3 (so3_adjoint (so3_inverse f)) = matc (- cos th) (sin th) (- (1 - cos th)) a).
  { rewrite E. unfold so3_adjoint, so3_inverse, AA, matc, opp_m3, tr3. apply M3_ext; c3; ring. }
  rewrite FI. apply jlog_commutes.
Qed.
Lemma len3_le_0 : forall v, len3 v <= 0 -> v = zero3.
Proof.
  intros [x y z] H. unfold len3 in H.
  assert (Z : dot3 (mkV3 x y z) (mkV3 x y z) = 0).
  { apply sqrt_eq_0; [unfold dot3; c3; nra|]. pose proof (sqrt_pos (dot3 (mkV3 x y z) (mkV3 x y z))). lra. }
  unfold dot3 in Z. c3h Z. unfold zero3. assert (x = 0) by nra. assert (y = 0) by nra. assert (z = 0) by nra. subst. reflexivity.
Qed.

Lemma so3_laws : forall d, Laws (so3_group d) (so3_calculus d).
Proof.
  intro d. pose proof (so3_deps_pos d) as DE. pose proof (so3_eps_pos d) as EP. pose proof PI_RGT_0 as HPI.
  split.
  - intros g k Vg Vk. apply rot_mul; [apply rot_tr; exact Vg|exact Vk].
  - intros g k h h' xi xi' Vg Vk P P'.
    change (moves (fun t => mul3 (so3_inverse (h t)) (h' t)) (mul3 (so3_inverse g) k)
      (add3 (app3 (mul3 (tr3 k) (opp_m3 (so3_adjoint g))) xi) xi')).
    rewrite app3_mul. apply so3_compose_both; [exact Vk| |exact P'].
    apply (C36_inverse_jac g h xi Vg P).
  - intros m k h xi Vm Vk P.
    destruct (C36_between_jac m k h xi _ _ Vm Vk eq_refl) as [_ B]. specialize (B P).
    unfold so3_compose_jac_theseus in B. cbn [snd] in B. rewrite app3_I in B. exact B.
  - intros g k x Vg Vk. cbn. f_equal. apply so3_between_fst; assumption.
  - intros g k x. apply app3_I.
  - intros f J h xi u r Hr [P V] (th & RA & T) EJ U. cbn in *. destruct T as [T|T].
    + apply (C36_log_jac d f J h xi u r th); assumption.
    + subst th. destruct (C36_log_jac_small_angle d f J h xi u r 0 Hr V P RA ltac:(lra) ltac:(lra) EJ U) as (w & D & B).
      assert (Z : sub3 w (app3 J xi) = zero3) by (apply len3_le_0; lra).
      replace (app3 J xi) with w; [exact D|]. clear -Z. generalize dependent (app3 J xi). intros [] Z. destruct w.
      unfold sub3, zero3 in Z. cbn in Z. injection Z as Z0 Z1 Z2. apply V3_ext; cbn; lra.
  - intros f J x Vf (th & RA & T) EJ. cbn. rewrite <- app3_mul. f_equal.
    apply (so3_commutes d f J th); try assumption. destruct T; lra.
  - intros h g xi [H0 _] u E. rewrite <- H0. exists u. split; [exact E|reflexivity].
  - exact app3_mul.
  - exact app3_neg.
  - exact app3_add.
  - cbn. intros; subst; reflexivity.
  - cbn. intros; subst; reflexivity.
  - reflexivity.
  - cbn. intros; subst; reflexivity.
  - cbn. intros; subst; reflexivity.
  - exact add3_as.
  - exact add3_co.
  - cbn. intros; subst; assumption.
  - cbn. intros; subst; assumption.
  - exact m3_alg_sub.
  - exact m3_alg_sub2.
  - exact app3_mzero.
  - exact app3_I.
  - intros u v x r. apply deriv3_ext_loc.
  - cbn. intros; subst; reflexivity.
  - intros f v Vf (th & RA & T) EL. apply (C36_log_jac_total d f v th Vf RA); [destruct T; lra|exact EL].
  - intros J x EJ. cbn in *. pose proof ez_unit as A.
    assert (IA : I3 = AA 0 ez).
    { unfold AA. rewrite cos_0, sin_0. unfold matc, ez, I3. apply M3_ext; c3; ring. }
    rewrite IA in EJ. destruct (jlog_AA d 0 ez J ltac:(lra) A EJ) as (p & q & EC & ->).
    rewrite coefs_small in EC by lra. apply some_inj in EC. apply pair_equal_spec in EC. destruct EC as [<- <-].
    destruct (Rlt_dec 0 (so3_near_zero_eps d)); [|lra]. rewrite sin_0. destruct x.
    apply V3_ext; unfold app3, so3_jlog_mat, scal3, ez; c3; field.
Qed.

(** ** SE3 *)
Lemma tw_ext : forall u v : Tw, lin u = lin v -> ang u = ang v -> u = v.
Proof. intros [] [] H H'. cbn in *. subst. reflexivity. Qed.
Lemma unipotent_commute : forall A B, mul66 (opp66 (mkM66 I3 A mzero I3)) (mkM66 I3 B mzero I3)
  = mul66 (mkM66 I3 B mzero I3) (opp66 (mkM66 I3 A mzero I3)).
Proof.
  intros [] []. unfold mul66, opp66. cbn [mll mla mal maa]. f_equal; apply M3_ext; cbn; ring.
Qed.
Lemma rot_angle_0 : forall g, rotation3 g -> rot_angle g 0 -> g = I3.
Proof.
  intros g Hg RA. destruct (axis_angle g Hg) as (th' & a & T' & A & E & _).
  apply (rot_theta g 0 Hg) in RA. rewrite E, AA_theta in RA by assumption. subst th'.
  rewrite E. unfold AA, matc, I3. rewrite cos_0, sin_0. apply M3_ext; c3; ring.
Qed.
Lemma commutes_no_rot : forall d f J, rr f = I3 -> rot_angle (rr f) 0 -> se3_jlog d f = Some J ->
  mul66 (opp66 (se3_adjoint (se3_inverse f))) J = mul66 J (opp66 (se3_adjoint (se3_inverse f))).
Proof.
  intros d f J RI RA EJ. pose proof (so3_deps_pos d) as DE. pose proof (so3_eps_pos d) as EP. pose proof PI_RGT_0 as HPI.
  pose proof ez_unit as A.
  assert (Hg : rigid3 f) by (unfold rigid3; rewrite RI; apply rot_I).
  assert (IA : rr f = AA 0 ez).
  { rewrite RI. unfold AA. rewrite cos_0, sin_0. unfold matc, ez, I3. apply M3_ext; c3; ring. }
  destruct (jlog6_form d f J 0 Hg RA ltac:(lra) EJ) as (x0 & a & b & c & dd & L & EA & EC & ->).
  rewrite coefs_small in EA by lra.
  apply some_inj in EA. apply pair_equal_spec in EA. destruct EA as [<- <-].
  assert (W0 : ang x0 = zero3).
  { pose proof (rig_log_ang d f _ L) as K. rewrite IA, log_small in K by (lra || exact A).
    apply some_inj in K. rewrite <- K, sin_0. apply V3_ext; unfold scal3, zero3, ez; c3; ring. }
  rewrite W0.
  assert (MI : matc (1 - 0 ^ 2 / 12) (1 / 2) (1 / 12 + 0 ^ 2 / 720) zero3 = I3).
  { apply M3_ext; unfold matc, zero3, I3; c3; field. }
  rewrite MI.
  assert (AD : exists B, se3_adjoint (se3_inverse f) = mkM66 I3 B mzero I3).
  { unfold se3_adjoint, se3_inverse. cbn [rr rp]. rewrite RI. eexists. f_equal; apply M3_ext; cbn; ring. }
  destruct AD as [B ->]. apply unipotent_commute.
Qed.
Lemma se3_laws : forall d, Laws (se3_group d) (se3_calculus d).
Proof.
  intro d. pose proof (so3_deps_pos d) as DE. pose proof (so3_eps_pos d) as EP. pose proof PI_RGT_0 as HPI.
  split.
  - intros g k Vg Vk. apply rigid_between; assumption.
  - intros g k h h' xi xi' Vg Vk P P'.
    pose proof (C37_between_jac g k h h' xi xi' _ _ Vg Vk eq_refl P P') as B. unfold se3_compose_jac_theseus in B. cbn [snd] in B. rewrite app66_I in B. exact B.
  - intros m k h xi Vm Vk P.
    change (moves6 (fun t => se3_between m (h t)) (se3_between m k) xi).
    assert (PM : moves6 (fun _ => m) m tzero).
    { apply moves6_iff. split; [reflexivity|]. split; repeat split; cbn; (eapply deriv_val; [|apply d_const]); ring. }
    pose proof (C37_between_jac m k _ h _ xi _ _ Vm Vk eq_refl PM P) as B. unfold se3_compose_jac_theseus in B. cbn [snd] in B. rewrite app66_I in B.
    assert (Z : forall M, tadd (app66 M tzero) xi = xi).
    { intros [[] [] [] []]. destruct xi as [[] []]. apply tw_ext; apply V3_ext; cbn; ring. }
    rewrite Z in B. exact B.
  - intros g k x Vg Vk. pose proof (between_jac_form g k Vg Vk) as E. apply (f_equal fst) in E. cbn [fst] in E.
    change (app66 (fst (se3_between_jac g k)) x = app66 (opp66 (se3_adjoint (se3_inverse (se3_between g k)))) x).
    rewrite between_jac_form by assumption. reflexivity.
  - intros g k x. apply app66_I.
  - intros f J h xi u r Hr [P V] (th & RA & T) EJ U. cbn in *. destruct T as [T|T].
    + apply (C37_log_jac d f J h xi u r th); assumption.
    + subst th. apply (C37_log_jac_no_rotation d f J h xi u r); try assumption.
      apply rot_angle_0; [|exact RA]. rewrite <- (proj1 P). apply V. rewrite Rabs_R0. exact Hr.
  - intros f J x Vf (th & RA & T) EJ. cbn. rewrite <- app66_mul. f_equal. cbn in *. destruct T as [T|T].
    + apply (local_commutes d f J th); assumption.
    + subst th. apply (commutes_no_rot d); try assumption. apply rot_angle_0; assumption.
  - intros h g xi [H0 _] u E. rewrite <- H0. exists u. split; [exact E|reflexivity].
  - exact app66_mul.
  - intros [[] [] [] []] [[] [] [] []] [[] []]. apply tw_ext; apply V3_ext; cbn; ring.
  - intros [[] [] [] []] [[] []] [[] []]. apply tw_ext; apply V3_ext; cbn; ring.
  - cbn. intros; subst; reflexivity.
  - cbn. intros; subst; reflexivity.
  - reflexivity.
  - cbn. intros; subst; reflexivity.
  - cbn. intros; subst; reflexivity.
  - intros [[] []] [[] []] [[] []]. apply tw_ext; apply V3_ext; cbn; ring.
  - intros [[] []] [[] []]. apply tw_ext; apply V3_ext; cbn; ring.
  - cbn. intros; subst; assumption.
  - cbn. intros; subst; assumption.
  - intros u v a b c ((A0 & A1 & A2) & A3 & A4 & A5) ((B0 & B1 & B2) & B3 & B4 & B5). repeat split; cbn; dgo; ring.
  - intros u v a b ((A0 & A1 & A2) & A3 & A4 & A5) ((B0 & B1 & B2) & B3 & B4 & B5). repeat split; cbn; dgo; ring.
  - intros [[] []] [[] []]. apply tw_ext; apply V3_ext; cbn; ring.
  - intros [[] []]. apply tw_ext; apply V3_ext; cbn; ring.
  - intros u v x r Hr E [D D']. split; [apply (deriv3_ext_loc (fun t => lin (u t)) _ _ r Hr)|apply (deriv3_ext_loc (fun t => ang (u t)) _ _ r Hr)];
      try assumption; intros t Ht; rewrite E by exact Ht; reflexivity.
  - cbn. intros; subst; reflexivity.
  - intros f v Vf (th & RA & T) EL. apply (C37_log_jac_total d f v th Vf RA); [destruct T; lra|exact EL].
  - intros J x EJ. cbn in *. pose proof ez_unit as A.
    assert (Hg : rigid3 (mkRig I3 zero3)) by apply rot_I.
    assert (IA : I3 = AA 0 ez).
    { unfold AA. rewrite cos_0, sin_0. unfold matc, ez, I3. apply M3_ext; c3; ring. }
    assert (RA : rot_angle I3 0).
    { apply (rot_theta _ _ rot_I). rewrite IA. symmetry. apply AA_theta; [lra|exact A]. }
    destruct (jlog6_form d _ J 0 Hg RA ltac:(lra) EJ) as (x0 & a & b & c & dd & L & EA & EC & ->).
    rewrite coefs_small in EA by lra.
    apply some_inj in EA. apply pair_equal_spec in EA. destruct EA as [<- <-].
    assert (W0 : ang x0 = zero3).
    { pose proof (rig_log_ang d _ _ L) as K. cbn [rr] in K. rewrite IA, log_small in K by (lra || exact A).
      apply some_inj in K. rewrite <- K, sin_0. apply V3_ext; unfold scal3, zero3, ez; c3; ring. }
    assert (L0 : lin x0 = zero3).
    { rewrite (rig_log_small d _ x0 Hg L); [|cbn [rr]; rewrite IA, AA_theta by (lra || exact A); lra].
      cbn [rp]. generalize (matc (1 - so3_theta (rr (mkRig I3 zero3)) ^ 2 / 12) (-1 / 2) (1 / 12 + so3_theta (rr (mkRig I3 zero3)) ^ 2 / 720) (ang x0)).
      intros []. apply V3_ext; cbn; ring. }
    rewrite W0, L0.
    assert (MI : matc (1 - 0 ^ 2 / 12) (1 / 2) (1 / 12 + 0 ^ 2 / 720) zero3 = I3).
    { apply M3_ext; unfold matc, zero3, I3; c3; field. }
    rewrite MI. unfold app66. cbn [mll mla mal maa]. rewrite jlog_la_app. destruct x as [[] []].
    apply tw_ext; apply V3_ext; unfold app3, add3, scal3, cross, dot3, zero3, I3, mzero; cbn [lin ang]; c3; ring.
Qed.

Lemma group_laws : forall G C, theseus_group G C -> Laws G C.
Proof.
  intros G C H. destruct H; [apply vector_laws|apply so2_laws|apply se2_laws|apply so3_laws|apply se3_laws].
Qed.
Lemma commutative_dlog : forall G C, commutative_group G C -> forall f J x, log_map_jac f = Some J -> teq C (japp C J x) x.
Proof.
  intros G C H. destruct H.
  - intros f J x EJ i Hi. apply some_inj in EJ. subst J. apply vapp_eye. exact Hi.
  - cbn. intros f J x EJ. apply some_inj in EJ. subst J. unfold so2_log_map_jac. ring.
Qed.
Lemma commutative_is_group : forall G C, commutative_group G C -> theseus_group G C.
Proof. intros G C H. destruct H; constructor. Qed.
