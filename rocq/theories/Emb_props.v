(** The Jacobians of the cost functions Between, Local, MovingFrameBetween and
    DoubleIntegrator, for every LieGroup class of theseus.  In all statements
    the optimization variables move simultaneously along arbitrary curves with
    arbitrary velocities, and the error is differentiated along the curves. *)
From Coq Require Import Reals Lra Psatz List Arith Lia.
Import ListNotations.
From Verif Require Import Geo_spec Geo3_spec Geo4_spec RSum SE2_model SO3_model SE3_model Emb_model Emb_spec Emb_laws.
Local Open Scope R_scope.

Section Generic.
Context {G : LieGroup} (C : Calculus G) (L : Laws G C).
Local Notation "x == y" := (teq C x y) (at level 70).
Local Notation "x (+) y" := (tplus C x y) (at level 50, left associativity).
Local Notation "J @ x" := (japp C J x) (at level 40, left associativity).

Lemma t_refl : forall x, x == x. Proof. apply (l_refl _ _ L). Qed.
Lemma t_sym : forall x y, x == y -> y == x. Proof. apply (l_sym _ _ L). Qed.
Lemma t_trans : forall x y z, x == y -> y == z -> x == z. Proof. apply (l_trans _ _ L). Qed.

Lemma curve_0 : forall r h g xi, 0 < r -> curve C r h g xi -> is_elt C (h 0).
Proof. intros r h g xi Hr [_ V]. apply V. rewrite Rabs_R0. exact Hr. Qed.
Lemma curve_between : forall r h g xi h' k xi', is_elt C g -> is_elt C k -> curve C r h g xi -> curve C r h' k xi' ->
  curve C r (fun t => between (h t) (h' t)) (between g k) (fst (between_jac g k) @ xi (+) snd (between_jac g k) @ xi').
Proof.
  intros r h g xi h' k xi' Vg Vk [P V] [P' V']. split.
  - eapply (l_passes _ _ L); [|apply (l_moves _ _ L); eassumption].
    apply (l_plus _ _ L); [apply t_refl|]. apply t_sym, (l_snd _ _ L).
  - intros t Ht. apply (l_between _ _ L); auto.
Qed.
Lemma curve_between_r : forall r m h k xi, is_elt C m -> is_elt C k -> curve C r h k xi ->
  curve C r (fun t => between m (h t)) (between m k) xi.
Proof.
  intros r m h k xi Vm Vk [P V]. split; [apply (l_moves_r _ _ L); assumption|].
  intros t Ht. apply (l_between _ _ L); auto.
Qed.
Lemma curve_start : forall r h g xi u e, 0 < r -> curve C r h g xi ->
  (forall t, Rabs t < r -> log_map (h t) = Some (u t)) -> log_map g = Some e -> e == u 0.
Proof.
  intros r h g xi u e Hr [P _] U E.
  destruct (l_start _ _ L h g xi P (u 0)) as (v & Ev & Q); [apply U; rewrite Rabs_R0; exact Hr|].
  rewrite E in Ev. injection Ev as <-. apply t_sym, Q.
Qed.

Lemma between_gen : forall v0 v1 m h0 h1 xi0 xi1 u r Js e, 0 < r ->
  is_elt C v0 -> is_elt C v1 -> is_elt C m -> curve C r h0 v0 xi0 -> curve C r h1 v1 xi1 ->
  regular C (between m (between v0 v1)) ->
  between_jacobians v0 v1 m = Some (Js, e) ->
  (forall t, Rabs t < r -> between_error (h0 t) (h1 t) m = Some (u t)) ->
  between_error v0 v1 m = Some e /\ e == u 0
  /\ exists J0 J1, Js = [J0; J1] /\ tderiv C u (J0 @ xi0 (+) J1 @ xi1).
Proof.
  intros v0 v1 m h0 h1 xi0 xi1 u r Js e Hr V0 V1 Vm K0 K1 RG E U.
  unfold between_jacobians in E. change (compose (inverse m) (between v0 v1)) with (between m (between v0 v1)) in E.
  set (d := between v0 v1) in *. set (f := between m d) in *.
  destruct (log_map f) as [e'|] eqn:EL; [|discriminate]. cbn [bind] in E.
  destruct (log_map_jac f) as [J|] eqn:EJ; [|discriminate]. cbn [bind] in E.
  injection E as <- <-.
  pose proof (l_between _ _ L v0 v1 V0 V1 : is_elt C d) as Vd.
  pose proof (curve_between r h0 v0 xi0 h1 v1 xi1 V0 V1 K0 K1) as KD.
  pose proof (curve_between_r r m _ d _ Vm Vd KD) as KF. fold f in KF.
  split; [exact EL|]. split; [exact (curve_start _ _ _ _ _ _ Hr KF U EL)|].
  eexists _, _. split; [reflexivity|].
  eapply (l_tderiv _ _ L); [|exact (l_log _ _ L f J _ _ u r Hr KF RG EJ U)].
  eapply t_trans; [apply (l_lin _ _ L)|]. apply (l_plus _ _ L).
  - eapply t_trans; [apply (l_cong _ _ L), (l_fst _ _ L); assumption|]. apply t_sym, (l_neg _ _ L).
  - apply (l_cong _ _ L), (l_snd _ _ L).
Qed.

Lemma local_gen : forall a b ha hb xa xb u r J0 J1, 0 < r ->
  is_elt C a -> is_elt C b -> curve C r ha a xa -> curve C r hb b xb -> regular C (between a b) ->
  local_jac a b = Some (J0, J1) -> (forall t, Rabs t < r -> local (ha t) (hb t) = Some (u t)) ->
  tderiv C u (J0 @ xa (+) J1 @ xb).
Proof.
  intros a b ha hb xa xb u r J0 J1 Hr Va Vb Ka Kb RG E U. unfold local_jac in E.
  destruct (log_map_jac (between a b)) as [J|] eqn:EJ; [|discriminate]. cbn [bind] in E. injection E as <- <-.
  pose proof (curve_between r ha a xa hb b xb Va Vb Ka Kb) as K.
  eapply (l_tderiv _ _ L); [|exact (l_log _ _ L _ J _ _ u r Hr K RG EJ U)].
  eapply t_trans; [apply (l_lin _ _ L)|]. apply (l_plus _ _ L); [|apply (l_cong _ _ L), (l_snd _ _ L)].
  eapply t_trans; [apply (l_cong _ _ L), (l_fst _ _ L); assumption|].
  apply t_sym. apply (l_commute _ _ L); try assumption. apply (l_between _ _ L); assumption.
Qed.
Lemma local_gen_r : forall a b hb xb u r J, 0 < r ->
  is_elt C a -> is_elt C b -> curve C r hb b xb -> regular C (between a b) ->
  log_map_jac (between a b) = Some J -> (forall t, Rabs t < r -> local a (hb t) = Some (u t)) ->
  tderiv C u (J @ xb).
Proof.
  intros a b hb xb u r J Hr Va Vb Kb RG EJ U.
  exact (l_log _ _ L _ J _ _ u r Hr (curve_between_r r a hb b xb Va Vb Kb) RG EJ U).
Qed.

Lemma mfb_gen : forall f1 f2 p1 p2 m hf1 hf2 hp1 hp2 x1 x2 y1 y2 u r Js e dlog, 0 < r ->
  is_elt C f1 -> is_elt C f2 -> is_elt C p1 -> is_elt C p2 -> is_elt C m ->
  curve C r hf1 f1 x1 -> curve C r hf2 f2 x2 -> curve C r hp1 p1 y1 -> curve C r hp2 p2 y2 ->
  let d := between m (between (between f1 p1) (between f2 p2)) in
  regular C d -> log_map_jac d = Some dlog ->
  mfb_jacobians f1 f2 p1 p2 m = Some (Js, e) ->
  (forall t, Rabs t < r -> mfb_error (hf1 t) (hf2 t) (hp1 t) (hp2 t) m = Some (u t)) ->
  mfb_error f1 f2 p1 p2 m = Some e /\ e == u 0
  /\ exists J1 J2 J3 J4, Js = [J1; J2; J3; J4]
     /\ tderiv C u (dlog @ (J1 @ x1 (+) J2 @ x2 (+) J3 @ y1 (+) J4 @ y2)).
Proof.
  intros f1 f2 p1 p2 m hf1 hf2 hp1 hp2 x1 x2 y1 y2 u r Js e dlog Hr V1 V2 W1 W2 Vm Kf1 Kf2 Kp1 Kp2 d RG EJ E U.
  unfold mfb_jacobians in E.
  pose proof (l_between _ _ L f1 p1 V1 W1) as VB1. pose proof (l_between _ _ L f2 p2 V2 W2) as VB2.
  pose proof (l_between _ _ L _ _ VB1 VB2) as VB.
  pose proof (curve_between r hf1 f1 x1 hp1 p1 y1 V1 W1 Kf1 Kp1) as KB1.
  pose proof (curve_between r hf2 f2 x2 hp2 p2 y2 V2 W2 Kf2 Kp2) as KB2.
  pose proof (curve_between r _ _ _ _ _ _ VB1 VB2 KB1 KB2) as KB. cbv beta in KB.
  destruct (between_jac f1 p1) as [A1 A2] eqn:EA.
  destruct (between_jac f2 p2) as [B1 B2] eqn:EB. cbn [fst snd] in *.
  destruct (between_jac (between f1 p1) (between f2 p2)) as [D1 D2] eqn:ED. cbn [fst snd] in *.
  destruct (local m (between (between f1 p1) (between f2 p2))) as [e'|] eqn:EL; [|discriminate]. cbn [bind] in E.
  injection E as <- <-.
  pose proof (curve_between_r r m _ _ _ Vm VB KB) as KF. cbv beta in KF. fold d in KF.
  split; [exact EL|]. split; [exact (curve_start _ _ _ _ _ _ Hr KF U EL)|].
  eexists _, _, _, _. split; [reflexivity|].
  eapply (l_tderiv _ _ L); [|exact (l_log _ _ L d dlog _ _ u r Hr KF RG EJ U)].
  apply (l_cong _ _ L).
  eapply t_trans; [apply (l_plus _ _ L); apply (l_lin _ _ L)|].
  eapply t_trans; [apply (l_plus _ _ L); apply (l_plus _ _ L); apply t_sym, (l_mul _ _ L)|].
  set (a := jmul D1 A1 @ x1). set (b := jmul D1 A2 @ y1). set (c := jmul D2 B1 @ x2). set (q := jmul D2 B2 @ y2).
  eapply t_trans; [apply t_sym, (l_assoc _ _ L)|]. apply (l_plus _ _ L); [|apply t_refl].
  eapply t_trans; [apply (l_assoc _ _ L)|]. eapply t_trans; [|apply t_sym, (l_assoc _ _ L)].
  apply (l_plus _ _ L); [apply t_refl|apply (l_comm _ _ L)].
Qed.

Lemma di_gen : forall dt p1 v1 p2 v2 h1 k1 h2 k2 x1 y1 x2 y2 u w r Js e, 0 < r ->
  is_elt C p1 -> is_elt C p2 -> curve C r h1 p1 x1 -> curve C r h2 p2 x2 ->
  k1 0 = v1 -> tderiv C k1 y1 -> k2 0 = v2 -> tderiv C k2 y2 ->
  regular C (between p1 p2) -> di_jacobians dt p1 v1 p2 v2 = Some (Js, e) ->
  (forall t, Rabs t < r -> di_error dt (h1 t) (k1 t) (h2 t) (k2 t) = Some (u t, w t)) ->
  di_error dt p1 v1 p2 v2 = Some e /\ fst e == u 0 /\ snd e == w 0
  /\ exists J1 J2 J3 J4, Js = [J1; J2; J3; J4]
     /\ tderiv C u (fst J1 @ x1 (+) fst J2 @ y1 (+) fst J3 @ x2 (+) fst J4 @ y2)
     /\ tderiv C w (snd J1 @ x1 (+) snd J2 @ y1 (+) snd J3 @ x2 (+) snd J4 @ y2).
Proof.
  intros dt p1 v1 p2 v2 h1 k1 h2 k2 x1 y1 x2 y2 u w r Js e Hr V1 V2 K1 K2 S1 D1 S2 D2 RG E U.
  unfold di_jacobians in E. destruct (local p1 p2) as [pd|] eqn:EL; [|discriminate]. cbn [bind] in E.
  destruct (local_jac p1 p2) as [[J0 J1]|] eqn:EJ; [|discriminate]. cbn [bind fst snd] in E. injection E as <- <-.
  assert (Z0 : Rabs 0 < r) by (rewrite Rabs_R0; exact Hr).
  pose (q := fun t => match local (h1 t) (h2 t) with Some x => x | None => pd end).
  assert (Q : forall t, Rabs t < r -> local (h1 t) (h2 t) = Some (q t)
     /\ u t = tsub (q t) (tscale dt (k1 t)) /\ w t = tsub (k2 t) (k1 t)).
  { intros t Ht. specialize (U t Ht). unfold di_error in U. unfold q.
    destruct (local (h1 t) (h2 t)) as [x|]; [|discriminate]. cbn [bind] in U. unfold di_error_from_pose_diff in U.
    injection U as <- <-. auto. }
  pose proof (curve_between r h1 p1 x1 h2 p2 x2 V1 V2 K1 K2) as KB.
  assert (DQ : tderiv C q (J0 @ x1 (+) J1 @ x2)).
  { apply (local_gen p1 p2 h1 h2 x1 x2 q r J0 J1); try assumption. intros t Ht. apply Q. exact Ht. }
  split; [unfold di_error; rewrite EL; reflexivity|].
  destruct (Q 0 Z0) as (Q0 & U0 & W0).
  assert (PD : pd == q 0).
  { apply (curve_start r _ _ _ q pd Hr KB); [|exact EL]. intros t Ht. apply Q. exact Ht. }
  split; [cbn [fst di_error_from_pose_diff]; rewrite U0, S1; apply (l_subc _ _ L), PD|].
  split; [cbn [snd di_error_from_pose_diff]; rewrite W0, S1, S2; apply t_refl|].
  eexists _, _, _, _. split; [reflexivity|]. cbn [fst snd]. split.
  - apply (l_loc _ _ L (fun t => tsub (q t) (tscale dt (k1 t))) u _ r Hr); [intros t Ht; symmetry; apply Q; exact Ht|].
    eapply (l_tderiv _ _ L); [|apply (l_sub _ _ L q k1 _ _ dt DQ D1)].
    set (a := J0 @ x1). set (b := J1 @ x2). set (c := jscale (- dt) jeye @ y1).
    eapply t_trans; [apply (l_assoc _ _ L)|].
    eapply t_trans; [|eapply t_trans; [|apply (l_comm _ _ L)]].
    2: apply t_sym, (l_zero _ _ L).
    eapply t_trans; [|apply t_sym, (l_assoc _ _ L)]. apply (l_plus _ _ L); [apply t_refl|]. apply (l_comm _ _ L).
  - apply (l_loc _ _ L (fun t => tsub (k2 t) (k1 t)) w _ r Hr); [intros t Ht; symmetry; apply Q; exact Ht|].
    eapply (l_tderiv _ _ L); [|apply (l_sub2 _ _ L k2 k1 _ _ D2 D1)].
    set (a := jeye @ y2). set (c := jneg jeye @ y1).
    eapply t_trans; [apply (l_comm _ _ L)|]. apply (l_plus _ _ L); [|apply t_refl].
    eapply t_trans; [|apply (l_comm _ _ L)].
    eapply t_trans; [|apply t_sym, (l_zero _ _ L)]. apply t_sym, (l_zero _ _ L).
Qed.
End Generic.

(** Between *)
Theorem C57_between_jac : forall G (C : Calculus G), theseus_group G C ->
  forall v0 v1 m h0 h1 xi0 xi1 u r Js e, 0 < r ->
  is_elt C v0 -> is_elt C v1 -> is_elt C m -> curve C r h0 v0 xi0 -> curve C r h1 v1 xi1 ->
  regular C (between m (between v0 v1)) ->
  between_jacobians v0 v1 m = Some (Js, e) ->
  (forall t, Rabs t < r -> between_error (h0 t) (h1 t) m = Some (u t)) ->
  between_error v0 v1 m = Some e /\ teq C e (u 0)
  /\ exists J0 J1, Js = [J0; J1] /\ tderiv C u (tplus C (japp C J0 xi0) (japp C J1 xi1)).
Proof. intros G C H. exact (between_gen C (group_laws G C H)). Qed.

(** Local with exact Jacobians *)
Theorem C57_local_jac : forall G (C : Calculus G), theseus_group G C ->
  forall v target h xi u r Js e, 0 < r ->
  is_elt C v -> is_elt C target -> curve C r h v xi -> regular C (between target v) ->
  local_jacobians false v target = Some (Js, e) ->
  (forall t, Rabs t < r -> local_error (h t) target = Some (u t)) ->
  local_error v target = Some e /\ teq C e (u 0)
  /\ exists J, Js = [J] /\ tderiv C u (japp C J xi).
Proof.
  intros G C H v target h xi u r Js e Hr Vv Vt K RG E U. pose proof (group_laws G C H) as L.
  unfold local_jacobians in E. unfold local_error in *.
  destruct (local target v) as [e'|] eqn:EL; [|discriminate]. cbn [bind] in E.
  unfold local_jac in E. destruct (log_map_jac (between target v)) as [J|] eqn:EJ; [|discriminate]. cbn [bind snd] in E.
  injection E as <- <-. split; [reflexivity|].
  pose proof (curve_between_r C L r target h v xi Vt Vv K) as KF.
  split; [exact (curve_start C L _ _ _ _ _ _ Hr KF U EL)|].
  eexists. split; [reflexivity|]. exact (local_gen_r C L target v h xi u r J Hr Vt Vv K RG EJ U).
Qed.
(** with fast_approx_local_jacobians: the same error; the Jacobian is the exact
    one for commutative groups and when the variable is at its target *)
Theorem C57_local_fast_partial : forall G (C : Calculus G), theseus_group G C ->
  forall v target h xi u r Js e, 0 < r ->
  is_elt C v -> is_elt C target -> curve C r h v xi -> regular C (between target v) ->
  commutative_group G C \/ between target v = one C ->
  local_jacobians true v target = Some (Js, e) ->
  (forall t, Rabs t < r -> local_error (h t) target = Some (u t)) ->
  local_error v target = Some e /\ teq C e (u 0)
  /\ exists J, Js = [J] /\ tderiv C u (japp C J xi).
Proof.
  intros G C H v target h xi u r Js e Hr Vv Vt K RG CO E U. pose proof (group_laws G C H) as L.
  unfold local_jacobians in E. unfold local_error in *.
  destruct (local target v) as [e'|] eqn:EL; [|discriminate]. cbn [bind] in E.
  injection E as <- <-. split; [reflexivity|].
  pose proof (curve_between_r C L r target h v xi Vt Vv K) as KF.
  split; [exact (curve_start C L _ _ _ _ _ _ Hr KF U EL)|].
  eexists. split; [reflexivity|].
  destruct (l_total _ _ L _ _ (l_between _ _ L _ _ Vt Vv) RG EL) as [J EJ].
  eapply (l_tderiv _ _ L); [|exact (local_gen_r C L target v h xi u r J Hr Vt Vv K RG EJ U)].
  eapply (l_trans _ _ L); [|apply (l_sym _ _ L), (l_eye _ _ L)].
  destruct CO as [CO|CO]; [exact (commutative_dlog G C CO _ J xi EJ)|].
  rewrite CO in EJ. exact (l_one _ _ L J xi EJ).
Qed.

(** MovingFrameBetween: the Jacobians returned have to be multiplied by the
    Jacobian of log_map at the residual to be derivatives of the error *)
Theorem C57_moving_frame_jac_partial : forall G (C : Calculus G), theseus_group G C ->
  forall f1 f2 p1 p2 m hf1 hf2 hp1 hp2 x1 x2 y1 y2 u r Js e dlog, 0 < r ->
  is_elt C f1 -> is_elt C f2 -> is_elt C p1 -> is_elt C p2 -> is_elt C m ->
  curve C r hf1 f1 x1 -> curve C r hf2 f2 x2 -> curve C r hp1 p1 y1 -> curve C r hp2 p2 y2 ->
  let d := between m (between (between f1 p1) (between f2 p2)) in
  regular C d -> log_map_jac d = Some dlog ->
  mfb_jacobians f1 f2 p1 p2 m = Some (Js, e) ->
  (forall t, Rabs t < r -> mfb_error (hf1 t) (hf2 t) (hp1 t) (hp2 t) m = Some (u t)) ->
  mfb_error f1 f2 p1 p2 m = Some e /\ teq C e (u 0)
  /\ exists J1 J2 J3 J4, Js = [J1; J2; J3; J4]
     /\ let w := tplus C (tplus C (tplus C (japp C J1 x1) (japp C J2 x2)) (japp C J3 y1)) (japp C J4 y2) in
        tderiv C u (japp C dlog w)
        /\ (commutative_group G C \/ d = one C -> tderiv C u w).
Proof.
  intros G C H f1 f2 p1 p2 m hf1 hf2 hp1 hp2 x1 x2 y1 y2 u r Js e dlog Hr A1 A2 A3 A4 A5 K1 K2 K3 K4 d RG EJ E U.
  pose proof (group_laws G C H) as L.
  destruct (mfb_gen C L f1 f2 p1 p2 m hf1 hf2 hp1 hp2 x1 x2 y1 y2 u r Js e dlog Hr A1 A2 A3 A4 A5 K1 K2 K3 K4 RG EJ E U)
    as (B1 & B2 & J1 & J2 & J3 & J4 & B3 & B4).
  split; [exact B1|]. split; [exact B2|]. exists J1, J2, J3, J4. split; [exact B3|]. split; [exact B4|].
  intros CO. eapply (l_tderiv _ _ L); [|exact B4].
  destruct CO as [CO|CO]; [exact (commutative_dlog G C CO _ dlog _ EJ)|].
  rewrite CO in EJ. exact (l_one _ _ L dlog _ EJ).
Qed.

(** DoubleIntegrator: the error is a pair (pose part, velocity part), each
    Jacobian a pair of blocks of rows *)
Theorem C58_double_integrator_jac : forall G (C : Calculus G), theseus_group G C ->
  forall dt p1 v1 p2 v2 h1 k1 h2 k2 x1 y1 x2 y2 u w r Js e, 0 < r ->
  is_elt C p1 -> is_elt C p2 -> curve C r h1 p1 x1 -> curve C r h2 p2 x2 ->
  k1 0 = v1 -> tderiv C k1 y1 -> k2 0 = v2 -> tderiv C k2 y2 ->
  regular C (between p1 p2) -> di_jacobians dt p1 v1 p2 v2 = Some (Js, e) ->
  (forall t, Rabs t < r -> di_error dt (h1 t) (k1 t) (h2 t) (k2 t) = Some (u t, w t)) ->
  di_error dt p1 v1 p2 v2 = Some e /\ teq C (fst e) (u 0) /\ teq C (snd e) (w 0)
  /\ exists J1 J2 J3 J4, Js = [J1; J2; J3; J4]
     /\ tderiv C u (tplus C (tplus C (tplus C (japp C (fst J1) x1) (japp C (fst J2) y1)) (japp C (fst J3) x2)) (japp C (fst J4) y2))
     /\ tderiv C w (tplus C (tplus C (tplus C (japp C (snd J1) x1) (japp C (snd J2) y1)) (japp C (snd J3) x2)) (japp C (snd J4) y2)).
Proof. intros G C H. exact (di_gen C (group_laws G C H)). Qed.

(** jacobians() succeeds exactly when error() does *)
Theorem C57_jacobians_defined : forall G (C : Calculus G), theseus_group G C ->
  (forall v0 v1 m e, is_elt C v0 -> is_elt C v1 -> is_elt C m -> regular C (between m (between v0 v1)) ->
     between_error v0 v1 m = Some e -> exists Js, between_jacobians v0 v1 m = Some (Js, e))
  /\ (forall fast v target e, is_elt C v -> is_elt C target -> regular C (between target v) ->
     local_error v target = Some e -> exists Js, local_jacobians fast v target = Some (Js, e))
  /\ (forall f1 f2 p1 p2 m e, mfb_error f1 f2 p1 p2 m = Some e -> exists Js, @mfb_jacobians G f1 f2 p1 p2 m = Some (Js, e))
  /\ (forall dt p1 v1 p2 v2 e, is_elt C p1 -> is_elt C p2 -> regular C (between p1 p2) ->
     di_error dt p1 v1 p2 v2 = Some e -> exists Js, di_jacobians dt p1 v1 p2 v2 = Some (Js, e)).
Proof.
  intros G C H. pose proof (group_laws G C H) as L.
  repeat match goal with |- _ /\ _ => split end.
  - intros v0 v1 m e A B D RG E. unfold between_error, local in E. unfold between_jacobians.
    change (compose (inverse m) (between v0 v1)) with (between m (between v0 v1)). rewrite E. cbn [bind].
    destruct (l_total _ _ L _ _ (l_between _ _ L _ _ D (l_between _ _ L _ _ A B)) RG E) as [J ->]. eexists. reflexivity.
  - intros fast v target e A B RG E. unfold local_error in E. unfold local_jacobians. rewrite E. cbn [bind].
    unfold local in E. destruct (l_total _ _ L _ _ (l_between _ _ L _ _ B A) RG E) as [J EJ].
    unfold local_jac. rewrite EJ. destruct fast; eexists; reflexivity.
  - intros f1 f2 p1 p2 m e E. unfold mfb_error in E. unfold mfb_jacobians.
    destruct (between_jac f1 p1), (between_jac f2 p2), (between_jac (between f1 p1) (between f2 p2)).
    rewrite E. eexists. reflexivity.
  - intros dt p1 v1 p2 v2 e A B RG E. unfold di_error in E. unfold di_jacobians.
    destruct (local p1 p2) as [q|] eqn:EL; [|discriminate]. cbn [bind] in *. injection E as <-.
    unfold local in EL. destruct (l_total _ _ L _ _ (l_between _ _ L _ _ A B) RG EL) as [J EJ].
    unfold local_jac. rewrite EJ. eexists. reflexivity.
Qed.

(** The identity handed out in fast mode, over a history of calls of
    jacobians(): its batch size is always the variable's, its dtype only if the
    dtype never changed *)
Fixpoint cache_run (cache : option tensor_info) (calls : list tensor_info) : list (tensor_info * tensor_info) :=
  match calls with
  | [] => []
  | v :: rest => let '(out, cache') := local_cache_step cache v in (v, out) :: cache_run cache' rest
  end.
Theorem C57_local_fast_cache_partial : forall calls v out, In (v, out) (cache_run None calls) ->
  ti_batch out = ti_batch v
  /\ ((forall a b, In a calls -> In b calls -> ti_dtype a = ti_dtype b) -> ti_dtype out = ti_dtype v).
Proof.
  assert (B : forall calls c v out, In (v, out) (cache_run c calls) -> ti_batch out = ti_batch v).
  { induction calls as [|a calls IH]; intros c v out H; [destruct H|]. cbn in H.
    destruct (local_cache_step c a) as [o c'] eqn:E. destruct H as [H|H]; [|exact (IH _ _ _ H)].
    injection H as <- <-. unfold local_cache_step in E. destruct c as [k|].
    - destruct (Nat.eqb (ti_batch k) (ti_batch a)) eqn:EQ; injection E as <- <-; [apply Nat.eqb_eq; exact EQ|reflexivity].
    - injection E as <- <-. reflexivity. }
  assert (D : forall t calls c v out, (forall a, In a calls -> ti_dtype a = t) -> (forall k, c = Some k -> ti_dtype k = t) ->
    In (v, out) (cache_run c calls) -> ti_dtype out = t /\ ti_dtype v = t).
  { intro t. induction calls as [|a calls IH]; intros c v out HA HC H; [destruct H|]. cbn in H.
    assert (DA : ti_dtype a = t) by (apply HA; left; reflexivity).
    destruct (local_cache_step c a) as [o c'] eqn:E.
    assert (DO : ti_dtype o = t /\ forall k, c' = Some k -> ti_dtype k = t).
    { unfold local_cache_step in E. destruct c as [k|].
      - specialize (HC k eq_refl). destruct (Nat.eqb (ti_batch k) (ti_batch a)); injection E as <- <-; (split; [assumption|]);
          intros k' K; injection K as <-; assumption.
      - injection E as <- <-. split; [exact DA|]. intros k' K; injection K as <-; assumption. }
    destruct DO as [DO DC]. destruct H as [H|H].
    - injection H as <- <-. auto.
    - apply (IH c' v out); [intros b Hb; apply HA; right; exact Hb|exact DC|exact H]. }
  intros calls v out H. split; [exact (B _ _ _ _ H)|]. intro ALL.
  destruct calls as [|a rest] eqn:EC; [destruct H|].
  destruct (D (ti_dtype a) (a :: rest) None v out) as [D1 D2].
  - intros b Hb. apply ALL; [exact Hb|left; reflexivity].
  - intros k K. discriminate.
  - exact H.
  - congruence.
Qed.
Theorem C57_local_fast_cache_refuted : exists calls v out, In (v, out) (cache_run None calls) /\ ti_dtype out <> ti_dtype v.
Proof.
  exists [mkTI 1 F32; mkTI 1 F64], (mkTI 1 F64), (mkTI 1 F32). split; [right; left; reflexivity|]. discriminate.
Qed.
