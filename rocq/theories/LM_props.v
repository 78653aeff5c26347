(** C21-C23: adaptive damping and trust region decisions. *)
From Coq Require Import List Arith Bool QArith Qabs Qminmax Lia Lqa.
Import ListNotations.
From Verif Require Import NL_model NL_proofs NL_desc QSum LM_model.
Local Open Scope Q_scope.

(** ---- C21 ---- *)
Lemma clamp_range lo hi q : lo <= hi -> lo <= qclamp lo hi q <= hi.
Proof.
  intros H. unfold qclamp. split.
  - apply Q.min_glb; [apply Q.le_max_r|exact H].
  - apply Q.le_min_r.
Qed.
Lemma clamp_in lo hi q : lo <= q -> q <= hi -> qclamp lo hi q == q.
Proof. intros H1 H2. unfold qclamp. rewrite Q.max_l by exact H1. now rewrite Q.min_l. Qed.
Lemma clamp_low lo hi q : lo <= hi -> q <= lo -> qclamp lo hi q == lo.
Proof. intros H1 H2. unfold qclamp. rewrite Q.max_r by exact H2. now rewrite Q.min_l. Qed.
Lemma clamp_high lo hi q : lo <= hi -> hi <= q -> qclamp lo hi q == hi.
Proof. intros H1 H2. unfold qclamp. rewrite Q.max_l by (eapply Qle_trans; eauto). now rewrite Q.min_r. Qed.

(** C21, range. Whatever the damping, the step, the errors (nan included) and the parameters. *)
Theorem C21_damping_in_range : forall L delta err prev acc down up ell damping,
  let d' := snd (lm_check_accept L delta err prev acc down up ell damping) in
  1 # 10000000 <= d' /\ d' <= 10000000.
Proof.
  intros L delta err prev acc down up ell damping. cbv zeta. unfold lm_check_accept. cbn [snd].
  apply clamp_range. unfold min_damping, max_damping. lra.
Qed.

(** C21, direction. From a damping in range, with ratios at least 1: a rejected step multiplies it by
    the up ratio, an accepted one divides it by the down ratio, up to the bounds. *)
Theorem C21_damping_direction : forall L delta err prev acc down up ell damping,
  1 # 10000000 <= damping <= 10000000 -> 1 <= up -> 1 <= down ->
  let (rejected, d') := lm_check_accept L delta err prev acc down up ell damping in
  (rejected = true -> d' == Qmin (damping * up) 10000000 /\ damping <= d') /\
  (rejected = false -> d' == Qmax (damping / down) (1 # 10000000) /\ d' <= damping).
Proof.
  intros L delta err prev acc down up ell damping [H1 H2] Hu Hd. unfold lm_check_accept.
  set (rho := xdiv _ _). destruct (xleb rho acc); split; try discriminate; intros _.
  - assert (Hm : damping <= damping * up) by nra.
    assert (E : qclamp min_damping max_damping (damping * up) == Qmin (damping * up) 10000000).
    { unfold qclamp. rewrite Q.max_l; [reflexivity|]. unfold min_damping. lra. }
    split; [exact E|]. rewrite E. apply Q.min_glb; assumption.
  - assert (Hm : damping / down <= damping).
    { apply Qle_shift_div_r; [lra|]. nra. }
    assert (Hp : 0 < damping / down). { apply Qlt_shift_div_l; lra. }
    assert (E : qclamp min_damping max_damping (damping / down) == Qmax (damping / down) (1 # 10000000)).
    { unfold qclamp. rewrite Q.min_l; [reflexivity|]. apply Q.max_lub; unfold max_damping, min_damping; lra. }
    split; [exact E|]. rewrite E. apply Q.max_lub; assumption.
Qed.

(** the damping of every element after any sequence of adaptive steps *)
Fixpoint lm_steps {X} (lin : X -> linz) (ell : bool) (acc down up : Q) (z : nat -> Q)
    (l : list ((nat -> X) * (nat -> nat -> Q) * (nat -> ext) * (nat -> ext))) : nat -> Q :=
  match l with
  | [] => z
  | (x, d, e, p) :: r => lm_steps lin ell acc down up (fst (lm_complete lin true ell acc down up z x d e p)) r
  end.
Theorem C21_every_step : forall X (lin : X -> linz) ell acc down up l z, l <> [] ->
  forall i, 1 # 10000000 <= lm_steps lin ell acc down up z l i <= 10000000.
Proof.
  intros X lin ell acc down up l. induction l as [|[[[x d] e] p] r IH]; intros z Hne i; [congruence|]. simpl lm_steps.
  destruct r as [|q r].
  - cbn [lm_steps lm_complete fst]. apply C21_damping_in_range.
  - apply IH. discriminate.
Qed.

(** ---- C22 ---- *)
Section Quad.
Variable L : linz.
Let m := l_m L.
Let n := l_n L.
Let A := l_A L.

Lemma AtA_quad v : qsum n (fun c => v c * qsum n (fun k => AtA L c k * v k)) == qdot m (qmv n A v) (qmv n A v).
Proof.
  rewrite <- (qdot_tmv m n A (qmv n A v) v). unfold qdot. apply qsum_ext. intros c _.
  apply Qmult_comp; [reflexivity|]. unfold qtmv, qmv, AtA. fold m. fold A.
  rewrite (qsum_ext n _ (fun k => qsum m (fun r => A r c * (A r k * v k)))).
  - rewrite qsum_exch. apply qsum_ext. intros r _. apply qsum_scal.
  - intros k _. rewrite Qmult_comm, <- qsum_scal. apply qsum_ext. intros r _. ring.
Qed.

Lemma diag_nonneg c : 0 <= AtA L c c.
Proof. unfold AtA. apply qsum_nonneg. intros. apply sq_nonneg. Qed.

(** the denominator of the gain ratio, for a scaled exact step *)
Lemma lm_den_pos ell damping eps delta s :
  damped_solution L ell damping eps delta -> 0 < s ->
  (if ell then 0 <= damping /\ 0 < eps else 0 < damping) ->
  0 <= lm_den L ell damping (fun c => s * delta c) /\
  (lm_den L ell damping (fun c => s * delta c) == 0 -> forall c, (c < n)%nat -> delta c == 0).
Proof.
  intros Hsol Hs Hpos. unfold lm_den. fold n.
  set (D := fun c => if ell then damping * AtA L c c + eps else damping).
  set (W := fun c => s * s * (lm_damp L ell damping c * (delta c * delta c)) + s * (D c * (delta c * delta c))).
  assert (HD : forall c, 0 < D c).
  { intros c. unfold D. destruct ell; [|exact Hpos]. destruct Hpos. pose proof (diag_nonneg c). nra. }
  assert (Hld : forall c, 0 <= lm_damp L ell damping c).
  { intros c. unfold lm_damp. destruct ell; [|lra]. destruct Hpos. pose proof (diag_nonneg c). nra. }
  assert (E : qsum n (fun c => s * delta c * (lm_damp L ell damping c * (s * delta c) + Atb L c)) ==
              s * qdot m (qmv n A delta) (qmv n A delta) + qsum n W).
  { rewrite <- AtA_quad, <- qsum_scal, <- qsum_plus. apply qsum_ext. intros c Hc.
    rewrite <- (Hsol c Hc). fold n. fold (D c). unfold W. ring. }
  assert (HW : forall c, (c < n)%nat -> 0 <= W c).
  { intros c _. unfold W. pose proof (HD c). pose proof (Hld c). pose proof (sq_nonneg (delta c)).
    assert (0 <= lm_damp L ell damping c * (delta c * delta c)) by nra.
    assert (0 <= D c * (delta c * delta c)) by nra. assert (0 < s * s) by nra. nra. }
  pose proof (qsum_nonneg n W HW) as HWs. pose proof (qdot_nonneg m (qmv n A delta)) as HQ.
  assert (0 <= s * qdot m (qmv n A delta) (qmv n A delta)) as HsQ by nra.
  split.
  - apply Qle_shift_div_l; [lra|]. rewrite E. lra.
  - intros Hz c Hc.
    assert (Hz' : s * qdot m (qmv n A delta) (qmv n A delta) + qsum n W == 0).
    { rewrite <- E. setoid_replace (qsum n (fun c => s * delta c * (lm_damp L ell damping c * (s * delta c) + Atb L c)))
        with (2 * (qsum n (fun c => s * delta c * (lm_damp L ell damping c * (s * delta c) + Atb L c)) / 2)) by field. rewrite Hz. ring. }
    assert (Hw0 : qsum n W == 0) by lra.
    pose proof (qsum_zero_each n W HW Hw0 c Hc) as Hw. unfold W in Hw.
    apply sq_zero. pose proof (HD c). pose proof (Hld c). pose proof (sq_nonneg (delta c)).
    assert (0 <= lm_damp L ell damping c * (delta c * delta c)) by nra.
    assert (0 <= D c * (delta c * delta c)) by nra. assert (0 < s * s) by nra.
    assert (Hz2 : s * (D c * (delta c * delta c)) == 0) by nra.
    destruct (Qmult_integral _ _ Hz2) as [K|K]; [lra|]. destruct (Qmult_integral _ _ K) as [K2|K2]; [lra|exact K2].
Qed.
End Quad.

Lemma Qltb_lt a b : a < b -> Qltb a b = true.
Proof. apply Qltb_spec. Qed.

(** C22, one adaptive Levenberg-Marquardt step (with or without ellipsoidal damping, any step size):
    if the solve is exact and the step is not rejected, then the error strictly decreases, unless the
    step is zero or an error is nan. *)
Theorem C22_lm_accepted_decreases : forall L ell damping eps delta s err prev acc down up,
  damped_solution L ell damping eps delta -> 0 < s ->
  (if ell then 0 <= damping /\ 0 < eps else 0 < damping) -> 0 <= acc ->
  fst (lm_check_accept L (fun c => s * delta c) err prev acc down up ell damping) = false ->
  (forall c, (c < l_n L)%nat -> delta c == 0) \/ prev = NaN \/ err = NaN \/ (prev = PInf /\ err = PInf) \/ elt err prev = true.
Proof.
  intros L ell damping eps delta s err prev acc down up Hsol Hs Hpos Hacc.
  destruct (lm_den_pos L ell damping eps delta s Hsol Hs Hpos) as [Hden Hzero].
  unfold lm_check_accept. cbn [fst].
  set (den := lm_den L ell damping (fun c => s * delta c)) in *.
  intros Hx.
  destruct (Qlt_le_dec 0 den) as [Hp|Hn]; [|left; apply Hzero; lra].
  right. revert Hx. destruct prev as [p| |], err as [e| |]; cbn [esub xdiv xleb]; auto 7.
  - destruct (Qeq_bool den 0) eqn:E0. { apply Qeq_bool_iff in E0. lra. }
    cbn [xleb]. intros Hx. right. right. right. apply Qltb_spec.
    assert (Hlt : ~ ((p - e) / den <= acc)) by (intros K; apply Qle_bool_iff in K; congruence).
    apply Qnot_le_lt in Hlt. assert (0 < (p - e) / den) by lra.
    assert (0 < p - e). { setoid_replace (p - e) with (((p - e) / den) * den) by (field; lra). nra. }
    lra.
  - assert (Eq : Qltb den 0 = false). { destruct (Qltb den 0) eqn:E; [|reflexivity]. apply Qltb_spec in E. lra. }
    rewrite Eq. discriminate.
Qed.

(** The claim is false with nan: a step whose new error is nan is accepted, whatever the step. *)
Theorem C22_nan_accepted_refuted : forall L ell damping delta prev acc down up,
  fst (lm_check_accept L delta NaN prev acc down up ell damping) = false.
Proof. intros. unfold lm_check_accept. cbn [fst]. destruct prev; reflexivity. Qed.

(** C22, whole runs of adaptive Levenberg-Marquardt: with exact solves the error history of every
    element never increases (nan aside). [retr] with a zero step changes nothing. *)
Theorem C22_lm_history : forall (X : Type) n (errf : X -> ext) (retr : X -> (nat -> Q) -> X) (lin : X -> linz)
    (solve : (nat -> Q) -> (nat -> X) -> option (nat -> nat -> Q)) gn s ell eps acc down up abs_tol rel_tol,
  (forall x d, (forall c, (c < l_n (lin x))%nat -> d c == 0) -> errf (retr x d) = errf x) ->
  (forall z x d, (forall i, 0 < z i) -> solve z x = Some d -> forall i, damped_solution (lin (x i)) ell (z i) eps (d i)) ->
  0 < s -> (ell = true -> 0 < eps) -> 0 <= acc ->
  forall max_iter g st damping x f x', 0 < damping ->
  optimize_unroll n errf retr (fun z x => (z, solve z x)) gn (lm_complete lin true ell acc down up)
    (fun d c => s * d c) abs_tol rel_tol max_iter g st (fun _ => damping) x = Some (f, x') ->
  forall c i, (c < max_iter)%nat -> (i < n)%nat -> i_state_hist f (S c) i <> None ->
    i_err_hist f c i = NaN \/ i_err_hist f (S c) i = NaN \/ elt (i_err_hist f c i) (i_err_hist f (S c) i) = false.
Proof.
  intros X n errf retr lin solve gn s ell eps acc down up abs_tol rel_tol Hzero Hsol Hs Heps Hacc
    m g st damping x f x' Hd H.
  refine (history_not_increasing n errf retr _ gn _ _ abs_tol rel_tol
    (fun z => forall i, 0 < z i) (fun z xi d i => damped_solution (lin xi) ell (z i) eps d) _ _ _
    m g st (fun _ => damping) x f x' (fun _ => Hd) H).
  - intros z x0 z' d Hz E. injection E as <- E. split; [exact Hz|]. intros i. now apply (Hsol z).
  - intros z x0 d e p z' r Hz E i. unfold lm_complete in E. injection E as <- <-.
    pose proof (C21_damping_in_range (lin (x0 i)) (d i) (e i) (p i) acc down up ell (z i)) as [R _].
    eapply Qlt_le_trans; [|exact R]. reflexivity.
  - intros z x0 d e p z' r i Hz Hi Hg He Hp E. unfold lm_complete in E. injection E as <- <-. cbv beta.
    intros Hr. assert (HP : if ell then 0 <= z i /\ 0 < eps else 0 < z i).
    { pose proof (Hz i). destruct ell; [split; [lra|auto]|assumption]. }
    destruct (C22_lm_accepted_decreases _ _ _ _ _ s (e i) (p i) acc down up Hg Hs HP Hacc Hr) as [K|[K|[K|[[K1 K2]|K]]]].
    + right. right. rewrite He, Hp, (Hzero (x0 i)); [apply elt_irrefl|]. intros c Hc. rewrite (K c Hc). ring.
    + now left.
    + right. now left.
    + right. right. now rewrite K1, K2.
    + right. right. eapply elt_chain; [exact K|]. apply elt_irrefl.
Qed.

(** ---- C23 ---- *)
(** a ratio that is a number or infinite, and its order *)
Definition ratio_lt (x : xq) (q : Q) : Prop := match x with XF n => n < q | XN => True | _ => False end.
Definition ratio_gt (x : xq) (q : Q) : Prop := match x with XF n => q < n | XP => True | _ => False end.
Lemma xltb_spec x q : xltb x q = true <-> ratio_lt x q.
Proof. destruct x; simpl; try (split; [discriminate|contradiction]); try tauto. apply Qltb_spec. Qed.
Lemma xgtb_spec x q : xgtb x q = true <-> ratio_gt x q.
Proof. destruct x; simpl; try (split; [discriminate|contradiction]); try tauto. apply Qltb_spec. Qed.

(** what "valid parameters" means *)
Definition valid (p : tr_params) : Prop :=
  0 < t_shrink_ratio p /\ t_shrink_ratio p <= 1 /\ 1 <= t_expand_ratio p /\ t_shrink p < t_expand p /\ t_accept p < t_shrink p.

(** C23. Invalid parameters are rejected; otherwise exactly one of three things happens to the radius
    (before clamping): multiplied by shrink_ratio iff the ratio is below shrink_threshold, by
    expand_ratio iff it is above expand_threshold, else kept; the result is in [min, max]. The step
    is rejected iff the ratio is below accept_threshold. *)
Theorem C23_radius_update : forall L p delta err prev radius,
  (tr_complete_step L p delta err prev radius = None <-> ~ valid p) /\
  forall radius' rej, tr_complete_step L p delta err prev radius = Some (radius', rej) ->
    exists r,
      radius' = qclamp (t_min p) (t_max p) r /\
      (ratio_lt (tr_rho L delta err prev) (t_shrink p) -> r = radius * t_shrink_ratio p) /\
      (ratio_gt (tr_rho L delta err prev) (t_expand p) -> r = radius * t_expand_ratio p) /\
      (~ ratio_lt (tr_rho L delta err prev) (t_shrink p) -> ~ ratio_gt (tr_rho L delta err prev) (t_expand p) -> r = radius) /\
      ~ (ratio_lt (tr_rho L delta err prev) (t_shrink p) /\ ratio_gt (tr_rho L delta err prev) (t_expand p)) /\
      (t_min p <= t_max p -> t_min p <= radius' <= t_max p) /\
      (rej = true <-> ratio_lt (tr_rho L delta err prev) (t_accept p)).
Proof.
  intros L p delta err prev radius. unfold tr_complete_step.
  assert (HG : tr_good_params p = true <-> valid p).
  { unfold tr_good_params, valid. rewrite !andb_true_iff, !Qltb_spec, !Qle_bool_iff. tauto. }
  destruct (tr_good_params p) eqn:E.
  - split; [split; [discriminate|]; intros H; exfalso; apply H, HG; reflexivity|].
    intros radius' rej H. injection H as H1 H2. unfold tr_update in *. cbv zeta in H1, H2. cbn [fst snd] in *.
    set (rho := tr_rho L delta err prev) in *.
    destruct (proj1 HG eq_refl) as (V1 & V2 & V3 & V4 & V5).
    assert (Hex : ~ (ratio_lt rho (t_shrink p) /\ ratio_gt rho (t_expand p))).
    { destruct rho; simpl; intros [Ha Hb]; try contradiction. lra. }
    destruct (xltb rho (t_shrink p)) eqn:E1; destruct (xgtb rho (t_expand p)) eqn:E2.
    + exfalso. apply Hex. split; [now apply xltb_spec|now apply xgtb_spec].
    + exists (radius * t_shrink_ratio p). apply xltb_spec in E1.
      assert (N2 : ~ ratio_gt rho (t_expand p)) by tauto.
      subst radius' rej. repeat split; try tauto; try (intros; apply clamp_range; assumption).
      * now apply xltb_spec. * now apply xltb_spec.
    + exists (radius * t_expand_ratio p). apply xgtb_spec in E2.
      assert (N2 : ~ ratio_lt rho (t_shrink p)) by tauto.
      subst radius' rej. repeat split; try tauto; try (intros; apply clamp_range; assumption).
      * now apply xltb_spec. * now apply xltb_spec.
    + exists radius.
      assert (N1 : ~ ratio_lt rho (t_shrink p)) by (rewrite <- xltb_spec; congruence).
      assert (N2 : ~ ratio_gt rho (t_expand p)) by (rewrite <- xgtb_spec; congruence).
      subst radius' rej. repeat split; try tauto; try (intros; apply clamp_range; assumption).
      * now apply xltb_spec. * now apply xltb_spec.
  - split; [split; [intros _ H; apply HG in H; discriminate|reflexivity]|discriminate].
Qed.

Lemma C23_defaults_valid : valid tr_default.
Proof. unfold valid, tr_default; simpl. repeat split; lra. Qed.

(** The documentation says that the step is applied iff the ratio is greater than accept_threshold.
    A ratio equal to it, or nan (new error nan), is applied too. *)
Theorem C23_applied_iff_greater_refuted :
  (exists radius, snd (tr_update tr_default (XF 0) radius) = false /\ ~ ratio_gt (XF 0) (t_accept tr_default)) /\
  (forall L delta prev, snd (tr_update tr_default (tr_rho L delta NaN prev) 1) = false).
Proof.
  split.
  - exists 1. split; [reflexivity|]. simpl. lra.
  - intros L delta prev. unfold tr_rho. destruct prev; reflexivity.
Qed.

(** C22 for trust regions: with a non-negative accept_threshold and a step that decreases the model
    (see C24 for the dogleg step), a step that is not rejected does not increase the error. *)
Theorem C22_tr_accepted_not_larger : forall L p delta err prev radius,
  0 <= t_accept p -> model_change L delta < 0 ->
  snd (tr_update p (tr_rho L delta err prev) radius) = false ->
  not_larger prev err.
Proof.
  intros L p delta err prev radius Ha Hm. unfold tr_update. cbn [snd].
  destruct prev as [q| |]; [|right; right; reflexivity|now left].
  unfold tr_rho. destruct err as [e| |]; cbn [esub xdiv].
  - destruct (Qeq_bool (- model_change L delta) 0) eqn:E0. { apply Qeq_bool_iff in E0. lra. }
    cbn [xltb]. intros Hx. right. right. cbn [elt].
    destruct (Qltb q e) eqn:E; [|reflexivity]. apply Qltb_spec in E.
    assert (K : (q - e) / (- model_change L delta) < 0).
    { setoid_replace ((q - e) / - model_change L delta) with (- ((e - q) / - model_change L delta)) by (field; lra).
      assert (0 < (e - q) / - model_change L delta) by (apply Qlt_shift_div_l; lra). lra. }
    assert (Hc : Qltb ((q - e) / - model_change L delta) (t_accept p) = true) by (apply Qltb_spec; lra). congruence.
  - assert (Eq : Qltb (- model_change L delta) 0 = false). { destruct (Qltb (- model_change L delta) 0) eqn:E; [|reflexivity]. apply Qltb_spec in E. lra. }
    rewrite Eq. discriminate.
  - right. now left.
Qed.

(** an exact Gauss-Newton step, scaled by a step size in (0, 1], decreases the model unless A delta = 0 *)
Theorem C22_gn_step_decreases_model : forall L delta s,
  damped_solution L false 0 0 delta -> 0 < s <= 1 ->
  model_change L (fun c => s * delta c) <= - (s / 2) * qdot (l_m L) (qmv (l_n L) (l_A L) delta) (qmv (l_n L) (l_A L) delta).
Proof.
  intros L delta s Hsol [Hs1 Hs2]. unfold model_change.
  set (Q1 := qdot (l_m L) (qmv (l_n L) (l_A L) delta) (qmv (l_n L) (l_A L) delta)).
  assert (E1 : qdot (l_n L) (fun c => s * delta c) (fun c => - Atb L c) == - s * Q1).
  { unfold Q1. rewrite <- AtA_quad, <- qsum_scal. unfold qdot. apply qsum_ext. intros c Hc.
    rewrite <- (Hsol c Hc). ring. }
  assert (E2 : qdot (l_m L) (qmv (l_n L) (l_A L) (fun c => s * delta c)) (qmv (l_n L) (l_A L) (fun c => s * delta c)) == s * s * Q1).
  { unfold Q1, qdot. rewrite <- qsum_scal. apply qsum_ext. intros r _.
    assert (E : qmv (l_n L) (l_A L) (fun c => s * delta c) r == s * qmv (l_n L) (l_A L) delta r).
    { unfold qmv. rewrite <- qsum_scal. apply qsum_ext. intros. ring. }
    rewrite E. ring. }
  rewrite E1, E2. assert (0 <= Q1) by apply qdot_nonneg. assert (0 <= s * (1 - s)) by nra.
  setoid_replace (- s * Q1 + (1#2) * (s * s * Q1)) with (- (s/2) * Q1 - (1#2) * (s * (1 - s)) * Q1) by field. nra.
Qed.

(** ---- non-vacuity ---- *)
(** one row, one column: A = [2], b = [3]; damping 2 gives delta = 6/(4+2) = 1 *)
Definition exL : linz := mkLin 1 1 (fun _ _ => 2) (fun _ => 3).
Lemma C22_example : damped_solution exL false 2 (1#100000000) (fun _ => 1) /\
  fst (lm_check_accept exL (fun _ => 1 * 1) (Fin (1#2)) (Fin (9#2)) (1#10) 9 11 false 2) = false /\
  fst (lm_check_accept exL (fun _ => 1 * 1) (Fin 5) (Fin (9#2)) (1#10) 9 11 false 2) = true /\
  damped_solution exL false 0 0 (fun _ => 3#2).
Proof.
  split; [|split; [reflexivity|split; [reflexivity|]]]; intros c Hc; assert (c = 0)%nat by (simpl in Hc; lia); subst c; reflexivity.
Qed.

(** C22, whole runs of a trust region method with a step rule that decreases the model. *)
Theorem C22_tr_history : forall (X : Type) n (errf : X -> ext) (retr : X -> (nat -> Q) -> X) (lin : X -> linz)
    (step_rule : (nat -> Q) -> (nat -> X) -> option (nat -> nat -> Q)) gn s p abs_tol rel_tol,
  (forall x d, (forall c, (c < l_n (lin x))%nat -> d c == 0) -> errf (retr x d) = errf x) ->
  (forall z x d, step_rule z x = Some d -> forall i,
     model_change (lin (x i)) (fun c => s * d i c) < 0 \/ forall c, (c < l_n (lin (x i)))%nat -> d i c == 0) ->
  0 <= t_accept p ->
  forall max_iter g st radius x f x',
  optimize_unroll n errf retr (fun z x => (z, step_rule z x)) gn (tr_complete lin p)
    (fun d c => s * d c) abs_tol rel_tol max_iter g st (fun _ => radius) x = Some (f, x') ->
  forall c i, (c < max_iter)%nat -> (i < n)%nat -> i_state_hist f (S c) i <> None ->
    i_err_hist f c i = NaN \/ i_err_hist f (S c) i = NaN \/ elt (i_err_hist f c i) (i_err_hist f (S c) i) = false.
Proof.
  intros X n errf retr lin rule gn s p abs_tol rel_tol Hzero Hrule Hacc m g st radius x f x' H.
  refine (history_not_increasing n errf retr _ gn _ _ abs_tol rel_tol
    (fun z => True) (fun z xi d i => model_change (lin xi) (fun c => s * d c) < 0 \/ forall c, (c < l_n (lin xi))%nat -> d c == 0) _ _ _
    m g st (fun _ => radius) x f x' I H).
  - intros z x0 z' d Hz E. injection E as <- E. split; [exact I|]. intros i. now apply (Hrule z).
  - intros. exact I.
  - intros z x0 d e q z' r i Hz Hi Hg He Hp E. unfold tr_complete in E. injection E as <- <-. cbv beta.
    intros Hr. destruct Hg as [Hg|Hg].
    + exact (C22_tr_accepted_not_larger _ p _ (e i) (q i) (z i) Hacc Hg Hr).
    + right. right. rewrite He, Hp, (Hzero (x0 i)); [apply elt_irrefl|]. intros c Hc. rewrite (Hg c Hc). ring.
Qed.

(** a run of adaptive Levenberg-Marquardt meeting the hypotheses: one element, one variable, error
    x^2/2; A = 1, b = -x *)
Definition ex_err (x : Q) : ext := Fin (Qred (x * x / 2)).
Definition ex_lin (x : Q) : linz := mkLin 1 1 (fun _ _ => 1) (fun _ => - x).
Definition ex_solve (z : nat -> Q) (x : nat -> Q) : option (nat -> nat -> Q) := Some (fun i _ => - x i / (1 + Qmax (z i) 0)).
Definition ex_retr (x : Q) (d : nat -> Q) : Q := Qred (x + d O).
Lemma C22_history_example :
  (forall x d, (forall c, (c < l_n (ex_lin x))%nat -> d c == 0) -> ex_err (ex_retr x d) = ex_err x) /\
  (forall z i, 0 <= z i -> forall x d, ex_solve z x = Some d -> damped_solution (ex_lin (x i)) false (z i) 0 (d i)) /\
  match optimize_unroll 1 ex_err ex_retr (fun z x => (z, ex_solve z x)) (fun z x => (z, ex_solve z x))
     (lm_complete ex_lin true false (1#10) 9 11) (fun d c => (1 # 1) * d c) (1#100000) (1#100000) 3 false false (fun _ => 1) (fun _ => 4) with
  | Some (f, x') => map (fun c => match i_err_hist f c 0%nat with Fin q => Qle_bool q (1#1000) | _ => false end) (seq 0 4)
  | None => []
  end = [false; false; false; true].
Proof.
  split; [|split].
  - intros x d H. unfold ex_err, ex_retr. f_equal. apply Qred_complete. rewrite Qred_correct, (H 0%nat) by (simpl; lia). field.
  - intros z i Hz x d H c Hc. unfold ex_solve in H. injection H as <-. assert (c = 0)%nat by (simpl in Hc; lia). subst c.
    unfold Atb, AtA, qtmv, ex_lin. cbn [l_m l_n l_A l_b qsum]. rewrite (Q.max_l (z i) 0 Hz). field. lra.
  - vm_compute. reflexivity.
Qed.
