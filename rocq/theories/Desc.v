(** C74: the steps of the optimizers descend, and linear problems are solved in one iteration. *)
From Coq Require Import Reals List Arith Bool Lra Lia.
From Verif Require Import RSum Adj_props Adj_diff Bwd_model Bwd_spec Bwd_props Dog_model Dog_props Desc_model.
Import ListNotations.
Local Open Scope R_scope.

(** ** specification *)
(** for all small enough step sizes the objective is smaller at the retraction of [x] along [d] *)
Definition descends {S} (p : Problem S) (x : S) (th : vec) (d : vec) : Prop :=
  exists t0, 0 < t0 /\ forall t, 0 < t < t0 -> error_metric p (retract p x (fun c => d c * t)) th < error_metric p x th.
(** the Jacobian at [x] is the derivative of the error along every direction *)
Definition differentiable_at {S} (p : Problem S) (x : S) (th : vec) : Prop :=
  (forall v, (forall c, (c < dofs p)%nat -> v c = 0) -> retract p x v = x) /\
  forall v i, (i < dims p)%nat -> derivable_pt_lim (fun t => err p (retract p x (fun c => v c * t)) th i) 0 (rsum (dofs p) (fun j => jac p x th i j * v j)).
(** damping the optimizers use: none, or non-negative *)
Definition damping_ok (damping : option (R * bool * R)) : Prop := match damping with None => True | Some (lam, _, eps) => 0 <= lam /\ 0 <= eps end.
(** no state reachable by a retraction has a smaller objective *)
Definition best_along {S} (p : Problem S) (x : S) (th : vec) (y : S) : Prop :=
  forall v, error_metric p y th <= error_metric p (retract p x v) th.

(** ** derivatives *)
Lemma decreasing_right f l : derivable_pt_lim f 0 l -> l < 0 -> exists t0, 0 < t0 /\ forall t, 0 < t < t0 -> f t < f 0.
Proof.
  intros D L. destruct (D (- l / 2)) as [d Hd]; [lra|]. exists d. split; [apply cond_pos|]. intros t Ht.
  specialize (Hd t ltac:(lra)). rewrite Rabs_right in Hd by lra. specialize (Hd ltac:(lra)). rewrite Rplus_0_l in Hd.
  apply Rabs_def2 in Hd. destruct Hd as [Hd _].
  assert (Q : (f t - f 0) / t < l / 2) by lra. assert (E : f t - f 0 = (f t - f 0) / t * t) by (field; lra). nra.
Qed.
Section P.
Context {S : Type} (p : Problem S) (x : S) (th : vec).
Notation n := (dofs p) (only parsing).
Notation m := (dims p) (only parsing).
Notation A := (jac p x th) (only parsing).
Lemma Atb_stationary : stationary p x th <-> (forall c, (c < n)%nat -> Atb p x th c = 0).
Proof.
  assert (E : forall c, Atb p x th c = - rsum m (fun i => err p x th i * A i c)) by (intros c; rewrite <- rsum_opp; apply rsum_ext; intros; ring).
  split; intros H c Hc; specialize (H c Hc); rewrite E in *; lra.
Qed.
Lemma metric_der v : differentiable_at p x th ->
  derivable_pt_lim (fun t => error_metric p (retract p x (fun c => v c * t)) th) 0 (- dot n v (Atb p x th)).
Proof.
  intros [D0 D]. unfold error_metric. set (e := fun i t => err p (retract p x (fun c => v c * t)) th i).
  assert (E0 : forall i, e i 0 = err p x th i) by (intros i; unfold e; rewrite D0; [reflexivity|intros; ring]).
  set (J := fun i => rsum n (fun j => A i j * v j)).
  pose proof (der_rsum m (fun i t => e i t * e i t) (fun i => J i * e i 0 + e i 0 * J i)) as H.
  assert (H' : derivable_pt_lim (fun t => rsum m (fun i => e i t * e i t)) 0 (rsum m (fun i => J i * e i 0 + e i 0 * J i))).
  { apply H. intros i Hi. apply der_mult; apply D; exact Hi. }
  pose proof (der_mult _ (fun _ => / 2) _ 0 H' (der_const (/ 2))) as H2. eapply der_eq; [exact H2|]. cbv beta.
  rewrite Rmult_0_r, Rplus_0_r. unfold dot, Atb. rewrite <- rsum_opp.
  transitivity (rsum m (fun i => err p x th i * J i)).
  { rewrite <- rsum_scal_r. apply rsum_ext. intros i _. rewrite E0. field. }
  unfold J. rewrite (rsum_ext m _ (fun i => rsum n (fun j => err p x th i * (A i j * v j)))) by (intros; symmetry; apply rsum_scal).
  rewrite rsum_exch. apply rsum_ext. intros c _. rewrite <- rsum_scal, <- rsum_opp. apply rsum_ext. intros. ring.
Qed.
Lemma descends_if d : differentiable_at p x th -> 0 < dot n d (Atb p x th) -> descends p x th d.
Proof.
  intros D H. pose proof (metric_der d D) as M. destruct (decreasing_right _ _ M ltac:(lra)) as (t0 & T & F). exists t0. split; [exact T|].
  intros t Ht. specialize (F t Ht). cbv beta in F. destruct D as [D0 _]. rewrite (D0 (fun c => d c * 0)) in F by (intros; ring). exact F.
Qed.
(** ** the normal matrix *)
Lemma mv_AtA v c : mv n (AtA p x th) v c = tmv m A (mv n A v) c.
Proof. unfold mv at 1, AtA. apply gram_mv. Qed.
Definition damp_diag (damping : option (R * bool * R)) (c : nat) : R :=
  match damping with None => 0 | Some (lam, true, eps) => lam * AtA p x th c c + eps | Some (lam, false, _) => lam end.
Lemma mv_damped damping v c : (c < n)%nat -> mv n (damped_matrix damping (AtA p x th)) v c = mv n (AtA p x th) v c + damp_diag damping c * v c.
Proof.
  intros Hc. unfold mv, damped_matrix, damp_diag. destruct damping as [[[lam []] eps]|]; [| |ring].
  - rewrite (rsum_ext n _ (fun c' => AtA p x th c c' * v c' + (if Nat.eqb c' c then (lam * AtA p x th c c + eps) * v c' else 0))).
    + rewrite rsum_plus, rsum_delta. destruct (Nat.ltb_spec c n); [ring|lia].
    + intros c' _. rewrite (Nat.eqb_sym c' c). destruct (Nat.eqb c c'); ring.
  - rewrite (rsum_ext n _ (fun c' => AtA p x th c c' * v c' + (if Nat.eqb c' c then lam * v c' else 0))).
    + rewrite rsum_plus, rsum_delta. destruct (Nat.ltb_spec c n); [ring|lia].
    + intros c' _. rewrite (Nat.eqb_sym c' c). destruct (Nat.eqb c c'); ring.
Qed.
Lemma AtA_diag_nonneg c : 0 <= AtA p x th c c.
Proof. unfold AtA. apply rsum_nonneg. intros. apply Rle_0_sqr. Qed.
Lemma damp_diag_nonneg damping c : damping_ok damping -> 0 <= damp_diag damping c.
Proof.
  unfold damping_ok, damp_diag. pose proof (AtA_diag_nonneg c). destruct damping as [[[lam []] eps]|]; intros H'; [|tauto|lra]. destruct H' as [H1 H2].
  assert (0 <= lam * AtA p x th c c) by (apply Rmult_le_pos; assumption). lra.
Qed.
(** d . Atb for a solution of the damped system *)
Lemma step_slope damping d : solves n (damped_matrix damping (AtA p x th)) d (Atb p x th) ->
  dot n d (Atb p x th) = dot m (mv n A d) (mv n A d) + rsum n (fun c => damp_diag damping c * (d c * d c)).
Proof.
  intros H. rewrite (dot_ext n d d (Atb p x th) (fun c => tmv m A (mv n A d) c + damp_diag damping c * d c)); [|reflexivity|].
  - rewrite dot_plus_r, dot_tmv. f_equal. unfold dot. apply rsum_ext. intros. ring.
  - intros c Hc. rewrite <- (H c Hc), mv_damped, mv_AtA by exact Hc. reflexivity.
Qed.
Lemma slope_zero damping d : damping_ok damping -> solves n (damped_matrix damping (AtA p x th)) d (Atb p x th) ->
  0 <= dot n d (Atb p x th) /\ (dot n d (Atb p x th) = 0 -> stationary p x th).
Proof.
  intros Ok H. pose proof (step_slope damping d H) as E. pose proof (dot_nonneg m (mv n A d)) as N1.
  assert (T : forall c, (c < n)%nat -> 0 <= damp_diag damping c * (d c * d c)) by (intros c _; apply Rmult_le_pos; [now apply damp_diag_nonneg|apply Rle_0_sqr]).
  pose proof (rsum_nonneg n _ T) as N2. split; [lra|]. intros Z.
  assert (Z1 : dot m (mv n A d) (mv n A d) = 0) by lra. assert (Z2 : rsum n (fun c => damp_diag damping c * (d c * d c)) = 0) by lra.
  apply Atb_stationary. intros c Hc. rewrite <- (H c Hc), mv_damped, mv_AtA by exact Hc.
  pose proof (rsum_zero_each n _ T Z2 c Hc) as Zc. cbv beta in Zc.
  assert (damp_diag damping c * d c = 0). { pose proof (damp_diag_nonneg damping c Ok). destruct (Rmult_integral _ _ Zc) as [-> |Hd]; [ring|]. destruct (Rmult_integral _ _ Hd) as [-> | ->]; ring. }
  rewrite H0. rewrite Rplus_0_r. unfold tmv. apply rsum_0. intros r Hr. rewrite (dot_zero m _ Z1 r Hr). ring.
Qed.
End P.

(** ** Gauss-Newton and Levenberg-Marquardt *)
(** Every iteration of Gauss-Newton, or of Levenberg-Marquardt with any non-negative damping of either kind, from a state that is not
    stationary decreases the objective if the step size is small enough. *)
Theorem C74_step_descends : forall (S : Type) (p : Problem S) solve damping x th d, sound solve -> damping_ok damping -> differentiable_at p x th ->
  solve (dofs p) (damped_matrix damping (AtA p x th)) (Atb p x th) = Some d -> ~ stationary p x th ->
  descends p x th d /\
  exists t0, 0 < t0 /\ forall step_size, 0 < step_size < t0 -> exists y, unroll_step p solve damping step_size x th = Some y
    /\ error_metric p y th < error_metric p x th.
Proof.
  intros S p solve damping x th d So Ok D E NS. pose proof (slope_zero p x th damping d Ok (So _ _ _ _ E)) as [N Z].
  assert (De : descends p x th d). { apply descends_if; [exact D|]. destruct (Rle_lt_or_eq_dec _ _ N) as [|Q]; [assumption|]. exfalso. apply NS, Z. now symmetry. }
  split; [exact De|]. destruct De as (t0 & T & F). exists t0. split; [exact T|]. intros s Hs. unfold unroll_step. rewrite E. eexists. split; [reflexivity|]. now apply F.
Qed.
(** A stationary state is not moved: the step is zero, for every non-negative damping, if the solver's matrix is invertible. *)
Theorem C74_stationary_stays : forall (S : Type) (p : Problem S) solve damping x th step_size N, sound solve ->
  (forall v, (forall c, (c < dofs p)%nat -> v c = 0) -> retract p x v = x) ->
  left_inverse (dofs p) N (damped_matrix damping (AtA p x th)) -> stationary p x th ->
  unroll_step p solve damping step_size x th = Some x \/ unroll_step p solve damping step_size x th = None.
Proof.
  intros S p solve damping x th s N So R0 LI St. unfold unroll_step.
  destruct (solve (dofs p) (damped_matrix damping (AtA p x th)) (Atb p x th)) as [d|] eqn:E; [|now right]. left. f_equal. apply R0.
  intros c Hc. pose proof (So _ _ _ _ E) as Sv. pose proof (proj1 (Atb_stationary p x th) St) as Z.
  enough (d c = 0) as -> by ring. apply (linv_inj (dofs p) N (damped_matrix damping (AtA p x th)) d LI); [|exact Hc]. intros k Hk. now rewrite (Sv k Hk), (Z k Hk).
Qed.
(** Dogleg, for any batch, any positive radius and step size: the step of every element whose Gauss-Newton step is exact. *)
Theorem C74_dogleg_descends : forall (S : Type) (p : Problem S) x th batch k I step,
  nth_error batch k = Some I -> nth_error (dogleg batch) k = Some step ->
  d_m I = dims p -> d_n I = dofs p -> d_A I = jac p x th -> d_b I = (fun i => - err p x th i) ->
  solves (dofs p) (AtA p x th) (d_gn I) (Atb p x th) -> 0 < d_tr I -> differentiable_at p x th -> ~ stationary p x th ->
  descends p x th step.
Proof.
  intros S p x th batch k I step Hk Hs Em En EA Eb Gn Tr D NS. apply descends_if; [exact D|].
  assert (G : exists i, (i < d_n I)%nat /\ tmv (d_m I) (d_A I) (d_b I) i <> 0).
  { destruct (Rle_lt_or_eq_dec _ _ (dot_nonneg (dofs p) (Atb p x th))) as [P|P].
    - rewrite Em, En, EA, Eb. clear - P. unfold dot in P. 
      assert (K : forall q f, 0 < rsum q f -> exists i, (i < q)%nat /\ f i <> 0).
      { induction q as [|q IH]; intros f; cbn [rsum]; intros H; [lra|]. destruct (Req_dec (f q) 0) as [Z|Z]; [|exists q; split; [lia|exact Z]].
        destruct (IH f ltac:(lra)) as (i & Hi & Hn). exists i. split; [lia|exact Hn]. }
      destruct (K _ _ P) as (i & Hi & Hn). exists i. split; [exact Hi|]. intros Z. apply Hn. 
      change (tmv (dims p) (jac p x th) (fun i0 => - err p x th i0) i) with (Atb p x th i) in Z. rewrite Z. ring.
    - exfalso. apply NS. apply Atb_stationary. intros c Hc. now apply (dot_zero (dofs p)). }
  assert (X : exact_gn I).
  { intros i Hi. rewrite Em, En, EA, Eb in *. rewrite <- mv_AtA. apply Gn. exact Hi. }
  pose proof (C24_step_decreases_model batch k I step 1 Hk Hs ltac:(lra) X Tr G) as P. unfold predicted_change in P.
  rewrite Em, En, EA, Eb in P. change (tmv (dims p) (jac p x th) (fun i => - err p x th i)) with (Atb p x th) in P.
  pose proof (dot_nonneg (dims p) (mv (dofs p) (jac p x th) (fun i => 1 * step i))).
  rewrite (dot_ext (dofs p) (fun i => 1 * step i) step (Atb p x th) (Atb p x th)) in P by (intros; ring). lra.
Qed.

(** ** linear problems *)
(** variables are vectors, the error is A x + c *)
Definition linear_problem (n m : nat) (A : mat) (c : vec -> vec) : Problem vec :=
  mkProblem vec n m (fun x th i => rsum n (fun j => A i j * x j) + c th i) (fun _ _ i j => A i j) (fun x v j => x j + v j).
(** more generally: the error is affine along the retractions of [x], and its slope is the Jacobian *)
Definition affine_at {S} (p : Problem S) (x : S) (th : vec) : Prop :=
  forall v i, (i < dims p)%nat -> err p (retract p x v) th i = err p x th i + rsum (dofs p) (fun j => jac p x th i j * v j).
Lemma linear_affine n m A c x th : affine_at (linear_problem n m A c) x th.
Proof.
  intros v i _. cbn [err jac retract linear_problem dofs]. rewrite (rsum_ext n _ (fun j => A i j * x j + A i j * v j)) by (intros; ring). rewrite rsum_plus. ring.
Qed.
Section Aff.
Context {S : Type} (p : Problem S) (x : S) (th : vec) (Aff : affine_at p x th).
Notation n := (dofs p) (only parsing).
Notation m := (dims p) (only parsing).
Notation A := (jac p x th) (only parsing).
Lemma affine_metric v : error_metric p (retract p x v) th = error_metric p x th - dot n v (Atb p x th) + dot m (mv n A v) (mv n A v) / 2.
Proof.
  unfold error_metric.
  rewrite (rsum_ext m _ (fun i => err p x th i * err p x th i + 2 * (err p x th i * mv n A v i) + mv n A v i * mv n A v i)).
  2: { intros i Hi. rewrite (Aff v i Hi). unfold mv. ring. }
  rewrite !rsum_plus, rsum_scal. change (Atb p x th) with (tmv m A (fun i => - err p x th i)). rewrite dot_tmv. unfold dot.
  rewrite (rsum_ext m (fun i => mv n A v i * - err p x th i) (fun i => - (err p x th i * mv n A v i))) by (intros; ring). rewrite rsum_opp. field.
Qed.
(** the gap to the value at a solution d of the normal equations *)
Lemma affine_gap d v : solves n (AtA p x th) d (Atb p x th) ->
  error_metric p (retract p x v) th = error_metric p (retract p x d) th + dot m (mv n A (fun c => v c - d c)) (mv n A (fun c => v c - d c)) / 2.
Proof.
  intros H. rewrite !affine_metric.
  assert (E : forall u, dot n u (Atb p x th) = dot m (mv n A u) (mv n A d)).
  { intros u. rewrite <- dot_tmv. apply dot_ext; [reflexivity|]. intros c Hc. rewrite <- (H c Hc). apply mv_AtA. }
  rewrite !E.
  assert (M : forall r, mv n A (fun c => v c - d c) r = mv n A v r - mv n A d r) by (intros r; unfold mv; rewrite <- rsum_minus; apply rsum_ext; intros; ring).
  rewrite (dot_ext m (mv n A (fun c => v c - d c)) (fun r => mv n A v r - mv n A d r) _ (fun r => mv n A v r - mv n A d r)) by (intros; apply M).
  rewrite dot_sub_l, !dot_sub_r, (dot_comm m (mv n A d) (mv n A v)). field.
Qed.
End Aff.
(** One Gauss-Newton iteration with step size 1 reaches the minimum; with step size s it reduces the distance to it by (1 - s)^2. *)
Theorem C74_affine_one_step : forall (S : Type) (p : Problem S) solve x th d, sound solve -> affine_at p x th ->
  solve (dofs p) (AtA p x th) (Atb p x th) = Some d ->
  exists y, unroll_step p solve None 1 x th = Some y /\ best_along p x th y /\
  forall step_size, exists z, unroll_step p solve None step_size x th = Some z /\
    error_metric p z th - error_metric p y th = (1 - step_size) * (1 - step_size) * (error_metric p (retract p x (fun _ => 0)) th - error_metric p y th).
Proof.
  intros S p solve x th d So Aff E. pose proof (So _ _ _ _ E) as Sv. unfold unroll_step.
  change (damped_matrix None (AtA p x th)) with (AtA p x th). rewrite E. eexists. split; [reflexivity|].
  assert (S1 : solves (dofs p) (AtA p x th) (fun c => d c * 1) (Atb p x th)).
  { intros c Hc. rewrite <- (Sv c Hc). apply rsum_ext. intros. ring. }
  split.
  - intros v. rewrite (affine_gap p x th Aff _ v S1). pose proof (dot_nonneg (dims p) (mv (dofs p) (jac p x th) (fun c => v c - d c * 1))). lra.
  - intros s. eexists. split; [reflexivity|]. rewrite (affine_gap p x th Aff _ (fun c => d c * s) S1), (affine_gap p x th Aff _ (fun _ => 0) S1).
    set (q := mv (dofs p) (jac p x th) d).
    assert (M1 : forall r, mv (dofs p) (jac p x th) (fun c => d c * s - d c * 1) r = (s - 1) * q r) by (intros r; unfold q, mv; rewrite <- rsum_scal; apply rsum_ext; intros; ring).
    assert (M2 : forall r, mv (dofs p) (jac p x th) (fun c => 0 - d c * 1) r = - 1 * q r) by (intros r; unfold q, mv; rewrite <- rsum_scal; apply rsum_ext; intros; ring).
    rewrite (dot_ext _ _ (fun r => (s - 1) * q r) _ (fun r => (s - 1) * q r)) by (intros; apply M1).
    rewrite (dot_ext _ (mv (dofs p) (jac p x th) (fun c => 0 - d c * 1)) (fun r => -1 * q r) _ (fun r => - 1 * q r)) by (intros; apply M2).
    rewrite !dot_scal_l, !dot_scal_r. field.
Qed.
(** Levenberg-Marquardt and Gauss-Newton on an affine problem: every step size in (0, 2) decreases the objective unless the state is already
    a minimum. *)
Theorem C74_affine_decrease : forall (S : Type) (p : Problem S) solve damping step_size x th y, sound solve -> affine_at p x th -> damping_ok damping ->
  (forall v, (forall c, (c < dofs p)%nat -> v c = 0) -> retract p x v = x) ->
  0 < step_size < 2 -> unroll_step p solve damping step_size x th = Some y ->
  error_metric p y th < error_metric p x th \/ (stationary p x th /\ best_along p x th x).
Proof.
  intros S p solve damping s x th y So Aff Ok R0 Hs. unfold unroll_step.
  destruct (solve (dofs p) (damped_matrix damping (AtA p x th)) (Atb p x th)) as [d|] eqn:E; [|discriminate]. intros Ey. injection Ey as <-.
  pose proof (So _ _ _ _ E) as Sv. destruct (slope_zero p x th damping d Ok Sv) as [N Z]. destruct (Rle_lt_or_eq_dec _ _ N) as [P|P].
  - left. rewrite (affine_metric p x th Aff). rewrite (dot_ext (dofs p) (fun c => d c * s) (fun c => s * d c) (Atb p x th) (Atb p x th)) by (intros; ring).
    rewrite dot_scal_l. rewrite (dot_ext (dims p) _ (fun r => s * mv (dofs p) (jac p x th) d r) _ (fun r => s * mv (dofs p) (jac p x th) d r)).
    2,3: intros r _; rewrite <- mv_scal; unfold mv; apply rsum_ext; intros; ring.
    rewrite dot_scal_l, dot_scal_r. pose proof (step_slope p x th damping d Sv) as Sl.
    assert (N2 : 0 <= rsum (dofs p) (fun c => damp_diag p x th damping c * (d c * d c))) by (apply rsum_nonneg; intros; apply Rmult_le_pos; [now apply damp_diag_nonneg|apply Rle_0_sqr]).
    pose proof (dot_nonneg (dims p) (mv (dofs p) (jac p x th) d)) as N3. set (a := dot (dofs p) d (Atb p x th)) in *. set (b := dot (dims p) (mv (dofs p) (jac p x th) d) (mv (dofs p) (jac p x th) d)) in *.
    assert (b <= a) by lra. assert (s * (s * b) <= s * (s * a)) by (apply Rmult_le_compat_l; [lra|apply Rmult_le_compat_l; lra]).
    assert (0 < a * s * (2 - s)) by (repeat apply Rmult_lt_0_compat; lra). lra.
  - right. assert (St : stationary p x th) by (apply Z; now symmetry). split; [exact St|]. intros v. rewrite (affine_metric p x th Aff).
    pose proof (proj1 (Atb_stationary p x th) St) as Z0. assert (dot (dofs p) v (Atb p x th) = 0) as -> by (apply rsum_0; intros c Hc; rewrite (Z0 c Hc); ring).
    pose proof (dot_nonneg (dims p) (mv (dofs p) (jac p x th) v)). lra.
Qed.
(** Any number of iterations of Gauss-Newton with a fixed step size on a linear problem: the distance to the minimum shrinks geometrically. *)
Theorem C74_linear_iterations : forall n m A c solve step_size k x0 th xk xs, sound solve ->
  let p := linear_problem n m A c in
  truncated p solve k None step_size x0 th = Some xk -> stationary p xs th ->
  error_metric p xk th - error_metric p xs th = ((1 - step_size) * (1 - step_size)) ^ k * (error_metric p x0 th - error_metric p xs th).
Proof.
  intros n m A c solve s k x0 th xk xs So p. revert xk. induction k as [|k IH]; intros xk; cbn [truncated pow]; intros H St.
  - injection H as <-. ring.
  - destruct (truncated p solve k None s x0 th) as [y|]; [|discriminate]. specialize (IH y eq_refl St).
    rewrite Rmult_assoc, <- IH. clear IH. unfold unroll_step in H.
    destruct (solve (dofs p) (damped_matrix None (AtA p y th)) (Atb p y th)) as [d|] eqn:E; [|discriminate].
    assert (Exk : xk = retract p y (fun c0 => d c0 * s)) by (now injection H).
    pose proof (So _ _ _ _ E) as Sv. change (damped_matrix None (AtA p y th)) with (AtA p y th) in Sv.
    assert (Aff : affine_at p y th) by apply linear_affine.
    (* xs = y + (xs - y), and xs - y solves the normal equations at y *)
    set (u := fun j => xs j - y j).
    assert (Eu : forall i, err p xs th i = err p (retract p y u) th i).
    { intros i. cbn [p linear_problem err retract]. f_equal. apply rsum_ext. intros j _. unfold u. ring. }
    assert (Su : solves n (AtA p y th) u (Atb p y th)).
    { intros b Hb. pose proof (proj1 (Atb_stationary p xs th) St b Hb) as Z. rewrite (mv_AtA p y th).
      assert (Z' : Atb p xs th b = Atb p y th b - tmv m A (mv n A u) b).
      { unfold Atb, tmv. cbn [p linear_problem dims jac]. rewrite <- rsum_minus. apply rsum_ext. intros i Hi. rewrite (Eu i), (Aff u i Hi). unfold mv. cbn [p linear_problem dofs jac]. ring. }
      change (tmv m A (mv n A u) b = Atb p y th b). lra. }
    assert (Es : error_metric p xs th = error_metric p (retract p y u) th) by (unfold error_metric; f_equal; apply rsum_ext; intros; now rewrite Eu).
    assert (Ey : error_metric p y th = error_metric p (retract p y (fun _ => 0)) th).
    { unfold error_metric. f_equal. apply rsum_ext. intros i Hi. rewrite (Aff (fun _ => 0) i Hi). rewrite (rsum_0 (dofs p)) by (intros; ring). ring. }
    (* A d = A u *)
    assert (Ad : forall r, (r < m)%nat -> mv n A d r = mv n A u r).
    { set (w := fun j => d j - u j).
      assert (T : forall b, (b < n)%nat -> tmv m A (mv n A w) b = 0).
      { intros b Hb. pose proof (Sv b Hb) as H1. pose proof (Su b Hb) as H2. rewrite (mv_AtA p y th) in H1, H2. change (tmv m A (mv n A d) b = Atb p y th b) in H1. change (tmv m A (mv n A u) b = Atb p y th b) in H2.
        assert (L : tmv m A (mv n A w) b = tmv m A (mv n A d) b - tmv m A (mv n A u) b).
        { unfold tmv. rewrite <- rsum_minus. apply rsum_ext. intros i _. unfold mv, w. rewrite <- Rmult_minus_distr_l, <- rsum_minus. f_equal. apply rsum_ext. intros. ring. }
        rewrite L. lra. }
      assert (Z : dot m (mv n A w) (mv n A w) = 0) by (rewrite <- dot_tmv; apply rsum_0; intros b Hb; rewrite (T b Hb); ring).
      intros r Hr. pose proof (dot_zero m _ Z r Hr) as Zr. unfold mv in *. enough (rsum n (fun c0 => A r c0 * d c0) - rsum n (fun c0 => A r c0 * u c0) = 0) by lra.
      rewrite <- rsum_minus, <- Zr. apply rsum_ext. intros. unfold w. ring. }
    rewrite Exk, Es, Ey, (affine_gap p y th Aff u (fun c0 => d c0 * s) Su), (affine_gap p y th Aff u (fun _ => 0) Su). change (dims p) with m. change (dofs p) with n. change (jac p y th) with A.
    assert (M1 : forall r, (r < m)%nat -> mv n A (fun c0 => d c0 * s - u c0) r = (s - 1) * mv n A u r).
    { intros r Hr. transitivity (s * mv n A d r - mv n A u r).
      - unfold mv. rewrite <- rsum_scal, <- rsum_minus. apply rsum_ext. intros. ring.
      - rewrite (Ad r Hr). ring. }
    assert (M2 : forall r, mv n A (fun c0 => 0 - u c0) r = - 1 * mv n A u r) by (intros r; unfold mv; rewrite <- rsum_scal; apply rsum_ext; intros; ring).
    rewrite (dot_ext m _ (fun r => (s - 1) * mv n A u r) _ (fun r => (s - 1) * mv n A u r)) by (intros; now apply M1).
    rewrite (dot_ext m (mv n A (fun c0 => 0 - u c0)) (fun r => -1 * mv n A u r) _ (fun r => - 1 * mv n A u r)) by (intros; apply M2).
    rewrite !dot_scal_l, !dot_scal_r. field.
Qed.
(** LinearOptimizer: on success every element is at its minimum (affine errors), flagged CONVERGED, and reported; if one solve fails, no variable
    is touched, and every element is flagged FAIL or (with gradients) a RuntimeError is raised. *)
Theorem C74_linear_optimizer : forall (S : Type) (p : Problem S) solve grad_enabled batch, sound solve ->
  (forall e, In e batch -> affine_at p (fst e) (snd e)) ->
  match linear_optimize p solve grad_enabled batch with
  | Some r => length (final r) = length batch /\ length (status r) = length batch /\
      ((forall e, In e batch -> solve (dofs p) (AtA p (fst e) (snd e)) (Atb p (fst e) (snd e)) <> None) /\
       (forall k x th y, nth_error batch k = Some (x, th) -> nth_error (final r) k = Some y -> best_along p x th y) /\
       Forall (fun s => s = CONVERGED) (status r) /\ best_solution r = Some (final r)
       \/ grad_enabled = false /\ (exists e, In e batch /\ solve (dofs p) (AtA p (fst e) (snd e)) (Atb p (fst e) (snd e)) = None) /\
          final r = map fst batch /\ Forall (fun s => s = FAIL) (status r) /\ best_solution r = None)
  | None => grad_enabled = true /\ exists e, In e batch /\ solve (dofs p) (AtA p (fst e) (snd e)) (Atb p (fst e) (snd e)) = None
  end.
Proof.
  intros S p solve ge batch So Aff. unfold linear_optimize, solve_batch.
  assert (K : forall b, match all_or_none (map (fun e => solve (dofs p) (AtA p (fst e) (snd e)) (Atb p (fst e) (snd e))) b) with
     | Some ds => length ds = length b /\ forall k e, nth_error b k = Some e -> exists d, nth_error ds k = Some d /\ solve (dofs p) (AtA p (fst e) (snd e)) (Atb p (fst e) (snd e)) = Some d
     | None => exists e, In e b /\ solve (dofs p) (AtA p (fst e) (snd e)) (Atb p (fst e) (snd e)) = None end).
  { induction b as [|e b IH]; cbn [map all_or_none]; [split; [reflexivity|intros [|k] e H; discriminate]|].
    destruct (solve (dofs p) (AtA p (fst e) (snd e)) (Atb p (fst e) (snd e))) as [d|] eqn:E; [|exists e; split; [now left|exact E]].
    destruct (all_or_none _) as [ds|].
    - destruct IH as [L IH]. split; [cbn [length]; now rewrite L|]. intros [|k] e' H; cbn [nth_error] in *; [injection H as <-; eexists; split; [reflexivity|exact E]|now apply IH].
    - destruct IH as (e' & Hi & He). exists e'. split; [now right|exact He]. }
  specialize (K batch). destruct (all_or_none _) as [ds|].
  - destruct K as [L K]. cbn [final status best_solution]. rewrite !map_length, combine_length, L, Nat.min_id. split; [reflexivity|]. split; [reflexivity|]. left.
    split; [|split; [|split; [|reflexivity]]].
    + intros e He N. apply In_nth_error in He. destruct He as (k & Hk). destruct (K k e Hk) as (d & _ & E). rewrite E in N. discriminate.
    + intros k x th y Hk Hy. destruct (K k _ Hk) as (d & Hd & E). cbn [fst snd] in E.
      assert (C : nth_error (combine batch ds) k = Some ((x, th), d)).
      { clear - Hk Hd. revert ds k Hk Hd. induction batch as [|e b IH]; intros [|d' ds] [|k] Hk Hd; cbn [nth_error combine] in *; try discriminate; [congruence|now apply IH]. }
      rewrite (map_nth_error _ _ _ C) in Hy. injection Hy as <-. cbn [fst snd].
      assert (Af : affine_at p x th) by (apply (Aff (x, th)); now apply nth_error_In in Hk).
      intros v. rewrite (affine_gap p x th Af d v (So _ _ _ _ E)). pose proof (dot_nonneg (dims p) (mv (dofs p) (jac p x th) (fun c => v c - d c))). lra.
    + apply Forall_forall. intros s Hs. apply in_map_iff in Hs. now destruct Hs as (? & <- & _).
  - destruct ge; [split; [reflexivity|exact K]|]. cbn [final status best_solution]. rewrite !map_length. split; [reflexivity|]. split; [reflexivity|]. right.
    split; [reflexivity|]. split; [exact K|]. split; [reflexivity|]. split; [|reflexivity]. apply Forall_forall. intros s Hs. apply in_map_iff in Hs. now destruct Hs as (? & <- & _).
Qed.
