(** C24: dogleg steps and the trust region. *)
From Coq Require Import List Arith Bool Reals Lra Lia Psatz.
Import ListNotations.
From Verif Require Import RSum Dog_model.
Local Open Scope R_scope.

Lemma EPS_pos : 0 < EPS.
Proof. unfold EPS. lra. Qed.

Lemma sq_le x s : - s <= x -> x <= s -> x ^ 2 <= s * s.
Proof. intros H1 H2. assert (0 <= (s - x) * (s + x)) by (apply Rmult_le_pos; lra). lra. Qed.

Section One.
Variable I : elt_in.
Let n := d_n I.
Notation a := (q_a I).
Notation b := (q_b I).
Notation c := (q_c I).

Lemma cauchy_nonneg : 0 <= cauchy_step_size I.
Proof.
  unfold cauchy_step_size. pose proof EPS_pos. pose proof (dot_nonneg (d_n I) (d_sd I)). pose proof (dot_nonneg (d_m I) (d_Asd I)).
  apply Rmult_le_pos; [assumption|]. left. apply Rinv_0_lt_compat. unfold sqn. lra.
Qed.
Lemma d_c_norm : sqn n (d_c I) = d_c_norm2 I.
Proof.
  unfold d_c_norm2, sqn, d_c, dot. fold n. rewrite (rsum_ext n _ (fun i => cauchy_step_size I ^ 2 * (d_sd I i * d_sd I i))) by (intros; ring).
  rewrite rsum_scal. ring.
Qed.
Lemma path_norm t : sqn n (fun i => d_c I i + t * d_diff I i) = d_tr I ^ 2 + (a * t ^ 2 + b * t + c).
Proof.
  unfold q_a, q_b, q_c, sqn. fold n. rewrite <- d_c_norm. unfold sqn, dot. fold n.
  assert (E : rsum n (fun i => (d_c I i + t * d_diff I i) * (d_c I i + t * d_diff I i)) =
              rsum n (fun i => d_c I i * d_c I i) + t * rsum n (fun i => 2 * d_c I i * d_diff I i) + t ^ 2 * rsum n (fun i => d_diff I i * d_diff I i)).
  { rewrite <- !rsum_scal, <- !rsum_plus. apply rsum_ext. intros. ring. }
  rewrite E. ring.
Qed.
Lemma a_nonneg : 0 <= a.
Proof. apply dot_nonneg. Qed.
Lemma within_c : c_within I = true -> c <= 0.
Proof. unfold c_within, Rleb, q_c. destruct (Rle_dec _ _); [lra|discriminate]. Qed.

Lemma sqrt_disc_ge_b : c <= 0 -> Rabs b <= sqrt (disc I).
Proof.
  intros Hc. rewrite <- sqrt_Rsqr_abs. apply sqrt_le_1_alt. unfold disc, Rsqr. pose proof a_nonneg.
  apply Rle_trans with (b ^ 2 - 4 * a * c); [nra|apply Rmax_l].
Qed.
Lemma tau_range : c <= 0 -> 0 <= tau I <= 1.
Proof.
  intros Hc. pose proof (sqrt_disc_ge_b Hc). pose proof (Rle_abs b). pose proof a_nonneg. pose proof EPS_pos.
  unfold tau. split; [|apply Rmin_r]. apply Rmin_glb; [|lra].
  apply Rmult_le_pos; [lra|]. left. apply Rinv_0_lt_compat. lra.
Qed.
(** [2 a tau + b] is at most the square root *)
Lemma tau_root : c <= 0 -> 2 * a * tau I + b <= sqrt (disc I).
Proof.
  intros Hc. destruct (tau_range Hc) as [T0 T1]. pose proof a_nonneg. pose proof EPS_pos.
  assert (H1 : tau I * (2 * a + EPS) <= - b + sqrt (disc I)).
  { apply Rle_trans with ((- b + sqrt (disc I)) / (2 * a + EPS) * (2 * a + EPS)).
    - apply Rmult_le_compat_r; [lra|]. apply Rmin_l.
    - right. field. lra. }
  nra.
Qed.

(** the truncated Cauchy step *)
Lemma trunc_norm : 0 <= d_tr I -> sqn n (d_trunc I) <= d_tr I ^ 2.
Proof.
  intros Ht. unfold d_trunc. set (k := d_tr I / sqrt (d_c_norm2 I + EPS)).
  assert (E : sqn n (fun i => d_c I i * d_tr I / sqrt (d_c_norm2 I + EPS)) = k ^ 2 * d_c_norm2 I).
  { unfold k. generalize (sqrt (d_c_norm2 I + EPS)). intros q. rewrite <- d_c_norm. unfold sqn, dot. rewrite <- rsum_scal. apply rsum_ext. intros. unfold Rdiv. ring. }
  rewrite E. pose proof EPS_pos. assert (Hn : 0 <= d_c_norm2 I) by (rewrite <- d_c_norm; apply dot_nonneg).
  assert (Hs : 0 < sqrt (d_c_norm2 I + EPS)) by (apply sqrt_lt_R0; lra).
  assert (Hk : k ^ 2 * (d_c_norm2 I + EPS) = d_tr I ^ 2).
  { unfold k. assert (S : sqrt (d_c_norm2 I + EPS) * sqrt (d_c_norm2 I + EPS) = d_c_norm2 I + EPS) by (apply sqrt_sqrt; lra).
    revert S Hs. generalize (sqrt (d_c_norm2 I + EPS)). intros q S Hs. rewrite <- S. field. lra. }
  nra.
Qed.

(** the step along the second leg, when the clamp of the discriminant does not bind *)
Lemma leg_norm : c_within I = true -> EPS <= b ^ 2 - 4 * a * c -> sqn n (fun i => d_c I i + tau I * d_diff I i) <= d_tr I ^ 2.
Proof.
  intros Hw He. pose proof (within_c Hw) as Hc. rewrite path_norm.
  destruct (tau_range Hc) as [T0 T1]. pose proof (tau_root Hc) as HR. pose proof (sqrt_disc_ge_b Hc) as HB.
  pose proof a_nonneg as Ha. pose proof (Rle_abs b). pose proof (Rle_abs (- b)) as Hb2. rewrite Rabs_Ropp in Hb2.
  assert (Hd : disc I = b ^ 2 - 4 * a * c) by (unfold disc; apply Rmax_left; lra).
  assert (Hs : sqrt (disc I) * sqrt (disc I) = b ^ 2 - 4 * a * c).
  { rewrite sqrt_sqrt; [exact Hd|]. rewrite Hd. pose proof EPS_pos. lra. }
  destruct (Req_dec a 0) as [E|E].
  - rewrite E in *. assert (Hb0 : b = 0).
    { assert (Z : forall i, (i < n)%nat -> d_diff I i = 0) by (apply dot_zero; exact E).
      unfold q_b. apply rsum_0. intros i Hi. rewrite (Z i Hi). ring. }
    rewrite Hb0. lra.
  - assert (0 < a) by lra.
    assert (H4 : 4 * a * (a * tau I ^ 2 + b * tau I + c) = (2 * a * tau I + b) ^ 2 - sqrt (disc I) * sqrt (disc I)) by (rewrite Hs; ring).
    assert (H5 : (2 * a * tau I + b) ^ 2 <= sqrt (disc I) * sqrt (disc I)).
    { apply sq_le; [|exact HR]. assert (0 <= a * tau I) by (apply Rmult_le_pos; lra). lra. }
    assert (a * tau I ^ 2 + b * tau I + c <= 0); [|lra].
    apply Rmult_le_reg_l with (4 * a); lra.
Qed.

(** and in general: the excess of the squared norm is at most 1.5 sqrt(EPS) *)
Lemma leg_norm_excess : c_within I = true ->
  sqn n (fun i => d_c I i + tau I * d_diff I i) <= d_tr I ^ 2 + 3 / 2 * sqrt EPS.
Proof.
  intros Hw. pose proof (within_c Hw) as Hc.
  assert (Hse : 0 < sqrt EPS) by (apply sqrt_lt_R0, EPS_pos).
  destruct (Rle_dec EPS (b ^ 2 - 4 * a * c)) as [He|He].
  { pose proof (leg_norm Hw He). lra. }
  rewrite path_norm. destruct (tau_range Hc) as [T0 T1]. pose proof (tau_root Hc) as HR. pose proof (sqrt_disc_ge_b Hc) as HB.
  pose proof a_nonneg as Ha. pose proof (Rle_abs b). pose proof (Rle_abs (- b)) as Hb2. rewrite Rabs_Ropp in Hb2.
  assert (Hd : disc I = EPS) by (unfold disc; apply Rmax_right; lra). rewrite Hd in *.
  pose proof (sqrt_sqrt EPS (Rlt_le _ _ EPS_pos)) as Hs.
  set (e := sqrt EPS) in *.
  destruct (Rle_dec (e / 2) a) as [Hbig|Hsmall].
  - assert (H4 : 4 * a * (a * tau I ^ 2 + b * tau I + c) = (2 * a * tau I + b) ^ 2 - (b ^ 2 - 4 * a * c)) by ring.
    assert (H5 : (2 * a * tau I + b) ^ 2 <= e * e).
    { apply sq_le; [|exact HR]. assert (0 <= a * tau I) by (apply Rmult_le_pos; lra). lra. }
    assert (H6 : 4 * a * (a * tau I ^ 2 + b * tau I + c) <= e * e) by nra.
    assert (a * tau I ^ 2 + b * tau I + c <= 3 / 2 * e); [|lra].
    apply Rmult_le_reg_l with (4 * a); [lra|]. nra.
  - assert (Ht2 : tau I ^ 2 <= 1) by (pose proof (sq_le (tau I) 1); lra).
    assert (0 <= tau I ^ 2) by (apply pow2_ge_0).
    assert (a * tau I ^ 2 <= e / 2). { apply Rle_trans with (a * 1); [|lra]. apply Rmult_le_compat_l; lra. }
    assert (Hbe : b <= e) by lra.
    assert (b * tau I <= e). { apply Rle_trans with (e * tau I); [apply Rmult_le_compat_r; lra|]. apply Rle_trans with (e * 1); [apply Rmult_le_compat_l; lra|lra]. }
    lra.
Qed.
End One.

(** C24. A batch of elements with non-negative radii. Every step has norm at most the radius, provided
    that for elements whose Cauchy step is inside the region the discriminant is at least EPS. *)
Definition well_separated (I : elt_in) : Prop := c_within I = true -> EPS <= q_b I ^ 2 - 4 * q_a I * q_c I.

Theorem C24_step_in_region_partial : forall batch, (forall I, In I batch -> 0 <= d_tr I) ->
  forall k I, nth_error batch k = Some I -> well_separated I ->
  exists step, nth_error (dogleg batch) k = Some step /\ dot (d_n I) step step <= d_tr I * d_tr I.
Proof.
  intros batch Htr k I Hk Hw. unfold dogleg.
  assert (HI : In I batch) by (eapply nth_error_In; eauto). specialize (Htr I HI).
  destruct (forallb gn_inside batch) eqn:E.
  - exists (d_gn I). split; [now apply map_nth_error|].
    rewrite forallb_forall in E. specialize (E I HI). unfold gn_inside, Rltb, sqn in E. destruct (Rlt_dec _ _); [lra|discriminate].
  - exists (d_dogleg I). split; [now apply map_nth_error|].
    unfold d_dogleg. destruct (c_within I) eqn:Ec.
    + pose proof (leg_norm I Ec (Hw Ec)) as H. cbv zeta in H. unfold sqn in H. lra.
    + pose proof (trunc_norm I Htr) as H. cbv zeta in H. unfold sqn in H. change (fun i => d_trunc I i) with (d_trunc I). lra.
Qed.

(** Without that condition the squared norm exceeds the squared radius by at most 1.5 sqrt(1e-7),
    less than 0.0005. *)
Theorem C24_bounded_excess : forall batch, (forall I, In I batch -> 0 <= d_tr I) ->
  forall k I, nth_error batch k = Some I ->
  exists step, nth_error (dogleg batch) k = Some step /\ dot (d_n I) step step <= d_tr I * d_tr I + 1 / 2000.
Proof.
  intros batch Htr k I Hk. unfold dogleg.
  assert (HI : In I batch) by (eapply nth_error_In; eauto). specialize (Htr I HI).
  assert (Hs : 3 / 2 * sqrt EPS <= 1 / 2000).
  { assert (sqrt EPS <= 1 / 3000); [|lra]. rewrite <- (sqrt_pow2 (1 / 3000)) by lra. apply sqrt_le_1_alt. unfold EPS. lra. }
  destruct (forallb gn_inside batch) eqn:E.
  - exists (d_gn I). split; [now apply map_nth_error|].
    rewrite forallb_forall in E. specialize (E I HI). unfold gn_inside, Rltb, sqn in E. destruct (Rlt_dec _ _); [lra|discriminate].
  - exists (d_dogleg I). split; [now apply map_nth_error|].
    unfold d_dogleg. destruct (c_within I) eqn:Ec.
    + pose proof (leg_norm_excess I Ec) as H. cbv zeta in H. unfold sqn in H. lra.
    + pose proof (trunc_norm I Htr) as H. cbv zeta in H. unfold sqn in H. change (fun i => d_trunc I i) with (d_trunc I). lra.
Qed.

(** When every Gauss-Newton step of the batch is strictly inside, the steps are the Gauss-Newton
    steps. *)
Theorem C24_gauss_newton_inside : forall batch,
  (forall I, In I batch -> dot (d_n I) (d_gn I) (d_gn I) < d_tr I * d_tr I) -> dogleg batch = map d_gn batch.
Proof.
  intros batch H. unfold dogleg.
  assert (E : forallb gn_inside batch = true).
  { apply forallb_forall. intros I HI. specialize (H I HI). unfold gn_inside, Rltb, sqn. destruct (Rlt_dec _ _); [reflexivity|lra]. }
  now rewrite E.
Qed.

(** ---- the dogleg step decreases the quadratic model ---- *)
(** error predicted by the linearization at step [v] minus the current error *)
Definition predicted_change (I : elt_in) (v : nat -> R) : R :=
  - dot (d_n I) v (tmv (d_m I) (d_A I) (d_b I)) + 1 / 2 * dot (d_m I) (mv (d_n I) (d_A I) v) (mv (d_n I) (d_A I) v).

(** [d_gn] solves the normal equations A^T A d = A^T b *)
Definition exact_gn (I : elt_in) : Prop := forall i, (i < d_n I)%nat ->
  tmv (d_m I) (d_A I) (mv (d_n I) (d_A I) (d_gn I)) i = tmv (d_m I) (d_A I) (d_b I) i.

Section Dec.
Variable I : elt_in.
Hypothesis Hgn : exact_gn I.
Let n := d_n I.
Let m := d_m I.
Let g := tmv m (d_A I) (d_b I).
Let f v := - predicted_change I v.

Lemma f_comb u v t : 0 <= t <= 1 -> (1 - t) * f u + t * f v <= f (fun i => u i + t * (v i - u i)).
Proof.
  intros Ht. unfold f, predicted_change. fold n m g.
  set (Au := mv n (d_A I) u). set (Av := mv n (d_A I) v).
  assert (E : forall r, mv n (d_A I) (fun i => u i + t * (v i - u i)) r = (1 - t) * Au r + t * Av r).
  { intros r. unfold Au, Av, mv. rewrite <- !rsum_scal, <- rsum_plus. apply rsum_ext. intros. ring. }
  assert (E2 : dot n (fun i => u i + t * (v i - u i)) g = (1 - t) * dot n u g + t * dot n v g).
  { unfold dot. rewrite <- !rsum_scal, <- rsum_plus. apply rsum_ext. intros. ring. }
  assert (E3 : dot m (mv n (d_A I) (fun i => u i + t * (v i - u i))) (mv n (d_A I) (fun i => u i + t * (v i - u i))) =
     (1 - t) * dot m Au Au + t * dot m Av Av - t * (1 - t) * dot m (fun r => Au r - Av r) (fun r => Au r - Av r)).
  { unfold dot. rewrite <- !rsum_scal, <- rsum_plus, <- rsum_minus. apply rsum_ext. intros r _. rewrite E. ring. }
  rewrite E2, E3. pose proof (dot_nonneg m (fun r => Au r - Av r)).
  assert (0 <= t * (1 - t)) by (apply Rmult_le_pos; lra).
  assert (0 <= t * (1 - t) * dot m (fun r => Au r - Av r) (fun r => Au r - Av r)) by (apply Rmult_le_pos; assumption). lra.
Qed.
Lemma f_zero u : (forall i, u i = 0) -> f u = 0.
Proof.
  intros H. unfold f, predicted_change. fold n m g.
  assert (E1 : dot n u g = 0) by (apply rsum_0; intros; rewrite H; ring).
  assert (E2 : forall r, mv n (d_A I) u r = 0) by (intros; apply rsum_0; intros; rewrite H; ring).
  assert (E3 : dot m (mv n (d_A I) u) (mv n (d_A I) u) = 0) by (apply rsum_0; intros; rewrite E2; ring).
  rewrite E1, E3. lra.
Qed.
Lemma f_gn : f (d_gn I) = 1 / 2 * dot m (mv n (d_A I) (d_gn I)) (mv n (d_A I) (d_gn I)).
Proof.
  unfold f, predicted_change. fold n m g.
  assert (E : dot n (d_gn I) g = dot m (mv n (d_A I) (d_gn I)) (mv n (d_A I) (d_gn I))).
  { rewrite <- dot_tmv. apply dot_ext; [reflexivity|]. intros i Hi. symmetry. now apply Hgn. }
  rewrite E. lra.
Qed.
Hypothesis Hg : exists i, (i < n)%nat /\ g i <> 0.
Lemma gg_pos : 0 < dot n g g.
Proof.
  destruct (Rle_lt_or_eq_dec _ _ (dot_nonneg n g)) as [H|H]; [exact H|exfalso].
  destruct Hg as (i & Hi & Hne). apply Hne. now apply (dot_zero n g).
Qed.
Lemma f_gn_pos : 0 < f (d_gn I).
Proof.
  rewrite f_gn. destruct (Rle_lt_or_eq_dec _ _ (dot_nonneg m (mv n (d_A I) (d_gn I)))) as [H|H]; [lra|exfalso].
  destruct Hg as (i & Hi & Hne). apply Hne. unfold g, m. rewrite <- (Hgn i Hi). apply rsum_0. intros r Hr.
  fold n. rewrite (dot_zero m (mv n (d_A I) (d_gn I)) (eq_sym H) r Hr). ring.
Qed.
Lemma f_c_pos : 0 < f (d_c I).
Proof.
  unfold f, predicted_change. fold n m g. set (s := cauchy_step_size I).
  assert (Eg : d_sd I = g) by reflexivity.
  assert (E1 : dot n (d_c I) g = s * dot n g g).
  { unfold d_c, dot. rewrite Eg, <- rsum_scal. apply rsum_ext. intros. unfold s. ring. }
  assert (E2 : dot m (mv n (d_A I) (d_c I)) (mv n (d_A I) (d_c I)) = s ^ 2 * dot m (d_Asd I) (d_Asd I)).
  { unfold dot. rewrite <- rsum_scal. apply rsum_ext. intros r _.
    assert (E : mv n (d_A I) (d_c I) r = s * d_Asd I r).
    { unfold d_Asd, mv. fold n. rewrite <- rsum_scal. apply rsum_ext. intros. unfold d_c. fold s. ring. }
    rewrite E. ring. }
  rewrite E1, E2. pose proof gg_pos as Hp. pose proof EPS_pos. pose proof (dot_nonneg m (d_Asd I)) as HA.
  assert (Hs : s * (dot m (d_Asd I) (d_Asd I) + EPS) = dot n g g).
  { unfold s, cauchy_step_size, sqn. fold n m. rewrite Eg. field. lra. }
  assert (Hs0 : 0 < s). { apply Rmult_lt_reg_r with (dot m (d_Asd I) (d_Asd I) + EPS); lra. }
  assert (s ^ 2 * dot m (d_Asd I) (d_Asd I) <= s * dot n g g) by nra.
  assert (0 < s * dot n g g) by nra. lra.
Qed.

Lemma f_dogleg_pos : 0 < d_tr I -> 0 < f (d_dogleg I).
Proof.
  intros Ht. unfold d_dogleg. destruct (c_within I) eqn:Ew.
  - pose proof (within_c I Ew) as Hc. pose proof (tau_range I Hc) as T.
    pose proof (f_comb (d_c I) (d_gn I) (tau I) T) as H.
    change (f (fun i => d_c I i + tau I * (d_gn I i - d_c I i))) with (f (fun i => d_c I i + tau I * d_diff I i)) in H.
    pose proof f_gn_pos. pose proof f_c_pos. destruct T as [T0 T1].
    destruct (Rle_lt_or_eq_dec _ _ T0) as [K|K]; [nra|]. rewrite <- K in *. lra.
  - set (k := d_tr I / sqrt (d_c_norm2 I + EPS)).
    assert (Hn : 0 <= d_c_norm2 I) by (rewrite <- d_c_norm; apply dot_nonneg). pose proof EPS_pos.
    assert (Hs : 0 < sqrt (d_c_norm2 I + EPS)) by (apply sqrt_lt_R0; lra).
    assert (Hk0 : 0 < k) by (unfold k; apply Rdiv_lt_0_compat; assumption).
    assert (Hk1 : k <= 1).
    { unfold k. apply Rmult_le_reg_r with (sqrt (d_c_norm2 I + EPS)); [exact Hs|]. unfold Rdiv. rewrite Rmult_assoc, Rinv_l by lra.
      rewrite Rmult_1_r, Rmult_1_l. rewrite <- (sqrt_pow2 (d_tr I)) by lra. apply sqrt_le_1_alt.
      unfold c_within, Rleb in Ew. destruct (Rle_dec _ _) as [?|N]; [discriminate|]. lra. }
    pose proof (f_comb (fun _ => 0) (d_c I) k (conj (Rlt_le _ _ Hk0) Hk1)) as H1.
    rewrite (f_zero (fun _ => 0)) in H1 by reflexivity.
    assert (E : f (fun i => 0 + k * (d_c I i - 0)) = f (d_trunc I)).
    { unfold f, predicted_change. fold n m g.
      assert (G : forall i, 0 + k * (d_c I i - 0) = d_trunc I i) by (intros; unfold d_trunc, k, Rdiv; ring).
      assert (E1 : dot n (fun i => 0 + k * (d_c I i - 0)) g = dot n (d_trunc I) g) by (apply dot_ext; auto).
      assert (E2 : forall r, mv n (d_A I) (fun i => 0 + k * (d_c I i - 0)) r = mv n (d_A I) (d_trunc I) r).
      { intros r. apply rsum_ext. intros. now rewrite G. }
      rewrite E1. f_equal. f_equal. f_equal. apply dot_ext; auto. }
    rewrite E in H1. pose proof f_c_pos. change (fun i => d_trunc I i) with (d_trunc I). assert (0 < k * f (d_c I)) by (apply Rmult_lt_0_compat; assumption). lra.
Qed.
End Dec.

(** With an exact Gauss-Newton step, a positive radius and a non-zero gradient every dogleg step,
    also when scaled by a step size in (0, 1], is predicted to decrease the error: the denominator of
    the gain ratio is positive, as C22 for trust regions requires. *)
Theorem C24_step_decreases_model : forall batch k I step s,
  nth_error batch k = Some I -> nth_error (dogleg batch) k = Some step -> 0 < s <= 1 ->
  exact_gn I -> 0 < d_tr I -> (exists i, (i < d_n I)%nat /\ tmv (d_m I) (d_A I) (d_b I) i <> 0) ->
  predicted_change I (fun i => s * step i) < 0.
Proof.
  intros batch k I step s Hk Hstep Hs Hgn Ht Hg.
  assert (H : 0 < - predicted_change I step).
  { unfold dogleg in Hstep. destruct (forallb gn_inside batch).
    - rewrite (map_nth_error _ _ _ Hk) in Hstep. injection Hstep as <-. now apply f_gn_pos.
    - rewrite (map_nth_error _ _ _ Hk) in Hstep. injection Hstep as <-. now apply f_dogleg_pos. }
  destruct Hs as [Hs0 Hs1].
  pose proof (f_comb I (fun _ => 0) step s (conj (Rlt_le _ _ Hs0) Hs1)) as H1. cbv beta zeta in H1.
  rewrite (f_zero I (fun _ => 0)) in H1 by reflexivity.
  assert (E : predicted_change I (fun i => 0 + s * (step i - 0)) = predicted_change I (fun i => s * step i)).
  { unfold predicted_change. f_equal.
    - f_equal. apply dot_ext; [|reflexivity]. intros. ring.
    - f_equal. apply dot_ext; intros r _; apply rsum_ext; intros; ring. }
  rewrite E in H1. nra.
Qed.

(** ---- refutations ---- *)
(** one row, one column: A = [1], b = [v], Gauss-Newton step v *)
Definition one_dim (v tr : R) : elt_in := mkIn 1 1 (fun _ _ => 1) (fun _ => v) (fun _ => v) tr.

(** The clamp of the discriminant lets steps leave the region: radius 1/2800 (above the default
    minimum of 1e-5), step 1/2000, 1.4 times the radius. *)
Theorem C24_step_in_region_refuted : exists I step,
  exact_gn I /\ 1 / 100000 <= d_tr I /\ dogleg [I] = [step] /\
  dot (d_n I) step step = (14 / 10 * d_tr I) ^ 2.
Proof.
  set (I := one_dim (1 / 2000) (1 / 2800)). exists I, (d_dogleg I).
  assert (Ecs : cauchy_step_size I = 5 / 7).
  { unfold cauchy_step_size, sqn, d_Asd, d_sd, dot, mv, tmv, I, one_dim, EPS. cbn. field. }
  assert (Ec : forall i, d_c I i = 1 / 2800).
  { intros i. unfold d_c. rewrite Ecs. unfold d_sd, tmv, I, one_dim. cbn. field. }
  assert (En : d_c_norm2 I = (1 / 2800) ^ 2).
  { unfold d_c_norm2. rewrite Ecs. unfold sqn, dot, d_sd, tmv, I, one_dim. cbn. field. }
  assert (Ed : forall i, d_diff I i = 1 / 7000).
  { intros i. unfold d_diff. rewrite Ec. unfold I, one_dim. cbn. field. }
  assert (Ea : q_a I = (1 / 7000) ^ 2). { unfold q_a, sqn, dot. cbn. rewrite Ed. ring. }
  assert (Eb : q_b I = 2 * (1 / 2800) * (1 / 7000)). { unfold q_b. cbn. rewrite Ec, Ed. ring. }
  assert (Ecc : q_c I = 0). { unfold q_c. rewrite En. unfold I, one_dim. cbn. ring. }
  assert (Edisc : disc I = EPS). { unfold disc. rewrite Ea, Eb, Ecc. apply Rmax_right. unfold EPS. lra. }
  assert (Etau : tau I = 1).
  { unfold tau. apply Rmin_right. rewrite Ea, Eb, Edisc.
    assert (Hs : 1 / 10000 <= sqrt EPS). { rewrite <- (sqrt_pow2 (1 / 10000)) by lra. apply sqrt_le_1_alt. unfold EPS. lra. }
    apply Rmult_le_reg_r with (2 * (1 / 7000) ^ 2 + EPS); [unfold EPS; lra|].
    unfold Rdiv at 2. rewrite (Rmult_assoc (- _ + _)), Rinv_l by (unfold EPS; lra). unfold EPS in *. lra. }
  assert (Ew : c_within I = true).
  { unfold c_within, Rleb. rewrite En. unfold I, one_dim. cbn [d_tr]. destruct (Rle_dec _ _); [reflexivity|lra]. }
  split; [|split; [|split]].
  - intros i Hi. unfold tmv, mv, I, one_dim. cbn. ring.
  - unfold I, one_dim. cbn. lra.
  - unfold dogleg. cbn [forallb map]. unfold gn_inside, Rltb, sqn, dot, I, one_dim. cbn [d_n d_gn d_tr rsum].
    destruct (Rlt_dec _ _) as [H|H]; [exfalso; lra|reflexivity].
  - unfold d_dogleg. rewrite Ew. unfold dot. cbn [d_n I one_dim rsum]. rewrite Ec, Ed, Etau. unfold I, one_dim. cbn [d_tr]. field.
Qed.

(** The step of an element depends on the rest of the batch: with Gauss-Newton step (3, 4), strictly
    inside the region of radius 5 + 1e-9, the step is (3, 4) alone but not next to an element whose
    Gauss-Newton step is outside. *)
Definition two_dim : elt_in :=
  mkIn 2 2 (fun r c => match r, c with 0%nat, 0%nat => 1 | 1%nat, 1%nat => 1 / 2 | _, _ => 0 end)
       (fun r => match r with 0%nat => 3 | _ => 2 end) (fun i => match i with 0%nat => 3 | _ => 4 end) (5 + 1 / 1000000000).
Theorem C24_batch_coupling_refuted : exists I J s1 s2 s3,
  exact_gn I /\ dot (d_n I) (d_gn I) (d_gn I) < d_tr I ^ 2 /\
  dogleg [I] = [s1] /\ dogleg [I; J] = [s2; s3] /\ s1 = d_gn I /\ s2 1%nat <> d_gn I 1%nat.
Proof.
  set (I := two_dim). set (J := one_dim 2 1). exists I, J, (d_gn I), (d_dogleg I), (d_dogleg J).
  assert (Hin : dot (d_n I) (d_gn I) (d_gn I) < d_tr I ^ 2) by (unfold dot, I, two_dim; cbn; lra).
  assert (Gi : gn_inside I = true). { unfold gn_inside, Rltb, sqn. destruct (Rlt_dec _ _); [reflexivity|contradiction]. }
  assert (Gj : gn_inside J = false).
  { unfold gn_inside, Rltb, sqn, dot, J, one_dim. cbn [d_n d_gn d_tr rsum]. destruct (Rlt_dec _ _) as [H|H]; [exfalso; lra|reflexivity]. }
  split; [|split; [exact Hin|split; [|split; [|split]]]].
  - intros i Hi. unfold tmv, mv, I, two_dim. cbn [d_n d_m d_A d_b d_gn rsum]. cbn [I two_dim d_n] in Hi.
    destruct i as [|[|i]]; [field|field|exfalso; unfold I, two_dim in Hi; cbn in Hi; lia].
  - unfold dogleg. cbn [forallb map]. now rewrite Gi.
  - unfold dogleg. cbn [forallb map]. now rewrite Gi, Gj.
  - reflexivity.
  - set (s := 10 / (37 / 4 + EPS)).
    assert (Hs : s * (37 / 4 + EPS) = 10) by (unfold s; field; unfold EPS; lra).
    assert (Ecs : cauchy_step_size I = s).
    { unfold cauchy_step_size, sqn, d_Asd, d_sd, dot, mv, tmv, I, two_dim, s. cbn. f_equal; [field|f_equal; field]. }
    assert (Hs1 : 1081 / 1000 < s < 1082 / 1000) by (unfold EPS in Hs; lra).
    assert (Ec0 : d_c I 0%nat = 3 * s). { unfold d_c. rewrite Ecs. unfold d_sd, tmv, I, two_dim. cbn. field. }
    assert (Ec1 : d_c I 1%nat = s). { unfold d_c. rewrite Ecs. unfold d_sd, tmv, I, two_dim. cbn. field. }
    assert (Ed0 : d_diff I 0%nat = 3 - 3 * s) by (unfold d_diff; rewrite Ec0; reflexivity).
    assert (Ed1 : d_diff I 1%nat = 4 - s) by (unfold d_diff; rewrite Ec1; reflexivity).
    assert (En : d_c_norm2 I = 10 * s ^ 2).
    { unfold d_c_norm2. rewrite Ecs. unfold sqn, dot, d_sd, tmv, I, two_dim. cbn. field. }
    assert (Ew : c_within I = true).
    { unfold c_within, Rleb. rewrite En. unfold I, two_dim. cbn [d_tr]. destruct (Rle_dec _ _); [reflexivity|]. exfalso. nra. }
    assert (Ea : q_a I = (3 - 3 * s) ^ 2 + (4 - s) ^ 2). { unfold q_a, sqn, dot. cbn [d_n I two_dim rsum]. rewrite Ed0, Ed1. ring. }
    assert (Eb : q_b I = 2 * (3 * s) * (3 - 3 * s) + 2 * s * (4 - s)). { unfold q_b. cbn [d_n I two_dim rsum]. rewrite Ec0, Ec1, Ed0, Ed1. ring. }
    assert (Eq : q_c I = 10 * s ^ 2 - (5 + 1 / 1000000000) ^ 2). { unfold q_c. rewrite En. reflexivity. }
    set (eta := (5 + 1 / 1000000000) ^ 2 - 25).
    assert (Heta : 0 < eta < 2 / 100000000) by (unfold eta; lra).
    assert (Hab : q_a I + q_b I + q_c I = - eta) by (rewrite Ea, Eb, Eq; unfold eta; ring).
    assert (Ha : 8 < q_a I < 9) by (rewrite Ea; nra).
    assert (Hb : 4 < q_b I < 5) by (rewrite Eb; nra).
    assert (Hd : q_b I ^ 2 - 4 * q_a I * q_c I = (2 * q_a I + q_b I) ^ 2 + 4 * q_a I * eta).
    { replace (q_c I) with (- eta - q_a I - q_b I) by lra. ring. }
    assert (Hdisc : disc I = (2 * q_a I + q_b I) ^ 2 + 4 * q_a I * eta).
    { unfold disc. rewrite Hd. apply Rmax_left. unfold EPS. nra. }
    assert (Hsq : sqrt (disc I) < 2 * q_a I + q_b I + EPS).
    { rewrite <- (sqrt_pow2 (2 * q_a I + q_b I + EPS)) by (unfold EPS; lra). apply sqrt_lt_1_alt. rewrite Hdisc.
      split; [nra|]. unfold EPS. nra. }
    assert (Ht : tau I < 1).
    { unfold tau. eapply Rle_lt_trans; [apply Rmin_l|]. apply Rmult_lt_reg_r with (2 * q_a I + EPS); [unfold EPS; lra|].
      unfold Rdiv. rewrite Rmult_assoc, Rinv_l by (unfold EPS; lra). lra. }
    unfold d_dogleg. rewrite Ew, Ec1, Ed1. change (d_gn I 1%nat) with 4. intros K.
    assert ((4 - s) * (1 - tau I) = 0) by lra. nra.
Qed.

(** ---- non-vacuity: a well separated element whose Cauchy step is inside its region and whose
    Gauss-Newton step is outside ---- *)
Definition two_dim4 : elt_in := mkIn 2 2 (d_A two_dim) (d_b two_dim) (d_gn two_dim) 4.
Lemma C24_example : exists I, exact_gn I /\ 0 < d_tr I /\ c_within I = true /\ well_separated I /\ gn_inside I = false /\
  exists i, (i < d_n I)%nat /\ tmv (d_m I) (d_A I) (d_b I) i <> 0.
Proof.
  set (I := two_dim4). exists I.
  set (s := 10 / (37 / 4 + EPS)).
  assert (Hs : s * (37 / 4 + EPS) = 10) by (unfold s; field; unfold EPS; lra).
  assert (Ecs : cauchy_step_size I = s).
  { unfold cauchy_step_size, sqn, d_Asd, d_sd, dot, mv, tmv, I, two_dim4, s. cbn. f_equal; [field|f_equal; field]. }
  assert (Hs1 : 1081 / 1000 < s < 1082 / 1000) by (unfold EPS in Hs; lra).
  assert (En : d_c_norm2 I = 10 * s ^ 2).
  { unfold d_c_norm2. rewrite Ecs. unfold sqn, dot, d_sd, tmv, I, two_dim4. cbn. field. }
  assert (Ew : c_within I = true).
  { unfold c_within, Rleb. rewrite En. unfold I, two_dim4. cbn [d_tr]. destruct (Rle_dec _ _); [reflexivity|]. exfalso. nra. }
  split; [|split; [unfold I, two_dim4; cbn; lra|split; [exact Ew|split; [|split]]]].
  - intros i Hi. unfold tmv, mv, I, two_dim4. cbn [d_n d_m d_A d_b d_gn rsum two_dim].
    destruct i as [|[|i]]; [field|field|exfalso; unfold I, two_dim4 in Hi; cbn in Hi; lia].
  - intros _. assert (Ec : q_c I <= - 4). { unfold q_c. rewrite En. unfold I, two_dim4. cbn [d_tr]. nra. }
    assert (Ed1 : d_diff I 1%nat = 4 - s).
    { unfold d_diff, d_c. rewrite Ecs. unfold d_sd, tmv, I, two_dim4. cbn. field. }
    assert (Ea : 1 <= q_a I).
    { unfold q_a, sqn, dot. cbn [d_n I two_dim4 rsum]. rewrite Ed1. nra. }
    unfold EPS. nra.
  - unfold gn_inside, Rltb, sqn, dot, I, two_dim4. cbn [d_n d_gn d_tr rsum two_dim]. destruct (Rlt_dec _ _) as [H|H]; [exfalso; lra|reflexivity].
  - exists 0%nat. split; [cbn; lia|]. unfold tmv, I, two_dim4. cbn. lra.
Qed.
