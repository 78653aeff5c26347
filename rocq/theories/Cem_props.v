(** C69: one iteration of DCEM. *)
From Coq Require Import Reals List Arith Bool Lra Lia Permutation Sorted.
From Verif Require Import RSum Adj_props Adj_diff Lml_model Lml_spec Lml_props Lml_fwd.
Import ListNotations.
Local Open Scope R_scope.

(** ** sums over the elite *)
Lemma sum_over_rsum n E g : NoDup E -> (forall i, In i E -> (i < n)%nat) ->
  rsum n (fun i => (if existsb (Nat.eqb i) E then 1 else 0) * g i) = sum_over E g.
Proof.
  induction E as [|a E IH]; intros ND H.
  - cbn [existsb sum_over fold_right]. apply rsum_0. intros; ring.
  - inversion ND as [|? ? Ha ND']; subst. cbn [sum_over fold_right]. fold (sum_over E g). rewrite <- IH by (try assumption; intros; apply H; now right).
    rewrite (rsum_ext n _ (fun i => (if Nat.eqb i a then g i else 0) + (if existsb (Nat.eqb i) E then 1 else 0) * g i)).
    + rewrite rsum_plus, rsum_delta. destruct (Nat.ltb_spec a n) as [_|L]; [reflexivity|]. specialize (H a (or_introl eq_refl)). lia.
    + intros i _. cbn [existsb]. destruct (Nat.eqb_spec i a) as [->|N]; cbn [orb]; [|ring].
      replace (existsb (Nat.eqb a) E) with false; [ring|]. symmetry. apply not_true_is_false. intros Q. apply existsb_exists in Q.
      destruct Q as (k & Hk & Ek). apply Nat.eqb_eq in Ek. now subst.
Qed.
Lemma sum_over_const E c : sum_over E (fun _ => c) = INR (length E) * c.
Proof. induction E as [|a E IH]; [cbn; ring|]. cbn [sum_over fold_right length]. fold (sum_over E (fun _ : nat => c)). rewrite IH, S_INR. ring. Qed.
Lemma sum_over_le E f g : (forall i, In i E -> f i <= g i) -> sum_over E f <= sum_over E g.
Proof.
  induction E as [|a E IH]; intros H; [cbn; lra|]. cbn [sum_over fold_right]. fold (sum_over E f) (sum_over E g).
  pose proof (H a (or_introl eq_refl)). specialize (IH (fun i Hi => H i (or_intror Hi))). lra.
Qed.
Lemma NoDup_prefix {A} (l r : list A) : NoDup (l ++ r) -> NoDup l.
Proof.
  induction l as [|a l IH]; [constructor|]. cbn [app]. intros H. inversion H as [|? ? Ha Hl]; subst. constructor; [|now apply IH].
  intros I. apply Ha, in_or_app. now left.
Qed.
Lemma firstn_elite n f order m : sorts n f order -> (m <= n)%nat -> elite n m f (firstn m order).
Proof.
  intros [P S] Hm. assert (Len : length order = n) by (rewrite P; apply seq_length).
  assert (ND : NoDup order) by (eapply Permutation_NoDup; [symmetry; exact P|apply seq_NoDup]).
  pose proof (firstn_skipn m order) as FS. repeat split.
  - rewrite <- FS in ND. exact (NoDup_prefix _ _ ND).
  - rewrite firstn_length. lia.
  - intros i Hi. assert (In i order) by (rewrite <- FS; apply in_or_app; now left). rewrite P in H. apply in_seq in H. lia.
  - intros i k Hi Hk Hn. assert (In k order) by (rewrite P; apply in_seq; lia). rewrite <- FS in H. apply in_app_or in H. destruct H as [H|H]; [contradiction|].
    clear - S Hi H FS. rewrite <- FS in S. clear FS. revert S Hi H. generalize (firstn m order). generalize (skipn m order). clear. intros r l S Hi Hk. revert S Hi.
    induction l as [|a l IH]; [intros _ []|]. cbn [app]. intros S Hi. inversion S as [|? ? S' F]; subst. destruct Hi as [->|Hi].
    + rewrite Forall_forall in F. apply F, in_or_app. now right.
    + now apply IH.
Qed.
(** With temp None (or inf): the new mean is the mean of the n_elite best samples, and sigma their standard deviation plus 1e-10. *)
Theorem C69_hard_elite : forall lb ub n_iter branch n_sample n_elite normalize lml_eps order X fX,
  (0 < n_elite <= n_sample)%nat -> sorts n_sample fX order ->
  exists mu sigma E, cem_step lb ub n_iter branch n_sample n_elite None normalize lml_eps order X fX = Some (mu, sigma)
    /\ elite n_sample n_elite fX E
    /\ forall j, mu j = sum_over E (fun i => X i j) / INR n_elite
       /\ sigma j = sqrt (sum_over E (fun i => (X i j - mu j) * (X i j - mu j)) / INR n_elite) + / 10 ^ 10
       /\ 0 < sigma j
       /\ (forall a b, (forall i, In i E -> a <= X i j <= b) -> a <= mu j <= b).
Proof.
  intros lb ub n_iter branch ns ne nrm le order X fX Hne HS. pose proof (firstn_elite ns fX order ne HS ltac:(lia)) as HE.
  set (E := firstn ne order) in *. destruct HE as (ND & Len & Lt & Best). assert (P : 0 < INR ne) by (apply lt_0_INR; lia).
  assert (M : forall j, cem_mu ns ne (hard_weights ne order) X j = sum_over E (fun i => X i j) / INR ne).
  { intros j. unfold cem_mu, hard_weights. fold E. now rewrite sum_over_rsum. }
  do 2 eexists. exists E. split; [reflexivity|]. split; [now repeat split|]. intros j. split; [apply M|]. split; [|split].
  - unfold cem_sigma. set (m := cem_mu ns ne (hard_weights ne order) X j). f_equal. f_equal. f_equal. unfold hard_weights. fold E.
    now rewrite (sum_over_rsum ns E (fun i => (X i j - m) * (X i j - m))).
  - unfold cem_sigma. match goal with |- 0 < sqrt ?a + _ => pose proof (sqrt_pos a) end. assert (0 < / 10 ^ 10) by (apply Rinv_0_lt_compat, pow_lt; lra). lra.
  - intros a b H. rewrite M. assert (A : INR ne * a <= sum_over E (fun i => X i j)) by (rewrite <- Len, <- sum_over_const; apply sum_over_le; intros; now apply H).
    assert (B : sum_over E (fun i => X i j) <= INR ne * b) by (rewrite <- Len, <- sum_over_const; apply sum_over_le; intros; now apply H).
    split; apply (Rmult_le_reg_r (INR ne)); try exact P; unfold Rdiv; rewrite Rmult_assoc, Rinv_l by lra; lra.
Qed.

(** ** soft weights *)
Lemma std_nonneg n f : 0 <= std n f. Proof. apply sqrt_pos. Qed.
Lemma score_order n f (nrm : bool) i k : f i < f k -> (if nrm then normalized n f else f) i < (if nrm then normalized n f else f) k.
Proof.
  intros H. destruct nrm; [|exact H]. unfold normalized. pose proof (std_nonneg n f). unfold Rdiv. apply Rmult_lt_compat_r; [apply Rinv_0_lt_compat; lra|lra].
Qed.
Lemma hull n w X a b : (forall i, (i < n)%nat -> 0 <= w i) -> rsum n w = 1 -> (forall i, (i < n)%nat -> a <= X i <= b) -> a <= rsum n (fun i => w i * X i) <= b.
Proof.
  intros Hw S H. replace a with (rsum n w * a) by (rewrite S; ring). replace b with (rsum n w * b) by (rewrite S; ring). rewrite <- !rsum_scal_r.
  split; apply rsum_le; intros i Hi; apply Rmult_le_compat_l; auto; now apply H.
Qed.
(** With n_elite = 1 the new mean is a weighted mean of the samples, better samples weighing more, and sigma the weighted standard
    deviation. *)
Theorem C69_softmax : forall lb ub n_iter branch n_sample temp (normalize : bool) lml_eps order X fX,
  ((if normalize then 2 else 1) <= n_sample)%nat -> 0 < temp ->
  exists mu sigma w, cem_step lb ub n_iter branch n_sample 1 (Some temp) normalize lml_eps order X fX = Some (mu, sigma)
    /\ prefers n_sample fX w
    /\ forall j, mu j = rsum n_sample (fun i => w i * X i j)
       /\ sigma j = sqrt (rsum n_sample (fun i => w i * ((X i j - mu j) * (X i j - mu j))))
       /\ (forall a b, (forall i, (i < n_sample)%nat -> a <= X i j <= b) -> a <= mu j <= b).
Proof.
  intros lb ub n_iter branch n temp nrm le order X fX Hn' Ht. assert (Hn : (0 < n)%nat) by (destruct nrm; lia). set (s := if nrm then normalized n fX else fX). set (w := softmax n (fun i => - s i * temp)).
  assert (D : 0 < rsum n (fun k => exp (- s k * temp))).
  { pose proof (rsum_term n (fun k => exp (- s k * temp)) 0%nat ltac:(intros; left; apply exp_pos) Hn). pose proof (exp_pos (- s 0%nat * temp)). lra. }
  assert (W0 : forall i, 0 < w i) by (intros i; unfold w, softmax; apply Rdiv_lt_0_compat; [apply exp_pos|exact D]).
  assert (W1 : rsum n w = 1) by (unfold w, softmax, Rdiv; rewrite rsum_scal_r; apply Rinv_r; lra).
  assert (M : forall j, cem_mu n 1 w X j = rsum n (fun i => w i * X i j)) by (intros j; unfold cem_mu; cbn [INR]; field).
  do 2 eexists. exists w. split; [unfold cem_step, cem_weights; cbn [Nat.eqb]; reflexivity|]. fold s. fold w. split; [|].
  - split; [intros; apply W0|]. split; [exact W1|]. intros i k _ _ H. unfold w, softmax, Rdiv. apply Rmult_lt_compat_r; [now apply Rinv_0_lt_compat|].
    apply exp_increasing. pose proof (score_order n fX nrm i k H) as L. fold s in L. nra.
  - intros j. split; [apply M|]. split.
    + unfold cem_sigma. rewrite Rplus_0_r. f_equal. cbn [INR]. field.
    + intros a b H. rewrite M. apply hull; [intros; left; apply W0|exact W1|exact H].
Qed.

(** spread of normalized scores *)
Lemma normalized_spread n f : (2 <= n)%nat -> spread n (normalized n f) (sqrt (2 * (INR n - 1))).
Proof.
  intros Hn i j Hi Hj. set (m := mean n f). set (v := rsum n (fun k => (f k - m) * (f k - m))).
  assert (N1 : 1 <= INR n - 1). { pose proof (le_INR 2 n Hn) as L2. cbn [INR] in L2. lra. }
  assert (Es : std n f = sqrt (v / (INR n - 1))) by reflexivity. assert (V : 0 <= v) by (apply rsum_nonneg; intros; apply Rle_0_sqr).
  assert (Two : i <> j -> (f i - m) * (f i - m) + (f j - m) * (f j - m) <= v).
  { intros Hne. unfold v.
    pose proof (rsum_le n (fun k => (if Nat.eqb k i then (f k - m) * (f k - m) else 0) + (if Nat.eqb k j then (f k - m) * (f k - m) else 0)) (fun k => (f k - m) * (f k - m))) as L.
    rewrite rsum_plus, !rsum_delta in L. destruct (Nat.ltb_spec i n), (Nat.ltb_spec j n); try lia. apply L. intros k _. pose proof (Rle_0_sqr (f k - m)). unfold Rsqr in *.
    destruct (Nat.eqb_spec k i), (Nat.eqb_spec k j); subst; try lra. congruence. }
  pose proof (sqrt_pos (2 * (INR n - 1))) as Q0. pose proof (std_nonneg n f) as S0.
  replace (normalized n f i - normalized n f j) with ((f i - f j) / (std n f + / 1000000)) by (unfold normalized; field; lra).
  apply (Rmult_le_reg_r (std n f + / 1000000)); [lra|]. unfold Rdiv. rewrite Rmult_assoc, Rinv_l, Rmult_1_r by lra.
  assert (B : f i - f j <= sqrt (2 * (INR n - 1)) * std n f); [|nra].
  rewrite Es, <- sqrt_mult by (try apply Rmult_le_pos; try lra; left; apply Rinv_0_lt_compat; lra).
  replace (2 * (INR n - 1) * (v / (INR n - 1))) with (2 * v) by (field; lra).
  destruct (Rle_lt_dec (f i - f j) 0) as [L|L]; [pose proof (sqrt_pos (2 * v)); lra|].
  rewrite <- (sqrt_square (f i - f j)) by lra. apply sqrt_le_1_alt.
  assert (Hne : i <> j) by (intros ->; lra). specialize (Two Hne). pose proof (Rle_0_sqr ((f i - m) + (f j - m))). unfold Rsqr in *. nra.
Qed.
(** With 2 <= n_elite < n_sample the weights are, up to lml_eps / 8, those of the soft selection of the n_elite best samples; divided by
    n_elite these are a probability distribution preferring better samples, so up to the resulting error the new mean is a weighted mean.
    With normalization the search always converges for the default numbers of iterations (100) and branches (10). *)
Theorem C69_soft_elite_partial : forall lb ub n_iter branch n_sample n_elite temp (normalize : bool) lml_eps order X fX s,
  (2 <= n_elite < n_sample)%nat -> INR n_elite <= exp 7 -> INR (n_sample - n_elite) < exp 7 ->
  0 < temp -> (1 <= n_iter)%nat -> (2 <= branch)%nat -> 0 < lml_eps ->
  (if normalize then s = temp * sqrt (2 * (INR n_sample - 1)) else spread n_sample (fun i => - fX i * temp) s) ->
  s + 14 <= lml_eps * INR (branch - 1) ^ (n_iter - 1) ->
  exists mu sigma p, cem_step lb ub n_iter branch n_sample n_elite (Some temp) normalize lml_eps order X fX = Some (mu, sigma)
    /\ prefers n_sample fX p
    /\ forall j B, (forall i, (i < n_sample)%nat -> Rabs (X i j) <= B) ->
         Rabs (mu j - rsum n_sample (fun i => p i * X i j)) <= lml_eps / 8 * (INR n_sample / INR n_elite) * B.
Proof.
  intros lb ub n_iter branch n ne temp nrm le order X fX s Hne H1 H2 Ht Hi Hb Hle Hs W.
  set (sc := if nrm then normalized n fX else fX). set (x := fun i => - sc i * temp).
  assert (Sp : spread n x s).
  { unfold x, sc. destruct nrm; [|exact Hs]. subst s. intros i j Hi' Hj. pose proof (normalized_spread n fX ltac:(lia) j i Hj Hi'). nra. }
  destruct (C68_lml_forward_partial n_iter branch ne n le x s) as (out & y & E & ST & D & _ & _); try assumption; try lia.
  destruct (soft_top_shift ne n x y ltac:(lia) ST) as (nu & Enu & Y). assert (P : 0 < INR ne) by (apply lt_0_INR; lia).
  exists (cem_mu n ne out X), (cem_sigma n ne out 0 X), (fun i => y i / INR ne). split; [|split].
  - unfold cem_step, cem_weights. destruct (Nat.eqb_spec ne 1) as [|_]; [lia|]. fold sc. fold x. now rewrite E.
  - split; [|split].
    + intros i Hi'. apply Rdiv_lt_0_compat; [|exact P]. rewrite (Y i Hi'). apply sig_01.
    + unfold Rdiv. rewrite rsum_scal_r. destruct ST as [[_ S] _]. rewrite S. apply Rinv_r. lra.
    + intros i k Hi' Hk L. unfold Rdiv. apply Rmult_lt_compat_r; [now apply Rinv_0_lt_compat|]. rewrite (Y i Hi'), (Y k Hk). apply sig_incr.
      pose proof (score_order n fX nrm i k L) as L'. fold sc in L'. unfold x. nra.
  - intros j B HB. unfold cem_mu.
    replace (rsum n (fun i => out i * X i j) / INR ne - rsum n (fun i => y i / INR ne * X i j)) with (rsum n (fun i => (out i - y i) * X i j) / INR ne).
    + unfold Rdiv. rewrite Rabs_mult, (Rabs_right (/ INR ne)) by (left; now apply Rinv_0_lt_compat).
      replace (le * / 8 * (INR n * / INR ne) * B) with (INR n * (le * / 8 * B) * / INR ne) by ring. apply Rmult_le_compat_r; [left; now apply Rinv_0_lt_compat|].
      eapply Rle_trans; [apply rsum_abs|]. rewrite <- rsum_const. apply rsum_le. intros i Hi'. rewrite Rabs_mult.
      apply Rmult_le_compat; try apply Rabs_pos; [now apply D|now apply HB].
    + rewrite (rsum_ext n (fun i => y i / INR ne * X i j) (fun i => y i * X i j * / INR ne)) by (intros; unfold Rdiv; ring). rewrite rsum_scal_r.
      rewrite (rsum_ext n (fun i => (out i - y i) * X i j) (fun i => out i * X i j - y i * X i j)) by (intros; ring). rewrite rsum_minus. unfold Rdiv. ring.
Qed.
(** the default parameters meet the hypotheses *)
Lemma C69_soft_example : INR 5 <= exp 7 /\ INR (100 - 5) < exp 7 /\ 1 * sqrt (2 * (INR 100 - 1)) + 14 <= / 1000 * INR (10 - 1) ^ (100 - 1).
Proof.
  assert (E : 128 <= exp 7).
  { replace 7 with (1 + 1 + 1 + 1 + 1 + 1 + 1) by ring. rewrite !exp_plus. pose proof (exp_ineq1_le 1). 
    assert (4 <= exp 1 * exp 1) by nra. assert (8 <= exp 1 * exp 1 * exp 1) by nra. assert (16 <= exp 1 * exp 1 * exp 1 * exp 1) by nra.
    assert (32 <= exp 1 * exp 1 * exp 1 * exp 1 * exp 1) by nra. assert (64 <= exp 1 * exp 1 * exp 1 * exp 1 * exp 1 * exp 1) by nra. nra. }
  rewrite !INR_IZR_INZ. replace (IZR (Z.of_nat 5)) with 5 by (apply f_equal; reflexivity).
  replace (IZR (Z.of_nat (100 - 5))) with 95 by (apply f_equal; reflexivity). replace (IZR (Z.of_nat 100)) with 100 by (apply f_equal; reflexivity).
  replace (IZR (Z.of_nat (10 - 1))) with 9 by (apply f_equal; reflexivity).
  split; [lra|]. split; [lra|].
  assert (S : sqrt (2 * (100 - 1)) <= 15) by (rewrite <- (sqrt_square 15) by lra; apply sqrt_le_1_alt; lra).
  assert (T : 9 ^ 5 <= 9 ^ (100 - 1)) by (apply Rle_pow; [lra|lia]). assert (T5 : 9 ^ 5 = 59049) by ring. rewrite T5 in T. generalize dependent (9 ^ (100 - 1)). intros. lra.
Qed.
(** With n_elite >= n_sample (>= 2) the soft step does not return a mean of the samples: equal samples c give (1 - 1e-5) c n_sample / n_elite. *)
Theorem C69_all_elite_refuted : forall lb ub n_iter branch n_sample n_elite temp normalize lml_eps order fX c,
  (2 <= n_elite)%nat -> (n_sample <= n_elite)%nat ->
  exists mu sigma, cem_step lb ub n_iter branch n_sample n_elite (Some temp) normalize lml_eps order (fun _ _ => c) fX = Some (mu, sigma)
    /\ forall j, mu j = (1 - / 10 ^ 5) * (INR n_sample / INR n_elite) * c.
Proof.
  intros lb ub n_iter branch n ne temp nrm le order fX c H2 Hn. unfold cem_step, cem_weights, lml_forward.
  destruct (Nat.eqb_spec ne 1) as [|_]; [lia|]. destruct (Nat.leb_spec n ne) as [_|]; [|lia]. do 2 eexists. split; [reflexivity|].
  intros j. unfold cem_mu. rewrite rsum_const. assert (0 < INR ne) by (apply lt_0_INR; lia). field. lra.
Qed.
(** and the hard step divides by n_elite although fewer samples exist *)
Theorem C69_hard_few_refuted : forall lb ub n_iter branch n_sample n_elite normalize lml_eps order fX c,
  (n_sample < n_elite)%nat -> sorts n_sample fX order ->
  exists mu sigma, cem_step lb ub n_iter branch n_sample n_elite None normalize lml_eps order (fun _ _ => c) fX = Some (mu, sigma)
    /\ forall j, mu j = INR n_sample / INR n_elite * c.
Proof.
  intros lb ub n_iter branch n ne nrm le order fX c Hn [P _]. do 2 eexists. split; [reflexivity|]. intros j. unfold cem_mu.
  assert (Len : length order = n) by (rewrite P; apply seq_length). assert (0 < INR ne) by (apply lt_0_INR; lia).
  rewrite (rsum_ext n _ (fun _ => c)); [rewrite rsum_const; field; lra|]. intros i Hi. unfold hard_weights. rewrite firstn_all2 by lia.
  replace (existsb (Nat.eqb i) order) with true; [ring|]. symmetry. apply existsb_exists. exists i. split; [rewrite P; apply in_seq; lia|apply Nat.eqb_refl].
Qed.
(** lb and ub bound neither the samples nor the mean: the mean exceeds every ub *)
Theorem C69_bounds_refuted : forall lb ub, exists order X fX mu sigma,
  sorts 2 fX order /\ cem_step lb (Some ub) 100 10 2 1 None true (/ 1000) order X fX = Some (mu, sigma) /\ forall j, ub < mu j.
Proof.
  intros lb ub. exists [0%nat; 1%nat], (fun _ _ => ub + 1), (fun _ => 0).
  assert (S : sorts 2 (fun _ => 0) [0%nat; 1%nat]) by (split; [reflexivity|repeat constructor; lra]).
  destruct (C69_hard_elite lb (Some ub) 100 10 2 1 true (/ 1000) [0%nat; 1%nat] (fun _ _ => ub + 1) (fun _ => 0) ltac:(lia) S) as (mu & sigma & E & Q & HE & H).
  exists mu, sigma. split; [exact S|]. split; [exact Q|]. intros j. destruct (H j) as (_ & _ & _ & B). destruct (B (ub + 1) (ub + 1)); [intros; lra|lra].
Qed.
(** cutting the mean by dofs gives back the variables it was concatenated from *)
Theorem C69_mu_dict : forall (A : Type) (vars : list (list A)), mu_vec_to_dict (map (@length A) vars) (concat vars) = vars.
Proof.
  induction vars as [|v vars IH]; [reflexivity|]. cbn [map concat mu_vec_to_dict]. rewrite firstn_app, Nat.sub_diag, firstn_all, firstn_O, app_nil_r.
  rewrite skipn_app, skipn_all, Nat.sub_diag. cbn [app skipn]. now rewrite IH.
Qed.
