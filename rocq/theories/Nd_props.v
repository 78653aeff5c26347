(** C88: numeric_grad. *)
From Coq Require Import Reals List Arith Bool ZArith Lra Psatz Lia.
From Verif Require Import Geo_spec Geo3_spec Geo4_spec RSum SE2_model SO3_model SE3_model Emb_model Emb_spec Nd_model Nd_spec.
Import ListNotations.
Local Open Scope R_scope.

(** ** the central difference of a scalar function *)
Lemma nonneg_on : forall (f f' : R -> R) h, (forall t, 0 <= t <= h -> derivable_pt_lim f t (f' t)) ->
  (forall t, 0 <= t <= h -> 0 <= f' t) -> f 0 = 0 -> forall t, 0 <= t <= h -> 0 <= f t.
Proof.
  intros f f' h D P Z t Ht. destruct (Req_dec t 0) as [->|N]; [lra|].
  assert (L : 0 < t) by lra.
  destruct (MVT_cor2 f f' 0 t L) as [c [Hc Hr]]; [intros c Hc; apply D; lra|].
  rewrite Z in Hc. assert (0 <= f' c) by (apply P; lra). nra.
Qed.
Lemma dl_opp : forall f t l, derivable_pt_lim f (- t) l -> derivable_pt_lim (fun s => f (- s)) t (- l).
Proof.
  intros f t l D. replace (- l) with (l * -1) by ring.
  apply (derivable_pt_lim_comp (fun s => - s) f t (-1) l); [|exact D].
  replace (-1) with (- (1)) by ring. apply (derivable_pt_lim_opp id t 1), derivable_pt_lim_id.
Qed.
Lemma dl_eq : forall f g t l m, (forall s, f s = g s) -> l = m -> derivable_pt_lim f t l -> derivable_pt_lim g t m.
Proof. intros f g t l m E -> D e He. destruct (D e He) as [dl Hd]. exists dl. intros. rewrite <- !E. now apply Hd. Qed.
Lemma dl_lin : forall a t, derivable_pt_lim (fun s => a * s) t a.
Proof.
  intros a t. eapply dl_eq; [..|exact (derivable_pt_lim_scal id a t 1 (derivable_pt_lim_id t))].
  - intro s. reflexivity.
  - ring.
Qed.
Lemma dl_pow2 : forall a t, derivable_pt_lim (fun s => a * s * s) t (2 * a * t).
Proof.
  intros a t. eapply dl_eq; [..|exact (derivable_pt_lim_mult (fun s => a * s) id t a 1 (dl_lin a t) (derivable_pt_lim_id t))].
  - intro s. reflexivity.
  - unfold id. ring.
Qed.
Lemma dl_pow3 : forall a t, derivable_pt_lim (fun s => a * s * s * s) t (3 * a * t * t).
Proof.
  intros a t. eapply dl_eq; [..|exact (derivable_pt_lim_mult (fun s => a * s * s) id t (2 * a * t) 1 (dl_pow2 a t) (derivable_pt_lim_id t))].
  - intro s. reflexivity.
  - unfold id. ring.
Qed.
Lemma dl_const : forall a t, derivable_pt_lim (fun _ => a) t 0.
Proof. intros. apply derivable_pt_lim_const. Qed.

Lemma central_upper : forall g0 g1 g2 g3 h M, 0 < h -> smooth3 g0 g1 g2 g3 h M ->
  g0 h - g0 (- h) - 2 * h * g1 0 <= M * h * h * h / 3.
Proof.
  intros g0 g1 g2 g3 h M Hh S.
  assert (A : forall t, 0 <= t <= h -> 0 <= M * t + M * t - (g2 t - g2 (- t))).
  { apply (nonneg_on (fun t => M * t + M * t - (g2 t - g2 (- t))) (fun t => M + M - (g3 t - - g3 (- t)))).
    - intros t Ht. destruct (S t) as (_ & _ & D & _); [lra|]. destruct (S (- t)) as (_ & _ & D' & _); [lra|].
      apply (derivable_pt_lim_minus (fun t => M * t + M * t) (fun t => g2 t - g2 (- t))).
      + apply (derivable_pt_lim_plus (fun t => M * t) (fun t => M * t)); apply dl_lin.
      + apply (derivable_pt_lim_minus g2 (fun t => g2 (- t))); [exact D|now apply dl_opp].
    - intros t Ht. destruct (S t) as (_ & _ & _ & B); [lra|]. destruct (S (- t)) as (_ & _ & _ & B'); [lra|].
      pose proof (Rle_abs (g3 t)). pose proof (Rle_abs (g3 (- t))). lra.
    - rewrite Ropp_0. ring. }
  assert (B : forall t, 0 <= t <= h -> 0 <= M * t * t - (g1 t + g1 (- t)) + 2 * g1 0).
  { apply (nonneg_on (fun t => M * t * t - (g1 t + g1 (- t)) + 2 * g1 0) (fun t => 2 * M * t - (g2 t + - g2 (- t)) + 0)).
    - intros t Ht. destruct (S t) as (_ & D & _); [lra|]. destruct (S (- t)) as (_ & D' & _); [lra|].
      apply (derivable_pt_lim_plus (fun t => M * t * t - (g1 t + g1 (- t))) (fun _ => 2 * g1 0)); [|apply dl_const].
      apply (derivable_pt_lim_minus (fun t => M * t * t) (fun t => g1 t + g1 (- t))); [apply dl_pow2|].
      apply (derivable_pt_lim_plus g1 (fun t => g1 (- t))); [exact D|now apply dl_opp].
    - intros t Ht. pose proof (A t Ht). lra.
    - rewrite Ropp_0. ring. }
  assert (C : forall t, 0 <= t <= h -> 0 <= M / 3 * t * t * t - (g0 t - g0 (- t)) + 2 * g1 0 * t).
  { apply (nonneg_on (fun t => M / 3 * t * t * t - (g0 t - g0 (- t)) + 2 * g1 0 * t)
      (fun t => 3 * (M / 3) * t * t - (g1 t - - g1 (- t)) + 2 * g1 0)).
    - intros t Ht. destruct (S t) as (D & _); [lra|]. destruct (S (- t)) as (D' & _); [lra|].
      apply (derivable_pt_lim_plus (fun t => M / 3 * t * t * t - (g0 t - g0 (- t))) (fun t => 2 * g1 0 * t)); [|apply dl_lin].
      apply (derivable_pt_lim_minus (fun t => M / 3 * t * t * t) (fun t => g0 t - g0 (- t))); [apply dl_pow3|].
      apply (derivable_pt_lim_minus g0 (fun t => g0 (- t))); [exact D|now apply dl_opp].
    - intros t Ht. pose proof (B t Ht). replace (3 * (M / 3) * t * t) with (M * t * t) by field. lra.
    - rewrite Ropp_0. ring. }
  pose proof (C h (conj (Rlt_le _ _ Hh) (Rle_refl h))) as Q.
  replace (M * h * h * h / 3) with (M / 3 * h * h * h) by field. lra.
Qed.
Lemma smooth3_opp : forall g0 g1 g2 g3 h M, smooth3 g0 g1 g2 g3 h M ->
  smooth3 (fun t => - g0 t) (fun t => - g1 t) (fun t => - g2 t) (fun t => - g3 t) h M.
Proof.
  intros g0 g1 g2 g3 h M S t Ht. destruct (S t Ht) as (A & B & C & D).
  split; [now apply (derivable_pt_lim_opp g0)|]. split; [now apply (derivable_pt_lim_opp g1)|].
  split; [now apply (derivable_pt_lim_opp g2)|]. now rewrite Rabs_Ropp.
Qed.
Lemma central_bound : forall g0 g1 g2 g3 h M, 0 < h -> smooth3 g0 g1 g2 g3 h M ->
  Rabs ((g0 h - g0 (- h)) / (2 * h) - g1 0) <= M * (h * h) / 6.
Proof.
  intros g0 g1 g2 g3 h M Hh S.
  pose proof (central_upper _ _ _ _ _ _ Hh S) as U. pose proof (central_upper _ _ _ _ _ _ Hh (smooth3_opp _ _ _ _ _ _ S)) as L.
  cbv beta in L.
  assert (E : (g0 h - g0 (- h)) / (2 * h) - g1 0 = (g0 h - g0 (- h) - 2 * h * g1 0) / (2 * h)) by (field; lra).
  rewrite E. unfold Rdiv at 1. rewrite Rabs_mult, (Rabs_right (/ (2 * h))) by (left; apply Rinv_0_lt_compat; lra).
  assert (P : Rabs (g0 h - g0 (- h) - 2 * h * g1 0) <= M * h * h * h / 3) by (apply Rabs_le; lra).
  replace (M * (h * h) / 6) with ((M * h * h * h / 3) * / (2 * h)) by (field; lra).
  apply Rmult_le_compat_r; [left; apply Rinv_0_lt_compat; lra|exact P].
Qed.

(** ** the loop of numeric_grad *)
Lemma set_nth_length : forall A (l : list A) i v, length (set_nth l i v) = length l.
Proof. intros A l. induction l as [|x l IH]; intros [|i] v; cbn; congruence. Qed.
Lemma set_nth_same : forall A (l : list A) i v d, (i < length l)%nat -> nth i (set_nth l i v) d = v.
Proof. intros A l. induction l as [|x l IH]; intros [|i] v d H; cbn in *; try lia; auto. apply IH. lia. Qed.
Lemma set_nth_other : forall A (l : list A) i j v d, i <> j -> nth j (set_nth l i v) d = nth j l d.
Proof. intros A l. induction l as [|x l IH]; intros [|i] [|j] v d H; cbn; try reflexivity; try congruence. apply IH. congruence. Qed.
Lemma nth_ext_R : forall (l m : list R), length l = length m -> (forall i, (i < length l)%nat -> nth i l 0 = nth i m 0) -> l = m.
Proof. intros l m H E. apply (nth_ext l m 0 0 H). exact E. Qed.

Lemma zip_nth : forall op x y i, length (nd_data x) = length (nd_data y) -> (i < length (nd_data x))%nat ->
  nth i (nd_data (np_zip op x y)) 0 = op (nth i (nd_data x) 0) (nth i (nd_data y) 0).
Proof.
  intros op x y i L H. cbn [np_zip nd_data].
  rewrite (nth_indep _ 0 (op (fst (0, 0)) (snd (0, 0)))) by (rewrite map_length, combine_length; lia).
  rewrite (map_nth (fun p => op (fst p) (snd p))), combine_nth by exact L. reflexivity.
Qed.
Lemma shifted_nth : forall x i t j, (j < length (nd_data x))%nat ->
  nth j (nd_data (shifted x i t)) 0 = if Nat.eqb j i then nth j (nd_data x) 0 + t else nth j (nd_data x) 0.
Proof.
  intros x i t j H. cbn [shifted nd_data].
  set (F := fun p : R * nat => if Nat.eqb (snd p) i then fst p + t else fst p).
  rewrite (nth_indep _ 0 (F (0, 0%nat))) by (rewrite map_length, combine_length, seq_length; lia).
  rewrite map_nth, combine_nth by now rewrite seq_length.
  unfold F. cbn [fst snd]. rewrite seq_nth by exact H. reflexivity.
Qed.
Lemma zero_nth : forall (l : list R) j, nth j (map (fun _ => 0) l) 0 = 0.
Proof. intro l. induction l as [|a l IH]; intros [|j]; cbn; auto. Qed.
Lemma step_array : forall op x i v, (forall a, op a 0 = a) -> nd_dtype x = NpFloat ->
  np_zip op x (np_set (zeros_like x) i v) =
  mkNd NpFloat (nd_shape x) (map (fun p => if Nat.eqb (snd p) i then op (fst p) v else fst p) (combine (nd_data x) (seq 0 (length (nd_data x))))).
Proof.
  intros op x i v O F. unfold np_zip. rewrite F. f_equal. cbn [np_set nd_data zeros_like nd_dtype]. rewrite F. cbn [np_cast].
  apply nth_ext_R; [rewrite !map_length, !combine_length, set_nth_length, map_length, seq_length; reflexivity|].
  intros j Hj. rewrite map_length, combine_length, set_nth_length, map_length in Hj. assert (Hj' : (j < length (nd_data x))%nat) by lia.
  set (F2 := fun p : R * nat => if Nat.eqb (snd p) i then op (fst p) v else fst p).
  set (F1 := fun p : R * R => op (fst p) (snd p)).
  rewrite (nth_indep (map F1 _) 0 (F1 (0, 0))) by (rewrite map_length, combine_length, set_nth_length, map_length; lia).
  rewrite map_nth, combine_nth by now rewrite set_nth_length, map_length.
  rewrite (nth_indep (map F2 _) 0 (F2 (0, 0%nat))) by (rewrite map_length, combine_length, seq_length; lia).
  rewrite map_nth, combine_nth by now rewrite seq_length.
  unfold F1, F2. cbn [fst snd]. rewrite seq_nth by exact Hj'. cbn [plus].
  destruct (Nat.eqb j i) eqn:E.
  - apply Nat.eqb_eq in E. subst i. now rewrite set_nth_same by now rewrite map_length.
  - apply Nat.eqb_neq in E. rewrite set_nth_other by congruence.
    replace (nth j (map (fun _ : R => 0) (nd_data x)) 0) with 0; [apply O|].
    symmetry. apply zero_nth.
Qed.
Lemma grad_loop : forall (v : nat -> R) n k g, (k + n <= length (nd_data g))%nat ->
  let g' := fold_left (fun g i => np_set g i (v i)) (seq k n) g in
  nd_dtype g' = nd_dtype g /\ nd_shape g' = nd_shape g /\ length (nd_data g') = length (nd_data g) /\
  forall i, nth i (nd_data g') 0 = if (Nat.leb k i && Nat.ltb i (k + n))%bool then np_cast (nd_dtype g) (v i) else nth i (nd_data g) 0.
Proof.
  intros v n. induction n as [|n IH]; intros k g H; cbn [seq fold_left]; cbv zeta.
  - split; [reflexivity|]. split; [reflexivity|]. split; [reflexivity|]. intro i.
    destruct (Nat.leb k i) eqn:A, (Nat.ltb i (k + 0)) eqn:B; cbn [andb]; try reflexivity.
    apply Nat.leb_le in A. apply Nat.ltb_lt in B. lia.
  - destruct (IH (S k) (np_set g k (v k))) as (A & B & C & D); [cbn [np_set nd_data]; rewrite set_nth_length; lia|].
    cbv zeta in *. split; [exact A|]. split; [exact B|]. split; [rewrite C; cbn [np_set nd_data]; apply set_nth_length|].
    intro i. rewrite D. cbn [np_set nd_dtype nd_data].
    destruct (Nat.eq_dec i k) as [->|N].
    + replace (Nat.leb (S k) k) with false by (symmetry; apply Nat.leb_gt; lia). cbn [andb].
      rewrite Nat.leb_refl. replace (Nat.ltb k (k + S n)) with true by (symmetry; apply Nat.ltb_lt; lia). cbn [andb].
      rewrite set_nth_same by lia. reflexivity.
    + rewrite set_nth_other by congruence.
      replace (Nat.leb (S k) i && Nat.ltb i (S k + n))%bool with (Nat.leb k i && Nat.ltb i (k + S n))%bool; [reflexivity|].
      destruct (Nat.leb k i) eqn:X, (Nat.ltb i (k + S n)) eqn:Y, (Nat.leb (S k) i) eqn:Z, (Nat.ltb i (S k + n)) eqn:W; try reflexivity;
      repeat match goal with
      | H : Nat.leb _ _ = true |- _ => apply Nat.leb_le in H
      | H : Nat.leb _ _ = false |- _ => apply Nat.leb_gt in H
      | H : Nat.ltb _ _ = true |- _ => apply Nat.ltb_lt in H
      | H : Nat.ltb _ _ = false |- _ => apply Nat.ltb_ge in H
      end; lia.
Qed.
Lemma fold_ext : forall A B (f g : A -> B -> A) l a, (forall a b, f a b = g a b) -> fold_left f l a = fold_left g l a.
Proof. intros A B f g l. induction l; intros a0 H; cbn; [reflexivity|]. rewrite H. now apply IHl. Qed.

(** Entry i of the result is the central difference of f along axis i. *)
Theorem C88_grad_entries : forall f h x n, nd_dtype x = NpFloat -> nd_shape x = [n] -> length (nd_data x) = n ->
  exists g, numeric_grad f h x = Some g /\ nd_dtype g = NpFloat /\ nd_shape g = [n] /\ length (nd_data g) = n /\
    forall i, (i < n)%nat -> nth i (nd_data g) 0 = (f (shifted x i h) - f (shifted x i (- h))) / (2 * h).
Proof.
  intros f h x n F S L. unfold numeric_grad. rewrite S. eexists. split; [reflexivity|].
  set (v := fun i => (f (np_zip Rplus x (np_set (zeros_like x) i h)) - f (np_zip Rminus x (np_set (zeros_like x) i h))) / (2 * h)).
  destruct (grad_loop v n 0 (zeros_like x)) as (A & B & C & D); [cbn [zeros_like nd_data]; rewrite map_length; lia|].
  cbv zeta in *. cbn [zeros_like nd_data nd_dtype nd_shape] in A, B, C. rewrite F in A. rewrite S in B. rewrite map_length, L in C.
  split; [exact A|]. split; [exact B|]. split; [exact C|].
  intros i Hi. unfold v in D at 1. cbv beta in D. rewrite D. cbn [zeros_like nd_dtype]. rewrite F. cbn [np_cast].
  replace (Nat.leb 0 i && Nat.ltb i (0 + n))%bool with true by (symmetry; apply andb_true_iff; split; [apply Nat.leb_le|apply Nat.ltb_lt]; lia).
  unfold v. rewrite (step_array Rplus x i h Rplus_0_r F), (step_array Rminus x i h Rminus_0_r F).
  unfold shifted. rewrite F. reflexivity.
Qed.

(** Accuracy: at most M h^2 / 6 from the partial derivative, where M bounds the third
    derivative of f along the axis; exact for functions at most quadratic in the entry. *)
Theorem C88_grad_bound : forall f h x n i g1 g2 g3 M, nd_dtype x = NpFloat -> nd_shape x = [n] -> length (nd_data x) = n -> 0 < h ->
  (i < n)%nat -> smooth3 (fun t => f (shifted x i t)) g1 g2 g3 h M ->
  exists g, numeric_grad f h x = Some g /\ Rabs (nth i (nd_data g) 0 - g1 0) <= M * (h * h) / 6.
Proof.
  intros f h x n i g1 g2 g3 M F S L Hh Hi Sm. destruct (C88_grad_entries f h x n F S L) as (g & E & _ & _ & _ & N).
  exists g. split; [exact E|]. rewrite (N i Hi). exact (central_bound _ _ _ _ _ _ Hh Sm).
Qed.
Theorem C88_grad_quadratic : forall f h x n i a b c, nd_dtype x = NpFloat -> nd_shape x = [n] -> length (nd_data x) = n -> 0 < h ->
  (i < n)%nat -> (forall t, f (shifted x i t) = a + b * t + c * t * t) ->
  exists g, numeric_grad f h x = Some g /\ nth i (nd_data g) 0 = b.
Proof.
  intros f h x n i a b c F S L Hh Hi Q. destruct (C88_grad_entries f h x n F S L) as (g & E & _ & _ & _ & N).
  exists g. split; [exact E|]. rewrite (N i Hi), !Q. field. lra.
Qed.
(** Not a vector: AssertionError. *)
Theorem C88_grad_not_a_vector : forall f h x, length (nd_shape x) <> 1%nat -> numeric_grad f h x = None.
Proof. intros f h x H. unfold numeric_grad. destruct (nd_shape x) as [|n [|m s]]; try reflexivity. exfalso. apply H. reflexivity. Qed.

(** Refuted: an integer array gets a gradient too.  The step is stored in an integer
    array, where a step below 1 becomes 0, and the result is 0 whatever the function. *)
Lemma trunc_small : forall r, Rabs r < 1 -> trunc r = 0.
Proof.
  assert (I : forall r, 0 <= r < 1 -> Int_part r = 0%Z).
  { intros r H. destruct (base_Int_part r) as [A B].
    assert (A' : (Int_part r < 1)%Z) by (apply lt_IZR; lra). assert (B' : (-1 < Int_part r)%Z) by (apply lt_IZR; lra). lia. }
  intros r H. unfold trunc. apply Rabs_def2 in H. destruct (Rle_dec 0 r) as [P|P].
  - rewrite I by lra. reflexivity.
  - rewrite I by lra. apply Ropp_0.
Qed.
Lemma set_zero : forall (l : list R) i, set_nth (map (fun _ => 0) l) i 0 = map (fun _ => 0) l.
Proof. intro l. induction l as [|x l IH]; intros [|i]; cbn; try reflexivity. now rewrite IH. Qed.
Theorem C88_grad_integers_refuted : forall f h x n, nd_dtype x = NpInt -> nd_shape x = [n] -> length (nd_data x) = n -> Rabs h < 1 ->
  exists g, numeric_grad f h x = Some g /\ length (nd_data g) = n /\ forall i, nth i (nd_data g) 0 = 0.
Proof.
  intros f h x n F S L Hh. unfold numeric_grad. rewrite S. eexists. split; [reflexivity|].
  set (v := fun i => (f (np_zip Rplus x (np_set (zeros_like x) i h)) - f (np_zip Rminus x (np_set (zeros_like x) i h))) / (2 * h)).
  destruct (grad_loop v n 0 (zeros_like x)) as (_ & _ & C & D); [cbn [zeros_like nd_data]; rewrite map_length; lia|].
  cbv zeta in *. cbn [zeros_like nd_data] in C. rewrite map_length, L in C. split; [exact C|].
  intro i. unfold v in D at 1. cbv beta in D. rewrite D.
  assert (Z : forall j, nth j (nd_data (zeros_like x)) 0 = 0).
  { intro j. cbn [zeros_like nd_data]. apply zero_nth. }
  destruct (Nat.leb 0 i && Nat.ltb i (0 + n))%bool; [|apply Z].
  cbn [zeros_like nd_dtype]. rewrite F. cbn [np_cast]. apply (eq_trans (y := trunc 0)); [|apply trunc_small; rewrite Rabs_R0; lra]. f_equal.
  unfold v. assert (E : np_zip Rminus x (np_set (zeros_like x) i h) = np_zip Rplus x (np_set (zeros_like x) i h)).
  { unfold np_zip. f_equal. unfold np_set, zeros_like. cbn [nd_data nd_dtype]. rewrite F. cbn [np_cast]. rewrite trunc_small by exact Hh.
    rewrite set_zero. clear. induction (nd_data x) as [|a l IH]; [reflexivity|]. cbn [map combine fst snd]. rewrite IH. f_equal. lra. }
  rewrite E. unfold Rdiv. rewrite Rminus_diag_eq by reflexivity. ring.
Qed.
