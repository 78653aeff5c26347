From Coq Require Import ZArith List Bool Lia Arith Sorted Reals.
Import ListNotations.
From Verif Require Import Rsm_model.
Open Scope nat_scope.

(** Specification *)
Definition has (m : lil) (r c : nat) : Prop := In c (nth r m []).
(** a legal set of draws: columns below num_cols, rows below num_rows, one selection per column *)
Definition legal (num_rows num_cols k : nat) (sels : list (list nat)) (last_col : nat) (draws : list (nat * nat)) : Prop :=
  length sels = num_cols /\ (forall s, In s sels -> multinomial_draw num_rows (Nat.min num_rows k) s)
  /\ last_col < num_cols /\ (forall d, In d draws -> fst d < num_cols /\ snd d < num_rows).
(** [int(x)] of a real number *)
Definition truncated (x : R) (z : Z) : Prop := (0 <= x -> IZR z <= x < IZR z + 1)%R /\ (x < 0 -> IZR z - 1 < x <= IZR z)%R.

Lemma row_set_in c l x : In x (row_set c l) <-> x = c \/ In x l.
Proof.
  induction l as [|y l IH]; cbn [row_set]; [cbn; intuition|]. destruct (Nat.ltb_spec c y); [cbn; intuition|].
  destruct (Nat.eqb_spec c y) as [->|]; cbn [In]; [intuition|]. rewrite IH. intuition.
Qed.
Definition sorted_row (l : list nat) := StronglySorted lt l.
Lemma row_set_sorted c l : sorted_row l -> sorted_row (row_set c l).
Proof.
  unfold sorted_row. induction l as [|y l IH]; cbn [row_set]; intro H; [repeat constructor|].
  inversion H as [|? ? H1 H2]; subst. destruct (Nat.ltb_spec c y).
  - constructor; [exact H|]. constructor; [assumption|]. eapply Forall_impl; [|exact H2]. cbn. intros. lia.
  - destruct (Nat.eqb_spec c y); [exact H|]. constructor; [apply IH; assumption|].
    apply Forall_forall. intros x K. apply row_set_in in K. destruct K as [->|K]; [lia|]. exact (proj1 (Forall_forall _ _) H2 x K).
Qed.
Lemma sorted_nodup l : sorted_row l -> NoDup l.
Proof.
  induction 1 as [|x l H IH F]; constructor; [|assumption]. intro K. pose proof (proj1 (Forall_forall _ _) F x K). cbn in *. lia.
Qed.
Lemma row_set_len c l : sorted_row l -> length (row_set c l) = if in_dec Nat.eq_dec c l then length l else S (length l).
Proof.
  induction l as [|y l IH]; intro H; [reflexivity|]. inversion H as [|? ? H1 H2]; subst. cbn [row_set].
  destruct (Nat.ltb_spec c y).
  - destruct (in_dec Nat.eq_dec c (y :: l)) as [K|K]; [|reflexivity]. exfalso. destruct K as [K|K]; [lia|].
    pose proof (proj1 (Forall_forall _ _) H2 c K). cbn in *. lia.
  - destruct (Nat.eqb_spec c y) as [->|N].
    + destruct (in_dec Nat.eq_dec y (y :: l)) as [K|K]; [reflexivity|]. exfalso. apply K. now left.
    + cbn [length]. rewrite (IH H1). destruct (in_dec Nat.eq_dec c l) as [K|K], (in_dec Nat.eq_dec c (y :: l)) as [K'|K']; try reflexivity.
      * exfalso. apply K'. now right.
      * exfalso. destruct K' as [K'|K']; [congruence|contradiction].
Qed.
Lemma lil_len r c m : length (lil_set r c m) = length m.
Proof. revert r. induction m as [|l m IH]; intros [|r]; cbn; auto. Qed.
Lemma set_has : forall m r c r' c', r < length m -> (has (lil_set r c m) r' c' <-> (r' = r /\ c' = c) \/ has m r' c').
Proof.
  unfold has. induction m as [|l m IH]; intros r c r' c' H; cbn in H; [lia|].
  destruct r as [|r], r' as [|r']; cbn [lil_set nth].
  - rewrite row_set_in. intuition.
  - intuition lia.
  - intuition lia.
  - rewrite IH by lia. intuition lia.
Qed.
Definition wf (num_rows num_cols : nat) (m : lil) : Prop :=
  length m = num_rows /\ (forall l, In l m -> sorted_row l) /\ (forall r c, has m r c -> c < num_cols).
Lemma set_sorted : forall m r c, (forall l, In l m -> sorted_row l) -> forall l, In l (lil_set r c m) -> sorted_row l.
Proof.
  induction m as [|l m IH]; intros [|r] c H l' K; cbn in K; try contradiction.
  - destruct K as [<-|K]; [apply row_set_sorted, H; now left|apply H; now right].
  - destruct K as [<-|K]; [apply H; now left|]. eapply IH; [|exact K]. intros l0 K0. apply H. now right.
Qed.
Lemma set_wf n w m r c : wf n w m -> r < n -> c < w -> wf n w (lil_set r c m).
Proof.
  intros (A & B & C) Hr Hc. split; [now rewrite lil_len|]. split; [now apply set_sorted|].
  intros r' c' H. apply set_has in H; [|lia]. destruct H as [[_ ->]|H]; [exact Hc|exact (C _ _ H)].
Qed.
Lemma empty_has n r c : ~ has (lil_empty n) r c.
Proof.
  unfold has, lil_empty. intro H. assert (E : nth r (repeat (@nil nat) n) [] = []). { clear. revert r. induction n; intros [|r]; cbn; auto. }
  rewrite E in H. exact H.
Qed.
Lemma empty_wf n w : wf n w (lil_empty n).
Proof.
  split; [apply repeat_length|]. split.
  - intros l H. apply repeat_spec in H. subst. constructor.
  - intros r c H. now apply empty_has in H.
Qed.
Lemma nnz_set : forall m r c, (forall l, In l m -> sorted_row l) -> r < length m ->
  getnnz (lil_set r c m) = if in_dec Nat.eq_dec c (nth r m []) then getnnz m else S (getnnz m).
Proof.
  unfold getnnz. induction m as [|l m IH]; intros r c H Hr; cbn in Hr; [lia|]. destruct r as [|r]; cbn [lil_set map list_sum fold_right nth].
  - rewrite row_set_len by (apply H; now left). destruct (in_dec Nat.eq_dec c l); reflexivity.
  - change (fold_right Nat.add 0 ?x) with (list_sum x). rewrite IH; [|intros; apply H; now right|lia]. destruct (in_dec Nat.eq_dec c (nth r m [])); lia.
Qed.

(** columns *)
Lemma column_has : forall sel c m n w, wf n w m -> c < w -> (forall r, In r sel -> r < n) ->
  wf n w (set_column c sel m) /\ forall r' c', has (set_column c sel m) r' c' <-> (c' = c /\ In r' sel) \/ has m r' c'.
Proof.
  unfold set_column. induction sel as [|r sel IH]; intros c m n w W Hc H; cbn [fold_left].
  - split; [exact W|]. intros. cbn. tauto.
  - destruct (IH c (lil_set r c m) n w) as [A B]; [apply set_wf; [exact W|apply H; now left|exact Hc]|exact Hc|intros; apply H; now right|].
    split; [exact A|]. intros r' c'. rewrite B, set_has by (destruct W as [-> _]; apply H; now left). cbn [In]. intuition.
Qed.
Lemma columns_has : forall sels c m n w, wf n w m -> c + length sels <= w -> (forall s r, In s sels -> In r s -> r < n) ->
  wf n w (fill_columns c sels m) /\
  forall r' c', has (fill_columns c sels m) r' c' <-> (c <= c' < c + length sels /\ In r' (nth (c' - c) sels [])) \/ has m r' c'.
Proof.
  induction sels as [|sel sels IH]; intros c m n w W Hc H; cbn [fill_columns].
  - split; [exact W|]. intros. cbn. split; [auto|]. intros [[K _]|K]; [lia|exact K].
  - cbn [length] in Hc. destruct (column_has sel c m n w W ltac:(lia) ltac:(intros; eapply H; [now left|assumption])) as [W1 H1].
    destruct (IH (S c) _ n w W1 ltac:(lia) ltac:(intros; eapply H; [right; eassumption|assumption])) as [W2 H2].
    split; [exact W2|]. intros r' c'. rewrite H2, H1. cbn [length]. split.
    + intros [[K1 K2]|[[-> K]|K]]; [|left; split; [lia|]; now rewrite Nat.sub_diag|now right].
      left. split; [lia|]. replace (c' - c) with (S (c' - S c)) by lia. exact K2.
    + intros [[K1 K2]|K]; [|right; now right]. destruct (Nat.eq_dec c' c) as [->|N].
      * rewrite Nat.sub_diag in K2. right. left. auto.
      * left. split; [lia|]. replace (c' - c) with (S (c' - S c)) in K2 by lia. exact K2.
Qed.
Lemma loop_props : forall draws num m n w out, wf n w m -> (forall d, In d draws -> fst d < w /\ snd d < n) ->
  fill_loop num draws m = Some out ->
  wf n w out /\ (forall r c, has m r c -> has out r c) /\ Z.of_nat (getnnz out) = Z.max (Z.of_nat (getnnz m)) num.
Proof.
  induction draws as [|[col row] draws IH]; intros num m n w out W H E; cbn [fill_loop] in E.
  - destruct (Z.ltb_spec (Z.of_nat (getnnz m)) num); [discriminate|]. injection E as <-. split; [exact W|]. split; [auto|]. lia.
  - destruct (Z.ltb_spec (Z.of_nat (getnnz m)) num) as [L|L]; [|injection E as <-; split; [exact W|]; split; [auto|]; lia].
    destruct (H (col, row) (or_introl eq_refl)) as [Hc Hr]. cbn in Hc, Hr.
    destruct (IH num _ n w out (set_wf n w m row col W Hr Hc) ltac:(intros; apply H; now right) E) as (A & B & C).
    split; [exact A|]. split.
    + intros r c K. apply B. apply set_has; [destruct W as [-> _]; exact Hr|]. now right.
    + rewrite C. rewrite nnz_set; [|apply W|destruct W as [-> _]; exact Hr]. destruct (in_dec Nat.eq_dec col (nth row m [])); lia.
Qed.

(** the matrix before the loop *)
Definition seeded (n k : nat) (sels : list (list nat)) (last_col : nat) : lil :=
  lil_set (n - 1) last_col (if (1 <? n) && (0 <? k) then fill_columns 0 sels (lil_empty n) else lil_empty n).
Lemma seeded_props n w k sels lc draws : 0 < n -> legal n w k sels lc draws ->
  wf n w (seeded n k sels lc) /\ has (seeded n k sels lc) (n - 1) lc /\
  (1 < n -> 0 < k -> forall r c, has (seeded n k sels lc) r c <-> (c < w /\ In r (nth c sels [])) \/ (r = n - 1 /\ c = lc)) /\
  (~ (1 < n /\ 0 < k) -> forall r c, has (seeded n k sels lc) r c <-> r = n - 1 /\ c = lc).
Proof.
  intros Hn (A & B & C & D). unfold seeded.
  destruct (columns_has sels 0 (lil_empty n) n w (empty_wf n w) ltac:(lia)) as [W H].
  { intros s r K K'. exact (proj1 (proj2 (proj2 (B s K))) r K'). }
  assert (EW := empty_wf n w).
  destruct (Nat.ltb_spec 1 n) as [L1|L1]; [destruct (Nat.ltb_spec 0 k) as [L2|L2]|]; cbn [andb].
  - split; [apply set_wf; [exact W|lia|exact C]|]. assert (LN : n - 1 < length (fill_columns 0 sels (lil_empty n))) by (destruct W as [-> _]; lia).
    split; [apply set_has; [exact LN|]; left; auto|]. split; [|tauto].
    intros _ _ r c. rewrite set_has by exact LN. rewrite H, Nat.sub_0_r. pose proof (empty_has n r c). rewrite A. intuition lia.
  - split; [apply set_wf; [exact EW|lia|exact C]|]. assert (LN : n - 1 < length (lil_empty n)) by (destruct EW as [-> _]; lia).
    split; [apply set_has; [exact LN|]; left; auto|]. split; [lia|].
    intros _ r c. rewrite set_has by exact LN. pose proof (empty_has n r c). tauto.
  - split; [apply set_wf; [exact EW|lia|exact C]|]. assert (LN : n - 1 < length (lil_empty n)) by (destruct EW as [-> _]; lia).
    split; [apply set_has; [exact LN|]; left; auto|]. split; [lia|].
    intros _ r c. rewrite set_has by exact LN. pose proof (empty_has n r c). tauto.
Qed.
Lemma binary_unfold n w num k sels lc draws :
  random_sparse_binary_matrix n w num k sels lc draws = fill_loop num draws (seeded n k sels lc).
Proof. reflexivity. Qed.

(** Every matrix the function returns: every column has at least [min num_rows min_entries_per_col]
    entries (two rows or more), the last row is not empty, and the number of entries is at least the
    number asked for, and exactly that number unless the first two steps already made more. *)
Theorem C92_matrix : forall num_rows num_cols num_entries k sels lc draws m, 0 < num_rows ->
  legal num_rows num_cols k sels lc draws ->
  random_sparse_binary_matrix num_rows num_cols num_entries k sels lc draws = Some m ->
  length m = num_rows /\ (forall r c, has m r c -> r < num_rows /\ c < num_cols) /\
  (1 < num_rows -> forall c, c < num_cols -> exists rows, length rows = Nat.min num_rows k /\ NoDup rows /\ forall r, In r rows -> has m r c) /\
  (exists c, has m (num_rows - 1) c) /\
  (num_entries <= Z.of_nat (getnnz m) <= Z.max num_entries (Z.of_nat (Nat.min num_rows k * num_cols + 1)))%Z.
Proof.
  intros n w num k sels lc draws m Hn HL E. pose proof HL as (A & B & C & D).
  destruct (seeded_props n w k sels lc draws Hn HL) as (W & HLast & H1 & H2). rewrite binary_unfold in E.
  destruct (loop_props draws num _ n w m W D E) as (WM & SUB & CNT).
  split; [apply WM|]. split.
  { intros r c K. split; [|exact (proj2 (proj2 WM) r c K)]. destruct (Nat.lt_ge_cases r n) as [L|L]; [exact L|].
    exfalso. unfold has in K. rewrite nth_overflow in K by (destruct WM as [-> _]; exact L). exact K. }
  split.
  { intros L c Hc. destruct (Nat.eq_dec k 0) as [->|K0].
    - exists []. rewrite Nat.min_0_r. repeat split; [constructor|intros r []].
    - exists (nth c sels []). assert (IS : In (nth c sels []) sels) by (apply nth_In; lia). destruct (B _ IS) as (B1 & B2 & B3 & B4).
      split; [exact B1|]. split; [exact B2|]. intros r Hr. apply SUB, H1; [exact L|lia|]. left. auto. }
  split; [exists lc; apply SUB; exact HLast|].
  split; [lia|]. rewrite CNT. apply Z.max_lub; [|lia]. etransitivity; [|apply Z.le_max_r].
  (* entries of the seeded matrix *)
  apply inj_le. unfold seeded.
  assert (STEP : forall mm r c, (forall l, In l mm -> sorted_row l) -> r < length mm -> getnnz (lil_set r c mm) <= S (getnnz mm)).
  { intros mm r c S L. rewrite nnz_set by assumption. destruct (in_dec Nat.eq_dec c (nth r mm [])); lia. }
  assert (E0 : getnnz (lil_empty n) = 0). { clear. unfold getnnz, lil_empty. induction n; cbn; auto. }
  assert (CB : forall sel c mm, wf n w mm -> c < w -> (forall r, In r sel -> r < n) -> getnnz (set_column c sel mm) <= getnnz mm + length sel).
  { unfold set_column. induction sel as [|r sel IH]; intros c mm WW Hc HS; cbn [fold_left length]; [lia|].
    etransitivity; [apply IH; [apply set_wf; [exact WW|apply HS; now left|exact Hc]|exact Hc|intros; apply HS; now right]|].
    pose proof (STEP mm r c (proj1 (proj2 WW)) ltac:(destruct WW as [-> _]; apply HS; now left)). lia. }
  assert (CC : forall ss c mm, wf n w mm -> c + length ss <= w -> (forall s, In s ss -> multinomial_draw n (Nat.min n k) s) ->
     getnnz (fill_columns c ss mm) <= getnnz mm + Nat.min n k * length ss).
  { induction ss as [|s ss IH]; intros c mm WW Hc HS; cbn [fill_columns length]; [lia|]. cbn [length] in Hc.
    pose proof (HS s (or_introl eq_refl)) as (S1 & S2 & S3 & S4).
    etransitivity; [apply IH; [apply (column_has s c mm n w WW); [lia|exact S3]|lia|intros; apply HS; now right]|].
    pose proof (CB s c mm WW ltac:(lia) S3). rewrite S1 in H. nia. }
  destruct ((1 <? n) && (0 <? k)) eqn:EB.
  - destruct (columns_has sels 0 (lil_empty n) n w (empty_wf n w) ltac:(lia)) as [W' _].
    { intros s r K K'. exact (proj1 (proj2 (proj2 (B s K))) r K'). }
    pose proof (STEP _ (n - 1) lc (proj1 (proj2 W')) ltac:(destruct W' as [-> _]; lia)).
    pose proof (CC sels 0 (lil_empty n) (empty_wf n w) ltac:(lia) B). rewrite A, E0 in H0. lia.
  - pose proof (STEP (lil_empty n) (n - 1) lc (proj1 (proj2 (empty_wf n w))) ltac:(unfold lil_empty; rewrite repeat_length; lia)). lia.
Qed.

(** the arrays handed out by [random_sparse_matrix]: a valid CSR structure for the same entries *)
Lemma cumsum_len : forall l a, length (cumsum a l) = S (length l).
Proof. induction l as [|x l IH]; intros a; cbn; [reflexivity|]. now rewrite IH. Qed.
Lemma cumsum_nth : forall l a i, i <= length l -> nth i (cumsum a l) 0 = a + list_sum (firstn i l).
Proof.
  induction l as [|x l IH]; intros a i H; cbn in H; [replace i with 0 by lia; cbn; lia|]. destruct i; [cbn; lia|].
  cbn [cumsum nth firstn list_sum fold_right]. rewrite IH by lia. change (fold_right Nat.add 0 ?y) with (list_sum y). lia.
Qed.
Lemma concat_slice : forall (m : lil) r, r < length m ->
  firstn (length (nth r m [])) (skipn (list_sum (firstn r (map (@length nat) m))) (concat m)) = nth r m [].
Proof.
  induction m as [|l m IH]; intros r H; cbn in H; [lia|]. destruct r as [|r]; cbn [map firstn list_sum fold_right nth concat].
  - cbn [skipn]. rewrite firstn_app, Nat.sub_diag, firstn_all. cbn. apply app_nil_r.
  - change (fold_right Nat.add 0 ?y) with (list_sum y). rewrite skipn_app. rewrite skipn_all2 by lia. cbn [app].
    replace (length l + list_sum (firstn r (map (@length nat) m)) - length l) with (list_sum (firstn r (map (@length nat) m))) by lia. apply IH. lia.
Qed.
Theorem C92_csr : forall num_rows num_cols num_entries k sels lc draws m, 0 < num_rows ->
  legal num_rows num_cols k sels lc draws ->
  random_sparse_binary_matrix num_rows num_cols num_entries k sels lc draws = Some m ->
  let ptr := csr_indptr m in let ind := csr_indices m in
  length ptr = S num_rows /\ nth 0 ptr 0 = 0 /\ nth num_rows ptr 0 = length ind /\ length ind = getnnz m /\
  forall r, r < num_rows -> nth r ptr 0 <= nth (S r) ptr 0 /\
    StronglySorted lt (firstn (nth (S r) ptr 0 - nth r ptr 0) (skipn (nth r ptr 0) ind)) /\
    forall c, In c (firstn (nth (S r) ptr 0 - nth r ptr 0) (skipn (nth r ptr 0) ind)) <-> has m r c.
Proof.
  intros n w num k sels lc draws m Hn HL E. pose proof HL as (A & B & C & D).
  destruct (seeded_props n w k sels lc draws Hn HL) as (W & HLast & H1 & H2). rewrite binary_unfold in E.
  destruct (loop_props draws num _ n w m W D E) as ((W1 & W2 & W3) & _ & _). cbv zeta. unfold csr_indptr, csr_indices.
  assert (LC : length (concat m) = getnnz m). { clear. unfold getnnz. induction m as [|l m IH]; cbn; [reflexivity|]. rewrite app_length, IH. reflexivity. }
  split; [rewrite cumsum_len, map_length; lia|]. split; [rewrite cumsum_nth by lia; reflexivity|].
  split. { rewrite cumsum_nth by (rewrite map_length; lia). rewrite firstn_all2 by (rewrite map_length; lia). rewrite LC. reflexivity. }
  split; [exact LC|]. intros r Hr. rewrite !cumsum_nth by (rewrite map_length; lia).
  assert (ST : list_sum (firstn (S r) (map (@length nat) m)) = list_sum (firstn r (map (@length nat) m)) + length (nth r m [])).
  { clear - Hr W1. subst n. revert r Hr. induction m as [|l m IH]; intros r Hr; cbn in Hr; [lia|]. destruct r as [|r]; [cbn; lia|].
    cbn [map nth]. rewrite !firstn_cons. cbn [list_sum fold_right]. change (fold_right Nat.add 0 ?y) with (list_sum y). rewrite IH by lia. lia. }
  rewrite ST. cbn [Nat.add]. replace (_ + _ - _) with (length (nth r m [])) by lia.
  split; [lia|]. rewrite concat_slice by lia. split; [apply W2, nth_In; lia|]. reflexivity.
Qed.

(** Termination: from any state with fewer entries than asked for, if not more entries are asked for than
    the matrix can hold, one more legal draw adds an entry, so some legal draws end the loop; and if more
    are asked for, no draws do. *)
Lemma nnz_bound : forall n w m, wf n w m -> getnnz m <= n * w.
Proof.
  intros n w m (A & B & C). subst n. unfold getnnz. unfold has in C.
  assert (G : forall l, In l m -> length l <= w).
  { intros l K. assert (ND : NoDup l) by (apply sorted_nodup, B, K). destruct (In_nth m l [] K) as (r & Hr & E).
    assert (INC : incl l (seq 0 w)). { intros x Hx. apply in_seq. split; [lia|]. cbn. apply (C r). now rewrite E. }
    pose proof (NoDup_incl_length ND INC). now rewrite seq_length in H. }
  clear B C. induction m as [|l m IH]; cbn; [lia|]. pose proof (G l (or_introl eq_refl)).
  specialize (IH ltac:(intros; apply G; now right)). unfold list_sum in IH. lia.
Qed.
Lemma missing n w m : wf n w m -> getnnz m < n * w -> exists r c, r < n /\ c < w /\ ~ has m r c.
Proof.
  intros W L. pose proof W as (A & B & C).
  assert (EX : exists r, r < n /\ length (nth r m []) < w).
  { subst n. unfold getnnz in L. clear B C W. revert L. induction m as [|l m IH]; intro L; cbn in L; [lia|].
    destruct (Nat.lt_ge_cases (length l) w) as [K|K]; [exists 0; cbn; split; [lia|exact K]|].
    destruct IH as (r & R1 & R2). { cbn in L. unfold list_sum. lia. } exists (S r). cbn. split; [lia|exact R2]. }
  destruct EX as (r & Hr & Hl). exists r.
  assert (NI : ~ incl (seq 0 w) (nth r m [])).
  { intro I1. pose proof (NoDup_incl_length (seq_NoDup w 0) I1). rewrite seq_length in H. lia. }
  assert (DEC : forall l : list nat, {exists c, In c l /\ ~ In c (nth r m [])} + {incl l (nth r m [])}).
  { induction l as [|x l [H|H]]; [right; intros y []|left; destruct H as (c & H1 & H2); exists c; split; [now right|exact H2]|].
    destruct (in_dec Nat.eq_dec x (nth r m [])) as [K|K]; [right; intros y [<-|Hy]; [exact K|now apply H]|left; exists x; split; [now left|exact K]]. }
  destruct (DEC (seq 0 w)) as [(c & H1 & H2)|H]; [|contradiction]. exists c. apply in_seq in H1. repeat split; [exact Hr|lia|exact H2].
Qed.
Theorem C92_terminates_iff : forall num_rows num_cols num_entries k sels lc, 0 < num_rows ->
  legal num_rows num_cols k sels lc [] ->
  ((num_entries <= Z.of_nat (num_rows * num_cols))%Z <->
   exists draws m, legal num_rows num_cols k sels lc draws /\
     random_sparse_binary_matrix num_rows num_cols num_entries k sels lc draws = Some m).
Proof.
  intros n w num k sels lc Hn HL. pose proof HL as (A & B & C & D). split.
  - intro LE. destruct (seeded_props n w k sels lc [] Hn HL) as (W & _).
    assert (G : forall g m, wf n w m -> n * w - getnnz m <= g -> exists draws out,
      (forall d, In d draws -> fst d < w /\ snd d < n) /\ fill_loop num draws m = Some out).
    { induction g as [|g IH]; intros m WM HG.
      - pose proof (nnz_bound n w m WM). exists [], m. split; [intros d []|]. cbn. destruct (Z.ltb_spec (Z.of_nat (getnnz m)) num); [lia|reflexivity].
      - destruct (Z.ltb_spec (Z.of_nat (getnnz m)) num) as [L|L].
        + destruct (missing n w m WM ltac:(lia)) as (r & c & Hr & Hc & NH).
          destruct (IH (lil_set r c m) (set_wf n w m r c WM Hr Hc)) as (draws & out & K1 & K2).
          { rewrite nnz_set; [|apply WM|destruct WM as [-> _]; exact Hr]. destruct (in_dec Nat.eq_dec c (nth r m [])) as [K|K]; [contradiction|lia]. }
          exists ((c, r) :: draws), out. split; [intros d [<-|Hd]; [auto|now apply K1]|]. cbn [fill_loop].
          rewrite (proj2 (Z.ltb_lt _ _) L). exact K2.
        + exists [], m. split; [intros d []|]. cbn. destruct (Z.ltb_spec (Z.of_nat (getnnz m)) num); [lia|reflexivity]. }
    destruct (G _ _ W (le_n _)) as (draws & out & K1 & K2). exists draws, out. split; [exact (conj A (conj B (conj C K1)))|exact K2].
  - intros (draws & m & HL' & E). destruct HL' as (A' & B' & C' & D').
    destruct (seeded_props n w k sels lc [] Hn HL) as (W & _). rewrite binary_unfold in E.
    destruct (loop_props draws num _ n w m W D' E) as (WM & _ & CNT). pose proof (nnz_bound n w m WM). lia.
Qed.
(** in terms of [fill]: 0 <= fill <= 1 is always satisfiable, and the result then has more than
    fill*rows*cols - 1 entries; from fill*rows*cols >= rows*cols + 1 the function never returns *)
Theorem C92_fill : forall num_rows num_cols fill num_entries k sels lc, 0 < num_rows ->
  legal num_rows num_cols k sels lc [] -> truncated (fill * INR num_rows * INR num_cols) num_entries ->
  ((0 <= fill <= 1)%R -> exists draws m, legal num_rows num_cols k sels lc draws /\
     random_sparse_binary_matrix num_rows num_cols num_entries k sels lc draws = Some m) /\
  ((INR (num_rows * num_cols) + 1 <= fill * INR num_rows * INR num_cols)%R ->
     forall draws, legal num_rows num_cols k sels lc draws -> random_sparse_binary_matrix num_rows num_cols num_entries k sels lc draws = None) /\
  (forall draws m, legal num_rows num_cols k sels lc draws -> (0 <= fill)%R ->
     random_sparse_binary_matrix num_rows num_cols num_entries k sels lc draws = Some m ->
     (fill * INR num_rows * INR num_cols - 1 < INR (getnnz m))%R).
Proof.
  intros n w fill num k sels lc Hn HL (T1 & T2).
  pose proof (pos_INR n) as P1. pose proof (pos_INR w) as P2.
  assert (PW : (0 <= INR n * INR w)%R) by (apply Rmult_le_pos; assumption).
  split; [|split].
  - intros [F0 F1]. apply (C92_terminates_iff n w num k sels lc Hn HL).
    assert (F : (0 <= fill * INR n * INR w)%R) by (rewrite Rmult_assoc; apply Rmult_le_pos; assumption).
    specialize (T1 F). apply le_IZR. rewrite <- INR_IZR_INZ, mult_INR.
    apply Rle_trans with (fill * INR n * INR w)%R; [apply T1|]. rewrite Rmult_assoc. rewrite <- (Rmult_1_l (INR n * INR w)) at 2.
    apply Rmult_le_compat_r; assumption.
  - intros F draws HL'. destruct (random_sparse_binary_matrix n w num k sels lc draws) as [m|] eqn:E; [|reflexivity]. exfalso.
    assert (LE : (num <= Z.of_nat (n * w))%Z) by (apply (C92_terminates_iff n w num k sels lc Hn HL); eauto).
    pose proof (pos_INR (n * w)) as P3. assert (FP : (0 <= fill * INR n * INR w)%R) by (eapply Rle_trans; [|exact F]; apply Rplus_le_le_0_compat; [exact P3|apply Rle_0_1]).
    specialize (T1 FP). apply IZR_le in LE. rewrite <- INR_IZR_INZ in LE. destruct T1 as [_ T1]. 
    apply (Rlt_irrefl (INR (n * w) + 1)). eapply Rle_lt_trans; [exact F|]. eapply Rlt_le_trans; [exact T1|]. apply Rplus_le_compat_r. exact LE.
  - intros draws m HL' F0 E. assert (F : (0 <= fill * INR n * INR w)%R) by (rewrite Rmult_assoc; apply Rmult_le_pos; assumption).
    destruct (C92_matrix n w num k sels lc draws m Hn HL' E) as (_ & _ & _ & _ & [CB _]).
    apply IZR_le in CB. rewrite <- INR_IZR_INZ in CB. destruct (T1 F) as [_ T3].
    apply Rlt_le_trans with (IZR num); [|exact CB]. apply (Rplus_lt_reg_r 1). unfold Rminus. rewrite Rplus_assoc, Rplus_opp_l, Rplus_0_r. exact T3.
Qed.

(** Refuted: with one row the minimum per column is not enforced; whatever [min_entries_per_col], the
    matrix before the filling loop has one entry *)
Theorem C92_one_row_refuted : forall num_cols num_entries k sels lc, lc < num_cols -> (num_entries <= 1)%Z ->
  exists m, random_sparse_binary_matrix 1 num_cols num_entries k sels lc [] = Some m /\ forall r c, has m r c <-> r = 0 /\ c = lc.
Proof.
  intros w num k sels lc H LE. exists [[lc]]. split.
  - unfold random_sparse_binary_matrix. cbn. destruct (Z.ltb_spec 1 num); [lia|reflexivity].
  - intros [|[|r]] c; unfold has; cbn; intuition lia.
Qed.
(** Refuted: every row is a row of the result. The weights of the draw are 0, 1, 2, ..., so unless
    [min_entries_per_col >= num_rows] the first row gets no entry from the first two steps. *)
Theorem C92_first_row_refuted : forall num_rows num_cols num_entries k sels lc, 1 < num_rows -> k < num_rows ->
  legal num_rows num_cols k sels lc [] -> (num_entries <= 1)%Z ->
  exists m, random_sparse_binary_matrix num_rows num_cols num_entries k sels lc [] = Some m /\ forall c, ~ has m 0 c.
Proof.
  intros n w num k sels lc L1 L2 HL LE. destruct (seeded_props n w k sels lc [] ltac:(lia) HL) as (W & HLast & H1 & H2).
  assert (NZ : 1 <= getnnz (seeded n k sels lc)).
  { destruct W as (WL & _ & _). unfold has in HLast. unfold getnnz.
    assert (G : forall (m : lil) r c, In c (nth r m []) -> 1 <= list_sum (map (@length nat) m)).
    { clear. induction m as [|l m IH]; intros [|r] c H; cbn in H; try contradiction; cbn [map list_sum fold_right].
      - destruct l; [contradiction|]. cbn. lia.
      - specialize (IH r c H). unfold list_sum in IH. lia. }
    exact (G _ _ _ HLast). }
  exists (seeded n k sels lc). split.
  - rewrite binary_unfold. cbn [fill_loop]. destruct (Z.ltb_spec (Z.of_nat (getnnz (seeded n k sels lc))) num); [lia|reflexivity].
  - intros c Hc. destruct (Nat.eq_dec k 0) as [->|K0].
    + apply (H2 ltac:(lia)) in Hc. lia.
    + apply (H1 L1 ltac:(lia)) in Hc. destruct Hc as [[Hc K]|[K _]]; [|lia].
      destruct HL as (A & B & _ & _). assert (IS : In (nth c sels []) sels) by (apply nth_In; lia).
      destruct (B _ IS) as (_ & _ & _ & B4). specialize (B4 K). lia.
Qed.
Example C92_example : legal 3 2 1 [[2]; [1]] 0 [(0, 0); (0, 2)] /\
  random_sparse_binary_matrix 3 2 3 1 [[2]; [1]] 0 [(0, 0); (0, 2)] = Some [[0]; [1]; [0]] /\
  csr_indptr [[0]; [1]; [0]] = [0; 1; 2; 3] /\ csr_indices [[0]; [1]; [0]] = [0; 1; 0].
Proof.
  split; [|vm_compute; auto]. unfold legal, multinomial_draw. cbn [length Nat.min In].
  split; [reflexivity|]. split; [|split; [lia|]].
  - intros s [<-|[<-|[]]]; cbn; repeat split; try (repeat constructor; cbn; intuition lia); intuition lia.
  - intros d [<-|[<-|[]]]; cbn; lia.
Qed.

(** [split_into_param_sizes] *)
Open Scope Z_scope.
Definition zsum (l : list Z) : Z := fold_right Z.add 0 l.
Lemma split_props : forall lo hi n draws tot l, (forall d, In d draws -> lo <= d < hi) -> split_loop n draws tot = Some l ->
  (tot <= n -> tot + zsum l = n) /\ (tot < n -> l <> []) /\ (tot >= n -> l = []) /\ (forall p, In p l -> p < hi) /\
  (forall front lastp, l = (front ++ [lastp])%list -> (forall p, In p front -> lo <= p)).
Proof.
  intros lo hi n. induction draws as [|d draws IH]; intros tot l H E; cbn [split_loop] in E.
  - destruct (Z.ltb_spec tot n); [discriminate|]. injection E as <-. cbn.
    split; [lia|]. split; [lia|]. split; [auto|]. split; [intros p []|]. intros front lastp K. destruct front; discriminate.
  - destruct (Z.ltb_spec tot n) as [L|L].
    + destruct (split_loop n draws (tot + Z.min d (n - tot))) as [l'|] eqn:E'; [|discriminate]. injection E as <-.
      destruct (IH _ _ ltac:(intros; apply H; now right) E') as (A & B & C & D & F). pose proof (H d (or_introl eq_refl)) as Hd.
      split; [intros _; cbn [zsum fold_right]; change (fold_right Z.add 0 l') with (zsum l'); specialize (A ltac:(lia)); lia|].
      split; [discriminate|]. split; [lia|]. split; [intros p [<-|K]; [lia|now apply D]|].
      intros front lastp K p Hp. destruct front as [|x front]; [destruct Hp|]. cbn in K. injection K as K1 K2.
      destruct Hp as [<-|Hp]; [|exact (F front lastp K2 p Hp)]. subst x. destruct (Z.le_gt_cases (n - tot) d) as [Q|Q]; [|lia].
      rewrite Z.min_r in E' by lia. replace (tot + (n - tot)) with n in E' by lia.
      destruct (split_loop n draws n) eqn:EE; [|discriminate]. injection E' as <-.
      assert (l = []) by (destruct draws; cbn [split_loop] in EE; rewrite Z.ltb_irrefl in EE; injection EE; auto). subst l. destruct front; discriminate.
    + injection E as <-. cbn. split; [lia|]. split; [lia|]. split; [auto|]. split; [intros p []|]. intros front lastp K. destruct front; discriminate.
Qed.
(** the sizes add up to [n], each is below the exclusive upper end, and all but the last reach the lower end *)
Theorem C92_split : forall lo hi n draws l, (forall d, In d draws -> lo <= d < hi) -> split_into_param_sizes n draws = Some l ->
  (0 <= n -> zsum l = n) /\ (n <= 0 -> l = []) /\ (forall p, In p l -> p < hi) /\
  (forall front lastp, l = (front ++ [lastp])%list -> forall p, In p front -> lo <= p) /\
  (1 <= lo -> forall p, In p l -> 1 <= p).
Proof.
  intros lo hi n draws l H E. unfold split_into_param_sizes in E. destruct (split_props lo hi n draws 0 l H E) as (A & B & C & D & F).
  split; [intro; specialize (A ltac:(lia)); lia|]. split; [intro; apply C; lia|]. split; [exact D|]. split; [exact F|].
  intros LO. revert l E A B C D F. generalize 0 as tot. induction draws as [|d draws IH]; intros tot l E A B C D F p Hp; cbn [split_loop] in E.
  - destruct (tot <? n); [discriminate|]. injection E as <-. destruct Hp.
  - destruct (Z.ltb_spec tot n) as [L|L]; [|injection E as <-; destruct Hp].
    destruct (split_loop n draws (tot + Z.min d (n - tot))) as [l'|] eqn:E'; [|discriminate]. injection E as <-.
    assert (HD : forall d', In d' draws -> lo <= d' < hi) by (intros; apply H; now right).
    destruct Hp as [<-|Hp]; [pose proof (H d (or_introl eq_refl)); lia|].
    destruct (split_props lo hi n draws _ l' HD E') as (A' & B' & C' & D' & F'). exact (IH HD _ l' E' A' B' C' D' F' p Hp).
Qed.
(** positive sizes: [n] draws always suffice *)
Theorem C92_split_terminates : forall lo hi n draws, 1 <= lo -> (forall d, In d draws -> lo <= d < hi) ->
  n <= Z.of_nat (length draws) -> exists l, split_into_param_sizes n draws = Some l.
Proof.
  intros lo hi n draws LO H LE. unfold split_into_param_sizes.
  assert (G : forall tot, n - tot <= Z.of_nat (length draws) -> exists l, split_loop n draws tot = Some l).
  { clear LE. induction draws as [|d draws IH]; intros tot K; cbn [split_loop length] in *.
    - destruct (Z.ltb_spec tot n); [lia|]. eauto.
    - destruct (Z.ltb_spec tot n); [|eauto]. pose proof (H d (or_introl eq_refl)).
      destruct (IH ltac:(intros; apply H; now right) (tot + Z.min d (n - tot)) ltac:(lia)) as [l' ->]. eauto. }
  apply G. lia.
Qed.
(** Refuted: with a lower end of 0, sizes of 0 are possible, and the range (0, 1) never returns. *)
Theorem C92_split_zero_refuted : forall n draws, 0 < n -> (forall d, In d draws -> 0 <= d < 1) -> split_into_param_sizes n draws = None.
Proof.
  intros n draws L H. unfold split_into_param_sizes. induction draws as [|d draws IH]; cbn [split_loop].
  - destruct (Z.ltb_spec 0 n); [reflexivity|lia].
  - destruct (Z.ltb_spec 0 n); [|lia]. pose proof (H d (or_introl eq_refl)). replace (Z.min d (n - 0)) with 0 by lia.
    rewrite Z.add_0_r. rewrite IH by (intros; apply H; now right). reflexivity.
Qed.
(** Refuted: the last size may be below the lower end (5 split with sizes from {2, 3}). *)
Theorem C92_split_last_refuted : exists draws l, (forall d, In d draws -> 2 <= d < 4) /\ split_into_param_sizes 5 draws = Some l /\ exists p, In p l /\ p < 2.
Proof.
  exists [2; 2; 3], [2; 2; 1]. split; [intros d [<-|[<-|[<-|[]]]]; lia|]. split; [reflexivity|]. exists 1. cbn. split; [auto|lia].
Qed.
