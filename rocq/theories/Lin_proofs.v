(** Proofs about the linearizations. *)
From Coq Require Import List Arith Bool Reals Lra Lia Permutation Sorted.
From Verif Require Import RSum Lin_model.
Import ListNotations.
Local Open Scope nat_scope.

(** first row of cost function [k], first column of the variable at place [q] *)
Definition row_of (cfs : list cost) (k : nat) : nat := list_sum (map k_dim (firstn k cfs)).
Definition col_of (o : ordering) (q : nat) : nat := list_sum (map snd (firstn q o)).

(** ---- ordering ---- *)
Lemma starts_from_nth o : forall a q, q < length o -> nth q (starts_from a o) 0 = a + col_of o q.
Proof.
  induction o as [|[v d] t IH]; simpl; intros a q Hq; [lia|].
  destruct q as [|q]; [unfold col_of; simpl; lia|]. rewrite IH by lia. unfold col_of. simpl. lia.
Qed.
Lemma fold_sum {X} (f : X -> nat) l : forall a, fold_left (fun c v => c + f v) l a = a + list_sum (map f l).
Proof. induction l as [|x t IH]; simpl; intros a; [lia|]. rewrite IH. lia. Qed.
Lemma num_cols_of o : num_cols o = col_of o (length o).
Proof. unfold num_cols, col_of. rewrite firstn_all, (fold_sum snd). reflexivity. Qed.
Lemma num_rows_of cfs : num_rows cfs = row_of cfs (length cfs).
Proof. unfold num_rows, row_of. rewrite firstn_all, (fold_sum k_dim). reflexivity. Qed.
Lemma sum_step {X} (f : X -> nat) (l : list X) q x : nth_error l q = Some x ->
  list_sum (map f (firstn (S q) l)) = list_sum (map f (firstn q l)) + f x.
Proof.
  revert q. induction l as [|y t IH]; intros [|q]; simpl; intros H; try discriminate.
  - injection H as ->. lia.
  - simpl in IH. rewrite (IH _ H). lia.
Qed.
Lemma sum_mono {X} (f : X -> nat) (l : list X) q q' : q <= q' -> list_sum (map f (firstn q l)) <= list_sum (map f (firstn q' l)).
Proof.
  revert q q'. induction l as [|y t IH]; intros q q' H; [rewrite !firstn_nil; lia|].
  destruct q as [|q], q' as [|q']; simpl; try lia. specialize (IH q q'). lia.
Qed.
Lemma col_of_step o q v d : nth_error o q = Some (v, d) -> col_of o (S q) = col_of o q + d.
Proof. intros H. unfold col_of. now rewrite (sum_step snd o q _ H). Qed.
Lemma col_of_disjoint o q q' v d : nth_error o q = Some (v, d) -> q < q' -> col_of o q + d <= col_of o q'.
Proof. intros H L. rewrite <- (col_of_step _ _ _ _ H). apply sum_mono. exact L. Qed.
Lemma row_of_disjoint cfs k k' cf : nth_error cfs k = Some cf -> k < k' -> row_of cfs k + k_dim cf <= row_of cfs k'.
Proof. intros H L. unfold row_of. rewrite <- (sum_step k_dim cfs k cf H). apply sum_mono. exact L. Qed.

Lemma index_of_sound v o q : index_of v o = Some q -> exists d, nth_error o q = Some (v, d).
Proof.
  revert q. induction o as [|[w d] t IH]; simpl; intros q H; [discriminate|].
  destruct (Nat.eqb_spec w v) as [->|Hne]; [injection H as <-; now exists d|].
  destruct (index_of v t) as [i|]; [|discriminate]. injection H as <-. simpl. now apply IH.
Qed.
Lemma index_of_complete v d o q : NoDup (map fst o) -> nth_error o q = Some (v, d) -> index_of v o = Some q.
Proof.
  revert q. induction o as [|[w e] t IH]; simpl; intros [|q] N H; try discriminate; inversion N as [|x l N1 N2]; subst.
  - injection H as -> ->. now rewrite Nat.eqb_refl.
  - simpl in H. destruct (Nat.eqb_spec w v) as [->|Hne].
    + exfalso. apply N1. apply nth_error_In in H. apply (in_map fst) in H. exact H.
    + now rewrite (IH _ N2 H).
Qed.
Lemma index_of_some_iff v o : (exists q, index_of v o = Some q) <-> In v (map fst o).
Proof.
  induction o as [|[w d] t IH]; simpl; [split; [intros [q H]; discriminate|tauto]|].
  destruct (Nat.eqb_spec w v) as [->|Hne]; [split; eauto|].
  rewrite <- IH. destruct (index_of v t) as [n|]; (split; [intros [q H]|intros [H|[q H]]]); try congruence; eauto.
Qed.
Lemma index_of_lt v o q : index_of v o = Some q -> q < length o.
Proof. intros H. destruct (index_of_sound _ _ _ H) as [d Hd]. apply nth_error_Some. congruence. Qed.
Lemma dof_of_eq v o q d : index_of v o = Some q -> nth_error o q = Some (v, d) -> dof_of v o = d.
Proof. intros H1 H2. unfold dof_of. rewrite H1. now rewrite (nth_error_nth o q (0, 0) H2). Qed.

(** ---- slices ---- *)
Definition no_overlap (a b : cslice) : Prop := snd (fst a) <= fst (fst b) \/ snd (fst b) <= fst (fst a).
Definition contains (c : nat) (a : cslice) : Prop := fst (fst a) <= c < snd (fst a).

Lemma col_slices_spec o : NoDup (map fst o) -> forall vars p sl, NoDup vars -> col_slices o p vars = Some sl ->
  length sl = length vars /\
  (forall i x, nth_error sl i = Some x -> exists v q d, nth_error vars i = Some v /\ index_of v o = Some q /\ nth_error o q = Some (v, d) /\
     x = (col_of o q, col_of o q + d, p + i)) /\
  ForallOrdPairs no_overlap sl.
Proof.
  intros No vars. induction vars as [|v t IH]; simpl; intros p sl Nv H.
  - injection H as <-. split; [reflexivity|split; [intros [|i] x Hx; discriminate|constructor]].
  - destruct (index_of v o) as [q|] eqn:Eq; [|discriminate].
    destruct (col_slices o (S p) t) as [r|] eqn:Er; [|discriminate]. injection H as <-.
    inversion Nv as [|x l N1 N2]; subst.
    destruct (IH (S p) r N2 Er) as (Hl & Hn & Hf). destruct (index_of_sound _ _ _ Eq) as [d Hd].
    pose proof (index_of_lt _ _ _ Eq) as Lq. unfold var_start_cols.
    rewrite (starts_from_nth o 0 q Lq), (dof_of_eq v o q d Eq Hd), Nat.add_0_l.
    split; [simpl; lia|split].
    + intros [|i] x Hx; simpl in Hx.
      * injection Hx as <-. exists v, q, d. rewrite Nat.add_0_r. auto.
      * destruct (Hn i x Hx) as (w & q' & d' & H1 & H2 & H3 & H4). exists w, q', d'. simpl. rewrite Nat.add_succ_r. auto.
    + constructor; [|exact Hf]. apply Forall_forall. intros x Hx. apply In_nth_error in Hx. destruct Hx as [i Hi].
      destruct (Hn i x Hi) as (w & q' & d' & H1 & H2 & H3 & ->). unfold no_overlap. cbn [fst snd].
      assert (Hqq : q <> q'). { intros ->. rewrite Hd in H3. injection H3 as -> _. apply N1. eapply nth_error_In; eauto. }
      destruct (Nat.lt_ge_cases q q') as [L|L].
      * left. eapply col_of_disjoint; eauto.
      * right. eapply col_of_disjoint; eauto. lia.
Qed.
Lemma col_slices_some o : forall vars p, (forall v, In v vars -> In v (map fst o)) -> exists sl, col_slices o p vars = Some sl.
Proof.
  induction vars as [|v t IH]; simpl; intros p H; [eauto|].
  destruct (IH (S p)) as [r Hr]; [auto|]. destruct (proj2 (index_of_some_iff v o)) as [q Hq]; [auto|].
  rewrite Hr, Hq. eauto.
Qed.
Lemma col_slices_none o v : forall vars p, In v vars -> ~ In v (map fst o) -> col_slices o p vars = None.
Proof.
  induction vars as [|w t IH]; simpl; intros p H Hv; [tauto|]. destruct H as [->|H].
  - destruct (index_of v o) as [q|] eqn:E; [|reflexivity]. exfalso. apply Hv. apply index_of_some_iff. eauto.
  - rewrite (IH (S p) H Hv). now destruct (index_of w o).
Qed.

(** ---- sorting ---- *)
Lemma insert_perm a l : Permutation (a :: l) (insert a l).
Proof.
  induction l as [|b t IH]; simpl; [reflexivity|]. destruct (slice_leb a b); [reflexivity|].
  rewrite perm_swap. now constructor.
Qed.
Lemma sort_perm l : Permutation l (sort_slices l).
Proof. induction l as [|a t IH]; simpl; [constructor|]. rewrite <- insert_perm. now constructor. Qed.
Lemma slice_leb_total a b : slice_leb a b = true \/ slice_leb b a = true.
Proof.
  destruct a as [[s t] i], b as [[s' t'] i']. unfold slice_leb.
  destruct (Nat.ltb_spec s s'), (Nat.ltb_spec s' s), (Nat.eqb_spec s s'), (Nat.eqb_spec s' s); simpl; auto; try lia.
  destruct (Nat.ltb_spec t t'), (Nat.ltb_spec t' t), (Nat.eqb_spec t t'), (Nat.eqb_spec t' t); simpl; auto; try lia.
  destruct (Nat.leb_spec i i'), (Nat.leb_spec i' i); auto; lia.
Qed.
Definition sle (a b : cslice) : Prop := slice_leb a b = true.
Lemma slice_leb_trans a b c : sle a b -> sle b c -> sle a c.
Proof.
  destruct a as [[s t] i], b as [[s' t'] i'], c as [[s2 t2] i2]. unfold sle, slice_leb.
  rewrite !orb_true_iff, !andb_true_iff, !orb_true_iff, !andb_true_iff, !Nat.ltb_lt, !Nat.eqb_eq, !Nat.leb_le. lia.
Qed.
Lemma insert_sorted a l : StronglySorted sle l -> StronglySorted sle (insert a l).
Proof.
  induction l as [|b t IH]; simpl; intros H; [repeat constructor|].
  inversion H as [|x y H1 H2]; subst. destruct (slice_leb a b) eqn:E.
  - constructor; [exact H|]. constructor; [exact E|]. rewrite Forall_forall in *. intros x Hx.
    eapply slice_leb_trans; [exact E|now apply H2].
  - constructor; [now apply IH|]. rewrite Forall_forall in *. intros x Hx.
    apply (Permutation_in x (Permutation_sym (insert_perm a t))) in Hx. destruct Hx as [<-|Hx]; [|now apply H2].
    destruct (slice_leb_total a b) as [K|K]; [congruence|exact K].
Qed.
Lemma sort_sorted l : StronglySorted sle (sort_slices l).
Proof. induction l as [|a t IH]; simpl; [constructor|]. now apply insert_sorted. Qed.

Lemma FOP_perm {X} (Rel : X -> X -> Prop) (Hs : forall a b, Rel a b -> Rel b a) l l' :
  Permutation l l' -> ForallOrdPairs Rel l -> ForallOrdPairs Rel l'.
Proof.
  induction 1 as [|x l l' P IH|x y l|l l2 l3 P1 IH1 P2 IH2]; intros H; auto.
  - inversion H as [|a b H1 H2]; subst. constructor; [|auto]. rewrite Forall_forall in *. intros z Hz. apply H1.
    eapply Permutation_in; [symmetry; exact P|exact Hz].
  - inversion H as [|a b H1 H2]; subst. inversion H2 as [|a b H3 H4]; subst. inversion H1; subst.
    constructor; [constructor; auto|]. constructor; auto.
Qed.
Lemma no_overlap_sym a b : no_overlap a b -> no_overlap b a.
Proof. unfold no_overlap. tauto. Qed.
Lemma FOP_app_nth {X} (Rel : X -> X -> Prop) l i j a b : ForallOrdPairs Rel l -> i < j -> nth_error l i = Some a -> nth_error l j = Some b -> Rel a b.
Proof.
  intros H. revert i j. induction H as [|x l H1 H2 IH]; intros [|i] [|j] L Ha Hb; simpl in *; try lia; try discriminate.
  - injection Ha as ->. rewrite Forall_forall in H1. apply H1. eapply nth_error_In; eauto.
  - apply (IH i j); auto. lia.
Qed.

(** ---- sums over slices ---- *)
Local Open Scope R_scope.
Definition slice_val (f : nat -> nat -> R) (c : nat) (x : cslice) : R :=
  let '(s, t, i) := x in if ((s <=? c) && (c <? t))%nat then f i (c - s)%nat else 0.
Fixpoint lsum {X} (g : X -> R) (l : list X) : R := match l with [] => 0 | x :: t => g x + lsum g t end.
Lemma lsum_perm {X} (g : X -> R) l l' : Permutation l l' -> lsum g l = lsum g l'.
Proof. induction 1; simpl; lra. Qed.
Lemma slice_val_in f c s t i : contains c (s, t, i) -> slice_val f c (s, t, i) = f i (c - s)%nat.
Proof. unfold contains, slice_val. simpl. intros [H1 H2]. rewrite (proj2 (Nat.leb_le _ _) H1), (proj2 (Nat.ltb_lt _ _) H2). reflexivity. Qed.
Lemma slice_val_out f c x : ~ contains c x -> slice_val f c x = 0.
Proof.
  destruct x as [[s t] i]. unfold contains, slice_val. simpl. intros H.
  destruct (Nat.leb_spec s c), (Nat.ltb_spec c t); simpl; try reflexivity. exfalso. apply H. lia.
Qed.
Lemma lsum_out f c l : (forall x, In x l -> ~ contains c x) -> lsum (slice_val f c) l = 0.
Proof.
  induction l as [|x t IH]; simpl; intros H; [reflexivity|]. rewrite IH by auto. rewrite slice_val_out by auto. lra.
Qed.
Lemma lsum_hit f c l x : ForallOrdPairs no_overlap l -> In x l -> contains c x -> lsum (slice_val f c) l = slice_val f c x.
Proof.
  induction 1 as [|y l H1 H2 IH]; simpl; intros Hin Hc; [tauto|]. rewrite Forall_forall in H1. destruct Hin as [->|Hin].
  - rewrite lsum_out; [lra|]. intros z Hz Hcz. specialize (H1 z Hz). unfold no_overlap, contains in *. lia.
  - rewrite (IH Hin Hc). rewrite slice_val_out; [lra|]. intros Hcy. specialize (H1 x Hin). unfold no_overlap, contains in *. lia.
Qed.
Lemma contains_dec c x : {contains c x} + {~ contains c x}.
Proof.
  unfold contains. destruct (le_dec (fst (fst x)) c), (lt_dec c (snd (fst x))); [left; lia|right; lia|right; lia|right; lia].
Qed.
Lemma find_slice c l : {x | In x l /\ contains c x} + {forall x, In x l -> ~ contains c x}.
Proof.
  induction l as [|y t IH]; simpl; [right; tauto|]. destruct (contains_dec c y) as [H|H]; [left; exists y; auto|].
  destruct IH as [[x [H1 H2]]|H1]; [left; exists x; auto|right]. intros x [<-|Hx]; auto.
Qed.

(** ---- dense ---- *)
Lemma write_block_out row nrows col ncols J A r c : ~ (row <= r < row + nrows /\ col <= c < col + ncols)%nat ->
  write_block row nrows col ncols J A r c = A r c.
Proof.
  intros H. unfold write_block.
  destruct (Nat.leb_spec row r), (Nat.ltb_spec r (row + nrows)), (Nat.leb_spec col c), (Nat.ltb_spec c (col + ncols)); simpl; try reflexivity.
  exfalso. apply H. lia.
Qed.
Lemma write_block_in row nrows col ncols J A r c : (row <= r < row + nrows)%nat -> (col <= c < col + ncols)%nat ->
  write_block row nrows col ncols J A r c = J (r - row)%nat (c - col)%nat.
Proof.
  intros H1 H2. unfold write_block.
  destruct (Nat.leb_spec row r), (Nat.ltb_spec r (row + nrows)), (Nat.leb_spec col c), (Nat.ltb_spec c (col + ncols)); simpl; try reflexivity; lia.
Qed.
Lemma dense_vars_rows o cf row : forall vars p A A', dense_vars o cf row p vars A = Some A' ->
  forall r c, ~ (row <= r < row + k_dim cf)%nat -> A' r c = A r c.
Proof.
  induction vars as [|v t IH]; simpl; intros p A A' H r c Hr; [injection H as <-; reflexivity|].
  destruct (index_of v o) as [q|]; [|discriminate]. rewrite (IH _ _ _ H r c Hr). apply write_block_out. tauto.
Qed.
(** the Jacobians have as many columns as the variables have degrees of freedom *)
Definition jac_shapes (o : ordering) (cf : cost) : Prop :=
  forall p v, nth_error (k_vars cf) p = Some v -> k_jcols cf p = dof_of v o.

Lemma dense_vars_spec o cf row : forall vars p A A' sl,
  (forall i v, nth_error vars i = Some v -> k_jcols cf (p + i) = dof_of v o) ->
  dense_vars o cf row p vars A = Some A' -> col_slices o p vars = Some sl -> ForallOrdPairs no_overlap sl ->
  forall r c, (row <= r < row + k_dim cf)%nat ->
  (forall s t i, In (s, t, i) sl -> contains c (s, t, i) -> A' r c = k_jac cf i (r - row)%nat (c - s)%nat) /\
  ((forall x, In x sl -> ~ contains c x) -> A' r c = A r c).
Proof.
  induction vars as [|v vs IH]; simpl; intros p A A' sl Hj H Hs Hf r c Hr.
  - injection H as <-. injection Hs as <-. split; [intros s t i []|reflexivity].
  - destruct (index_of v o) as [q|] eqn:Eq; [|discriminate].
    destruct (col_slices o (S p) vs) as [sl'|] eqn:Es; [|discriminate]. injection Hs as <-.
    inversion Hf as [|a b F1 F2]; subst.
    assert (Hj' : forall i w, nth_error vs i = Some w -> k_jcols cf (S p + i) = dof_of w o).
    { intros i w Hw. specialize (Hj (S i) w Hw). now rewrite Nat.add_succ_r in Hj. }
    destruct (IH (S p) _ _ sl' Hj' H Es F2 r c Hr) as [I1 I2].
    assert (Hd : k_jcols cf p = dof_of v o). { specialize (Hj 0%nat v eq_refl). now rewrite Nat.add_0_r in Hj. }
    rewrite Forall_forall in F1. split.
    + intros s t i [E|Hin] Hc.
      * injection E as <- <- <-. rewrite I2.
        -- apply write_block_in; [exact Hr|]. unfold contains in Hc. simpl in Hc. rewrite Hd. exact Hc.
        -- intros x Hx Hcx. specialize (F1 x Hx). unfold no_overlap, contains in *. simpl in *. lia.
      * eapply I1; eauto.
    + intros Hn. rewrite I2; [|intros x Hx; apply Hn; now right]. apply write_block_out. intros [_ K].
      apply (Hn _ (or_introl eq_refl)). unfold contains. simpl. rewrite Hd in K. exact K.
Qed.
Lemma dense_vars_some o cf row : forall vars p A sl, col_slices o p vars = Some sl -> exists A', dense_vars o cf row p vars A = Some A'.
Proof.
  induction vars as [|v t IH]; simpl; intros p A sl H; [eauto|].
  destruct (index_of v o) as [q|]; [|discriminate]. destruct (col_slices o (S p) t) as [r|] eqn:E; [|discriminate]. eapply IH; eauto.
Qed.

Lemma dense_vars_slices o cf row : forall vars p A A', dense_vars o cf row p vars A = Some A' -> exists sl, col_slices o p vars = Some sl.
Proof.
  induction vars as [|v t IH]; simpl; intros p A A' H; [eauto|].
  destruct (index_of v o) as [q|]; [|discriminate]. destruct (IH _ _ _ H) as [r ->]. eauto.
Qed.
Lemma write_rows_in row n e b r : (row <= r < row + n)%nat -> write_rows row n e b r = - e (r - row)%nat.
Proof. intros H. unfold write_rows. destruct (Nat.leb_spec row r), (Nat.ltb_spec r (row + n)); simpl; try reflexivity; lia. Qed.
Lemma write_rows_out row n e b r : ~ (row <= r < row + n)%nat -> write_rows row n e b r = b r.
Proof. intros H. unfold write_rows. destruct (Nat.leb_spec row r), (Nat.ltb_spec r (row + n)); simpl; try reflexivity; exfalso; apply H; lia. Qed.

Definition cf_ok (o : ordering) (cf : cost) : Prop := NoDup (k_vars cf) /\ jac_shapes o cf.

(** rows before [row] are not changed *)
Lemma dense_cfs_before o : forall cfs row A b A' b', dense_cfs o cfs row A b = Some (A', b') ->
  forall r c, (r < row)%nat -> A' r c = A r c /\ b' r = b r.
Proof.
  induction cfs as [|cf t IH]; simpl; intros row A b A' b' H r c Hr; [injection H as <- <-; auto|].
  destruct (dense_vars o cf row 0 (k_vars cf) A) as [A1|] eqn:E; [|discriminate].
  destruct (IH _ _ _ _ _ H r c) as [-> ->]; [lia|].
  rewrite (dense_vars_rows _ _ _ _ _ _ _ E) by lia. rewrite write_rows_out by lia. auto.
Qed.
Lemma dense_cfs_spec o (No : NoDup (map fst o)) : forall cfs row A b A' b',
  Forall (cf_ok o) cfs -> dense_cfs o cfs row A b = Some (A', b') ->
  (forall r c, (row <= r)%nat -> A r c = 0) ->
  forall k cf, nth_error cfs k = Some cf -> exists sl, col_slices o 0 (k_vars cf) = Some sl /\
  forall i, (i < k_dim cf)%nat ->
    b' (row + row_of cfs k + i)%nat = - k_err cf i /\
    forall c, A' (row + row_of cfs k + i)%nat c = lsum (slice_val (fun p => k_jac cf p i) c) sl.
Proof.
  induction cfs as [|cf0 t IH]; simpl; intros row A b A' b' Hok H HA k cf Hk; [now destruct k|].
  inversion Hok as [|x l [Hn Hj] Hok']; subst.
  destruct (dense_vars o cf0 row 0 (k_vars cf0) A) as [A1|] eqn:E; [|discriminate].
  destruct k as [|k]; simpl in Hk.
  - injection Hk as <-.
    destruct (dense_vars_slices _ _ _ _ _ _ _ E) as [sl Es].
    exists sl. split; [exact Es|]. intros i Hi. unfold row_of. simpl. rewrite Nat.add_0_r.
    destruct (col_slices_spec o No _ _ _ Hn Es) as (_ & _ & Hf).
    split.
    + destruct (dense_cfs_before _ _ _ _ _ _ _ H (row + i)%nat 0%nat) as [_ ->]; [lia|].
      rewrite write_rows_in by lia. f_equal. f_equal. lia.
    + intros c. destruct (dense_cfs_before _ _ _ _ _ _ _ H (row + i)%nat c) as [-> _]; [lia|].
      assert (Hj0 : forall i v, nth_error (k_vars cf0) i = Some v -> k_jcols cf0 (0 + i) = dof_of v o) by (intros; now apply Hj).
      destruct (dense_vars_spec o cf0 row _ _ _ _ _ Hj0 E Es Hf (row + i)%nat c) as [D1 D2]; [lia|].
      destruct (find_slice c sl) as [[[[s u] p] [Hin Hc]]|Hno].
      * rewrite (D1 _ _ _ Hin Hc), (lsum_hit _ _ _ _ Hf Hin Hc), (slice_val_in _ _ _ _ _ Hc). f_equal. lia.
      * rewrite (D2 Hno), lsum_out by exact Hno. apply HA. lia.
  - assert (HA1 : forall r c, (row + k_dim cf0 <= r)%nat -> A1 r c = 0).
    { intros r c Hr. rewrite (dense_vars_rows _ _ _ _ _ _ _ E) by lia. apply HA. lia. }
    destruct (IH _ _ _ _ _ Hok' H HA1 k cf Hk) as (sl & Hsl & Hb). exists sl. split; [exact Hsl|]. intros i Hi.
    unfold row_of in *. simpl. rewrite Nat.add_assoc. now apply Hb.
Qed.
Lemma dense_cfs_some o : forall cfs row A b, Forall (fun cf => exists sl, col_slices o 0 (k_vars cf) = Some sl) cfs ->
  exists A' b', dense_cfs o cfs row A b = Some (A', b').
Proof.
  induction cfs as [|cf t IH]; simpl; intros row A b H; [eauto|]. inversion H as [|x l [sl Hs] H']; subst.
  destruct (dense_vars_some o cf row (k_vars cf) 0 A sl Hs) as [A1 ->]. now apply IH.
Qed.
Lemma dense_cfs_slices o : forall cfs row A b A' b', dense_cfs o cfs row A b = Some (A', b') ->
  Forall (fun cf => exists sl, col_slices o 0 (k_vars cf) = Some sl) cfs.
Proof.
  induction cfs as [|cf t IH]; simpl; intros row A b A' b' H; [constructor|].
  destruct (dense_vars o cf row 0 (k_vars cf) A) as [A1|] eqn:E; [|discriminate]. constructor; [|eapply IH; eauto].
  eapply dense_vars_slices; eauto.
Qed.
