(** Proofs about the sparse linearization: structure and values. *)
From Coq Require Import List Arith Bool Reals Lra Lia Permutation Sorted.
From Verif Require Import RSum Lin_model Lin_proofs.
Import ListNotations.
Local Open Scope nat_scope.

Definition size (x : cslice) : nat := snd (fst x) - fst (fst x).
Definition idx (x : cslice) : nat := snd x.
(** where the columns of the slice at place [m] start in the row *)
Definition off (l : list cslice) (m : nat) : nat := list_sum (map size (firstn m l)).

Lemma off_cons x r m : off (x :: r) (S m) = size x + off r m.
Proof. reflexivity. Qed.
Lemma size_eq s t i : size (s, t, i) = t - s.
Proof. reflexivity. Qed.
Lemma length_col_ind l : length (col_ind_of l) = list_sum (map size l).
Proof.
  induction l as [|[[s t] i] r IH]; [reflexivity|]. unfold col_ind_of in *. cbn [flat_map map list_sum fold_right].
  rewrite app_length, seq_length, IH. reflexivity.
Qed.
Lemma col_ind_nth l : forall m s t i j, nth_error l m = Some (s, t, i) -> j < t - s -> nth (off l m + j) (col_ind_of l) 0 = s + j.
Proof.
  induction l as [|[[s0 t0] i0] r IH]; intros [|m] s t i j H Hj; try discriminate; unfold col_ind_of in *; cbn [flat_map].
  - injection H as -> -> ->. unfold off. simpl. rewrite app_nth1 by (rewrite seq_length; lia). now rewrite seq_nth.
  - simpl in H. rewrite off_cons, size_eq. rewrite app_nth2 by (rewrite seq_length; lia). rewrite seq_length.
    replace (t0 - s0 + off r m + j - (t0 - s0)) with (off r m + j) by lia.
    eapply IH; eauto.
Qed.
Lemma pointers_nth l : forall acc m x, nth_error l m = Some x -> nth_error (pointers acc l) m = Some (acc + off l m).
Proof.
  induction l as [|[[s0 t0] i0] r IH]; intros acc [|m] x H; try discriminate; cbn [pointers nth_error].
  - unfold off. simpl. f_equal. lia.
  - simpl in H. rewrite (IH _ _ _ H). f_equal. rewrite off_cons, size_eq. lia.
Qed.
Lemma pointers_length l : forall acc, length (pointers acc l) = length l.
Proof. induction l as [|[[s0 t0] i0] r IH]; intros acc; simpl; [reflexivity|]. now rewrite IH. Qed.
Definition bp_step (f : nat -> option nat) (x : cslice * nat) : nat -> option nat :=
  let '(_, _, i) := fst x in fun k => if Nat.eqb k i then Some (snd x) else f k.
Lemma bp_fold_out : forall (l : list (cslice * nat)) f k, ~ In k (map (fun x => idx (fst x)) l) -> fold_left bp_step l f k = f k.
Proof.
  induction l as [|[[[s t] i] q] r IH]; simpl; intros f k H; [reflexivity|].
  rewrite IH by tauto. unfold bp_step. simpl. destruct (Nat.eqb_spec k i); [|reflexivity]. subst. exfalso. apply H. left. reflexivity.
Qed.
Lemma bp_fold_in : forall (l : list (cslice * nat)) f m s t i q, NoDup (map (fun x => idx (fst x)) l) -> nth_error l m = Some ((s, t, i), q) ->
  fold_left bp_step l f i = Some q.
Proof.
  induction l as [|[[[s0 t0] i0] q0] r IH]; intros f [|m] s t i q N H; try discriminate; inversion N as [|a b N1 N2]; subst.
  - injection H as -> -> -> ->. cbn [fold_left]. rewrite bp_fold_out by exact N1. unfold bp_step. simpl. now rewrite Nat.eqb_refl.
  - cbn [fold_left]. eapply IH; eauto.
Qed.
Lemma nth_error_combine {A B} (l : list A) (l' : list B) m a b : nth_error l m = Some a -> nth_error l' m = Some b -> nth_error (combine l l') m = Some (a, b).
Proof. revert l' m. induction l as [|x t IH]; intros [|y u] [|m] H1 H2; simpl in *; try discriminate; [congruence|auto]. Qed.
Lemma combine_fst {A B} (l : list A) (l' : list B) : length l = length l' -> map fst (combine l l') = l.
Proof. revert l'. induction l as [|x t IH]; intros [|y u] H; simpl in *; try discriminate; [reflexivity|]. f_equal. apply IH. lia. Qed.
Lemma block_pointers_nth l m s t i : NoDup (map idx l) -> nth_error l m = Some (s, t, i) -> block_pointers l i = Some (off l m).
Proof.
  intros N H. unfold block_pointers. change (fun f (x : cslice * nat) => let '(_, _, i0) := fst x in fun k => if k =? i0 then Some (snd x) else f k) with bp_step.
  eapply (bp_fold_in _ _ m s t i).
  - rewrite <- (map_map fst idx), combine_fst; [exact N|now rewrite pointers_length].
  - apply nth_error_combine; [exact H|]. rewrite (pointers_nth _ 0 _ _ H). reflexivity.
Qed.
Lemma off_le l m x : nth_error l m = Some x -> off l m + size x <= length (col_ind_of l).
Proof.
  intros H. unfold off. rewrite <- (sum_step size l m x H), length_col_ind. rewrite <- (firstn_all l) at 2. 
  destruct (le_lt_dec (S m) (length l)) as [L|L]; [apply sum_mono; exact L|].
  assert (m < length l) by (apply nth_error_Some; congruence). lia.
Qed.
Lemma off_disjoint l m m' x : nth_error l m = Some x -> m < m' -> off l m + size x <= off l m'.
Proof. intros H L. unfold off. rewrite <- (sum_step size l m x H). now apply sum_mono. Qed.
(** every place of the row belongs to a slice *)
Lemma off_find l : forall k, k < length (col_ind_of l) -> exists m x j, nth_error l m = Some x /\ j < size x /\ k = off l m + j.
Proof.
  induction l as [|y r IH]; intros k Hk; [simpl in Hk; lia|].
  rewrite length_col_ind in Hk. change (list_sum (map size (y :: r))) with (size y + list_sum (map size r)) in Hk.
  destruct (Nat.lt_ge_cases k (size y)) as [L|L].
  - exists 0, y, k. unfold off. simpl. auto.
  - destruct (IH (k - size y)) as (m & x & j & H1 & H2 & H3).
    { rewrite length_col_ind. lia. }
    exists (S m), x, j. split; [exact H1|split; [exact H2|]]. rewrite off_cons. lia.
Qed.

(** the sum over one CSR row *)
Lemma row_sum (J : nat -> nat -> R) c : forall l (V : nat -> R),
  (forall m s t i j, nth_error l m = Some (s, t, i) -> j < t - s -> V (off l m + j) = J i j) ->
  rsum (length (col_ind_of l)) (fun k => if Nat.eqb (nth k (col_ind_of l) 0) c then V k else 0%R) = lsum (slice_val J c) l.
Proof.
  induction l as [|[[s t] i] r IH]; intros V HV; [reflexivity|].
  unfold col_ind_of. cbn [flat_map]. fold (col_ind_of r). rewrite app_length, seq_length, rsum_app. cbn [lsum]. f_equal.
  - rewrite (rsum_ext _ _ (fun k => if Nat.eqb k (c - s) then (if Nat.leb s c then J i k else 0%R) else 0%R)).
    + rewrite (rsum_delta (t - s) (c - s) (fun k => if Nat.leb s c then J i k else 0%R)). unfold slice_val.
      destruct (Nat.leb_spec s c), (Nat.ltb_spec (c - s) (t - s)), (Nat.ltb_spec c t); simpl; try reflexivity; lia.
    + intros k Hk. rewrite app_nth1 by (rewrite seq_length; lia). rewrite seq_nth by lia.
      destruct (Nat.eqb_spec (s + k) c), (Nat.eqb_spec k (c - s)), (Nat.leb_spec s c); try lia; try reflexivity.
      specialize (HV 0 s t i k eq_refl Hk). exact HV.
  - rewrite <- (IH (fun k => V (t - s + k))).
    + apply rsum_ext. intros k Hk. rewrite app_nth2 by (rewrite seq_length; lia). rewrite seq_length.
      replace (t - s + k - (t - s)) with k by lia. reflexivity.
    + intros m s' t' i' j H Hj. specialize (HV (S m) s' t' i' j H Hj). rewrite <- HV. f_equal. rewrite off_cons, size_eq. lia.
Qed.

(** strictly increasing columns *)
Lemma col_ind_increasing l : StronglySorted sle l -> ForallOrdPairs no_overlap l -> Forall (fun x => fst (fst x) <= snd (fst x)) l ->
  StronglySorted lt (col_ind_of l).
Proof.
  induction l as [|[[s t] i] r IH]; intros HS HF HW; [constructor|].
  inversion HS as [|a b S1 S2]; subst. inversion HF as [|a b F1 F2]; subst. inversion HW as [|a b W1 W2]; subst.
  unfold col_ind_of. cbn [flat_map]. fold (col_ind_of r). specialize (IH S1 F2 W2).
  assert (Hb : Forall (fun c => t <= c) (col_ind_of r)).
  { apply Forall_forall. intros c Hc. unfold col_ind_of in Hc. apply in_flat_map in Hc. destruct Hc as ([[s' t'] i'] & Hin & Hc).
    apply in_seq in Hc. rewrite Forall_forall in S2, F1, W2. specialize (S2 _ Hin). specialize (F1 _ Hin). specialize (W2 _ Hin).
    unfold sle, slice_leb, no_overlap in *. cbn [fst snd] in *.
    rewrite !orb_true_iff, !andb_true_iff, !orb_true_iff, !andb_true_iff, !Nat.ltb_lt, !Nat.eqb_eq, !Nat.leb_le in S2. lia. }
  cbn [fst snd] in W1. clear -IH Hb W1. remember (t - s) as n eqn:En.
  assert (Hn : s + n = t) by lia. clear En W1. revert s Hn.
  induction n as [|n IHn]; intros s Hn; [exact IH|]. cbn [seq app]. constructor; [apply IHn; lia|].
  apply Forall_app. split; [|eapply Forall_impl; [|exact Hb]; intros c Hc; cbv beta in Hc; lia].
  apply Forall_forall. intros c Hc. apply in_seq in Hc. lia.
Qed.

(** ---- filling the values ---- *)
Lemma div_mod_block stride r c : c < stride -> (r * stride + c) / stride = r /\ (r * stride + c) mod stride = c.
Proof.
  intros H. split.
  - rewrite Nat.div_add_l by lia. rewrite Nat.div_small by lia. lia.
  - rewrite Nat.add_comm, Nat.mod_add by lia. now apply Nat.mod_small.
Qed.
Lemma write_val_at bs stride nrows ptr n J val r c : r < nrows -> c < stride ->
  write_val bs stride nrows ptr n J val (bs + (r * stride + c)) =
  if (ptr <=? c) && (c <? ptr + n) then Some (J r (c - ptr)) else val (bs + (r * stride + c)).
Proof.
  intros Hr Hc. unfold write_val.
  assert (K : r * stride + c < stride * nrows).
  { apply Nat.lt_le_trans with (r * stride + stride); [lia|]. rewrite (Nat.mul_comm stride).
    replace (r * stride + stride) with (S r * stride) by (simpl; lia). apply Nat.mul_le_mono_r. lia. }
  destruct (Nat.leb_spec bs (bs + (r * stride + c))); [|lia].
  destruct (Nat.ltb_spec (bs + (r * stride + c)) (bs + stride * nrows)); [|lia]. cbn [andb].
  replace (bs + (r * stride + c) - bs) with (r * stride + c) by lia.
  destruct (div_mod_block stride r c Hc) as [-> ->]. reflexivity.
Qed.
Lemma write_val_out bs stride nrows ptr n J val k : ~ (bs <= k < bs + stride * nrows) -> write_val bs stride nrows ptr n J val k = val k.
Proof.
  intros H. unfold write_val. destruct (Nat.leb_spec bs k), (Nat.ltb_spec k (bs + stride * nrows)); simpl; try reflexivity. exfalso. apply H. lia.
Qed.
Lemma fill_vars_out cf cs : forall vars p val val', fill_vars cf cs p vars val = Some val' ->
  forall k, ~ (s_start cs <= k < s_start cs + s_stride cs * k_dim cf) -> val' k = val k.
Proof.
  induction vars as [|v t IH]; simpl; intros p val val' H k Hk; [injection H as <-; reflexivity|].
  destruct (s_pointers cs p) as [ptr|]; [|discriminate]. rewrite (IH _ _ _ H k Hk). now apply write_val_out.
Qed.
Definition hits (cf : cost) (cs : cf_struct) (c p : nat) : Prop := exists ptr, s_pointers cs p = Some ptr /\ ptr <= c < ptr + k_jcols cf p.
Lemma fill_vars_miss cf cs r c : r < k_dim cf -> c < s_stride cs -> forall vars p val val', fill_vars cf cs p vars val = Some val' ->
  (forall p', p <= p' < p + length vars -> ~ hits cf cs c p') -> val' (s_start cs + (r * s_stride cs + c)) = val (s_start cs + (r * s_stride cs + c)).
Proof.
  intros Hr Hc. induction vars as [|v t IH]; simpl; intros p val val' H Hm; [injection H as <-; reflexivity|].
  destruct (s_pointers cs p) as [ptr|] eqn:Ep; [|discriminate]. rewrite (IH _ _ _ H).
  - rewrite write_val_at by assumption. destruct (Nat.leb_spec ptr c), (Nat.ltb_spec c (ptr + k_jcols cf p)); simpl; try reflexivity.
    exfalso. apply (Hm p); [lia|]. exists ptr. auto.
  - intros p' Hp'. apply Hm. lia.
Qed.
Lemma fill_vars_hit cf cs r c ps ptr : r < k_dim cf -> c < s_stride cs -> s_pointers cs ps = Some ptr -> ptr <= c < ptr + k_jcols cf ps ->
  forall vars p val val', fill_vars cf cs p vars val = Some val' -> p <= ps < p + length vars ->
  (forall p', p <= p' < p + length vars -> p' <> ps -> ~ hits cf cs c p') ->
  val' (s_start cs + (r * s_stride cs + c)) = Some (k_jac cf ps r (c - ptr)).
Proof.
  intros Hr Hc Hptr Hin. induction vars as [|v t IH]; simpl; intros p val val' H Hp Hm; [lia|].
  destruct (s_pointers cs p) as [ptr'|] eqn:Ep; [|discriminate].
  destruct (Nat.eq_dec p ps) as [->|Hne].
  - rewrite (fill_vars_miss cf cs r c Hr Hc _ _ _ _ H).
    + rewrite Hptr in Ep. injection Ep as <-. rewrite write_val_at by assumption.
      destruct (Nat.leb_spec ptr c), (Nat.ltb_spec c (ptr + k_jcols cf ps)); simpl; try reflexivity; lia.
    + intros p' Hp'. apply Hm; lia.
  - apply (IH _ _ _ H); [lia|]. intros p' Hp'. apply Hm. lia.
Qed.
Lemma fill_vars_some cf cs : forall vars p val, (forall i, i < length vars -> s_pointers cs (p + i) <> None) ->
  exists val', fill_vars cf cs p vars val = Some val'.
Proof.
  induction vars as [|v t IH]; simpl; intros p val H; [eauto|].
  destruct (s_pointers cs p) as [ptr|] eqn:E.
  - apply IH. intros i Hi. replace (S p + i) with (p + S i) by lia. apply H. lia.
  - exfalso. apply (H 0); [lia|]. now rewrite Nat.add_0_r.
Qed.

(** what [build_cfs] records for one cost function *)
Definition cs_for (o : ordering) (cf : cost) (cs : cf_struct) : Prop :=
  exists sl, col_slices o 0 (k_vars cf) = Some sl /\ s_pointers cs = block_pointers (sort_slices sl) /\
             s_stride cs = length (col_ind_of (sort_slices sl)).

Section OneCf.
Variables (o : ordering) (cf : cost) (cs : cf_struct) (sl : list cslice).
Hypothesis (No : NoDup (map fst o)) (Hok : cf_ok o cf) (Hsl : col_slices o 0 (k_vars cf) = Some sl).
Hypothesis (Hp : s_pointers cs = block_pointers (sort_slices sl)) (Hst : s_stride cs = length (col_ind_of (sort_slices sl))).
Let l := sort_slices sl.

Lemma sl_idx : map idx sl = seq 0 (length (k_vars cf)).
Proof.
  destruct (col_slices_spec o No _ _ _ (proj1 Hok) Hsl) as (Hl & Hn & _). rewrite <- Hl.
  apply nth_ext with (d := 0) (d' := 0); [now rewrite map_length, seq_length|].
  intros i Hi. rewrite map_length in Hi. rewrite seq_nth by exact Hi.
  destruct (nth_error sl i) as [x|] eqn:E; [|apply nth_error_None in E; lia].
  rewrite (nth_error_nth (map idx sl) i 0 (map_nth_error idx _ _ E)).
  destruct (Hn i x E) as (v & q & d & _ & _ & _ & ->). reflexivity.
Qed.
Lemma l_idx_nodup : NoDup (map idx l).
Proof.
  apply (Permutation_NoDup (l := map idx sl)); [apply Permutation_map, sort_perm|]. rewrite sl_idx. apply seq_NoDup.
Qed.
Lemma l_no_overlap : ForallOrdPairs no_overlap l.
Proof.
  apply (FOP_perm no_overlap no_overlap_sym sl); [apply sort_perm|].
  apply (col_slices_spec o No _ _ _ (proj1 Hok) Hsl).
Qed.
Lemma l_in s t i : In (s, t, i) l -> exists v q d, nth_error (k_vars cf) i = Some v /\ nth_error o q = Some (v, d) /\ index_of v o = Some q /\
  s = col_of o q /\ t = s + d /\ k_jcols cf i = t - s /\ i < length (k_vars cf).
Proof.
  intros H. apply (Permutation_in _ (Permutation_sym (sort_perm sl))) in H. apply In_nth_error in H. destruct H as [m Hm].
  destruct (col_slices_spec o No _ _ _ (proj1 Hok) Hsl) as (Hl & Hn & _).
  destruct (Hn m _ Hm) as (v & q & d & H1 & H2 & H3 & E). injection E as -> -> ->. simpl.
  exists v, q, d. split; [exact H1|split; [exact H3|split; [exact H2|split; [reflexivity|split; [reflexivity|split]]]]].
  - rewrite (proj2 Hok m v H1), (dof_of_eq v o q d H2 H3). lia.
  - apply nth_error_Some. congruence.
Qed.
Lemma l_wf : Forall (fun x => fst (fst x) <= snd (fst x)) l.
Proof. apply Forall_forall. intros [[s t] i] H. destruct (l_in s t i H) as (v & q & d & _ & _ & _ & _ & -> & _). simpl. lia. Qed.
Lemma l_pos p : p < length (k_vars cf) -> exists m s t, nth_error l m = Some (s, t, p).
Proof.
  intros H. assert (Hin : In p (map idx l)).
  { apply (Permutation_in _ (Permutation_map idx (sort_perm sl))). rewrite sl_idx. apply in_seq. lia. }
  apply in_map_iff in Hin. destruct Hin as ([[s t] i] & E & Hin). unfold idx in E. simpl in E. subst i.
  apply In_nth_error in Hin. destruct Hin as [m Hm]. eauto.
Qed.
Lemma fill_ok val : exists val', fill_vars cf cs 0 (k_vars cf) val = Some val'.
Proof.
  apply fill_vars_some. intros i Hi. simpl. rewrite Hp. fold l. destruct (l_pos i Hi) as (m & s & t & Hm).
  rewrite (block_pointers_nth _ m s t i l_idx_nodup Hm). discriminate.
Qed.
Lemma fill_value val val' r : fill_vars cf cs 0 (k_vars cf) val = Some val' -> r < k_dim cf ->
  forall m s t i j, nth_error l m = Some (s, t, i) -> j < t - s ->
  val' (s_start cs + (r * s_stride cs + (off l m + j))) = Some (k_jac cf i r j).
Proof.
  intros Hf Hr m s t i j Hm Hj. destruct (l_in s t i (nth_error_In _ _ Hm)) as (v & q & d & _ & _ & _ & _ & _ & Hjc & Hi).
  pose proof (block_pointers_nth _ m s t i l_idx_nodup Hm) as Hb. unfold l in Hb at 1. rewrite <- Hp in Hb.
  pose proof (off_le l m _ Hm) as Ho. unfold size in Ho. cbn [fst snd] in Ho.
  replace (k_jac cf i r j) with (k_jac cf i r (off l m + j - off l m)) by (f_equal; lia).
  apply (fill_vars_hit cf cs r (off l m + j) i (off l m) Hr) with (vars := k_vars cf) (p := 0) (val := val); auto.
  - rewrite Hst. fold l. lia.
  - lia.
  - simpl. lia.
  - intros p' Hp' Hne (ptr & Hptr & Hin). simpl in Hp'. destruct (l_pos p') as (m' & s' & t' & Hm'); [lia|].
    rewrite Hp in Hptr. fold l in Hptr. rewrite (block_pointers_nth _ m' s' t' p' l_idx_nodup Hm') in Hptr. injection Hptr as <-.
    destruct (l_in s' t' p' (nth_error_In _ _ Hm')) as (v' & q' & d' & _ & _ & _ & _ & _ & Hjc' & _).
    assert (m <> m') by (intros ->; congruence).
    pose proof (off_disjoint l m m' _ Hm) as D1. pose proof (off_disjoint l m' m _ Hm') as D2. unfold size in *. cbn [fst snd] in *. fold l in Hin. lia.
Qed.
Lemma fill_total val val' r k : fill_vars cf cs 0 (k_vars cf) val = Some val' -> r < k_dim cf -> k < s_stride cs ->
  exists x, val' (s_start cs + (r * s_stride cs + k)) = Some x.
Proof.
  intros Hf Hr Hk. rewrite Hst in Hk. destruct (off_find l k Hk) as (m & [[s t] i] & j & H1 & H2 & ->).
  exists (k_jac cf i r j). eapply fill_value; eauto.
Qed.
(** the CSR row of the cost function *)
Lemma fill_row val val' r c : fill_vars cf cs 0 (k_vars cf) val = Some val' -> r < k_dim cf ->
  rsum (s_stride cs) (fun k => if Nat.eqb (nth k (col_ind_of l) 0) c then match val' (s_start cs + (r * s_stride cs + k)) with Some x => x | None => 0%R end else 0%R)
  = lsum (slice_val (fun p => k_jac cf p r) c) sl.
Proof.
  intros Hf Hr. rewrite (lsum_perm _ _ _ (sort_perm sl)). fold l.
  replace (rsum (s_stride cs)) with (rsum (length (col_ind_of l))) by (now rewrite Hst).
  apply (row_sum (fun p => k_jac cf p r) c l (fun k => match val' (s_start cs + (r * s_stride cs + k)) with Some x => x | None => 0%R end)).
  intros m s t i j Hm Hj. cbv beta. rewrite (fill_value val val' r Hf Hr m s t i j Hm Hj). reflexivity.
Qed.
Lemma row_cols : StronglySorted lt (col_ind_of l) /\ Forall (fun c => c < num_cols o) (col_ind_of l).
Proof.
  split; [apply col_ind_increasing; [apply sort_sorted|apply l_no_overlap|apply l_wf]|].
  apply Forall_forall. intros c Hc. unfold col_ind_of in Hc. apply in_flat_map in Hc. destruct Hc as ([[s t] i] & Hin & Hc).
  apply in_seq in Hc. destruct (l_in s t i Hin) as (v & q & d & _ & H2 & _ & -> & -> & _).
  rewrite num_cols_of. pose proof (col_of_disjoint o q (length o) v d H2) as K.
  assert (q < length o) by (apply nth_error_Some; congruence). lia.
Qed.
End OneCf.

(** ---- the whole structure ---- *)
Lemma add_rows_spec ci : forall n a rp, add_rows n ci a rp =
  (a ++ concat (repeat ci n), rp ++ map (fun i => length a + S i * length ci) (seq 0 n)).
Proof.
  induction n as [|n IH]; intros a rp; cbn [add_rows repeat concat seq map]; [now rewrite !app_nil_r|].
  rewrite IH. rewrite <- !app_assoc. f_equal. f_equal. cbn [app]. rewrite app_length. f_equal; [lia|].
  rewrite <- seq_shift, map_map. apply map_ext. intros i. lia.
Qed.
Lemma repeat_nth (ci : list nat) n : forall i c, i < n -> c < length ci -> nth (i * length ci + c) (concat (repeat ci n)) 0 = nth c ci 0.
Proof.
  induction n as [|n IH]; intros i c Hi Hc; [lia|]. cbn [repeat concat]. destruct i as [|i].
  - simpl. now rewrite app_nth1.
  - rewrite app_nth2 by (simpl; lia). replace (S i * length ci + c - length ci) with (i * length ci + c) by (simpl; lia). apply IH; lia.
Qed.
Lemma crep_length (ci : list nat) n : length (concat (repeat ci n)) = n * length ci.
Proof. induction n as [|n IH]; simpl; [reflexivity|]. rewrite app_length, IH. reflexivity. Qed.

(** [k]-th block of the structure *)
Definition block_ok (o : ordering) (cf : cost) (cs : cf_struct) (R : nat) (ci rp : list nat) : Prop :=
  exists sl, col_slices o 0 (k_vars cf) = Some sl /\ s_pointers cs = block_pointers (sort_slices sl) /\
    s_stride cs = length (col_ind_of (sort_slices sl)) /\
    s_start cs + s_stride cs * k_dim cf <= length ci /\
    forall i, i < k_dim cf ->
      nth (R + i) rp 0 = s_start cs + i * s_stride cs /\ nth (S (R + i)) rp 0 = s_start cs + S i * s_stride cs /\
      forall c, c < s_stride cs -> nth (s_start cs + (i * s_stride cs + c)) ci 0 = nth c (col_ind_of (sort_slices sl)) 0.

Lemma nth_app_l {X} (a b : list X) d k : k < length a -> nth k (a ++ b) d = nth k a d.
Proof. intros. now apply app_nth1. Qed.

Lemma build_spec o : forall cfs st st', build_cfs o cfs st = Some st' ->
  forall R, length (st_row_ptr st) = S R -> nth R (st_row_ptr st) 0 = length (st_col_ind st) ->
  (exists X, st_col_ind st' = st_col_ind st ++ X) /\ (exists Y, st_row_ptr st' = st_row_ptr st ++ Y) /\
  length (st_row_ptr st') = S (R + list_sum (map k_dim cfs)) /\
  nth (R + list_sum (map k_dim cfs)) (st_row_ptr st') 0 = length (st_col_ind st') /\
  exists css, st_cfs st' = st_cfs st ++ css /\ length css = length cfs /\
    (forall k cf cs, nth_error cfs k = Some cf -> nth_error css k = Some cs ->
       block_ok o cf cs (R + row_of cfs k) (st_col_ind st') (st_row_ptr st') /\ length (st_col_ind st) <= s_start cs) /\
    (forall k k' cf cs cs', k < k' -> nth_error cfs k = Some cf -> nth_error css k = Some cs -> nth_error css k' = Some cs' ->
       s_start cs + s_stride cs * k_dim cf <= s_start cs').
Proof.
  induction cfs as [|cf t IH]; intros st st' H R HR Hlast; cbn [build_cfs] in H.
  - injection H as <-. cbn [map list_sum fold_right]. rewrite Nat.add_0_r.
    split; [exists []; now rewrite app_nil_r|split; [exists []; now rewrite app_nil_r|split; [exact HR|split; [exact Hlast|]]]].
    exists []. rewrite app_nil_r. split; [reflexivity|split; [reflexivity|split]].
    + intros [|k]; discriminate.
    + intros k k' cf cs cs' _ _ Hk. destruct k; discriminate.
  - destruct (col_slices o 0 (k_vars cf)) as [sl|] eqn:Es; [|discriminate]. cbv zeta in H. rewrite add_rows_spec in H.
    set (ci := col_ind_of (sort_slices sl)) in *. set (n := k_dim cf) in *.
    set (cs := mkCS (block_pointers (sort_slices sl)) (length (st_col_ind st)) (length ci)) in *.
    set (C1 := st_col_ind st ++ concat (repeat ci n)) in *.
    set (P1 := st_row_ptr st ++ map (fun i => length (st_col_ind st) + S i * length ci) (seq 0 n)) in *.
    assert (HC1 : length C1 = length (st_col_ind st) + n * length ci) by (unfold C1; now rewrite app_length, crep_length).
    assert (HP1 : length P1 = S (R + n)) by (unfold P1; rewrite app_length, map_length, seq_length, HR; lia).
    assert (HPn : forall i, i <= n -> nth (R + i) P1 0 = length (st_col_ind st) + i * length ci).
    { intros i Hi. unfold P1. destruct i as [|i].
      - rewrite Nat.add_0_r, app_nth1 by lia. rewrite Hlast. lia.
      - rewrite app_nth2 by lia. rewrite HR. replace (R + S i - S R) with i by lia.
        rewrite (nth_indep _ 0 ((fun i => length (st_col_ind st) + S i * length ci) 0)) by (rewrite map_length, seq_length; lia).
        rewrite (map_nth (fun i => length (st_col_ind st) + S i * length ci)), seq_nth by lia. reflexivity. }
    destruct (IH _ _ H (R + n)) as ((X & HX) & (Y & HY) & L1 & L2 & css & Hc1 & Hc2 & Hc3 & Hc4); cbn [st_row_ptr st_col_ind st_cfs] in *.
    { exact HP1. } { rewrite HPn, HC1 by lia. reflexivity. }
    change (list_sum (map k_dim (cf :: t))) with (n + list_sum (map k_dim t)). rewrite Nat.add_assoc.
    split; [exists (concat (repeat ci n) ++ X); rewrite HX; unfold C1; now rewrite app_assoc|].
    split; [eexists; rewrite HY; unfold P1; rewrite <- app_assoc; reflexivity|].
    split; [exact L1|split; [exact L2|]].
    exists (cs :: css). split; [rewrite Hc1, <- app_assoc; reflexivity|]. split; [simpl; lia|]. split.
    + intros [|k] cf' cs' Hk Hcs; cbn [nth_error] in Hk, Hcs.
      * injection Hk as <-. injection Hcs as <-. split; [|reflexivity]. exists sl. unfold cs. cbn [s_pointers s_stride s_start].
        split; [exact Es|split; [reflexivity|split; [reflexivity|]]]. fold n ci.
        split; [rewrite HX, app_length, HC1; lia|].
        unfold row_of. cbn [firstn map list_sum fold_right]. rewrite Nat.add_0_r. intros i Hi.
        rewrite HY. split; [|split].
        -- rewrite app_nth1 by lia. apply HPn. lia.
        -- rewrite app_nth1 by lia. rewrite <- Nat.add_succ_r. apply HPn. lia.
        -- intros c Hc. assert (i * length ci + c < n * length ci).
           { apply Nat.lt_le_trans with (S i * length ci); [simpl; lia|]. apply Nat.mul_le_mono_r. lia. }
           rewrite HX, app_nth1 by lia. unfold C1. rewrite app_nth2 by lia.
           replace (length (st_col_ind st) + (i * length ci + c) - length (st_col_ind st)) with (i * length ci + c) by lia.
           apply repeat_nth; lia.
      * destruct (Hc3 k cf' cs' Hk Hcs) as [B1 B2]. split; [|lia].
        replace (R + row_of (cf :: t) (S k)) with (R + n + row_of t k) by (unfold row_of; cbn [firstn map list_sum fold_right]; unfold list_sum; lia).
        exact B1.
    + intros [|k] [|k'] cf' cs1 cs2 Lk Hcf H1 H2; cbn [nth_error] in *; try lia.
      * injection Hcf as <-. injection H1 as <-. unfold cs. cbn [s_start s_stride]. fold n.
        assert (Hk' : k' < length t). { rewrite <- Hc2. apply nth_error_Some. congruence. }
        apply nth_error_Some in Hk'. destruct (nth_error t k') as [cf2|] eqn:E2; [|congruence].
        destruct (Hc3 k' cf2 cs2 E2 H2) as [_ B]. lia.
      * apply (Hc4 k k' cf' cs1 cs2); auto. lia.
Qed.
Lemma build_some o : forall cfs st, Forall (fun cf => exists sl, col_slices o 0 (k_vars cf) = Some sl) cfs -> exists st', build_cfs o cfs st = Some st'.
Proof.
  induction cfs as [|cf t IH]; intros st H; cbn [build_cfs]; [eauto|]. inversion H as [|x l [sl Hs] H']; subst. rewrite Hs. cbv zeta.
  destruct (add_rows _ _ _ _). apply IH. exact H'.
Qed.
Lemma build_slices o : forall cfs st st', build_cfs o cfs st = Some st' -> Forall (fun cf => exists sl, col_slices o 0 (k_vars cf) = Some sl) cfs.
Proof.
  induction cfs as [|cf t IH]; intros st st' H; cbn [build_cfs] in H; [constructor|].
  destruct (col_slices o 0 (k_vars cf)) as [sl|] eqn:Es; [|discriminate]. cbv zeta in H. destruct (add_rows _ _ _ _).
  constructor; [eauto|eapply IH; eauto].
Qed.

(** ---- the values of all cost functions ---- *)
Lemma fill_cfs_out : forall cfs css row val b val' b', fill_cfs cfs css row val b = Some (val', b') ->
  forall k, (forall j cf cs, nth_error cfs j = Some cf -> nth_error css j = Some cs -> ~ (s_start cs <= k < s_start cs + s_stride cs * k_dim cf)) -> val' k = val k.
Proof.
  induction cfs as [|cf t IH]; intros [|cs css] row val b val' b' H k Hk; cbn [fill_cfs] in H; try (injection H as <- <-; reflexivity); try discriminate.
  destruct (fill_vars cf cs 0 (k_vars cf) val) as [v1|] eqn:E; [|discriminate].
  rewrite (IH _ _ _ _ _ _ H k).
  - apply (fill_vars_out _ _ _ _ _ _ E). apply (Hk 0); reflexivity.
  - intros j cf' cs' H1 H2. apply (Hk (S j)); assumption.
Qed.
Lemma fill_cfs_before : forall cfs css row val b val' b', fill_cfs cfs css row val b = Some (val', b') -> forall r, r < row -> b' r = b r.
Proof.
  induction cfs as [|cf t IH]; intros [|cs css] row val b val' b' H r Hr; cbn [fill_cfs] in H; try (injection H as <- <-; reflexivity); try discriminate.
  destruct (fill_vars cf cs 0 (k_vars cf) val) as [v1|] eqn:E; [|discriminate].
  rewrite (IH _ _ _ _ _ _ H r) by lia. unfold write_rows_opt. destruct (Nat.leb_spec row r); [lia|reflexivity].
Qed.
Lemma fill_cfs_at : forall cfs css row val b val' b', fill_cfs cfs css row val b = Some (val', b') ->
  (forall k k' cf cs cs', k < k' -> nth_error cfs k = Some cf -> nth_error css k = Some cs -> nth_error css k' = Some cs' ->
       s_start cs + s_stride cs * k_dim cf <= s_start cs') ->
  forall k cf cs, nth_error cfs k = Some cf -> nth_error css k = Some cs ->
  (exists v0 v1, fill_vars cf cs 0 (k_vars cf) v0 = Some v1 /\
    forall a, s_start cs <= a < s_start cs + s_stride cs * k_dim cf -> val' a = v1 a) /\
  forall i, i < k_dim cf -> b' (row + row_of cfs k + i) = Some (- k_err cf i)%R.
Proof.
  induction cfs as [|cf0 t IH]; intros [|cs0 css] row val b val' b' H D k cf cs Hk Hc; cbn [fill_cfs] in H; try (destruct k; discriminate).
  destruct (fill_vars cf0 cs0 0 (k_vars cf0) val) as [v1|] eqn:E; [|discriminate].
  destruct k as [|k]; cbn [nth_error] in Hk, Hc.
  - injection Hk as <-. injection Hc as <-. split.
    + exists val, v1. split; [exact E|]. intros a Ha. apply (fill_cfs_out _ _ _ _ _ _ _ H). intros j cf' cs' H1 H2 H3.
      specialize (D 0 (S j) cf0 cs0 cs' ltac:(lia) eq_refl eq_refl H2). lia.
    + intros i Hi. unfold row_of. cbn [firstn map list_sum fold_right]. rewrite Nat.add_0_r.
      rewrite (fill_cfs_before _ _ _ _ _ _ _ H) by lia. unfold write_rows_opt.
      destruct (Nat.leb_spec row (row + i)), (Nat.ltb_spec (row + i) (row + k_dim cf0)); try lia. cbn [andb].
      replace (row + i - row) with i by lia. reflexivity.
  - destruct (IH _ _ _ _ _ _ H) with (k := k) (cf := cf) (cs := cs) as [I1 I2]; auto.
    { intros k1 k2 c1 s1 s2 L G1 G2 G3. apply (D (S k1) (S k2) c1 s1 s2); auto. lia. }
    split; [exact I1|]. intros i Hi. specialize (I2 i Hi). rewrite <- I2. f_equal. unfold row_of. cbn [firstn map list_sum fold_right].
    unfold list_sum. lia.
Qed.
Lemma fill_cfs_some : forall cfs css row val b, length css = length cfs ->
  (forall k cf cs, nth_error cfs k = Some cf -> nth_error css k = Some cs -> forall v, exists v', fill_vars cf cs 0 (k_vars cf) v = Some v') ->
  exists val' b', fill_cfs cfs css row val b = Some (val', b').
Proof.
  induction cfs as [|cf t IH]; intros [|cs css] row val b L H; try discriminate; cbn [fill_cfs]; [eauto|].
  destruct (H 0 cf cs eq_refl eq_refl val) as [v ->]. apply IH; [simpl in L; lia|].
  intros k cf' cs' H1 H2. apply (H (S k) cf' cs' H1 H2).
Qed.
