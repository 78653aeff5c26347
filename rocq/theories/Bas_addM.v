(** C76: add_M adds the lower triangle of a square CSR matrix; its CUDA threads never write the same place. *)
From Coq Require Import List Arith Bool Reals Lia Lra Permutation.
From Verif Require Import RSum Csr_spec Csr_model Lin_proofs Csr_props Damp_model Damp_props Bas_model Bas_spec Bas_blocks Bas_adds Bas_props.
Import ListNotations.
Local Open Scope nat_scope.
(** the blocks of the lower triangle are in the structure *)
Definition covers (sizes : list nat) (struct : list (list nat)) (rp ci : list nat) : Prop :=
  forall r k, r < list_sum sizes -> nth r rp 0 <= k < nth (S r) rp 0 -> nth k ci 0 <= r ->
    In (block_of sizes (nth k ci 0)) (nth (block_of sizes r) struct []) /\ In (block_of sizes r) (nth (block_of sizes (nth k ci 0)) struct []).
Lemma lsum_filter {X} (f : X -> R) p l : lsum f (filter p l) = lsum (fun x => if p x : bool then f x else 0%R) l.
Proof. induction l as [|x l IH]; [reflexivity|]. cbn [filter]. destruct (p x) eqn:E; cbn [lsum]; rewrite IH, E; ring. Qed.
Section A.
Variables (rp ci : list nat) (L : layout) (sizes : list nat) (struct : list (list nat)).
Notation n := (list_sum sizes).
Notation F := (l_dataSize L).
Notation nnz := (length ci).
Notation in_row q k := (row_start rp q <= k < row_start rp q + row_len rp q).
Hypothesis W : csr_wf n n rp ci.
Hypothesis OK : layout_ok L sizes struct.
Hypothesis Cv : covers sizes struct rp ci.
Variables (val : nat -> R) (B : nat).
Notation A b := (csr_entry rp ci (fun k => val (k + b * nnz))).
Lemma stored_M r k : r < n -> in_row r k -> col ci k <= r -> offsetInFactor L sizes r (col ci k) <> None.
Proof.
  intros H Hk Hc. destruct (block_spec sizes _ H) as (A1 & _). destruct (block_spec sizes (col ci k) ltac:(lia)) as (B1 & _).
  assert (Hk' : nth r rp 0 <= k < nth (S r) rp 0). { pose proof (end_eq n n rp ci W r H) as Ee. unfold row_end, row_start in *. lia. }
  destruct (Cv r k H Hk' Hc) as [C1 C2]. fold (col ci k) in C1, C2.
  unfold offsetInFactor. cbv zeta. rewrite !tpi_spec by lia. cbn [Nat.add]. unfold blockOffset.
  destruct (Nat.ltb_spec (l_pos L (block_of sizes r)) (l_pos L (block_of sizes (col ci k)))) as [Q|Q].
  - pose proof (lo_struct _ _ _ OK _ _ B1 C2 ltac:(lia)) as S. destruct (l_off L _ _); [discriminate|contradiction].
  - pose proof (lo_struct _ _ _ OK _ _ A1 C1 ltac:(lia)) as S. destruct (l_off L _ _); [discriminate|contradiction].
Qed.
Lemma item_M r k b' b r' c o : r < n -> in_row r k -> col ci k <= r -> r' < n -> c <= r' -> offsetInFactor L sizes r' c = Some o ->
  contrib L b o (M_add L sizes ci val r k b') = if b' =? b then if (r =? r') && (col ci k =? c) then val (k + b * nnz)%nat else 0%R else 0%R.
Proof.
  intros H Hk Hck Hr Hc E. unfold M_add, contrib, opt_val. pose proof (stored_M r k H Hk Hck) as S. destruct (offsetInFactor L sizes r (col ci k)) as [o'|] eqn:E'; [|contradiction]. cbn [fst snd].
  pose proof (offset_bound L sizes struct OK _ _ _ Hr Hc E) as Bo. pose proof (offset_bound L sizes struct OK _ _ _ H Hck E') as Bo'.
  destruct (Nat.eqb_spec (o + b * F) (o' + b' * F)) as [Q|Q].
  - destruct (batch_place L _ _ _ _ Bo Bo' Q) as [-> ->]. rewrite Nat.eqb_refl. destruct (offset_inj L sizes struct OK _ _ _ _ _ Hr Hc H Hck E E') as [-> ->].
    now rewrite !Nat.eqb_refl.
  - destruct (Nat.eqb_spec b' b) as [->|]; [|reflexivity]. destruct (Nat.eqb_spec r r') as [Ej|]; [|reflexivity].
    destruct (Nat.eqb_spec (col ci k) c) as [Ei|]; [|reflexivity]. subst r' c. rewrite E in E'. injection E' as ->. contradiction.
Qed.
Lemma row_M r b r' c : r < n -> c <= r' ->
  lsum (fun k => if negb (r <? col ci k) then if (r =? r') && (col ci k =? c) then val (k + b * nnz)%nat else 0%R else 0%R) (seq (row_start rp r) (row_len rp r))
  = if r =? r' then A b r c else 0%R.
Proof.
  intros Hr Hc. destruct (Nat.eqb_spec r r') as [->|Ne].
  - rewrite (entry_eq rp ci), lsum_shift. apply rsum_ext. intros k Hk. cbn [andb]. rewrite (Nat.eqb_sym c).
    destruct (Nat.eqb_spec (col ci (row_start rp r' + k)) c) as [->|]; [|now destruct (negb _)]. destruct (Nat.ltb_spec r' c); [lia|reflexivity].
  - apply lsum_zero. intros k _. now destruct (negb _).
Qed.
Lemma lsum_one (f : nat -> R) r : r < n -> lsum (fun r0 => if r0 =? r then f r0 else 0%R) (seq 0 n) = f r.
Proof. apply lsum_pick. Qed.
Lemma cpu_M : exists l, add_M_cpu L sizes rp ci val B = Some l /\ forall b r c o, b < B -> r < n -> c <= r -> offsetInFactor L sizes r c = Some o ->
  lsum (fun x : add => if Nat.eqb (o + b * F) (fst x) then snd x else 0%R) l = A b r c.
Proof.
  unfold add_M_cpu. set (l0 := flat_map _ _). destruct (collect_some l0) as (s & E & Es).
  - intros x Hx. unfold l0 in Hx. rewrite (nrows_m n n rp ci W) in Hx. apply in_flat_map in Hx. destruct Hx as (r & Hr & Hx). apply in_flat_map in Hx. destruct Hx as (k & Hk & Hx).
    apply in_map_iff in Hx. destruct Hx as (b & <- & _). apply filter_In in Hk. destruct Hk as [Hk Hc]. apply in_seq in Hr, Hk. apply negb_true_iff, Nat.ltb_ge in Hc.
    unfold M_add. pose proof (stored_M r k ltac:(lia) Hk Hc). destruct (offsetInFactor _ _ _ _); [discriminate|contradiction].
  - exists s. split; [exact E|]. intros b r c o Hb Hr Hc Eo. rewrite (lsum_collect _ l0 s Es). change (opt_val _) with (contrib L b o).
    unfold l0. rewrite lsum_flat_map, (nrows_m n n rp ci W). rewrite <- (lsum_one (fun r0 => A b r0 c) r Hr). apply lsum_ext. intros r0 Hr0. apply in_seq in Hr0.
    rewrite <- row_M by (lia || assumption). rewrite lsum_flat_map, lsum_filter. apply lsum_ext. intros k Hk. apply in_seq in Hk.
    destruct (Nat.ltb_spec r0 (col ci k)) as [Q|Q]; cbn [negb]; [reflexivity|]. rewrite lsum_map.
    rewrite (lsum_ext _ (fun b' => if b' =? b then (if (r0 =? r) && (col ci k =? c) then val (k + b * nnz)%nat else 0%R) else 0%R)).
    + apply (lsum_pick (fun _ => _) b B Hb).
    + intros b' _. apply item_M; auto; lia.
Qed.
Lemma cuda_M : exists l, add_M_cuda L sizes rp ci val B = Some l /\ forall b r c o, b < B -> r < n -> c <= r -> offsetInFactor L sizes r c = Some o ->
  lsum (fun x : add => if Nat.eqb (o + b * F) (fst x) then snd x else 0%R) l = A b r c.
Proof.
  unfold add_M_cuda. set (l0 := flat_map _ _). destruct (collect_some l0) as (s & E & Es).
  - intros x Hx. unfold l0 in Hx. rewrite (nrows_m n n rp ci W) in Hx. apply in_flat_map in Hx. destruct Hx as (r & Hr & Hx). apply in_flat_map in Hx. destruct Hx as (b & Hb & Hx).
    unfold add_M_thread in Hx. apply in_map_iff in Hx. destruct Hx as (k & <- & Hk). apply filter_In in Hk. destruct Hk as [Hk Hc]. apply in_seq in Hr, Hk. apply negb_true_iff, Nat.ltb_ge in Hc.
    unfold M_add. pose proof (stored_M r k ltac:(lia) Hk Hc). destruct (offsetInFactor _ _ _ _); [discriminate|contradiction].
  - exists s. split; [exact E|]. intros b r c o Hb Hr Hc Eo. rewrite (lsum_collect _ l0 s Es). change (opt_val _) with (contrib L b o).
    unfold l0. rewrite lsum_flat_map, (nrows_m n n rp ci W). rewrite <- (lsum_one (fun r0 => A b r0 c) r Hr). apply lsum_ext. intros r0 Hr0. apply in_seq in Hr0.
    rewrite <- row_M by (lia || assumption). rewrite lsum_flat_map.
    rewrite (lsum_ext _ (fun b' => if b' =? b then lsum (fun k => if negb (r0 <? col ci k) then if (r0 =? r) && (col ci k =? c) then val (k + b * nnz)%nat else 0%R else 0%R) (seq (row_start rp r0) (row_len rp r0)) else 0%R)).
    + apply (lsum_pick (fun _ => _) b B Hb).
    + intros b' _. unfold add_M_thread. rewrite lsum_map, lsum_filter.
      rewrite (lsum_ext _ (fun k => if b' =? b then if negb (r0 <? col ci k) then if (r0 =? r) && (col ci k =? c) then val (k + b * nnz)%nat else 0%R else 0%R else 0%R)).
      * destruct (b' =? b); [reflexivity|]. now apply lsum_zero.
      * intros k Hk. apply in_seq in Hk. destruct (Nat.ltb_spec r0 (col ci k)) as [Q|Q]; cbn [negb]; [now destruct (b' =? b)|]. apply item_M; auto; lia.
Qed.
Lemma not_stored_M b r c : r < n -> c <= r -> offsetInFactor L sizes r c = None -> A b r c = 0%R.
Proof.
  intros Hr Hc E. rewrite (entry_eq rp ci). apply rsum_0. intros k Hk. destruct (Nat.eqb_spec c (col ci (row_start rp r + k))) as [->|]; [|reflexivity].
  exfalso. apply (stored_M r (row_start rp r + k) Hr ltac:(lia) Hc). exact E.
Qed.
(** different threads write different places *)
Lemma threads_M r b r' b' x x' : r < n -> r' < n -> In (Some x) (add_M_thread L sizes rp ci val r b) -> In (Some x') (add_M_thread L sizes rp ci val r' b') -> fst x = fst x' -> r = r' /\ b = b'.
Proof.
  assert (P : forall r b x, r < n -> In (Some x) (add_M_thread L sizes rp ci val r b) -> exists c o, c <= r /\ offsetInFactor L sizes r c = Some o /\ fst x = o + b * F).
  { clear. intros r b x Hr Hx. unfold add_M_thread in Hx. apply in_map_iff in Hx. destruct Hx as (k & Ek & Hk). apply filter_In in Hk. destruct Hk as [_ Hc]. apply negb_true_iff, Nat.ltb_ge in Hc.
    unfold M_add in Ek. destruct (offsetInFactor L sizes r (col ci k)) as [o|] eqn:E; [|discriminate]. injection Ek as <-. exists (col ci k), o. cbn [fst]. auto. }
  intros Hr Hr' Hx Hx' E. destruct (P _ _ _ Hr Hx) as (c & o & Hc & Eo & Ex). destruct (P _ _ _ Hr' Hx') as (c' & o' & Hc' & Eo' & Ex').
  pose proof (offset_bound L sizes struct OK _ _ _ Hr Hc Eo) as Bo. pose proof (offset_bound L sizes struct OK _ _ _ Hr' Hc' Eo') as Bo'.
  destruct (batch_place L o b o' b' Bo Bo' ltac:(lia)) as [-> ->]. destruct (offset_inj L sizes struct OK _ _ _ _ _ Hr Hc Hr' Hc' Eo Eo') as [-> _]. auto.
Qed.
End A.

(** add_M: the matrix that the library then factorizes is, in the permuted indices, the symmetric matrix whose lower triangle is that of the
    CSR matrix (the upper triangle is not read), on the CPU and for every interleaving of the CUDA threads; these add without atomics, and
    no two threads touch the same place *)
Theorem C76_add_M : forall rp ci L sizes struct val B,
  let n := list_sum sizes in
  csr_wf n n rp ci -> layout_ok L sizes struct -> covers sizes struct rp ci ->
  (exists l, add_M_cpu L sizes rp ci val B = Some l) /\ (exists l, add_M_cuda L sizes rp ci val B = Some l) /\
  (forall l sched, add_M_cpu L sizes rp ci val B = Some l \/ add_M_cuda L sizes rp ci val B = Some l -> Permutation l sched ->
     forall b r c, b < B -> r < n -> c < n ->
     sym L (fun o => run_adds (fun _ => 0%R) sched (l_dataSize L * b + o)) (pidx L sizes r) (pidx L sizes c) =
     csr_entry rp ci (fun k => val (k + b * length ci)) (max r c) (min r c)) /\
  (forall r b r' b' x x', r < n -> r' < n -> In (Some x) (add_M_thread L sizes rp ci val r b) -> In (Some x') (add_M_thread L sizes rp ci val r' b') ->
     fst x = fst x' -> r = r' /\ b = b').
Proof.
  intros rp ci L sizes struct val B n W OK Cv. subst n.
  destruct (cpu_M rp ci L sizes struct W OK Cv val B) as (l1 & E1 & H1). destruct (cuda_M rp ci L sizes struct W OK Cv val B) as (l2 & E2 & H2).
  split; [eauto|]. split; [eauto|]. split.
  - intros l sched Hl P b r c Hb Hr Hc.
    assert (Es : sym L (fun o => run_adds (fun _ => 0%R) sched (l_dataSize L * b + o)) (pidx L sizes r) (pidx L sizes c) =
      match offsetInFactor L sizes (max r c) (min r c) with Some o => run_adds (fun _ => 0%R) sched (l_dataSize L * b + o) | None => 0%R end).
    { rewrite (offset_place L sizes struct OK) by lia.
      assert (E : place L (max (pidx L sizes (max r c)) (pidx L sizes (min r c))) (min (pidx L sizes (max r c)) (pidx L sizes (min r c))) = place L (max (pidx L sizes r) (pidx L sizes c)) (min (pidx L sizes r) (pidx L sizes c))).
      { destruct (Nat.le_ge_cases r c) as [Q|Q].
        - rewrite (Nat.max_r r c Q), (Nat.min_l r c Q). f_equal; lia.
        - rewrite (Nat.max_l r c Q), (Nat.min_r r c Q). reflexivity. }
      rewrite E. unfold sym. destruct (Nat.leb_spec (pidx L sizes c) (pidx L sizes r)) as [Q|Q]; rewrite lower_place.
      - now rewrite Nat.max_l, Nat.min_r by lia.
      - now rewrite Nat.max_r, Nat.min_l by lia. }
    rewrite Es. destruct (offsetInFactor L sizes (max r c) (min r c)) as [o|] eqn:E.
    + rewrite run_adds_sum, Rplus_0_l. rewrite <- (lsum_perm _ l sched P). replace (l_dataSize L * b + o) with (o + b * l_dataSize L) by lia.
      destruct Hl as [Hl|Hl]; [rewrite Hl in E1; injection E1 as <-; apply H1|rewrite Hl in E2; injection E2 as <-; apply H2]; try assumption; lia.
    + symmetry. apply (not_stored_M rp ci L sizes struct W OK Cv val b); [lia|lia|exact E].
  - intros r b r' b' x x'. apply (threads_M rp ci L sizes struct OK val).
Qed.
(** a matrix that is covered by the concrete storage of Bas_ex: [[2, 9, 0], [1, 3, 0], [0, 0, 5]] (9: above the diagonal, not read) *)
Example C76_add_M_case : covers [2; 1] [[0]; [1]] [0; 2; 4; 5] [0; 1; 0; 1; 2] /\ csr_wf 3 3 [0; 2; 4; 5] [0; 1; 0; 1; 2].
Proof.
  split.
  - intros r k Hr Hk Hc. cbn in Hr. destruct r as [|[|[|r]]]; [| | |lia]; cbn in Hk; destruct k as [|[|[|[|[|k]]]]]; try lia; cbn in *; auto; lia.
  - split; try reflexivity.
    + intros r Hr. destruct r as [|[|[|r]]]; cbn; lia.
    + intros k Hk. cbn in Hk. destruct k as [|[|[|[|[|k]]]]]; cbn; lia.
    + intros r k k' Hr. destruct r as [|[|[|r]]]; cbn; try lia; intros Q1 Q2 Q3; destruct k as [|[|[|[|[|k]]]]]; try lia; destruct k' as [|[|[|[|[|k']]]]]; cbn; lia.
Qed.
