(** C76, first part: blocks, permuted indices and places. *)
From Coq Require Import List Arith Bool Reals Lia Permutation.
From Verif Require Import RSum Csr_model Bas_model Bas_spec.
Import ListNotations.
Local Open Scope nat_scope.

Lemma list_sum_cons a l : list_sum (a :: l) = a + list_sum l.
Proof. reflexivity. Qed.
Lemma tpi_spec sizes : forall i0 r, r < list_sum sizes -> nth r (to_param_index i0 sizes) 0 = i0 + block_of sizes r.
Proof.
  induction sizes as [|s t IH]; intros i0 r H; [cbn in H; lia|]. rewrite list_sum_cons in H. cbn [to_param_index block_of].
  destruct (Nat.ltb_spec r s) as [Q|Q].
  - rewrite app_nth1 by now rewrite repeat_length. rewrite (nth_indep _ 0 i0) by now rewrite repeat_length. rewrite nth_repeat. lia.
  - rewrite app_nth2 by now rewrite repeat_length. rewrite repeat_length, IH by lia. lia.
Qed.
Lemma start_S a t p : start_of (a :: t) (S p) = a + start_of t p.
Proof. reflexivity. Qed.
Lemma ps_spec sizes : forall s0 p, p < length sizes -> nth p (param_start s0 sizes) 0 = s0 + start_of sizes p.
Proof.
  induction sizes as [|s t IH]; intros s0 p H; [cbn in H; lia|]. cbn [param_start]. destruct p; cbn [nth].
  - unfold start_of. cbn. lia.
  - rewrite IH by (cbn in H; lia). rewrite start_S. lia.
Qed.
Lemma ps_length sizes : forall s0, length (param_start s0 sizes) = length sizes.
Proof. induction sizes as [|s t IH]; intros s0; cbn [param_start length]; [reflexivity|now rewrite IH]. Qed.
Lemma start_all sizes : start_of sizes (length sizes) = list_sum sizes.
Proof. unfold start_of. now rewrite firstn_all. Qed.
Lemma bounds_spec sizes p : p <= length sizes -> nth p (param_start 0 sizes ++ [list_sum sizes]) 0 = start_of sizes p.
Proof.
  intros H. destruct (Nat.eq_dec p (length sizes)) as [->|N].
  - rewrite app_nth2; rewrite ps_length; [|lia]. rewrite Nat.sub_diag, start_all. reflexivity.
  - rewrite app_nth1 by (rewrite ps_length; lia). now rewrite ps_spec by lia.
Qed.
Lemma start_succ sizes : forall p, p < length sizes -> start_of sizes (S p) = start_of sizes p + nth p sizes 0.
Proof.
  induction sizes as [|s t IH]; intros p H; [cbn in H; lia|]. destruct p.
  - rewrite start_S. unfold start_of. cbn. lia.
  - rewrite !start_S, IH by (cbn in H; lia). cbn [nth]. lia.
Qed.
Lemma start_mono sizes p p' : p <= p' -> p' <= length sizes -> start_of sizes p <= start_of sizes p'.
Proof. intros H. induction H as [|p' H IH]; intros Hl; [lia|]. rewrite start_succ by lia. specialize (IH ltac:(lia)). lia. Qed.
Lemma block_spec sizes : forall r, r < list_sum sizes ->
  block_of sizes r < length sizes /\ start_of sizes (block_of sizes r) <= r < start_of sizes (block_of sizes r) + nth (block_of sizes r) sizes 0.
Proof.
  induction sizes as [|s t IH]; intros r H; [cbn in H; lia|]. rewrite list_sum_cons in H. cbn [block_of].
  destruct (Nat.ltb_spec r s) as [Q|Q].
  - unfold start_of. cbn. lia.
  - specialize (IH (r - s) ltac:(lia)). rewrite start_S. cbn [length nth]. lia.
Qed.
Lemma block_start sizes : forall p k, p < length sizes -> k < nth p sizes 0 -> block_of sizes (start_of sizes p + k) = p /\ start_of sizes p + k < list_sum sizes.
Proof.
  induction sizes as [|s t IH]; intros p k H Hk; [cbn in H; lia|]. destruct p; cbn [nth] in Hk.
  - change (start_of (s :: t) 0) with 0. cbn [Nat.add block_of]. rewrite (proj2 (Nat.ltb_lt k s) Hk). rewrite list_sum_cons. lia.
  - cbn [length] in H. destruct (IH p k ltac:(lia) Hk) as [E1 E2]. rewrite start_S. cbn [block_of].
    destruct (Nat.ltb_spec (s + start_of t p + k) s); [lia|]. replace (s + start_of t p + k - s) with (start_of t p + k) by lia. rewrite E1, list_sum_cons. lia.
Qed.
Lemma block_mono sizes i j : j <= i -> i < list_sum sizes -> block_of sizes j <= block_of sizes i.
Proof.
  intros H Hi. destruct (block_spec sizes i Hi) as (A1 & A2). destruct (block_spec sizes j ltac:(lia)) as (B1 & B2).
  destruct (Nat.le_gt_cases (block_of sizes j) (block_of sizes i)) as [Q|Q]; [exact Q|].
  pose proof (start_mono sizes (S (block_of sizes i)) (block_of sizes j) Q ltac:(lia)) as M. rewrite start_succ in M by exact A1. lia.
Qed.
Lemma perm_list_sum l l' : Permutation l l' -> list_sum l = list_sum l'.
Proof. induction 1; rewrite ?list_sum_cons in *; lia. Qed.
Lemma map_perm (f : nat -> nat) n : (forall x, x < n -> f x < n) -> (forall x y, x < n -> y < n -> f x = f y -> x = y) -> Permutation (map f (seq 0 n)) (seq 0 n).
Proof.
  intros H1 H2. apply NoDup_Permutation_bis.
  - assert (G : forall l, NoDup l -> (forall x, In x l -> x < n) -> NoDup (map f l)).
    { induction l as [|a l IH]; intros Hn Hl; cbn [map]; [constructor|]. inversion Hn as [|? ? Na Nl]; subst. constructor; [|apply IH; [exact Nl|intros; apply Hl; now right]].
      intros Hin. apply in_map_iff in Hin. destruct Hin as (x & E & Hx). apply H2 in E; [subst; contradiction|apply Hl; now right|apply Hl; now left]. }
    apply G; [apply seq_NoDup|]. intros x Hx. apply in_seq in Hx. lia.
  - rewrite map_length. lia.
  - intros y Hy. apply in_map_iff in Hy. destruct Hy as (x & <- & Hx). apply in_seq in Hx. apply in_seq. specialize (H1 x). lia.
Qed.

Section L.
Variables (L : layout) (sizes : list nat) (struct : list (list nat)).
Hypothesis OK : layout_ok L sizes struct.
Notation n := (list_sum sizes).
Notation ls := (l_sizes L).
Notation N := (length sizes).
Lemma sizes_sum : list_sum ls = n.
Proof.
  assert (E : map (fun p => nth (l_pos L p) ls 0) (seq 0 N) = sizes).
  { apply (nth_ext _ _ 0 0); [now rewrite map_length, seq_length|]. intros p Hp. rewrite map_length, seq_length in Hp.
    rewrite (nth_indep _ 0 (nth (l_pos L 0) ls 0)) by now rewrite map_length, seq_length. rewrite (map_nth (fun p => nth (l_pos L p) ls 0)). rewrite seq_nth by exact Hp. now apply (lo_sizes _ _ _ OK). }
  rewrite <- E at 1. rewrite <- (map_map (l_pos L) (fun u => nth u ls 0)). symmetry.
  rewrite (perm_list_sum _ (map (fun u => nth u ls 0) (seq 0 N))).
  2: { apply Permutation_map. apply map_perm; [exact (lo_pos _ _ _ OK)|exact (lo_inj _ _ _ OK)]. }
  f_equal. apply (nth_ext _ _ 0 0); [rewrite map_length, seq_length; symmetry; exact (lo_len _ _ _ OK)|]. intros p Hp. rewrite map_length, seq_length in Hp.
  rewrite (nth_indep _ 0 (nth 0 ls 0)) by now rewrite map_length, seq_length. rewrite (map_nth (fun u => nth u ls 0)), seq_nth by exact Hp. reflexivity.
Qed.
(** the permuted index of a scalar index *)
Definition pidx (r : nat) : nat := start_of ls (l_pos L (block_of sizes r)) + (r - start_of sizes (block_of sizes r)).
Lemma pidx_spec r : r < n -> pidx r < n /\ block_of ls (pidx r) = l_pos L (block_of sizes r) /\
  pidx r - start_of ls (block_of ls (pidx r)) = r - start_of sizes (block_of sizes r).
Proof.
  intros H. destruct (block_spec sizes r H) as (A1 & A2).
  destruct (block_start ls (l_pos L (block_of sizes r)) (r - start_of sizes (block_of sizes r))) as [E1 E2].
  - rewrite (lo_len _ _ _ OK). now apply (lo_pos _ _ _ OK).
  - rewrite (lo_sizes _ _ _ OK) by exact A1. lia.
  - fold (pidx r) in E1, E2. rewrite sizes_sum in E2. rewrite E1. split; [exact E2|]. split; [reflexivity|]. unfold pidx. lia.
Qed.
Lemma pidx_inj r r' : r < n -> r' < n -> pidx r = pidx r' -> r = r'.
Proof.
  intros H H' E. destruct (pidx_spec r H) as (_ & B1 & I1). destruct (pidx_spec r' H') as (_ & B2 & I2). rewrite E in B1, I1.
  assert (Eb : block_of sizes r = block_of sizes r'). { apply (lo_inj _ _ _ OK); [now apply block_spec|now apply block_spec|congruence]. }
  destruct (block_spec sizes r H) as (_ & A2). destruct (block_spec sizes r' H') as (_ & A2'). rewrite Eb in *. rewrite B2 in I1, I2. lia.
Qed.
Lemma pidx_perm : Permutation (map pidx (seq 0 n)) (seq 0 n).
Proof. apply map_perm; [intros x Hx; now apply pidx_spec|exact pidx_inj]. Qed.
Lemma pidx_surj i : i < n -> exists r, r < n /\ pidx r = i.
Proof.
  intros H. assert (Hin : In i (map pidx (seq 0 n))). { apply (Permutation_in _ (Permutation_sym pidx_perm)). apply in_seq. lia. }
  apply in_map_iff in Hin. destruct Hin as (r & E & Hr). apply in_seq in Hr. exists r. split; [lia|exact E].
Qed.
Lemma pidx_block_lt r c : r < n -> c < n -> l_pos L (block_of sizes r) < l_pos L (block_of sizes c) -> pidx r < pidx c.
Proof.
  intros Hr Hc H. destruct (pidx_spec r Hr) as (P1 & P2 & _). destruct (pidx_spec c Hc) as (Q1 & Q2 & _).
  destruct (Nat.lt_ge_cases (pidx r) (pidx c)) as [A|A]; [exact A|]. exfalso.
  pose proof (block_mono ls (pidx r) (pidx c) A ltac:(now rewrite sizes_sum)). lia.
Qed.
Lemma pidx_same r c : block_of sizes r = block_of sizes c -> c <= r -> start_of sizes (block_of sizes c) <= c -> pidx c <= pidx r.
Proof. intros E H S. unfold pidx. rewrite E. lia. Qed.

(** the place of the entry (i, j), i >= j, of the permuted matrix *)
Definition place (i j : nat) : option nat :=
  match l_off L (block_of ls i) (block_of ls j) with
  | Some o => Some (o + (l_stride L (block_of ls i) (block_of ls j) * (i - start_of ls (block_of ls i)) + (j - start_of ls (block_of ls j))))
  | None => None
  end.
Lemma place_inj i j i' j' a : j <= i -> i < n -> j' <= i' -> i' < n -> place i j = Some a -> place i' j' = Some a -> i = i' /\ j = j'.
Proof.
  intros H1 H2 H3 H4. unfold place. rewrite <- sizes_sum in *.
  destruct (block_spec ls i H2) as (A1 & A2). destruct (block_spec ls j ltac:(lia)) as (B1 & B2).
  destruct (block_spec ls i' H4) as (A1' & A2'). destruct (block_spec ls j' ltac:(lia)) as (B1' & B2').
  destruct (l_off L (block_of ls i) (block_of ls j)) as [o|] eqn:E1; [|discriminate].
  destruct (l_off L (block_of ls i') (block_of ls j')) as [o'|] eqn:E2; [|discriminate]. intros E E'.
  injection E as E. injection E' as E'. rewrite <- E' in E. rewrite (lo_len _ _ _ OK) in *.
  destruct (lo_places _ _ _ OK (block_of ls i) (block_of ls j) (i - start_of ls (block_of ls i)) (j - start_of ls (block_of ls j)) o
    (block_of ls i') (block_of ls j') (i' - start_of ls (block_of ls i')) (j' - start_of ls (block_of ls j')) o'
    (block_mono ls i j H1 H2) A1 (block_mono ls i' j' H3 H4) A1' ltac:(lia) ltac:(lia) ltac:(lia) ltac:(lia) E1 E2 E) as (U & W & X & Y).
  rewrite U in A2, X. rewrite W in B2, Y. lia.
Qed.
Lemma place_bound i j a : j <= i -> i < n -> place i j = Some a -> a < l_dataSize L.
Proof.
  intros H1 H2. unfold place. rewrite <- sizes_sum in *.
  destruct (block_spec ls i H2) as (A1 & A2). destruct (block_spec ls j ltac:(lia)) as (B1 & B2).
  destruct (l_off L (block_of ls i) (block_of ls j)) as [o|] eqn:E1; [|discriminate]. intros E. injection E as <-. rewrite (lo_len _ _ _ OK) in *.
  apply (lo_bound _ _ _ OK); [exact (block_mono ls i j H1 H2)|exact A1|lia|lia|exact E1].
Qed.
Lemma lower_place data i j : lower L data i j = match place i j with Some a => data a | None => 0%R end.
Proof. unfold lower, place. destruct (l_off L _ _); reflexivity. Qed.
(** the code's offset of the entry (r, c), c <= r *)
Lemma offset_place r c : r < n -> c <= r -> offsetInFactor L sizes r c = place (max (pidx r) (pidx c)) (min (pidx r) (pidx c)).
Proof.
  intros Hr Hc. unfold offsetInFactor. cbv zeta. rewrite !tpi_spec by lia. cbn [Nat.add].
  destruct (block_spec sizes r Hr) as (A1 & A2). destruct (block_spec sizes c ltac:(lia)) as (B1 & B2).
  rewrite !ps_spec by assumption. cbn [Nat.add]. destruct (pidx_spec r Hr) as (_ & P2 & P3). destruct (pidx_spec c ltac:(lia)) as (_ & Q2 & Q3).
  unfold blockOffset. destruct (Nat.ltb_spec (l_pos L (block_of sizes r)) (l_pos L (block_of sizes c))) as [H|H].
  - pose proof (pidx_block_lt r c Hr ltac:(lia) H). rewrite Nat.max_r, Nat.min_l by lia. unfold place. rewrite P3, Q3, P2, Q2.
    destruct (l_off L _ _); reflexivity.
  - assert (pidx c <= pidx r).
    { destruct (Nat.eq_dec (l_pos L (block_of sizes r)) (l_pos L (block_of sizes c))) as [E|E].
      - apply (lo_inj _ _ _ OK) in E; [|exact A1|exact B1]. apply pidx_same; [exact E|exact Hc|lia].
      - apply Nat.lt_le_incl, pidx_block_lt; lia. }
    rewrite Nat.max_l, Nat.min_r by lia. unfold place. rewrite P3, Q3, P2, Q2. destruct (l_off L _ _); reflexivity.
Qed.
(** two entries of the lower triangle have the same place only if they are the same entry *)
Lemma maxmin_inj r c r' c' : r < n -> c <= r -> r' < n -> c' <= r' ->
  max (pidx r) (pidx c) = max (pidx r') (pidx c') -> min (pidx r) (pidx c) = min (pidx r') (pidx c') -> r = r' /\ c = c'.
Proof.
  intros Hr Hc Hr' Hc' E1 E2.
  assert (G : (pidx r = pidx r' /\ pidx c = pidx c') \/ (pidx r = pidx c' /\ pidx c = pidx r')) by lia.
  destruct G as [[G1 G2]|[G1 G2]].
  - apply pidx_inj in G1; [|lia|lia]. apply pidx_inj in G2; [|lia|lia]. now split.
  - apply pidx_inj in G1; [|lia|lia]. apply pidx_inj in G2; [|lia|lia]. lia.
Qed.
Lemma offset_inj r c r' c' a : r < n -> c <= r -> r' < n -> c' <= r' ->
  offsetInFactor L sizes r c = Some a -> offsetInFactor L sizes r' c' = Some a -> r = r' /\ c = c'.
Proof.
  intros Hr Hc Hr' Hc'. rewrite !offset_place by assumption. intros E E'.
  destruct (pidx_spec r Hr) as (P1 & _). destruct (pidx_spec c ltac:(lia)) as (P2 & _). destruct (pidx_spec r' Hr') as (P3 & _). destruct (pidx_spec c' ltac:(lia)) as (P4 & _).
  destruct (place_inj (max (pidx r) (pidx c)) (min (pidx r) (pidx c)) (max (pidx r') (pidx c')) (min (pidx r') (pidx c')) a) as [F1 F2]; try assumption; try lia.
  now apply maxmin_inj.
Qed.
Lemma offset_bound r c a : r < n -> c <= r -> offsetInFactor L sizes r c = Some a -> a < l_dataSize L.
Proof.
  intros Hr Hc. rewrite offset_place by assumption. destruct (pidx_spec r Hr) as (P1 & _). destruct (pidx_spec c ltac:(lia)) as (P2 & _). apply place_bound; lia.
Qed.
End L.
