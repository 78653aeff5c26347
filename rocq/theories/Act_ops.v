(** What permute, matmul, transpose, and the helper of left_act do, block by block. *)
From Coq Require Import List Arith Bool ZArith Reals Lra Lia.
From Verif Require Import RSum Act_model Act_base.
Import ListNotations.
Local Open Scope nat_scope.

Lemma pos_in d p q : In d p -> pos d (p ++ q) = pos d p.
Proof. induction p as [|x p IH]; [intros []|]. cbn. destruct (Nat.eqb_spec x d); [reflexivity|]. intros [H|H]; [congruence|]. rewrite IH; auto. Qed.
Lemma pos_notin d p q : ~ In d p -> pos d (p ++ q) = length p + pos d q.
Proof. induction p as [|x p IH]; [reflexivity|]. cbn. intros H. destruct (Nat.eqb_spec x d); [exfalso; auto|]. rewrite IH; auto. Qed.
Lemma pos_seq d s k : s <= d -> d < s + k -> pos d (seq s k) = d - s.
Proof. revert s; induction k as [|k IH]; intros s H1 H2; [lia|]. cbn. destruct (Nat.eqb_spec s d); [lia|]. rewrite IH; lia. Qed.
Lemma map_seq_list {A} (d0 : A) (f : nat -> A) s k l : length l = k -> (forall i, i < k -> f (s + i) = nth i l d0) -> map f (seq s k) = l.
Proof.
  intros L H. apply nth_ext with (d := d0) (d' := d0); rewrite map_length, seq_length; [lia|]. intros i Hi.
  rewrite (nth_indep _ d0 (f 0)) by (rewrite map_length, seq_length; exact Hi).
  rewrite map_nth, seq_nth by exact Hi. apply H; exact Hi.
Qed.
Lemma seq_split3 a b c : seq 0 (a + b + c) = seq 0 a ++ seq a b ++ seq (a + b) c.
Proof. rewrite (seq_app (a + b) c), (seq_app a b), <- app_assoc. reflexivity. Qed.
Lemma wrap_nat n d : wrap n (Z.of_nat d) = d.
Proof. unfold wrap. destruct (Z.ltb_spec (Z.of_nat d) 0); [lia|]. apply Nat2Z.id. Qed.

Definition swap_blocks (a b c : nat) : list Z := map Z.of_nat (seq a b ++ seq 0 a ++ seq (a + b) c).
Lemma permute_blocks t A B C : sh t = A ++ B ++ C -> exists t', permute (swap_blocks (length A) (length B) (length C)) t = Some t' /\
  sh t' = B ++ A ++ C /\ forall x y z, length x = length A -> length y = length B -> length z = length C -> dat t' (y ++ x ++ z) = dat t (x ++ y ++ z).
Proof.
  intros E. set (q := seq (length A) (length B) ++ seq 0 (length A) ++ seq (length A + length B) (length C)).
  assert (N : ndim t = length A + length B + length C) by (rewrite E, !app_length; lia).
  assert (Q : map (wrap (ndim t)) (swap_blocks (length A) (length B) (length C)) = q).
  { unfold swap_blocks. rewrite map_map. rewrite <- (map_id q) at 1. apply map_ext. intros; apply wrap_nat. }
  assert (In1 : forall d, d < ndim t -> In d q) by (intros d H; unfold q; rewrite !in_app_iff, !in_seq; lia).
  unfold permute. rewrite Q.
  assert (L : length (swap_blocks (length A) (length B) (length C)) = ndim t)
    by (unfold swap_blocks; rewrite map_length, !app_length, !seq_length; lia).
  rewrite L, Nat.eqb_refl. cbn [andb].
  replace (forallb _ (swap_blocks _ _ _)) with true.
  2:{ symmetry. apply forallb_forall. intros z Hz. unfold swap_blocks in Hz. apply in_map_iff in Hz. destruct Hz as (d & <- & Hd).
      rewrite !in_app_iff, !in_seq in Hd. apply andb_true_iff; split; [apply Z.leb_le|apply Z.ltb_lt]; lia. }
  replace (forallb _ (seq 0 (ndim t))) with true.
  2:{ symmetry. apply forallb_forall. intros d Hd. apply in_seq in Hd. apply existsb_exists. exists d. split; [apply In1; lia|apply Nat.eqb_refl]. }
  cbn [andb]. eexists; split; [reflexivity|]. cbn [sh dat]. split.
  - unfold q. rewrite E, !map_app. f_equal; [|f_equal]; apply map_seq_list with (d0 := 0); try reflexivity; intros i Hi.
    + rewrite app_nth2 by lia. rewrite app_nth1 by lia. f_equal; lia.
    + rewrite app_nth1 by lia. reflexivity.
    + rewrite app_nth2 by lia. rewrite app_nth2 by lia. f_equal; lia.
  - intros x y z Lx Ly Lz. f_equal. rewrite N, seq_split3, !map_app. f_equal; [|f_equal]; apply map_seq_list with (d0 := 0); try lia; intros i Hi; unfold q.
    + rewrite pos_notin by (rewrite in_seq; lia). rewrite pos_in by (rewrite in_seq; lia). rewrite pos_seq, seq_length by lia.
      rewrite app_nth2 by lia. rewrite app_nth1 by lia. f_equal; lia.
    + rewrite pos_in by (rewrite in_seq; lia). rewrite pos_seq by lia. rewrite app_nth1 by lia. f_equal; lia.
    + rewrite pos_notin by (rewrite in_seq; lia). rewrite pos_notin by (rewrite in_seq; lia). rewrite pos_seq, !seq_length by lia.
      rewrite app_nth2 by lia. rewrite app_nth2 by lia. f_equal; lia.
Qed.
Lemma zrange_nat a b : zrange (Z.of_nat a) (Z.of_nat b) = map Z.of_nat (seq a (b - a)).
Proof.
  unfold zrange. replace (Z.to_nat (Z.of_nat b - Z.of_nat a)) with (b - a) by lia.
  symmetry. generalize (b - a) as k. intros k. apply map_seq_list with (d0 := 0%Z); [rewrite map_length, seq_length; reflexivity|]. intros i Hi.
  rewrite (nth_indep _ 0%Z ((fun i => Z.of_nat a + Z.of_nat i)%Z 0)) by (rewrite map_length, seq_length; exact Hi).
  rewrite (map_nth (fun i => (Z.of_nat a + Z.of_nat i)%Z)), seq_nth by exact Hi. lia.
Qed.
Lemma permute_op_blocks a d : permute_op_dim (Z.of_nat (a + d + 2)) (Z.of_nat d) 2 = swap_blocks a d 2.
Proof.
  unfold permute_op_dim, swap_blocks. replace (Z.of_nat (a + d + 2) - Z.of_nat d - 2)%Z with (Z.of_nat a) by lia.
  replace (Z.of_nat (a + d + 2) - 2)%Z with (Z.of_nat (a + d)) by lia. change 0%Z with (Z.of_nat 0). rewrite !zrange_nat, !map_app.
  f_equal; [f_equal; f_equal; lia|]. f_equal; [f_equal; f_equal; lia|]. f_equal; f_equal; lia.
Qed.
Lemma unpermute_op_blocks a d : unpermute_op_dim (Z.of_nat (a + d + 2)) (Z.of_nat d) 2 = swap_blocks d a 2.
Proof.
  unfold unpermute_op_dim, swap_blocks. replace (Z.of_nat (a + d + 2) - 2)%Z with (Z.of_nat (a + d)) by lia.
  change 0%Z with (Z.of_nat 0). rewrite !zrange_nat, !map_app.
  f_equal; [f_equal; f_equal; lia|]. f_equal; [f_equal; f_equal; lia|]. f_equal; f_equal; lia.
Qed.

(** ** the two matrix dimensions *)
Lemma mat_bsh t A r c : sh t = A ++ [r; c] -> bsh t = A /\ rows t = r /\ cols t = c /\ ndim t = length A + 2.
Proof.
  intros E. unfold bsh, rows, cols. rewrite E, app_length. cbn [length]. replace (length A + 2 - 2) with (length A) by lia.
  split; [apply firstn_app_exact; reflexivity|]. split; [rewrite app_nth2, Nat.sub_diag by lia; reflexivity|]. split; [|reflexivity].
  rewrite app_nth2 by lia. replace (length A + 2 - 1 - length A) with 1 by lia. reflexivity.
Qed.
Lemma idx_split (x : list nat) i j : length (x ++ [i; j]) - 2 = length x /\ firstn (length x) (x ++ [i; j]) = x /\ nth (length x) (x ++ [i; j]) 0 = i /\
  nth (length (x ++ [i; j]) - 1) (x ++ [i; j]) 0 = j.
Proof.
  rewrite app_length. cbn [length]. split; [lia|]. split; [apply firstn_app_exact; reflexivity|]. split; [rewrite app_nth2, Nat.sub_diag by lia; reflexivity|].
  rewrite app_nth2 by lia. replace (length x + 2 - 1 - length x) with 1 by lia. reflexivity.
Qed.
Lemma idx_split1 (x : list nat) k : length (x ++ [k]) - 1 = length x /\ firstn (length x) (x ++ [k]) = x /\ nth (length x) (x ++ [k]) 0 = k.
Proof.
  rewrite app_length. cbn [length]. split; [lia|]. split; [apply firstn_app_exact; reflexivity|]. rewrite app_nth2, Nat.sub_diag by lia. reflexivity.
Qed.
Lemma matmul_blocks a b A B S r m c : sh a = A ++ [r; m] -> sh b = B ++ [m; c] -> bcast A B = Some S -> exists q, matmul a b = Some q /\ sh q = S ++ [r; c] /\
  forall x i j, dat q (x ++ [i; j]) = rsum m (fun l => (dat a (bidx A x ++ [i; l]) * dat b (bidx B x ++ [l; j]))%R).
Proof.
  intros Ea Eb H. destruct (mat_bsh _ _ _ _ Ea) as (a1 & a2 & a3 & a4). destruct (mat_bsh _ _ _ _ Eb) as (b1 & b2 & b3 & b4).
  unfold matmul. rewrite a1, a2, a3, a4, b1, b2, b3, b4, Nat.eqb_refl, H.
  replace (2 <=? length A + 2) with true by (symmetry; apply Nat.leb_le; lia). replace (2 <=? length B + 2) with true by (symmetry; apply Nat.leb_le; lia). cbn [andb].
  eexists; split; [reflexivity|]. split; [reflexivity|]. intros x i j. cbn [dat].
  destruct (idx_split x i j) as (-> & -> & -> & ->). reflexivity.
Qed.
Lemma transpose_blocks t A r c : sh t = A ++ [r; c] -> sh (transpose t) = A ++ [c; r] /\ forall x i j, dat (transpose t) (x ++ [i; j]) = dat t (x ++ [j; i]).
Proof.
  intros E. destruct (mat_bsh _ _ _ _ E) as (E1 & E2 & E3 & E4). unfold transpose; cbn [sh dat]. rewrite E1, E2, E3. split; [reflexivity|].
  intros x i j. destruct (idx_split x i j) as (-> & -> & -> & ->). reflexivity.
Qed.
Lemma sum_dims_blocks t A B C : sh t = A ++ B ++ C -> sh (sum_dims (length A) (length B) t) = A ++ C /\
  forall x z, length x = length A -> dat (sum_dims (length A) (length B) t) (x ++ z) = isum B (fun y => dat t (x ++ y ++ z)).
Proof.
  intros E. unfold sum_dims; cbn [sh dat]. rewrite E. rewrite firstn_app_exact by reflexivity. rewrite (skipn_app_exact A (B ++ C) (length A)) by reflexivity. rewrite (firstn_app_exact B C (length B)) by reflexivity.
  split.
  - f_equal. rewrite app_assoc. apply skipn_app_exact. rewrite app_length; reflexivity.
  - intros x z L. rewrite firstn_app_exact, skipn_app_exact by lia. reflexivity.
Qed.

(** ** broadcasting the group against the permuted tensor *)
Lemma bcast_front g o b s : length g <= length b -> bcast g b = Some s -> bcast g (o ++ b) = Some (o ++ s).
Proof.
  unfold bcast. intros L H. rewrite Nat.max_r in H by lia. rewrite Nat.max_r by (rewrite app_length; lia).
  rewrite (pad_id (length (o ++ b)) (o ++ b)) by lia. rewrite (pad_id (length b) b) in H by lia.
  replace (pad (length (o ++ b)) g) with (repeat 1 (length o) ++ pad (length b) g).
  - apply bzip_app; [apply bzip_ones_l|exact H].
  - unfold pad. rewrite app_assoc, <- repeat_app, app_length. f_equal. f_equal. lia.
Qed.
Lemma bcast_both o s b : expands b s -> length b = length s -> bcast (o ++ s) (o ++ b) = Some (o ++ s).
Proof.
  intros [_ E] L. unfold bcast. rewrite !pad_id by (rewrite !app_length; lia). apply bzip_app; [apply bzip_refl|]. rewrite bzip_sym.
  rewrite pad_id in E by lia. exact E.
Qed.
Lemma bcast_id s : bcast s s = Some s.
Proof. unfold bcast. rewrite !pad_id by lia. apply bzip_refl. Qed.
Lemma expands_front g o s : expands g s -> expands g (o ++ s).
Proof.
  intros [L E]. split; [rewrite app_length; lia|]. rewrite app_length.
  replace (pad (length o + length s) g) with (repeat 1 (length o) ++ pad (length s) g).
  - apply bzip_app; [apply bzip_ones_l|exact E].
  - unfold pad. rewrite app_assoc, <- repeat_app. f_equal. f_equal. lia.
Qed.
Lemma bcast_expand g s : expands g s -> bcast g s = Some s.
Proof. intros [L E]. unfold bcast. rewrite Nat.max_r by lia. rewrite (pad_id (length s) s) by lia. exact E. Qed.
