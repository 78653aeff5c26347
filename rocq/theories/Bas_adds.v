(** C76, second part: the additions assemble the normal matrix. *)
From Coq Require Import List Arith Bool Reals Lia Lra Permutation.
From Verif Require Import RSum Csr_spec Csr_model Lin_proofs Csr_props Bas_model Bas_spec Bas_blocks.
Import ListNotations.
Local Open Scope nat_scope.

Lemma collect_some {A} (l : list (option A)) : (forall x, In x l -> x <> None) -> exists s, collect l = Some s /\ l = map Some s.
Proof.
  induction l as [|[a|] l IH]; intros H.
  - exists []. now split.
  - destruct IH as (s & E & E2); [intros x Hx; apply H; now right|]. exists (a :: s). cbn [collect map]. rewrite E. split; [reflexivity|now rewrite E2].
  - exfalso. apply (H None); [now left|reflexivity].
Qed.
Lemma lsum_ext {X} (f g : X -> R) l : (forall x, In x l -> f x = g x) -> lsum f l = lsum g l.
Proof. induction l as [|x l IH]; intros H; [reflexivity|]. cbn [lsum]. rewrite (H x) by now left. rewrite IH; [reflexivity|]. intros y Hy. apply H. now right. Qed.
Lemma lsum_zero {X} (f : X -> R) l : (forall x, In x l -> f x = 0%R) -> lsum f l = 0%R.
Proof. induction l as [|x l IH]; intros H; [reflexivity|]. cbn [lsum]. rewrite (H x) by now left. rewrite IH; [lra|]. intros y Hy. apply H. now right. Qed.
Lemma lsum_shift (g : nat -> R) k : forall s, lsum g (seq s k) = rsum k (fun i => g (s + i)).
Proof.
  induction k as [|k IH]; intros s; [reflexivity|]. rewrite seq_S, lsum_app, IH. cbn [lsum rsum]. lra.
Qed.
Lemma lsum_pick (f : nat -> R) b B : b < B -> lsum (fun b' => if b' =? b then f b' else 0%R) (seq 0 B) = f b.
Proof. intros H. rewrite lsum_seq, rsum_delta. destruct (Nat.ltb_spec b B); [reflexivity|lia]. Qed.
Lemma list_sum_pos (f : nat -> nat) q m : q < m -> f q <> 0 -> list_sum (map f (seq 0 m)) <> 0.
Proof.
  intros H Hf. assert (Hin : In q (seq 0 m)) by (apply in_seq; lia). revert Hin. generalize (seq 0 m). induction l as [|x l IH]; intros Hin; [destruct Hin|].
  cbn [map]. rewrite list_sum_cons. destruct Hin as [->|Hin]; [lia|]. specialize (IH Hin). lia.
Qed.
Definition opt_val {A} (g : A -> R) (o : option A) : R := match o with Some x => g x | None => 0%R end.
Lemma lsum_collect {A} (g : A -> R) l s : l = map Some s -> lsum g s = lsum (opt_val g) l.
Proof. intros ->. now rewrite lsum_map. Qed.

Section A.
Variables (m : nat) (rp ci : list nat) (L : layout) (sizes : list nat).
Notation n := (list_sum sizes).
Notation N := (length sizes).
Notation struct := (block_struct rp ci (param_start 0 sizes) n).
Hypothesis W : csr_wf m n rp ci.
Hypothesis OK : layout_ok L sizes struct.
Notation F := (l_dataSize L).
Notation nnz := (length ci).
Notation in_row q k := (row_start rp q <= k < row_start rp q + row_len rp q).

Lemma row_lt q k : q < m -> in_row q k -> col ci k < n.
Proof. intros H Hk. replace k with (row_start rp q + (k - row_start rp q)) by lia. apply (col_lt m n rp ci W q); lia. Qed.
Lemma row_nnz q k : q < m -> in_row q k -> k < nnz.
Proof. intros H Hk. replace k with (row_start rp q + (k - row_start rp q)) by lia. apply (in_range m n rp ci W q); lia. Qed.
Lemma row_sorted q i j : q < m -> in_row q i -> in_row q j -> i < j -> col ci i < col ci j.
Proof.
  intros H Hi Hj Hl. unfold col. apply (wf_sorted _ _ _ _ W q); [exact H| |exact Hl|].
  - apply Hi.
  - pose proof (end_eq m n rp ci W q H) as E. unfold row_end in E. lia.
Qed.
Lemma count_pos q k : q < m -> in_row q k -> block_count rp ci (param_start 0 sizes ++ [n]) (block_of sizes (col ci k)) q <> 0.
Proof.
  intros H Hk. pose proof (row_lt q k H Hk) as Hc. destruct (block_spec sizes _ Hc) as (A1 & A2). unfold block_count.
  assert (Hin : In k (filter (fun k0 => (nth (block_of sizes (col ci k)) (param_start 0 sizes ++ [n]) 0 <=? col ci k0) &&
      (col ci k0 <? nth (S (block_of sizes (col ci k))) (param_start 0 sizes ++ [n]) 0)) (seq (row_start rp q) (row_len rp q)))).
  { apply filter_In. split; [apply in_seq; lia|]. rewrite !bounds_spec by lia. rewrite start_succ by exact A1. apply andb_true_intro.
    split; [apply Nat.leb_le|apply Nat.ltb_lt]; lia. }
  destruct (filter _ _); [destruct Hin|discriminate].
Qed.
Lemma in_struct q k k' : q < m -> in_row q k -> in_row q k' -> In (block_of sizes (col ci k')) (nth (block_of sizes (col ci k)) struct []).
Proof.
  intros H Hk Hk'. destruct (block_spec sizes _ (row_lt q k H Hk)) as (A1 & _). destruct (block_spec sizes _ (row_lt q k' H Hk')) as (B1 & _).
  unfold block_struct. cbv zeta. rewrite ps_length.
  set (f := fun p => filter _ _). rewrite (nth_indep _ [] (f 0)) by now rewrite map_length, seq_length. rewrite (map_nth f), seq_nth by exact A1. cbn [Nat.add]. unfold f.
  apply filter_In. split; [apply in_seq; lia|]. unfold block_AtA. apply negb_true_iff, Nat.eqb_neq. rewrite (nrows_m m n rp ci W).
  apply (list_sum_pos (fun q => block_count rp ci _ _ q * block_count rp ci _ _ q) q m H).
  pose proof (count_pos q k H Hk). pose proof (count_pos q k' H Hk'). lia.
Qed.
Lemma stored q j i : q < m -> in_row q j -> in_row q i -> offsetInFactor L sizes (col ci j) (col ci i) <> None.
Proof.
  intros H Hj Hi. pose proof (row_lt q j H Hj) as Cj. pose proof (row_lt q i H Hi) as Ci.
  destruct (block_spec sizes _ Cj) as (A1 & _). destruct (block_spec sizes _ Ci) as (B1 & _).
  unfold offsetInFactor. cbv zeta. rewrite !tpi_spec by assumption. cbn [Nat.add]. unfold blockOffset.
  destruct (Nat.ltb_spec (l_pos L (block_of sizes (col ci j))) (l_pos L (block_of sizes (col ci i)))) as [Q|Q].
  - pose proof (lo_struct _ _ _ OK (block_of sizes (col ci i)) (block_of sizes (col ci j)) B1 (in_struct q i j H Hi Hj) ltac:(lia)) as S.
    destruct (l_off L _ _); [discriminate|contradiction].
  - pose proof (lo_struct _ _ _ OK (block_of sizes (col ci j)) (block_of sizes (col ci i)) A1 (in_struct q j i H Hj Hi) ltac:(lia)) as S.
    destruct (l_off L _ _); [discriminate|contradiction].
Qed.
Variable val : nat -> R.
Variable B : nat.
(** the matrix of batch element b *)
Definition mat_of (b : nat) : nat -> nat -> R := csr_entry rp ci (fun k => val (k + b * nnz)).
(** the value that an addition contributes to the place of (r, c) of element b *)
Definition contrib (b o : nat) (x : option add) : R := opt_val (fun x : add => if Nat.eqb (o + b * F) (fst x) then snd x else 0%R) x.
Lemma batch_place o b o' b' : o < F -> o' < F -> o + b * F = o' + b' * F -> o = o' /\ b = b'.
Proof. intros H H' E. destruct (Nat.lt_trichotomy b b') as [Q|[Q|Q]]; [exfalso; nia|subst; lia|exfalso; nia]. Qed.
Lemma item q j i b' b r c o : q < m -> in_row q j -> in_row q i -> i <= j -> r < n -> c <= r -> offsetInFactor L sizes r c = Some o ->
  contrib b o (MtM_add L sizes ci val j i b') =
  if b' =? b then if (col ci j =? r) && (col ci i =? c) then (val (j + b * nnz)%nat * val (i + b * nnz)%nat)%R else 0%R else 0%R.
Proof.
  intros H Hj Hi Hij Hr Hc E. pose proof (row_lt q j H Hj) as Cj.
  assert (Cij : col ci i <= col ci j). { destruct (Nat.eq_dec i j) as [->|Ne]; [lia|]. pose proof (row_sorted q i j H Hi Hj ltac:(lia)). lia. }
  unfold MtM_add, contrib, opt_val. pose proof (stored q j i H Hj Hi) as S. destruct (offsetInFactor L sizes (col ci j) (col ci i)) as [o'|] eqn:E'; [|contradiction]. cbn [fst snd].
  pose proof (offset_bound L sizes struct OK _ _ _ Hr Hc E) as Bo. pose proof (offset_bound L sizes struct OK _ _ _ Cj Cij E') as Bo'.
  destruct (Nat.eqb_spec (o + b * F) (o' + b' * F)) as [Q|Q].
  - destruct (batch_place _ _ _ _ Bo Bo' Q) as [-> ->]. rewrite Nat.eqb_refl. destruct (offset_inj L sizes struct OK _ _ _ _ _ Hr Hc Cj Cij E E') as [-> ->].
    now rewrite !Nat.eqb_refl.
  - destruct (Nat.eqb_spec b' b) as [->|]; [|reflexivity]. destruct (Nat.eqb_spec (col ci j) r) as [Ej|]; [|reflexivity].
    destruct (Nat.eqb_spec (col ci i) c) as [Ei|]; [|reflexivity]. subst r c. rewrite E in E'. injection E' as ->. contradiction.
Qed.
(** the additions of one row of A *)
Definition row_total (q b r c : nat) : R :=
  lsum (fun j => lsum (fun i => if (col ci j =? r) && (col ci i =? c) then (val (j + b * nnz)%nat * val (i + b * nnz)%nat)%R else 0%R)
    (seq (row_start rp q) (S j - row_start rp q))) (seq (row_start rp q) (row_len rp q)).
Lemma row_total_eq q b r c : q < m -> c <= r -> row_total q b r c = (mat_of b q r * mat_of b q c)%R.
Proof.
  intros H Hc. unfold row_total, mat_of. rewrite !(entry_eq rp ci). rewrite lsum_shift, <- rsum_scal_r. apply rsum_ext. intros j Hj.
  destruct (Nat.eqb_spec (col ci (row_start rp q + j)) r) as [Ej|Ej].
  - rewrite (proj2 (Nat.eqb_eq r _)) by now symmetry. cbn [andb]. rewrite lsum_shift, <- rsum_scal.
    replace (S (row_start rp q + j) - row_start rp q) with (S j) by lia. replace (row_len rp q) with (S j + (row_len rp q - S j)) by lia. rewrite rsum_app.
    rewrite (rsum_0 (row_len rp q - S j)).
    + rewrite Rplus_0_r. apply rsum_ext. intros i Hi. rewrite (Nat.eqb_sym c). destruct (col ci (row_start rp q + i) =? c); ring.
    + intros i Hi. destruct (Nat.eqb_spec c (col ci (row_start rp q + (S j + i)))) as [Ec|]; [|ring]. exfalso.
      pose proof (row_sorted q (row_start rp q + j) (row_start rp q + (S j + i)) H ltac:(lia) ltac:(lia) ltac:(lia)). lia.
  - destruct (Nat.eqb_spec r (col ci (row_start rp q + j))) as [Q|]; [exfalso; now apply Ej|]. cbn [andb]. rewrite lsum_zero; [ring|reflexivity].
Qed.
Lemma cpu_total b r c o : b < B -> r < n -> c <= r -> offsetInFactor L sizes r c = Some o ->
  lsum (contrib b o) (flat_map (fun q => flat_map (fun j => flat_map (fun i => map (MtM_add L sizes ci val j i) (seq 0 B))
    (seq (row_start rp q) (S j - row_start rp q))) (seq (row_start rp q) (row_len rp q))) (seq 0 (nrows rp)))
  = rsum m (fun q => (mat_of b q r * mat_of b q c)%R).
Proof.
  intros Hb Hr Hc E. rewrite lsum_flat_map, (nrows_m m n rp ci W), lsum_seq. apply rsum_ext. intros q Hq. rewrite <- row_total_eq by assumption. unfold row_total.
  rewrite lsum_flat_map. apply lsum_ext. intros j Hj. apply in_seq in Hj. rewrite lsum_flat_map. apply lsum_ext. intros i Hi. apply in_seq in Hi.
  rewrite lsum_map. rewrite (lsum_ext _ (fun b' => if b' =? b then (if (col ci j =? r) && (col ci i =? c) then (val (j + b * nnz)%nat * val (i + b * nnz)%nat)%R else 0%R) else 0%R)).
  - apply (lsum_pick (fun _ => _) b B Hb).
  - intros b' _. apply (item q); auto; lia.
Qed.
Lemma cuda_total b r c o : b < B -> r < n -> c <= r -> offsetInFactor L sizes r c = Some o ->
  lsum (contrib b o) (flat_map (fun q => flat_map (fun b => add_MtM_thread L sizes rp ci val q b) (seq 0 B)) (seq 0 (nrows rp)))
  = rsum m (fun q => (mat_of b q r * mat_of b q c)%R).
Proof.
  intros Hb Hr Hc E. rewrite lsum_flat_map, (nrows_m m n rp ci W), lsum_seq. apply rsum_ext. intros q Hq. rewrite <- row_total_eq by assumption.
  rewrite lsum_flat_map. rewrite (lsum_ext _ (fun b' => if b' =? b then row_total q b r c else 0%R)).
  - apply (lsum_pick (fun _ => _) b B Hb).
  - intros b' _. unfold add_MtM_thread, row_total. rewrite lsum_flat_map.
    rewrite (lsum_ext _ (fun j => if b' =? b then lsum (fun i => if (col ci j =? r) && (col ci i =? c) then (val (j + b * nnz)%nat * val (i + b * nnz)%nat)%R else 0%R)
      (seq (row_start rp q) (S j - row_start rp q)) else 0%R)).
    + destruct (b' =? b); [reflexivity|]. now apply lsum_zero.
    + intros j Hj. apply in_seq in Hj. rewrite lsum_map.
      rewrite (lsum_ext _ (fun i => if b' =? b then if (col ci j =? r) && (col ci i =? c) then (val (j + b * nnz)%nat * val (i + b * nnz)%nat)%R else 0%R else 0%R)).
      * destruct (b' =? b); [reflexivity|]. now apply lsum_zero.
      * intros i Hi. apply in_seq in Hi. apply (item q); auto; lia.
Qed.
Lemma MtM_add_some q j i b : q < m -> in_row q j -> in_row q i -> MtM_add L sizes ci val j i b <> None.
Proof. intros H Hj Hi. unfold MtM_add. pose proof (stored q j i H Hj Hi). destruct (offsetInFactor _ _ _ _); [discriminate|contradiction]. Qed.
(** every block that is accessed is stored, and the sum of the additions to an entry is the entry of A^T A *)
Lemma cpu_adds : exists l, add_MtM_cpu L sizes rp ci val B = Some l /\ forall b r c o, b < B -> r < n -> c <= r -> offsetInFactor L sizes r c = Some o ->
  lsum (fun x : add => if Nat.eqb (o + b * F) (fst x) then snd x else 0%R) l = rsum m (fun q => (mat_of b q r * mat_of b q c)%R).
Proof.
  unfold add_MtM_cpu. set (l0 := flat_map _ _). destruct (collect_some l0) as (s & E & Es).
  - intros x Hx. unfold l0 in Hx. rewrite (nrows_m m n rp ci W) in Hx. repeat (apply in_flat_map in Hx; destruct Hx as (? & ?Hq & Hx)). apply in_map_iff in Hx. destruct Hx as (b & <- & _).
    apply in_seq in Hq, Hq0, Hq1. apply (MtM_add_some x0); lia.
  - exists s. split; [exact E|]. intros b r c o Hb Hr Hc Eo. rewrite (lsum_collect _ l0 s Es). now apply cpu_total.
Qed.
Lemma cuda_adds : exists l, add_MtM_cuda L sizes rp ci val B = Some l /\ forall b r c o, b < B -> r < n -> c <= r -> offsetInFactor L sizes r c = Some o ->
  lsum (fun x : add => if Nat.eqb (o + b * F) (fst x) then snd x else 0%R) l = rsum m (fun q => (mat_of b q r * mat_of b q c)%R).
Proof.
  unfold add_MtM_cuda. set (l0 := flat_map _ _). destruct (collect_some l0) as (s & E & Es).
  - intros x Hx. unfold l0 in Hx. rewrite (nrows_m m n rp ci W) in Hx. apply in_flat_map in Hx. destruct Hx as (q & Hq & Hx). apply in_flat_map in Hx. destruct Hx as (b & Hb & Hx).
    unfold add_MtM_thread in Hx. apply in_flat_map in Hx. destruct Hx as (j & Hj & Hx). apply in_map_iff in Hx. destruct Hx as (i & <- & Hi).
    apply in_seq in Hq, Hj, Hi. apply (MtM_add_some q); lia.
  - exists s. split; [exact E|]. intros b r c o Hb Hr Hc Eo. rewrite (lsum_collect _ l0 s Es). now apply cuda_total.
Qed.
(** an entry whose block is not stored is zero *)
Lemma not_stored b r c : r < n -> c <= r -> offsetInFactor L sizes r c = None -> rsum m (fun q => (mat_of b q r * mat_of b q c)%R) = 0%R.
Proof.
  intros Hr Hc E. apply rsum_0. intros q Hq. unfold mat_of. rewrite !(entry_eq rp ci). rewrite <- rsum_scal_r. apply rsum_0. intros j Hj.
  destruct (Nat.eqb_spec r (col ci (row_start rp q + j))) as [Ej|]; [|ring]. rewrite (rsum_0 (row_len rp q)); [ring|].
  intros i Hi. destruct (Nat.eqb_spec c (col ci (row_start rp q + i))) as [Ei|]; [|reflexivity]. exfalso. subst r c.
  now apply (stored q (row_start rp q + j) (row_start rp q + i) Hq ltac:(lia) ltac:(lia)).
Qed.
End A.
