(** C27, C30, C46: products with CSR matrices, their backward functions, CUDA kernels. *)
From Coq Require Import List Arith Bool Reals Lra Lia Permutation Sorted.
From Verif Require Import RSum Csr_spec Csr_model Lin_model Lin_proofs Lin_proofs2 Lin_props.
Import ListNotations.
Local Open Scope nat_scope.

(** ---- sums over lists ---- *)
Lemma lsum_app {X} (g : X -> R) a b : lsum g (a ++ b) = (lsum g a + lsum g b)%R.
Proof. induction a as [|x t IH]; simpl; [lra|]. rewrite IH. lra. Qed.
Lemma lsum_flat_map {X Y} (g : Y -> R) (f : X -> list Y) l : lsum g (flat_map f l) = lsum (fun x => lsum g (f x)) l.
Proof. induction l as [|x t IH]; simpl; [reflexivity|]. rewrite lsum_app, IH. reflexivity. Qed.
Lemma lsum_map {X Y} (g : Y -> R) (f : X -> Y) l : lsum g (map f l) = lsum (fun x => g (f x)) l.
Proof. induction l as [|x t IH]; simpl; [reflexivity|]. now rewrite IH. Qed.
Lemma lsum_seq (g : nat -> R) n : lsum g (seq 0 n) = rsum n g.
Proof.
  induction n as [|n IH]; [reflexivity|]. rewrite seq_S, lsum_app, IH. simpl. lra.
Qed.
Lemma run_adds_sum l : forall mem a, run_adds mem l a = (mem a + lsum (fun x => if Nat.eqb a (fst x) then snd x else 0%R) l)%R.
Proof.
  induction l as [|x t IH]; intros mem a; [simpl; lra|]. unfold run_adds in *. cbn [fold_left lsum]. rewrite IH.
  destruct (Nat.eqb a (fst x)); lra.
Qed.
Lemma rsum_ite_scal n (b : nat -> bool) f (x : R) : (rsum n (fun i => if b i then f i else 0) * x = rsum n (fun i => if b i then f i * x else 0))%R.
Proof. rewrite <- rsum_scal_r. apply rsum_ext. intros i _. destruct (b i); ring. Qed.

(** ---- one CSR matrix ---- *)
Section One.
Variables (m n : nat) (rp ci : list nat).
Hypothesis W : csr_wf m n rp ci.
Notation start := (row_start rp).
Notation len := (row_len rp).

Lemma nrows_m : nrows rp = m.
Proof. unfold nrows. rewrite (wf_len _ _ _ _ W). lia. Qed.
Lemma entry_eq val r c : csr_entry rp ci val r c = rsum (len r) (fun k => if Nat.eqb c (col ci (start r + k)) then val (start r + k) else 0%R).
Proof. unfold csr_entry, row_len, row_start, row_end, col. apply rsum_ext. intros k _. now rewrite Nat.eqb_sym. Qed.
Lemma start_le r : r <= m -> start r <= length ci.
Proof.
  intros H. rewrite <- (wf_last _ _ _ _ W). unfold row_start.
  assert (G : forall d, r + d <= m -> nth r rp 0 <= nth (r + d) rp 0).
  { induction d as [|d IH]; intros Hd; [rewrite Nat.add_0_r; lia|]. rewrite Nat.add_succ_r.
    pose proof (wf_mono _ _ _ _ W (r + d)). specialize (IH ltac:(lia)). lia. }
  replace m with (r + (m - r)) by lia. apply G. lia.
Qed.
Lemma start_mono r r' : r <= r' -> r' <= m -> start r <= start r'.
Proof.
  intros H H'. unfold row_start. replace r' with (r + (r' - r)) by lia.
  assert (G : forall d, r + d <= m -> nth r rp 0 <= nth (r + d) rp 0).
  { induction d as [|d IH]; intros Hd; [rewrite Nat.add_0_r; lia|]. rewrite Nat.add_succ_r.
    pose proof (wf_mono _ _ _ _ W (r + d)). specialize (IH ltac:(lia)). lia. }
  apply G. lia.
Qed.
Lemma end_eq r : r < m -> row_end rp r = start r + len r.
Proof. intros H. unfold row_len, row_end, row_start. pose proof (wf_mono _ _ _ _ W r H). lia. Qed.
Lemma end_start r : row_end rp r = start (S r).
Proof. reflexivity. Qed.
Lemma in_range r k : r < m -> k < len r -> start r + k < length ci.
Proof.
  intros H Hk. pose proof (start_le (S r) ltac:(lia)). rewrite <- end_start, (end_eq r H) in H0. lia.
Qed.
Lemma col_lt r k : r < m -> k < len r -> col ci (start r + k) < n.
Proof. intros H Hk. apply (wf_cols _ _ _ _ W). now apply in_range. Qed.
Lemma cols_inj r j k : r < m -> j < len r -> k < len r -> col ci (start r + j) = col ci (start r + k) -> j = k.
Proof.
  intros H Hj Hk E. pose proof (end_eq r H) as He. unfold row_end, row_start, col in *.
  destruct (Nat.lt_trichotomy j k) as [L|[L|L]]; [|exact L|].
  - pose proof (wf_sorted _ _ _ _ W r (nth r rp 0 + j) (nth r rp 0 + k) H). lia.
  - pose proof (wf_sorted _ _ _ _ W r (nth r rp 0 + k) (nth r rp 0 + j) H). lia.
Qed.
(** sums over all places are sums over the rows *)
Lemma rows_partition f : rsum (length ci) f = rsum m (fun r => rsum (len r) (fun k => f (start r + k))).
Proof.
  rewrite <- (wf_last _ _ _ _ W). change (nth m rp 0) with (start m).
  assert (G : forall r, r <= m -> rsum (start r) f = rsum r (fun r => rsum (len r) (fun k => f (start r + k)))).
  { induction r as [|r IH]; intros Hr.
    - unfold row_start. now rewrite (wf_first _ _ _ _ W).
    - cbn [rsum]. rewrite <- IH by lia. rewrite <- end_start, end_eq by lia. apply rsum_app. }
  apply G. lia.
Qed.
Lemma row_find_place k : k < length ci -> exists r j, r < m /\ j < len r /\ k = start r + j.
Proof.
  intros Hk. assert (G : forall r, r <= m -> k < start r -> exists r' j, r' < r /\ j < len r' /\ k = start r' + j).
  { induction r as [|r IH]; intros Hr H.
    - unfold row_start in H. rewrite (wf_first _ _ _ _ W) in H. lia.
    - destruct (Nat.lt_ge_cases k (start r)) as [L|L].
      + destruct (IH ltac:(lia) L) as (r' & j & ? & ?). exists r', j. split; [lia|assumption].
      + exists r, (k - start r). rewrite <- end_start, (end_eq r) in H by lia. split; [lia|split; lia]. }
  destruct (G m) as (r & j & H1 & H2); [lia|unfold row_start; now rewrite (wf_last _ _ _ _ W)|]. exists r, j. auto.
Qed.
(** a matrix-vector product of the represented matrix, from the places *)
Lemma entry_sum_cols val (g : nat -> R) r : r < m ->
  (rsum n (fun c => csr_entry rp ci val r c * g c) = rsum (len r) (fun k => val (start r + k)%nat * g (col ci (start r + k))))%R.
Proof.
  intros Hr. rewrite (rsum_ext n _ (fun c => rsum (len r) (fun k => if Nat.eqb c (col ci (start r + k)) then (val (start r + k)%nat * g c)%R else 0%R))).
  2:{ intros c _. rewrite entry_eq. apply (rsum_ite_scal (len r) (fun k => Nat.eqb c (col ci (start r + k)))). }
  rewrite rsum_exch. apply rsum_ext. intros k Hk.
  rewrite (rsum_delta n (col ci (start r + k)) (fun c => (val (start r + k)%nat * g c)%R)).
  destruct (Nat.ltb_spec (col ci (start r + k)) n) as [L|L]; [reflexivity|]. pose proof (col_lt r k Hr Hk). lia.
Qed.

(** ---- put_add with distinct columns ---- *)
Lemma put_add_out s k w X c : (forall j, j < k -> col ci (s + j) <> c) -> put_add ci s k w X c = X c.
Proof.
  intros H. unfold put_add.
  assert (G : forall l Y, (forall j, In j l -> col ci (s + j) <> c) ->
     fold_left (fun (Y : nat -> R) j => fun c => if Nat.eqb c (col ci (s + j)) then (X c + w j)%R else Y c) l Y c = Y c).
  { induction l as [|j l IH]; intros Y HY; [reflexivity|]. cbn [fold_left]. rewrite IH; [|intros; apply HY; now right].
    cbv beta. destruct (Nat.eqb_spec c (col ci (s + j))) as [->|]; [|reflexivity]. exfalso. apply (HY j); [now left|reflexivity]. }
  apply G. intros j Hj. apply in_seq in Hj. apply H. lia.
Qed.
Lemma put_add_val r w X c : r < m ->
  put_add ci (start r) (len r) w X c = (X c + rsum (len r) (fun j => if Nat.eqb c (col ci (start r + j)) then w j else 0))%R.
Proof.
  intros Hr.
  assert (G : forall k, k <= len r -> put_add ci (start r) k w X c = (X c + rsum k (fun j => if Nat.eqb c (col ci (start r + j)) then w j else 0))%R).
  { induction k as [|k IH]; intros Hk; [unfold put_add; simpl; lra|].
    unfold put_add in *. rewrite seq_S, fold_left_app. cbn [fold_left Nat.add rsum].
    destruct (Nat.eqb_spec c (col ci (start r + k))) as [->|Hne].
    - rewrite (rsum_0 k); [lra|]. intros j Hj. destruct (Nat.eqb_spec (col ci (start r + k)) (col ci (start r + j))) as [E|]; [|reflexivity].
      apply cols_inj in E; lia.
    - rewrite IH by lia. lra. }
  apply G. lia.
Qed.
(** all rows *)
Lemma put_add_rows w c : forall k, k <= m ->
  fold_left (fun D row => put_add ci (start row) (len row) (w row) D) (seq 0 k) (fun _ => 0%R) c =
  rsum k (fun r => rsum (len r) (fun j => if Nat.eqb c (col ci (start r + j)) then w r j else 0%R)).
Proof.
  induction k as [|k IH]; intros Hk; [reflexivity|]. rewrite seq_S, fold_left_app. cbn [fold_left Nat.add rsum].
  rewrite put_add_val by lia. now rewrite IH by lia.
Qed.
Lemma put_range_rows (w : nat -> nat -> R) : forall k, k <= m -> forall r j, r < k -> j < len r ->
  fold_left (fun (X : nat -> R) row => put_range (start row) (row_end rp row) (w row) X) (seq 0 k) (fun _ => 0%R) (start r + j) = w r j.
Proof.
  induction k as [|k IH]; intros Hk r j Hr Hj; [lia|]. rewrite seq_S, fold_left_app. cbn [fold_left Nat.add]. unfold put_range at 1.
  rewrite (end_eq k) by lia. destruct (Nat.eq_dec r k) as [->|Hne].
  - destruct (Nat.leb_spec (start k) (start k + j)), (Nat.ltb_spec (start k + j) (start k + len k)); try lia. cbn [andb]. f_equal. lia.
  - pose proof (start_mono (S r) k ltac:(lia) ltac:(lia)). rewrite <- end_start, (end_eq r) in H by lia.
    destruct (Nat.leb_spec (start k) (start r + j)); [lia|]. cbn [andb]. apply IH; lia.
Qed.
End One.

(** ---- C30: products and their backward functions ---- *)

(** The products are those of the represented matrix. [sched] is any execution order of the atomic
    additions. *)
Theorem C30_forward_products : forall m n rp ci val v, csr_wf m n rp ci ->
  (forall r, r < m -> mat_vec rp ci val v r = mv n (csr_entry rp ci val) v r) /\
  (forall sched, Permutation (tmat_vec_adds rp ci val v) sched ->
     forall c, run_adds (fun _ => 0%R) sched c = tmv m (csr_entry rp ci val) v c).
Proof.
  intros m n rp ci val v W. split.
  - intros r Hr. unfold mv. now rewrite (entry_sum_cols m n rp ci W val v r Hr).
  - intros sched P c. rewrite run_adds_sum. rewrite <- (lsum_perm _ _ _ P). unfold tmat_vec_adds.
    rewrite lsum_flat_map, lsum_seq, (nrows_m m n rp ci W), Rplus_0_l. unfold tmv. apply rsum_ext. intros r Hr.
    unfold tmat_vec_thread. rewrite lsum_map, lsum_seq. cbn [fst snd]. rewrite entry_eq.
    rewrite (rsum_ite_scal (row_len rp r) (fun k => Nat.eqb c (col ci (row_start rp r + k)))). apply rsum_ext.
    intros k _. destruct (Nat.eqb c (col ci (row_start rp r + k))); ring.
Qed.

Lemma bwd_split rp ci val is_tmat v g l : forall A0 V0,
  fold_left (bwd_row rp ci val is_tmat v g) l (A0, V0) =
  (fold_left (fun X row => put_range (row_start rp row) (row_end rp row)
      (fun j => if is_tmat then (v row * g (col ci (row_start rp row + j)))%R else (v (col ci (row_start rp row + j)) * g row)%R) X) l A0,
   fold_left (fun V row => if is_tmat
      then (fun r => if Nat.eqb r row then rsum (row_len rp row) (fun j => (g (col ci (row_start rp row + j)) * val (row_start rp row + j)%nat)%R) else V r)
      else put_add ci (row_start rp row) (row_len rp row) (fun j => (g row * val (row_start rp row + j)%nat)%R) V) l V0).
Proof.
  induction l as [|row t IH]; intros A0 V0; [reflexivity|]. cbn [fold_left]. unfold bwd_row at 2. destruct is_tmat; apply IH.
Qed.

(** The backward functions return the adjoint of the product, which is linear in the values and in
    the vector: for every direction ([dval], [dv]) the directional derivative of the product, paired
    with the incoming gradient [g], is the pairing of the returned gradients with the direction. *)
Theorem C30_backward_mv : forall m n rp ci val v g, csr_wf m n rp ci ->
  let '(A_grad, v_grad) := sparse_mv_backward rp ci val false v g in
  forall dval dv,
    dot m g (fun r => mv n (csr_entry rp ci dval) v r + mv n (csr_entry rp ci val) dv r)%R =
    (dot (length ci) A_grad dval + dot n v_grad dv)%R.
Proof.
  intros m n rp ci val v g W. unfold sparse_mv_backward. rewrite bwd_split, (nrows_m m n rp ci W). intros dval dv.
  assert (E1 : dot (length ci) (fold_left (fun X row => put_range (row_start rp row) (row_end rp row) (fun j => (v (col ci (row_start rp row + j)) * g row)%R) X) (seq 0 m) (fun _ => 0%R)) dval
     = rsum m (fun r => (g r * mv n (csr_entry rp ci dval) v r)%R)).
  { unfold dot. rewrite (rows_partition m n rp ci W). apply rsum_ext. intros r Hr.
    unfold mv. rewrite (entry_sum_cols m n rp ci W dval v r Hr), <- rsum_scal. apply rsum_ext. intros k Hk.
    rewrite (put_range_rows m n rp ci W (fun row j => (v (col ci (row_start rp row + j)) * g row)%R) m (le_n m) r k Hr Hk). ring. }
  assert (E2 : dot n (fold_left (fun V row => put_add ci (row_start rp row) (row_len rp row) (fun j => (g row * val (row_start rp row + j)%nat)%R) V) (seq 0 m) (fun _ => 0%R)) dv
     = rsum m (fun r => (g r * mv n (csr_entry rp ci val) dv r)%R)).
  { unfold dot, mv.
    rewrite (rsum_ext n _ (fun c => rsum m (fun r => (g r * (csr_entry rp ci val r c * dv c))%R))).
    - rewrite rsum_exch. apply rsum_ext. intros r _. apply rsum_scal.
    - intros c Hc. rewrite (put_add_rows m n rp ci W (fun row j => (g row * val (row_start rp row + j)%nat)%R) c m (le_n m)).
      rewrite <- rsum_scal_r. apply rsum_ext. intros r Hr. rewrite entry_eq.
      rewrite (rsum_ite_scal (row_len rp r) (fun k => Nat.eqb c (col ci (row_start rp r + k)))).
      rewrite (rsum_ite_scal (row_len rp r) (fun k => Nat.eqb c (col ci (row_start rp r + k)))).
      rewrite <- rsum_scal. apply rsum_ext. intros k _. destruct (Nat.eqb c (col ci (row_start rp r + k))); ring. }
  rewrite E1, E2. unfold dot. rewrite <- rsum_plus. apply rsum_ext. intros. ring.
Qed.

Theorem C30_backward_mtv : forall m n rp ci val v g, csr_wf m n rp ci ->
  let '(A_grad, v_grad) := sparse_mv_backward rp ci val true v g in
  forall dval dv,
    dot n g (fun c => tmv m (csr_entry rp ci dval) v c + tmv m (csr_entry rp ci val) dv c)%R =
    (dot (length ci) A_grad dval + dot m v_grad dv)%R.
Proof.
  intros m n rp ci val v g W. unfold sparse_mv_backward. rewrite bwd_split, (nrows_m m n rp ci W). intros dval dv.
  assert (E1 : dot (length ci) (fold_left (fun X row => put_range (row_start rp row) (row_end rp row) (fun j => (v row * g (col ci (row_start rp row + j)))%R) X) (seq 0 m) (fun _ => 0%R)) dval
     = dot n g (tmv m (csr_entry rp ci dval) v)).
  { rewrite dot_tmv. unfold dot. rewrite (rows_partition m n rp ci W). apply rsum_ext. intros r Hr.
    unfold mv. rewrite (entry_sum_cols m n rp ci W dval g r Hr), <- rsum_scal_r. apply rsum_ext. intros k Hk.
    rewrite (put_range_rows m n rp ci W (fun row j => (v row * g (col ci (row_start rp row + j)))%R) m (le_n m) r k Hr Hk). ring. }
  assert (E2 : dot m (fold_left (fun (V : nat -> R) row => (fun r => if Nat.eqb r row then rsum (row_len rp row) (fun j => (g (col ci (row_start rp row + j)) * val (row_start rp row + j)%nat)%R) else V r)) (seq 0 m) (fun _ => 0%R)) dv
     = dot n g (tmv m (csr_entry rp ci val) dv)).
  { rewrite dot_tmv. apply dot_ext; [|reflexivity]. intros r Hr. unfold mv. rewrite (entry_sum_cols m n rp ci W val g r Hr).
    assert (G : forall k, r < k -> fold_left (fun (V : nat -> R) row => (fun r => if Nat.eqb r row then rsum (row_len rp row) (fun j => (g (col ci (row_start rp row + j)) * val (row_start rp row + j)%nat)%R) else V r)) (seq 0 k) (fun _ => 0%R) r
       = rsum (row_len rp r) (fun j => (g (col ci (row_start rp r + j)) * val (row_start rp r + j)%nat)%R)).
    { induction k as [|k IH]; intros Hk; [lia|]. rewrite seq_S, fold_left_app. cbn [fold_left Nat.add].
      destruct (Nat.eqb_spec r k) as [->|Hne]; [reflexivity|]. apply IH. lia. }
    rewrite (G m Hr). apply rsum_ext. intros. ring. }
  rewrite E1, E2. unfold dot. rewrite <- rsum_plus. apply rsum_ext. intros. ring.
Qed.

(** With duplicate column indices in a row, which CSR allows, the gradient of the vector loses all but
    the last of them: one row, places (0,0) and (0,0) with values 1 and 2; A v = 3 v. *)
Theorem C30_duplicate_columns_refuted : exists rp ci val v g,
  mat_vec rp ci val v 0 = (3 * v 0%nat)%R /\ g 0%nat = 1%R /\
  snd (sparse_mv_backward rp ci val false v g) 0%nat = 2%R.
Proof.
  exists [0; 2], [0; 0], (fun k => if Nat.eqb k 0 then 1%R else 2%R), (fun _ => 1%R), (fun _ => 1%R).
  split; [|split]; cbn; ring.
Qed.

(** ---- C27: Atb, Av and diagonal_scaling of the sparse linearization ---- *)
Theorem C27_products : forall o cfs, well_formed o cfs ->
  exists A b st val bs, dense_linearize o cfs = Some (A, b) /\ build_structure o cfs = Some st /\ sparse_linearize cfs st = Some (val, bs) /\
  let x := fun k => match val k with Some y => y | None => 0%R end in
  let y := fun r => match bs r with Some z => z | None => 0%R end in
  let m := num_rows cfs in let n := num_cols o in
  (* Atb: any order of the additions *)
  (forall sched, Permutation (tmat_vec_adds (st_row_ptr st) (st_col_ind st) x y) sched ->
     forall c, run_adds (fun _ => 0%R) sched c = tmv m A b c) /\
  (* Av *)
  (forall v r, r < m -> mat_vec (st_row_ptr st) (st_col_ind st) x v r = mv n A v r) /\
  (* diagonal_scaling: diag(A^T A) v *)
  (forall v c, diagonal_scaling (st_row_ptr st) (st_col_ind st) x m v c = (rsum m (fun r => A r c * A r c) * v c)%R).
Proof.
  intros o cfs Hwf. destruct (C26_sparse_equals_dense o cfs Hwf) as (A & b & st & val & bs & HD & HB & HS & Hv & HA).
  destruct (C26_csr_well_formed o cfs Hwf) as (st' & HB' & W). rewrite HB in HB'. injection HB' as <-.
  exists A, b, st, val, bs. split; [exact HD|split; [exact HB|split; [exact HS|]]]. cbv zeta.
  set (x := fun k => match val k with Some y => y | None => 0%R end) in *.
  destruct (C30_forward_products _ _ _ _ x (fun r => match bs r with Some z => z | None => 0%R end) W) as [_ P2].
  split; [|split].
  - intros sched Hp c. rewrite (P2 sched Hp c). unfold tmv. apply rsum_ext. intros r Hr. destruct (HA r Hr) as [-> E]. now rewrite E.
  - intros v r Hr. destruct (C30_forward_products _ _ _ _ x v W) as [P1 _]. rewrite (P1 r Hr). unfold mv. apply rsum_ext. intros c _.
    now rewrite (proj2 (HA r Hr)).
  - intros v c. unfold diagonal_scaling. f_equal. unfold AtA_diag.
    rewrite (put_add_rows _ _ _ _ W (fun row j => (x (row_start (st_row_ptr st) row + j)%nat * x (row_start (st_row_ptr st) row + j)%nat)%R) c _ (le_n _)).
    apply rsum_ext. intros r Hr. rewrite <- (proj2 (HA r Hr) c). rewrite entry_eq.
    set (rp := st_row_ptr st) in *. set (ci := st_col_ind st) in *.
    (* at most one place of the row has column c *)
    assert (G : forall k, k <= row_len rp r ->
       (rsum k (fun j => if Nat.eqb c (col ci (row_start rp r + j)) then x (row_start rp r + j)%nat * x (row_start rp r + j)%nat else 0) =
        rsum k (fun j => if Nat.eqb c (col ci (row_start rp r + j)) then x (row_start rp r + j)%nat else 0) *
        rsum k (fun j => if Nat.eqb c (col ci (row_start rp r + j)) then x (row_start rp r + j)%nat else 0))%R).
    { induction k as [|k IH]; intros Hk; cbn [rsum]; [ring|]. rewrite (IH ltac:(lia)).
      destruct (Nat.eqb_spec c (col ci (row_start rp r + k))) as [E|]; [|ring].
      rewrite (rsum_0 k); [ring|]. intros j Hj. destruct (Nat.eqb_spec c (col ci (row_start rp r + j))) as [E'|]; [|reflexivity].
      rewrite E in E'. apply (cols_inj _ _ _ _ W r) in E'; lia. }
    apply G. lia.
Qed.

(** ---- C46: the CUDA kernels for A^T A and for the damping ---- *)
Lemma bisect_loop_spec values needle : forall fuel a b x, b - a <= S fuel -> a <= x < b ->
  (forall i j, a <= i -> i < j -> j < b -> values i < values j) -> values x = needle ->
  bisect_loop fuel values needle a b = x.
Proof.
  induction fuel as [|f IH]; intros a b x Hf Hx Hs Hv; cbn [bisect_loop]; [lia|].
  destruct (Nat.ltb_spec (a + 1) b) as [L|L]; [|lia]. cbv zeta.
  assert (Hm : a < (a + b) / 2 < b).
  { split; [apply Nat.div_le_lower_bound; lia|apply Nat.div_lt_upper_bound; lia]. }
  set (mid := (a + b) / 2) in *. destruct (Nat.ltb_spec needle (values mid)) as [N|N].
  - apply IH; auto; [lia| |].
    + destruct (Nat.lt_trichotomy x mid) as [G|[G|G]]; [lia|subst; lia|]. specialize (Hs mid x). lia.
    + intros i j H1 H2 H3. apply Hs; lia.
  - apply IH; auto; [lia| |].
    + destruct (Nat.lt_trichotomy x mid) as [G|[G|G]]; [|lia|lia]. specialize (Hs x mid). lia.
    + intros i j H1 H2 H3. apply Hs; lia.
Qed.

(** [bisect_index] finds the place of a value that occurs in a strictly increasing array. *)
Theorem C46_bisect_index : forall values len x, x < len ->
  (forall i j, i < j -> j < len -> values i < values j) -> bisect_index values len (values x) = x.
Proof.
  intros values len x Hx Hs. unfold bisect_index. apply bisect_loop_spec; auto; [lia|lia].
Qed.

(** [rp2], [ci2] is a structure for M^T M: it contains every pair of columns of a row of M. *)
Definition contains_MtM (m : nat) (rp ci rp2 ci2 : list nat) : Prop :=
  forall r i j, r < m -> i < row_len rp r -> j < row_len rp r ->
    exists k, k < row_len rp2 (col ci (row_start rp r + i)) /\
      col ci2 (row_start rp2 (col ci (row_start rp r + i)) + k) = col ci (row_start rp r + j).

Theorem C46_mult_MtM : forall m n rp ci val rp2 ci2, csr_wf m n rp ci -> csr_wf n n rp2 ci2 -> contains_MtM m rp ci rp2 ci2 ->
  forall sched, Permutation (mult_MtM_adds rp ci val rp2 ci2) sched ->
  forall c c', c < n -> c' < n ->
    csr_entry rp2 ci2 (run_adds (fun _ => 0%R) sched) c c' = rsum m (fun r => csr_entry rp ci val r c * csr_entry rp ci val r c')%R.
Proof.
  intros m n rp ci val rp2 ci2 W W2 HC sched P c c' Hc Hc'.
  rewrite entry_eq.
  rewrite (rsum_ext (row_len rp2 c) _ (fun k => rsum m (fun r => rsum (row_len rp r) (fun i => rsum (row_len rp r) (fun j =>
     if (Nat.eqb c (col ci (row_start rp r + i)) && Nat.eqb c' (col ci (row_start rp r + j)) && Nat.eqb c' (col ci2 (row_start rp2 c + k)))
     then (val (row_start rp r + i)%nat * val (row_start rp r + j)%nat)%R else 0%R))))).
  - rewrite rsum_exch. apply rsum_ext. intros r Hr. rewrite rsum_exch.
    rewrite !entry_eq. rewrite <- rsum_scal_r. apply rsum_ext. intros i Hi.
    rewrite rsum_exch. destruct (Nat.eqb_spec c (col ci (row_start rp r + i))) as [E|NE]; cbn [andb].
    + rewrite <- rsum_scal. apply rsum_ext. intros j Hj.
      destruct (Nat.eqb_spec c' (col ci (row_start rp r + j))) as [E'|NE']; cbn [andb]; [|rewrite rsum_0 by reflexivity; ring].
      destruct (HC r i j Hr Hi Hj) as (k & Hk & Ek). rewrite <- E in Hk, Ek.
      rewrite (rsum_ext _ _ (fun k0 => if Nat.eqb k0 k then (val (row_start rp r + i)%nat * val (row_start rp r + j)%nat)%R else 0%R)).
      * rewrite (rsum_delta _ k (fun _ => (val (row_start rp r + i)%nat * val (row_start rp r + j)%nat)%R)).
        destruct (Nat.ltb_spec k (row_len rp2 c)); [reflexivity|lia].
      * intros k0 Hk0. destruct (Nat.eqb_spec k0 k) as [->|Hne].
        -- rewrite Ek, <- E', Nat.eqb_refl. reflexivity.
        -- destruct (Nat.eqb_spec c' (col ci2 (row_start rp2 c + k0))) as [E2|]; [|reflexivity].
           exfalso. apply Hne. apply (cols_inj n n rp2 ci2 W2 c); auto. rewrite Ek, <- E', <- E2. reflexivity.
    + rewrite (rsum_0 (row_len rp r)); [ring|]. intros j _. apply rsum_0. reflexivity.
  - intros k Hk. cbv beta.
    assert (EX : run_adds (fun _ => 0%R) sched (row_start rp2 c + k) =
       rsum m (fun r => rsum (row_len rp r) (fun i => rsum (row_len rp r) (fun j =>
         if (Nat.eqb c (col ci (row_start rp r + i)) && Nat.eqb (col ci2 (row_start rp2 c + k)) (col ci (row_start rp r + j)))
         then (val (row_start rp r + i)%nat * val (row_start rp r + j)%nat)%R else 0%R)))).
    { rewrite run_adds_sum, <- (lsum_perm _ _ _ P), Rplus_0_l. unfold mult_MtM_adds. rewrite lsum_flat_map, lsum_seq, (nrows_m m n rp ci W).
      apply rsum_ext. intros r Hr. unfold mult_MtM_thread. rewrite lsum_flat_map, lsum_seq. apply rsum_ext. intros i Hi.
      rewrite lsum_map, lsum_seq. apply rsum_ext. intros j Hj. cbn [fst snd].
      destruct (HC r i j Hr Hi Hj) as (x & Hx & Ex). set (d := col ci (row_start rp r + i)) in *.
      assert (Hd : d < n) by (apply (col_lt m n rp ci W); assumption).
      rewrite <- Ex. change (col ci2 (row_start rp2 d + x)) with ((fun x => col ci2 (row_start rp2 d + x)) x) at 1.
      rewrite C46_bisect_index.
      - destruct (Nat.eqb_spec c d) as [->|Hcd]; cbn [andb].
        + destruct (Nat.eqb_spec (row_start rp2 d + k) (row_start rp2 d + x)) as [E|E].
          * assert (k = x) by lia. subst k. now rewrite Nat.eqb_refl.
          * destruct (Nat.eqb_spec (col ci2 (row_start rp2 d + k)) (col ci2 (row_start rp2 d + x))) as [E2|]; [|reflexivity].
            exfalso. apply E. f_equal. apply (cols_inj n n rp2 ci2 W2 d); auto.
        + destruct (Nat.eqb_spec (row_start rp2 c + k) (row_start rp2 d + x)) as [E|E]; [|reflexivity]. exfalso.
          destruct (Nat.lt_trichotomy c d) as [L|[L|L]]; [|congruence|].
          * pose proof (start_mono n n rp2 ci2 W2 (S c) d ltac:(lia) ltac:(lia)) as M. rewrite <- (end_start rp2 c), (end_eq n n rp2 ci2 W2 c Hc) in M. lia.
          * pose proof (start_mono n n rp2 ci2 W2 (S d) c ltac:(lia) ltac:(lia)) as M. rewrite <- (end_start rp2 d), (end_eq n n rp2 ci2 W2 d Hd) in M. lia.
      - exact Hx.
      - intros a b Hab Hb. cbv beta. pose proof (end_eq n n rp2 ci2 W2 d Hd) as He. unfold row_end, row_start, col in *.
        apply (wf_sorted _ _ _ _ W2 d); lia. }
    rewrite EX. destruct (Nat.eqb_spec c' (col ci2 (row_start rp2 c + k))) as [<-|NE].
    + apply rsum_ext; intros r _; apply rsum_ext; intros i _; apply rsum_ext; intros j _. rewrite andb_true_r. reflexivity.
    + symmetry. apply rsum_0; intros r _; apply rsum_0; intros i _; apply rsum_0; intros j _. now rewrite andb_false_r.
Qed.

(** The damping kernel adds [alpha * d + beta] to every diagonal entry [d] that the structure
    contains and changes nothing else, for every order of the threads. *)
Lemma run_damping_at alpha beta l : forall m a, NoDup l ->
  run_damping alpha beta l m a = if in_dec Nat.eq_dec a l then (m a + (alpha * m a + beta))%R else m a.
Proof.
  induction l as [|k t IH]; intros m a N; [reflexivity|]. unfold run_damping in *. cbn [fold_left].
  inversion N as [|x y N1 N2]; subst. rewrite (IH _ a N2).
  destruct (in_dec Nat.eq_dec a t) as [Hi|Hi], (in_dec Nat.eq_dec a (k :: t)) as [Hj|Hj], (Nat.eqb_spec a k) as [E|E];
    try reflexivity; try (subst; contradiction); exfalso.
  all: first [ destruct Hj as [Hj|Hj]; [congruence|contradiction] | apply Hj; right; exact Hi | apply Hj; left; congruence ].
Qed.
Lemma NoDup_app_intro {A} (l1 l2 : list A) : NoDup l1 -> NoDup l2 -> (forall x, In x l1 -> In x l2 -> False) -> NoDup (l1 ++ l2).
Proof.
  induction l1 as [|a t IH]; intros N1 N2 D; [exact N2|]. inversion N1; subst. cbn [app]. constructor.
  - rewrite in_app_iff. intros [Hx|Hx]; [contradiction|]. apply (D a); [left; reflexivity|exact Hx].
  - apply IH; auto. intros x Hx. apply D. right. exact Hx.
Qed.
Lemma damp_places_in n rp ci (W : csr_wf n n rp ci) k : In k (damp_places rp ci) <->
  exists r j, r < n /\ j < row_len rp r /\ k = row_start rp r + j /\ col ci k = r.
Proof.
  unfold damp_places. rewrite in_flat_map, (nrows_m n n rp ci W). split.
  - intros (r & Hr & Hk). apply in_seq in Hr. unfold damp_thread in Hk. apply filter_In in Hk. destruct Hk as [Hk Hc].
    apply in_seq in Hk. apply Nat.eqb_eq in Hc. exists r, (k - row_start rp r). repeat split; auto; lia.
  - intros (r & j & Hr & Hj & -> & Hc). exists r. split; [apply in_seq; lia|]. unfold damp_thread. apply filter_In.
    split; [apply in_seq; lia|]. now apply Nat.eqb_eq.
Qed.
Lemma damp_places_nodup n rp ci (W : csr_wf n n rp ci) : NoDup (damp_places rp ci).
Proof.
  unfold damp_places. rewrite (nrows_m n n rp ci W).
  assert (G : forall k, k <= n -> NoDup (flat_map (damp_thread rp ci) (seq 0 k)) /\ forall x, In x (flat_map (damp_thread rp ci) (seq 0 k)) -> x < row_start rp k).
  { induction k as [|k IH]; intros Hk; [split; [constructor|intros x []]|]. destruct (IH ltac:(lia)) as [I1 I2].
    rewrite seq_S, flat_map_app. cbn [Nat.add flat_map]. rewrite app_nil_r.
    assert (D : forall x, In x (damp_thread rp ci k) -> row_start rp k <= x < row_start rp (S k)).
    { intros x Hx. unfold damp_thread in Hx. apply filter_In in Hx. destruct Hx as [Hx _]. apply in_seq in Hx.
      rewrite <- (end_start rp), (end_eq n n rp ci W) by lia. lia. }
    split.
    - apply NoDup_app_intro; [exact I1|apply NoDup_filter, seq_NoDup|]. intros x H1 H2. specialize (I2 x H1). specialize (D x H2). lia.
    - intros x Hx. apply in_app_iff in Hx. pose proof (start_mono n n rp ci W k (S k) ltac:(lia) ltac:(lia)).
      destruct Hx as [Hx|Hx]; [specialize (I2 x Hx)|specialize (D x Hx)]; lia. }
  apply G. lia.
Qed.
Theorem C46_apply_damping : forall n rp ci val alpha beta, csr_wf n n rp ci ->
  (forall c, c < n -> exists k, k < row_len rp c /\ col ci (row_start rp c + k) = c) ->
  forall sched, Permutation (damp_places rp ci) sched ->
  forall r c, r < n -> c < n ->
    csr_entry rp ci (run_damping alpha beta sched val) r c =
    (csr_entry rp ci val r c + if Nat.eqb r c then alpha * csr_entry rp ci val r c + beta else 0)%R.
Proof.
  intros n rp ci val alpha beta W HD sched P r c Hr Hc.
  assert (N : NoDup sched) by (eapply Permutation_NoDup; [exact P|eapply damp_places_nodup; eauto]).
  assert (V : forall k, k < row_len rp r -> run_damping alpha beta sched val (row_start rp r + k)%nat =
     if Nat.eqb (col ci (row_start rp r + k)) r then (val (row_start rp r + k)%nat + (alpha * val (row_start rp r + k)%nat + beta))%R else val (row_start rp r + k)%nat).
  { intros k Hk. rewrite run_damping_at by exact N.
    destruct (in_dec Nat.eq_dec (row_start rp r + k) sched) as [Hi|Hi], (Nat.eqb_spec (col ci (row_start rp r + k)) r) as [E|E]; try reflexivity; exfalso.
    - apply (Permutation_in _ (Permutation_sym P)) in Hi. apply (damp_places_in n rp ci W) in Hi. destruct Hi as (r' & j & Hr' & Hj & E1 & E2).
      apply E. rewrite E2. destruct (Nat.lt_trichotomy r r') as [L|[L|L]]; [|congruence|].
      + pose proof (start_mono n n rp ci W (S r) r' ltac:(lia) ltac:(lia)) as M. rewrite <- (end_start rp r), (end_eq n n rp ci W r Hr) in M. lia.
      + pose proof (start_mono n n rp ci W (S r') r ltac:(lia) ltac:(lia)) as M. rewrite <- (end_start rp r'), (end_eq n n rp ci W r' Hr') in M. lia.
    - apply Hi. apply (Permutation_in _ P). apply (damp_places_in n rp ci W). exists r, k. auto. }
  rewrite !entry_eq.
  rewrite (rsum_ext (row_len rp r) _ (fun k => ((if Nat.eqb c (col ci (row_start rp r + k)) then val (row_start rp r + k)%nat else 0) +
     (if Nat.eqb r c then (if Nat.eqb c (col ci (row_start rp r + k)) then alpha * val (row_start rp r + k)%nat + beta else 0) else 0))%R)).
  - rewrite rsum_plus. f_equal. destruct (Nat.eqb_spec r c) as [<-|NE]; [|apply rsum_0; reflexivity].
    destruct (HD r Hr) as (k & Hk & Ek).
    assert (PK : forall f : nat -> R, rsum (row_len rp r) (fun k0 => if Nat.eqb r (col ci (row_start rp r + k0)) then f k0 else 0%R) = f k).
    { intros f. rewrite (rsum_ext (row_len rp r) _ (fun k0 => if Nat.eqb k0 k then f k0 else 0%R)).
      - rewrite rsum_delta. destruct (Nat.ltb_spec k (row_len rp r)); [reflexivity|lia].
      - intros k0 Hk0. destruct (Nat.eqb_spec r (col ci (row_start rp r + k0))) as [E|E], (Nat.eqb_spec k0 k) as [E'|E']; try reflexivity; exfalso.
        + apply E'. apply (cols_inj n n rp ci W r); auto. congruence.
        + subst. congruence. }
    rewrite (PK (fun k0 => (alpha * val (row_start rp r + k0)%nat + beta)%R)), (PK (fun k0 => val (row_start rp r + k0)%nat)). reflexivity.
  - intros k Hk. rewrite (V k Hk). rewrite (Nat.eqb_sym r c).
    destruct (Nat.eqb_spec c (col ci (row_start rp r + k))) as [E|E], (Nat.eqb_spec (col ci (row_start rp r + k)) r) as [E'|E'], (Nat.eqb_spec c r) as [E2|E2]; try lra; exfalso; congruence.
Qed.

(** A concrete case: M = [[a,0,b],[0,c,0]] and the structure of M^T M. The hypotheses of the theorems
    above hold; the reversed order of the additions is one of the schedules. *)
Lemma wf_by_compute nr nc rp ci :
  (Nat.eqb (length rp) (S nr) && Nat.eqb (nth 0 rp 0) 0 && Nat.eqb (nth nr rp 0) (length ci)
   && forallb (fun r => nth r rp 0 <=? nth (S r) rp 0) (seq 0 nr)
   && forallb (fun k => nth k ci 0 <? nc) (seq 0 (length ci))
   && forallb (fun r => forallb (fun k => forallb (fun k' => negb ((nth r rp 0 <=? k) && (k <? k') && (k' <? nth (S r) rp 0)) || (nth k ci 0 <? nth k' ci 0))
                                              (seq 0 (nth (S r) rp 0))) (seq 0 (nth (S r) rp 0))) (seq 0 nr)) = true ->
  csr_wf nr nc rp ci.
Proof.
  intros H. repeat (apply andb_prop in H; destruct H as [H ?]).
  constructor; try (apply Nat.eqb_eq; assumption).
  - intros r Hr. rewrite forallb_forall in H2. apply Nat.leb_le, H2, in_seq. lia.
  - intros k Hk. rewrite forallb_forall in H1. apply Nat.ltb_lt, H1, in_seq. lia.
  - intros r k k' Hr L1 L2 L3. rewrite forallb_forall in H0. specialize (H0 r ltac:(apply in_seq; lia)).
    rewrite forallb_forall in H0. specialize (H0 k ltac:(apply in_seq; lia)). rewrite forallb_forall in H0. specialize (H0 k' ltac:(apply in_seq; lia)).
    apply orb_prop in H0. destruct H0 as [H0|H0]; [|now apply Nat.ltb_lt].
    apply Nat.leb_le in L1. apply Nat.ltb_lt in L2, L3. rewrite L1, L2, L3 in H0. discriminate.
Qed.
Lemma C46_example : forall a b c : R,
  let rp := [0; 2; 3] in let ci := [0; 2; 1] in let val := fun k => nth k [a; b; c] 0%R in
  let rp2 := [0; 2; 3; 5] in let ci2 := [0; 2; 1; 0; 2] in
  csr_wf 2 3 rp ci /\ csr_wf 3 3 rp2 ci2 /\ contains_MtM 2 rp ci rp2 ci2 /\
  (forall r, r < 3 -> exists k, k < row_len rp2 r /\ col ci2 (row_start rp2 r + k) = r) /\
  csr_entry rp2 ci2 (run_adds (fun _ => 0%R) (rev (mult_MtM_adds rp ci val rp2 ci2))) 0 2 = (a * b)%R /\
  csr_entry rp2 ci2 (run_damping 2 3 (damp_places rp2 ci2) (run_adds (fun _ => 0%R) (mult_MtM_adds rp ci val rp2 ci2))) 1 1 = (3 * (c * c) + 3)%R.
Proof.
  intros a b c rp ci val rp2 ci2.
  assert (W : csr_wf 2 3 rp ci) by (apply wf_by_compute; reflexivity).
  assert (W2 : csr_wf 3 3 rp2 ci2) by (apply wf_by_compute; reflexivity).
  assert (HC : contains_MtM 2 rp ci rp2 ci2).
  { intros r i j Hr Hi Hj. destruct r as [|[|r]]; [| |lia]; cbn in Hi, Hj.
    - destruct i as [|[|i]]; [| |lia]; (destruct j as [|[|j]]; [exists 0|exists 1|lia]); cbn; lia.
    - destruct i; [|lia]. destruct j; [|lia]. exists 0. cbn; lia. }
  assert (HD : forall r, r < 3 -> exists k, k < row_len rp2 r /\ col ci2 (row_start rp2 r + k) = r).
  { intros r Hr. destruct r as [|[|[|r]]]; [exists 0|exists 0|exists 1|lia]; cbn; lia. }
  split; [exact W|split; [exact W2|split; [exact HC|split; [exact HD|split]]]].
  - rewrite (C46_mult_MtM 2 3 rp ci val rp2 ci2 W W2 HC _ (Permutation_rev _)) by lia. cbn. ring.
  - rewrite (C46_apply_damping 3 rp2 ci2 _ 2 3 W2 HD _ (Permutation_refl _)) by lia.
    rewrite (C46_mult_MtM 2 3 rp ci val rp2 ci2 W W2 HC _ (Permutation_refl _)) by lia. cbn. ring.
Qed.
