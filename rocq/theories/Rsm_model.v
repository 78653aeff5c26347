(** Model of theseus/utils/sparse_matrix_utils.py 193-273 ([random_sparse_binary_matrix],
    [random_sparse_matrix], [split_into_param_sizes]). Random draws are arguments, in the order in which
    the code makes them; the contracts of torch.randint and torch.multinomial are the predicates below.
    A scipy lil_matrix is the list of its rows, each the sorted list of its columns (all values are 1.0). *)
From Coq Require Import ZArith List Bool Lia.
Import ListNotations.
Open Scope nat_scope.

Definition lil := list (list nat).
(** scipy lil_matrix((num_rows, num_cols)) : no entries *)
Definition lil_empty (num_rows : nat) : lil := repeat [] num_rows.
(** scipy: inserting a column in a sorted row; a present column is overwritten by the same value *)
Fixpoint row_set (c : nat) (l : list nat) : list nat :=
  match l with
  | [] => [c]
  | x :: l' => if c <? x then c :: l else if c =? x then l else x :: row_set c l'
  end.
(** [retv[r, c] = 1.0] *)
Fixpoint lil_set (r c : nat) (m : lil) : lil :=
  match m, r with
  | [], _ => []
  | l :: m, 0 => row_set c l :: m
  | l :: m, S r => l :: lil_set r c m
  end.
(** [retv.getnnz()] *)
Definition getnnz (m : lil) : nat := list_sum (map (@length nat) m).
(** [retv.tocsr()]: indptr and indices *)
Fixpoint cumsum (acc : nat) (l : list nat) : list nat :=
  match l with [] => [acc] | x :: l => acc :: cumsum (acc + x) l end.
Definition csr_indptr (m : lil) : list nat := cumsum 0 (map (@length nat) m).
Definition csr_indices (m : lil) : list nat := concat m.

(** [rows_array_f.multinomial(k)] with weights 0, 1, ..., num_rows-1 and no replacement: [k] distinct
    rows; the row of weight 0 is taken only when all rows are *)
Definition multinomial_draw (num_rows k : nat) (sel : list nat) : Prop :=
  length sel = k /\ NoDup sel /\ (forall r, In r sel -> r < num_rows) /\ (In 0 sel -> k = num_rows).

(** sparse_matrix_utils.py 206-212: one column, its selected rows *)
Definition set_column (c : nat) (sel : list nat) (m : lil) : lil := fold_left (fun m r => lil_set r c m) sel m.
(** sparse_matrix_utils.py 206: for c in range(num_cols); [sels] the draws, one per column *)
Fixpoint fill_columns (c : nat) (sels : list (list nat)) (m : lil) : lil :=
  match sels with
  | [] => m
  | sel :: sels => fill_columns (S c) sels (set_column c sel m)
  end.
(** sparse_matrix_utils.py 220-223: the loop; [draws] the pairs (col, row) drawn. [None]: the draws given
    are used up and the loop is still running *)
Fixpoint fill_loop (num_entries : Z) (draws : list (nat * nat)) (m : lil) : option lil :=
  if (Z.of_nat (getnnz m) <? num_entries)%Z
  then match draws with
       | [] => None
       | (col, row) :: draws => fill_loop num_entries draws (lil_set row col m)
       end
  else Some m.
(** sparse_matrix_utils.py 193-225. [num_entries] is [int(fill * num_rows * num_cols)] (line 219, see
    Rsm_spec); [sels] is used when num_rows > 1 and min_entries_per_col > 0 *)
Definition random_sparse_binary_matrix (num_rows num_cols : nat) (num_entries : Z) (min_entries_per_col : nat)
  (sels : list (list nat)) (last_col : nat) (draws : list (nat * nat)) : option lil :=
  let m := lil_empty num_rows in
  let m := if (1 <? num_rows) && (0 <? min_entries_per_col) then fill_columns 0 sels m else m in
  let m := lil_set (num_rows - 1) last_col m in
  fill_loop num_entries draws m.

(** sparse_matrix_utils.py 254-273; [draws] the results of torch.randint(min, max). [None]: still running *)
Fixpoint split_loop (n : Z) (draws : list Z) (tot : Z) : option (list Z) :=
  if (tot <? n)%Z
  then match draws with
       | [] => None
       | d :: draws => let p := Z.min d (n - tot) in
         match split_loop n draws (tot + p) with Some l => Some (p :: l) | None => None end
       end
  else Some [].
Definition split_into_param_sizes (n : Z) (draws : list Z) : option (list Z) := split_loop n draws 0.
