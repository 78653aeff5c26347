(** Model of the operations on CSR matrices: products, their backward functions, the diagonal
    scaling and the CUDA kernels. One batch element; real numbers. A CSR matrix is given by the lists
    [rp] (row pointers) and [ci] (column indices) and its values. *)
From Coq Require Import List Arith Bool Reals.
From Verif Require Import RSum.
Import ListNotations.
Local Open Scope nat_scope.

Section Csr.
Variables (rp ci : list nat) (val : nat -> R).
Definition row_start (r : nat) : nat := nth r rp 0.
Definition row_end (r : nat) : nat := nth (S r) rp 0.
Definition row_len (r : nat) : nat := row_end r - row_start r.
Definition col (k : nat) : nat := nth k ci 0.
(** sparse_matrix_utils.py 23 [num_rows = len(A_row_ptr) - 1] *)
Definition nrows : nat := length rp - 1.

(** mat_mult.cu 134-163 [mat_vec_kernel], thread of [row]; scipy's csr_matvec, called on the CPU
    (sparse_matrix_utils.py 14-32), is the same loop *)
Definition mat_vec (v : nat -> R) (row : nat) : R :=
  rsum (row_len row) (fun i => (val (row_start row + i)%nat * v (col (row_start row + i)))%R).

(** An [atomicAdd(dst + address, x)] *)
Definition add := (nat * R)%type.
Definition run_adds (mem : nat -> R) (l : list add) : nat -> R :=
  fold_left (fun m (x : add) => fun a => if Nat.eqb a (fst x) then (m a + snd x)%R else m a) l mem.
(** mat_mult.cu 216-243 [tmat_vec_kernel], the adds of the thread of [row] in program order *)
Definition tmat_vec_thread (v : nat -> R) (row : nat) : list add :=
  map (fun i => (col (row_start row + i), (v row * val (row_start row + i)%nat)%R)) (seq 0 (row_len row)).
(** all adds; the threads interleave, so that the adds are executed in the order of some permutation.
    mat_mult.cu 266: the result starts as zeros. scipy's csc_matvec is the order of [flat_map]. *)
Definition tmat_vec_adds (v : nat -> R) : list add := flat_map (tmat_vec_thread v) (seq 0 nrows).

(** sparse_matrix_utils.py 123-143 [_sparse_mat_vec_bwd_backend] *)
(** [X[:, start:end] = w(0..)] *)
Definition put_range (s e : nat) (w X : nat -> R) : nat -> R :=
  fun k => if (s <=? k) && (k <? e) then w (k - s) else X k.
(** [X[:, columns] += w]: all reads come before the writes, a later duplicate overwrites *)
Definition put_add (s n : nat) (w X : nat -> R) : nat -> R :=
  fold_left (fun (Y : nat -> R) j => fun c => if Nat.eqb c (col (s + j)) then (X c + w j)%R else Y c) (seq 0 n) X.
Definition bwd_row (is_tmat : bool) (v g : nat -> R) (st : (nat -> R) * (nat -> R)) (row : nat) : (nat -> R) * (nat -> R) :=
  let '(A_grad, v_grad) := st in
  let s := row_start row in
  if is_tmat then
    (put_range s (row_end row) (fun j => (v row * g (col (s + j)))%R) A_grad,
     fun r => if Nat.eqb r row then rsum (row_len row) (fun j => (g (col (s + j)) * val (s + j)%nat)%R) else v_grad r)
  else
    (put_range s (row_end row) (fun j => (v (col (s + j)) * g row)%R) A_grad,
     put_add s (row_len row) (fun j => (g row * val (s + j)%nat)%R) v_grad).
Definition sparse_mv_backward (is_tmat : bool) (v g : nat -> R) : (nat -> R) * (nat -> R) :=
  fold_left (bwd_row is_tmat v g) (seq 0 nrows) (fun _ => 0%R, fun _ => 0%R).

(** sparse_linearization.py 187-198 [diagonal_scaling] (the argument has num_cols columns) *)
Definition AtA_diag (num_rows : nat) : nat -> R :=
  fold_left (fun D row => put_add (row_start row) (row_len row) (fun j => (val (row_start row + j)%nat * val (row_start row + j)%nat)%R) D)
    (seq 0 num_rows) (fun _ => 0%R).
Definition diagonal_scaling (num_rows : nat) (v : nat -> R) : nat -> R := fun c => (AtA_diag num_rows c * v c)%R.
End Csr.

(** mat_mult.cu 19-34 [bisect_index]; the loop runs at most [len] times *)
Fixpoint bisect_loop (fuel : nat) (values : nat -> nat) (needle a b : nat) : nat :=
  match fuel with
  | O => a
  | S f => if a + 1 <? b then let m := (a + b) / 2 in if needle <? values m then bisect_loop f values needle a m else bisect_loop f values needle m b
           else a
  end.
Definition bisect_index (values : nat -> nat) (len needle : nat) : nat := bisect_loop len values needle 0 len.

(** mat_mult.cu 36-79 [mult_MtM_kernel]: the adds of the thread of [row]. [rp], [ci], [val]: the
    matrix M; [rp2], [ci2]: the structure of the result *)
Definition mult_MtM_thread (rp ci : list nat) (val : nat -> R) (rp2 ci2 : list nat) (row : nat) : list add :=
  let s := row_start rp row in
  flat_map (fun i =>
    let dstRow := col ci (s + i) in
    let off := row_start rp2 dstRow in
    map (fun j => (off + bisect_index (fun x => col ci2 (off + x)) (row_len rp2 dstRow) (col ci (s + j)),
                   (val (s + i)%nat * val (s + j)%nat)%R))
        (seq 0 (row_len rp row)))
    (seq 0 (row_len rp row)).
(** mat_mult.cu 81-128 [mult_MtM]: zeros, then the adds of all threads in some order *)
Definition mult_MtM_adds (rp ci : list nat) (val : nat -> R) (rp2 ci2 : list nat) : list add :=
  flat_map (mult_MtM_thread rp ci val rp2 ci2) (seq 0 (nrows rp)).

(** mat_mult.cu 297-323 [apply_damping_kernel]: the places that the thread of [row] changes *)
Definition damp_thread (rp ci : list nat) (row : nat) : list nat :=
  filter (fun k => Nat.eqb (col ci k) row) (seq (row_start rp row) (row_len rp row)).
Definition damp_places (rp ci : list nat) : list nat := flat_map (damp_thread rp ci) (seq 0 (nrows rp)).
(** [srcRow_val[i] += alpha * srcRow_val[i] + beta] at the places of [l], in that order *)
Definition run_damping (alpha beta : R) (l : list nat) (m : nat -> R) : nat -> R :=
  fold_left (fun (m : nat -> R) k => fun a => if Nat.eqb a k then (m a + (alpha * m a + beta))%R else m a) l m.
