(** Specification: what a CSR triple means. *)
From Coq Require Import List Arith Reals.
From Verif Require Import RSum.
Local Open Scope nat_scope.

(** the matrix that a CSR triple represents: entries of the same column add up *)
Definition csr_entry (row_ptr col_ind : list nat) (val : nat -> R) (r c : nat) : R :=
  let a := nth r row_ptr 0 in
  rsum (nth (S r) row_ptr 0 - a) (fun k => if Nat.eqb (nth (a + k) col_ind 0) c then val (a + k) else 0%R).

(** a well formed CSR structure *)
Record csr_wf (nrows ncols : nat) (row_ptr col_ind : list nat) : Prop := {
  wf_len : length row_ptr = S nrows;
  wf_first : nth 0 row_ptr 0 = 0;
  wf_last : nth nrows row_ptr 0 = length col_ind;
  wf_mono : forall r, r < nrows -> nth r row_ptr 0 <= nth (S r) row_ptr 0;
  wf_cols : forall k, k < length col_ind -> nth k col_ind 0 < ncols;
  wf_sorted : forall r k k', r < nrows -> nth r row_ptr 0 <= k -> k < k' -> k' < nth (S r) row_ptr 0 -> nth k col_ind 0 < nth k' col_ind 0
}.
