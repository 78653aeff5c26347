(** Model of the dense and of the sparse (CSR) linearization. Entries are real numbers; one batch
    element (every assignment of the code is [X[:, ...] = ...], so the elements are independent). *)
From Coq Require Import List Arith Bool Reals Lia.
From Verif Require Import RSum.
Import ListNotations.
Local Open Scope R_scope.

(** What the linearization reads from a cost function: [dim()], the names of [optim_vars], and what
    [weighted_jacobians_error()] returned: for the variable at position [p] a [k_dim] x [k_jcols p]
    matrix [k_jac p], and the error. *)
Record cost := mkCost { k_dim : nat; k_vars : list nat; k_jcols : nat -> nat; k_jac : nat -> nat -> nat -> R; k_err : nat -> R }.

(** an ordering: the variables in order, name and dof() *)
Definition ordering := list (nat * nat).

(** linearization.py 31-38: [var_start_cols]; 40: [num_cols] *)
Fixpoint starts_from (col_counter : nat) (o : ordering) : list nat :=
  match o with [] => [] | (_, v_dim) :: t => col_counter :: starts_from (col_counter + v_dim) t end.
Definition var_start_cols (o : ordering) : list nat := starts_from 0 o.
Definition num_cols (o : ordering) : nat := fold_left (fun c v => c + snd v)%nat o 0%nat.
(** variable_ordering.py [index_of] (KeyError: None) *)
Fixpoint index_of (v : nat) (o : ordering) : option nat :=
  match o with
  | [] => None
  | (w, _) :: t => if Nat.eqb w v then Some 0%nat else match index_of v t with Some i => Some (S i) | None => None end
  end.
(** [variable.dof()] *)
Definition dof_of (v : nat) (o : ordering) : nat := match index_of v o with Some q => snd (nth q o (0, 0)%nat) | None => 0 end.
(** linearization.py 41, objective.dim() *)
Definition num_rows (cfs : list cost) : nat := fold_left (fun r c => r + k_dim c)%nat cfs 0%nat.

(** ---- dense_linearization.py 29-56 [_linearize_jacobian_impl] ---- *)
(** [A[:, row_slice, col_slice] = J] *)
Definition write_block (row nrows col ncols : nat) (J A : nat -> nat -> R) : nat -> nat -> R :=
  fun r c => if ((row <=? r) && (r <? row + nrows) && (col <=? c) && (c <? col + ncols))%nat then J (r - row)%nat (c - col)%nat else A r c.
(** [b[:, row_slice] = -error] *)
Definition write_rows (row nrows : nat) (e b : nat -> R) : nat -> R :=
  fun r => if ((row <=? r) && (r <? row + nrows))%nat then - e (r - row)%nat else b r.

(** dense_linearization.py 44-53, the variables from position [p] on *)
Fixpoint dense_vars (o : ordering) (cf : cost) (err_row_idx p : nat) (vars : list nat) (A : nat -> nat -> R) : option (nat -> nat -> R) :=
  match vars with
  | [] => Some A
  | v :: t =>
    match index_of v o with
    | None => None
    | Some var_idx_in_order =>
      let var_start_col := nth var_idx_in_order (var_start_cols o) 0%nat in
      dense_vars o cf err_row_idx (S p) t (write_block err_row_idx (k_dim cf) var_start_col (k_jcols cf p) (k_jac cf p) A)
    end
  end.
(** dense_linearization.py 41-56 *)
Fixpoint dense_cfs (o : ordering) (cfs : list cost) (err_row_idx : nat) (A : nat -> nat -> R) (b : nat -> R)
  : option ((nat -> nat -> R) * (nat -> R)) :=
  match cfs with
  | [] => Some (A, b)
  | cf :: t =>
    match dense_vars o cf err_row_idx 0 (k_vars cf) A with
    | None => None
    | Some A' => dense_cfs o t (err_row_idx + k_dim cf) A' (write_rows err_row_idx (k_dim cf) (k_err cf) b)
    end
  end.
Definition dense_linearize (o : ordering) (cfs : list cost) := dense_cfs o cfs 0 (fun _ _ => 0) (fun _ => 0).

(** ---- sparse_linearization.py 33-85: the structure ---- *)
(** a pair (slice(start, stop), var_idx_in_cost_function) *)
Definition cslice := (nat * nat * nat)%type.
(** sparse_linearization.py 43-54 *)
Fixpoint col_slices (o : ordering) (p : nat) (vars : list nat) : option (list cslice) :=
  match vars with
  | [] => Some []
  | v :: t =>
    match index_of v o, col_slices o (S p) t with
    | Some q, Some r => let s := nth q (var_start_cols o) 0%nat in Some ((s, s + dof_of v o, p)%nat :: r)
    | _, _ => None
    end
  end.
(** order of Python tuples (slice, int); slices are compared as (start, stop, step) *)
Definition slice_leb (a b : cslice) : bool :=
  let '(s, t, i) := a in let '(s', t', i') := b in
  ((s <? s') || ((s =? s') && ((t <? t') || ((t =? t') && (i <=? i')))))%nat.
(** sparse_linearization.py 57 [col_slices_indices.sort()], as insertion sort *)
Fixpoint insert (a : cslice) (l : list cslice) : list cslice :=
  match l with [] => [a] | b :: t => if slice_leb a b then a :: l else b :: insert a t end.
Fixpoint sort_slices (l : list cslice) : list cslice := match l with [] => [] | a :: t => insert a (sort_slices t) end.

(** sparse_linearization.py 58-59 [np.cumsum([0] + sizes)[:-1]] *)
Fixpoint pointers (acc : nat) (l : list cslice) : list nat :=
  match l with [] => [] | (s, t, _) :: r => acc :: pointers (acc + (t - s)) r end.
(** sparse_linearization.py 60-64 [block_pointers[sorted_indices] = sorted_block_pointers] of an
    uninitialised array *)
Definition block_pointers (l : list cslice) : nat -> option nat :=
  fold_left (fun f (x : cslice * nat) => let '(_, _, i) := fst x in fun k => if Nat.eqb k i then Some (snd x) else f k)
    (combine l (pointers 0 l)) (fun _ => None).
(** sparse_linearization.py 68 *)
Definition col_ind_of (l : list cslice) : list nat := flat_map (fun x : cslice => let '(s, t, _) := x in seq s (t - s)) l.

Record cf_struct := mkCS { s_pointers : nat -> option nat; s_start : nat; s_stride : nat }.
Record structure := mkStruct { st_cfs : list cf_struct; st_col_ind : list nat; st_row_ptr : list nat }.

(** sparse_linearization.py 71-73, [n] more rows *)
Fixpoint add_rows (n : nat) (ci : list nat) (col_ind row_ptr : list nat) : list nat * list nat :=
  match n with
  | O => (col_ind, row_ptr)
  | S k => let col_ind' := col_ind ++ ci in add_rows k ci col_ind' (row_ptr ++ [length col_ind'])
  end.
(** sparse_linearization.py 42-73 *)
Fixpoint build_cfs (o : ordering) (cfs : list cost) (st : structure) : option structure :=
  match cfs with
  | [] => Some st
  | cf :: t =>
    match col_slices o 0 (k_vars cf) with
    | None => None
    | Some sl =>
      let sorted := sort_slices sl in
      let ci := col_ind_of sorted in
      let cs := mkCS (block_pointers sorted) (length (st_col_ind st)) (length ci) in
      let '(col_ind, row_ptr) := add_rows (k_dim cf) ci (st_col_ind st) (st_row_ptr st) in
      build_cfs o t (mkStruct (st_cfs st ++ [cs]) col_ind row_ptr)
    end
  end.
Definition build_structure (o : ordering) (cfs : list cost) : option structure := build_cfs o cfs (mkStruct [] [] [0%nat]).

(** ---- sparse_linearization.py 102-140 [_linearize_jacobian_impl] ---- *)
(** 125-137: [block[:, :, pointer : pointer + num_cols] = var_jacobian] where [block] views
    [A_val[block_start : block_start + stride * num_rows]] as num_rows x stride. Memory of
    [torch.empty] is [None]. *)
Definition write_val (bs stride nrows pointer ncols : nat) (J : nat -> nat -> R) (val : nat -> option R) : nat -> option R :=
  fun k =>
    if ((bs <=? k) && (k <? bs + stride * nrows))%nat then
      let r := ((k - bs) / stride)%nat in let c := ((k - bs) mod stride)%nat in
      if ((pointer <=? c) && (c <? pointer + ncols))%nat then Some (J r (c - pointer)%nat) else val k
    else val k.
Fixpoint fill_vars (cf : cost) (cs : cf_struct) (p : nat) (vars : list nat) (val : nat -> option R) : option (nat -> option R) :=
  match vars with
  | [] => Some val
  | _ :: t =>
    match s_pointers cs p with
    | None => None
    | Some ptr => fill_vars cf cs (S p) t (write_val (s_start cs) (s_stride cs) (k_dim cf) ptr (k_jcols cf p) (k_jac cf p) val)
    end
  end.
Definition write_rows_opt (row nrows : nat) (e : nat -> R) (b : nat -> option R) : nat -> option R :=
  fun r => if ((row <=? r) && (r <? row + nrows))%nat then Some (- e (r - row)%nat) else b r.
Fixpoint fill_cfs (cfs : list cost) (css : list cf_struct) (err_row_idx : nat) (val b : nat -> option R)
  : option ((nat -> option R) * (nat -> option R)) :=
  match cfs, css with
  | [], _ => Some (val, b)
  | cf :: t, cs :: u =>
    match fill_vars cf cs 0 (k_vars cf) val with
    | None => None
    | Some val' => fill_cfs t u (err_row_idx + k_dim cf) val' (write_rows_opt err_row_idx (k_dim cf) (k_err cf) b)
    end
  | _ :: _, [] => None
  end.
Definition sparse_linearize (cfs : list cost) (st : structure) := fill_cfs cfs (st_cfs st) 0 (fun _ => None) (fun _ => None).
