(** Specification for C76: what the factor data of BaSpaCho represent. *)
From Coq Require Import List Arith Bool Reals Permutation.
From Verif Require Import RSum Csr_model Bas_model.
Import ListNotations.
Local Open Scope nat_scope.

(** Consecutive blocks of the given sizes: the block of a scalar index, the first index of a block *)
Fixpoint block_of (sizes : list nat) (i : nat) : nat := match sizes with [] => 0 | s :: t => if i <? s then 0 else S (block_of t (i - s)) end.
Definition start_of (sizes : list nat) (p : nat) : nat := list_sum (firstn p sizes).

(** What the storage chosen by the library must satisfy: the parameters are permuted, blocks keep their sizes; the diagonal blocks and the
    blocks of the given structure are stored; no two entries share a place *)
Record layout_ok (L : layout) (sizes : list nat) (struct : list (list nat)) : Prop := {
  lo_pos : forall p, p < length sizes -> l_pos L p < length sizes;
  lo_inj : forall p p', p < length sizes -> p' < length sizes -> l_pos L p = l_pos L p' -> p = p';
  lo_len : length (l_sizes L) = length sizes;
  lo_sizes : forall p, p < length sizes -> nth (l_pos L p) (l_sizes L) 0 = nth p sizes 0;
  lo_diag : forall u, u < length sizes -> l_off L u u <> None;
  lo_struct : forall p p', p < length sizes -> In p' (nth p struct []) -> l_pos L p' <= l_pos L p -> l_off L (l_pos L p) (l_pos L p') <> None;
  lo_places : forall u w i j o u' w' i' j' o', w <= u -> u < length sizes -> w' <= u' -> u' < length sizes ->
    i < nth u (l_sizes L) 0 -> j < nth w (l_sizes L) 0 -> i' < nth u' (l_sizes L) 0 -> j' < nth w' (l_sizes L) 0 ->
    l_off L u w = Some o -> l_off L u' w' = Some o' -> o + (l_stride L u w * i + j) = o' + (l_stride L u' w' * i' + j') ->
    u = u' /\ w = w' /\ i = i' /\ j = j';
  lo_bound : forall u w i j o, w <= u -> u < length sizes -> i < nth u (l_sizes L) 0 -> j < nth w (l_sizes L) 0 ->
    l_off L u w = Some o -> o + (l_stride L u w * i + j) < l_dataSize L
}.
(** the entry (i, j), i >= j, of the permuted matrix, in permuted scalar indices; what is not stored is zero *)
Definition lower (L : layout) (data : nat -> R) (i j : nat) : R :=
  let u := block_of (l_sizes L) i in let w := block_of (l_sizes L) j in
  match l_off L u w with
  | Some o => data (o + (l_stride L u w * (i - start_of (l_sizes L) u) + (j - start_of (l_sizes L) w)))
  | None => 0%R
  end.
(** the symmetric matrix *)
Definition sym (L : layout) (data : nat -> R) (i j : nat) : R := if j <=? i then lower L data i j else lower L data j i.
(** the library solves the system with this matrix *)
Definition solver_sound (L : layout) (n : nat) (bsolve : (nat -> R) -> (nat -> R) -> option (nat -> R)) : Prop :=
  forall data x y, bsolve data x = Some y -> forall i, i < n -> rsum n (fun j => (sym L data i j * y j)%R) = x i.
(** and succeeds if the matrix is positive definite *)
Definition posdef (n : nat) (M : nat -> nat -> R) : Prop :=
  forall v, (exists i, i < n /\ v i <> 0%R) -> (0 < rsum n (fun i => rsum n (fun j => v i * M i j * v j)))%R.
Definition solver_complete (L : layout) (n : nat) (bsolve : (nat -> R) -> (nat -> R) -> option (nat -> R)) : Prop :=
  forall data x, posdef n (sym L data) -> bsolve data x <> None.

(** The possible executions of one solve on the matrix (rp, ci, val) and the right hand side [bvec] (m numbers per element): on the CPU the
    loops run in program order; the CUDA threads interleave arbitrarily *)
Record executes (L : layout) (sizes : list nat) (rp ci : list nat) (m : nat) (val bvec : nat -> R) (B : nat) (s : schedule) : Prop := {
  ex_adds : exists l, (add_MtM_cpu L sizes rp ci val B = Some l \/ add_MtM_cuda L sizes rp ci val B = Some l) /\ Permutation l (s_adds s);
  ex_damp : exists l, damp_list L sizes B = Some l /\ Permutation l (s_damp s);
  ex_Atb : forall b, b < B -> Permutation (tmat_vec_adds rp ci (fun k => val (k + b * length ci)) (fun q => bvec (q + b * m))) (s_Atb s b);
  ex_scr : Permutation (scramble_list L sizes (list_sum sizes) B) (s_scr s);
  ex_uns : Permutation (unscramble_list L sizes (list_sum sizes) B) (s_uns s)
}.
