(** Model of the BaSpaCho solver bindings: theseus/optimizer/linear/baspacho_sparse_solver.py,
    theseus/optimizer/autograd/baspacho_sparse_autograd.py (forward), theseus/extlib/baspacho_solver.cpp and
    baspacho_solver_cuda.cu.  Tensors are flat memories [nat -> R] of real numbers (the code works in float64); exceptions and aborts are
    [None].  The BaSpaCho library itself (elimination order, storage of the blocks, factorization) is a parameter: see [layout], [bsolve]. *)
From Coq Require Import List Arith Bool Reals.
From Verif Require Import RSum Csr_model Damp_model.
Import ListNotations.
Local Open Scope nat_scope.

Fixpoint collect {A} (l : list (option A)) : option (list A) := match l with
  | [] => Some []
  | None :: _ => None
  | Some a :: t => match collect t with Some s => Some (a :: s) | None => None end
  end.
(** ** the symbolic decomposition *)
(** baspacho_solver.cpp 304-310 (SymbolicDecomposition): toParamIndex, paramStart *)
Fixpoint to_param_index (i : nat) (param_size : list nat) : list nat := match param_size with
  | [] => []
  | s :: t => repeat i s ++ to_param_index (S i) t
  end.
Fixpoint param_start (start : nat) (param_size : list nat) : list nat := match param_size with
  | [] => []
  | s :: t => start :: param_start (start + s) t
  end.
(** baspacho_sparse_solver.py 89-108 (reset): to_blocks has the rows [var_start_cols[p], var_start_cols[p+1]) (num_cols at the end);
    the number of entries of row [q] of A in block [p] (entry (p, q) of block_At_mock) *)
Definition block_count (rp ci : list nat) (bounds : list nat) (p q : nat) : nat :=
  length (filter (fun k => (nth p bounds 0 <=? col ci k) && (col ci k <? nth (S p) bounds 0)) (seq (row_start rp q) (row_len rp q))).
(** entry (p, p') of block_AtA_mock, and the indices of its row p (sorted); scipy stores exactly the entries with a contribution *)
Definition block_AtA (rp ci bounds : list nat) (p p' : nat) : nat :=
  list_sum (map (fun q => block_count rp ci bounds p q * block_count rp ci bounds p' q) (seq 0 (nrows rp))).
Definition block_struct (rp ci starts : list nat) (num_cols : nat) : list (list nat) :=
  let bounds := starts ++ [num_cols] in
  map (fun p => filter (fun p' => negb (block_AtA rp ci bounds p p' =? 0)) (seq 0 (length starts))) (seq 0 (length starts)).

(** ** the library's storage of the lower triangle: parameter [p] has place [l_pos p] in the elimination order, [l_sizes] are the sizes of
    the parameters in that order; the block (I, J) of places I >= J starts at [l_off I J] ([None]: not stored) with row stride [l_stride I J];
    one factor takes [l_dataSize] numbers *)
Record layout := mkLayout { l_pos : nat -> nat; l_sizes : list nat; l_off : nat -> nat -> option nat; l_stride : nat -> nat -> nat; l_dataSize : nat }.
Section Decomposition.
Variables (L : layout) (param_size : list nat).
Notation toParamIndex := (to_param_index 0 param_size).
Notation paramStart := (param_start 0 param_size).
(** PermutedCoalescedAccessor of the library: paramStart(p) and blockOffset(row, col) (offset, stride, flip) *)
Definition acc_start (p : nat) : nat := nth (l_pos L p) (param_start 0 (l_sizes L)) 0.
Definition blockOffset (rParam cParam : nat) : option (nat * nat * bool) :=
  let '(u, w, flip) := if l_pos L rParam <? l_pos L cParam then (l_pos L cParam, l_pos L rParam, true) else (l_pos L rParam, l_pos L cParam, false) in
  match l_off L u w with Some off => Some (off, l_stride L u w, flip) | None => None end.
(** baspacho_solver.cpp 61-81, 126-145: offsetInFactor of the entry (r, c), for batch element 0 *)
Definition offsetInFactor (r c : nat) : option nat :=
  let rParam := nth r toParamIndex 0 in let rowInBlock := r - nth rParam paramStart 0 in
  let cParam := nth c toParamIndex 0 in let colInBlock := c - nth cParam paramStart 0 in
  match blockOffset rParam cParam with
  | Some (off, stride, flip) => Some (off + (if flip : bool then stride * colInBlock + rowInBlock else stride * rowInBlock + colInBlock))
  | None => None
  end.

(** ** add_MtM: [val] has valBatchStride = length ci numbers per element *)
(** one addition: row [q], [j], [i <= j], batch element [b] *)
Definition MtM_add (ci : list nat) (val : nat -> R) (j i b : nat) : option add :=
  match offsetInFactor (col ci j) (col ci i) with
  | Some o => Some (o + b * l_dataSize L, (val (j + b * length ci)%nat * val (i + b * length ci)%nat)%R)
  | None => None
  end.
(** baspacho_solver.cpp 123-157: the loops of the CPU version *)
Definition add_MtM_cpu (rp ci : list nat) (val : nat -> R) (batchSize : nat) : option (list add) :=
  collect (flat_map (fun q => flat_map (fun j => flat_map (fun i => map (MtM_add ci val j i) (seq 0 batchSize))
    (seq (row_start rp q) (S j - row_start rp q))) (seq (row_start rp q) (row_len rp q))) (seq 0 (nrows rp))).
(** baspacho_solver_cuda.cu 96-134: the thread of (q, batchIndex), which adds atomically *)
Definition add_MtM_thread (rp ci : list nat) (val : nat -> R) (q batchIndex : nat) : list (option add) :=
  flat_map (fun j => map (fun i => MtM_add ci val j i batchIndex) (seq (row_start rp q) (S j - row_start rp q))) (seq (row_start rp q) (row_len rp q)).
(** baspacho_solver_cuda.cu 136-169: all threads; their additions are executed in the order of some permutation *)
Definition add_MtM_cuda (rp ci : list nat) (val : nat -> R) (batchSize : nat) : option (list add) :=
  collect (flat_map (fun q => flat_map (fun b => add_MtM_thread rp ci val q b) (seq 0 batchSize)) (seq 0 (nrows rp))).

(** ** add_M (lower triangle of a square matrix) *)
Definition M_add (ci : list nat) (val : nat -> R) (r i b : nat) : option add :=
  match offsetInFactor r (col ci i) with
  | Some o => Some (o + b * l_dataSize L, val (i + b * length ci)%nat)
  | None => None
  end.
(** baspacho_solver_cuda.cu 19-58: the thread of (r, batchIndex) *)
Definition add_M_thread (rp ci : list nat) (val : nat -> R) (r b : nat) : list (option add) :=
  map (fun i => M_add ci val r i b) (filter (fun i => negb (r <? col ci i)) (seq (row_start rp r) (row_len rp r))).
(** baspacho_solver.cpp 60-90: the loops of the CPU version *)
Definition add_M_cpu (rp ci : list nat) (val : nat -> R) (batchSize : nat) : option (list add) :=
  collect (flat_map (fun r => flat_map (fun i => map (M_add ci val r i) (seq 0 batchSize))
    (filter (fun i => negb (r <? col ci i)) (seq (row_start rp r) (row_len rp r)))) (seq 0 (nrows rp))).
Definition add_M_cuda (rp ci : list nat) (val : nat -> R) (batchSize : nat) : option (list add) :=
  collect (flat_map (fun r => flat_map (fun b => add_M_thread rp ci val r b) (seq 0 batchSize)) (seq 0 (nrows rp))).

(** ** damp *)
(** the diagonal of diagBlock(pFactorItem, p): its places in the factor of element [b], with [b] *)
Definition diag_places (b p : nat) : list (option (nat * nat)) :=
  map (fun k => match l_off L (l_pos L p) (l_pos L p) with
                | Some off => Some (b * l_dataSize L + (off + (l_stride L (l_pos L p) (l_pos L p) * k + k)), b)
                | None => None end) (seq 0 (nth p param_size 0)).
(** baspacho_solver.cpp 178-185; baspacho_solver_cuda.cu 171-185: one thread for every (b, p) *)
Definition damp_list (batchSize : nat) : option (list (nat * nat)) :=
  collect (flat_map (fun b => flat_map (fun p => diag_places b p) (seq 0 (length param_size))) (seq 0 batchSize)).
(** [block.diagonal() *= (1.0 + alpha[b]); block.diagonal().array() += beta[b]] at the places of [l], in that order *)
Definition run_damp (alpha beta : nat -> R) (l : list (nat * nat)) (m : nat -> R) : nat -> R :=
  fold_left (fun (m : nat -> R) x => fun a => if Nat.eqb a (fst x) then (m a * (1 + alpha (snd x)) + beta (snd x))%R else m a) l m.

(** ** solve *)
(** Solver::factor and Solver::solve of the library on one element: the factor data (before factorization) and the right hand side *)
Variable bsolve : (nat -> R) -> (nat -> R) -> option (nat -> R).
(** baspacho_solver.cpp 232-238; baspacho_solver_cuda.cu 216-232: (destination in permX, source in x), one thread for every (b, p) *)
Definition scramble_list (order batchSize : nat) : list (nat * nat) :=
  flat_map (fun p => flat_map (fun b => map (fun k => (acc_start p + k + order * b, nth p paramStart 0 + k + order * b)) (seq 0 (nth p param_size 0)))
    (seq 0 batchSize)) (seq 0 (length param_size)).
(** baspacho_solver.cpp 249-256; baspacho_solver_cuda.cu 234-250 *)
Definition unscramble_list (order batchSize : nat) : list (nat * nat) :=
  flat_map (fun p => flat_map (fun b => map (fun k => (nth p paramStart 0 + k + order * b, acc_start p + k + order * b)) (seq 0 (nth p param_size 0)))
    (seq 0 batchSize)) (seq 0 (length param_size)).
Definition run_copies (l : list (nat * nat)) (src dst : nat -> R) : nat -> R :=
  fold_left (fun (d : nat -> R) x => fun a => if Nat.eqb a (fst x) then src (snd x) else d a) l dst.
(** baspacho_solver.cpp 206-257, baspacho_solver_cuda.cu 252-293 (solve): [scr], [uns]: the copies, in the order in which they are executed;
    [junk]: the contents of the fresh permX *)
Definition solve (scr uns : list (nat * nat)) (junk : nat -> R) (order batchSize : nat) (data x : nat -> R) : option (nat -> R) :=
  let permX := run_copies scr x junk in
  match collect (map (fun b => bsolve (fun o => data (l_dataSize L * b + o)) (fun i => permX (order * b + i))) (seq 0 batchSize)) with
  | Some ys => Some (run_copies uns (fun a => nth (a / order) ys (fun _ => 0%R) (a mod order)) x)
  | None => None
  end.

(** ** forward *)
(** one execution: the orders in which the parallel operations take effect, and the contents of fresh memory *)
Record schedule := mkSched { s_adds : list add; s_damp : list (nat * nat); s_Atb : nat -> list add; s_scr : list (nat * nat); s_uns : list (nat * nat); s_junk : nat -> R }.
(** baspacho_sparse_autograd.py 35-60 (forward); [damping]: the lengths and contents of alpha and beta; baspacho_solver.cpp 170-171: their
    length must be the batch size.  tmat_vec is modelled in Csr_model *)
Definition forward (s : schedule) (num_cols batchSize : nat) (damping : option (nat * (nat -> R) * (nat -> R))) : option (nat -> R) :=
  let data := run_adds (fun _ => 0%R) (s_adds s) in
  let damped := match damping with
    | None => Some data
    | Some (len, alpha, beta) => if len =? batchSize then Some (run_damp alpha beta (s_damp s) data) else None
    end in
  match damped with
  | Some data => solve (s_scr s) (s_uns s) (s_junk s) num_cols batchSize data (fun a => run_adds (fun _ => 0%R) (s_Atb s (a / num_cols)) (a mod num_cols))
  | None => None
  end.
(** baspacho_sparse_solver.py 114-148 (solve): None, or a damping tensor (a float is a tensor of shape []), ellipsoidal_damping, damping_eps *)
Definition baspacho_solve (s : schedule) (num_cols batchSize : nat) (damping : option (tensor * bool * R)) : option (nat -> R) :=
  match damping with
  | None => forward s num_cols batchSize None
  | Some (t, ellipsoidal, eps) =>
    match convert_to_alpha_beta t eps ellipsoidal batchSize with
    | Some ab => forward s num_cols batchSize (Some ab)
    | None => None
    end
  end.
End Decomposition.

(** ** reset *)
(** baspacho_sparse_solver.py 42-73: device, _has_been_reset and the device of symbolic_decomposition ([None]: no such attribute) *)
Inductive dev := Cpu | Cuda.
Definition dev_eqb (a b : dev) : bool := match a, b with Cpu, Cpu | Cuda, Cuda => true | _, _ => false end.
Record solver_state := mkSolver { v_device : option dev; v_reset : bool; v_symbolic : option dev }.
Definition initial : solver_state := mkSolver None false None.
(** [works d]: torch has the device, the extension can be loaded and supports the device *)
Definition reset (works : dev -> bool) (d : dev) (s : solver_state) : solver_state * bool (* raised *) :=
  if negb (match v_device s with Some d' => dev_eqb d d' | None => false end) || negb (v_reset s) then
    if works d then (mkSolver (Some d) true (Some d), false)
    else (mkSolver (Some d) true (v_symbolic s), true)
  else (s, false).
