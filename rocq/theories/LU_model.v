(** Model of the factorization contexts of the CUDA LU solver: [LUCudaSparseSolver],
    [LUCudaSolveFunction] and the factor counter of [CusolverLUSolver]. The numbers are abstracted:
    a context holds the factorization of one solve, identified by the solve's place on the tape. *)
From Coq Require Import List Arith Bool ZArith.
Import ListNotations.
Local Open Scope nat_scope.

(** cusolver_lu_solver.cpp 43-59: batchSize, factorId and what is factored *)
Record cobj := mkC { c_batch : nat; c_fid : nat; c_content : option nat }.
(** lu_cuda_sparse_solver.py 43-45 ResetCtx: batch_size and num_solver_contexts, None until set *)
Definition rctx_t := (option nat * option nat)%type.
(** The solver object. [heap]: all context objects ever created (autograd graphs keep them alive),
    [ctxs]: [_solver_contexts] (empty: attribute not set), [last]: [_last_solver_context],
    [tape]: for each solve that succeeded, what autograd saved: context object and factor_id *)
Record lu := mkLU { heap : nat -> cobj; nalloc : nat; ctxs : list nat; last : Z; rctx : rctx_t; auto_reset : bool; tape : list (nat * nat) }.

(** lu_cuda_sparse_solver.py 47-61 [fill_defaults], one field *)
Definition fill (mine other : option nat) (dflt : nat) : nat :=
  match mine with Some v => v | None => match other with Some v => v | None => dflt end end.

Definition set_obj (h : nat -> cobj) (i : nat) (c : cobj) : nat -> cobj := fun j => if j =? i then c else h j.

(** lu_cuda_sparse_solver.py 92-147 [reset]; allocation of the contexts, factorId = 0 *)
Definition reset (batch_size num_solver_contexts : option nat) (s : lu) : lu :=
  let b := fill batch_size (fst (rctx s)) 16 in
  let k := fill num_solver_contexts (snd (rctx s)) 1 in
  if match rctx s with (Some b', Some k') => (b =? b') && (k =? k') | _ => false end then s
  else mkLU (fun j => if (nalloc s <=? j) && (j <? nalloc s + k) then mkC b 0 None else heap s j) (nalloc s + k)
            (seq (nalloc s) k) (Z.of_nat k - 1) (Some b, Some k) (auto_reset s) (tape s).

(** the state before the first reset; the constructor (lines 76-78) then calls [reset] if the
    objective has rows *)
Definition fresh (auto : bool) : lu := mkLU (fun _ => mkC 0 0 None) 0 [] 0 (None, None) auto [].

Inductive result := Ok (serial : nat) | Raise.

(** lu_cuda_sparse_solver.py 149-189 [solve] with lu_cuda_sparse_autograd.py 19-86 [forward] and
    cusolver_lu_solver.cpp 240-280 [factor]. [obj_batch]: objective.batch_size; [A_batch]: batch size of
    A_val; [cuda_ok]: no CUDA call fails. [factor] checks the batch size before it increments
    factorId. An empty context list stands for IndexError (or AttributeError), [k = 0] for
    ZeroDivisionError. *)
Definition solve (obj_batch A_batch : nat) (cuda_ok : bool) (s0 : lu) : lu * result :=
  let r := if auto_reset s0 then
             match ctxs s0 with
             | [] => None
             | c0 :: _ => Some (if c_batch (heap s0 c0) =? obj_batch then s0 else reset (Some obj_batch) None s0)
             end
           else Some s0 in
  match r with
  | None => (s0, Raise)
  | Some s =>
    match snd (rctx s) with
    | None | Some 0 => (s, Raise)
    | Some k =>
      let l := ((last s + 1) mod Z.of_nat k)%Z in
      let id := nth (Z.to_nat l) (ctxs s) 0 in
      let s' := mkLU (heap s) (nalloc s) (ctxs s) l (rctx s) (auto_reset s) (tape s) in
      let c := heap s id in
      if negb (A_batch =? c_batch c) then (s', Raise)
      else if cuda_ok then
        let serial := length (tape s) in
        (mkLU (set_obj (heap s) id (mkC (c_batch c) (S (c_fid c)) (Some serial))) (nalloc s) (ctxs s) l (rctx s) (auto_reset s)
              (tape s ++ [(id, S (c_fid c))]), Ok serial)
      else (mkLU (set_obj (heap s) id (mkC (c_batch c) (S (c_fid c)) None)) (nalloc s) (ctxs s) l (rctx s) (auto_reset s) (tape s), Raise)
    end
  end.

(** lu_cuda_sparse_autograd.py 148-160 [backward] of the solve at place [i] of the tape: raises, or
    uses the factorization in the context *)
Inductive bwd := BRaise | BUse (content : option nat).
Definition backward (s : lu) (i : nat) : bwd :=
  let '(id, fid) := nth i (tape s) (0, 0) in
  if c_fid (heap s id) =? fid then BUse (c_content (heap s id)) else BRaise.

(** What can happen to the solver. *)
Inductive op := OReset (b k : option nat) | OSolve (obj_batch A_batch : nat) (cuda_ok : bool).
Definition step (s : lu) (o : op) : lu := match o with OReset b k => reset b k s | OSolve ob ab ok => fst (solve ob ab ok s) end.
Definition run (s : lu) (l : list op) : lu := fold_left step l s.

(** nonlinear_least_squares.py 370-380 [reset]: [num_solver_contexts] from the kwargs, else
    backward_num_iters * _MAX_ALL_REJECT_ATTEMPTS *)
Definition nlls_reset (num_solver_contexts : option nat) (backward_num_iters : nat) (batch_size : option nat) (s : lu) : lu :=
  reset batch_size (match num_solver_contexts with Some k => Some k | None => Some (backward_num_iters * 3) end) s.
