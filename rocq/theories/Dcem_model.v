(** Model of the loop of theseus/optimizer/nonlinear/dcem.py, with the bookkeeping of
    NonlinearOptimizer (NL_model).  One iteration of the cross entropy method is a
    parameter here; it is modelled in Lml_model. *)
From Coq Require Import List Arith Bool ZArith QArith Qabs.
From Verif Require Import NL_model.
Import ListNotations.

Section Dcem.
(** [X]: the values of all optimization variables of one batch element; [Z0]: sigma and the random number generator *)
Context {X Z0 : Type}.
Variable n : nat.                                  (* batch size *)
Variable errf : X -> ext.                          (* error metric of one batch element *)
(** dcem.py:94-158 [_CEM_step] followed by objective.update(mu); [None]: an exception *)
Variable cem : Z0 -> (nat -> X) -> Z0 * option (nat -> X).
Variable abs_tol rel_tol : Q.

(** dcem.py:160-204 [_optimize_loop], [todo] iterations from iteration [it] on; the result is (iters_done, state, variables, info) *)
Fixpoint dcem_loop (todo it : nat) (z : Z0) (x : nat -> X) (conv : nat -> bool) (f : @info X) : option (nat * Z0 * (nat -> X) * @info X) :=
  match todo with
  | O => Some (it, z, x, finish f)
  | S todo =>
    match cem z x with
    | (_, None) => None
    | (z', Some x') =>
      let err := fun i => errf (x' i) in
      let f1 := update_info n abs_tol rel_tol f it err conv x' in
      let conv' := check_convergence n abs_tol rel_tol err (i_last_err f1) in
      let f2 := with_status f1 (fun i => if conv' i then CONVERGED else i_status f1 i) in
      if all_b n conv' then Some (S it, z', x', finish f2)
      else dcem_loop todo (S it) z' x' conv' (with_last_err f2 err)
    end
  end.
(** dcem.py:206-248 [_optimize_impl]; [z] is the state after reset_sigma.  [None]: an exception *)
Definition dcem_optimize (mode : bmode) (max_iter : nat) (z : Z0) (x : nat -> X) : option (@info X * (nat -> X)) :=
  match mode with
  | UNROLL | DLM =>
    match dcem_loop max_iter 0 z x (fun _ => false) (init_info errf x) with
    | None => None
    | Some (_, _, x', f) =>
      Some (with_converged_iter f (fun i => if status_eqb (i_status f i) MAX_ITERATIONS then (-1)%Z else i_converged_iter f i), x')
    end
  | IMPLICIT | TRUNCATED => None
  end.
End Dcem.
