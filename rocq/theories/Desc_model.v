(** Model of theseus/optimizer/linear/linear_optimizer.py on top of Bwd_model (one Problem, a batch of states and parameters). *)
From Coq Require Import Reals List Arith Bool.
From Verif Require Import RSum Bwd_model.
Import ListNotations.
Local Open Scope R_scope.

Fixpoint all_or_none {A} (l : list (option A)) : option (list A) := match l with
  | [] => Some []
  | None :: _ => None
  | Some a :: r => match all_or_none r with Some s => Some (a :: s) | None => None end
  end.
(** linear_optimizer.py:19-22 *)
Inductive lin_status := START | CONVERGED | FAIL.
(** linear_optimizer.py:47-78: the states after the call, the status of every element, best_solution ([None]: the empty dictionary) *)
Record lin_result (S : Type) := mkRes { final : list S; status : list lin_status; best_solution : option (list S) }.
Arguments mkRes {S}. Arguments final {S}. Arguments status {S}. Arguments best_solution {S}.
Section LinOpt.
Context {S : Type} (p : Problem S).
Variable solve : nat -> mat -> vec -> option vec.
(** the batched solve() raises if one element fails; it is called without damping *)
Definition solve_batch (batch : list (S * vec)) : option (list vec) :=
  all_or_none (map (fun e => solve (dofs p) (AtA p (fst e) (snd e)) (Atb p (fst e) (snd e))) batch).
(** [None]: the RuntimeError of line 64 *)
Definition linear_optimize (grad_enabled : bool) (batch : list (S * vec)) : option (lin_result S) :=
  match solve_batch batch with
  | Some delta =>
      let xs := map (fun ed => retract p (fst (fst ed)) (snd ed)) (combine batch delta) in
      Some (mkRes xs (map (fun _ => CONVERGED) batch) (Some xs))
  | None => if grad_enabled then None else Some (mkRes (map fst batch) (map (fun _ => FAIL) batch) None)
  end.
End LinOpt.
