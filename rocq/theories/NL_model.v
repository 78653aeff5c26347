(** Model of the optimization loop: [NonlinearLeastSquares._optimize_loop], [_step],
    [_optimize_impl] and the bookkeeping of [NonlinearOptimizer]. *)
From Coq Require Import List Arith Bool ZArith QArith Qabs.
Import ListNotations.

(** ---- error values ---- *)
(** Values of the error metric: exact rationals, +inf or nan (rounding is not modelled; the
    metric is half a squared norm, so -inf does not occur). *)
Inductive ext := Fin (q : Q) | PInf | NaN.

Definition Qltb (a b : Q) : bool := negb (Qle_bool b a).

(** torch [<]: false when an operand is nan *)
Definition elt (a b : ext) : bool :=
  match a, b with
  | Fin x, Fin y => Qltb x y
  | Fin _, PInf => true
  | _, _ => false
  end.
(** [torch.minimum]: nan if an operand is nan *)
Definition emin (a b : ext) : ext :=
  match a, b with
  | NaN, _ | _, NaN => NaN
  | _, _ => if elt b a then b else a
  end.
(** [(a - b).abs()] *)
Definition eabsdiff (a b : ext) : ext :=
  match a, b with
  | Fin x, Fin y => Fin (Qabs (x - y))
  | Fin _, PInf | PInf, Fin _ => PInf
  | _, _ => NaN
  end.
(** [(d / l).abs()] for [d >= 0] *)
Definition eabsdiv (d l : ext) : ext :=
  match d, l with
  | Fin x, Fin y => if Qeq_bool y 0 then (if Qeq_bool x 0 then NaN else PInf) else Fin (Qabs (x / y))
  | Fin _, PInf => Fin 0
  | PInf, Fin _ => PInf
  | _, _ => NaN
  end.
Definition eplus (a b : ext) : ext :=
  match a, b with
  | Fin x, Fin y => Fin (x + y)
  | NaN, _ | _, NaN => NaN
  | _, _ => PInf
  end.
Definition eabs (a : ext) : ext := match a with Fin x => Fin (Qabs x) | e => e end.
(** [t.mean()] *)
Definition emean (n : nat) (f : nat -> ext) : ext :=
  match fold_right eplus (Fin 0) (map (fun i => eabs (f i)) (seq 0 n)) with
  | Fin s => if (n =? 0)%nat then NaN else Fin (s / inject_Z (Z.of_nat n))
  | e => e
  end.

(** nonlinear_optimizer.py 59-63 *)
Inductive status := START | CONVERGED | MAX_ITERATIONS | FAIL.
Definition status_eqb (a b : status) : bool :=
  match a, b with
  | START, START | CONVERGED, CONVERGED | MAX_ITERATIONS, MAX_ITERATIONS | FAIL, FAIL => true
  | _, _ => false
  end.

(** nonlinear_optimizer.py 20-25 *)
Inductive bmode := UNROLL | IMPLICIT | TRUNCATED | DLM.

(** nonlinear_optimizer.py 274-297 [_split_backward_iters]: (with grad, without grad); [None]: the
    ValueError. Integers, as in Python. *)
Definition split_backward_iters (m : bmode) (bnum : option Z) (max_iter : Z) : option (Z * Z) :=
  match m with
  | TRUNCATED => match bnum with
                 | None => None
                 | Some k => let g := Z.min k max_iter in Some (g, (max_iter - g)%Z)
                 end
  | UNROLL | DLM => Some (max_iter, (max_iter - max_iter)%Z)
  | IMPLICIT => Some (1%Z, (max_iter - 1)%Z)
  end.

Section NL.
(** [X]: the rows of all optimization variables of one batch element; [D]: its step; [Z0]: internal
    state of the optimizer and linear solver (damping, trust region, ...).  Batched quantities are
    functions of the batch index, read below [n] only. *)
Context {X D Z0 : Type}.
Variable n : nat.                                  (* batch size *)
Variable errf : X -> ext.                          (* error metric of one batch element *)
Variable retr : X -> D -> X.                       (* retract all variables of one element *)
(** [compute_delta]: [None] is a RuntimeError of the linear solver *)
Variable compute_delta : Z0 -> (nat -> X) -> Z0 * option (nat -> D).
(** [linear_solver.solve()] without damping (implicit step) *)
Variable gn_solve : Z0 -> (nat -> X) -> Z0 * option (nat -> D).
(** [_complete_step delta new_err previous_err] *)
Variable complete : Z0 -> (nat -> X) -> (nat -> D) -> (nat -> ext) -> (nat -> ext) -> Z0 * option (nat -> bool).
Variable scale : D -> D.                           (* delta * step_size *)
Variable abs_tol rel_tol : Q.                      (* params.abs_err_tolerance, rel_err_tolerance *)

Definition all_b (m : nat -> bool) : bool := forallb m (seq 0 n).
Definition any_b (m : nat -> bool) : bool := existsb m (seq 0 n).

(** nonlinear_optimizer.py 107-117 [_check_convergence] *)
Definition check_convergence (err last : nat -> ext) : nat -> bool :=
  if elt (emean n err) (Fin abs_tol) then fun _ => true
  else fun i =>
    let d := eabsdiff (last i) (err i) in
    elt d (Fin abs_tol) || elt (eabsdiv d (last i)) (Fin rel_tol).

(** nonlinear_optimizer.py 66-74, all three tracking options on. Histories are indexed by column. *)
Record info := mkInfo {
  i_status : nat -> status;
  i_converged_iter : nat -> Z;
  i_best_iter : nat -> nat;
  i_err_hist : nat -> nat -> ext;           (* column, element; PInf where not written *)
  i_state_hist : nat -> nat -> option X;    (* column, element; None where not written *)
  i_last_err : nat -> ext;
  i_best_err : nat -> ext;
  i_best_sol : nat -> X
}.

Definition setcol {A} (h : nat -> A) (c : nat) (x : A) : nat -> A := fun k => if (k =? c)%nat then x else h k.

(** nonlinear_optimizer.py 119-175 [_maybe_init_best_solution], [_init_info] *)
Definition init_info (x : nat -> X) : info :=
  let e := fun i => errf (x i) in
  {| i_status := fun _ => START; i_converged_iter := fun _ => 0%Z; i_best_iter := fun _ => 0%nat;
     i_err_hist := setcol (fun _ _ => PInf) 0 e;
     i_state_hist := setcol (fun _ _ => None) 0 (fun i => Some (x i));
     i_last_err := e; i_best_err := e; i_best_sol := x |}.

(** nonlinear_optimizer.py 183-214 [_update_info]; [x]: the variables after the step *)
Definition update_info (f : info) (it : nat) (err : nat -> ext) (conv : nat -> bool) (x : nat -> X) : info :=
  let good := fun i => elt (err i) (i_best_err f i) in
  let conv' := check_convergence err (i_last_err f) in
  {| i_status := fun i => if conv' i then CONVERGED else i_status f i;
     i_converged_iter := fun i => (i_converged_iter f i + (1 - (if conv i then 1 else 0)))%Z;
     i_best_iter := fun i => if good i then it else i_best_iter f i;
     i_err_hist := setcol (i_err_hist f) (S it) err;
     i_state_hist := setcol (i_state_hist f) (S it) (fun i => Some (x i));
     i_last_err := i_last_err f;
     i_best_err := fun i => emin (i_best_err f i) (err i);
     i_best_sol := fun i => if good i then x i else i_best_sol f i |}.

Definition with_status (f : info) (s : nat -> status) : info :=
  {| i_status := s; i_converged_iter := i_converged_iter f; i_best_iter := i_best_iter f;
     i_err_hist := i_err_hist f; i_state_hist := i_state_hist f; i_last_err := i_last_err f;
     i_best_err := i_best_err f; i_best_sol := i_best_sol f |}.
Definition with_last_err (f : info) (e : nat -> ext) : info :=
  {| i_status := i_status f; i_converged_iter := i_converged_iter f; i_best_iter := i_best_iter f;
     i_err_hist := i_err_hist f; i_state_hist := i_state_hist f; i_last_err := e;
     i_best_err := i_best_err f; i_best_sol := i_best_sol f |}.
Definition with_converged_iter (f : info) (c : nat -> Z) : info :=
  {| i_status := i_status f; i_converged_iter := c; i_best_iter := i_best_iter f;
     i_err_hist := i_err_hist f; i_state_hist := i_state_hist f; i_last_err := i_last_err f;
     i_best_err := i_best_err f; i_best_sol := i_best_sol f |}.

(** The variables of the loop, nonlinear_least_squares.py 104-115. [l_solves] counts the step
    computations and [l_recorded] the calls of [_update_info]; they are not in the code. *)
Record lstate := mkL {
  l_z : Z0; l_x : nat -> X; l_it : nat; l_attempts : nat; l_conv : nat -> bool;
  l_info : info; l_iters_done : nat; l_solves : nat; l_recorded : nat
}.

Definition loop_init (z : Z0) (x : nat -> X) (f : info) : lstate :=
  mkL z x 0 0 (fun _ => false) f 0 0 0.

(** How a loop ends: normally, with the linear solver's failure recorded in the status, or with an
    exception (gradients enabled). *)
Inductive outcome := Finished (s : lstate) | Failed (s : lstate) | Raised (s : lstate).
Inductive control := Next (s : lstate) | Stop (o : outcome).

Definition max_all_reject_attempts := 3%nat.        (* nonlinear_optimizer.py 84 *)

(** nonlinear_least_squares.py 277-326 [_compute_retracted_tensors_and_error] and 339-371 [_step]:
    the new optimizer state, variables and error, and whether all steps were rejected *)
Definition step (z : Z0) (x : nat -> X) (delta : nat -> D) (previous_err : nat -> ext) (conv : nat -> bool)
    (force_update forced_gn : bool) : Z0 * (nat -> X) * (nat -> ext) * bool :=
  let xr := fun i => if conv i && negb force_update then x i else retr (x i) (delta i) in
  let err := fun i => errf (xr i) in
  let (z', rej) := if forced_gn then (z, None) else complete z x delta err previous_err in
  match rej with
  | None => (z', xr, err, false)
  | Some m =>
    if all_b m then (z', x, previous_err, true)
    else
      let x' := fun i => if m i then x i else xr i in
      (z', x', (if any_b m then fun i => errf (x' i) else err), false)
  end.

(** nonlinear_least_squares.py 121-212: one execution of the loop body. [grad]:
    torch.is_grad_enabled(); [last_implicit]: [_last_implicit_diff_step]; [strict]: the option
    [__strict_implicit_final_gn__]; the option [__keep_final_step_size__] is off. A RuntimeError raised
    under the strict option is an outcome too. No callback. *)
Definition body (grad last_implicit strict : bool) (s : lstate) : control :=
  let r := if last_implicit then
             match gn_solve (l_z s) (l_x s) with
             | (z, Some d) => (z, Some d)
             | (z, None) => if strict then (z, None) else compute_delta z (l_x s)
             end
           else compute_delta (l_z s) (l_x s) in
  match r with
  | (z, None) =>
    let s' := mkL z (l_x s) (l_it s) (l_attempts s) (l_conv s)
                  (if grad then l_info s else with_status (l_info s) (fun _ => FAIL))
                  (l_iters_done s) (S (l_solves s)) (l_recorded s) in
    Stop (if grad then Raised s' else Failed s')
  | (z, Some d) =>
    let d' := if last_implicit then d else fun i => scale (d i) in
    match step z (l_x s) d' (i_last_err (l_info s)) (l_conv s) last_implicit last_implicit with
    | (z', x', err, all_rejected) =>
      let attempts := if all_rejected then S (l_attempts s) else l_attempts s in
      if all_rejected && (attempts <? max_all_reject_attempts)%nat
      then Next (mkL z' x' (l_it s) attempts (l_conv s) (l_info s) (l_iters_done s) (S (l_solves s)) (l_recorded s))
      else
        let f1 := update_info (l_info s) (l_it s) err (l_conv s) x' in
        let conv' := check_convergence err (i_last_err f1) in
        let f2 := with_status f1 (fun i => if conv' i then CONVERGED else i_status f1 i) in
        if all_b conv'
        then Stop (Finished (mkL z' x' (l_it s) 0 conv' f2 (l_iters_done s) (S (l_solves s)) (S (l_recorded s))))
        else Next (mkL z' x' (S (l_it s)) 0 conv' (with_last_err f2 err) (S (l_iters_done s)) (S (l_solves s)) (S (l_recorded s)))
    end
  end.

(** lines 215-217: elements still at START did not converge *)
Definition finish (f : info) : info :=
  with_status f (fun i => if status_eqb (i_status f i) START then MAX_ITERATIONS else i_status f i).
Definition finish_state (s : lstate) : lstate :=
  mkL (l_z s) (l_x s) (l_it s) (l_attempts s) (l_conv s) (finish (l_info s)) (l_iters_done s) (l_solves s) (l_recorded s).

(** The while loop, lines 116-218; [None]: not finished within [fuel] executions of the body. *)
Fixpoint loop (fuel num_iter : nat) (grad last_implicit strict : bool) (s : lstate) : option outcome :=
  if (l_it s <? num_iter)%nat then
    match fuel with
    | O => None
    | S k => match body grad last_implicit strict s with
             | Next s' => loop k num_iter grad last_implicit strict s'
             | Stop (Finished s') => Some (Finished (finish_state s'))
             | Stop o => Some o
             end
    end
  else Some (Finished (finish_state s)).

(** nonlinear_optimizer.py 221-272 [_merge_infos], [info] modified in place; [None]: the assertion
    fails. *)
Definition merge_infos (g : info) (no_grad_iters grad_iters : nat) (f : info) : option info :=
  let in_range c := (no_grad_iters <? c)%nat && (c <=? no_grad_iters + grad_iters)%nat in
  let M := fun i => status_eqb (i_status f i) MAX_ITERATIONS in
  if all_b (fun i => implb (M i) (status_eqb (i_status g i) MAX_ITERATIONS || status_eqb (i_status g i) CONVERGED))
  then
    Some {| i_status := fun i => if M i then i_status g i else i_status f i;
            i_converged_iter := fun i =>
              if M i && status_eqb (i_status g i) MAX_ITERATIONS then (-1)%Z
              else if M i then (i_converged_iter f i + i_converged_iter g i)%Z else i_converged_iter f i;
            i_best_iter := i_best_iter f;
            i_err_hist := fun c => if in_range c then i_err_hist g (c - no_grad_iters) else i_err_hist f c;
            i_state_hist := fun c => if in_range c then i_state_hist g (c - no_grad_iters) else i_state_hist f c;
            i_last_err := i_last_err f;
            i_best_err := fun i => emin (i_best_err f i) (i_best_err g i);
            i_best_sol := fun i => if elt (i_best_err f i) (i_best_err g i) then i_best_sol f i else i_best_sol g i |}
  else None.

(** Result of [_optimize_impl]: the info and the final variables; [None]: an exception. *)
Definition outcome_state (o : outcome) : option lstate :=
  match o with Finished s | Failed s => Some s | Raised _ => None end.

(** nonlinear_least_squares.py 225-283 [_optimize_impl] after [reset]: [z] is the optimizer state
    after reset. [grad]: gradients enabled by the caller. *)
Definition optimize_unroll (max_iter : nat) (grad strict : bool) (z : Z0) (x : nat -> X) : option (info * (nat -> X)) :=
  match loop (3 * max_iter) max_iter grad false strict (loop_init z x (init_info x)) with
  | None => None
  | Some o => match outcome_state o with
              | None => None
              | Some s =>
                let f := l_info s in
                Some (with_converged_iter f (fun i => if status_eqb (i_status f i) MAX_ITERATIONS then (-1)%Z
                                                      else i_converged_iter f i), l_x s)
              end
  end.

(** the implicit and truncated modes; [bnum]: iterations with gradients, [nnum]: without *)
Definition optimize_two_loops (bnum nnum : nat) (implicit grad strict : bool) (z : Z0) (x : nat -> X)
  : option (info * (nat -> X)) :=
  match loop (3 * nnum) nnum false false strict (loop_init z x (init_info x)) with
  | None => None
  | Some o1 =>
    match outcome_state o1 with
    | None => None
    | Some s1 =>
      match loop (3 * bnum) bnum grad implicit strict (loop_init (l_z s1) (l_x s1) (init_info (l_x s1))) with
      | None => None
      | Some o2 =>
        match outcome_state o2 with
        | None => None
        | Some s2 => match merge_infos (l_info s2) (l_iters_done s1) (l_iters_done s2) (l_info s1) with
                     | None => None
                     | Some f => Some (f, l_x s2)
                     end
        end
      end
    end
  end.
End NL.
