(** Model of the steps that autograd sees in the backward modes of the
    nonlinear least squares optimizers and of TheseusLayer, for one batch
    element.  The state [S] holds the values of all optimization variables,
    [th] the entries of the tensors that are differentiated (auxiliary
    variables, weights), flattened.  Autograd itself is not modelled: what it
    returns is the derivative of the output as a function of [th], tensors under
    no_grad or detached being constants, so these functions take such tensors as
    separate arguments.  Exceptions are [None]. *)
From Coq Require Import Reals List Arith Bool.
From Verif Require Import RSum.
Import ListNotations.
Local Open Scope R_scope.

Definition vec := nat -> R.
Definition mat := nat -> nat -> R.

(** objective.py (error vector), dense_linearization.py:29-56 / sparse_linearization.py (the stacked Jacobian A = [jac] and b = - [err]),
    objective.py:847-899 (retract_vars_sequence): an objective over one batch element *)
Record Problem (S : Type) := mkProblem {
  dofs : nat;                      (* columns of A *)
  dims : nat;                      (* rows of A *)
  err : S -> vec -> vec;
  jac : S -> vec -> mat;
  retract : S -> vec -> S }.
Arguments dofs {S}. Arguments dims {S}. Arguments err {S}. Arguments jac {S}. Arguments retract {S}.

(** objective.py:37-38 (error_squared_norm_fn) *)
Definition error_metric {S} (p : Problem S) (x : S) (th : vec) : R := rsum (dims p) (fun i => err p x th i * err p x th i) / 2.
(** dense_linearization.py:58-62 (_linearize_hessian_impl): AtA and Atb *)
Definition AtA {S} (p : Problem S) (x : S) (th : vec) (c c' : nat) : R := rsum (dims p) (fun i => jac p x th i c * jac p x th i c').
Definition Atb {S} (p : Problem S) (x : S) (th : vec) (c : nat) : R := rsum (dims p) (fun i => jac p x th i c * - err p x th i).
(** dense_solver.py:38-65 (_apply_damping) for a number: ellipsoidal adds damping * diagonal + eps, otherwise damping *)
Definition damped_matrix (damping : option (R * bool * R)) (M : mat) (c c' : nat) : R :=
  match damping with
  | None => M c c'
  | Some (lam, true, eps) => M c c' + (if Nat.eqb c c' then lam * M c c + eps else 0)
  | Some (lam, false, _) => M c c' + (if Nat.eqb c c' then lam else 0)
  end.

Section Steps.
Context {S : Type} (p : Problem S).
(** the linear solver: [solve n A b] is the solution or a RuntimeError *)
Variable solve : nat -> mat -> vec -> option vec.

(** nonlinear_least_squares.py:112-187 with gauss_newton.py (compute_delta) or levenberg_marquardt.py (fixed damping): one accepted iteration
    of UNROLL, TRUNCATED (or DLM's forward pass) *)
Definition unroll_step (damping : option (R * bool * R)) (step_size : R) (x : S) (th : vec) : option S :=
  match solve (dofs p) (damped_matrix damping (AtA p x th)) (Atb p x th) with
  | Some d => Some (retract p x (fun c => d c * step_size))
  | None => None
  end.
(** nonlinear_least_squares.py:265-286: the iterations of the second loop in TRUNCATED mode; [x] comes out of the no_grad loop.
    [k] is the number of iterations this batch element takes part in: at most backward_num_iterations, fewer when it converges *)
Fixpoint truncated (k : nat) (damping : option (R * bool * R)) (step_size : R) (x : S) (th : vec) : option S :=
  match k with
  | O => Some x
  | Datatypes.S k => match truncated k damping step_size x th with
                     | Some y => unroll_step damping step_size y th
                     | None => None
                     end
  end.
(** nonlinear_least_squares.py:112-187 with _last_implicit_diff_step: AtA is detached (evaluated at [th0], the value of [th]), the
    step size is 1 unless __keep_final_step_size__; a failing solve falls back to the optimizer's own step [fallback] unless
    __strict_implicit_final_gn__ *)
Definition implicit_step (keep strict : bool) (step_size : R) (fallback : S -> vec -> option vec) (x : S) (th0 th : vec) : option S :=
  let delta := match solve (dofs p) (AtA p x th0) (Atb p x th) with
               | Some d => Some d
               | None => if strict then None else fallback x th
               end in
  match delta with
  | Some d => Some (retract p x (fun c => d c * (if keep then step_size else 1)))
  | None => None
  end.

(** ** TheseusLayer with backward_mode = DLM *)
(** [entries x]: the [q] entries of all optimization variable tensors; [proj x]: what project() makes of the identity *)
Variable q : nat.
Variable entries : S -> vec.
Variable proj : S -> mat.
(** theseus_layer.py:305-313 (_DLMPerturbation.error, all variables) *)
Definition dlm_error (epsilon : R) (g : vec) (x : S) (e : nat) : R := sqrt 2 * (epsilon * entries x e - / 2 * g e).
(** theseus_layer.py:315-324 (_DLMPerturbation.jacobians) *)
Definition dlm_jac (epsilon : R) (x : S) (e j : nat) : R := sqrt 2 * (epsilon * proj x e j).
(** theseus_layer.py:339-363 (_instantiate_dlm_bwd_objective): the objective with one perturbation per optimization variable *)
Definition bwd_objective (epsilon : R) (g : vec) : Problem S := mkProblem S (dofs p) (dims p + q)%nat
  (fun x th i => if Nat.ltb i (dims p) then err p x th i else dlm_error epsilon g x (i - dims p))
  (fun x th i j => if Nat.ltb i (dims p) then jac p x th i j else dlm_jac epsilon x (i - dims p) j)
  (retract p).
(** theseus_layer.py:238-265 (TheseusLayerDLMForward.backward): one Gauss-Newton step of that objective from the solution [x] *)
Definition dlm_perturbed (epsilon : R) (g : vec) (x : S) (th : vec) : option S :=
  let b := bwd_objective epsilon g in
  match solve (dofs b) (AtA b x th) (Atb b x th) with
  | Some d => Some (retract b x d)
  | None => None
  end.
(** theseus_layer.py:215-221, 267-280: the gradients.  [grad_sol x th] and [grad_perturbed epsilon g x th] are what autograd.grad
    returns for error_metric().sum() of the two objectives *)
Definition dlm_grad (grad_sol : S -> vec -> vec) (grad_perturbed : R -> vec -> S -> vec -> vec)
  (epsilon : R) (g : vec) (x : S) (th : vec) : option vec :=
  match dlm_perturbed epsilon g x th with
  | Some y => Some (fun a => (grad_sol x th a - grad_perturbed epsilon g y th a) / epsilon)
  | None => None
  end.
End Steps.

(** theseus_layer.py:44-97 (forward): unpacking zip of input_tensors.items() in DLM mode; the names given to the objective *)
Inductive forward_args (K V : Type) := UpdateWith (inputs : list (K * V)) | Raises.
Arguments UpdateWith {K V}. Arguments Raises {K V}.
Definition layer_inputs {K V : Type} (dlm : bool) (input_tensors : option (list (K * V))) : forward_args K V :=
  if dlm then match input_tensors with
              | None => Raises                           (* None.items(): AttributeError *)
              | Some [] => Raises                        (* unpacking an empty zip: ValueError *)
              | Some l => UpdateWith l
              end
  else UpdateWith (match input_tensors with Some l => l | None => [] end).
