(** What the backward modes are compared with: derivatives along curves of
    states and parameters, solution curves.  No code of /repo is modelled here. *)
From Coq Require Import Reals List Arith.
From Verif Require Import RSum Adj_props Adj_diff Bwd_model.
Local Open Scope R_scope.

(** a curve of tangent vectors that starts at 0 with velocity [v] *)
Definition starts (n : nat) (d : R -> vec) (v : vec) : Prop :=
  (forall c, (c < n)%nat -> d 0 c = 0) /\ has_derivative n d v.
(** the linear solver never returns a wrong solution *)
Definition sound (solve : nat -> mat -> vec -> option vec) : Prop :=
  forall n A b x, solve n A b = Some x -> solves n A x b.
(** the gradient of the error metric with respect to the state vanishes *)
Definition stationary {S} (p : Problem S) (x : S) (th : vec) : Prop :=
  forall c, (c < dofs p)%nat -> rsum (dims p) (fun i => err p x th i * jac p x th i c) = 0.

(** The error and the Jacobian are differentiable at the state [x] when the parameters move along [th]: if the state moves as
    retract x (d t) with velocity v, the error changes at the rate jac v (parameters fixed) or jac v + r', and the Jacobian at the
    rate K v + B. *)
Record smooth {S} (p : Problem S) (x : S) (th : R -> vec) (r' : vec) (B : mat) (K : nat -> nat -> nat -> R) : Prop := {
  sm_stay : forall d, (forall c, (c < dofs p)%nat -> d c = 0) -> retract p x d = x;
  sm_state : forall d v, starts (dofs p) d v -> forall i, (i < dims p)%nat ->
    derivable_pt_lim (fun t => err p (retract p x (d t)) (th 0) i) 0 (rsum (dofs p) (fun j => jac p x (th 0) i j * v j));
  sm_err : forall d v, starts (dofs p) d v -> forall i, (i < dims p)%nat ->
    derivable_pt_lim (fun t => err p (retract p x (d t)) (th t) i) 0 (rsum (dofs p) (fun j => jac p x (th 0) i j * v j) + r' i);
  sm_jac : forall d v, starts (dofs p) d v -> forall i j, (i < dims p)%nat -> (j < dofs p)%nat ->
    derivable_pt_lim (fun t => jac p (retract p x (d t)) (th t) i j) 0 (rsum (dofs p) (fun k => K i j k * v k) + B i j) }.
(** [x t]: solutions for the parameters th t, near t = 0, with velocity [v] seen from [x0] *)
Definition solution_curve {S} (p : Problem S) (x0 : S) (th : R -> vec) (d : R -> vec) (v : vec) : Prop :=
  starts (dofs p) d v /\ near0 (fun t => stationary p (retract p x0 (d t)) (th t)).
(** what the Gauss-Newton matrix leaves out of the second derivative of the error metric *)
Definition second_order {S} (p : Problem S) (x : S) (th : vec) (K : nat -> nat -> nat -> R) (c k : nat) : R :=
  rsum (dims p) (fun i => err p x th i * K i c k).
(** [output t], for t near 0, is the state retract x0 (d t), where d has velocity [v] *)
Definition output_velocity {S} (p : Problem S) (x0 : S) (output : R -> option S) (v : vec) : Prop :=
  exists d, starts (dofs p) d v /\ near0 (fun t => output t = Some (retract p x0 (d t))).

(** ** for DLM *)
(** [grad] is the gradient of f(th) at [th]: its product with any direction is the derivative *)
Definition is_gradient (np : nat) (f : vec -> R) (th : vec) (grad : vec) : Prop :=
  forall curve dir, (forall a, (a < np)%nat -> curve 0 a = th a) -> has_derivative np curve dir ->
    derivable_pt_lim (fun t => f (curve t)) 0 (dot np grad dir).
(** the entries of retract x (d t) change at the rate proj v *)
Definition entries_rate {S} (p : Problem S) (q : nat) (entries : S -> vec) (proj : mat) (x : S) : Prop :=
  forall d v, starts (dofs p) d v -> forall e, (e < q)%nat ->
    derivable_pt_lim (fun t => entries (retract p x (d t)) e) 0 (rsum (dofs p) (fun j => proj e j * v j)).
(** The rate at which each error component changes with the parameters (along the curve [th]) is itself differentiable in the
    state, with the derivative [B] of the Jacobian along [th]: symmetry of the mixed second derivatives. *)
Definition mixed {S} (p : Problem S) (x : S) (th : R -> vec) (B : mat) : Prop :=
  exists rate : S -> vec,
    (forall y i, (i < dims p)%nat -> derivable_pt_lim (fun t => err p y (th t) i) 0 (rate y i))
    /\ forall d v, starts (dofs p) d v -> forall i, (i < dims p)%nat ->
       derivable_pt_lim (fun t => rate (retract p x (d t)) i) 0 (rsum (dofs p) (fun j => B i j * v j)).
