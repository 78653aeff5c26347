(** Vocabulary for AutoDiffCostFunction: error functions that act row by row, differentiability, and what correct Jacobians are.
    Independent of how the model computes them. *)
From Coq Require Import List Arith Reals.
Import ListNotations.
From Verif Require Import RSum Ad_model.
Local Open Scope R_scope.

(** row [b] of a tensor that torch broadcasts along the batch *)
Definition brow (b : nat) (t : tensor) : row := if (length t =? 1)%nat then nth 0 t [] else nth b t [].
(** these tensors broadcast to [n] rows *)
Definition broadcast (ts : list tensor) (n : nat) : Prop :=
  (exists t, In t ts /\ length t = n) /\ forall t, In t ts -> length t = n \/ length t = 1%nat.
(** the rows of the i-th tensor have [nth i ws] entries *)
Definition wide (ws : list nat) (ts : list tensor) : Prop := Forall2 (fun w t => forall r, In r t -> length r = w) ws ts.

(** The user's error function acts row by row: [E] gives one row of the error from one row of each variable. *)
Definition rowwise (err_fn : list tensor -> list tensor -> option tensor) (E : list row -> list row -> row) (wo wa : list nat) (dim : nat) : Prop :=
  (forall os aus n, wide wo os -> wide wa aus -> broadcast (os ++ aus) n ->
     err_fn os aus = Some (map (fun b => E (map (brow b) os) (map (brow b) aus)) (seq 0 n))) /\
  (forall rs aus, Forall2 (fun w r => length r = w) wo rs -> Forall2 (fun w r => length r = w) wa aus -> length (E rs aus) = dim).

(** [E] is (Frechet) differentiable in each optimization variable at the rows [os], [aus] *)
Definition differentiable (E : list row -> list row -> row) (dim : nat) (os aus : list row) : Prop :=
  forall k i, (k < length os)%nat -> (i < dim)%nat -> exists D : nat -> R, forall eps, 0 < eps -> exists d, 0 < d /\ forall r,
    let x := nth k os [] in
    length r = length x -> (forall j, Rabs (nth j r 0 - nth j x 0) < d) ->
    Rabs (nth i (E (modify k (fun _ => r) os) aus) 0 - nth i (E os aus) 0
          - rsum (length x) (fun j => D j * (nth j r 0 - nth j x 0)))
    <= eps * rsum (length x) (fun j => Rabs (nth j r 0 - nth j x 0)).

(** A manifold whose elements are rows of [m_width] numbers: the curve [m_retract x l t] leaves [x] along the l-th tangent direction. *)
Record manifold := mkManifold { m_width : nat; m_dof : nat; m_retract : row -> nat -> R -> row }.

(** project() of the variable [v] is the chain rule for the retraction at [x] *)
Definition projects (m : manifold) (v : var) (x : row) : Prop :=
  let proj g := match v_project v with None => g | Some p => p x g end in
  exists vel : nat -> nat -> R,
    (forall g, length g = m_width m -> length (proj g) = m_dof m) /\
    forall l, (l < m_dof m)%nat ->
      m_retract m x l 0 = x /\ (forall t, length (m_retract m x l t) = m_width m) /\
      (forall j, (j < m_width m)%nat -> derivable_pt_lim (fun t => nth j (m_retract m x l t) 0) 0 (vel l j)) /\
      forall g, length g = m_width m -> nth l (proj g) 0 = rsum (m_width m) (fun j => nth j g 0 * vel l j).

(** What a cost function has to return: for each optimization variable [n] matrices; entry (i, l) of the b-th one is the derivative
    of component i of the b-th error when the b-th value of the variable is retracted along the l-th tangent direction. *)
Definition exact_jacobians (E : list row -> list row -> row) (dim : nat) (ms : list manifold) (os aus : list tensor) (n : nat)
  (js : list (list (list row))) : Prop :=
  length js = length os /\ forall k m, nth_error ms k = Some m ->
    length (nth k js []) = n /\ forall b, (b < n)%nat ->
      length (nth b (nth k js []) []) = dim /\ forall i, (i < dim)%nat ->
        length (nth i (nth b (nth k js []) []) []) = m_dof m /\ forall l, (l < m_dof m)%nat ->
          derivable_pt_lim (fun t => nth i (E (modify k (fun x => m_retract m x l t) (map (brow b) os)) (map (brow b) aus)) 0) 0
            (nth l (nth i (nth b (nth k js []) []) []) 0).
