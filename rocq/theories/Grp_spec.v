(** C98: specification of compose, transform and untransform of SO3 and SE3 on batches. *)
From Coq Require Import List Arith Bool ZArith Reals.
From Verif Require Import RSum Act_model Act_base Grp_model.
Import ListNotations.
Local Open Scope nat_scope.

(** the six operations, their Jacobians and their backward functions *)
Inductive kind := Compose3 | Transform3 | Untransform3 | Compose4 | Transform4 | Untransform4.
Definition op_of (k : kind) : nd -> nd -> option nd := match k with
  | Compose3 => compose_so3 | Transform3 => transform_so3 | Untransform3 => untransform_so3
  | Compose4 => compose_se3 | Transform4 => transform_se3 | Untransform4 => untransform_se3 end.
Definition bwd_of (k : kind) : nd -> nd -> nd -> option (nd * nd) := match k with
  | Compose3 => compose_backward_so3 | Transform3 => transform_backward_so3 | Untransform3 => untransform_backward_so3
  | Compose4 => compose_backward_se3 | Transform4 => transform_backward_se3 | Untransform4 => untransform_backward_se3 end.
Definition jac_of (k : kind) : nd -> nd -> option ((nd * nd) * nd) := match k with
  | Compose3 => jcompose_so3 | Transform3 => jtransform_so3 | Untransform3 => juntransform_so3
  | Compose4 => jcompose_se3 | Transform4 => jtransform_se3 | Untransform4 => juntransform_se3 end.

(** the last dimensions of the group, of the second argument and of the result: 3x3 or 3x4 matrices, or points *)
Definition gdims (k : kind) : list nat := match k with Compose3 | Transform3 | Untransform3 => [3; 3] | _ => [3; 4] end.
Definition is_compose (k : kind) : bool := match k with Compose3 | Compose4 => true | _ => false end.
Definition tdims (k : kind) : list nat := if is_compose k then gdims k else [3].
Definition dof (k : kind) : nat := match k with Compose3 | Transform3 | Untransform3 => 3 | _ => 6 end.

(** matrices and points are functions of the list of their indices; the textbook formulas: R0 R1 (and R0 t1 + t0), R p (+ t), R^T p (or R^T (p - t)) *)
Definition formula (k : kind) (G T : list nat -> R) (y : list nat) : R :=
  match k, y with
  | Compose3, [i; j] => rsum 3 (fun l => G [i; l] * T [l; j])%R
  | Compose4, [i; j] => (rsum 3 (fun l => G [i; l] * T [l; j]) + (if j =? 3 then G [i; 3%nat] else 0))%R
  | Transform3, [i] => rsum 3 (fun l => G [i; l] * T [l])%R
  | Transform4, [i] => (rsum 3 (fun l => G [i; l] * T [l]) + G [i; 3%nat])%R
  | Untransform3, [i] => rsum 3 (fun l => G [l; i] * T [l])%R
  | Untransform4, [i] => rsum 3 (fun l => G [l; i] * (T [l] - G [l; 3%nat]))%R
  | _, _ => 0%R
  end.

(** the matrix (or point) of [t], of batch shape [B], that the position [bi] of a broadcast result is made of *)
Definition block (t : nd) (B bi : list nat) : list nat -> R := fun z => dat t (bidx B bi ++ z).
(** [r] holds, at every position of the batch shape [S], the formula of the blocks of [g] and [t] *)
Definition holds_blocks (k : kind) (A B S : list nat) (g t r : nd) : Prop :=
  sh r = S ++ tdims k /\ forall bi y, inr S bi -> inr (tdims k) y -> dat r (bi ++ y) = formula k (block g A bi) (block t B bi) y.
(** the shapes that fit: groups of matrices of the right size, and batch shapes that broadcast *)
Definition fits (k : kind) (A B S : list nat) (g t : nd) : Prop := sh g = A ++ gdims k /\ sh t = B ++ tdims k /\ bcast A B = Some S.

(** [bwd] is the gradient of [op] at [(g, t)], where it returns [r]: for every gradient of the output it returns gradients of the shapes of the
    inputs, and for every direction in which the inputs move, the output moves with a velocity [D] that pairs with the gradient of the output as
    the direction does with the gradients of the inputs.  (The operations are polynomials of degree two: [Q] is the rest.) *)
Definition gradient_of (op : nd -> nd -> option nd) (bwd : nd -> nd -> nd -> option (nd * nd)) (g t r : nd) : Prop :=
  forall grad, sh grad = sh r -> exists a b, bwd g t grad = Some (a, b) /\ sh a = sh g /\ sh b = sh t /\
  forall dG dT : list nat -> R, exists D Q : list nat -> R,
    (forall e, exists re, op (mkNd (sh g) (fun x => dat g x + e * dG x)%R) (mkNd (sh t) (fun x => dat t x + e * dT x)%R) = Some re /\ sh re = sh r /\
       forall x, inr (sh r) x -> dat re x = (dat r x + e * D x + e * e * Q x)%R) /\
    isum (sh r) (fun x => dat grad x * D x)%R = (isum (sh g) (fun x => dat a x * dG x) + isum (sh t) (fun x => dat b x * dT x))%R.

(** ** Jacobians *)
(** when the arguments of the formula move in the directions [dG], [dT], the result moves with velocity [D] *)
Definition moves (k : kind) (G T dG dT D : list nat -> R) : Prop := exists Q : list nat -> R, forall e y, inr (tdims k) y ->
  formula k (fun z => G z + e * dG z)%R (fun z => T z + e * dT z)%R y = (formula k G T y + e * D y + e * e * Q y)%R.
(** the entry of the cross product matrix of [w] *)
Definition cross (w : nat -> R) (i j : nat) : R := match i, j with
  | 0, 1 => Ropp (w 2) | 0, 2 => w 1 | 1, 0 => w 2 | 1, 2 => Ropp (w 0) | 2, 0 => Ropp (w 1) | 2, 1 => w 0 | _, _ => 0%R end.
(** the velocity of the group element [G] whose right (body) velocity is [v]: G v^; for SE3 the first three entries of [v] are the linear velocity *)
Definition body (k : kind) (G : list nat -> R) (v : nat -> R) (y : list nat) : R := match y with
  | [i; j] => match dof k with
    | 3 => rsum 3 (fun l => G [i; l] * cross v l j)%R
    | _ => if j =? 3 then rsum 3 (fun l => G [i; l] * v l)%R else rsum 3 (fun l => G [i; l] * cross (fun c => v (3 + c)%nat) l j)%R
    end
  | _ => 0%R
  end.
Definition point (v : nat -> R) (y : list nat) : R := match y with [i] => v i | _ => 0%R end.
(** velocities of the second argument and of the result: body velocities of groups, plain velocities of points *)
Definition second (k : kind) (T : list nat -> R) (v : nat -> R) : list nat -> R := if is_compose k then body k T v else point v.
Definition rdof (k : kind) : nat := if is_compose k then dof k else 3.
Definition ent (G : list nat -> R) (i j : nat) : R := G [i; j].
(** the rotation of a group element: orthonormal columns and determinant 1 *)
Definition is_rotation (G : list nat -> R) : Prop :=
  (forall i j, i < 3 -> j < 3 -> rsum 3 (fun l => G [l; i] * G [l; j])%R = (if i =? j then 1 else 0)%R) /\
  (ent G 0 0 * (ent G 1 1 * ent G 2 2 - ent G 1 2 * ent G 2 1) - ent G 0 1 * (ent G 1 0 * ent G 2 2 - ent G 1 2 * ent G 2 0) +
   ent G 0 2 * (ent G 1 0 * ent G 2 1 - ent G 1 1 * ent G 2 0) = 1)%R.
Definition times (J : nd) (bi : list nat) (n : nat) (v : nat -> R) (i : nat) : R := rsum n (fun c => dat J (bi ++ [i; c]) * v c)%R.
(** the Jacobians have the batch shape of the result, and map the (body) velocities of each argument to that of the result *)
Definition jacobians_of (k : kind) (A B S : list nat) (g t j0 j1 : nd) : Prop :=
  sh j0 = S ++ [rdof k; dof k] /\ sh j1 = S ++ [rdof k; rdof k] /\
  forall bi, inr S bi -> let G := block g A bi in let T := block t B bi in
    is_rotation G -> (is_compose k = true -> is_rotation T) -> forall v,
    moves k G T (body k G v) (fun _ => 0%R) (second k (formula k G T) (times j0 bi (dof k) v)) /\
    moves k G T (fun _ => 0%R) (second k T v) (second k (formula k G T) (times j1 bi (rdof k) v)).
