(** What differentiation means for each LieGroup subclass: which values are
    elements of the group, when a curve of elements passes through an element
    with a given velocity, and derivatives of curves of tangent vectors.  The
    velocity of a curve through g is the tangent vector xi such that the curve's
    matrix has derivative (matrix of g) times (matrix of xi), the convention of
    retract (C48_retract_velocity, C36_retract_velocity, C37_retract_velocity).
    [regular g]: log_map is differentiable at g and its Jacobian is one of the
    exact formulas: rotation angle at least the small-angle threshold and below
    pi, or no rotation at all.  [one] is the identity element. *)
From Coq Require Import Reals List Arith.
From Verif Require Import Geo_spec Geo3_spec Geo4_spec RSum SE2_model SO3_model SE3_model Emb_model.
Local Open Scope R_scope.

Record Calculus (G : LieGroup) := mkCalculus {
  is_elt : elt G -> Prop;
  passes : (R -> elt G) -> elt G -> tangent G -> Prop;
  tderiv : (R -> tangent G) -> tangent G -> Prop;
  japp : jacobian G -> tangent G -> tangent G;
  tplus : tangent G -> tangent G -> tangent G;
  teq : tangent G -> tangent G -> Prop;
  regular : elt G -> Prop;
  one : elt G }.
Arguments is_elt {G} _ _.
Arguments passes {G} _ _ _ _.
Arguments tderiv {G} _ _ _.
Arguments japp {G} _ _ _.
Arguments tplus {G} _ _ _.
Arguments teq {G} _ _ _.
Arguments regular {G} _ _.
Arguments one {G} _.

(** matrix times vector *)
Definition vec_app (n : nat) (A : nat -> nat -> R) (v : nat -> R) (i : nat) : R := rsum n (fun j => A i j * v j).
Definition vector_calculus (n : nat) : Calculus (vector_group n) := mkCalculus (vector_group n)
  (fun _ => True)
  (fun h g xi => forall i, (i < n)%nat -> h 0 i = g i /\ deriv (fun t => h t i) 0 (xi i))
  (fun u l => forall i, (i < n)%nat -> deriv (fun t => u t i) 0 (l i))
  (vec_app n)
  (fun u v i => u i + v i)
  (fun u v => forall i, (i < n)%nat -> u i = v i)
  (fun _ => True)
  (fun _ => 0).
Definition so2_calculus : Calculus so2_group := mkCalculus so2_group
  (fun g => co g * co g + si g * si g = 1)
  (fun h g xi => h 0 = g /\ deriv_m2 (fun t => so2_to_matrix (h t)) 0 (mul2 (so2_to_matrix g) (so2_alg xi)))
  (fun u l => deriv u 0 l)
  Rmult Rplus eq
  (fun g => co g <> -1)
  (mkSO2 1 0).
Definition se2_calculus (d : dtype) : Calculus (se2_group d) := mkCalculus (se2_group d)
  (fun g => pc g * pc g + ps g * ps g = 1)
  (fun h g xi => h 0 = g /\ deriv_m3 (fun t => se2_to_matrix (h t)) 0 (mul3 (se2_to_matrix g) (se2_alg xi)))
  (fun u l => deriv3 u 0 l)
  app3 add3 eq
  (fun g => exists th, pc g = cos th /\ ps g = sin th
     /\ (se2_d_near_zero_eps d <= Rabs th < PI \/ th = 0))
  (mkSE2 0 0 1 0).
Definition so3_calculus (d : dtype) : Calculus (so3_group d) := mkCalculus (so3_group d)
  rotation3
  (fun h g xi => h 0 = g /\ deriv_m3 h 0 (mul3 g (so3_alg xi)))
  (fun u l => deriv3 u 0 l)
  app3 add3 eq
  (fun g => exists th, rot_angle g th /\ (so3_d_near_zero_eps d <= th < PI \/ th = 0))
  I3.
Definition se3_calculus (d : dtype) : Calculus (se3_group d) := mkCalculus (se3_group d)
  rigid3
  (fun h g xi => h 0 = g /\ deriv_m44 (fun t => hmat (h t)) 0 (mul44 (hmat g) (se3_alg xi)))
  (fun u l => deriv6 u 0 l)
  app66 tadd eq
  (fun g => exists th, rot_angle (rr g) th /\ (so3_d_near_zero_eps d <= th < PI \/ th = 0))
  (mkRig I3 zero3).

(** the LieGroup classes of theseus *)
Inductive theseus_group : forall G, Calculus G -> Prop :=
| TVector : forall n, theseus_group (vector_group n) (vector_calculus n)
| TSO2 : theseus_group so2_group so2_calculus
| TSE2 : forall d, theseus_group (se2_group d) (se2_calculus d)
| TSO3 : forall d, theseus_group (so3_group d) (so3_calculus d)
| TSE3 : forall d, theseus_group (se3_group d) (se3_calculus d).

(** the commutative ones *)
Inductive commutative_group : forall G, Calculus G -> Prop :=
| CVector : forall n, commutative_group (vector_group n) (vector_calculus n)
| CSO2 : commutative_group so2_group so2_calculus.

(** the curve [h] of elements passes through [g] with velocity [xi] and stays
    in the group around time 0 *)
Definition curve {G} (C : Calculus G) (r : R) (h : R -> elt G) (g : elt G) (xi : tangent G) :=
  passes C h g xi /\ forall t, Rabs t < r -> is_elt C (h t).
