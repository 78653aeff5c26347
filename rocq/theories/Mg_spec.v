(** What Gaussians on the LieGroup classes and their tangent planes mean.
    [valid]: elements of the group.  [moves h g xi]: the curve h of elements
    passes through g at time 0 with the velocity xi, in the convention of
    retract (the matrix of the curve has derivative (matrix of g)(matrix of xi),
    as in Emb_spec.v).  [angle v]: the rotation angle of the tangent vector v.
    [threshold]: angles between zero and this one use series instead of the
    exact formulas. *)
From Coq Require Import Reals List Arith.
From Verif Require Import Geo_spec Geo3_spec Geo4_spec RSum SE2_model SO3_model SE3_model Mg_model.
Local Open Scope R_scope.

Record Meaning (G : LieClass) := mkMeaning {
  valid : elt G -> Prop;
  same : elt G -> elt G -> Prop;
  moves : (R -> elt G) -> elt G -> vec -> Prop;
  angle : vec -> R;
  threshold : R }.
Arguments valid {G} _ _.
Arguments same {G} _ _ _.
Arguments moves {G} _ _ _ _.
Arguments angle {G} _ _.
Arguments threshold {G} _.

Definition vector_meaning (n : nat) : Meaning (vector_class n) := mkMeaning (vector_class n)
  (fun _ => True)
  (fun g h => forall i, (i < n)%nat -> g i = h i)
  (fun h g xi => forall i, (i < n)%nat -> h 0 i = g i /\ deriv (fun t => h t i) 0 (xi i))
  (fun _ => 0) 0.
Definition so2_meaning : Meaning so2_class := mkMeaning so2_class
  (fun g => co g * co g + si g * si g = 1) eq
  (fun h g xi => h 0 = g /\ deriv_m2 (fun t => so2_to_matrix (h t)) 0 (mul2 (so2_to_matrix g) (so2_alg (xi 0%nat))))
  (fun v => Rabs (v 0%nat)) 0.
Definition se2_meaning (d : dtype) : Meaning (se2_class d) := mkMeaning (se2_class d)
  (fun g => pc g * pc g + ps g * ps g = 1) eq
  (fun h g xi => h 0 = g /\ deriv_m3 (fun t => se2_to_matrix (h t)) 0 (mul3 (se2_to_matrix g) (se2_alg (v3_of xi))))
  (fun v => Rabs (v 2%nat)) (se2_near_zero_eps d).
Definition so3_meaning (d : dtype) : Meaning (so3_class d) := mkMeaning (so3_class d)
  rotation3 eq
  (fun h g xi => h 0 = g /\ deriv_m3 h 0 (mul3 g (so3_alg (v3_of xi))))
  (fun v => len3 (v3_of v)) (so3_near_zero_eps d).
Definition se3_meaning (d : dtype) : Meaning (se3_class d) := mkMeaning (se3_class d)
  rigid3 eq
  (fun h g xi => h 0 = g /\ deriv_m44 (fun t => hmat (h t)) 0 (mul44 (hmat g) (se3_alg (tw_of xi))))
  (fun v => len3 (ang (tw_of v))) (so3_near_zero_eps d).

(** the LieGroup classes of theseus *)
Inductive theseus_class : forall G, Meaning G -> Prop :=
| MVector : forall n, theseus_class (vector_class n) (vector_meaning n)
| MSO2 : theseus_class so2_class so2_meaning
| MSE2 : forall d, theseus_class (se2_class d) (se2_meaning d)
| MSO3 : forall d, theseus_class (so3_class d) (so3_meaning d)
| MSE3 : forall d, theseus_class (se3_class d) (se3_meaning d).

(** less than a half turn, and either no rotation or above the threshold *)
Definition regular {G} (M : Meaning G) (v : vec) :=
  angle M v < PI /\ (angle M v = 0 \/ threshold M < angle M v).

(** the quadratic form x^T P x, in n dimensions: (up to a constant) minus twice
    the log density at displacement x from the mean *)
Definition quad (n : nat) (P : mat) (x : vec) : R := rsum n (fun i => rsum n (fun j => x i * P i j * x j)).
Definition symmetric (n : nat) (P : mat) := forall i j, (i < n)%nat -> (j < n)%nat -> P i j = P j i.
Definition same_mat (n : nat) (P Q : mat) := forall i j, (i < n)%nat -> (j < n)%nat -> P i j = Q i j.
Definition same_vec (n : nat) (u v : vec) := forall i, (i < n)%nat -> u i = v i.
(** B is the inverse of A *)
Definition inverse_of (n : nat) (A B : mat) := forall i j, (i < n)%nat -> (j < n)%nat ->
  rsum n (fun k => A i k * B k j) = (if (i =? j)%nat then 1 else 0)
  /\ rsum n (fun k => B i k * A k j) = (if (i =? j)%nat then 1 else 0).
(** what torch.inverse guarantees *)
Definition inverts (inv : nat -> mat -> option mat) :=
  forall n A, (forall B, inv n A = Some B -> inverse_of n A B)
           /\ ((exists B, inverse_of n A B) -> inv n A <> None).
