(** Specification of the soft selection of the N largest of nx numbers (the limited multi-label projection). *)
From Coq Require Import Reals Arith List Permutation Sorted.
From Verif Require Import RSum Adj_props.
Local Open Scope R_scope.

(** z is admissible: every z i between 0 and 1, summing to N *)
Definition admissible (N nx : nat) (z : nat -> R) : Prop :=
  (forall i, (i < nx)%nat -> 0 <= z i <= 1) /\ rsum nx z = INR N.
(** minus the total score minus the binary entropy (0 ln 0 = 0: ln 0 is 0 in the library) *)
Definition lml_cost (nx : nat) (x z : nat -> R) : R :=
  - dot nx x z + rsum nx (fun i => z i * ln (z i) + (1 - z i) * ln (1 - z i)).
(** y is the soft selection of the N largest of x *)
Definition soft_top (N nx : nat) (x y : nat -> R) : Prop :=
  admissible N nx y /\ forall z, admissible N nx z -> lml_cost nx x y <= lml_cost nx x z.
(** all differences between entries are at most [s] *)
Definition spread (nx : nat) (x : nat -> R) (s : R) : Prop := forall i j, (i < nx)%nat -> (j < nx)%nat -> x i - x j <= s.

(** ** the cross entropy method *)

Definition sum_over (E : list nat) (g : nat -> R) : R := fold_right (fun i s => g i + s) 0 E.
(** E: the m best samples, no sample outside it has a smaller error than one in it *)
Definition elite (n m : nat) (f : nat -> R) (E : list nat) : Prop :=
  NoDup E /\ length E = m /\ (forall i, In i E -> (i < n)%nat) /\ (forall i k, In i E -> (k < n)%nat -> ~ In k E -> f i <= f k).
(** what argsort returns: all indices, errors not decreasing *)
Definition sorts (n : nat) (f : nat -> R) (order : list nat) : Prop :=
  Permutation.Permutation order (seq 0 n) /\ Sorted.StronglySorted (fun i k => f i <= f k) order.
(** w is a probability distribution that prefers smaller errors *)
Definition prefers (n : nat) (f w : nat -> R) : Prop :=
  (forall i, (i < n)%nat -> 0 < w i) /\ rsum n w = 1 /\ (forall i k, (i < n)%nat -> (k < n)%nat -> f i < f k -> w k < w i).
