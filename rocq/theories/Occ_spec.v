(** Specification for C83: distances between points of the plane and centres of cells. *)
From Coq Require Import Reals List Arith Bool Rgeom.
From Verif Require Import Geo_spec Geo3_spec Geo4_spec Emb2_model.
Local Open Scope R_scope.

(** Euclidean distance (Coq's Rgeom) *)
Definition dist (p q : V2) : R := dist_euc (a0 p) (a1 p) (a0 q) (a1 q).
(** the centre of the cell in row [r] and column [c]: the position of the grid point in C60 *)
Definition centre (ox oy cell : R) (r c : nat) : V2 := mkV2 (ox + INR c * cell) (oy + INR r * cell).
(** the cell is occupied or free *)
Definition occ (threshold : R) (rows cols : nat) (m : nat -> nat -> R) (r c : nat) : Prop :=
  (r < rows)%nat /\ (c < cols)%nat /\ threshold < m r c.
Definition free (threshold : R) (rows cols : nat) (m : nat -> nat -> R) (r c : nat) : Prop :=
  (r < rows)%nat /\ (c < cols)%nat /\ m r c <= threshold.
(** [d] is the distance from [p] to the nearest centre of a cell of the set [S] *)
Definition nearest (ox oy cell d : R) (p : V2) (S : nat -> nat -> Prop) : Prop :=
  (exists r c, S r c /\ d = dist p (centre ox oy cell r c)) /\ (forall r c, S r c -> d <= dist p (centre ox oy cell r c)).
(** the square covered by a cell *)
Definition in_cell (ox oy cell : R) (r c : nat) (p : V2) : Prop :=
  Rabs (a0 p - (ox + INR c * cell)) <= cell / 2 /\ Rabs (a1 p - (oy + INR r * cell)) <= cell / 2.
