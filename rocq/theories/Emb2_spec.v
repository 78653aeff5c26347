(** Vocabulary for the remaining cost functions of theseus/embodied: moving
    poses of the plane, the pinhole camera,
    bilinear interpolation on a grid, Cholesky factors. *)
From Coq Require Import Reals List Arith.
From Verif Require Import Geo_spec Geo3_spec Geo4_spec RSum SE2_model.
Local Open Scope R_scope.

(** the pose h moves through g at time 0 with velocity xi in the frame of g, and is a pose
    (unit rotation part) around time 0 *)
Definition moves_se2 (h : R -> SE2) (g : SE2) (xi : V3) :=
  h 0 = g
  /\ deriv_m3 (fun t => se2_to_matrix (h t)) 0 (mul3 (se2_to_matrix g) (se2_alg xi))
  /\ exists r, 0 < r /\ forall t, Rabs t < r -> pc (h t) * pc (h t) + ps (h t) * ps (h t) = 1.
(** the coordinates of a twist and of a vector *)
Definition tw_at (v : Tw) (j : nat) : R := match j with
  | 0%nat => b0 (lin v) | 1%nat => b1 (lin v) | 2%nat => b2 (lin v)
  | 3%nat => b0 (ang v) | 4%nat => b1 (ang v) | _ => b2 (ang v) end.
Definition at3 (v : V3) (j : nat) : R := match j with 0%nat => b0 v | 1%nat => b1 v | _ => b2 v end.
(** [f] is defined around time 0 and has the values [u] there *)
Definition defined_near {A} (f : R -> option A) (u : R -> A) := exists r, 0 < r /\ forall t, Rabs t < r -> f t = Some (u t).

(** the image of the point (x, y, z) of the camera frame in a camera that looks along the negative z axis, with
    focal length f and radial distortion k1, k2 *)
Definition image_x (f k1 k2 x y z : R) : R :=
  let r2 := (x / z) ^ 2 + (y / z) ^ 2 in f * (1 + k1 * r2 + k2 * r2 ^ 2) * (- x / z).
Definition image_y (f k1 k2 x y z : R) : R :=
  let r2 := (x / z) ^ 2 + (y / z) ^ 2 in f * (1 + k1 * r2 + k2 * r2 ^ 2) * (- y / z).

(** bilinear interpolation of the values at the corners of a cell: [a] is the fraction along the rows, [b] along the columns *)
Definition bilinear (v00 v01 v10 v11 a b : R) : R :=
  (1 - a) * ((1 - b) * v00 + b * v01) + a * ((1 - b) * v10 + b * v11).

(** the rectangle spanned by a grid of points [cell] apart, the first one at (ox, oy) *)
Definition in_map (ox oy cell : R) (rows cols : nat) (p : V2) :=
  ox <= a0 p <= ox + (INR cols - 1) * cell /\ oy <= a1 p <= oy + (INR rows - 1) * cell.

(** strictly inside one of the squares of the grid *)
Definition inside_cell (ox oy cell : R) (rows cols : nat) (p : V2) := exists r c a b,
  (r + 1 < rows)%nat /\ (c + 1 < cols)%nat /\ 0 < a < 1 /\ 0 < b < 1
  /\ p = mkV2 (ox + (INR c + b) * cell) (oy + (INR r + a) * cell).
Definition dot2 (u v : V2) : R := a0 u * a0 v + a1 u * a1 v.

(** [L] is the n x n Cholesky factor of the matrix whose lower triangle is that of A *)
Definition is_cholesky (n : nat) (A L : nat -> nat -> R) :=
  (forall i j, (i < j < n)%nat -> L i j = 0) /\ (forall i, (i < n)%nat -> 0 < L i i)
  /\ forall i j, (j <= i < n)%nat -> rsum n (fun k => L i k * L j k) = A i j.
Definition symmetric (n : nat) (A : nat -> nat -> R) := forall i j, (i < n)%nat -> (j < n)%nat -> A i j = A j i.
Definition quad (n : nat) (A : nat -> nat -> R) (x : nat -> R) : R := rsum n (fun i => rsum n (fun j => x i * A i j * x j)).
Definition positive_definite (n : nat) (A : nat -> nat -> R) :=
  forall x, (exists i, (i < n)%nat /\ x i <> 0) -> 0 < quad n A x.
(** a factorization routine that reads the lower triangle of its argument and fails only if there is no factor *)
Definition factorizes (chol : nat -> (nat -> nat -> R) -> option (nat -> nat -> R)) := forall n A,
  match chol n A with Some L => is_cholesky n A L | None => forall L, ~ is_cholesky n A L end.
(** the symmetric matrix with the lower triangle of A *)
Definition lower_sym (A : nat -> nat -> R) (i j : nat) : R := if Nat.leb j i then A i j else A j i.
(** the covariance of (position, velocity) after time dt of white noise acceleration of covariance Qc *)
Definition gp_cov (n : nat) (dt : R) (Qc : nat -> nat -> R) (i j : nat) : R :=
  if Nat.ltb i n then (if Nat.ltb j n then dt ^ 3 / 3 * Qc i j else dt ^ 2 / 2 * Qc i (j - n)%nat)
  else (if Nat.ltb j n then dt ^ 2 / 2 * Qc (i - n)%nat j else dt * Qc (i - n)%nat (j - n)%nat).
(** A B = 1 (n x n) *)
Definition is_inverse (n : nat) (A B : nat -> nat -> R) := forall i j, (i < n)%nat -> (j < n)%nat ->
  rsum n (fun k => A i k * B k j) = if Nat.eqb i j then 1 else 0.
(** (position error, velocity error) as one vector *)
Definition stack (n : nat) (p v : nat -> R) (i : nat) : R := if Nat.ltb i n then p i else v (i - n)%nat.
(** p^T A v *)
Definition bilin (n : nat) (A : nat -> nat -> R) (p v : nat -> R) : R := rsum n (fun i => rsum n (fun j => p i * A i j * v j)).
