(** Small vectors and matrices with real entries, their products, and what it
    means for a curve of them to have a derivative.  No code of /repo is
    modelled here: this file is the vocabulary in which the properties of the
    Lie groups are stated. *)
From Coq Require Import Reals Lra.
Local Open Scope R_scope.

Record V2 := mkV2 { a0 : R; a1 : R }.
Record V3 := mkV3 { b0 : R; b1 : R; b2 : R }.
Record M2 := mkM2 { c00 : R; c01 : R; c10 : R; c11 : R }.
Record M3 := mkM3 { d00 : R; d01 : R; d02 : R;
                    d10 : R; d11 : R; d12 : R;
                    d20 : R; d21 : R; d22 : R }.
(** 2x3 matrices: Jacobians of planar points with respect to a pose *)
Record M23 := mkM23 { e00 : R; e01 : R; e02 : R; e10 : R; e11 : R; e12 : R }.

Lemma V2_ext : forall u v, a0 u = a0 v -> a1 u = a1 v -> u = v.
Proof. intros [? ?] [? ?]; cbn; intros; subst; reflexivity. Qed.
Lemma V3_ext : forall u v, b0 u = b0 v -> b1 u = b1 v -> b2 u = b2 v -> u = v.
Proof. intros [? ? ?] [? ? ?]; cbn; intros; subst; reflexivity. Qed.
Lemma M2_ext : forall u v, c00 u = c00 v -> c01 u = c01 v -> c10 u = c10 v -> c11 u = c11 v -> u = v.
Proof. intros [? ? ? ?] [? ? ? ?]; cbn; intros; subst; reflexivity. Qed.
Lemma M3_ext : forall u v,
  d00 u = d00 v -> d01 u = d01 v -> d02 u = d02 v ->
  d10 u = d10 v -> d11 u = d11 v -> d12 u = d12 v ->
  d20 u = d20 v -> d21 u = d21 v -> d22 u = d22 v -> u = v.
Proof. intros [] []; cbn; intros; subst; reflexivity. Qed.

Definition add2 (u v : V2) := mkV2 (a0 u + a0 v) (a1 u + a1 v).
Definition add3 (u v : V3) := mkV3 (b0 u + b0 v) (b1 u + b1 v) (b2 u + b2 v).
Definition scal2 (t : R) (v : V2) := mkV2 (t * a0 v) (t * a1 v).
Definition scal3 (t : R) (v : V3) := mkV3 (t * b0 v) (t * b1 v) (t * b2 v).
Definition opp3 (v : V3) := mkV3 (- b0 v) (- b1 v) (- b2 v).

Definition I2 := mkM2 1 0 0 1.
Definition I3 := mkM3 1 0 0 0 1 0 0 0 1.
Definition tr2 (m : M2) := mkM2 (c00 m) (c10 m) (c01 m) (c11 m).
Definition det2 (m : M2) := c00 m * c11 m - c01 m * c10 m.

Definition mul2 (m n : M2) := mkM2
  (c00 m * c00 n + c01 m * c10 n) (c00 m * c01 n + c01 m * c11 n)
  (c10 m * c00 n + c11 m * c10 n) (c10 m * c01 n + c11 m * c11 n).
Definition app2 (m : M2) (v : V2) := mkV2
  (c00 m * a0 v + c01 m * a1 v) (c10 m * a0 v + c11 m * a1 v).
Definition mul3 (m n : M3) := mkM3
  (d00 m * d00 n + d01 m * d10 n + d02 m * d20 n)
  (d00 m * d01 n + d01 m * d11 n + d02 m * d21 n)
  (d00 m * d02 n + d01 m * d12 n + d02 m * d22 n)
  (d10 m * d00 n + d11 m * d10 n + d12 m * d20 n)
  (d10 m * d01 n + d11 m * d11 n + d12 m * d21 n)
  (d10 m * d02 n + d11 m * d12 n + d12 m * d22 n)
  (d20 m * d00 n + d21 m * d10 n + d22 m * d20 n)
  (d20 m * d01 n + d21 m * d11 n + d22 m * d21 n)
  (d20 m * d02 n + d21 m * d12 n + d22 m * d22 n).
Definition app3 (m : M3) (v : V3) := mkV3
  (d00 m * b0 v + d01 m * b1 v + d02 m * b2 v)
  (d10 m * b0 v + d11 m * b1 v + d12 m * b2 v)
  (d20 m * b0 v + d21 m * b1 v + d22 m * b2 v).
Definition app23 (m : M23) (v : V3) := mkV2
  (e00 m * b0 v + e01 m * b1 v + e02 m * b2 v)
  (e10 m * b0 v + e11 m * b1 v + e12 m * b2 v).
Definition opp_m3 (m : M3) := mkM3 (- d00 m) (- d01 m) (- d02 m)
  (- d10 m) (- d11 m) (- d12 m) (- d20 m) (- d21 m) (- d22 m).
Definition det3 (m : M3) :=
  d00 m * (d11 m * d22 m - d12 m * d21 m)
  - d01 m * (d10 m * d22 m - d12 m * d20 m)
  + d02 m * (d10 m * d21 m - d11 m * d20 m).
Definition tr3 (m : M3) := mkM3 (d00 m) (d10 m) (d20 m)
  (d01 m) (d11 m) (d21 m) (d02 m) (d12 m) (d22 m).

(** derivative at [t] of a curve, entry by entry *)
Definition deriv (f : R -> R) (t l : R) := derivable_pt_lim f t l.
Definition deriv2 (f : R -> V2) (t : R) (l : V2) :=
  deriv (fun t => a0 (f t)) t (a0 l) /\ deriv (fun t => a1 (f t)) t (a1 l).
Definition deriv3 (f : R -> V3) (t : R) (l : V3) :=
  deriv (fun t => b0 (f t)) t (b0 l) /\ deriv (fun t => b1 (f t)) t (b1 l)
  /\ deriv (fun t => b2 (f t)) t (b2 l).
Definition deriv_m2 (f : R -> M2) (t : R) (l : M2) :=
  deriv (fun t => c00 (f t)) t (c00 l) /\ deriv (fun t => c01 (f t)) t (c01 l)
  /\ deriv (fun t => c10 (f t)) t (c10 l) /\ deriv (fun t => c11 (f t)) t (c11 l).
Definition deriv_m3 (f : R -> M3) (t : R) (l : M3) :=
  deriv (fun t => d00 (f t)) t (d00 l) /\ deriv (fun t => d01 (f t)) t (d01 l)
  /\ deriv (fun t => d02 (f t)) t (d02 l) /\ deriv (fun t => d10 (f t)) t (d10 l)
  /\ deriv (fun t => d11 (f t)) t (d11 l) /\ deriv (fun t => d12 (f t)) t (d12 l)
  /\ deriv (fun t => d20 (f t)) t (d20 l) /\ deriv (fun t => d21 (f t)) t (d21 l)
  /\ deriv (fun t => d22 (f t)) t (d22 l).

(** [m] is the exponential of the square matrix [a]: the value at time 1 of the
    curve that starts at the identity and whose velocity at every time is
    itself times [a]. *)
Definition is_exp_m2 (a m : M2) := exists G : R -> M2,
  G 0 = I2 /\ (forall t, deriv_m2 G t (mul2 (G t) a)) /\ G 1 = m.
Definition is_exp_m3 (a m : M3) := exists G : R -> M3,
  G 0 = I3 /\ (forall t, deriv_m3 G t (mul3 (G t) a)) /\ G 1 = m.

(** the Lie algebra of the planar rigid motions, in the coordinates
    (ux, uy, theta), and of the planar rotations *)
Definition so2_alg (w : R) := mkM2 0 (- w) w 0.
Definition se2_alg (v : V3) := mkM3 0 (- b2 v) (b0 v) (b2 v) 0 (b1 v) 0 0 0.
(** the matrix of the planar rigid motion that rotates by [R] and translates *)
Definition rigid2 (r : M2) (p : V2) := mkM3 (c00 r) (c01 r) (a0 p) (c10 r) (c11 r) (a1 p) 0 0 1.
Definition rotation2 (r : M2) := mul2 (tr2 r) r = I2 /\ det2 r = 1.
