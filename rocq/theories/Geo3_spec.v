(** Vocabulary for the spatial groups: cross products, rotations of space,
    quaternions, rigid motions of space and 4x4 matrices.  No code of /repo is
    modelled here. *)
From Coq Require Import Reals Lra.
From Verif Require Import Geo_spec.
Local Open Scope R_scope.

Definition cross (u v : V3) : V3 := mkV3
  (b1 u * b2 v - b2 u * b1 v) (b2 u * b0 v - b0 u * b2 v) (b0 u * b1 v - b1 u * b0 v).
Definition dot3 (u v : V3) : R := b0 u * b0 v + b1 u * b1 v + b2 u * b2 v.
Definition len3 (v : V3) : R := sqrt (dot3 v v).
Definition sub3 (u v : V3) : V3 := mkV3 (b0 u - b0 v) (b1 u - b1 v) (b2 u - b2 v).
Definition zero3 : V3 := mkV3 0 0 0.

(** the matrix of p |-> v x p *)
Definition so3_alg (v : V3) : M3 := mkM3
  0 (- b2 v) (b1 v)
  (b2 v) 0 (- b0 v)
  (- b1 v) (b0 v) 0.
Lemma so3_alg_cross : forall v p, app3 (so3_alg v) p = cross v p.
Proof. intros. apply V3_ext; cbn; ring. Qed.

(** orthogonal matrices, and rotations of space *)
Definition orthogonal3 (m : M3) := mul3 (tr3 m) m = I3.
Definition rotation3 (m : M3) := orthogonal3 m /\ det3 m = 1.

(** entrywise inner product and squared distance of matrices *)
Definition frob (m n : M3) : R :=
  d00 m * d00 n + d01 m * d01 n + d02 m * d02 n
  + d10 m * d10 n + d11 m * d11 n + d12 m * d12 n
  + d20 m * d20 n + d21 m * d21 n + d22 m * d22 n.
Definition sub_m3 (m n : M3) := mkM3
  (d00 m - d00 n) (d01 m - d01 n) (d02 m - d02 n)
  (d10 m - d10 n) (d11 m - d11 n) (d12 m - d12 n)
  (d20 m - d20 n) (d21 m - d21 n) (d22 m - d22 n).
Definition dist2_m3 (m n : M3) : R := frob (sub_m3 m n) (sub_m3 m n).
(** every entry of m is within e of the same entry of n *)
Definition near_m3 (e : R) (m n : M3) :=
  Rabs (d00 m - d00 n) <= e /\ Rabs (d01 m - d01 n) <= e /\ Rabs (d02 m - d02 n) <= e
  /\ Rabs (d10 m - d10 n) <= e /\ Rabs (d11 m - d11 n) <= e /\ Rabs (d12 m - d12 n) <= e
  /\ Rabs (d20 m - d20 n) <= e /\ Rabs (d21 m - d21 n) <= e /\ Rabs (d22 m - d22 n) <= e.

(** quaternions w + x i + y j + z k *)
Record Quat := mkQ { qw : R; qx : R; qy : R; qz : R }.
Lemma Quat_ext : forall p q, qw p = qw q -> qx p = qx q -> qy p = qy q -> qz p = qz q -> p = q.
Proof. intros [] []; cbn; intros; subst; reflexivity. Qed.
Definition qmul (p q : Quat) : Quat := mkQ
  (qw p * qw q - qx p * qx q - qy p * qy q - qz p * qz q)
  (qw p * qx q + qx p * qw q + qy p * qz q - qz p * qy q)
  (qw p * qy q - qx p * qz q + qy p * qw q + qz p * qx q)
  (qw p * qz q + qx p * qy q - qy p * qx q + qz p * qw q).
Definition qconj (q : Quat) : Quat := mkQ (qw q) (- qx q) (- qy q) (- qz q).
Definition qnorm2 (q : Quat) : R := qw q * qw q + qx q * qx q + qy q * qy q + qz q * qz q.
Definition qpure (p : V3) : Quat := mkQ 0 (b0 p) (b1 p) (b2 p).
Definition qadd (p q : Quat) : Quat := mkQ (qw p + qw q) (qx p + qx q) (qy p + qy q) (qz p + qz q).
Definition qscal (t : R) (q : Quat) : Quat := mkQ (t * qw q) (t * qx q) (t * qy q) (t * qz q).

(** a linear map and its adjoint for the inner products above: [back] is the
    vector-Jacobian product of the linear map [lin] *)
Definition vjp_vv (lin back : V3 -> V3) := forall g u, dot3 g (lin u) = dot3 (back g) u.
Definition vjp_mv (lin : V3 -> M3) (back : M3 -> V3) := forall g u, frob g (lin u) = dot3 (back g) u.
Definition vjp_vm (lin : M3 -> V3) (back : V3 -> M3) := forall g u, dot3 g (lin u) = frob (back g) u.
Definition vjp_mm (lin back : M3 -> M3) := forall g u, frob g (lin u) = frob (back g) u.

(** the curve h of matrices passes through g at time 0 with body velocity xi:
    its derivative there is g hat(xi) *)
Definition moves (h : R -> M3) (g : M3) (xi : V3) :=
  h 0 = g /\ deriv_m3 h 0 (mul3 g (so3_alg xi)).
(** the product of a 3x4 matrix, given as its first column and the other three,
    with a quaternion taken as a 4-vector *)
Definition app34 (m : V3 * M3) (q : Quat) : V3 :=
  add3 (scal3 (qw q) (fst m)) (app3 (snd m) (mkV3 (qx q) (qy q) (qz q))).
(** the diagonal matrix, and singular value decompositions u diag(s) v^T *)
Definition diag3 (s : V3) : M3 := mkM3 (b0 s) 0 0 0 (b1 s) 0 0 0 (b2 s).
Definition svd3 (m u : M3) (s : V3) (v : M3) :=
  orthogonal3 u /\ orthogonal3 v /\ b1 s <= b0 s /\ b2 s <= b1 s /\ 0 <= b2 s
  /\ m = mul3 (mul3 u (diag3 s)) (tr3 v).
(** th is the angle of the rotation g, between 0 and pi *)
Definition rot_angle (g : M3) (th : R) :=
  0 <= th <= PI /\ cos th = (d00 g + d11 g + d22 g - 1) / 2.
