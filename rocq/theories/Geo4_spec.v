(** Vocabulary for the rigid motions of space: 3x4 and 4x4 matrices, twists and
    6x6 matrices in blocks.  No code of /repo is modelled here. *)
From Coq Require Import Reals Lra.
From Verif Require Import Geo_spec Geo3_spec.
Local Open Scope R_scope.

(** a 3x4 matrix [ rr | rp ] *)
Record Rig := mkRig { rr : M3; rp : V3 }.
(** a 6-vector: linear part, angular part *)
Record Tw := mkTw { lin : V3; ang : V3 }.
(** 6x6 and 3x6 matrices in 3x3 blocks; l: linear, a: angular *)
Record M66 := mkM66 { mll : M3; mla : M3; mal : M3; maa : M3 }.
Record M36 := mkM36 { ml : M3; ma : M3 }.
(** a 4x4 matrix: the 3x3 block, the last column, the last row, the corner *)
Record M44 := mkM44 { q33 : M3; q31 : V3; q13 : V3; q11 : R }.

Lemma Rig_ext : forall g h, rr g = rr h -> rp g = rp h -> g = h.
Proof. intros [] []; cbn; intros; subst; reflexivity. Qed.
Lemma Tw_ext : forall g h, lin g = lin h -> ang g = ang h -> g = h.
Proof. intros [] []; cbn; intros; subst; reflexivity. Qed.
Lemma M66_ext : forall g h, mll g = mll h -> mla g = mla h -> mal g = mal h -> maa g = maa h -> g = h.
Proof. intros [] []; cbn; intros; subst; reflexivity. Qed.
Lemma M44_ext : forall g h, q33 g = q33 h -> q31 g = q31 h -> q13 g = q13 h -> q11 g = q11 h -> g = h.
Proof. intros [] []; cbn; intros; subst; reflexivity. Qed.

Definition madd (m n : M3) : M3 := mkM3
  (d00 m + d00 n) (d01 m + d01 n) (d02 m + d02 n)
  (d10 m + d10 n) (d11 m + d11 n) (d12 m + d12 n)
  (d20 m + d20 n) (d21 m + d21 n) (d22 m + d22 n).
Definition mzero : M3 := mkM3 0 0 0 0 0 0 0 0 0.
Definition colrow (u v : V3) : M3 := mkM3
  (b0 u * b0 v) (b0 u * b1 v) (b0 u * b2 v)
  (b1 u * b0 v) (b1 u * b1 v) (b1 u * b2 v)
  (b2 u * b0 v) (b2 u * b1 v) (b2 u * b2 v).

(** products *)
Definition mul44 (m n : M44) : M44 := mkM44
  (madd (mul3 (q33 m) (q33 n)) (colrow (q31 m) (q13 n)))
  (add3 (app3 (q33 m) (q31 n)) (scal3 (q11 n) (q31 m)))
  (add3 (app3 (tr3 (q33 n)) (q13 m)) (scal3 (q11 m) (q13 n)))
  (dot3 (q13 m) (q31 n) + q11 m * q11 n).
Definition I44 : M44 := mkM44 I3 zero3 zero3 1.
Definition mul66 (m n : M66) : M66 := mkM66
  (madd (mul3 (mll m) (mll n)) (mul3 (mla m) (mal n)))
  (madd (mul3 (mll m) (mla n)) (mul3 (mla m) (maa n)))
  (madd (mul3 (mal m) (mll n)) (mul3 (maa m) (mal n)))
  (madd (mul3 (mal m) (mla n)) (mul3 (maa m) (maa n))).
Definition I66 : M66 := mkM66 I3 mzero mzero I3.
Definition app66 (m : M66) (v : Tw) : Tw := mkTw
  (add3 (app3 (mll m) (lin v)) (app3 (mla m) (ang v)))
  (add3 (app3 (mal m) (lin v)) (app3 (maa m) (ang v))).
Definition tr66 (m : M66) : M66 := mkM66 (tr3 (mll m)) (tr3 (mal m)) (tr3 (mla m)) (tr3 (maa m)).
Definition opp66 (m : M66) : M66 := mkM66 (opp_m3 (mll m)) (opp_m3 (mla m)) (opp_m3 (mal m)) (opp_m3 (maa m)).
Definition app36 (m : M36) (v : Tw) : V3 := add3 (app3 (ml m) (lin v)) (app3 (ma m) (ang v)).
Definition tadd (u v : Tw) : Tw := mkTw (add3 (lin u) (lin v)) (add3 (ang u) (ang v)).
Definition tscal (t : R) (v : Tw) : Tw := mkTw (scal3 t (lin v)) (scal3 t (ang v)).
Definition tzero : Tw := mkTw zero3 zero3.

(** rigid motions, their 4x4 matrices, and the matrices of twists *)
Definition rigid3 (g : Rig) := rotation3 (rr g).
Definition hmat (g : Rig) : M44 := mkM44 (rr g) (rp g) zero3 1.
Definition se3_alg (v : Tw) : M44 := mkM44 (so3_alg (ang v)) (lin v) zero3 0.

(** derivatives entry by entry, and the matrix exponential *)
Definition deriv_m44 (f : R -> M44) (t : R) (l : M44) :=
  deriv_m3 (fun t => q33 (f t)) t (q33 l) /\ deriv3 (fun t => q31 (f t)) t (q31 l)
  /\ deriv3 (fun t => q13 (f t)) t (q13 l) /\ deriv (fun t => q11 (f t)) t (q11 l).
Definition is_exp_m44 (a m : M44) := exists G : R -> M44,
  G 0 = I44 /\ (forall t, deriv_m44 G t (mul44 (G t) a)) /\ G 1 = m.
Definition deriv6 (f : R -> Tw) (t : R) (l : Tw) :=
  deriv3 (fun t => lin (f t)) t (lin l) /\ deriv3 (fun t => ang (f t)) t (ang l).

(** the curve h of 3x4 matrices passes through g at time 0 with body velocity
    xi: the derivative of its 4x4 matrix there is that of g times hat(xi) *)
Definition moves6 (h : R -> Rig) (g : Rig) (xi : Tw) :=
  h 0 = g /\ deriv_m44 (fun t => hmat (h t)) 0 (mul44 (hmat g) (se3_alg xi)).

(** inner products, for gradients *)
Definition dot6 (u v : Tw) : R := dot3 (lin u) (lin v) + dot3 (ang u) (ang v).
Definition frob34 (g h : Rig) : R := frob (rr g) (rr h) + dot3 (rp g) (rp h).
Definition frob44 (m n : M44) : R :=
  frob (q33 m) (q33 n) + dot3 (q31 m) (q31 n) + dot3 (q13 m) (q13 n) + q11 m * q11 n.
Definition frob66 (m n : M66) : R :=
  frob (mll m) (mll n) + frob (mla m) (mla n) + frob (mal m) (mal n) + frob (maa m) (maa n).
Definition vsub6 (u v : Tw) : Tw := mkTw (sub3 (lin u) (lin v)) (sub3 (ang u) (ang v)).
