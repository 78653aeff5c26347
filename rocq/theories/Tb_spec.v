(** Vocabulary of C87: what it means for a batched result to be, item by item,
    a function of the operands' items, with batches of size 1 repeated. *)
From Coq Require Import Reals List Arith.
From Verif Require Import Geo_spec SE2_model Tb_model.
Import ListNotations.
Local Open Scope R_scope.

(** sizes b1 and b2 broadcast to B *)
Definition bcast (b1 b2 B : nat) : Prop :=
  (b1 = b2 /\ B = b1) \/ (b1 = 1%nat /\ B = b2) \/ (b2 = 1%nat /\ B = b1).
(** the item of a batch of size b that takes part in item i of the result *)
Definition pick (b i : nat) : nat := if (b =? 1)%nat then 0%nat else i.

(** what a tensor holds *)
Definition is0 (t : ten) (v : R) : Prop := shp t = [] /\ at_ t [] = v.
Definition is1 (t : ten) (n : nat) (f : nat -> R) : Prop :=
  shp t = [n] /\ forall i, (i < n)%nat -> at_ t [i] = f i.
Definition is2 (t : ten) (b d : nat) (f : nat -> nat -> R) : Prop :=
  shp t = [b; d] /\ forall i j, (i < b)%nat -> (j < d)%nat -> at_ t [i; j] = f i j.
Definition is3 (t : ten) (b p q : nat) (f : nat -> nat -> nat -> R) : Prop :=
  shp t = [b; p; q] /\ forall i r c, (i < b)%nat -> (r < p)%nat -> (c < q)%nat -> at_ t [i; r; c] = f i r c.

(** a Vector, Point2 or Point3 with batch size b and d components, component j of
    item i being [f i j] *)
Definition holds (v : vec) (c : vcls) (b d : nat) (f : nat -> nat -> R) : Prop :=
  cls v = c /\ (c = CPoint2 -> d = 2%nat) /\ (c = CPoint3 -> d = 3%nat) /\ is2 (tn v) b d f.
Definition delta (r c : nat) : R := if (r =? c)%nat then 1 else 0.

(** batches of planar points, rotations and poses *)
Definition points2 (p : point) (b : nat) (f : nat -> V2) : Prop :=
  is2 (pten p) b 2 (fun i j => if (j =? 0)%nat then a0 (f i) else a1 (f i)).
Definition point2 (v : vec) (b : nat) (f : nat -> V2) : Prop :=
  cls v = CPoint2 /\ points2 (PVec v) b f.
Definition rotations (t : ten) (b : nat) (f : nat -> SO2) : Prop :=
  is2 t b 2 (fun i j => if (j =? 0)%nat then co (f i) else si (f i)).
Definition poses (t : ten) (b : nat) (f : nat -> SE2) : Prop :=
  is2 t b 4 (fun i j => match j with O => px (f i) | 1%nat => py (f i) | 2%nat => pc (f i) | _ => ps (f i) end).
Definition mats2 (t : ten) (b : nat) (f : nat -> M2) : Prop :=
  is3 t b 2 2 (fun i r c => match r, c with O, O => c00 (f i) | O, _ => c01 (f i) | _, O => c10 (f i) | _, _ => c11 (f i) end).
Definition mats23 (t : ten) (b : nat) (f : nat -> M23) : Prop :=
  is3 t b 2 3 (fun i r c => match r, c with
    | O, O => e00 (f i) | O, 1%nat => e01 (f i) | O, _ => e02 (f i)
    | _, O => e10 (f i) | _, 1%nat => e11 (f i) | _, _ => e12 (f i) end).
Definition mats3 (t : ten) (b : nat) (f : nat -> M3) : Prop :=
  is3 t b 3 3 (fun i r c => match r, c with
    | O, O => d00 (f i) | O, 1%nat => d01 (f i) | O, _ => d02 (f i)
    | 1%nat, O => d10 (f i) | 1%nat, 1%nat => d11 (f i) | 1%nat, _ => d12 (f i)
    | _, O => d20 (f i) | _, 1%nat => d21 (f i) | _, _ => d22 (f i) end).
(** columns: one 2 by 1 Jacobian per item *)
Definition cols2 (t : ten) (b : nat) (f : nat -> V2) : Prop :=
  is3 t b 2 1 (fun i r _ => match r with O => a0 (f i) | _ => a1 (f i) end).
