(** Model of theseus/optimizer/manifold_gaussian.py: local_gaussian and
    retract_gaussian, for one batch element (every tensor operation in them
    acts on the batch elements separately).  Vectors are functions nat -> R and
    matrices nat -> nat -> R, read at the indices below the dimension.  A tensor
    computation that divides by zero, and a call that raises, is [None].  The
    comparison of classes (l.130-135) is the typing of the model, the check that
    there is one mean (l.123-128) the type of a Gaussian below; the object
    ManifoldGaussian itself is modelled in Mg_obj.v. *)
From Coq Require Import Reals List Arith.
Import ListNotations.
From Verif Require Import Geo_spec Geo3_spec Geo4_spec RSum SE2_model SO3_model SE3_model.
Local Open Scope R_scope.

Notation vec := (nat -> R) (only parsing).
Notation mat := (nat -> nat -> R) (only parsing).

(** theseus/geometry/lie_group.py: the methods of a class that are used *)
Record LieClass := mkLie {
  elt : Type;
  dof : nat;
  local : elt -> elt -> option vec;        (* self.local(other) *)
  retract : elt -> vec -> option elt;      (* self.retract(delta) *)
  exp_map_jac : vec -> option mat }.       (* the Jacobian exp_map appends *)
Arguments local {_} _ _.
Arguments retract {_} _ _.
Arguments exp_map_jac {_} _.

(** coordinates of the concrete vectors and matrices of the geometry models *)
Definition v3_of (v : vec) : V3 := mkV3 (v 0%nat) (v 1%nat) (v 2%nat).
Definition of_v3 (v : V3) (i : nat) : R := nth i [b0 v; b1 v; b2 v] 0.
Definition of_m3 (m : M3) (i j : nat) : R :=
  nth j (nth i [[d00 m; d01 m; d02 m]; [d10 m; d11 m; d12 m]; [d20 m; d21 m; d22 m]] []) 0.
Definition tw_of (v : vec) : Tw := mkTw (mkV3 (v 0%nat) (v 1%nat) (v 2%nat)) (mkV3 (v 3%nat) (v 4%nat) (v 5%nat)).
Definition of_tw (v : Tw) (i : nat) : R := nth i [b0 (lin v); b1 (lin v); b2 (lin v); b0 (ang v); b1 (ang v); b2 (ang v)] 0.
Definition of_m66 (m : M66) (i j : nat) : R :=
  if (i <? 3)%nat then (if (j <? 3)%nat then of_m3 (mll m) i j else of_m3 (mla m) i (j - 3))
  else (if (j <? 3)%nat then of_m3 (mal m) (i - 3) j else of_m3 (maa m) (i - 3) (j - 3)).

(** theseus/geometry/vector.py:168-185 (local is the difference, retract the
    sum), 226-236 (exp_map's Jacobian is the identity) *)
Definition vector_class (n : nat) : LieClass := mkLie (nat -> R) n
  (fun g h => Some (fun i => - g i + h i))
  (fun g v => Some (fun i => g i + v i))
  (fun _ => Some (fun i j => if (i =? j)%nat then 1 else 0)).
(** theseus/geometry/so2.py *)
Definition so2_class : LieClass := mkLie SO2 1
  (fun g h => Some (fun _ => so2_local g h))
  (fun g v => Some (so2_retract g (v 0%nat)))
  (fun v => Some (fun _ _ => so2_exp_map_jac (v 0%nat))).
(** theseus/geometry/se2.py *)
Definition se2_class (d : dtype) : LieClass := mkLie SE2 3
  (fun g h => option_map of_v3 (se2_local d g h))
  (fun g v => se2_retract d g (v3_of v))
  (fun v => option_map of_m3 (se2_exp_map_jac d (v3_of v))).
(** theseus/geometry/so3.py *)
Definition so3_class (d : dtype) : LieClass := mkLie M3 3
  (fun g h => option_map of_v3 (so3_local d g h))
  (fun g v => so3_retract d g (v3_of v))
  (fun v => option_map of_m3 (so3_jexp d (v3_of v))).
(** theseus/geometry/se3.py *)
Definition se3_class (d : dtype) : LieClass := mkLie Rig 6
  (fun g h => option_map of_tw (se3_local d g h))
  (fun g v => se3_retract d g (tw_of v))
  (fun v => option_map of_m66 (se3_jexp d (tw_of v))).

(** torch.bmm, transpose(-1, -2), torch.matmul(m, v.unsqueeze(-1)).squeeze(-1) *)
Definition bmm (n : nat) (A B : mat) : mat := fun i j => rsum n (fun k => A i k * B k j).
Definition transpose (A : mat) : mat := fun i j => A j i.
Definition matvec (n : nat) (A : mat) (v : vec) : vec := fun i => rsum n (fun k => A i k * v k).

(** manifold_gaussian.py:118-149 (local_gaussian); the Gaussian is its mean and
    its precision *)
Definition local_gaussian {G : LieClass} (variable : elt G) (gaussian : elt G * mat) (return_mean : bool)
  : option (vec * mat) :=
  let n := dof G in
  do mean_tp <- local variable (fst gaussian);
  do jac <- exp_map_jac (l := G) mean_tp;
  let lam_tp := bmm n (bmm n (transpose jac) (snd gaussian)) jac in
  if return_mean then Some (mean_tp, lam_tp)
  else Some (matvec n lam_tp mean_tp, lam_tp).

(** torch.allclose(precision, precision.transpose(1, 2)): rtol 1e-5, atol 1e-8 *)
Definition allclose (n : nat) (A B : mat) : bool :=
  forallb (fun i => forallb (fun j =>
    if Rle_dec (Rabs (A i j - B i j)) (/ 10 ^ 8 + / 10 ^ 5 * Rabs (B i j)) then true else false) (seq 0 n)) (seq 0 n).
(** manifold_gaussian.py:158-170 (retract_gaussian); [inv] is torch.inverse,
    which raises for singular matrices; the constructor of the result raises if
    the precision is not symmetric (l.104-105) *)
Definition retract_gaussian {G : LieClass} (inv : nat -> mat -> option mat) (variable : elt G)
  (mean_tp : vec) (precision_tp : mat) : option (elt G * mat) :=
  let n := dof G in
  do mean <- retract variable mean_tp;
  do jac <- exp_map_jac (l := G) mean_tp;
  do inv_jac <- inv n jac;
  let precision := bmm n (bmm n (transpose inv_jac) precision_tp) inv_jac in
  if allclose n precision (transpose precision) then Some (mean, precision) else None.
