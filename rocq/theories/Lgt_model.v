(** Construction of group objects under the check settings (theseus/geometry/manifold.py 34-80 and
    118-146), in-place updates of theseus' LieGroupTensor (theseus/geometry/utils.py 59-93) and of
    torchlie's LieTensor (torchlie/torchlie/lie_tensor.py 356-430). *)
From Coq Require Import Reals List Bool.
From Verif Require Import Geo_spec Geo3_spec Geo4_spec SE2_model SO3_model SE3_model Ctx_model.
Import ListNotations.
Local Open Scope R_scope.

(** ** Construction *)
(** [Built]: the tensor stored in the object; [NaNs]: the stored tensor contains nan *)
Inductive outcome (T : Type) := RaisesValueError | NaNs | Built (rows : list T).
Arguments RaisesValueError {T}. Arguments NaNs {T}. Arguments Built {T} rows.

Fixpoint all_some {T} (l : list (option T)) : option (list T) :=
  match l with
  | [] => Some []
  | o :: r => match o, all_some r with Some x, Some xs => Some (x :: xs) | _, _ => None end
  end.

(** manifold.py 44-66 and 119-146. [check] is the per-row part of _check_tensor_impl, which reduces
    with max over the whole batch, so one bad row makes the whole batch fail; the shape checks,
    warnings and dtype conversion are not modelled. [norm] is normalize of one row. *)
Definition manifold_init {T} (st : settings) (strict disable : bool) (check : T -> bool)
  (norm : T -> option T) (rows : list T) : outcome T :=
  let checks_enabled := if disable then false else c_check (s_chk st) in
  if checks_enabled then
    if forallb check rows then Built rows
    else if strict then RaisesValueError
    else match all_some (map norm rows) with Some r => Built r | None => NaNs end
  else Built rows.

Definition decb {P : Prop} (d : {P} + {~ P}) : bool := if d then true else false.
(** so2.py 132-145, as in SE2_model.so2_check_tensor *)
Definition so2_check (d : dtype) (t : V2) : bool :=
  decb (Rle_dec (Rabs (sqrt (a0 t * a0 t + a1 t * a1 t) - 1)) (so2_matrix_eps d)).
(** se2.py 231-236: the last two columns only *)
Definition se2_check (d : dtype) (g : SE2) : bool := so2_check d (mkV2 (pc g) (ps g)).
Definition so2_build st strict disable d := manifold_init st strict disable (so2_check d) (so2_normalize d).
Definition se2_build st strict disable d :=
  manifold_init st strict disable (se2_check d) (fun g => se2_normalize d (px g) (py g) (mkV2 (pc g) (ps g))).
(** so3.py 117-125 with torchlie so3_impl.py 30-48 and check_contexts.py 38-44: the torchlie check
    does nothing unless torchlie's own setting is on *)
Definition lt_dec_b (a b : R) := decb (Rlt_dec a b).
Definition so3_group_b (d : dtype) (g : M3) : bool :=
  let e := so3_matrix_eps d in
  let p := sub_m3 (mul3 g (tr3 g)) I3 in
  lt_dec_b (Rabs (d00 p)) e && lt_dec_b (Rabs (d01 p)) e && lt_dec_b (Rabs (d02 p)) e
  && lt_dec_b (Rabs (d10 p)) e && lt_dec_b (Rabs (d11 p)) e && lt_dec_b (Rabs (d12 p)) e
  && lt_dec_b (Rabs (d20 p)) e && lt_dec_b (Rabs (d21 p)) e && lt_dec_b (Rabs (d22 p)) e
  && lt_dec_b (Rabs (det3 g - 1)) e.
Definition so3_check (st : settings) (d : dtype) (g : M3) : bool :=
  if s_lie st then so3_group_b d g else true.
(** se3.py 118-125, torchlie se3_impl.py 24-31 *)
Definition se3_check (st : settings) (d : dtype) (g : Rig) : bool :=
  if s_lie st then so3_check st d (rr g) else true.
(** normalize is given by the singular vectors torch.linalg.svd returns (so3_impl.py normalize) *)
Definition so3_build st strict disable d (svd : M3 -> M3 * M3) :=
  manifold_init st strict disable (so3_check st d)
    (fun g => Some (so3_normalize_from_svd (fst (svd g)) (snd (svd g)))).
Definition se3_build st strict disable d (svd : M3 -> M3 * M3) :=
  manifold_init st strict disable (se3_check st d)
    (fun g => Some (se3_normalize_from_svd (fst (svd (rr g))) (snd (svd (rr g))) (rp g))).

(** ** In-place updates of LieGroupTensor, one batch row *)
Section LieGroupTensor.
  Variables T V : Type.
  Variable project : T -> T -> V.               (* group.project(update) *)
  Variable scale : R -> V -> V.                 (* alpha * grad *)
  Variable retract : T -> V -> option T.        (* group.retract(...).tensor *)
  Variable map2 : (R -> R -> R) -> T -> T -> T. (* elementwise tensor arithmetic *)
  Variable map1 : (R -> R) -> T -> T.
  Variable nonzero : T -> Prop.                 (* no entry is zero *)
  Variable nonzero_dec : forall t, {nonzero t} + {~ nonzero t}.

  (** torch.Tensor.add_, addcmul_ and addcdiv_ *)
  Definition plain_add_ (x u : T) (alpha : R) : T := map2 Rplus x (map1 (Rmult alpha) u).
  Definition plain_addcmul_ (x t1 t2 : T) (value : R) : T := map2 Rplus x (map1 (Rmult value) (map2 Rmult t1 t2)).
  Definition plain_addcdiv_ (x t1 t2 : T) (value : R) : option T :=
    if nonzero_dec t2 then Some (map2 Rplus x (map1 (Rmult value) (map2 Rdiv t1 t2))) else None.

  (** utils.py 70-78. [fuel] is the interpreter's recursion limit; None stands for RecursionError and
      for nan. Line 76 calls self.add_, not super().add_. The constructor of line 72 is the identity
      on tensors that pass the checks, which is assumed here. *)
  Fixpoint lgt_add_ (fuel : nat) (st : settings) (x u : T) (alpha : R) : option T :=
    match fuel with
    | O => None
    | S n => if s_tan st then retract x (scale alpha (project x u)) else lgt_add_ n st x u alpha
    end.
  (** utils.py 80-86 and 88-94 *)
  Definition lgt_addcdiv_ (fuel : nat) (st : settings) (x t1 t2 : T) (value : R) : option T :=
    if s_tan st then
      if nonzero_dec t2 then lgt_add_ fuel st x (map2 Rdiv (map1 (Rmult value) t1) t2) 1 else None
    else plain_addcdiv_ x t1 t2 value.
  Definition lgt_addcmul_ (fuel : nat) (st : settings) (x t1 t2 : T) (value : R) : option T :=
    if s_tan st then lgt_add_ fuel st x (map2 Rmult (map1 (Rmult value) t1) t2) 1
    else Some (plain_addcmul_ x t1 t2 value).

  (** lie_tensor.py 399-406: torchlie's add_; [marked]: the tensor carries _lie_euclidean_grad
      (lines 122-139); None = RuntimeError *)
  Definition lie_add_ (marked : bool) (x u : T) (alpha : R) : option T :=
    if marked then retract x (scale alpha (project x u)) else None.
  (** lie_tensor.py 408-419 and 421-430 *)
  Definition lie_addcmul_ (m1 m2 : bool) (x t1 t2 : T) (value : R) : option T :=
    if m1 || m2 then lie_add_ true x (map2 Rmult (map1 (Rmult value) t1) t2) 1 else None.
  Definition lie_addcdiv_ (m1 m2 : bool) (x t1 t2 : T) (value : R) : option T :=
    if m1 || m2 then
      if nonzero_dec t2 then lie_add_ true x (map2 Rdiv (map1 (Rmult value) t1) t2) 1 else None
    else None.
End LieGroupTensor.

(** The four groups. SO2 and SE2 rows are vectors of 2 and 4 entries. *)
Definition so2_row (g : SO2) : V2 := mkV2 (co g) (si g).
Definition so2_add_ fuel st (x u : V2) (alpha : R) : option V2 :=
  lgt_add_ V2 R (fun x u => so2_project (mkSO2 (a0 x) (a1 x)) u) Rmult
    (fun x v => Some (so2_row (so2_retract (mkSO2 (a0 x) (a1 x)) v))) fuel st x u alpha.
Definition se2_add_ d fuel st (x u : SE2) (alpha : R) : option SE2 :=
  lgt_add_ SE2 V3 (fun x u => se2_project x (mkV2 (px u) (py u)) (mkV2 (pc u) (ps u))) scal3
    (se2_retract d) fuel st x u alpha.
Definition so3_add_ d fuel st (x u : M3) (alpha : R) : option M3 :=
  lgt_add_ M3 V3 so3_project_impl scal3 (so3_retract d) fuel st x u alpha.
Definition se3_add_ d fuel st (x u : Rig) (alpha : R) : option Rig :=
  lgt_add_ Rig Tw se3_project_impl tscal (se3_retract d) fuel st x u alpha.
(** torchlie: left_project and retract of the functional library *)
Definition so3_lie_add_ d marked (x u : M3) (alpha : R) : option M3 :=
  lie_add_ M3 V3 so3_left_project scal3 (so3_retract d) marked x u alpha.
Definition se3_lie_add_ d marked (x u : Rig) (alpha : R) : option Rig :=
  lie_add_ Rig Tw se3_left_project tscal (se3_retract d) marked x u alpha.

(** lie_tensor.py 366-372: `self * other` *)
Definition so3_star (self other : M3) : M3 := so3_compose other self.
Definition se3_star (self other : Rig) : Rig := se3_compose other self.
(** lie_tensor.py 374-380: `self @ point` *)
Definition se3_at (self : Rig) (p : V3) : V3 := se3_transform self p.
