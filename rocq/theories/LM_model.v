(** Model of the accept/reject decisions of adaptive Levenberg-Marquardt and of the trust region
    methods. Numbers are exact rationals; errors may also be +inf or nan ([NL_model.ext]), and the gain
    ratio follows the IEEE rules for division. *)
From Coq Require Import List Arith Bool QArith Qabs Qminmax.
From Verif Require Import NL_model QSum.
Local Open Scope Q_scope.

(** the linearization of one batch element: A is [l_m] x [l_n] *)
Record linz := mkLin { l_m : nat; l_n : nat; l_A : nat -> nat -> Q; l_b : nat -> Q }.

(** dense_linearization.py 60-64 (A^T A, A^T b) *)
Definition AtA (L : linz) (c k : nat) : Q := qsum (l_m L) (fun r => l_A L r c * l_A L r k).
Definition Atb (L : linz) : nat -> Q := qtmv (l_m L) (l_A L) (l_b L).

(** a ratio: finite, +inf, -inf or nan *)
Inductive xq := XF (q : Q) | XP | XN | XNaN.

(** [a - b] of errors *)
Definition esub (a b : ext) : xq :=
  match a, b with
  | Fin x, Fin y => XF (x - y)
  | Fin _, PInf => XN
  | PInf, Fin _ => XP
  | _, _ => XNaN
  end.
(** [x / d]; a zero denominator is a positive zero *)
Definition xdiv (x : xq) (d : Q) : xq :=
  match x with
  | XF n => if Qeq_bool d 0 then (if Qeq_bool n 0 then XNaN else if Qltb 0 n then XP else XN) else XF (n / d)
  | XP => if Qltb d 0 then XN else XP
  | XN => if Qltb d 0 then XP else XN
  | XNaN => XNaN
  end.
(** comparisons with a parameter, false on nan *)
Definition xleb (x : xq) (q : Q) : bool := match x with XF n => Qle_bool n q | XN => true | _ => false end.
Definition xltb (x : xq) (q : Q) : bool := match x with XF n => Qltb n q | XN => true | _ => false end.
Definition xgtb (x : xq) (q : Q) : bool := match x with XF n => Qltb q n | XP => true | _ => false end.

(** [t.clamp(lo, hi)] *)
Definition qclamp (lo hi q : Q) : Q := Qmin (Qmax q lo) hi.

(** ---- Levenberg-Marquardt ---- *)
Definition min_damping : Q := 1 # 10000000.             (* levenberg_marquardt.py 52 *)
Definition max_damping : Q := 10000000 # 1.             (* levenberg_marquardt.py 53 *)

(** levenberg_marquardt.py 183-187 with dense_linearization.py 77-78: the damping of column [c] *)
Definition lm_damp (L : linz) (ellipsoidal : bool) (damping : Q) (c : nat) : Q :=
  if ellipsoidal then damping * AtA L c c else damping.
(** levenberg_marquardt.py 190 *)
Definition lm_den (L : linz) (ellipsoidal : bool) (damping : Q) (delta : nat -> Q) : Q :=
  qsum (l_n L) (fun c => delta c * (lm_damp L ellipsoidal damping c * delta c + Atb L c)) / 2.
(** levenberg_marquardt.py 172-201 [_check_accept] for one batch element: whether the step is
    rejected, and the new damping *)
Definition lm_check_accept (L : linz) (delta : nat -> Q) (err previous_err : ext) (damping_accept down up : Q)
    (ellipsoidal : bool) (damping : Q) : bool * Q :=
  let rho := xdiv (esub previous_err err) (lm_den L ellipsoidal damping delta) in
  let reject := xleb rho damping_accept in
  (reject, qclamp min_damping max_damping (if reject then damping * up else damping / down)).

(** levenberg_marquardt.py 139-164 [_complete_step]; the state is the damping of every element *)
Definition lm_complete {X} (lin : X -> linz) (adaptive ellipsoidal : bool) (damping_accept down up : Q)
    (z : nat -> Q) (x : nat -> X) (delta : nat -> nat -> Q) (err previous_err : nat -> ext)
  : (nat -> Q) * option (nat -> bool) :=
  if adaptive then
    let r := fun i => lm_check_accept (lin (x i)) (delta i) (err i) (previous_err i) damping_accept down up ellipsoidal (z i) in
    (fun i => snd (r i), Some (fun i => fst (r i)))
  else (z, None).

(** What [linear_solver.solve] is asked for (dense_solver.py 37-65 [_apply_damping], see C28 for the
    sparse solvers): an exact solution of the damped normal equations. *)
Definition damped_solution (L : linz) (ellipsoidal : bool) (damping eps : Q) (delta : nat -> Q) : Prop :=
  forall c, (c < l_n L)%nat ->
    qsum (l_n L) (fun k => AtA L c k * delta k) +
    (if ellipsoidal then damping * AtA L c c + eps else damping) * delta c == Atb L c.

(** ---- trust region ---- *)
(** trust_region.py 91-105 [_predicted_error] minus the previous error *)
Definition model_change (L : linz) (delta : nat -> Q) : Q :=
  qdot (l_n L) delta (fun c => - Atb L c) + (1#2) * qdot (l_m L) (qmv (l_n L) (l_A L) delta) (qmv (l_n L) (l_A L) delta).
(** trust_region.py 107-111 [_compute_rho]; [previous_err - pred_err] of finite errors is
    [- model_change]; for infinite errors it is nan *)
Definition tr_rho (L : linz) (delta : nat -> Q) (err previous_err : ext) : xq :=
  match previous_err with
  | Fin _ => xdiv (esub previous_err err) (- model_change L delta)
  | _ => XNaN
  end.

Record tr_params := mkTR { t_accept : Q; t_shrink : Q; t_expand : Q; t_shrink_ratio : Q; t_expand_ratio : Q; t_min : Q; t_max : Q }.
(** trust_region.py 118-124, the defaults *)
Definition tr_default : tr_params := mkTR 0 (1#4) (3#4) (1#4) 2 (1#100000) 100000.

(** trust_region.py 129-132 *)
Definition tr_good_params (p : tr_params) : bool :=
  Qltb 0 (t_shrink_ratio p) && Qle_bool (t_shrink_ratio p) 1 && Qle_bool 1 (t_expand_ratio p) &&
  (Qltb (t_shrink p) (t_expand p) && Qltb (t_accept p) (t_shrink p)).

(** trust_region.py 139-151 for one batch element: the new radius and whether the step is rejected *)
Definition tr_update (p : tr_params) (rho : xq) (radius : Q) : Q * bool :=
  let r1 := if xltb rho (t_shrink p) then radius * t_shrink_ratio p else radius in
  let r2 := if xgtb rho (t_expand p) then r1 * t_expand_ratio p else r1 in
  (qclamp (t_min p) (t_max p) r2, xltb rho (t_accept p)).

(** trust_region.py 113-151 [_complete_step] for one element; [None]: the ValueError *)
Definition tr_complete_step (L : linz) (p : tr_params) (delta : nat -> Q) (err previous_err : ext) (radius : Q)
  : option (Q * bool) :=
  if tr_good_params p then Some (tr_update p (tr_rho L delta err previous_err) radius) else None.

(** the batched form, valid parameters *)
Definition tr_complete {X} (lin : X -> linz) (p : tr_params)
    (z : nat -> Q) (x : nat -> X) (delta : nat -> nat -> Q) (err previous_err : nat -> ext)
  : (nat -> Q) * option (nat -> bool) :=
  let r := fun i => tr_update p (tr_rho (lin (x i)) (delta i) (err i) (previous_err i)) (z i) in
  (fun i => fst (r i), Some (fun i => snd (r i))).
