(** Model of SO3.hat and SO3.vee of theseus (theseus/geometry/so3.py 142-155, 238-245) with torchlie's
    check_hat_tensor and _vee_impl (torchlie/functional/so3_impl.py 68-80, 587-600, 633-642) and checks_base
    (torchlie/functional/check_contexts.py 39-44). Simplifications as in [Hv_model]; no vmap. *)
From Coq Require Import List Arith QArith Qabs Bool Lia.
From Verif Require Import Hv_model.
Import ListNotations.
Local Open Scope Q_scope.

(** [(t.transpose(-1, -2) + t)]: its entries, for the whole batch *)
Definition sym_entries (t : ten) : list Q :=
  flat_map (fun b => flat_map (fun i => map (fun j => ent t b j i + ent t b i j) (seq 0 3)) (seq 0 3))
           (seq 0 (batch t)).

(** so3_impl.py 68-80 on a tensor whose last two sizes are 3, check_contexts.py 39-44: [lie] whether
    torchlie's checks are enabled (default: not), [eps] LIE_PARAMS.get_eps("so3", "hat", dtype).
    [false]: raises *)
Definition check_hat_tensor (lie : bool) (eps : Q) (t : ten) : bool :=
  if lie then
    match abs_max (sym_entries t) with
    | None => false
    | Some m => negb (Qlt_bool eps m)
    end
  else true.

(** so3_impl.py 633-642 *)
Definition vee_impl (lie : bool) (eps : Q) (t : ten) : option (list (Q * Q * Q)) :=
  if check_hat_tensor lie eps t then
    Some (map (fun b => ((1#2) * (ent t b 2%nat 1%nat - ent t b 1%nat 2%nat),
                         (1#2) * (ent t b 0%nat 2%nat - ent t b 2%nat 0%nat),
                         (1#2) * (ent t b 1%nat 0%nat - ent t b 0%nat 1%nat))) (seq 0 (batch t)))
  else None.

(** so3.py 142-155, 242-245: first, whether it warns; [None]: raises *)
Definition so3_vee (c : ctx) (lie : bool) (eps : Q) (t : ten) : bool * option (list (Q * Q * Q)) :=
  if negb (square3 t 3) then (false, None)
  else if enabled c then
    (false, if check_hat_tensor lie eps t then vee_impl lie eps t else None)
  else (negb (silent c), vee_impl lie eps t).

(** so3_impl.py 587-600 (_hat_impl) through so3.py 238-240 *)
Definition so3_hat (v : list (Q * Q * Q)) : ten :=
  mkTen [length v; 3; 3]%nat (fun b i j =>
    let '(x, y, z) := nth b v (0, 0, 0) in
    match i, j with
    | O, S O => - z | O, S (S O) => y | S O, S (S O) => - x
    | S O, O => z | S (S O), O => - y | S (S O), S O => x
    | _, _ => 0
    end).
