(** Model of SO2.hat, SO2.vee with SO2._hat_matrix_check (theseus/geometry/so2.py 148-164, 320-330) and of
    SE2.hat, SE2.vee (theseus/geometry/se2.py 374-397).
    Simplifications: entries are rationals (every finite float is one), comparisons and the tolerance of
    torch.allclose are exact, nan and infinities are not modelled; exceptions are not told apart (a tensor of
    the wrong number of dimensions may raise IndexError, an empty batch RuntimeError, the rest ValueError). *)
From Coq Require Import List Arith QArith Qabs Bool Lia.
Import ListNotations.
Local Open Scope Q_scope.

(** A batch of matrices: the sizes of its dimensions and its entries (element, row, column). *)
Record ten := mkTen { dims : list nat; ent : nat -> nat -> nat -> Q }.

(** theseus/constants.py 11: EPS = 1e-10; torch.allclose: rtol 1e-5, atol 1e-8. *)
Definition EPS : Q := 1 # 10000000000.
Definition rtol : Q := 1 # 100000.
Definition atol : Q := 1 # 100000000.

Definition Qlt_bool (a b : Q) : bool := negb (Qle_bool b a).
Definition Qmax_ (a b : Q) : Q := if Qle_bool a b then b else a.

(** [x.abs().max().item()]; [None]: max() of no elements raises *)
Fixpoint abs_max (l : list Q) : option Q :=
  match l with
  | [] => None
  | a :: r => match abs_max r with None => Some (Qabs a) | Some m => Some (Qmax_ (Qabs a) m) end
  end.
(** [torch.allclose(x, y)] *)
Definition allclose (l : list (Q * Q)) : bool :=
  forallb (fun p => Qle_bool (Qabs (fst p - snd p)) (atol + rtol * Qabs (snd p))) l.

(** [matrix[:, i, j]] *)
Definition batch (t : ten) : nat := match dims t with b :: _ => b | [] => 0%nat end.
Definition col (t : ten) (i j : nat) : list Q := map (fun b => ent t b i j) (seq 0 (batch t)).

(** [x.ndim == 3 and x.shape[1:] == (n, n)] *)
Definition square3 (t : ten) (n : nat) : bool :=
  match dims t with [_; r; c] => (r =? n)%nat && (c =? n)%nat | _ => false end.
(** [matrix[:, i, i].abs().max().item() < EPS]; [None]: raises *)
Definition small (t : ten) (i : nat) : option bool :=
  match abs_max (col t i i) with None => None | Some m => Some (Qlt_bool m EPS) end.

(** The check context (lie_group_check.py): checks enabled, warnings silenced. *)
Record ctx := mkCtx { enabled : bool; silent : bool }.

(** so2.py 148-164: first, whether it warns; second, whether it returns ([false]: raises).
    Where [square3] fails the value of the other tests does not matter: each raises or yields a boolean, and
    line 163 raises. *)
Definition so2_hat_check (c : ctx) (t : ten) : bool * bool :=
  let ck := square3 t 2 in
  if enabled c then
    match small t 0, small t 1 with
    | Some a, Some b => (false, ck && a && b && allclose (combine (col t 0 1) (map Qopp (col t 1 0))))
    | _, _ => (false, false)
    end
  else (negb (silent c), ck).

(** so2.py 327-330: first, whether it warns; [None]: raises *)
Definition so2_vee (c : ctx) (t : ten) : bool * option (list Q) :=
  let '(w, ok) := so2_hat_check c t in (w, if ok then Some (col t 1 0) else None).
(** so2.py 320-325 *)
Definition so2_hat (v : list Q) : ten :=
  mkTen [length v; 2; 2]%nat (fun b i j =>
    match i, j with O, S O => - nth b v 0 | S O, O => nth b v 0 | _, _ => 0 end).

(** se2.py 384-397: no context is asked *)
Definition se2_vee (t : ten) : option (list (Q * Q * Q)) :=
  let ck := square3 t 3 && allclose (combine (col t 0 1) (map Qopp (col t 1 0))) in
  match small t 0, small t 1, small t 2 with
  | Some a, Some b, Some d =>
    if ck && a && b && d
    then Some (map (fun b => (ent t b 0 2, ent t b 1 2, ent t b 1 0)%nat) (seq 0 (batch t)))
    else None
  | _, _, _ => None
  end.
(** se2.py 374-382 *)
Definition se2_hat (v : list (Q * Q * Q)) : ten :=
  mkTen [length v; 3; 3]%nat (fun b i j =>
    let '(x, y, w) := nth b v (0, 0, 0) in
    match i, j with O, S O => - w | S O, O => w | O, S (S O) => x | S O, S (S O) => y | _, _ => 0 end).
