(** Model of verify_jacobians (theseus/theseus_layer.py:151-161), check_jacobians
    and _rand_fill_ (theseus/utils/utils.py:138-189) and of the context manager
    _tmp_tensors (theseus/core/cost_function.py:183-188), which has no
    try/finally: when its body raises, nothing is restored.

    A store gives every variable its tensor, as the list of its batch elements.
    A cost function is modelled by what the check sees of it: the variables, and
    for every store either the exception that error() or jacobians() raises, or,
    for each optimization variable, the pairs of an entry of the Jacobian
    jacobians() returns and the same entry of the projected autograd Jacobian
    ([None] is nan; infinities are not modelled).  What the second number is for
    the variable classes is in [Ver_props].  The generator is the sequence of the
    numbers it returns, as in [Rand_model]. *)
From Coq Require Import Reals List Lia Lra Bool.
From Verif Require Import Geo_spec Geo3_spec Geo4_spec SE2_model SO3_model SE3_model Rand_model.
Import ListNotations.
Local Open Scope R_scope.

(** classes of variables, and one batch element of each *)
Inductive kind := KVec (n : nat) | KSO2 | KSE2 | KSO3 | KSE3.
Inductive tval := TVec (l : list R) | TSO2 (g : SO2) | TSE2 (g : SE2) | TSO3 (g : M3) | TSE3 (g : Rig) | TBad.
Notation store := (nat -> list tval) (only parsing).
Definition set_var (st : store) (v : nat) (t : list tval) : store := fun w => if Nat.eqb w v then t else st w.

(** utils.py:138-144 (_rand_fill_): the classes named in the isinstance call use
    their rand; SO2 is not among them (SO3 is named twice) and takes the last
    branch, like vectors and points *)
Definition rand_fill (k : kind) (s : nat -> R) : tval :=
  match k with
  | KSE2 => match th_se2_rand true [1%nat] s false with Some r => match t_val r with [g] => TSE2 g | _ => TBad end | None => TBad end
  | KSO3 => match t_val (so3_rand [1%nat] s false) with [Some g] => TSO3 g | _ => TBad end
  | KSE3 => match t_val (se3_rand [1%nat] s false) with [Some g] => TSE3 g | _ => TBad end
  | KSO2 => TSO2 (mkSO2 (s 0%nat) (s 1%nat))
  | KVec n => TVec (map s (seq 0 n))
  end.
(** how many numbers that takes *)
Definition draws (k : kind) : nat :=
  match k with KVec n => n | KSO2 => 2%nat | KSE2 => 3%nat | KSO3 => 3%nat | KSE3 => 6%nat end.

Inductive exn := RuntimeErr | OtherErr.
Record CF := mkCF { cf_name : nat; cf_optim : list (nat * kind); cf_aux : list (nat * kind);
                    cf_eval : (nat -> list tval) -> exn + list (list (option R * option R)) }.

(** utils.py:169-170: for v in optim_vars + aux_vars: _rand_fill_(v, 1) *)
Fixpoint fill_all (vs : list (nat * kind)) (s : nat -> R) (p : nat) (st : store) : store * nat :=
  match vs with
  | [] => (st, p)
  | (v, k) :: vs => fill_all vs s (p + draws k) (set_var st v [rand_fill k (fun i => s (p + i)%nat)])
  end.

(** utils.py:185: (j1 - j2).abs().max() > tol; max is nan when an entry is, and
    nan > tol is False *)
Fixpoint abs_max (l : list (option R * option R)) : option R :=
  match l with
  | [] => Some 0
  | (Some a, Some b) :: l => match abs_max l with Some m => Some (Rmax (Rabs (a - b)) m) | None => None end
  | _ => None
  end.
Definition too_far (tol : R) (l : list (option R * option R)) : bool :=
  match abs_max l with Some m => lt_b tol m | None => false end.

(** utils.py:168-189: one round; the autograd pass writes the same values into
    the variables again *)
Definition check_once (tol : R) (cf : CF) (s : nat -> R) (st : store) (p : nat) : store * nat * option exn :=
  let (st, p) := fill_all (cf_optim cf ++ cf_aux cf) s p st in
  match cf_eval cf st with
  | inl e => (st, p, Some e)
  | inr js => (st, p, if existsb (too_far tol) js then Some RuntimeErr else None)
  end.
Fixpoint check_rounds (n : nat) (tol : R) (cf : CF) (s : nat -> R) (st : store) (p : nat) : store * nat * option exn :=
  match n with
  | O => (st, p, None)
  | S n => match check_once tol cf s st p with
           | (st, p, Some e) => (st, p, Some e)
           | (st, p, None) => check_rounds n tol cf s st p
           end
  end.
(** cost_function.py:183-188 (_tmp_tensors), on leaving normally *)
Definition restore (vs : list (nat * kind)) (old st : store) : store :=
  fold_left (fun st v => set_var st (fst v) (old (fst v))) vs st.
(** utils.py:156-189 (check_jacobians): the aux variables' context is the inner one *)
Definition check_jacobians (n : nat) (tol : R) (cf : CF) (s : nat -> R) (st0 : store) (p : nat) : store * nat * option exn :=
  match check_rounds n tol cf s st0 p with
  | (st, p, Some e) => (st, p, Some e)
  | (st, p, None) => (restore (cf_optim cf) st0 (restore (cf_aux cf) st0 st), p, None)
  end.
(** theseus_layer.py:151-161 (verify_jacobians): the names printed as failed, and
    whether an exception that is not a RuntimeError came out; success is printed
    when nothing failed *)
Fixpoint verify (n : nat) (tol : R) (cfs : list CF) (s : nat -> R) (st : store) (p : nat) : store * list nat * bool :=
  match cfs with
  | [] => (st, [], false)
  | cf :: cfs =>
      match check_jacobians n tol cf s st p with
      | (st, _, Some OtherErr) => (st, [], true)
      | (st, p, Some RuntimeErr) => let '(st, failed, r) := verify n tol cfs s st p in (st, cf_name cf :: failed, r)
      | (st, p, None) => verify n tol cfs s st p
      end
  end.
