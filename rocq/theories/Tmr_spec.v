(** What a user expects of the timer, without reference to its state: a program is a sequence of timed
    regions that do not overlap. *)
From Coq Require Import ZArith List Bool String.
Import ListNotations.
From Verif Require Import Tmr_model.
Open Scope Z_scope.

Inductive region :=
| Block (caller : option string) (deactivate : bool) (t0 t1 : Z)   (* with timer(caller, deactivate): body *)
| Pair (caller : option string) (deactivate : bool) (t0 t1 : Z)    (* timer.start(caller, deactivate); body; timer.end() *)
| Unfinished (caller : option string) (t0 : Z)                     (* timer.start(caller) never ended *)
| Switch (b : bool).                                               (* timer.active = b, between regions *)
Definition calls_of (r : region) : list call :=
  match r with
  | Block c d t0 t1 => [Call c d; Enter t0; Exit t1]
  | Pair c d t0 t1 => [Start c d t0; End t1]
  | Unfinished c t0 => [Start c false t0]
  | Switch b => [SetActive b]
  end.
(** the measurements that should be kept: one per region that is finished, not deactivated, and run while
    the timer is active *)
Fixpoint measured (active : bool) (rs : list region) : list (option string * Z) :=
  match rs with
  | [] => []
  | Switch b :: rs => measured b rs
  | Unfinished _ _ :: rs => measured active rs
  | Block c d t0 t1 :: rs | Pair c d t0 t1 :: rs =>
    if active && negb d then (c, t1 - t0) :: measured active rs else measured active rs
  end.
Definition durations_for (k : string) (l : list (option string * Z)) : list Z :=
  map snd (filter (fun p => match fst p with Some c => String.eqb k c | None => false end) l).
