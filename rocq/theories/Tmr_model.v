(** Model of theseus/utils/utils.py 225-273 ([Timer], cpu device). One operation per method call; each
    reading of the clock ([time.perf_counter_ns()]) is an argument of the operation that makes it, so the
    theorems hold for every clock. Times and durations are integers in nanoseconds: the code divides the
    difference by 1e9 before storing it (float rounding not modelled). Not modelled: the cuda branch
    (same control flow with events instead of [_start_time]), threads. *)
From Coq Require Import ZArith List Bool String.
Import ListNotations.
Open Scope string_scope.
Open Scope Z_scope.

(** utils.py 226-232, and [_start_time] (241), which does not exist before the first effective start *)
Record timer := mkTimer { t_active : bool; t_elapsed : Z; t_stats : list (string * list Z);
  t_caller : option string; t_deact : bool; t_start : option Z }.
(** utils.py 226-232 [__init__] *)
Definition timer_init (active : bool) : timer := mkTimer active 0 [] None false None.
(** utils.py 256 [self._stats[self._caller].append(...)] on a [defaultdict(list)] *)
Fixpoint stats_append (s : list (string * list Z)) (k : string) (v : Z) : list (string * list Z) :=
  match s with
  | [] => [(k, [v])]
  | (k', l) :: s => if String.eqb k k' then (k', l ++ [v])%list :: s else (k', l) :: stats_append s k v
  end.
(** utils.py 234-245 [start(caller, deactivate)] *)
Definition timer_start (caller : option string) (deactivate : bool) (now : Z) (t : timer) : timer :=
  if negb (t_active t) || deactivate
  then mkTimer (t_active t) (t_elapsed t) (t_stats t) (t_caller t) deactivate (t_start t)
  else mkTimer (t_active t) (t_elapsed t) (t_stats t) caller (t_deact t) (Some now).
(** utils.py 247-258 [end()]; [None]: AttributeError, no [_start_time] *)
Definition timer_end (now : Z) (t : timer) : option timer :=
  if negb (t_active t) || t_deact t
  then Some (mkTimer (t_active t) (t_elapsed t) (t_stats t) (t_caller t) false (t_start t))
  else match t_start t with
       | None => None
       | Some s => let e := now - s in
         Some (mkTimer (t_active t) e (match t_caller t with Some c => stats_append (t_stats t) c e | None => t_stats t end)
                 (t_caller t) (t_deact t) (t_start t))
       end.
(** utils.py 260-265 [__call__(caller, deactivate)] *)
Definition timer_call (caller : option string) (deactivate : bool) (t : timer) : timer :=
  mkTimer (t_active t) (t_elapsed t) (t_stats t) caller deactivate (t_start t).
(** utils.py 267-269 [__enter__] *)
Definition timer_enter (now : Z) (t : timer) : timer := timer_start (t_caller t) (t_deact t) now t.
(** [timer.active = b] (the attribute is public) *)
Definition timer_set_active (b : bool) (t : timer) : timer :=
  mkTimer b (t_elapsed t) (t_stats t) (t_caller t) (t_deact t) (t_start t).

(** the calls a program makes, in order; [Exit] (utils.py 271-272) is [end()] and is made whether or not
    the body raised *)
Inductive call :=
| Start (caller : option string) (deactivate : bool) (now : Z)
| End (now : Z)
| Call (caller : option string) (deactivate : bool)
| Enter (now : Z)
| Exit (now : Z)
| SetActive (b : bool).
Definition timer_step (c : call) (t : timer) : option timer :=
  match c with
  | Start k d n => Some (timer_start k d n t)
  | End n => timer_end n t
  | Call k d => Some (timer_call k d t)
  | Enter n => Some (timer_enter n t)
  | Exit n => timer_end n t
  | SetActive b => Some (timer_set_active b t)
  end.
Fixpoint timer_run (cs : list call) (t : timer) : option timer :=
  match cs with
  | [] => Some t
  | c :: cs => match timer_step c t with Some t => timer_run cs t | None => None end
  end.
(** utils.py 274-275 [stats()]: what reading [stats()[k]] gives (an empty list for an absent key) *)
Fixpoint stats_of (s : list (string * list Z)) (k : string) : list Z :=
  match s with
  | [] => []
  | (k', l) :: s => if String.eqb k k' then l else stats_of s k
  end.
