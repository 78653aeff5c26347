(* The thread-local settings of theseus and torchlie and the context managers that change them.
   Modelled files:
     theseus/geometry/lie_group_check.py           (checks on/off, silent, silence_internal_warnings)
     theseus/geometry/utils.py 14-57               (lie-tangent updates of LieGroupTensor)
     torchlie/torchlie/functional/check_contexts.py (torchlie's own checks)
     torchlie/torchlie/lie_tensor.py 28-55         (as_euclidean)
   A thread is a small-step machine: a program of nested `with` blocks, try/except and raises, a stack
   of what is still to be done, the thread's copy of the thread-local attributes, and the attributes
   of its context-manager objects. *)
Require Import List Bool Arith Lia.
Import ListNotations.

(* lie_group_check.py 10-37: the three attributes are always set together *)
Record chk := mkChk { c_check : bool; c_silent : bool; c_siw : bool }.

(* threading.local() attributes of one thread; None = hasattr is False.
   lie_group_check.py 11, check_contexts.py 13, utils.py 15, lie_tensor.py 29 *)
Record tls := mkTls { t_chk : option chk; t_lie : option bool; t_tan : option bool; t_euc : option bool }.

(* lie_group_check.py 14-24: get_context, which also installs the defaults when unset *)
Definition chk_get (s : tls) : chk * tls :=
  match t_chk s with
  | Some c => (c, s)
  | None => let c := mkChk true false false in (c, mkTls (Some c) (t_lie s) (t_tan s) (t_euc s))
  end.
(* lie_group_check.py 26-37: set_context; the print of lines 30-34 is not modelled *)
Definition chk_set (c : chk) (s : tls) : tls := mkTls (Some c) (t_lie s) (t_tan s) (t_euc s).
(* check_contexts.py 15-23 *)
Definition lie_get (s : tls) : bool * tls :=
  match t_lie s with Some b => (b, s) | None => (false, mkTls (t_chk s) (Some false) (t_tan s) (t_euc s)) end.
Definition lie_set (b : bool) (s : tls) : tls := mkTls (t_chk s) (Some b) (t_tan s) (t_euc s).
(* utils.py 17-25 *)
Definition tan_get (s : tls) : bool * tls :=
  match t_tan s with Some b => (b, s) | None => (false, mkTls (t_chk s) (t_lie s) (Some false) (t_euc s)) end.
Definition tan_set (b : bool) (s : tls) : tls := mkTls (t_chk s) (t_lie s) (Some b) (t_euc s).
(* lie_tensor.py 31-39 *)
Definition euc_get (s : tls) : bool * tls :=
  match t_euc s with Some b => (b, s) | None => (false, mkTls (t_chk s) (t_lie s) (t_tan s) (Some false)) end.
Definition euc_set (b : bool) (s : tls) : tls := mkTls (t_chk s) (t_lie s) (t_tan s) (Some b).

(* The expressions a user can put after `with`. The class-based managers that read the context in
   __enter__ carry the identity of the manager object, because the same object may be used again;
   the two that read it in __init__ are built by the with statement itself. *)
Inductive cm :=
| SetCheck (mode silent siw : bool)      (* lie_group_check.py 40-54 *)
| EnableCheck (silent siw : bool)        (* lie_group_check.py 57-68 *)
| NoCheck (silent siw : bool)            (* lie_group_check.py 71-81 *)
| SilenceWarnings                        (* lie_group_check.py 84-98 *)
| EnableLieChecks (obj : nat)            (* check_contexts.py 26-35 *)
| SetTangent (mode : bool)               (* utils.py 28-37 *)
| EnableTangent (obj : nat)              (* utils.py 40-46 *)
| NoTangent (obj : nat)                  (* utils.py 49-57 *)
| AsEuclidean.                           (* lie_tensor.py 42-51 *)

(* Straight-line programs; every finite execution of a Python program, whatever its branches and
   loops, follows one of these. Construct = building as_euclidean() or set_lie_tangent_enabled(mode)
   without a with statement. Observe records the settings in force. *)
Inductive prog :=
| Skip | Observe | Raise
| Seq (p q : prog)
| TryExcept (p q : prog)                 (* try: p  except: q *)
| With (m : cm) (p : prog)
| ConstructTangent (mode : bool)
| ConstructEuclidean.

(* What is suspended while a body runs *)
Inductive frame :=
| FSeq (q : prog)
| FTry (q : prog)
| FGenCheck (prev : chk)                     (* generator of set_lie_group_check_enabled at its yield, line 53 *)
| FGenOuter                                  (* generator of enable_/no_lie_group_check at its yield, lines 68/81 *)
| FGenSilence (mode silent prev_siw : bool)  (* generator of silence_internal_warnings at its yield, line 97 *)
| FLie (obj : nat) | FTan (obj : nat)        (* __exit__ reads self.prev from the object *)
| FTanObj (prev : bool) | FEucObj (prev : bool).

Inductive control := Run (p : prog) | Ret | Exc.

(* The settings as a query would report them *)
Record settings := mkSet { s_chk : chk; s_lie : bool; s_tan : bool; s_euc : bool }.
Definition settings_of (s : tls) : settings :=
  mkSet (fst (chk_get s)) (fst (lie_get s)) (fst (tan_get s)) (fst (euc_get s)).

Record thread := mkTh {
  th_ctl : control; th_stack : list frame; th_prev : nat -> bool;   (* self.prev of each manager object *)
  th_log : list settings }.

Definition put (o : nat) (v : bool) (h : nat -> bool) : nat -> bool :=
  fun x => if Nat.eqb x o then v else h x.

(* Entering `with m:` : evaluate the expression and call __enter__ *)
Definition enter (m : cm) (s : tls) (h : nat -> bool) : list frame * tls * (nat -> bool) :=
  match m with
  | SetCheck mode silent siw =>                                   (* lines 51-52 *)
      let (prev, s1) := chk_get s in ([FGenCheck prev], chk_set (mkChk mode silent siw) s1, h)
  | EnableCheck silent siw =>                                     (* line 67 enters the inner with *)
      let (prev, s1) := chk_get s in ([FGenOuter; FGenCheck prev], chk_set (mkChk true silent siw) s1, h)
  | NoCheck silent siw =>                                         (* line 80 *)
      let (prev, s1) := chk_get s in ([FGenOuter; FGenCheck prev], chk_set (mkChk false silent siw) s1, h)
  | SilenceWarnings =>                                            (* lines 94-95 *)
      let (prev, s1) := chk_get s in
      ([FGenSilence (c_check prev) (c_silent prev) (c_siw prev)],
       chk_set (mkChk (c_check prev) (c_silent prev) true) s1, h)
  | EnableLieChecks o =>                                          (* check_contexts.py 31-32 *)
      let (prev, s1) := lie_get s in ([FLie o], lie_set true s1, put o prev h)
  | SetTangent mode =>                                            (* utils.py 30-31 *)
      let (prev, s1) := tan_get s in ([FTanObj prev], tan_set mode s1, h)
  | EnableTangent o =>                                            (* utils.py 42-43 *)
      let (prev, s1) := tan_get s in ([FTan o], tan_set true s1, put o prev h)
  | NoTangent o =>                                                (* utils.py 51-52 *)
      let (prev, s1) := tan_get s in ([FTan o], tan_set false s1, put o prev h)
  | AsEuclidean =>                                                (* lie_tensor.py 44-45 *)
      let (prev, s1) := euc_get s in ([FEucObj prev], euc_set true s1, h)
  end.

(* Leaving normally: the generator is resumed after its yield, or __exit__ is called *)
Definition leave (f : frame) (s : tls) (h : nat -> bool) : tls :=
  match f with
  | FGenCheck prev => chk_set prev s                              (* lie_group_check.py 54 *)
  | FGenOuter => s                                                (* the inner with is left next *)
  | FGenSilence mode silent siw => chk_set (mkChk mode silent siw) s   (* line 98 *)
  | FLie o => lie_set (h o) s                                     (* check_contexts.py 35 *)
  | FTan o => tan_set (h o) s                                     (* utils.py 46 and 56 *)
  | FTanObj prev => tan_set prev s                                (* utils.py 37 *)
  | FEucObj prev => euc_set prev s                                (* lie_tensor.py 51 *)
  | FSeq _ | FTry _ => s
  end.

(* Leaving by an exception: contextlib throws it into the generator at the yield; the generators
   have no try/finally, so the statement after the yield is not executed. __exit__ of the classes
   runs in any case and does not swallow the exception. *)
Definition unwind (f : frame) (s : tls) (h : nat -> bool) : tls :=
  match f with
  | FGenCheck _ | FGenOuter | FGenSilence _ _ _ => s
  | _ => leave f s h
  end.

(* One step of one thread; None when it has finished *)
Definition step1 (t : thread) (s : tls) : option (thread * tls) :=
  let K := th_stack t in let h := th_prev t in let lg := th_log t in
  match th_ctl t with
  | Run Skip => Some (mkTh Ret K h lg, s)
  | Run Observe =>
      let s1 := snd (chk_get s) in let s2 := snd (lie_get s1) in
      let s3 := snd (tan_get s2) in let s4 := snd (euc_get s3) in
      Some (mkTh Ret K h (lg ++ [settings_of s]), s4)
  | Run Raise => Some (mkTh Exc K h lg, s)
  | Run (Seq p q) => Some (mkTh (Run p) (FSeq q :: K) h lg, s)
  | Run (TryExcept p q) => Some (mkTh (Run p) (FTry q :: K) h lg, s)
  | Run (With m p) =>
      match enter m s h with (fs, s1, h1) => Some (mkTh (Run p) (fs ++ K) h1 lg, s1) end
  | Run (ConstructTangent mode) => Some (mkTh Ret K h lg, tan_set mode (snd (tan_get s)))
  | Run ConstructEuclidean => Some (mkTh Ret K h lg, euc_set true (snd (euc_get s)))
  | Ret => match K with
           | [] => None
           | FSeq q :: K1 => Some (mkTh (Run q) K1 h lg, s)
           | f :: K1 => Some (mkTh Ret K1 h lg, leave f s h)
           end
  | Exc => match K with
           | [] => None
           | FTry q :: K1 => Some (mkTh (Run q) K1 h lg, s)
           | f :: K1 => Some (mkTh Exc K1 h lg, unwind f s h)
           end
  end.

Fixpoint steps (n : nat) (t : thread) (s : tls) : thread * tls :=
  match n with
  | O => (t, s)
  | S n1 => match step1 t s with None => (t, s) | Some (t1, s1) => steps n1 t1 s1 end
  end.

(* Several threads. threading.local() gives every thread its own attributes: the shared store is
   indexed by the identity of the running thread. *)
Record world := mkW { w_tls : nat -> tls; w_th : nat -> thread }.
Definition upd {A} (f : nat -> A) (k : nat) (v : A) : nat -> A := fun x => if Nat.eqb x k then v else f x.
Definition wstep (k : nat) (w : world) : world :=
  match step1 (w_th w k) (w_tls w k) with
  | None => w
  | Some (t1, s1) => mkW (upd (w_tls w) k s1) (upd (w_th w) k t1)
  end.
Definition schedule (l : list nat) (w : world) : world := fold_left (fun w k => wstep k w) l w.

Definition start (p : prog) (h : nat -> bool) : thread := mkTh (Run p) [] h [].
Definition finished (t : thread) : Prop := th_stack t = [] /\ (th_ctl t = Ret \/ th_ctl t = Exc).
