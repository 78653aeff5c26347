(** Model of the protocol that decides when vectorized errors and Jacobians are recomputed:
    [Variable._num_updates], [Objective._vectorization_needs_update],
    [Objective.update_vectorization_if_needed] and their callers. *)
From Coq Require Import List Arith Bool.
Import ListNotations.

Section Stale.
(** [T]: tensors; [R]: everything one vectorization run computes for all cost functions (weighted
    errors and Jacobians). *)
Context {T R : Type}.
Definition store := nat -> T.
Variable all_vars : list nat.           (* names in [_all_variables] *)
Variable optim : list nat.              (* names in [optim_vars] *)
(** what evaluating all cost functions on a store gives; [None]: an exception. That a vectorization
    run computes this is C11. *)
Variable run : store -> option R.
(** [Variable.update]'s shape and dtype checks on the old tensor and the new one *)
Variable accepts : nat -> T -> T -> bool.
(** [Objective._resolve_batch_size] succeeds *)
Variable resolves : store -> bool.

Record state := mkState {
  tens : store;
  cnt : nat -> nat;                     (* variable.py 21, 72: [_num_updates] *)
  vectorized : bool;
  lastc : list nat;                     (* objective.py 142: [_num_updates_variables], {} at first *)
  last_grad : bool;                     (* objective.py 144 *)
  (** the wrappers' cached error and Jacobians (vectorizer.py 76-77), with whether they were computed
      with gradients enabled; [None] before the first run of this [Vectorize] object *)
  cache : option (R * bool)
}.

(** objective.py 113-146: not vectorized at first *)
Definition init (t : store) : state := mkState t (fun _ => 0) false [] false None.

Definition supd {A} (f : nat -> A) (k : nat) (x : A) : nat -> A := fun j => if j =? k then x else f j.

(** variable.py 40-72: assigns and counts, unless a check raises *)
Definition var_update (n : nat) (t : T) (s : state) : option state :=
  if accepts n (tens s n) t
  then Some (mkState (supd (tens s) n t) (supd (cnt s) n (S (cnt s n)))
                     (vectorized s) (lastc s) (last_grad s) (cache s))
  else None.

(** a sequence of updates; returns the state reached and whether none raised. The new tensor is a
    function of the old one, which covers [batch_ignore_mask] and retraction. Names not in the
    objective are only warned about (objective.py 783-806). *)
Fixpoint var_updates (kvs : list (nat * (T -> T))) (s : state) : state * bool :=
  match kvs with
  | [] => (s, true)
  | (n, f) :: r =>
    if existsb (Nat.eqb n) all_vars
    then match var_update n (f (tens s n)) s with
         | Some s' => var_updates r s'
         | None => (s, false)
         end
    else var_updates r s
  end.

Definition counts (s : state) : list nat := map (cnt s) all_vars.
Definition list_eqb (a b : list nat) : bool := if list_eq_dec Nat.eq_dec a b then true else false.

(** objective.py 813-823: note that the counts are recorded here, before the run *)
Definition needs_update (grad : bool) (s : state) : state * bool :=
  let differ := negb (list_eqb (counts s) (lastc s)) in
  let s' := if differ then mkState (tens s) (cnt s) (vectorized s) (counts s) (last_grad s) (cache s) else s in
  (s', differ || (grad && negb (last_grad s))).

(** objective.py 825-830 (the batch size is resolved inside [run] here); bool: no exception *)
Definition refresh (grad : bool) (s : state) : state * bool :=
  if vectorized s then
    let (s', need) := needs_update grad s in
    if need then
      match run (tens s') with
      | Some r => (mkState (tens s') (cnt s') (vectorized s') (lastc s') grad (Some (r, grad)), true)
      | None => (s', false)
      end
    else (s', true)
  else (s, true).

Inductive op :=
| OVarUpdate (n : nat) (f : T -> T)                       (* v.update(...) on a variable *)
| OUpdate (kvs : list (nat * (T -> T))) (grad : bool)     (* objective.update(...) *)
| OError (kvs : list (nat * (T -> T))) (also : bool) (grad : bool)  (* objective.error(...) *)
| ORetract (kvs : list (nat * (T -> T))) (grad : bool)    (* objective.retract_vars_sequence(...) *)
| OQuery (grad : bool)                                    (* linearization reads the Jacobians *)
| OEnable | ODisable                                      (* Vectorize(objective), disable_vectorization() *)
| OSetItem (n : nat) (f : T -> T)                         (* v[...] = x *)
| OTo (f : T -> T).                                       (* objective.to(...) *)

(** objective.py 728-811 *)
Definition obj_update (kvs : list (nat * (T -> T))) (vec grad : bool) (s : state) : state * bool :=
  let (s1, ok) := var_updates kvs s in
  if ok then
    if resolves (tens s1) then (if vec then refresh grad s1 else (s1, true)) else (s1, false)
  else (s1, false).

(** objective.py 587-613; evaluating the error changes no tensor and no permanent cache
    (vectorizer.py 50-60, 406-407) *)
Definition obj_error (kvs : list (nat * (T -> T))) (also grad : bool) (s : state) : state * bool :=
  let (s1, ok) := obj_update kvs also grad s in
  if ok then
    match run (tens s1) with
    | None => (s1, false)
    | Some _ => if also then (s1, true)
                else obj_update (map (fun n => (n, fun _ => tens s n)) optim) false grad s1
    end
  else (s1, false).

(** objective.py 836-843 and vectorizer.py 86-99: the wrappers serve their cache, or evaluate the
    cost function if there is none *)
Definition served (grad : bool) (s : state) : option (R * bool) :=
  if vectorized s then
    match cache s with
    | Some r => Some r
    | None => match run (tens s) with Some r => Some (r, grad) | None => None end
    end
  else match run (tens s) with Some r => Some (r, grad) | None => None end.

Definition query (grad : bool) (s : state) : state * option (R * bool) :=
  let (s', ok) := refresh grad s in
  (s', if ok then served grad s' else None).

(** one call; the bool says that it did not raise *)
Definition step (o : op) (s : state) : state * bool :=
  match o with
  | OVarUpdate n f => match var_update n (f (tens s n)) s with Some s' => (s', true) | None => (s, false) end
  | OUpdate kvs g => obj_update kvs true g s
  | OError kvs also g => obj_error kvs also g s
  | ORetract kvs g => let (s1, ok) := var_updates kvs s in if ok then refresh g s1 else (s1, false)
  | OQuery g => let (s', r) := query g s in (s', match r with Some _ => true | None => false end)
  (* vectorizer.py 116-155, objective.py 916-935: fresh wrappers, counters not reset *)
  | OEnable => (mkState (tens s) (cnt s) true (lastc s) (last_grad s) None, true)
  (* objective.py 938-944 *)
  | ODisable => (mkState (tens s) (cnt s) false (lastc s) (last_grad s) None, true)
  (* variable.py 97-98: assigns into the tensor, [_num_updates] not incremented *)
  | OSetItem n f => (mkState (supd (tens s) n (f (tens s n))) (cnt s) (vectorized s) (lastc s) (last_grad s) (cache s), true)
  (* variable.py [to]: replaces the tensors, [_num_updates] not incremented *)
  | OTo f => (mkState (fun n => f (tens s n)) (cnt s) (vectorized s) (lastc s) (last_grad s) (cache s), true)
  end.

Fixpoint run_ops (ops : list op) (s : state) : state * bool :=
  match ops with
  | [] => (s, true)
  | o :: r => let (s1, ok) := step o s in let (s2, ok2) := run_ops r s1 in (s2, ok && ok2)
  end.
End Stale.
