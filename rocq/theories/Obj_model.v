(** Model of the structural part of [theseus.core.objective.Objective]:
    the registry of cost functions, cost weights and variables. *)
From Coq Require Import List Arith Bool.
Import ListNotations.
From Verif Require Import Dict.

(** Python objects are identified by natural numbers (object identity); the functions that
    can be attached to variables are cost functions and cost weights. *)
Definition name := nat.
Definition vid := nat.   (* Variable objects *)
Definition cid := nat.   (* CostFunction objects *)
Definition wid := nat.   (* CostWeight objects *)
Inductive fid := CF (c : cid) | CW (w : wid).

Definition fid_eqb (a b : fid) : bool :=
  match a, b with
  | CF x, CF y => x =? y
  | CW x, CW y => x =? y
  | _, _ => false
  end.

(** The objects the user created.
    theseus/core/variable.py 19-26 (a variable has a name; its dtype is compared with the
    objective's: [v_dtype_ok]); theseus/core/theseus_function.py 118-124 (the ordered lists of
    registered optimization/auxiliary variables); theseus/core/cost_function.py (the weight).
    Simplification: names, registrations and the [weight] attribute do not change between
    the calls modelled here (the setters exist in Python but are used by [Objective.copy] only);
    [Variable.__init__] always gives a variable a name, so the [name is None] check of
    objective.py 177-181 cannot fire. *)
Record world := {
  v_name : vid -> name;
  v_dtype_ok : vid -> bool;
  c_name : cid -> name;
  c_optim : cid -> list vid;
  c_aux : cid -> list vid;
  c_weight : cid -> wid;
  w_optim : wid -> list vid;
  w_aux : wid -> list vid;
  allow_mixed : bool   (* objective.py 154, constructor argument *)
}.

(** objective.py 72-111: the attributes of an [Objective] that concern structure. *)
Record state := {
  optim_vars : dict vid;                 (* name -> variable *)
  cw_optim_vars : dict vid;              (* name -> variable *)
  aux_vars : dict vid;                   (* name -> variable *)
  all_vars : dict vid;                   (* name -> variable *)
  cost_functions : dict cid;             (* name -> cost function *)
  cfs_for_weights : dict (list cid);     (* weight -> cost functions *)
  fns_for_optim : dict (list fid);       (* variable -> functions *)
  fns_for_aux : dict (list fid);         (* variable -> functions *)
  version : nat
}.

(** objective.py 72-111 *)
Definition init : state :=
  {| optim_vars := []; cw_optim_vars := []; aux_vars := []; all_vars := [];
     cost_functions := []; cfs_for_weights := []; fns_for_optim := []; fns_for_aux := [];
     version := 0 |}.

Inductive exn := ValueError | KeyError | AssertionError | RuntimeError.

(** A call either returns or raises; in both cases it leaves a state (nothing is rolled back). *)
Inductive outcome (S : Type) := Ok (s : S) | Raise (e : exn) (s : S).
Arguments Ok {S} s.
Arguments Raise {S} e s.

Definition bind {S} (r : outcome S) (k : S -> outcome S) : outcome S :=
  match r with Ok s => k s | Raise e s => Raise e s end.

Definition final {S} (r : outcome S) : S := match r with Ok s => s | Raise _ s => s end.
Definition ok {S} (r : outcome S) : bool := match r with Ok _ => true | Raise _ _ => false end.

(** Python [for x in l: body] where the body may raise. *)
Fixpoint for_each {S A} (body : S -> A -> outcome S) (l : list A) (s : S) : outcome S :=
  match l with
  | [] => Ok s
  | x :: r => bind (body s x) (for_each body r)
  end.

(** Which containers a call works on: objective.py 164-173 and 396-405. *)
Inductive kind := KOptim | KWeightOptim | KAux.

Definition kind_vars (k : kind) (s : state) : dict vid :=
  match k with
  | KOptim => optim_vars s
  | KWeightOptim => cw_optim_vars s
  | KAux => aux_vars s
  end.

Definition kind_fns (k : kind) (s : state) : dict (list fid) :=
  match k with KAux => fns_for_aux s | _ => fns_for_optim s end.

Definition with_kind_vars (k : kind) (d : dict vid) (s : state) : state :=
  match k with
  | KOptim =>
    {| optim_vars := d; cw_optim_vars := cw_optim_vars s; aux_vars := aux_vars s;
       all_vars := all_vars s; cost_functions := cost_functions s;
       cfs_for_weights := cfs_for_weights s; fns_for_optim := fns_for_optim s;
       fns_for_aux := fns_for_aux s; version := version s |}
  | KWeightOptim =>
    {| optim_vars := optim_vars s; cw_optim_vars := d; aux_vars := aux_vars s;
       all_vars := all_vars s; cost_functions := cost_functions s;
       cfs_for_weights := cfs_for_weights s; fns_for_optim := fns_for_optim s;
       fns_for_aux := fns_for_aux s; version := version s |}
  | KAux =>
    {| optim_vars := optim_vars s; cw_optim_vars := cw_optim_vars s; aux_vars := d;
       all_vars := all_vars s; cost_functions := cost_functions s;
       cfs_for_weights := cfs_for_weights s; fns_for_optim := fns_for_optim s;
       fns_for_aux := fns_for_aux s; version := version s |}
  end.

Definition with_kind_fns (k : kind) (d : dict (list fid)) (s : state) : state :=
  match k with
  | KAux =>
    {| optim_vars := optim_vars s; cw_optim_vars := cw_optim_vars s; aux_vars := aux_vars s;
       all_vars := all_vars s; cost_functions := cost_functions s;
       cfs_for_weights := cfs_for_weights s; fns_for_optim := fns_for_optim s;
       fns_for_aux := d; version := version s |}
  | _ =>
    {| optim_vars := optim_vars s; cw_optim_vars := cw_optim_vars s; aux_vars := aux_vars s;
       all_vars := all_vars s; cost_functions := cost_functions s;
       cfs_for_weights := cfs_for_weights s; fns_for_optim := d;
       fns_for_aux := fns_for_aux s; version := version s |}
  end.

Definition with_all_vars (d : dict vid) (s : state) : state :=
  {| optim_vars := optim_vars s; cw_optim_vars := cw_optim_vars s; aux_vars := aux_vars s;
     all_vars := d; cost_functions := cost_functions s;
     cfs_for_weights := cfs_for_weights s; fns_for_optim := fns_for_optim s;
     fns_for_aux := fns_for_aux s; version := version s |}.

Definition with_cost_functions (d : dict cid) (s : state) : state :=
  {| optim_vars := optim_vars s; cw_optim_vars := cw_optim_vars s; aux_vars := aux_vars s;
     all_vars := all_vars s; cost_functions := d;
     cfs_for_weights := cfs_for_weights s; fns_for_optim := fns_for_optim s;
     fns_for_aux := fns_for_aux s; version := version s |}.

Definition with_cfs_for_weights (d : dict (list cid)) (s : state) : state :=
  {| optim_vars := optim_vars s; cw_optim_vars := cw_optim_vars s; aux_vars := aux_vars s;
     all_vars := all_vars s; cost_functions := cost_functions s;
     cfs_for_weights := d; fns_for_optim := fns_for_optim s;
     fns_for_aux := fns_for_aux s; version := version s |}.

Definition bump_version (s : state) : state :=
  {| optim_vars := optim_vars s; cw_optim_vars := cw_optim_vars s; aux_vars := aux_vars s;
     all_vars := all_vars s; cost_functions := cost_functions s;
     cfs_for_weights := cfs_for_weights s; fns_for_optim := fns_for_optim s;
     fns_for_aux := fns_for_aux s; version := S (version s) |}.

(** objective.py 175-208: the body of the loop of [_add_function_variables]. *)
Definition add_var (w : world) (k : kind) (f : fid) (s : state) (v : vid) : outcome state :=
  let n := v_name w v in
  if negb (v_dtype_ok w v) then Raise ValueError s else
  bind
    (match lookup n (all_vars s) with
     | Some v' => if v =? v' then Ok s else Raise ValueError s
     | None =>
       let s1 := with_all_vars (set n v (all_vars s)) s in
       if has v (kind_fns k s1) then Raise AssertionError s1
       else Ok (with_kind_fns k (set v [] (kind_fns k s1)) s1)
     end)
    (fun s1 =>
       let s2 := with_kind_vars k (set n v (kind_vars k s1)) s1 in
       let s3 := if allow_mixed w && negb (has v (kind_fns k s2))
                 then with_kind_fns k (set v [] (kind_fns k s2)) s2 else s2 in
       match lookup v (kind_fns k s3) with
       | None => Raise KeyError s3
       | Some l => Ok (with_kind_fns k (set v (l ++ [f]) (kind_fns k s3)) s3)
       end).

(** objective.py 158-208 [_add_function_variables] *)
Definition add_function_variables (w : world) (k : kind) (f : fid) (vars : list vid)
  (s : state) : outcome state :=
  for_each (add_var w k f) vars s.

(** objective.py 305-310: raise if one of the names is in the given container. *)
Definition any_in (w : world) (vars : list vid) (d : dict vid) : bool :=
  existsb (fun v => has (v_name w v) d) vars.

(** objective.py 210-310 [add] *)
Definition add (w : world) (c : cid) (s : state) : outcome state :=
  let n := c_name w c in
  let wt := c_weight w c in
  bind
    (match lookup n (cost_functions s) with
     | Some c' => if c =? c' then Ok s (* warns *) else Raise ValueError s
     | None => Ok (with_cost_functions (set n c (cost_functions s)) s)
     end)
    (fun s0 =>
  let s1 := bump_version s0 in
  bind (add_function_variables w KOptim (CF c) (c_optim w c) s1) (fun s2 =>
  bind (add_function_variables w KAux (CF c) (c_aux w c) s2) (fun s3 =>
  bind
    (if has wt (cfs_for_weights s3) then Ok s3 else
       bind (add_function_variables w KWeightOptim (CW wt) (w_optim w wt) s3) (fun s4 =>
       bind (add_function_variables w KAux (CW wt) (w_aux w wt) s4) (fun s5 =>
       let s6 := with_cfs_for_weights (set wt [] (cfs_for_weights s5)) s5 in
       if 0 <? length (w_optim w wt) then Raise RuntimeError s6 else Ok s6)))
    (fun s7 =>
  match lookup wt (cfs_for_weights s7) with
  | None => Raise KeyError s7
  | Some l =>
    let s8 := with_cfs_for_weights (set wt (l ++ [c]) (cfs_for_weights s7)) s7 in
    if allow_mixed w then Ok s8 else
    if any_in w (c_optim w c ++ w_optim w wt) (aux_vars s8) then Raise ValueError s8 else
    if any_in w (c_aux w c ++ w_aux w wt) (optim_vars s8) then Raise ValueError s8 else
    Ok s8
  end)))).

(** Python [l.index(x)] then [del l[i]]: remove the first occurrence; [None] = ValueError. *)
Fixpoint remove_first {A} (eqb : A -> A -> bool) (x : A) (l : list A) : option (list A) :=
  match l with
  | [] => None
  | y :: r => if eqb x y then Some r
              else match remove_first eqb x r with Some r' => Some (y :: r') | None => None end
  end.

(** objective.py 407-415: the body of the loop of [_erase_function_variables]. *)
Definition erase_var (w : world) (k : kind) (f : fid) (s : state) (v : vid) : outcome state :=
  let n := v_name w v in
  match lookup v (kind_fns k s) with
  | None => Raise KeyError s
  | Some l =>
    match remove_first fid_eqb f l with
    | None => Raise ValueError s
    | Some l' =>
      let s1 := with_kind_fns k (set v l' (kind_fns k s)) s in
      match l' with
      | _ :: _ => Ok s1
      | [] =>
        if negb (has n (all_vars s1)) then Raise KeyError s1 else
        let s2 := with_all_vars (del n (all_vars s1)) s1 in
        let s3 := with_kind_fns k (del v (kind_fns k s2)) s2 in
        if negb (has n (kind_vars k s3)) then Raise KeyError s3 else
        Ok (with_kind_vars k (del n (kind_vars k s3)) s3)
      end
    end
  end.

(** objective.py 390-415 [_erase_function_variables] *)
Definition erase_function_variables (w : world) (k : kind) (f : fid) (vars : list vid)
  (s : state) : outcome state :=
  for_each (erase_var w k f) vars s.

(** objective.py 417-458 [erase] *)
Definition erase (w : world) (n : name) (s : state) : outcome state :=
  let s0 := bump_version s in
  match lookup n (cost_functions s0) with
  | None => Ok s0 (* warns *)
  | Some c =>
    let wt := c_weight w c in
    bind (erase_function_variables w KOptim (CF c) (c_optim w c) s0) (fun s1 =>
    bind (erase_function_variables w KAux (CF c) (c_aux w c) s1) (fun s2 =>
    match lookup wt (cfs_for_weights s2) with
    | None => Raise KeyError s2
    | Some l =>
      match remove_first Nat.eqb c l with
      | None => Raise ValueError s2
      | Some l' =>
        let s3 := with_cfs_for_weights (set wt l' (cfs_for_weights s2)) s2 in
        bind
          (if length l' =? 0 then
             bind (erase_function_variables w KWeightOptim (CW wt) (w_optim w wt) s3) (fun s4 =>
             bind (erase_function_variables w KAux (CW wt) (w_aux w wt) s4) (fun s5 =>
             Ok (with_cfs_for_weights (del wt (cfs_for_weights s5)) s5)))
           else Ok s3)
          (fun s6 => Ok (with_cost_functions (del n (cost_functions s6)) s6))
      end
    end))
  end.

(** objective.py 336-347, 361-372, 324-334 *)
Definition has_optim_var (s : state) (n : name) : bool := has n (optim_vars s).
Definition has_aux_var (s : state) (n : name) : bool := has n (aux_vars s).
Definition has_cost_function (s : state) (n : name) : bool := has n (cost_functions s).
Definition get_optim_var (s : state) (n : name) : option vid := lookup n (optim_vars s).
Definition get_aux_var (s : state) (n : name) : option vid := lookup n (aux_vars s).

(** objective.py 460-477 [_get_functions_connected_to_var], called with a name;
    [None] is the ValueError. *)
Definition functions_connected (vars : dict vid) (fns : dict (list fid)) (n : name)
  : option (list fid) :=
  match lookup n vars with
  | None => None
  | Some v => lookup v fns
  end.

(** objective.py 479-497 *)
Definition get_functions_connected_to_optim_var (s : state) (n : name) : option (list fid) :=
  functions_connected (optim_vars s) (fns_for_optim s) n.
(** objective.py 499-514 *)
Definition get_functions_connected_to_aux_var (s : state) (n : name) : option (list fid) :=
  functions_connected (aux_vars s) (fns_for_aux s) n.

(** objective.py 529-560 *)
Definition size_cost_functions (s : state) : nat := length (cost_functions s).
Definition size_variables (s : state) : nat := length (optim_vars s).
Definition size_aux_vars (s : state) : nat := length (aux_vars s).

(** The structural calls a user can make. *)
Inductive op := Add (c : cid) | Erase (n : name).

Definition step (w : world) (o : op) (s : state) : outcome state :=
  match o with Add c => add w c s | Erase n => erase w n s end.

(** A user program: it may catch exceptions and go on, so the state left by a raising call
    is the state the next call starts from. *)
Fixpoint run (w : world) (ops : list op) (s : state) : state :=
  match ops with
  | [] => s
  | o :: r => run w r (final (step w o s))
  end.

(** Did no call of the program raise? *)
Fixpoint all_ok (w : world) (ops : list op) (s : state) : bool :=
  match ops with
  | [] => true
  | o :: r => ok (step w o s) && all_ok w r (final (step w o s))
  end.

(** ---- version check of optimizers and layers ---- *)

(** theseus/optimizer/optimizer.py 27-34 and theseus/theseus_layer.py 41: the version is recorded
    when the optimizer / layer is constructed. *)
Record optimizer := { recorded_version : nat }.
Definition make_optimizer (s : state) : optimizer := {| recorded_version := version s |}.

(** optimizer.py 40-53 [optimize] and theseus_layer.py 50-54 [forward]: the call raises
    RuntimeError when the versions differ; otherwise it goes on to [_optimize_impl]. *)
Inductive run_decision := Runs | RaisesStale.
Definition optimize (o : optimizer) (s : state) : run_decision :=
  if recorded_version o =? version s then Runs else RaisesStale.
