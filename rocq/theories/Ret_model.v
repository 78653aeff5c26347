(** Model of retraction of a sequence of variables: [Objective._retract_base] and
    [Vectorize._vectorized_retract_optim_vars]. *)
From Coq Require Import List Arith Bool.
Import ListNotations.
From Verif Require Import Dict Obj_model Upd_model Group.

Section Ret.
(** [E]: one batch row of a variable's tensor; [S]: scalars of delta. *)
Context {E S : Type}.
Variable dE : E.
Variable v_kind : vid -> nat.           (* (class, dof) of the variable *)
Variable kdof : nat -> nat.             (* the dof of a kind *)
(** one row of [Manifold.retract]; retraction acts row by row (manifold.py, lie_group.py) *)
Variable retr : nat -> E -> list S -> E.

Definition vdof (v : vid) : nat := kdof (v_kind v).

(** [delta[:, i : i + n]] *)
Definition slice_cols (i n : nat) (delta : list (list S)) : list (list S) :=
  map (fun row => firstn n (skipn i row)) delta.

Definition browd {A} (d : A) (l : list A) (i : nat) : A :=
  if length l =? 1 then nth 0 l d else nth i l d.

(** [v.retract(delta)] with torch broadcasting of the batch dimension; [None]: batch dimensions
    do not broadcast (RuntimeError). *)
Definition retract_rows (k : nat) (t : list E) (dl : list (list S)) : option (list E) :=
  match bcast (length t) (length dl) with
  | None => None
  | Some n => Some (map (fun i => retr k (browd dE t i) (browd [] dl i)) (seq 0 n))
  end.

(** variable.py 65-71, with shape and dtype equal; objective.py 867-870, vectorizer.py 465-468 *)
Definition masked_set (mask : option (list bool)) (force : bool) (old new : list E) : option (list E) :=
  match mask with
  | None => Some new
  | Some m => if force then Some new
              else if existsb (fun b => b) m then where_rows m old new else Some new
  end.

(** objective.py 858-871 [_retract_base]; [None]: an exception. *)
Fixpoint retract_base (delta : list (list S)) (mask : option (list bool)) (force : bool)
    (ordering : list vid) (idx : nat) (st : vid -> list E) : option (vid -> list E) :=
  match ordering with
  | [] => Some st
  | v :: r =>
    match retract_rows (v_kind v) (st v) (slice_cols idx (vdof v) delta) with
    | None => None
    | Some new => match masked_set mask force (st v) new with
                  | None => None
                  | Some t => retract_base delta mask force r (idx + vdof v) (upd st v t)
                  end
    end
  end.

(** vectorizer.py 425-441: the variables with their delta slices; [None]: the batch size assert *)
Fixpoint ret_items (delta : list (list S)) (ordering : list vid) (idx : nat) : list (vid * list (list S)) :=
  match ordering with
  | [] => []
  | v :: r => (v, slice_cols idx (vdof v) delta) :: ret_items delta r (idx + vdof v)
  end.

(** vectorizer.py 462-469: redistribute the rows of the group *)
Fixpoint ret_scatter (b : nat) (mask : option (list bool)) (force : bool) (vars : list vid) (start : nat)
    (new : list E) (st : vid -> list E) : option (vid -> list E) :=
  match vars with
  | [] => Some st
  | v :: r => match masked_set mask force (st v) (firstn b (skipn start new)) with
              | None => None
              | Some t => ret_scatter b mask force r (start + b) new (upd st v t)
              end
  end.

(** vectorizer.py 443-469: one group *)
Definition ret_group (b : nat) (mask : option (list bool)) (force : bool) (k : nat)
    (items : list (vid * list (list S))) (st : vid -> list E) : option (vid -> list E) :=
  let vt := concat (map (fun it => st (fst it)) items) in
  let vd := concat (map snd items) in
  if negb (length vt =? length items * b) then None else   (* line 450 assert *)
  if negb (length vd =? length items * b) then None else   (* line 457 assert *)
  match retract_rows k vt vd with
  | None => None
  | Some new => ret_scatter b mask force (map fst items) 0 new st
  end.

Fixpoint ret_groups (b : nat) (mask : option (list bool)) (force : bool)
    (gs : dict (list (vid * list (list S)))) (st : vid -> list E) : option (vid -> list E) :=
  match gs with
  | [] => Some st
  | (k, items) :: r => match ret_group b mask force k items st with
                       | None => None
                       | Some st' => ret_groups b mask force r st'
                       end
  end.

(** vectorizer.py 409-469 *)
Definition retract_vectorized (delta : list (list S)) (mask : option (list bool)) (force : bool)
    (ordering : list vid) (st : vid -> list E) : option (vid -> list E) :=
  match ordering with
  | [] => Some st
  | v0 :: _ =>
    let b := length (st v0) in
    if forallb (fun v => length (st v) =? b) ordering   (* lines 430-433 assert *)
    then ret_groups b mask force (group_by (fun it => v_kind (fst it)) (ret_items delta ordering 0)) st
    else None
  end.
End Ret.
