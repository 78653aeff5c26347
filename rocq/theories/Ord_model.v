(** Model of [theseus.optimizer.VariableOrdering]. *)
From Coq Require Import List Arith Bool.
Import ListNotations.
From Verif Require Import Dict Obj_model.

(** variable_ordering.py 12-17: the list of variables and the name -> index dict. The
    objective is fixed during the life of the ordering: its optimization variables are [ov]
    (name -> variable); [vn] gives the name of every variable object. *)
Record ord := { vorder : list vid; vindex : dict nat }.

Section Ord.
Variable vn : vid -> name.
Variable ov : dict vid.

(** variable_ordering.py 14-15 *)
Definition ord_empty : ord := {| vorder := []; vindex := [] |}.

(** variable_ordering.py 19-27 [_compute_default_order], one iteration; [cur_idx] is the
    number of variables appended so far. *)
Definition default_step (s : ord) (nv : name * vid) : ord :=
  if has (fst nv) (vindex s) then s
  else {| vorder := vorder s ++ [snd nv]; vindex := set (fst nv) (length (vorder s)) (vindex s) |}.
Definition ord_default : ord := fold_left default_step ov ord_empty.

(** variable_ordering.py 29-30 *)
Definition index_of (s : ord) (n : name) : option nat := lookup n (vindex s).

(** variable_ordering.py 38-48 *)
Definition ord_append (s : ord) (v : vid) : outcome ord :=
  if has (vn v) (vindex s) then Raise ValueError s else
  if negb (has (vn v) ov) then Raise ValueError s else
  let o := vorder s ++ [v] in
  Ok {| vorder := o; vindex := set (vn v) (length o - 1) (vindex s) |}.

(** Python [list.remove]: the first occurrence (identity); [None] is the ValueError. *)
Fixpoint list_remove (v : vid) (l : list vid) : option (list vid) :=
  match l with
  | [] => None
  | x :: r => if x =? v then Some r
              else match list_remove v r with Some r' => Some (x :: r') | None => None end
  end.

(** variable_ordering.py 50-52 *)
Definition ord_remove (s : ord) (v : vid) : outcome ord :=
  match list_remove v (vorder s) with
  | None => Raise ValueError s
  | Some o => if has (vn v) (vindex s)
              then Ok {| vorder := o; vindex := del (vn v) (vindex s) |}
              else Raise KeyError {| vorder := o; vindex := vindex s |}
  end.

(** variable_ordering.py 54-56 *)
Definition ord_extend (s : ord) (vs : list vid) : outcome ord := for_each ord_append vs s.

(** variable_ordering.py 58-60 *)
Definition ord_complete (s : ord) : bool := length (vorder s) =? length ov.

Inductive oop := OAppend (v : vid) | OExtend (vs : list vid) | ORemove (v : vid).
Definition ord_call (s : ord) (o : oop) : outcome ord :=
  match o with
  | OAppend v => ord_append s v
  | OExtend vs => ord_extend s vs
  | ORemove v => ord_remove s v
  end.
(** A history; exceptions are caught by the user. *)
Definition ord_run (ops : list oop) (s : ord) : ord :=
  fold_left (fun s o => final (ord_call s o)) ops s.
End Ord.
