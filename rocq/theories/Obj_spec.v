(** Specification of the registry, independent of how [Objective] stores it. *)
From Coq Require Import List Arith Bool.
Import ListNotations.
From Verif Require Import Obj_model.

(** The cost functions a user who made these calls expects to be in the objective, in the
    order in which they were added. *)
Definition spec_step (w : world) (cs : list cid) (o : op) : list cid :=
  match o with
  | Add c => cs ++ [c]
  | Erase n => filter (fun c => negb (c_name w c =? n)) cs
  end.
Definition present (w : world) (ops : list op) : list cid := fold_left (spec_step w) ops [].

(** No call adds a cost function object that is in the objective at that moment. *)
Fixpoint fresh_from (w : world) (cs : list cid) (ops : list op) : Prop :=
  match ops with
  | [] => True
  | o :: r => (match o with Add c => ~ In c cs | Erase _ => True end)
              /\ fresh_from w (spec_step w cs o) r
  end.
Definition fresh (w : world) (ops : list op) : Prop := fresh_from w [] ops.

(** Variables used by a set of cost functions. *)
Definition used_optim (w : world) (cs : list cid) (v : vid) : Prop :=
  exists c, In c cs /\ In v (c_optim w c).
Definition used_aux (w : world) (cs : list cid) (v : vid) : Prop :=
  exists c, In c cs /\ (In v (c_aux w c) \/ In v (w_aux w (c_weight w c))).
Definition used (w : world) (cs : list cid) (v : vid) : Prop :=
  used_optim w cs v \/ used_aux w cs v.

(** How many times function [f] uses [v] as an optimization variable. *)
Definition times_optim (w : world) (cs : list cid) (v : vid) (f : fid) : nat :=
  match f with
  | CF c => count_occ Nat.eq_dec cs c * count_occ Nat.eq_dec (c_optim w c) v
  | CW _ => 0
  end.
(** How many times function [f] (a present cost function, or the weight of one, counted once
    however many cost functions share it) uses [v] as an auxiliary variable. *)
Definition times_aux (w : world) (cs : list cid) (v : vid) (f : fid) : nat :=
  match f with
  | CF c => count_occ Nat.eq_dec cs c * count_occ Nat.eq_dec (c_aux w c) v
  | CW x => if existsb (fun c => c_weight w c =? x) cs
            then count_occ Nat.eq_dec (w_aux w x) v else 0
  end.

Definition fid_eq_dec : forall a b : fid, {a = b} + {a <> b}.
Proof. decide equality; apply Nat.eq_dec. Defined.
Arguments fid_eq_dec : simpl never.

(** What makes a set of cost functions acceptable to an objective. *)
Record consistent (w : world) (cs : list cid) : Prop := {
  con_dtype : forall v, used w cs v -> v_dtype_ok w v = true;
  con_names : forall v v', used w cs v -> used w cs v' -> v_name w v = v_name w v' -> v = v';
  con_dual : forall v, used_optim w cs v -> used_aux w cs v -> False;
  con_weights : forall c, In c cs -> w_optim w (c_weight w c) = [];
  con_cf_names : NoDup (map (c_name w) cs)
}.
