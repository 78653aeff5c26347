(** Specification for vectorization: what a cost function computes by itself. *)
From Coq Require Import List Arith Bool.
Import ListNotations.
From Verif Require Import Obj_model Vec_model.

Section S.
Context {E O : Type}.
Variable dE : E.
(** The cost function [c] evaluated on its own variables, broadcast to batch size [b]:
    row [r] is the weighted result on row [r] of each of its variables. *)
Definition own_result (st : vid -> list E) (b : nat) (c : cfn E O) : list O :=
  map (fun r => cf_weigh c (map (fun v => rowat dE (st v) r) (cf_wvars c))
                           (cf_row c (map (fun v => rowat dE (st v) r) (cf_vars c))))
      (seq 0 b).

(** Two cost functions are interchangeable up to their variables. *)
Definition same_function (c c' : cfn E O) : Prop :=
  length (cf_vars c) = length (cf_vars c') /\ length (cf_wvars c) = length (cf_wvars c') /\
  (forall x, cf_row c x = cf_row c' x) /\ (forall w o, cf_weigh c w o = cf_weigh c' w o).

(** A zero weight makes the weighted result zero, whatever the unweighted one is. *)
Definition zero_weight_annihilates (c : cfn E O) : Prop :=
  forall wz, cf_wzero c = Some wz ->
  forall ws x, wz ws = true -> cf_weigh c ws (cf_row c x) = cf_weigh c ws (cf_zero c).
End S.
