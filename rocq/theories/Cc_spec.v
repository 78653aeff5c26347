(** What C97 says about copies, without the constructors. *)
From Coq Require Import Reals List String Arith Bool.
From Verif Require Import Cc_model.
Import ListNotations.
Local Open Scope string_scope.
Local Open Scope nat_scope.

(** as many entries as the shape says *)
Definition wf (t : tensor) : Prop := List.length (t_data t) = numel (t_shape t).
(** what the program may do to the variables between two moments: create more, rename, and give new
    values with Variable.update (variable.py 42-73): the class, the number of dimensions and all
    dimensions but the batch stay *)
Definition later (h h' : heap) : Prop :=
  List.length h <= List.length h' /\
  (forall v, v < List.length h ->
     v_cls (getv h' v) = v_cls (getv h v) /\
     List.length (t_shape (v_tensor (getv h' v))) = List.length (t_shape (v_tensor (getv h v))) /\
     tl (t_shape (v_tensor (getv h' v))) = tl (t_shape (v_tensor (getv h v)))) /\
  (forall v, v < List.length h' -> wf (v_tensor (getv h' v))).
(** the variables passed exist, and none is passed twice *)
Definition ids (args : list arg) : list nat := flat_map (fun a => match a with AV v => [v] | _ => [] end) args.
Definition proper (h : heap) (args : list arg) : Prop := NoDup (ids args) /\ (forall v, In v (ids args) -> v < List.length h).

(** the attribute [k] of the copy: a new variable of the same class, with the same tensor and the name
    with "_copy" appended, or the same name *)
Definition copied (h h' : heap) (keep : bool) (attrs attrs' : list (string * nat)) (k : string) : Prop :=
  exists v v', assoc attrs k = Some v /\ assoc attrs' k = Some v' /\
    List.length h <= v' < List.length h' /\
    v_cls (getv h' v') = v_cls (getv h v) /\ v_tensor (getv h' v') = v_tensor (getv h v) /\
    v_name (getv h' v') = (if keep then v_name (getv h v) else v_name (getv h v) ++ "_copy").

(** the demands of HingeCost on its present limits: every lower limit at most the upper one (the batches
    being equal or one), some threshold not negative *)
Definition hinge_valid (d u t : tensor) : Prop :=
  (forall i j, j < nth 1 (t_shape d) 0 ->
     (nth 0 (t_shape d) 0 = nth 0 (t_shape u) 0 \/ nth 0 (t_shape d) 0 = 1 \/ nth 0 (t_shape u) 0 = 1) /\
     (i < (if nth 0 (t_shape d) 0 =? 1 then nth 0 (t_shape u) 0 else nth 0 (t_shape d) 0) -> (entry d i j <= entry u i j)%R)) /\
  exists x, In x (t_data t) /\ (0 <= x)%R.
(** the tensor an attribute has now *)
Definition now (h : heap) (attrs : list (string * nat)) (k : string) : tensor := v_tensor (look (attr_vars h attrs) k).
(** the demands of a constructor on values and batch sizes, of the present tensors; the other classes have none *)
Definition weight_valid (chol_ok : tensor -> bool) (h : heap) (w : wobj) : Prop :=
  match w_cls w with
  | WScale => True
  | WDiagonal => squeeze_ndim (now h (w_attrs w) "diagonal") < 3
  | WGP => (forall x, In x (t_data (now h (w_attrs w) "dt")) -> (0 < x)%R) /\ chol_ok (now h (w_attrs w) "Qc_inv") = true
  end.
Definition still_valid (chol_ok : tensor -> bool) (h : heap) (f : fobj) : Prop :=
  weight_valid chol_ok h (f_weight f) /\
  match f_cls f with
  | CHinge => hinge_valid (now h (f_attrs f) "down_limit") (now h (f_attrs f) "up_limit") (now h (f_attrs f) "threshold")
  | CQuasiStatic => squeeze_ndim (now h (f_attrs f) "c_square") <= 1
  | _ => True
  end.
