(** C89, specification: which objects an operation mentions, which one it may change, sharing. *)
From Coq Require Import Reals List Arith Bool.
From Verif Require Import Ltt_model.
Import ListNotations.

(** the objects an operation is called with *)
Definition mentions (c : op) (i : nat) : Prop :=
  match c with
  | OTensor _ | OGrad _ | OEucl _ | OChecks _ => False
  | OWrite x _ | OView x | ONew x _ | OFromTensor x _ | OAs x _ _ => i = x
  | OClone g | OItem g _ | OSlice g _ _ | OItems g | OInv g | OLog g => i = g
  | ONewLie g x _ | OCompose g x | OMul g x | OLocal g x | ORetract g x | OMatmulCheck g x | OSet g x | OAdd g x _ => i = g \/ i = x
  | OCat gs => In i gs
  | OTorch xs _ _ => In i xs
  | OAddC g x y _ => i = g \/ i = x \/ i = y
  end.
(** the object an in-place update of LieTensor is called on *)
Definition updates (c : op) (i : nat) : Prop :=
  match c with
  | OSet g _ | OAdd g _ _ | OAddC g _ _ _ => i = g
  | _ => False
  end.
Definition writes (c : op) : Prop := match c with OWrite _ _ => True | _ => False end.
(** the contents of object i *)
Definition contents (st : state) (i : nat) : option ten := option_map (value st) (get st i).
(** no other object looks at the memory of object i *)
Definition unshared (st : state) (i : nat) : Prop :=
  exists o, get st i = Some o /\ forall j oj, j <> i -> get st j = Some oj -> o_store oj <> o_store o.
(** tensors whose data fit their shape; libraries that return such tensors *)
Definition ten_ok (t : ten) : Prop := length (t_data t) = numel (t_shape t).
Definition lib_ok (F : FnLib) : Prop :=
  (forall l a b r, fl_compose F l a b = Some r -> ten_ok r) /\ (forall l a r, fl_inv F l a = Some r -> ten_ok r) /\
  (forall l a r, fl_log F l a = Some r -> ten_ok r).
Definition op_ok (c : op) : Prop :=
  match c with
  | OTensor t | OGrad t => ten_ok t
  | OTorch _ f _ => forall ts r, f ts = Some r -> ten_ok r
  | OAddC _ _ _ f => forall a b r, f a b = Some r -> ten_ok r
  | _ => True
  end.
(** every state of a program *)
Definition reachable (F : FnLib) (st : state) : Prop := exists cs, Forall op_ok cs /\ st = run F init cs.

(** operations whose result owns its memory *)
Definition copies (c : op) : Prop :=
  match c with
  | OTensor _ | OGrad _ | ONew _ _ | ONewLie _ _ _ | OClone _ | OCat _ | OCompose _ _ | OMul _ _ | OInv _ | OLog _ | OLocal _ _ | ORetract _ _ | OTorch _ _ _ => True
  | _ => False
  end.
(** both objects look at the same numbers: a change of the memory shows in both *)
Definition same_memory (st : state) (i j : nat) : Prop :=
  exists oi oj, get st i = Some oi /\ get st j = Some oj /\ o_store oi = o_store oj /\ o_off oi = o_off oj /\ numel (o_shape oi) = numel (o_shape oj).
Definition kind_of (st : state) (i : nat) : option kind := option_map o_kind (get st i).
