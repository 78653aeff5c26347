From Coq Require Import List Bool String Reals.
Import ListNotations.
From Verif Require Import Fn_model.
Open Scope string_scope.

(** which operators have Jacobians, as documented by the j-functions of the namespace *)
Definition has_jac (n : string) : bool := existsb (String.eqb n) ["exp"; "log"; "inverse"; "quaternion_to_rotation"; "compose"; "transform"; "untransform"].
Definition unary_names (m : modattrs) : list string :=
  (unary_with_jop ++ unary_only ++ match mget m "QuaternionToRotation" with Some _ => ["quaternion_to_rotation"] | None => [] end)%list.
Definition group_module (m : modattrs) : Prop := m = so3_module \/ m = se3_module.

Section P.
Variables T J : Type.
(** an implementation whose two versions agree: the Jacobian version returns one Jacobian per argument and
    the same value, and the pass-through returns the value it is given (lie_group.py 71-73) *)
Definition agrees (f : impl T J) : Prop :=
  (forall a js r, i_jop f a = Some (js, r) -> i_op f a = Some r /\ List.length js = List.length a) /\
  (forall a r j, i_pass f a r j = r).

Lemma jac_attr m n : group_module m -> In n (unary_names m ++ binary_ops)%list ->
  mget m ("_j" ++ n ++ "_autograd_fn") = Some (if has_jac n then BFn else BNone) /\ mget m "NAME" <> None /\ mget m "name" = None.
Proof.
  intros [-> | ->] H; vm_compute in H; repeat (destruct H as [<-|H]; [vm_compute; repeat split; discriminate|]); contradiction.
Qed.
(** The functions can be made, and the value does not depend on whether Jacobians are asked for, nor on the
    pass-through setting; the list passed receives exactly the Jacobians; without a list nothing else is
    returned. *)
Theorem C94_unary : forall allow m n (f : impl T J) x, group_module m -> In n (unary_names m) -> agrees f ->
  unary_op allow m n f x None = (match i_op f [x] with Some v => Value v | None => Raised EInput end, None) /\
  (has_jac n = true -> forall js r, i_jop f [x] = Some (js, r) -> unary_op allow m n f x (Some []) = (Value r, Some js) /\ i_op f [x] = Some r) /\
  (has_jac n = true -> i_jop f [x] = None -> unary_op allow m n f x (Some []) = (Raised EInput, Some [])).
Proof.
  intros allow m n f x G H (A1 & A3). split; [reflexivity|].
  destruct (jac_attr m n G ltac:(apply in_or_app; now left)) as (E1 & E2 & _). unfold unary_op, jacobians_ok. rewrite E1.
  destruct (mget m "NAME") as [b|]; [|congruence]. split; intros ->.
  - intros js r E. rewrite E. destruct (A1 _ _ _ E) as [V L]. destruct js as [|j0 [|j1 js]]; [discriminate| |discriminate].
    split; [|exact V]. rewrite A3, V. cbn [app]. destruct (allow && _); reflexivity.
  - intros ->. reflexivity.
Qed.
Theorem C94_binary : forall m n (f : impl T J) x y, group_module m -> In n binary_ops -> agrees f ->
  binary_op m n f x y None = (match i_op f [x; y] with Some v => Value v | None => Raised EInput end, None) /\
  (forall js r, i_jop f [x; y] = Some (js, r) ->
     binary_op m n f x y (Some []) = (Value r, Some js) /\ binary_jop m n f x y = JValue js r /\ i_op f [x; y] = Some r /\ List.length js = 2%nat) /\
  (i_jop f [x; y] = None -> binary_op m n f x y (Some []) = (Raised EInput, Some []) /\ binary_jop m n f x y = Raised EInput).
Proof.
  intros m n f x y G H (A1 & A3). split; [reflexivity|].
  destruct (jac_attr m n G ltac:(apply in_or_app; now right)) as (E1 & E2 & _). unfold binary_op, binary_jop, jacobians_ok. rewrite E1.
  destruct (mget m "NAME") as [b|]; [|congruence].
  assert (has_jac n = true) as -> by (cbn in H; repeat (destruct H as [<-|H]; [reflexivity|]); contradiction).
  split.
  - intros js r E. rewrite E. destruct (A1 _ _ _ E) as [V L]. rewrite V. repeat split; assumption.
  - intros ->. split; reflexivity.
Qed.
(** A list that is not empty is refused and left alone; operators without Jacobians refuse every list. *)
Theorem C94_refused : forall allow m n (f : impl T J) x y j js, group_module m ->
  (In n (unary_names m) ->
     unary_op allow m n f x (Some (j :: js)) = (Raised (if has_jac n then EValue else ENotImplemented), Some (j :: js)) /\
     (has_jac n = false -> unary_op allow m n f x (Some []) = (Raised ENotImplemented, Some []))) /\
  (In n binary_ops -> binary_op m n f x y (Some (j :: js)) = (Raised EValue, Some (j :: js))).
Proof.
  intros allow m n f x y j js G. split; intro H.
  - destruct (jac_attr m n G ltac:(apply in_or_app; now left)) as (E1 & E2 & _). unfold unary_op, jacobians_ok. rewrite E1.
    destruct (mget m "NAME") as [b|]; [|congruence]. split; [destruct (has_jac n); reflexivity|]. intros ->. reflexivity.
  - destruct (jac_attr m n G ltac:(apply in_or_app; now right)) as (E1 & E2 & _). unfold binary_op, jacobians_ok. rewrite E1.
    destruct (mget m "NAME") as [b|]; [|congruence].
    assert (has_jac n = true) as -> by (cbn in H; repeat (destruct H as [<-|H]; [reflexivity|]); contradiction). reflexivity.
Qed.
(** Refuted: SO3.jexp, SO3.jlog, SO3.jinv, SO3.jquaternion_to_rotation, SE3.jexp, SE3.jlog and SE3.jinv
    return the Jacobian and the value. They raise AttributeError for every argument, because the factory
    reads [module.name] and the modules define [NAME]. *)
Theorem C94_unary_jop_refuted : forall m n (f : impl T J) x, group_module m -> In n (unary_names m) ->
  unary_jop m n f x = Raised EAttribute.
Proof.
  intros m n f x G H. destruct (jac_attr m n G ltac:(apply in_or_app; now left)) as (_ & _ & E3). unfold unary_jop. now rewrite E3.
Qed.
(** with the attribute present they would work: the name is the only defect *)
Theorem C94_unary_jop_renamed : forall m n (f : impl T J) x js r, group_module m -> In n (unary_names m) -> has_jac n = true ->
  i_jop f [x] = Some (js, r) -> unary_jop (("name", BOther) :: m) n f x = JValue js r.
Proof.
  intros m n f x js r G H HJ E. destruct (jac_attr m n G ltac:(apply in_or_app; now left)) as (E1 & _ & _). unfold unary_jop.
  cbn [mget]. rewrite String.eqb_refl.
  change (String.eqb ("_j" ++ n ++ "_autograd_fn") "name") with false. cbv iota. rewrite E1, HJ, E. reflexivity.
Qed.
End P.
Theorem C94_built : fns_ok so3_module = true /\ fns_ok se3_module = true /\
  mget so3_module "QuaternionToRotation" <> None /\ mget se3_module "QuaternionToRotation" = None.
Proof. vm_compute. repeat split; discriminate. Qed.

(** The implementations modelled elsewhere fit: log and exp of SO3 and SE3 return through the list the
    Jacobians whose correctness C51 and C54 state. *)
From Verif Require Import Geo_spec Geo3_spec Geo4_spec SE2_model SO3_model SE3_model.
Definition as_impl {A B JJ : Type} (op : A -> option B) (jop : A -> option JJ) : impl (A + B) JJ := mkImpl
  (fun a => match a with [inl g] => match op g with Some v => Some (inr v) | None => None end | _ => None end)
  (fun a => match a with [inl g] => match jop g, op g with Some j, Some v => Some ([j], inr v) | _, _ => None end | _ => None end)
  (fun _ r _ => r).
Lemma as_agrees {A B JJ : Type} (op : A -> option B) (jop : A -> option JJ) : agrees _ _ (as_impl op jop).
Proof.
  split; [|reflexivity]. intros [|[g|b] [|y a]] js r E; cbn in *; try discriminate.
  destruct (jop g) as [j|], (op g) as [v|]; try discriminate. injection E as <- <-. split; reflexivity.
Qed.
Theorem C94_lie_maps : forall allow d g v G X J3 J6 w W,
  so3_jlog d g = Some J3 -> so3_log d g = Some v -> se3_jlog d G = Some J6 -> se3_log d G = Some X ->
  unary_op allow so3_module "log" (as_impl (so3_log d) (so3_jlog d)) (inl g) (Some []) = (Value (inr v), Some [J3]) /\
  unary_op allow se3_module "log" (as_impl (se3_log d) (se3_jlog d)) (inl G) (Some []) = (Value (inr X), Some [J6]) /\
  (forall j e, so3_jexp d w = Some j -> so3_exp d w = Some e ->
     unary_op allow so3_module "exp" (as_impl (so3_exp d) (so3_jexp d)) (inl w) (Some []) = (Value (inr e), Some [j])) /\
  (forall j e, se3_jexp d W = Some j -> se3_exp d W = Some e ->
     unary_op allow se3_module "exp" (as_impl (se3_exp d) (se3_jexp d)) (inl W) (Some []) = (Value (inr e), Some [j])).
Proof.
  intros allow d g v G X J3 J6 w W A B C D.
  assert (S : group_module so3_module) by now left. assert (S' : group_module se3_module) by now right.
  split; [|split; [|split]].
  - eapply (C94_unary _ _ allow so3_module "log" _ _ S); [cbn; tauto|apply as_agrees|reflexivity|]. cbn. now rewrite A, B.
  - eapply (C94_unary _ _ allow se3_module "log" _ _ S'); [cbn; tauto|apply as_agrees|reflexivity|]. cbn. now rewrite C, D.
  - intros j e E1 E2. eapply (C94_unary _ _ allow so3_module "exp" _ _ S); [cbn; tauto|apply as_agrees|reflexivity|]. cbn. now rewrite E1, E2.
  - intros j e E1 E2. eapply (C94_unary _ _ allow se3_module "exp" _ _ S'); [cbn; tauto|apply as_agrees|reflexivity|]. cbn. now rewrite E1, E2.
Qed.
