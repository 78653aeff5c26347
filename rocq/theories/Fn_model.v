(** Model of torchlie/torchlie/functional/lie_group.py 122-163, 206-234, 304-366: the functions of
    torchlie.functional.SO3 and SE3 made from the implementation modules by the operator factories. *)
From Coq Require Import List Bool String.
Import ListNotations.
Open Scope string_scope.

(** a module attribute: a function, None, or anything else *)
Inductive binding := BFn | BNone | BOther.
Definition modattrs := list (string * binding).
Fixpoint mget (m : modattrs) (k : string) : option binding :=
  match m with [] => None | (k', b) :: m => if String.eqb k k' then Some b else mget m k end.

(** so3_impl.py 22, 30-218, 354-1218: the attributes the factories ask for *)
Definition so3_module : modattrs :=
  [("NAME", BOther); ("_exp_autograd_fn", BFn); ("_jexp_autograd_fn", BFn); ("_log_autograd_fn", BFn); ("_jlog_autograd_fn", BFn);
   ("_log_passthrough_fn", BFn); ("_adjoint_autograd_fn", BFn); ("_jadjoint_autograd_fn", BNone); ("_inverse_autograd_fn", BFn);
   ("_jinverse_autograd_fn", BFn); ("_hat_autograd_fn", BFn); ("_jhat_autograd_fn", BNone); ("_vee_autograd_fn", BFn);
   ("_jvee_autograd_fn", BNone); ("_compose_autograd_fn", BFn); ("_jcompose_autograd_fn", BFn); ("_transform_autograd_fn", BFn);
   ("_jtransform_autograd_fn", BFn); ("_untransform_autograd_fn", BFn); ("_juntransform_autograd_fn", BFn);
   ("QuaternionToRotation", BOther); ("_quaternion_to_rotation_autograd_fn", BFn); ("_jquaternion_to_rotation_autograd_fn", BFn);
   ("_lift_autograd_fn", BFn); ("_jlift_autograd_fn", BNone); ("_project_autograd_fn", BFn); ("_jproject_autograd_fn", BNone);
   ("_left_act_autograd_fn", BFn); ("_jleft_act_autograd_fn", BNone); ("_left_project_autograd_fn", BFn); ("_jleft_project_autograd_fn", BNone);
   ("_normalize_autograd_fn", BFn); ("_jnormalize_autograd_fn", BNone)].
(** se3_impl.py 17, 24-170, 347-1104 *)
Definition se3_module : modattrs :=
  filter (fun p => negb (existsb (String.eqb (fst p)) ["QuaternionToRotation"; "_quaternion_to_rotation_autograd_fn"; "_jquaternion_to_rotation_autograd_fn"])) so3_module.

Inductive exn := ENotImplemented | EValue | EAttribute | EType | EInput.
Section Fns.
Variables T J : Type.
(** an implementation function; [None]: it raises (bad shapes, or an argument refused by the checks) *)
Record impl := mkImpl {
  i_op : list T -> option T;                      (* _xxx_autograd_fn *)
  i_jop : list T -> option (list J * T);          (* _jxxx_autograd_fn *)
  i_pass : list T -> T -> J -> T                  (* _xxx_passthrough_fn: returns its second argument, 71-73 *)
}.
Inductive outcome := Value (t : T) | JValue (js : list J) (t : T) | Raised (e : exn).

(** lie_group.py 122-133 [_check_jacobians_supported], 11-13 of utils.py [check_jacobians_list]; the list
    passed as jacobians= (None: not passed) is returned as it is after the call *)
Definition jacobians_ok (m : modattrs) (op_name : string) (jacs : list J) : option exn :=
  match mget m "NAME" with
  | None => Some EAttribute
  | Some _ =>
    match mget m ("_j" ++ op_name ++ "_autograd_fn") with
    | Some BFn => match jacs with [] => None | _ => Some EValue end
    | Some BNone => Some ENotImplemented
    | _ => Some EType
    end
  end.
(** lie_group.py 144-155: op of UnaryOperatorFactory; [allow]: LIE_PARAMS._allow_passthrough_ops *)
Definition unary_op (allow : bool) (m : modattrs) (op_name : string) (f : impl) (x : T) (jacs : option (list J))
  : outcome * option (list J) :=
  match jacs with
  | None => (match i_op f [x] with Some v => Value v | None => Raised EInput end, None)
  | Some js =>
    match jacobians_ok m op_name js with
    | Some e => (Raised e, Some js)
    | None =>
      match i_jop f [x] with
      | None => (Raised EInput, Some js)
      | Some (jop, ret) =>
        match jop with
        | [] => (Raised EValue, Some js)   (* jacobians_op[0] of an empty list *)
        | j0 :: _ =>
          let js := (js ++ [j0])%list in
          if allow && match mget m ("_" ++ op_name ++ "_passthrough_fn") with Some BFn => true | _ => false end
          then (Value (i_pass f [x] ret j0), Some js)
          else (match i_op f [x] with Some v => Value v | None => Raised EInput end, Some js)
        end
      end
    end
  end.
(** lie_group.py 157-161: jop of UnaryOperatorFactory; its first line reads [module.name] *)
Definition unary_jop (m : modattrs) (op_name : string) (f : impl) (x : T) : outcome :=
  match mget m "name" with
  | None => Raised EAttribute
  | Some _ =>
    match mget m ("_j" ++ op_name ++ "_autograd_fn") with
    | Some BFn => match i_jop f [x] with Some (js, r) => JValue js r | None => Raised EInput end
    | Some BNone => Raised ENotImplemented
    | _ => Raised EType
    end
  end.
(** lie_group.py 213-224: op of BinaryOperatorFactory *)
Definition binary_op (m : modattrs) (op_name : string) (f : impl) (x y : T) (jacs : option (list J)) : outcome * option (list J) :=
  match jacs with
  | None => (match i_op f [x; y] with Some v => Value v | None => Raised EInput end, None)
  | Some js =>
    match jacobians_ok m op_name js with
    | Some e => (Raised e, Some js)
    | None =>
      match i_jop f [x; y] with
      | None => (Raised EInput, Some js)
      | Some (jop, _) => (match i_op f [x; y] with Some v => Value v | None => Raised EInput end, Some (js ++ jop)%list)
      end
    end
  end.
(** lie_group.py 226-232: jop of BinaryOperatorFactory *)
Definition binary_jop (m : modattrs) (op_name : string) (f : impl) (x y : T) : outcome :=
  match mget m "NAME" with
  | None => Raised EAttribute
  | Some _ =>
    match mget m ("_j" ++ op_name ++ "_autograd_fn") with
    | Some BFn => match i_jop f [x; y] with Some (js, r) => JValue js r | None => Raised EInput end
    | Some BNone => Raised ENotImplemented
    | _ => Raised EType
    end
  end.
End Fns.
Arguments mkImpl {T J}. Arguments i_op {T J}. Arguments i_jop {T J}. Arguments i_pass {T J}.
Arguments Value {T J}. Arguments JValue {T J}. Arguments Raised {T J}.
Arguments unary_op {T J}. Arguments unary_jop {T J}. Arguments binary_op {T J}. Arguments binary_jop {T J}. Arguments jacobians_ok {J}.

(** lie_group.py 332-366: the operators of LieGroupFns; the unary ones with a public j-function first *)
Definition unary_with_jop : list string := ["exp"; "log"; "inverse"].
Definition unary_only : list string := ["adjoint"; "normalize"; "hat"; "vee"; "lift"; "project"].
Definition binary_ops : list string := ["compose"; "transform"; "untransform"].
Definition gradient_ops : list string := ["left_act"; "left_project"].
(** lie_group.py 140-141, 210-211, 308-309: making the functions needs both attributes *)
Definition factory_ok (m : modattrs) (op_name : string) : bool :=
  match mget m ("_" ++ op_name ++ "_autograd_fn"), mget m ("_j" ++ op_name ++ "_autograd_fn") with Some _, Some _ => true | _, _ => false end.
Definition fns_ok (m : modattrs) : bool :=
  forallb (factory_ok m) (unary_with_jop ++ unary_only ++ binary_ops ++ gradient_ops)%list &&
  match mget m "QuaternionToRotation" with Some _ => factory_ok m "quaternion_to_rotation" | None => true end.
