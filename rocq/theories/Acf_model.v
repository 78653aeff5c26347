(** Model of the constructors, [_copy_impl] and [to] of AutoDiffCostFunction
    (core/cost_function.py 161-255, 403-430), RobustCostFunction and
    GNCRobustCostFunction (core/robust_cost_function.py 53-76, 134-223) around the
    attribute handling of core/theseus_function.py 21-170, the variables of
    core/variable.py 18-76 and Objective.to (core/objective.py 846-849).
    A Python object is its class and its instance dictionary, so that the
    attributes named after the user's variables and the internal ones share one
    name space, as in the code.  Simplified: the two lists of registered attribute
    names are fields of their own (no variable can have their name:
    register_vars); a tensor is an element of an arbitrary type together with its
    dtype (devices are not modelled; the shape checks of Variable.update are in
    C71); a standard cost function (class [CPlain]) is its registered attributes
    and its dimension (its constructor is in C97); a cost weight is the list of
    its auxiliary variables (C97 again), and [ScaleCostWeight(1.0)] holds a tensor
    [one] of torch's default dtype; strings are ASCII.  *)
From Coq Require Import List String Ascii Arith Bool Lia.
From Verif Require Import Mp_model.
Import ListNotations.
Local Open Scope string_scope.
Local Open Scope list_scope.
Local Open Scope nat_scope.

Inductive dtype := F32 | F64.
Definition dt_eqb (a b : dtype) : bool := match a, b with F32, F32 | F64, F64 => true | _, _ => false end.
(** core/cost_function.py 161-164 *)
Inductive mode := DENSE | LOOP_BATCH | VMAP.
(** core/robust_loss.py: the classes one can instantiate, and the abstract GNCRobustLoss *)
Inductive loss := LWelsch | LHuber | LHinge | LGemanMcClure.
(** issubclass(loss_cls, GNCRobustLoss); robust_loss.py 65, 96 *)
Definition is_gnc (l : loss) : bool := match l with LGemanMcClure => true | _ => false end.
Inductive ccls := CPlain | CAutoDiff | CRobust | CGNC.
Definition ccls_name (c : ccls) : string :=
  match c with CPlain => "Plain" | CAutoDiff => "AutoDiffCostFunction" | CRobust => "RobustCostFunction" | CGNC => "GNCRobustCostFunction" end.

Section Model.
(** tensors, error functions *)
Variables T F : Type.
(** tensor.to(dtype) when the dtype differs; torch.tensor(1.0).view(1, 1) *)
Variable conv : dtype -> T -> T.
Variable one : T.
Variable default_dt : dtype.

Record var := mkVar { v_name : string; v_dt : dtype; v_val : T }.
(** a Python value *)
Inductive val := PVar (v : nat) | PVars (l : list nat) | PFn (f : F) | PNat (n : nat) | PBool (b : bool) | PStr (s : string)
  | PMode (m : mode) | PWt (w : nat) | PObj (o : nat) | PLoss (l : loss) | PNone.
Record wt := mkWt { w_name : string; w_aux : list nat }.
Record cobj := mkObj { o_cls : ccls; o_dict : list (string * val); o_optim : list string; o_aux : list string }.
(** the objects made so far; [w_fid]: TheseusFunction._ids *)
Record world := mkW { w_vars : list var; w_wts : list wt; w_objs : list cobj; w_fid : nat }.

Inductive exn := ValueErr | RuntimeErr | AttrErr | TypeErr.
Inductive out (A : Type) := Ret (w : world) (a : A) | Exn (w : world) (e : exn).
Arguments Ret {A} w a. Arguments Exn {A} w e.
Definition M (A : Type) := world -> out A.
Definition ret {A} (a : A) : M A := fun w => Ret w a.
Definition raise {A} (e : exn) : M A := fun w => Exn w e.
Definition bind {A B} (m : M A) (k : A -> M B) : M B := fun w => match m w with Ret w a => k a w | Exn w e => Exn w e end.
Notation "'let*' x ':=' m 'in' k" := (bind m (fun x => k)) (at level 200, x pattern, m at level 100, k at level 200).
Fixpoint mapM {A B} (f : A -> M B) (l : list A) : M (list B) :=
  match l with [] => ret [] | a :: l => let* b := f a in let* bs := mapM f l in ret (b :: bs) end.

Fixpoint assoc {A} (l : list (string * A)) (k : string) : option A :=
  match l with [] => None | (k', a) :: l => if String.eqb k' k then Some a else assoc l k end.
Definition mem (s : string) (l : list string) : bool := existsb (String.eqb s) l.
Fixpoint upd {A} (l : list A) (i : nat) (a : A) : list A :=
  match l, i with [], _ => [] | _ :: r, 0 => a :: r | x :: r, S i => x :: upd r i a end.

Definition set_vars (w : world) (l : list var) : world := mkW l (w_wts w) (w_objs w) (w_fid w).

(** variable.py 18-26; the class of a variable is not modelled, only its default name *)
Definition new_var (name : string) (d : dtype) (t : T) : M nat :=
  fun w => let n := List.length (w_vars w) in
           Ret (set_vars w (w_vars w ++ [mkVar (if String.eqb name "" then ("Variable__" ++ dec n)%string else name) d t])) n.
(** variable.py 28-31, manifold.py 163-167 *)
Definition copy_var (v : nat) : M nat :=
  fun w => match nth_error (w_vars w) v with
           | None => Exn w AttrErr
           | Some x => new_var (v_name x ++ "_copy")%string (v_dt x) (v_val x) w
           end.
(** variable.py 75-76 *)
Definition to_var (d : dtype) (v : nat) : M unit :=
  fun w => match nth_error (w_vars w) v with
           | None => Exn w AttrErr
           | Some x => Ret (set_vars w (upd (w_vars w) v (mkVar (v_name x) d (if dt_eqb (v_dt x) d then v_val x else conv d (v_val x))))) tt
           end.
Definition rename (v : nat) (s : string) : M unit :=
  fun w => match nth_error (w_vars w) v with
           | None => Exn w AttrErr
           | Some x => Ret (set_vars w (upd (w_vars w) v (mkVar s (v_dt x) (v_val x)))) tt
           end.

(** ** Attributes *)
(** what hasattr finds on the class of an AutoDiffCostFunction: its own methods (cost_function.py 202-430),
    CostFunction's (49-148), TheseusFunction's (theseus_function.py 20-170), ABC's and object's *)
Definition class_attrs : list string :=
  ["__init__"; "_compute_error"; "error"; "_make_jac_fn"; "_compute_autograd_jacobian"; "_make_jac_fn_vmap";
   "_compute_autograd_jacobian_vmap"; "jacobians"; "dim"; "_copy_impl"; "to";
   "weight"; "weighted_error"; "weighted_jacobians_error"; "copy"; "_supports_masking";
   "_ids"; "get_default_name"; "register_optim_var"; "register_aux_var"; "register_optim_vars"; "register_aux_vars";
   "register_vars"; "_has_duplicate_vars"; "__deepcopy__"; "optim_vars"; "aux_vars"; "optim_var_at"; "aux_var_at";
   "_set_variable_at"; "set_optim_var_at"; "set_aux_var_at"; "num_optim_vars"; "num_aux_vars";
   "_abc_impl"; "__abstractmethods__"; "__slots__"; "__module__"; "__dict__"; "__weakref__"; "__doc__"; "__class__";
   "__new__"; "__repr__"; "__str__"; "__hash__"; "__eq__"; "__ne__"; "__lt__"; "__le__"; "__gt__"; "__ge__";
   "__getattribute__"; "__setattr__"; "__delattr__"; "__dir__"; "__format__"; "__sizeof__"; "__reduce__"; "__reduce_ex__";
   "__init_subclass__"; "__subclasshook__"].
(** set by TheseusFunction.__init__ and CostFunction.__init__ : theseus_function.py 24-31, cost_function.py 57-65 *)
Definition init_attrs : list string :=
  ["_id"; "name"; "_optim_vars_attr_names"; "_aux_vars_attr_names"; "_weight"; "__supports_masking__"].

Definition getattr (o : cobj) (k : string) : option val := assoc (o_dict o) k.
Definition setattr (o : cobj) (k : string) (v : val) : cobj := mkObj (o_cls o) ((k, v) :: o_dict o) (o_optim o) (o_aux o).
Definition hasattr (o : cobj) (k : string) : bool := mem k class_attrs || mem k (map fst (o_dict o)).
(** theseus_function.py 36-46 *)
Definition register_optim_var (o : cobj) (k : string) : cobj + exn :=
  if mem k (o_optim o) then inr ValueErr
  else if mem k (o_aux o) then inr ValueErr
  else inl (mkObj (o_cls o) (o_dict o) (o_optim o ++ [k]) (o_aux o)).
(** 48-57 *)
Definition register_aux_var (o : cobj) (k : string) : cobj + exn :=
  if mem k (o_aux o) then inr ValueErr
  else if mem k (o_optim o) then inr ValueErr
  else inl (mkObj (o_cls o) (o_dict o) (o_optim o) (o_aux o ++ [k])).
(** 67-75; [vs]: the variables with their names *)
Fixpoint register_vars (o : cobj) (vs : list (nat * string)) (is_optim : bool) : cobj + exn :=
  match vs with
  | [] => inl o
  | (v, s) :: vs =>
      if hasattr o s then inr RuntimeErr
      else let o := setattr o s (PVar v) in
           match (if is_optim then register_optim_var o s else register_aux_var o s) with
           | inr e => inr e
           | inl o => register_vars o vs is_optim
           end
  end.
Definition lift (r : cobj + exn) : M cobj := match r with inl o => ret o | inr e => raise e end.
Fixpoint setattrs (o : cobj) (l : list (string * val)) : cobj :=
  match l with [] => o | (k, v) :: l => setattrs (setattr o k v) l end.
(** the attributes named in a list, as values: theseus_function.py 119-125 *)
Definition attr_vals (o : cobj) (ks : list string) : option (list val) :=
  fold_right (fun k r => match getattr o k, r with Some v, Some l => Some (v :: l) | _, _ => None end) (Some []) ks.
Definition optim_vars (o : cobj) : option (list val) := attr_vals o (o_optim o).
Definition aux_vars (o : cobj) : option (list val) := attr_vals o (o_aux o).

(** ** Construction *)
(** theseus_function.py 24-31 and cost_function.py 51-65: a new object of the class, with its name and weight *)
Definition base_init (c : ccls) (name : option string) (wid : nat) (dict0 : list (string * val)) : M cobj :=
  fun w => let id := w_fid w in
           let nm := match name with Some s => if String.eqb s "" then (ccls_name c ++ "__" ++ dec id)%string else s
                                   | None => (ccls_name c ++ "__" ++ dec id)%string end in
           Ret (mkW (w_vars w) (w_wts w) (w_objs w) (S id))
               (mkObj c ([("__supports_masking__", PBool false); ("_weight", PWt wid); ("_aux_vars_attr_names", PNone);
                          ("_optim_vars_attr_names", PNone); ("name", PStr nm); ("_id", PNat id)] ++ dict0) [] []).
Definition new_wt (x : wt) : M nat := fun w => Ret (mkW (w_vars w) (w_wts w ++ [x]) (w_objs w) (w_fid w)) (List.length (w_wts w)).
Definition new_obj (o : cobj) : M nat := fun w => Ret (mkW (w_vars w) (w_wts w) (w_objs w ++ [o]) (w_fid w)) (List.length (w_objs w)).
Definition next_fid : M nat := fun w => Ret (mkW (w_vars w) (w_wts w) (w_objs w) (S (w_fid w))) (w_fid w).
Definition names_of (vs : list nat) : M (list (nat * string)) :=
  fun w => mapM (fun v => fun w' => match nth_error (w_vars w) v with Some x => Ret w' (v, v_name x) | None => Exn w' AttrErr end) vs w.

(** str.upper() *)
Definition upper_ascii (c : ascii) : ascii :=
  let n := nat_of_ascii c in if (97 <=? n) && (n <=? 122) then ascii_of_nat (n - 32) else c.
Fixpoint upper (s : string) : string := match s with EmptyString => EmptyString | String c s => String (upper_ascii c) (upper s) end.
(** cost_function.py 166-180 *)
Inductive mode_key := KMode (m : mode) | KStr (s : string) | KOther.
Definition resolve (k : mode_key) : mode + exn :=
  match k with
  | KMode m => inl m
  | KOther => inr ValueErr
  | KStr s => let u := upper s in
              if String.eqb u "DENSE" then inl DENSE
              else if String.eqb u "LOOP_BATCH" then inl LOOP_BATCH
              else if String.eqb u "VMAP" then inl VMAP
              else inr ValueErr
  end.

(** the options create_graph, strict, vectorize, strategy; cost_function.py 210-213 *)
Record adopts := mkOpts { a_create : bool; a_strict : bool; a_vec : bool; a_strategy : string }.
Definition default_opts : adopts := mkOpts true false false "reverse-mode".

(** cost_function.py 215-216: ScaleCostWeight(1.0), cost_weight.py 61-73 *)
Definition default_weight : M nat :=
  let* v := new_var "" default_dt one in
  let* i := next_fid in
  new_wt (mkWt ("ScaleCostWeight__" ++ dec i)%string [v]).
(** cost_function.py 202-255 *)
Definition make_autodiff (optim : list nat) (f : F) (d : nat) (weight : option nat) (aux : list nat) (name : option string)
  (op : adopts) (m : mode_key) : M nat :=
  let* wid := (match weight with Some i => ret i | None => default_weight end) in
  let* o := base_init CAutoDiff name wid [] in
  let* _ := (if List.length optim <? 1 then raise ValueErr else ret tt) in
  let* on := names_of optim in
  let* o := lift (register_vars o on true) in
  let* an := names_of aux in
  let* o := lift (register_vars o an false) in
  let* tmp := mapM copy_var optim in
  let o := setattrs o [("_err_fn", PFn f); ("_dim", PNat d); ("_autograd_create_graph", PBool (a_create op));
                       ("_autograd_strict", PBool (a_strict op)); ("_autograd_vectorize", PBool (a_vec op));
                       ("_autograd_strategy", PStr (a_strategy op)); ("_tmp_optim_vars", PVars tmp); ("_tmp_aux_vars", PNone);
                       ("_tmp_optim_vars_for_loop", PNone); ("_tmp_aux_vars_for_loop", PNone)] in
  match resolve m with
  | inr e => raise e
  | inl md =>
      let o := setattr o "_autograd_mode" (PMode md) in
      match md with
      | LOOP_BATCH =>
          let* t1 := mapM copy_var optim in
          let* t2 := mapM copy_var aux in
          new_obj (setattrs o [("_tmp_optim_vars_for_loop", PVars t1); ("_tmp_aux_vars_for_loop", PVars t2)])
      | VMAP => let* t2 := mapM copy_var aux in new_obj (setattr o "_tmp_aux_vars" (PVars t2))
      | DENSE => new_obj o
      end
  end.
(** a standard cost function: attributes assigned, then registered (C97) *)
Fixpoint reg_all (o : cobj) (ks : list string) (is_optim : bool) : cobj + exn :=
  match ks with
  | [] => inl o
  | k :: ks => match (if is_optim then register_optim_var o k else register_aux_var o k) with inr e => inr e | inl o => reg_all o ks is_optim end
  end.
Definition make_plain (optim aux : list (string * nat)) (d wid : nat) (name : option string) : M nat :=
  let* o := base_init CPlain name wid [] in
  let o := setattrs o (map (fun p => (fst p, PVar (snd p))) (optim ++ aux)) in
  let* o := lift (reg_all o (map fst optim) true) in
  let* o := lift (reg_all o (map fst aux) false) in
  new_obj (setattr o "_dim" (PNat d)).

(** the weight of an object: cost_function.py 67-69; robust_cost_function.py 151-153 *)
Fixpoint weight_at (fuel : nat) (w : world) (i : nat) : option nat :=
  match fuel with
  | 0 => None
  | S n =>
      match nth_error (w_objs w) i with
      | None => None
      | Some o =>
          match o_cls o with
          | CRobust | CGNC => match getattr o "cost_function" with Some (PObj b) => weight_at n w b | _ => None end
          | _ => match getattr o "_weight" with Some (PWt k) => Some k | _ => None end
          end
      end
  end.
Definition weight (w : world) (i : nat) : option nat := weight_at (S (List.length (w_objs w))) w i.
(** dim(): cost_function.py 400-401; robust_cost_function.py 131-132 *)
Fixpoint dim_at (fuel : nat) (w : world) (i : nat) : option nat :=
  match fuel with
  | 0 => None
  | S n =>
      match nth_error (w_objs w) i with
      | None => None
      | Some o =>
          match o_cls o with
          | CRobust | CGNC => match getattr o "cost_function" with Some (PObj b) => dim_at n w b | _ => None end
          | _ => match getattr o "_dim" with Some (PNat k) => Some k | _ => None end
          end
      end
  end.
Definition dim (w : world) (i : nat) : option nat := dim_at (S (List.length (w_objs w))) w i.

(** robust_cost_function.py 64-71: the attributes of the base, one after the other *)
Fixpoint take_attrs (base : cobj) (o : cobj) (ks : list string) (is_optim : bool) : cobj + exn :=
  match ks with
  | [] => inl o
  | k :: ks =>
      match getattr base k with
      | None => inr AttrErr
      | Some v =>
          match (if is_optim then register_optim_var (setattr o k v) k else register_aux_var (setattr o k v) k) with
          | inr e => inr e
          | inl o => take_attrs base o ks is_optim
          end
      end
  end.
(** 53-76 for class [c]; without the last step *)
Definition init_robust (c : ccls) (b : nat) (l : loss) (radius : nat) (flatten : bool) (name : option string) : M cobj :=
  fun w =>
    match nth_error (w_objs w) b, weight w b with
    | Some base, Some wid =>
        (let* o := base_init c name wid [("cost_function", PObj b)] in
         let* o := lift (take_attrs base o (o_optim base) true) in
         let* o := lift (take_attrs base o (o_aux base) false) in
         let* o := lift (register_aux_var (setattr o "log_loss_radius" (PVar radius)) "log_loss_radius") in
         ret (setattrs o [("loss", PLoss l); ("flatten_dims", PBool flatten)])) w
    | _, _ => Exn w AttrErr
    end.
Definition make_robust (b : nat) (l : loss) (radius : nat) (flatten : bool) (name : option string) : M nat :=
  let* o := init_robust CRobust b l radius flatten name in new_obj o.
(** 177-199 *)
Definition make_gnc (b : nat) (l : loss) (radius ctl : nat) (flatten : bool) (name : option string) : M nat :=
  if negb (is_gnc l) then raise RuntimeErr else
  let* o := init_robust CGNC b l radius flatten name in
  let* o := lift (register_aux_var (setattr o "gnc_control_val" (PVar ctl)) "gnc_control_val") in
  new_obj o.

(** ** Copies *)
(** v.copy() of an attribute: anything but a variable has no such method, or one that is not a variable's *)
Definition copy_val (x : val) : M nat := match x with PVar v => copy_var v | _ => raise AttrErr end.
Definition copy_vals (l : option (list val)) : M (list nat) := match l with Some l => mapM copy_val l | None => raise AttrErr end.
Definition copy_name (new_name : option string) (old : string) : string :=
  match new_name with Some s => if String.eqb s "" then (old ++ "_copy")%string else s | None => (old ++ "_copy")%string end.
(** theseus_function.py 90-110 for a weight; what C97 says of it *)
Definition copy_weight (i : nat) : M nat :=
  fun w => match nth_error (w_wts w) i with
           | None => Exn w AttrErr
           | Some x => (let* l := mapM copy_var (w_aux x) in let* _ := next_fid in new_wt (mkWt (w_name x ++ "_copy")%string l)) w
           end.
Definition the_name (o : cobj) : string := match getattr o "name" with Some (PStr s) => s | _ => "" end.
(** zip(self.xs, new.xs): new.name = old.name, theseus_function.py 96-100 *)
Fixpoint keep_names (l l' : list val) : M unit :=
  match l, l' with
  | PVar v :: l, PVar v' :: l' =>
      fun w => match nth_error (w_vars w) v with
               | None => Exn w AttrErr
               | Some x => (let* _ := rename v' (v_name x) in keep_names l l') w
               end
  | _ :: _, _ :: _ => raise AttrErr
  | _, _ => ret tt
  end.
Definition val_is (a b : val) : bool := match a, b with PVar u, PVar v => u =? v | _, _ => false end.
(** theseus_function.py 82-88 *)
Definition share (l l' : list val) : bool := existsb (fun x => existsb (val_is x) l') l.
(** theseus_function.py 94-110 after new_fn is made *)
Definition finish_copy (i i' : nat) (keep : bool) : M nat :=
  fun w =>
    match nth_error (w_objs w) i, nth_error (w_objs w) i' with
    | Some o, Some o' =>
        match optim_vars o, optim_vars o', aux_vars o, aux_vars o' with
        | Some a, Some a', Some b, Some b' =>
            (let* _ := (if keep then let* _ := keep_names a a' in keep_names b b' else ret tt) in
             if share a a' || share b b' then raise RuntimeErr else ret i') w
        | _, _, _, _ => Exn w AttrErr
        end
    | _, _ => Exn w AttrErr
    end.
(** the cells (name, variable) of a standard cost function, copied *)
Fixpoint copy_cells (o : cobj) (ks : list string) : M (list (string * nat)) :=
  match ks with
  | [] => ret []
  | k :: ks => match getattr o k with
               | Some x => let* v := copy_val x in let* r := copy_cells o ks in ret ((k, v) :: r)
               | None => raise AttrErr
               end
  end.
(** [_copy_impl] of the classes (cost_function.py 403-412, robust_cost_function.py 134-141, 215-223; C97 for
    [CPlain]) inside copy() (theseus_function.py 90-110); a copy of a wrapper copies the base with copy() *)
Fixpoint copy_at (fuel : nat) (i : nat) (new_name : option string) (keep : bool) : M nat :=
  match fuel with
  | 0 => raise AttrErr
  | S n => fun w =>
      match nth_error (w_objs w) i with
      | None => Exn w AttrErr
      | Some o =>
          let nm := copy_name new_name (the_name o) in
          match o_cls o with
          | CPlain =>
              match weight w i, getattr o "_dim" with
              | Some wid, Some (PNat d) =>
                  (let* a := copy_cells o (o_optim o) in let* b := copy_cells o (o_aux o) in
                   let* wid' := copy_weight wid in
                   let* i' := make_plain a b d wid' (Some nm) in finish_copy i i' keep) w
              | _, _ => Exn w AttrErr
              end
          | CAutoDiff =>
              match weight w i, getattr o "_err_fn", getattr o "_dim", getattr o "_autograd_mode" with
              | Some wid, Some (PFn f), Some (PNat d), Some (PMode m) =>
                  (let* a := copy_vals (optim_vars o) in let* b := copy_vals (aux_vars o) in
                   let* wid' := copy_weight wid in
                   let* i' := make_autodiff a f d (Some wid') b (Some nm) default_opts (KMode m) in finish_copy i i' keep) w
              | _, _, _, _ => Exn w AttrErr
              end
          | CRobust =>
              match getattr o "cost_function", getattr o "loss", getattr o "log_loss_radius", getattr o "flatten_dims" with
              | Some (PObj b), Some (PLoss l), Some r, Some (PBool fl) =>
                  (let* b' := copy_at n b None false in let* r' := copy_val r in
                   let* i' := make_robust b' l r' fl (Some nm) in finish_copy i i' keep) w
              | _, _, _, _ => Exn w AttrErr
              end
          | CGNC =>
              match getattr o "cost_function", getattr o "loss", getattr o "log_loss_radius", getattr o "gnc_control_val", getattr o "flatten_dims" with
              | Some (PObj b), Some (PLoss l), Some r, Some c, Some (PBool fl) =>
                  (let* b' := copy_at n b None false in let* r' := copy_val r in let* c' := copy_val c in
                   let* i' := make_gnc b' l r' c' fl (Some nm) in finish_copy i i' keep) w
              | _, _, _, _, _ => Exn w AttrErr
              end
          end
      end
  end.
Definition copy (i : nat) (new_name : option string) (keep : bool) : M nat :=
  fun w => copy_at (S (List.length (w_objs w))) i new_name keep w.

(** ** to(dtype) *)
Definition to_val (d : dtype) (x : val) : M unit := match x with PVar v => to_var d v | _ => raise AttrErr end.
Fixpoint to_vals (d : dtype) (l : list val) : M unit := match l with [] => ret tt | x :: l => let* _ := to_val d x in to_vals d l end.
Definition to_attr_list (d : dtype) (o : cobj) (k : string) : M unit :=
  match getattr o k with Some (PVars l) => to_vals d (map PVar l) | _ => raise TypeErr end.
(** theseus_function.py 165-170, cost_function.py 137-139, 414-430 *)
Definition to (d : dtype) (i : nat) : M unit :=
  fun w =>
    match nth_error (w_objs w) i with
    | None => Exn w AttrErr
    | Some o =>
        match optim_vars o, aux_vars o, weight w i with
        | Some a, Some b, Some wid =>
            (let* _ := to_vals d a in let* _ := to_vals d b in
             let* _ := (fun w => match nth_error (w_wts w) wid with Some x => to_vals d (map PVar (w_aux x)) w | None => Exn w AttrErr end) in
             match o_cls o with
             | CAutoDiff =>
                 let* _ := to_attr_list d o "_tmp_optim_vars" in
                 match getattr o "_autograd_mode" with
                 | Some (PMode LOOP_BATCH) => let* _ := to_attr_list d o "_tmp_optim_vars_for_loop" in to_attr_list d o "_tmp_aux_vars_for_loop"
                 | Some (PMode VMAP) => to_attr_list d o "_tmp_aux_vars"
                 | _ => ret tt
                 end
             | _ => ret tt
             end) w
        | _, _, _ => Exn w AttrErr
        end
    end.
(** objective.py 848-849 *)
Fixpoint to_all (d : dtype) (l : list nat) : M unit := match l with [] => ret tt | i :: l => let* _ := to d i in to_all d l end.

(** ** The dtype checks of jacobians() *)
(** variable.py 60-64 for tmp.update(v.tensor) *)
Definition same_dt (w : world) (p : val * val) : bool :=
  match p with
  | (PVar t, PVar v) => match nth_error (w_vars w) t, nth_error (w_vars w) v with Some x, Some y => dt_eqb (v_dt x) (v_dt y) | _, _ => false end
  | _ => false
  end.
Definition check_tmp (w : world) (o : cobj) (k : string) (l : option (list val)) : bool :=
  match getattr o k, l with
  | Some (PVars t), Some l => (List.length t =? List.length l) && forallb (same_dt w) (combine (map PVar t) l)
  | _, _ => false
  end.
(** does jacobians() pass them: cost_function.py 276-296, 350-392 (the variables each mode updates);
    robust_cost_function.py 113-117: a wrapper calls its base's *)
Fixpoint jac_ok_at (fuel : nat) (w : world) (i : nat) : bool :=
  match fuel with
  | 0 => false
  | S n =>
      match nth_error (w_objs w) i with
      | None => false
      | Some o =>
          match o_cls o with
          | CPlain => true
          | CAutoDiff =>
              match getattr o "_autograd_mode" with
              | Some (PMode VMAP) => check_tmp w o "_tmp_optim_vars" (optim_vars o) && check_tmp w o "_tmp_aux_vars" (aux_vars o)
              | Some (PMode LOOP_BATCH) => check_tmp w o "_tmp_optim_vars_for_loop" (optim_vars o) && check_tmp w o "_tmp_aux_vars_for_loop" (aux_vars o)
              | Some (PMode DENSE) => check_tmp w o "_tmp_optim_vars" (optim_vars o)
              | _ => false
              end
          | CRobust | CGNC => match getattr o "cost_function" with Some (PObj b) => jac_ok_at n w b | _ => false end
          end
      end
  end.
Definition jac_ok (w : world) (i : nat) : bool := jac_ok_at (S (List.length (w_objs w))) w i.
End Model.

Arguments mkVar {T}. Arguments v_name {T}. Arguments v_dt {T}. Arguments v_val {T}.
Arguments PVar {F}. Arguments PVars {F}. Arguments PFn {F}. Arguments PNat {F}. Arguments PBool {F}. Arguments PStr {F}.
Arguments PMode {F}. Arguments PWt {F}. Arguments PObj {F}. Arguments PLoss {F}. Arguments PNone {F}.
Arguments mkObj {F}. Arguments o_cls {F}. Arguments o_dict {F}. Arguments o_optim {F}. Arguments o_aux {F}.
Arguments mkW {T F}. Arguments w_vars {T F}. Arguments w_wts {T F}. Arguments w_objs {T F}. Arguments w_fid {T F}.
Arguments Ret {T F A}. Arguments Exn {T F A}. Arguments ret {T F A}. Arguments raise {T F A}. Arguments bind {T F A B}.
Arguments mapM {T F A B}. Arguments assoc {A}. Arguments upd {A}. Arguments set_vars {T F}.
Arguments new_var {T F}. Arguments copy_var {T F}. Arguments to_var {T F}. Arguments rename {T F}.
Arguments getattr {F}. Arguments setattr {F}. Arguments hasattr {F}. Arguments register_optim_var {F}. Arguments register_aux_var {F}.
Arguments register_vars {F}. Arguments lift {T F}. Arguments setattrs {F}. Arguments attr_vals {F}. Arguments optim_vars {F}. Arguments aux_vars {F}.
Arguments base_init {T F}. Arguments new_wt {T F}. Arguments new_obj {T F}. Arguments next_fid {T F}. Arguments names_of {T F}.
Arguments default_weight {T F}. Arguments make_autodiff {T F}. Arguments reg_all {F}. Arguments make_plain {T F}.
Arguments weight_at {T F}. Arguments weight {T F}. Arguments dim_at {T F}. Arguments dim {T F}. Arguments take_attrs {F}.
Arguments init_robust {T F}. Arguments make_robust {T F}. Arguments make_gnc {T F}. Arguments copy_val {T F}. Arguments copy_vals {T F}.
Arguments copy_weight {T F}. Arguments the_name {F}. Arguments keep_names {T F}. Arguments val_is {F}. Arguments share {F}.
Arguments finish_copy {T F}. Arguments copy_cells {T F}. Arguments copy_at {T F}. Arguments copy {T F}.
Arguments to_val {T F}. Arguments to_vals {T F}. Arguments to_attr_list {T F}. Arguments to {T F}. Arguments to_all {T F}.
Arguments same_dt {T F}. Arguments check_tmp {T F}. Arguments jac_ok_at {T F}. Arguments jac_ok {T F}.
