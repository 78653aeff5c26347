(** Model of torchlie's LieTensor as an object (torchlie/torchlie/lie_tensor.py): which tensors
    share memory, which class and ltype a result has, what is refused.  The numbers computed by
    the functional library (torchlie/torchlie/functional, modelled in SO3_model, SE3_model) are a
    parameter [FnLib]; so is the rounding of a change of dtype.  Devices, autograd and the
    attributes of torch.Tensor that return numbers are not modelled. *)
From Coq Require Import Reals List Arith Bool.
Import ListNotations.

Inductive tdtype := TF32 | TF64.
Definition tdtype_eqb (a b : tdtype) : bool := match a, b with TF32, TF32 | TF64, TF64 => true | _, _ => false end.
(** types.py:47-49 (_ltype) *)
Inductive ltype := LSE3 | LSO3.
Definition ltype_eqb (a b : ltype) : bool := match a, b with LSE3, LSE3 | LSO3, LSO3 => true | _, _ => false end.
(** the contents of a tensor *)
Record ten := mkTen { t_dtype : tdtype; t_shape : list nat; t_data : list R }.

(** ltype._fn_lib: compose, inv, exp, left_project, log, the value check of check_group_tensor;
    None: it raises.  [fl_to]: conversion of a number to a dtype.  [fl_scale]: grad * alpha. *)
Record FnLib := mkFn {
  fl_compose : ltype -> ten -> ten -> option ten;
  fl_inv : ltype -> ten -> option ten;
  fl_log : ltype -> ten -> option ten;
  fl_exp : ltype -> ten -> option ten;
  fl_left_project : ltype -> ten -> ten -> option ten;
  fl_scale : R -> ten -> ten;
  fl_valid : ltype -> ten -> bool;
  fl_to : tdtype -> R -> R }.

(** torch.Tensor, LieTensor with its ltype, _EuclideanGrad; [o_mark]: the attribute
    _lie_euclidean_grad was set on the object (lines 117-139).  An object looks at the numbers of
    storage [o_store] from position [o_off] on. *)
Inductive kind := KTensor | KLie (l : ltype) | KGrad.
Record obj := mkObj { o_kind : kind; o_mark : bool; o_store : nat; o_off : nat; o_shape : list nat }.
Record state := mkSt {
  s_stores : list (tdtype * list R);
  s_objs : list obj;
  s_eucl : bool;    (* inside as_euclidean() *)
  s_checks : bool   (* inside enable_checks() *) }.
Inductive exn := EValue | EType | ERuntime | ENotImplemented | EAssertion | ELib | ENoObject.
Inductive res := Raise (e : exn) | Done | Ret (i : nat).

Definition numel (s : list nat) : nat := fold_right Nat.mul 1%nat s.
Definition value (st : state) (o : obj) : ten :=
  let '(dt, d) := nth (o_store o) (s_stores st) (TF32, []) in
  mkTen dt (o_shape o) (firstn (numel (o_shape o)) (skipn (o_off o) d)).
Definition get (st : state) (i : nat) : option obj := nth_error (s_objs st) i.
(** a new object on a new storage / on an existing one *)
Definition alloc (st : state) (k : kind) (t : ten) : state * nat :=
  (mkSt (s_stores st ++ [(t_dtype t, t_data t)])
        (s_objs st ++ [mkObj k false (length (s_stores st)) 0 (t_shape t)]) (s_eucl st) (s_checks st),
   length (s_objs st)).
Definition alias (st : state) (k : kind) (store off : nat) (shape : list nat) : state * nat :=
  (mkSt (s_stores st) (s_objs st ++ [mkObj k false store off shape]) (s_eucl st) (s_checks st), length (s_objs st)).
Fixpoint upd {A} (l : list A) (i : nat) (v : A) : list A :=
  match l, i with
  | [], _ => []
  | _ :: r, O => v :: r
  | x :: r, S j => x :: upd r j v
  end.
Definition set_obj (st : state) (i : nat) (o : obj) : state :=
  mkSt (s_stores st) (upd (s_objs st) i o) (s_eucl st) (s_checks st).

(** so3_impl.py:30-48, se3_impl.py:24-31 (check_group_tensor) *)
Definition rows_cols (l : ltype) : list nat := match l with LSE3 => [3; 4] | LSO3 => [3; 3] end%nat.
Definition last2 (s : list nat) : list nat := skipn (length s - 2) s.
Definition shape_eqb (a b : list nat) : bool := if list_eq_dec Nat.eq_dec a b then true else false.
Definition fits (l : ltype) (s : list nat) : bool := shape_eqb (last2 s) (rows_cols l).
Definition check_group_tensor (F : FnLib) (st : state) (l : ltype) (t : ten) : bool :=
  fits l (t_shape t) && (if s_checks st then fl_valid F l t else true).

(** lines 59-82: LieTensor(data, ltype) copies, from_tensor shares (_shared_memory=True) *)
Definition new_copy (F : FnLib) (st : state) (l : ltype) (t : ten) : state * res :=
  if check_group_tensor F st l t then let '(st', i) := alloc st (KLie l) t in (st', Ret i) else (st, Raise EValue).
Definition new_shared (F : FnLib) (st : state) (l : ltype) (store off : nat) (shape : list nat) : state * res :=
  if check_group_tensor F st l (value st (mkObj (KLie l) false store off shape))
  then let '(st', i) := alias st (KLie l) store off shape in (st', Ret i) else (st, Raise EValue).
(** what a safe torch function (lines 150-173) returns: inside as_euclidean() a plain tensor *)
Definition wrap_copy (F : FnLib) (st : state) (l : ltype) (t : ten) : state * res :=
  if s_eucl st then let '(st', i) := alloc st KTensor t in (st', Ret i) else new_copy F st l t.
Definition plain_view (st : state) (store off : nat) (shape : list nat) : state * res :=
  let '(st', i) := alias st KTensor store off shape in (st', Ret i).
Definition to_dtype (F : FnLib) (dt : tdtype) (t : ten) : ten := mkTen dt (t_shape t) (map (fl_to F dt) (t_data t)).

Inductive op :=
| OTensor (t : ten)                         (* a new torch tensor *)
| OWrite (x : nat) (d : list R)             (* x.copy_(...) for a plain tensor x *)
| OView (x : nat)                           (* x._t, line 70-72 *)
| ONew (x : nat) (l : ltype)                (* ltype(x), LieTensor(x, ltype), lines 540-544 *)
| OFromTensor (x : nat) (l : ltype)         (* lie.from_tensor *)
| OAs (x : nat) (l : option ltype) (dt : tdtype)  (* as_lietensor, cast *)
| ONewLie (g x : nat) (dt : option tdtype)  (* g.new_lietensor(x) *)
| OClone (g : nat)
| OItem (g : nat) (i : nat)                 (* g[i] *)
| OSlice (g : nat) (a b : nat)              (* g[a:b] *)
| OItems (g : nat)                          (* g[i, j], a tuple index *)
| OCat (gs : list nat)                      (* torch.cat(gs) *)
| OCompose (g h : nat) | OMul (g h : nat) | OInv (g : nat) | OLog (g : nat) | OLocal (g h : nat)
| ORetract (g x : nat) | OMatmulCheck (g x : nat)
| OSet (g h : nat) | OAdd (g x : nat) (alpha : R)
| OGrad (t : ten)                           (* g.grad: a gradient with the contents t *)
| OTorch (xs : list nat) (f : list ten -> option ten) (eucl_op : bool)
    (* a torch function; [eucl_op]: one of _SAFE_AS_EUCL_OPS, lines 177-187 *)
| OAddC (g x y : nat) (f : ten -> ten -> option ten)  (* addcdiv_, addcmul_: f is value * x / y or value * x * y *)
| OEucl (b : bool) | OChecks (b : bool).

Definition lie_of (o : obj) : option ltype := match o_kind o with KLie l => Some l | _ => None end.
Definition is_marked (o : obj) : bool := match o_kind o with KGrad => true | _ => o_mark o end.
Definition is_grad (o : obj) : bool := match o_kind o with KGrad => true | _ => false end.
(** lines 92-103 (resolve_ltype, get_ltype): None when two ltypes are found *)
Definition get_ltype (os : list obj) : option (option ltype) :=
  fold_right (fun o acc =>
    match acc, lie_of o with
    | None, _ => None
    | Some r, None => Some r
    | Some None, Some l => Some (Some l)
    | Some (Some l'), Some l => if ltype_eqb l l' then Some (Some l) else None
    end) (Some None) os.
Fixpoint getM (st : state) (xs : list nat) : option (list obj) :=
  match xs with
  | [] => Some []
  | x :: r => match get st x, getM st r with Some o, Some os => Some (o :: os) | _, _ => None end
  end.
Fixpoint mark_all (st : state) (xs : list nat) : state :=
  match xs with
  | [] => st
  | x :: r =>
      match get st x with
      | Some o => mark_all (set_obj st x (mkObj (o_kind o) true (o_store o) (o_off o) (o_shape o))) r
      | None => mark_all st r
      end
  end.
(** torch.cat along the first dimension *)
Definition cat_ten (ts : list ten) : option ten :=
  match ts with
  | [] => None
  | t :: _ =>
      match t_shape t with
      | _ :: rest =>
          if forallb (fun u => match t_shape u with _ :: r => shape_eqb r rest | [] => false end && tdtype_eqb (t_dtype u) (t_dtype t)) ts
          then Some (mkTen (t_dtype t) (fold_right Nat.add 0%nat (map (fun u => hd 0%nat (t_shape u)) ts) :: rest) (concat (map t_data ts)))
          else None
      | [] => None
      end
  end.

(** lines 277-283, 319-325 (compose, jcompose): the result of the library as a LieTensor *)
Definition lie_compose (F : FnLib) (st : state) (l : ltype) (a b : ten) : option ten + exn :=
  match fl_compose F l a b with
  | Some r => if check_group_tensor F st l r then inl (Some r) else inr EValue
  | None => inr ELib
  end.
Definition do_compose (F : FnLib) (st : state) (g h : obj) : state * res :=
  match lie_of g, lie_of h with
  | Some l, Some l' =>
      if ltype_eqb l l' then
        match lie_compose F st l (value st g) (value st h) with
        | inl (Some r) => new_copy F st l r
        | inl None => (st, Raise ELib)
        | inr e => (st, Raise e)
        end
      else (st, Raise EValue)
  | _, _ => (st, Raise EType)
  end.
(** lines 348-353 (retract): compose(self, exp(delta)) *)
Definition retract_val (F : FnLib) (st : state) (l : ltype) (g delta : ten) : ten + exn :=
  match fl_exp F l delta with
  | Some e =>
      if check_group_tensor F st l e then
        match lie_compose F st l g e with inl (Some r) => inl r | inl None => inr ELib | inr x => inr x end
      else inr EValue
  | None => inr ELib
  end.
(** lines 387-397 (set_): self looks at the memory of the argument from now on.  Simplification:
    super().set_ is taken to be torch.Tensor.set_ on self.  (If PyTorch sent this call back through
    LieTensor.__torch_function__, set_ and add_ would always raise NotImplementedError, since
    torch.Tensor.set_ is in neither list of lines 150-187; the repository's test of Adam on a
    LieTensor relies on it working.) *)
Definition do_set (st : state) (i : nat) (g : obj) (store off : nat) (shape : list nat) : state :=
  set_obj st i (mkObj (o_kind g) (o_mark g) store off shape).
Definition dtype_of (st : state) (o : obj) : tdtype := fst (nth (o_store o) (s_stores st) (TF32, [])).
(** the memory of a temporary tensor that no name refers to after the call *)
Definition new_store (st : state) (t : ten) : state :=
  mkSt (s_stores st ++ [(t_dtype t, t_data t)]) (s_objs st) (s_eucl st) (s_checks st).
(** lines 399-405 (add_) once the argument is accepted: left_project, retract, set_ *)
Definition do_add (F : FnLib) (st : state) (i : nat) (g : obj) (l : ltype) (grad : ten) (alpha : R) : state * res :=
  match fl_left_project F l (value st g) grad with
  | None => (st, Raise ELib)
  | Some p =>
      match retract_val F st l (value st g) (fl_scale F alpha p) with
      | inr e => (st, Raise e)
      | inl r =>
          if tdtype_eqb (t_dtype r) (dtype_of st g) then
            (do_set (new_store st r) i g (length (s_stores st)) 0 (t_shape r), Done)
          else (st, Raise ERuntime)
      end
  end.

Definition with_obj (st : state) (x : nat) (f : obj -> state * res) : state * res :=
  match get st x with Some o => f o | None => (st, Raise ENoObject) end.
Definition with_lie (st : state) (x : nat) (f : obj -> ltype -> state * res) : state * res :=
  with_obj st x (fun o => match lie_of o with Some l => f o l | None => (st, Raise EType) end).

Definition step (F : FnLib) (st : state) (c : op) : state * res :=
  match c with
  | OTensor t => let '(st', i) := alloc st KTensor t in (st', Ret i)
  | OWrite x d =>
      with_obj st x (fun o =>
        match o_kind o with
        | KTensor =>
            let '(dt, old) := nth (o_store o) (s_stores st) (TF32, []) in
            let n := numel (o_shape o) in
            if Nat.eqb (length d) n
            then (mkSt (upd (s_stores st) (o_store o) (dt, firstn (o_off o) old ++ d ++ skipn (o_off o + n) old)) (s_objs st) (s_eucl st) (s_checks st), Done)
            else (st, Raise ERuntime)
        | _ => (st, Raise ENotImplemented)
        end)
  | OView x => with_obj st x (fun o => let '(st', i) := alias st KTensor (o_store o) (o_off o) (o_shape o) in (st', Ret i))
  | ONew x l => with_obj st x (fun o => new_copy F st l (value st o))
  | OFromTensor x l => with_obj st x (fun o => new_shared F st l (o_store o) (o_off o) (o_shape o))
  | OAs x l dt =>
      (* lines 435-450: a LieTensor is returned as it is, or converted; the argument ltype is not looked at *)
      with_obj st x (fun o =>
        match lie_of o with
        | Some l0 => if tdtype_eqb (dtype_of st o) dt then (st, Ret x) else wrap_copy F st l0 (to_dtype F dt (value st o))
        | None =>
            match l with
            | None => (st, Raise EValue)
            | Some l1 =>
                if check_group_tensor F st l1 (value st o) then
                  if tdtype_eqb (dtype_of st o) dt then
                    (if s_eucl st then plain_view st (o_store o) (o_off o) (o_shape o) else new_shared F st l1 (o_store o) (o_off o) (o_shape o))
                  else wrap_copy F st l1 (to_dtype F dt (value st o))
                else (st, Raise EValue)
            end
        end)
  | ONewLie g x dt =>
      (* lines 248-265 *)
      with_lie st g (fun o l => with_obj st x (fun ox =>
        let target := match dt, lie_of ox with
                      | Some d, _ => d
                      | None, Some _ => dtype_of st o
                      | None, None => dtype_of st ox
                      end in
        new_copy F st l (if tdtype_eqb (dtype_of st ox) target then value st ox else to_dtype F target (value st ox))))
  | OClone g => with_lie st g (fun o l => wrap_copy F st l (value st o))
  | OItem g i =>
      (* lines 219-228: an integer index keeps a batch dimension of 1 *)
      with_lie st g (fun o l =>
        match o_shape o with
        | b :: rest =>
            if Nat.ltb i b then
              if s_eucl st then plain_view st (o_store o) (o_off o + i * numel rest) rest
              else if Nat.eqb (length rest) 2 then new_shared F st l (o_store o) (o_off o + i * numel rest) (1%nat :: rest)
              else if Nat.eqb (length rest) 3 then new_shared F st l (o_store o) (o_off o + i * numel rest) rest
              else (st, Raise EAssertion)
            else (st, Raise ELib)
        | [] => (st, Raise ELib)
        end)
  | OSlice g a b =>
      with_lie st g (fun o l =>
        match o_shape o with
        | n :: rest =>
            let b' := Nat.min b n in let a' := Nat.min a n in
            let s := (b' - a')%nat :: rest in
            if s_eucl st then plain_view st (o_store o) (o_off o + a' * numel rest) s
            else if Nat.eqb (length s) 2 then new_shared F st l (o_store o) (o_off o + a' * numel rest) (1%nat :: s)
            else if Nat.eqb (length s) 3 then new_shared F st l (o_store o) (o_off o + a' * numel rest) s
            else (st, Raise EAssertion)
        | [] => (st, Raise ELib)
        end)
  | OItems g => with_lie st g (fun _ _ => if s_eucl st then (st, Done) (* a plain tensor, not modelled *) else (st, Raise ENotImplemented))
  | OCat gs =>
      match getM st gs with
      | None => (st, Raise ENoObject)
      | Some os =>
          match get_ltype os with
          | None => (st, Raise EValue)
          | Some None => (st, Raise EType)
          | Some (Some l) =>
              match cat_ten (map (value st) os) with
              | Some t => wrap_copy F st l t
              | None => (st, Raise ELib)
              end
          end
      end
  | OCompose g h => with_obj st g (fun o => with_obj st h (fun o' => do_compose F st o o'))
  | OMul g h =>
      (* lines 371-377: self * other is other.compose(self) *)
      with_lie st g (fun o _ => with_obj st h (fun o' =>
        match lie_of o' with Some _ => do_compose F st o' o | None => (st, Raise EType) end))
  | OInv g => with_lie st g (fun o l => match fl_inv F l (value st o) with Some r => new_copy F st l r | None => (st, Raise ELib) end)
  | OLog g => with_lie st g (fun o l => match fl_log F l (value st o) with Some r => let '(st', i) := alloc st KTensor r in (st', Ret i) | None => (st, Raise ELib) end)
  | OLocal g h =>
      with_lie st g (fun o l => with_obj st h (fun o' =>
        match lie_of o' with
        | None => (st, Raise EType)
        | Some l' =>
            if ltype_eqb l' l then
              match fl_inv F l (value st o) with
              | None => (st, Raise ELib)
              | Some i =>
                  if check_group_tensor F st l i then
                    match lie_compose F st l i (value st o') with
                    | inl (Some d) => match fl_log F l d with Some r => let '(st', k) := alloc st KTensor r in (st', Ret k) | None => (st, Raise ELib) end
                    | inl None => (st, Raise ELib)
                    | inr e => (st, Raise e)
                    end
                  else (st, Raise EValue)
              end
            else (st, Raise EValue)
        end))
  | ORetract g x =>
      with_lie st g (fun o l => with_obj st x (fun o' =>
        match retract_val F st l (value st o) (value st o') with inl r => new_copy F st l r | inr e => (st, Raise e) end))
  | OMatmulCheck g x =>
      (* lines 379-385: @ refuses LieTensors *)
      with_lie st g (fun _ _ => with_obj st x (fun o' => match lie_of o' with Some _ => (st, Raise EType) | None => (st, Done) end))
  | OSet g h =>
      with_lie st g (fun o l => with_obj st h (fun o' =>
        match lie_of o' with
        | None => (st, Raise ERuntime)
        | Some l' =>
            if ltype_eqb l' l then
              if tdtype_eqb (dtype_of st o') (dtype_of st o) then (do_set st g o (o_store o') (o_off o') (o_shape o'), Done)
              else (st, Raise ERuntime)
            else (st, Raise ERuntime)
        end))
  | OAdd g x alpha =>
      with_lie st g (fun o l => with_obj st x (fun o' =>
        if is_marked o' then do_add F st g o l (value st o') alpha else (st, Raise ERuntime)))
  | OGrad t => let '(st', i) := alloc st KGrad t in (st', Ret i)
  | OTorch xs f eucl_op =>
      match getM st xs with
      | None => (st, Raise ENoObject)
      | Some os =>
          if existsb (fun o => match lie_of o with Some _ => true | None => false end) os then
            if s_eucl st || eucl_op then
              (* lines 106-114: get_ltype is called there too *)
              match get_ltype os with
              | None => (st, Raise EValue)
              | Some _ => match f (map (value st) os) with Some t => let '(st', i) := alloc st KTensor t in (st', Ret i) | None => (st, Raise ELib) end
              end
            else (st, Raise ENotImplemented)
          else if existsb is_grad os then
            (* lines 124-139: every argument is marked, the result is a _EuclideanGrad *)
            let st1 := mark_all st xs in
            match f (map (value st) os) with Some t => let '(st', i) := alloc st1 KGrad t in (st', Ret i) | None => (st1, Raise ELib) end
          else match f (map (value st) os) with Some t => let '(st', i) := alloc st KTensor t in (st', Ret i) | None => (st, Raise ELib) end
      end
  | OAddC g x y f =>
      (* lines 407-431; value * x / y touches x and y, marking them when one is a _EuclideanGrad *)
      with_lie st g (fun o l => with_obj st x (fun ox => with_obj st y (fun oy =>
        if is_marked ox || is_marked oy then
         match lie_of ox, lie_of oy with
         | None, None =>
          let st1 := if is_grad ox || is_grad oy then mark_all st [x; y] else st in
          match f (value st ox) (value st oy) with
          | Some t => do_add F st1 g o l t 1
          | None => (st1, Raise ELib)
          end
         | _, _ => (st, Raise ENotImplemented) (* marks left by the failing product: not modelled *)
         end
        else (st, Raise ERuntime))))
  | OEucl b => (mkSt (s_stores st) (s_objs st) b (s_checks st), Done)
  | OChecks b => (mkSt (s_stores st) (s_objs st) (s_eucl st) b, Done)
  end.
Definition init : state := mkSt [] [] false false.
Fixpoint run (F : FnLib) (st : state) (cs : list op) : state :=
  match cs with [] => st | c :: r => run F (fst (step F st c)) r end.
