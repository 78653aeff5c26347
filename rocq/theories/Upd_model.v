(** Model of the tensors held by the variables of an [Objective]:
    [Variable.update], [Objective.update], batch-size resolution, [Objective.error]. *)
From Coq Require Import List Arith Bool.
Import ListNotations.
From Verif Require Import Dict Obj_model.

Section Upd.
(** One batch row of a tensor; its entries play no role here. *)
Context {E : Type}.

(** A tensor: dtype, device, shape without the batch dimension, and the batch rows.
    Tensors of ndim 0 are not representable (a [Variable] tensor is always batched). *)
Record tensor := { t_dtype : nat; t_dev : nat; t_shape : list nat; t_rows : list E }.

Definition batch (t : tensor) : nat := length (t_rows t).

Definition shape_eqb (a b : list nat) : bool :=
  if list_eq_dec Nat.eq_dec a b then true else false.

(** PyTorch broadcasting of one dimension. *)
Definition bcast (a b : nat) : option nat :=
  if a =? b then Some a else if a =? 1 then Some b else if b =? 1 then Some a else None.

(** Row [i] of a list of rows that is being broadcast along the batch dimension. *)
Definition brow {A} (l : list A) (i : nat) : option A :=
  if length l =? 1 then nth_error l 0 else nth_error l i.

(** [torch.where(mask.view(-1,1,..), old, new)] on the batch dimension; [None] is the
    RuntimeError for shapes that do not broadcast. *)
Fixpoint sequence {A} (l : list (option A)) : option (list A) :=
  match l with
  | [] => Some []
  | None :: _ => None
  | Some x :: r => match sequence r with Some r' => Some (x :: r') | None => None end
  end.

Definition where_row (mask : list bool) (old new : list E) (i : nat) : option E :=
  match brow mask i with
  | Some true => brow old i
  | Some false => brow new i
  | None => None
  end.

Definition where_rows (mask : list bool) (old new : list E) : option (list E) :=
  match bcast (length mask) (length old) with
  | None => None
  | Some n => match bcast n (length new) with
              | None => None
              | Some m => sequence (map (where_row mask old new) (seq 0 m))
              end
  end.

Inductive uexn := UValueError | URuntimeError.

(** theseus/core/variable.py 42-72 [Variable.update]; [inr] is the exception, raised before
    [self.tensor] is assigned. The counter [_num_updates] is incremented by the caller model. *)
Definition var_update (old new : tensor) (mask : option (list bool)) : tensor + uexn :=
  if negb (shape_eqb (t_shape new) (t_shape old)) then inr UValueError else
  if negb (t_dtype new =? t_dtype old) then inr UValueError else
  match mask with
  | Some m =>
    if existsb (fun b => b) m then
      match where_rows m (t_rows old) (t_rows new) with
      | Some rows => inl {| t_dtype := t_dtype old; t_dev := t_dev old;
                            t_shape := t_shape old; t_rows := rows |}
      | None => inr URuntimeError
      end
    else inl new
  | None => inl new
  end.

(** An objective: the registry (Obj_model), the tensor and update counter of every variable
    object, and [_batch_size], [dtype], [device] (objective.py 102-106). *)
Record ostate := {
  reg : state;
  store : vid -> tensor;
  nupd : vid -> nat;
  bsize : option nat;
  o_dtype : nat;
  o_dev : nat
}.

Definition upd {A} (f : nat -> A) (k : nat) (x : A) : nat -> A :=
  fun j => if j =? k then x else f j.

Definition with_tensor (o : ostate) (v : vid) (t : tensor) : ostate :=
  {| reg := reg o; store := upd (store o) v t; nupd := upd (nupd o) v (S (nupd o v));
     bsize := bsize o; o_dtype := o_dtype o; o_dev := o_dev o |}.

Definition with_bsize (o : ostate) (b : option nat) : ostate :=
  {| reg := reg o; store := store o; nupd := nupd o; bsize := b;
     o_dtype := o_dtype o; o_dev := o_dev o |}.

(** Result of a call: a value or an exception, and the state left behind. *)
Inductive res (A : Type) := RetV (a : A) (o : ostate) | Exc (e : uexn) (o : ostate).
Arguments RetV {A} a o.
Arguments Exc {A} e o.
Definition rstate {A} (r : res A) : ostate := match r with RetV _ o => o | Exc _ o => o end.

(** objective.py 784-806: which variable a name given to [update] denotes. *)
Definition find_var (s : state) (n : name) : option vid :=
  match lookup n (optim_vars s) with
  | Some v => Some v
  | None => match lookup n (aux_vars s) with
            | Some v => Some v
            | None => lookup n (cw_optim_vars s)
            end
  end.

(** objective.py 771-806: one iteration of the loop over [input_tensors.items()]. *)
Definition update_one (mask : option (list bool)) (o : ostate) (nt : name * tensor) : res unit :=
  let (n, t) := nt in
  if length (t_shape t) =? 0 then Exc UValueError o else
  if negb ((t_dev t =? o_dev o) && (t_dtype t =? o_dtype o)) then Exc UValueError o else
  match find_var (reg o) n with
  | None => RetV tt o (* warns *)
  | Some v => match var_update (store o v) t mask with
              | inl t' => RetV tt (with_tensor o v t')
              | inr e => Exc e o
              end
  end.

Fixpoint update_all (mask : option (list bool)) (o : ostate) (l : list (name * tensor)) : res unit :=
  match l with
  | [] => RetV tt o
  | nt :: r => match update_one mask o nt with
               | RetV _ o' => update_all mask o' r
               | Exc e o' => Exc e o'
               end
  end.

(** objective.py 711-720: [_get_batch_size]; [None] is the ValueError. Python's [set] is
    [nodup]; min and max of the two-element set. *)
Definition get_batch_size (l : list nat) : option nat :=
  match nodup Nat.eq_dec l with
  | [_] => match l with b :: _ => Some b | [] => None end
  | [a; b] => if Nat.min a b =? 1 then Some (Nat.max a b) else None
  | _ => None
  end.

(** objective.py 722-723 *)
Definition batch_sizes (o : ostate) : list nat :=
  map (fun v => batch (store o v)) (values (optim_vars (reg o)) ++ values (aux_vars (reg o))).

(** objective.py 708-724 [_resolve_batch_size]: [_batch_size] is [None] if it raises. *)
Definition resolve_batch_size (o : ostate) : res unit :=
  match get_batch_size (batch_sizes o) with
  | Some b => RetV tt (with_bsize o (Some b))
  | None => Exc UValueError (with_bsize o None)
  end.

(** objective.py 729-811 [update] (vectorization off, or [_update_vectorization=False]). *)
Definition update (o : ostate) (input : list (name * tensor)) (mask : option (list bool)) : res unit :=
  match update_all mask o input with
  | RetV _ o' => resolve_batch_size o'
  | Exc e o' => Exc e o'
  end.

(** ---- error ---- *)
(** The weighted error of each cost function: a function of the current tensors, one list of
    entries per batch row (cost_function.py, vectorization off). *)
Context {F : Type}.
Variable weighted_error : cid -> (vid -> tensor) -> list (list F).

(** [torch.cat(errors, dim=1)]: all batch dimensions must agree; [None] is the RuntimeError. *)
Fixpoint cat_rows (a b : list (list F)) : list (list F) :=
  match a, b with
  | x :: a', y :: b' => (x ++ y) :: cat_rows a' b'
  | _, _ => []
  end.
Definition cat_dim1 (l : list (list (list F))) : option (list (list F)) :=
  match l with
  | [] => None (* torch.cat expects a non-empty list *)
  | e :: r =>
    if forallb (fun e' => length e' =? length e) r then Some (fold_left cat_rows r e) else None
  end.

(** objective.py 603-605, 836-837 with vectorization off *)
Definition eval_errors (o : ostate) : list (list (list F)) :=
  map (fun c => weighted_error c (store o)) (values (cost_functions (reg o))).

(** objective.py 587-591: the tensors saved before a temporary update: optimization variables
    only. *)
Definition save_optim (o : ostate) : list (name * tensor) :=
  map (fun nv => (fst nv, store o (snd nv))) (optim_vars (reg o)).

(** objective.py 562-613 [error] (vectorization off). *)
Definition error (o : ostate) (input : option (list (name * tensor))) (also_update : bool)
  : res (list (list F)) :=
  let r1 := match input with
            | None => RetV tt o
            | Some inp => update o inp None
            end in
  match r1 with
  | Exc e o' => Exc e o'
  | RetV _ o' =>
    match cat_dim1 (eval_errors o') with
    | None => Exc URuntimeError o'
    | Some err =>
      match input with
      | None => RetV err o'
      | Some _ =>
        if also_update then RetV err o'
        else match update o' (save_optim o) None with
             | RetV _ o'' => RetV err o''
             | Exc e o'' => Exc e o''
             end
      end
    end
  end.
End Upd.
Arguments tensor E : clear implicits.
Arguments ostate E : clear implicits.
Arguments res E A : clear implicits.
Arguments RetV {E A} a o.
Arguments Exc {E A} e o.
Arguments update_one : simpl never.
Arguments var_update : simpl never.
