(** Model of the class ManifoldGaussian (theseus/optimizer/manifold_gaussian.py:13-107)
    and of the Variables it refers to.  Tensors and Variables are objects with an
    identity: two Variables may hold the same tensor, two Gaussians the same
    Variables.  Identities are positions in the lists of the state, so a new object
    is appended.  Names, gradients and nan entries are not modelled; the entries of
    a tensor are real numbers and to() keeps them. *)
From Coq Require Import Reals List Arith Bool.
Import ListNotations.
From Verif Require Import Mg_model.

Notation tid := nat (only parsing).
Notation vid := nat (only parsing).
Notation gid := nat (only parsing).

Record tns := mkTns { t_dtype : nat; t_dev : nat; t_shape : list nat; t_val : list nat -> R }.
(** variable.py:12-28, and the degrees of freedom of its class (for Vector the
    size, which never changes); the held tensor *)
Record var := mkVar { v_dof : nat; v_tensor : tid }.
Record gauss := mkGauss { g_mean : list vid; g_dof : nat; g_prec : tid }.
Record st := mkSt { tens : list tns; vars : list var; gs : list gauss }.
Inductive out (A : Type) := Ok (a : A) | Raise (s : st).
Arguments Ok {A} a.
Arguments Raise {A} s.

Definition null : tns := mkTns 0 0 [] (fun _ => 0%R).
Definition tensor_of (s : st) (t : tid) : tns := nth t (tens s) null.
Definition var_of (s : st) (v : vid) : var := nth v (vars s) (mkVar 0 0).
(** the tensor a variable holds *)
Definition held (s : st) (v : vid) : tns := tensor_of s (v_tensor (var_of s v)).
(** mean[0].shape[0] *)
Definition batch (s : st) (v : vid) : nat := hd 0 (t_shape (held s v)).

Fixpoint replace {A} (n : nat) (x : A) (l : list A) : list A :=
  match l, n with
  | [], _ => []
  | _ :: r, 0 => x :: r
  | a :: r, S m => a :: replace m x r
  end.
Definition set_var (s : st) (v : vid) (t : tid) : st :=
  mkSt (tens s) (replace v (mkVar (v_dof (var_of s v)) t) (vars s)) (gs s).
Definition set_gauss (s : st) (g : gid) (x : gauss) : st := mkSt (tens s) (vars s) (replace g x (gs s)).
Definition new_tensor (s : st) (x : tns) : st * tid := (mkSt (tens s ++ [x]) (vars s) (gs s), length (tens s)).
Definition new_var (s : st) (x : var) : st * vid := (mkSt (tens s) (vars s ++ [x]) (gs s), length (vars s)).

Definition shape_eqb (a b : list nat) : bool := if list_eq_dec Nat.eq_dec a b then true else false.
(** variable.py:44-72 (Variable.update, no mask); the variable then holds the
    given tensor itself *)
Definition var_update (s : st) (v : vid) (t : tid) : option st :=
  let new := tensor_of s t in let old := held s v in
  if negb (length (t_shape new) =? length (t_shape old)) || negb (shape_eqb (tl (t_shape new)) (tl (t_shape old))) then None
  else if negb (t_dtype new =? t_dtype old) then None
  else Some (set_var s v t).

(** manifold_gaussian.py:84-85 *)
Fixpoint update_means (s : st) (self mean : list vid) : out st :=
  match self, mean with
  | a :: self', b :: mean' =>
    match var_update s a (v_tensor (var_of s b)) with
    | None => Raise s
    | Some s' => update_means s' self' mean'
    end
  | _, _ => Ok s
  end.

(** torch.allclose(precision, precision.transpose(1, 2)), on a tensor of shape
    [B, n, n] *)
Definition close_to_transpose (p : tns) : bool :=
  match t_shape p with
  | [B; n; _] => forallb (fun b => let P := fun i j => t_val p [b; i; j] in allclose n P (transpose P)) (seq 0 B)
  | _ => false
  end.

(** manifold_gaussian.py:73-107 (update), on the object [g]: the new state and the
    precision it stores.  mean[0] raises IndexError for an empty sequence. *)
Definition update (s : st) (g : gauss) (mean : list vid) (p : tid) : out (st * gauss) :=
  if negb (length mean =? length (g_mean g)) then Raise s else
  match update_means s (g_mean g) mean with
  | Raise s' => Raise s'
  | Ok s' =>
    match mean, g_mean g with
    | m0 :: _, self0 :: _ =>
      let precision := tensor_of s' p in
      let expected_shape := [batch s' m0; g_dof g; g_dof g] in
      if negb (shape_eqb (t_shape precision) expected_shape) then Raise s' else
      if negb (t_dtype precision =? t_dtype (held s' self0)) then Raise s' else
      if negb (t_dev precision =? t_dev (held s' self0)) then Raise s' else
      if negb (close_to_transpose precision) then Raise s' else
      Ok (s', mkGauss (g_mean g) (g_dof g) p)
    | _, _ => Raise s'
    end
  end.

(** torch.eye(dof).to(dtype, device)[None, ...].repeat(B, 1, 1) *)
Definition eye_val (ix : list nat) : R :=
  match ix with [_; i; j] => if (i =? j) then 1%R else 0%R | _ => 0%R end.
Definition eye_tensor (dt dev B n : nat) : tns := mkTns dt dev [B; n; n] eye_val.
Definition total_dof (s : st) (mean : list vid) : nat := list_sum (map (fun v => v_dof (var_of s v)) mean).

(** manifold_gaussian.py:16-40 (constructor); the object that was being built is
    lost when it raises.  Before update() stores one, there is no precision
    attribute; [0] stands for it. *)
Definition gauss_new (s : st) (mean : list vid) (precision : option tid) : out (st * gid) :=
  let dof := total_dof s mean in
  let go (s : st) (p : tid) :=
    match update s (mkGauss mean dof 0) mean p with
    | Raise s' => Raise s'
    | Ok (s', g) => Ok (mkSt (tens s') (vars s') (gs s' ++ [g]), length (gs s'))
    end in
  match precision with
  | Some p => go s p
  | None =>
    match mean with
    | [] => Raise s
    | m0 :: _ => let (s', p) := new_tensor s (eye_tensor (t_dtype (held s m0)) (t_dev (held s m0)) (batch s m0) dof) in go s' p
    end
  end.

(** geometry/*.py _copy_impl: a new variable with a clone of the tensor (of valid
    data, so that the constructor keeps it, see C55) *)
Definition var_copy (s : st) (v : vid) : st * vid :=
  let (s', t) := new_tensor s (held s v) in new_var s' (mkVar (v_dof (var_of s v)) t).
Fixpoint copy_means (s : st) (mean : list vid) : st * list vid :=
  match mean with
  | [] => (s, [])
  | v :: r => let (s', w) := var_copy s v in let (s'', ws) := copy_means s' r in (s'', w :: ws)
  end.
Definition null_gauss : gauss := mkGauss [] 0 0.
Definition gauss_of (s : st) (g : gid) : gauss := nth g (gs s) null_gauss.
(** manifold_gaussian.py:57-62 (copy) *)
Definition gauss_copy (s : st) (g : gid) : out (st * gid) :=
  let (s1, mean_copy) := copy_means s (g_mean (gauss_of s g)) in
  let (s2, precision_copy) := new_tensor s1 (tensor_of s1 (g_prec (gauss_of s1 g))) in
  gauss_new s2 mean_copy (Some precision_copy).

(** torch.Tensor.to: the same tensor if nothing changes, else a new one *)
Definition tensor_to (s : st) (dt dev : nat) (t : tid) : st * tid :=
  let x := tensor_of s t in
  if (t_dtype x =? dt) && (t_dev x =? dev) then (s, t) else new_tensor s (mkTns dt dev (t_shape x) (t_val x)).
Definition var_to (s : st) (dt dev : nat) (v : vid) : st :=
  let (s', t) := tensor_to s dt dev (v_tensor (var_of s v)) in set_var s' v t.
(** manifold_gaussian.py:51-55 (to, with a supported dtype and a device) *)
Definition gauss_to (s : st) (g : gid) (dt dev : nat) : st :=
  let x := gauss_of s g in
  let s1 := fold_left (fun s v => var_to s dt dev v) (g_mean x) s in
  let (s2, p) := tensor_to s1 dt dev (g_prec x) in
  set_gauss s2 g (mkGauss (g_mean x) (g_dof x) p).

(** what a program does with these objects *)
Inductive op :=
| NewTensor (x : tns)
| NewVar (dof : nat) (t : tid)                     (* a Variable holding the tensor t *)
| Write (t : tid) (f : list nat -> R)              (* in-place change of entries, e.g. v[...] = x *)
| VarUpdate (v : vid) (t : tid)                    (* Variable.update *)
| New (mean : list vid) (precision : option tid)
| Update (g : gid) (mean : list vid) (precision : tid)
| Copy (g : gid)
| To (g : gid) (dtype device : nat).

(** one operation; true: no exception *)
Definition step (s : st) (o : op) : st * bool :=
  match o with
  | NewTensor x => (fst (new_tensor s x), true)
  | NewVar n t => (fst (new_var s (mkVar n t)), true)
  | Write t f => let x := tensor_of s t in
      (mkSt (replace t (mkTns (t_dtype x) (t_dev x) (t_shape x) f) (tens s)) (vars s) (gs s), true)
  | VarUpdate v t => match var_update s v t with Some s' => (s', true) | None => (s, false) end
  | New mean p => match gauss_new s mean p with Ok (s', _) => (s', true) | Raise s' => (s', false) end
  | Update g mean p =>
      match update s (gauss_of s g) mean p with Ok (s', x) => (set_gauss s' g x, true) | Raise s' => (s', false) end
  | Copy g => match gauss_copy s g with Ok (s', _) => (s', true) | Raise s' => (s', false) end
  | To g dt dev => (gauss_to s g dt dev, true)
  end.
Definition steps (s : st) (l : list op) : st := fold_left (fun s o => fst (step s o)) l s.
