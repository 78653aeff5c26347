(** Model of the finite differences of theseus/utils/utils.py: numeric_jacobian
    (75-117) and numeric_grad (120-134).  Tensors are exact reals; the tensor
    a division by zero would fill with inf or nan is not modelled (the theorems
    suppose a positive step). *)
From Coq Require Import Reals List Arith Bool ZArith.
From Verif Require Import Geo_spec Geo3_spec Geo4_spec RSum SE2_model SO3_model SE3_model Emb_model.
Import ListNotations.
Local Open Scope R_scope.

(** ** numeric_grad *)
(** numpy arrays with one or more dimensions; the data are kept as the list of
    the entries in order.  Storing a float in an integer array drops its
    fractional part. *)
Inductive npdtype := NpFloat | NpInt.
Record ndarray := mkNd { nd_dtype : npdtype; nd_shape : list nat; nd_data : list R }.
Definition trunc (r : R) : R := if Rle_dec 0 r then IZR (Int_part r) else - IZR (Int_part (- r)).
Definition np_cast (dt : npdtype) (r : R) : R := match dt with NpFloat => r | NpInt => trunc r end.
Fixpoint set_nth {A} (l : list A) (i : nat) (v : A) : list A :=
  match l, i with
  | [], _ => []
  | _ :: l', O => v :: l'
  | x :: l', S i' => x :: set_nth l' i' v
  end.
(** np.zeros_like, a[i] = v, x + y, x - y *)
Definition zeros_like (x : ndarray) : ndarray := mkNd (nd_dtype x) (nd_shape x) (map (fun _ => 0) (nd_data x)).
Definition np_set (x : ndarray) (i : nat) (v : R) : ndarray :=
  mkNd (nd_dtype x) (nd_shape x) (set_nth (nd_data x) i (np_cast (nd_dtype x) v)).
Definition np_zip (op : R -> R -> R) (x y : ndarray) : ndarray :=
  mkNd (nd_dtype x) (nd_shape x) (map (fun p => op (fst p) (snd p)) (combine (nd_data x) (nd_data y))).
(** utils.py:121-134: the function numeric_grad returns; None: the assertion of
    line 125 fails.  [f] returns a number (or an array of one number, which numpy
    stores like a number). *)
Definition numeric_grad (f : ndarray -> R) (h : R) (x : ndarray) : option ndarray :=
  match nd_shape x with
  | [n] =>
      Some (fold_left (fun g i =>
              let h_i := np_set (zeros_like x) i h in
              np_set g i ((f (np_zip Rplus x h_i) - f (np_zip Rminus x h_i)) / (2 * h)))
            (seq 0 n) (zeros_like x))
  | _ => None
  end.

(** ** numeric_jacobian *)
(** A LieGroup subclass together with dof(), the tangent vector of a row of
    numbers, the columns of a tangent vector, and retract (lie_group.py). *)
Record NGroup := mkNG {
  ng : LieGroup;
  ng_dof : nat;
  ng_vec : list R -> tangent ng;
  ng_coord : tangent ng -> nat -> R;
  ng_retract : elt ng -> tangent ng -> option (elt ng) }.
Definition v3_of (l : list R) : V3 := mkV3 (nth 0 l 0) (nth 1 l 0) (nth 2 l 0).
Definition v3_at (v : V3) (i : nat) : R := match i with 0%nat => b0 v | 1%nat => b1 v | 2%nat => b2 v | _ => 0 end.
Definition tw_of (l : list R) : Tw := mkTw (v3_of l) (mkV3 (nth 3 l 0) (nth 4 l 0) (nth 5 l 0)).
Definition tw_at (v : Tw) (i : nat) : R := if Nat.ltb i 3 then v3_at (lin v) i else v3_at (ang v) (i - 3).
(** vector.py, so2.py, se2.py, so3.py, se3.py: dof, retract *)
Definition vector_ng (n : nat) : NGroup :=
  mkNG (vector_group n) n (fun l i => nth i l 0) (fun v i => v i) (fun g v => Some (fun i => g i + v i)).
Definition so2_ng : NGroup :=
  mkNG so2_group 1 (fun l => nth 0 l 0) (fun v _ => v) (fun g v => Some (so2_retract g v)).
Definition se2_ng (d : dtype) : NGroup := mkNG (se2_group d) 3 v3_of v3_at (se2_retract d).
Definition so3_ng (d : dtype) : NGroup := mkNG (so3_group d) 3 v3_of v3_at (so3_retract d).
Definition se3_ng (d : dtype) : NGroup := mkNG (se3_group d) 6 tw_of tw_at (se3_retract d).

(** one of the group_args: its class (and dtype) and its batch of elements *)
Inductive gclass := KVector (n : nat) | KSO2 | KSE2 (d : dtype) | KSO3 (d : dtype) | KSE3 (d : dtype).
Definition ng_of (c : gclass) : NGroup :=
  match c with
  | KVector n => vector_ng n
  | KSO2 => so2_ng
  | KSE2 d => se2_ng d
  | KSO3 d => so3_ng d
  | KSE3 d => se3_ng d
  end.
Record garg := mkGA { ga_cls : gclass; ga_val : list (elt (ng (ng_of ga_cls))) }.
Definition ga_ng (a : garg) : NGroup := ng_of (ga_cls a).
Fixpoint mapM {A B} (f : A -> option B) (l : list A) : option (list B) :=
  match l with
  | [] => Some []
  | x :: l' => do y <- f x; do r <- mapM f l'; Some (y :: r)
  end.
(** retract with a delta of batch size 1: each element by the same tangent vector *)
Definition ga_retract (a : garg) (delta : list R) : option garg :=
  do v <- mapM (fun g => ng_retract (ga_ng a) g (ng_vec (ga_ng a) delta)) (ga_val a);
  Some (mkGA (ga_cls a) v).
(** torch broadcasting of two batches *)
Definition bzip {A B} (l : list A) (m : list B) : option (list (A * B)) :=
  if Nat.eqb (length l) (length m) then Some (combine l m)
  else match l, m with
       | [x], _ => Some (map (fun y => (x, y)) m)
       | _, [y] => Some (map (fun x => (x, y)) l)
       | _, _ => None
       end.
(** a.local(b) as rows of numbers *)
Definition ng_local (o : NGroup) (a b : list (elt (ng o))) : option (list (list R)) :=
  do ps <- bzip a b;
  mapM (fun p => do u <- local (fst p) (snd p); Some (map (ng_coord o u) (seq 0 (ng_dof o)))) ps.
(** a (batch, rows, columns) tensor *)
Record jacT := mkJ { j_b : nat; j_r : nat; j_c : nat; j_at : nat -> nat -> nat -> R }.
Definition zeros3 (b r c : nat) : jacT := mkJ b r c (fun _ _ _ => 0).
(** jac[:, :, d] = m where m has shape (b', r'): b' is b or 1 and r' is r or 1 *)
Definition set_column (j : jacT) (d : nat) (r' : nat) (m : list (list R)) : option jacT :=
  if (Nat.eqb (length m) (j_b j) || Nat.eqb (length m) 1) && (Nat.eqb r' (j_r j) || Nat.eqb r' 1)
  then Some (mkJ (j_b j) (j_r j) (j_c j) (fun b i c =>
         if Nat.eqb c d
         then nth (if Nat.eqb r' 1 then 0%nat else i) (nth (if Nat.eqb (length m) 1 then 0%nat else b) m []) 0
         else j_at j b i c))
  else None.
(** the body of the loop over d, lines 98-111 *)
Definition nj_step (o : NGroup) (f : list garg -> option (list (elt (ng o)))) (args : list garg) (k : nat) (a : garg)
    (delta_mag : R) (jac : option jacT) (d : nat) : option jacT :=
  do j <- jac;
  let delta := set_nth (repeat 0 (ng_dof (ga_ng a))) d delta_mag in
  do group_plus <- ga_retract a delta;
  do group_minus <- ga_retract a (map Ropp delta);
  do fm <- f (set_nth args k group_minus);
  do fp <- f (set_nth args k group_plus);
  do diff <- ng_local o fm fp;
  set_column j d (ng_dof o) (map (map (fun x => x / (2 * delta_mag))) diff).
(** lines 91-112 (_compute) *)
Definition nj_compute (o : NGroup) (f : list garg -> option (list (elt (ng o)))) (args : list garg) (batch_size : nat)
    (function_dim : option nat) (delta_mag : R) (k : nat) : option jacT :=
  do a <- nth_error args k;
  let dof := ng_dof (ga_ng a) in
  let function_dim_ := match function_dim with Some (S n) => S n | _ => dof end in
  fold_left (nj_step o f args k a delta_mag) (seq 0 dof) (Some (zeros3 batch_size function_dim_ dof)).
(** max([g.shape[0] for g in group_args]): raises on no arguments *)
Definition max_batch (args : list garg) : option nat :=
  match args with
  | [] => None
  | _ => Some (list_max (map (fun a => length (ga_val a)) args))
  end.
(** lines 83-117 *)
Definition numeric_jacobian (o : NGroup) (f : list garg -> option (list (elt (ng o)))) (args : list garg)
    (function_dim : option nat) (delta_mag : R) : option (list jacT) :=
  do batch_size <- max_batch args;
  mapM (nj_compute o f args batch_size function_dim delta_mag) (seq 0 (length args)).
