(** Model of the gradient operators left_act and left_project of torchlie on tensors of any number of dimensions
    (torchlie/torchlie/functional/so3_impl.py, se3_impl.py, lie_group.py, utils.py), with their backward functions.  Real numbers;
    exceptions are [None]; the checks of the values of the group (off by default) are not modelled, those of the shapes are. *)
From Coq Require Import List Arith Bool ZArith Reals.
From Verif Require Import RSum.
Import ListNotations.
Local Open Scope nat_scope.

(** a tensor: its shape, and its entry at a list of indices *)
Record nd := mkNd { sh : list nat; dat : list nat -> R }.
Notation ndim t := (length (sh t)).
(** the sum of the entries of a shape *)
Fixpoint isum (s : list nat) (f : list nat -> R) : R := match s with
  | [] => f []
  | n :: s' => rsum n (fun i => isum s' (fun x => f (i :: x)))
  end.

(** ** torch operations *)
(** Python's range *)
Definition zrange (a b : Z) : list Z := map (fun i => (a + Z.of_nat i)%Z) (seq 0 (Z.to_nat (b - a))).
(** Tensor.permute: as many dimensions as the tensor has, negative ones from the end, each once *)
Definition wrap (n : nat) (d : Z) : nat := Z.to_nat (if (d <? 0)%Z then d + Z.of_nat n else d).
Fixpoint pos (d : nat) (p : list nat) : nat := match p with [] => 0 | x :: t => if x =? d then 0 else S (pos d t) end.
Definition permute (p : list Z) (t : nd) : option nd :=
  let n := ndim t in let q := map (wrap n) p in
  if (length p =? n) && forallb (fun d => (- Z.of_nat n <=? d)%Z && (d <? Z.of_nat n)%Z) p && forallb (fun d => existsb (Nat.eqb d) q) (seq 0 n)
  then Some (mkNd (map (fun d => nth d (sh t) 0) q) (fun x => dat t (map (fun d => nth (pos d q) x 0) (seq 0 n))))
  else None.
(** broadcasting of batch shapes, right aligned; the index of a tensor of shape [s] that is read for the index [x] of the result *)
Definition pad (n : nat) (s : list nat) : list nat := repeat 1 (n - length s) ++ s.
Fixpoint bzip (a b : list nat) : option (list nat) := match a, b with
  | [], [] => Some []
  | x :: a', y :: b' => match (if x =? y then Some x else if x =? 1 then Some y else if y =? 1 then Some x else None), bzip a' b' with
    | Some z, Some r => Some (z :: r)
    | _, _ => None
    end
  | _, _ => None
  end.
Definition bcast (a b : list nat) : option (list nat) := let n := max (length a) (length b) in bzip (pad n a) (pad n b).
Fixpoint bsel (s x : list nat) : list nat := match s, x with n :: s', i :: x' => (if n =? 1 then 0 else i) :: bsel s' x' | _, _ => [] end.
Definition bidx (s x : list nat) : list nat := bsel s (skipn (length x - length s) x).
(** the batch dimensions and the matrix dimensions *)
Definition bsh (t : nd) : list nat := firstn (ndim t - 2) (sh t).
Definition rows (t : nd) : nat := nth (ndim t - 2) (sh t) 0.
Definition cols (t : nd) : nat := nth (ndim t - 1) (sh t) 0.
(** torch.matmul of tensors with at least two dimensions *)
Definition matmul (a b : nd) : option nd :=
  if (2 <=? ndim a) && (2 <=? ndim b) && (cols a =? rows b) then
    match bcast (bsh a) (bsh b) with
    | Some s => Some (mkNd (s ++ [rows a; cols b]) (fun x =>
        let bi := firstn (length x - 2) x in let i := nth (length x - 2) x 0 in let j := nth (length x - 1) x 0 in
        rsum (cols a) (fun l => (dat a (bidx (bsh a) bi ++ [i; l]) * dat b (bidx (bsh b) bi ++ [l; j]))%R)))
    | None => None
    end
  else None.
(** Tensor.transpose(-1, -2) *)
Definition transpose (t : nd) : nd :=
  mkNd (bsh t ++ [cols t; rows t]) (fun x => dat t (firstn (length x - 2) x ++ [nth (length x - 1) x 0; nth (length x - 2) x 0])).
(** Tensor.sum over the dimensions [a, a + k) *)
Definition sum_dims (a k : nat) (t : nd) : nd :=
  mkNd (firstn a (sh t) ++ skipn (a + k) (sh t)) (fun x => isum (firstn k (skipn a (sh t))) (fun m => dat t (firstn a x ++ m ++ skipn a x))).
(** tensor[..., :3] *)
Definition first_cols (k : nat) (t : nd) : nd := mkNd (bsh t ++ [rows t; min k (cols t)]) (dat t).
(** torch.cat((t, zeros(..., 3, 1)), dim=-1) *)
Definition cat_zero_col (t : nd) : nd := mkNd (bsh t ++ [rows t; S (cols t)]) (fun x => if nth (length x - 1) x 0 <? cols t then dat t x else 0%R).
(** what autograd does with a gradient that a backward function returns: it must be expandable from the shape of the input, and is summed to it *)
Fixpoint list_eqb (a b : list nat) : bool := match a, b with [], [] => true | x :: a', y :: b' => (x =? y) && list_eqb a' b' | _, _ => false end.
Definition reduce (s : list nat) (g : nd) : option nd :=
  match (if length s <=? ndim g then bzip (pad (ndim g) s) (sh g) else None) with
  | Some s' => if list_eqb s' (sh g) then Some (mkNd s (fun x => isum (sh g) (fun y => if list_eqb (bidx s y) x then dat g y else 0%R))) else None
  | None => None
  end.

(** ** torchlie/functional/utils.py 27-44 *)
Definition fill_dims (t : nd) (dim : nat) : nd := mkNd (repeat 1 (dim - ndim t) ++ sh t) (fun x => dat t (skipn (dim - ndim t) x)).
Definition permute_op_dim (dim op_dim group_dim : Z) : list Z :=
  zrange (dim - op_dim - group_dim) (dim - group_dim) ++ zrange 0 (dim - op_dim - group_dim) ++ zrange (dim - group_dim) dim.
Definition unpermute_op_dim (dim op_dim group_dim : Z) : list Z :=
  zrange op_dim (dim - group_dim) ++ zrange 0 op_dim ++ zrange (dim - group_dim) dim.

(** ** so3_impl.py *)
Definition opt_bind {A B} (o : option A) (f : A -> option B) : option B := match o with Some a => f a | None => None end.
Notation "'do' x <- o ; e" := (opt_bind o (fun x => e)) (at level 200, x name, right associativity).
(** 51-53 check_group_shape, 124-128 check_left_act_tensor, 131-135 check_left_project_tensor *)
Definition check_group_shape (c : nat) (g : nd) : bool := (2 <=? ndim g) && (rows g =? 3) && (cols g =? c).
Definition check_left_act (t : nd) : bool := (2 <=? ndim t) && (rows t =? 3).
Definition check_left_project (c : nat) (t : nd) : bool := (2 <=? ndim t) && (rows t =? 3) && (cols t =? c).
Definition the_dim_out (g t : nd) (dim_out : option Z) : Z := match dim_out with Some d => d | None => (Z.of_nat (ndim t) - Z.of_nat (ndim g))%Z end.
(** 1018-1021, 1033-1034 *)
Definition filled (g t : nd) (d : Z) : nd := if (Z.of_nat (ndim g) + d >? Z.of_nat (ndim t))%Z then fill_dims t (Z.to_nat (Z.of_nat (ndim g) + d)) else t.
(** 1013-1027 (_left_act_impl) *)
Definition left_act_so3 (g t : nd) (dim_out : option Z) : option nd :=
  if check_group_shape 3 g && check_left_act t then
    let d := the_dim_out g t dim_out in let t := filled g t d in let n := Z.of_nat (ndim t) in
    do t <- permute (permute_op_dim n d 2) t; do r <- matmul g t; permute (unpermute_op_dim n d 2) r
  else None.
(** 1030-1045 (_left_act_backward_helper), before the reduction by autograd *)
Definition left_act_helper (g t : nd) (d : Z) (grad : nd) : option (nd * nd) :=
  let t := filled g t d in let n := Z.of_nat (ndim t) in
  let p := permute_op_dim n d 2 in let u := unpermute_op_dim n d 2 in
  do t <- permute p t; do grad <- permute p grad;
  do jg <- matmul grad (transpose t); do jg <- permute u jg;
  do jt <- matmul (transpose g) grad; do jt <- permute u jt;
  Some (if (0 <? d)%Z then sum_dims (ndim t - 2 - Z.to_nat d) (Z.to_nat d) jg else jg, jt).
(** LeftAct.backward 1063-1067, with autograd's reduction *)
Definition left_act_backward_so3 (g t : nd) (dim_out : option Z) (grad : nd) : option (nd * nd) :=
  do j <- left_act_helper g t (the_dim_out g t dim_out) grad; do a <- reduce (sh g) (fst j); do b <- reduce (sh t) (snd j); Some (a, b).
(** 940-952 (_lift_impl), 977-986 (_project_impl) on the last dimensions *)
Definition project_so3 (t : nd) : nd := mkNd (bsh t ++ [3]) (fun x =>
  let b := firstn (length x - 1) x in let m i j := dat t (b ++ [i; j]) in
  match nth (length x - 1) x 0 with 0 => Rminus (m 2 1) (m 1 2) | 1 => Rminus (m 0 2) (m 2 0) | _ => Rminus (m 1 0) (m 0 1) end).
Definition lift_so3 (v : nd) : nd := mkNd (firstn (ndim v - 1) (sh v) ++ [3; 3]) (fun x =>
  let b := firstn (length x - 2) x in let w k := dat v (b ++ [k]) in
  match nth (length x - 2) x 0, nth (length x - 1) x 0 with
  | 0, 1 => Ropp (w 2) | 0, 2 => w 1 | 1, 2 => Ropp (w 0) | 1, 0 => w 2 | 2, 0 => Ropp (w 1) | 2, 1 => w 0 | _, _ => 0%R end).
(** lie_group.py 36-48 (LeftProjectImplFactory) with so3_impl.py 561-563 (inverse) *)
Definition left_project_so3 (g t : nd) (dim_out : option Z) : option nd :=
  if check_group_shape 3 g && check_left_project 3 t then do r <- left_act_so3 (transpose g) t dim_out; Some (project_so3 r) else None.
(** 1086-1095 (_left_project_backward_helper), LeftProject.backward 1113-1118 *)
Definition left_project_helper (g t : nd) (d : Z) (lifted : nd) : option (nd * nd) :=
  do j <- left_act_helper (transpose g) t d lifted; Some (transpose (fst j), snd j).
Definition left_project_backward_so3 (g t : nd) (dim_out : option Z) (grad : nd) : option (nd * nd) :=
  do j <- left_project_helper g t (the_dim_out g t dim_out) (lift_so3 grad); do a <- reduce (sh g) (fst j); do b <- reduce (sh t) (snd j); Some (a, b).

(** ** se3_impl.py *)
(** 952-959 (_left_act_impl), 962-972 (_left_act_backward_helper), 992-996 (LeftAct.backward) *)
Definition left_act_se3 (g t : nd) (dim_out : option Z) : option nd :=
  if check_group_shape 4 g && check_left_act t then left_act_so3 (first_cols 3 g) t (Some (the_dim_out g t dim_out)) else None.
Definition left_act_backward_se3 (g t : nd) (dim_out : option Z) (grad : nd) : option (nd * nd) :=
  do j <- left_act_helper (first_cols 3 g) t (the_dim_out g t dim_out) grad;
  do a <- reduce (sh g) (cat_zero_col (fst j)); do b <- reduce (sh t) (snd j); Some (a, b).
(** 876-883 (_lift_impl), 913-925 (_project_impl) *)
Definition project_se3 (t : nd) : nd := mkNd (bsh t ++ [6]) (fun x =>
  let b := firstn (length x - 1) x in let m i j := dat t (b ++ [i; j]) in
  match nth (length x - 1) x 0 with 0 => m 0 3 | 1 => m 1 3 | 2 => m 2 3 | 3 => Rminus (m 2 1) (m 1 2) | 4 => Rminus (m 0 2) (m 2 0) | _ => Rminus (m 1 0) (m 0 1) end).
Definition lift_se3 (v : nd) : nd := mkNd (firstn (ndim v - 1) (sh v) ++ [3; 4]) (fun x =>
  let b := firstn (length x - 2) x in let w k := dat v (b ++ [k]) in
  match nth (length x - 2) x 0, nth (length x - 1) x 0 with
  | i, 3 => w i
  | 0, 1 => Ropp (w 5) | 0, 2 => w 4 | 1, 2 => Ropp (w 3) | 1, 0 => w 5 | 2, 0 => Ropp (w 4) | 2, 1 => w 3 | _, _ => 0%R end).
(** se3_impl.py 578-581 (_inverse_impl): [R^T, -R^T t] *)
Definition inverse_se3 (g : nd) : nd := mkNd (bsh g ++ [3; 4]) (fun x =>
  let b := firstn (length x - 2) x in let i := nth (length x - 2) x 0 in let j := nth (length x - 1) x 0 in
  if j <? 3 then dat g (b ++ [j; i]) else (- rsum 3 (fun l => dat g (b ++ [l; i]) * dat g (b ++ [l; 3%nat])))%R).
Definition left_project_se3 (g t : nd) (dim_out : option Z) : option nd :=
  if check_group_shape 4 g && check_left_project 4 t then do r <- left_act_se3 (inverse_se3 g) t dim_out; Some (project_se3 r) else None.
(** 1014-1027 (_left_project_backward_helper), 1044-1049 (LeftProject.backward) *)
Definition left_project_backward_se3 (g t : nd) (dim_out : option Z) (grad : nd) : option (nd * nd) :=
  do j <- left_project_helper (first_cols 3 g) t (the_dim_out g t dim_out) (lift_se3 grad);
  do a <- reduce (sh g) (cat_zero_col (fst j)); do b <- reduce (sh t) (snd j); Some (a, b).
