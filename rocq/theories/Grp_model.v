(** Model of compose, transform and untransform of torchlie's SO3 and SE3 on tensors of any number of dimensions, with their Jacobians and their
    hand-written backward functions (torchlie/torchlie/functional/so3_impl.py, se3_impl.py), and of the methods of theseus' SO3 that call them.
    Tensors, matmul, transpose, broadcasting and autograd's reduction are those of Act_model.  Real numbers; exceptions are [None]; the checks of
    the values of the group (off by default) are not modelled, those of the shapes are. *)
From Coq Require Import List Arith Bool ZArith Reals.
From Verif Require Import RSum Act_model.
Import ListNotations.
Local Open Scope nat_scope.

(** ** torch operations *)
Definition last_dim (t : nd) : nat := nth (ndim t - 1) (sh t) 0.
(** shape[:-1] *)
Definition lead (t : nd) : list nat := firstn (ndim t - 1) (sh t).
(** Tensor.unsqueeze(-1), Tensor.squeeze(-1) *)
Definition unsqueeze (t : nd) : nd := mkNd (sh t ++ [1]) (fun x => dat t (firstn (length x - 1) x)).
Definition squeeze (t : nd) : nd := if last_dim t =? 1 then mkNd (lead t) (fun x => dat t (x ++ [0])) else t.
(** tensor[..., k:] *)
Definition cols_from (k : nat) (t : nd) : nd :=
  mkNd (bsh t ++ [rows t; cols t - k]) (fun x => dat t (firstn (length x - 1) x ++ [k + nth (length x - 1) x 0])).
(** elementwise operations with broadcasting, and the opposite *)
Definition zipw (op : R -> R -> R) (a b : nd) : option nd :=
  match bcast (sh a) (sh b) with
  | Some s => Some (mkNd s (fun x => op (dat a (bidx (sh a) x)) (dat b (bidx (sh b) x))))
  | None => None
  end.
Definition neg (t : nd) : nd := mkNd (sh t) (fun x => Ropp (dat t x)).
(** torch.cat((a, b), dim=-1): all dimensions but the last must agree *)
Definition cat_cols (a b : nd) : option nd :=
  if (2 <=? ndim a) && (2 <=? ndim b) && list_eqb (lead a) (lead b) then
    Some (mkNd (lead a ++ [cols a + cols b]) (fun x =>
      let j := nth (length x - 1) x 0 in if j <? cols a then dat a x else dat b (firstn (length x - 1) x ++ [j - cols a])))
  else None.
(** Tensor.view: the same entries in row-major order; the number of entries must agree.  (All uses are of tensors whose strides allow it.) *)
Fixpoint numel (s : list nat) : nat := match s with [] => 1 | n :: s' => n * numel s' end.
Fixpoint ravel (s x : list nat) : nat := match s, x with _ :: s', i :: x' => i * numel s' + ravel s' x' | _, _ => 0 end.
Fixpoint unravel (s : list nat) (k : nat) : list nat := match s with [] => [] | _ :: s' => k / numel s' :: unravel s' (k mod numel s') end.
Definition view (s : list nat) (t : nd) : option nd :=
  if numel s =? numel (sh t) then Some (mkNd s (fun x => dat t (unravel (sh t) (ravel s x)))) else None.
(** Tensor.expand *)
Definition expand (s : list nat) (t : nd) : option nd :=
  match (if ndim t <=? length s then bzip (pad (length s) (sh t)) s else None) with
  | Some s' => if list_eqb s' s then Some (mkNd s (fun x => dat t (bidx (sh t) x))) else None
  | None => None
  end.
(** new_zeros(size, n, n) with ones on the diagonal *)
Definition eyes (s : list nat) (n : nat) : nd := mkNd (s ++ [n; n]) (fun x => if nth (length x - 2) x 0 =? nth (length x - 1) x 0 then 1%R else 0%R).
(** autograd's reduction of both gradients *)
Definition reduced (g t : nd) (j : nd * nd) : option (nd * nd) := do a <- reduce (sh g) (fst j); do b <- reduce (sh t) (snd j); Some (a, b).

(** ** so3_impl.py *)
(** 83-91 check_transform_tensor (se3_impl.py 66-74): shape[-1] of a tensor without dimensions raises too *)
Definition check_transform (t : nd) : bool := (1 <=? ndim t) && (last_dim t =? 3).
(** 669-672 (_compose_impl), 675-685 (_jcompose_impl), 702-707 (Compose.backward) *)
Definition compose_so3 (g0 g1 : nd) : option nd := if check_group_shape 3 g0 && check_group_shape 3 g1 then matmul g0 g1 else None.
Definition jcompose_so3 (g0 g1 : nd) : option ((nd * nd) * nd) :=
  do r <- compose_so3 g0 g1; do j0 <- expand (bsh r ++ [3; 3]) (transpose g1); Some ((j0, eyes (bsh r) 3), r).
Definition compose_backward_so3 (g0 g1 grad : nd) : option (nd * nd) :=
  do a <- matmul grad (transpose g1); do b <- matmul (transpose g0) grad; reduced g0 g1 (a, b).
(** 717-721 (_transform_impl), 724-735 (_jtransform_impl; _hat_impl 587-599 is lift_so3 on tensors of shape (..., 3)), 751-759 (TransformFrom.backward) *)
Definition transform_so3 (g t : nd) : option nd :=
  if check_group_shape 3 g && check_transform t then do r <- matmul g (unsqueeze t); Some (squeeze r) else None.
Definition jtransform_so3 (g t : nd) : option ((nd * nd) * nd) :=
  do r <- transform_so3 g t; do j <- matmul (neg g) (lift_so3 t);
  do jg <- expand (lead r ++ [3; 3]) j; do jp <- expand (lead r ++ [3; 3]) g; Some ((jg, jp), r).
Definition transform_backward_so3 (g t grad : nd) : option (nd * nd) :=
  let grad := unsqueeze grad in
  do p <- view (lead t ++ [1; 3]) t; do a <- matmul grad p; do b <- matmul (transpose (first_cols 3 g)) grad; reduced g t (a, squeeze b).
(** 769-773 (_untransform_impl), 776-787 (_juntransform_impl), 803-811 (Untransform.backward) *)
Definition untransform_so3 (g t : nd) : option nd :=
  if check_group_shape 3 g && check_transform t then do r <- matmul (transpose g) (unsqueeze t); Some (squeeze r) else None.
Definition juntransform_so3 (g t : nd) : option ((nd * nd) * nd) :=
  do r <- untransform_so3 g t; do jg <- expand (lead r ++ [3; 3]) (lift_so3 r); do jp <- expand (lead r ++ [3; 3]) (transpose g); Some ((jg, jp), r).
Definition untransform_backward_so3 (g t grad : nd) : option (nd * nd) :=
  let grad := unsqueeze grad in
  do p <- view (lead t ++ [3; 1]) t; do a <- matmul p (transpose grad); do b <- matmul (first_cols 3 g) grad; reduced g t (a, squeeze b).

(** ** se3_impl.py *)
(** 531-538 (_adjoint_impl) of 578-581 (_inverse_impl, Act_model.inverse_se3) *)
Definition adjoint_se3 (g : nd) : option nd :=
  do hr <- matmul (lift_so3 (squeeze (cols_from 3 g))) (first_cols 3 g);
  Some (mkNd (bsh g ++ [6; 6]) (fun x =>
    let b := firstn (length x - 2) x in let i := nth (length x - 2) x 0 in let j := nth (length x - 1) x 0 in
    if i <? 3 then (if j <? 3 then dat g (b ++ [i; j]) else dat hr (b ++ [i; j - 3])) else (if j <? 3 then 0%R else dat g (b ++ [i - 3; j - 3])))).
(** 703-707 (_compose_impl), 710-723 (_jcompose_impl), 736-743 (Compose.backward) *)
Definition compose_se3 (g0 g1 : nd) : option nd :=
  if check_group_shape 4 g0 && check_group_shape 4 g1 then
    do rot <- matmul (first_cols 3 g0) (first_cols 3 g1);
    do rt <- matmul (first_cols 3 g0) (cols_from 3 g1); do t <- zipw Rplus rt (cols_from 3 g0);
    cat_cols rot t
  else None.
Definition jcompose_se3 (g0 g1 : nd) : option ((nd * nd) * nd) :=
  do r <- compose_se3 g0 g1; do a <- adjoint_se3 (inverse_se3 g1); do j0 <- expand (bsh r ++ [6; 6]) a; Some ((j0, eyes (bsh r) 6), r).
Definition compose_backward_se3 (g0 g1 grad : nd) : option (nd * nd) :=
  do m <- matmul grad (transpose g1); do a <- cat_cols m (cols_from 3 grad); do b <- matmul (transpose (first_cols 3 g0)) grad; reduced g0 g1 (a, b).
(** 757-761 (_transform_impl; the slice -1: is 3: of four columns), 764-777 (_jtransform_impl; the assignments to the slices of a new tensor of
    shape size + (3, 6) broadcast the right-hand sides), 791-804 (TransformFrom.backward) *)
Definition transform_se3 (g t : nd) : option nd :=
  if check_group_shape 4 g && check_transform t then
    do r <- matmul (first_cols 3 g) (unsqueeze t); do r <- zipw Rplus (cols_from 3 g) r; Some (squeeze r)
  else None.
Definition jtransform_se3 (g t : nd) : option ((nd * nd) * nd) :=
  do r <- transform_se3 g t; do h <- matmul (neg (first_cols 3 g)) (lift_so3 t);
  do j0 <- expand (lead r ++ [3; 3]) (first_cols 3 g); do j1 <- expand (lead r ++ [3; 3]) h; do jg <- cat_cols j0 j1;
  do jp <- expand (lead r ++ [3; 3]) (first_cols 3 g); Some ((jg, jp), r).
Definition transform_backward_se3 (g t grad : nd) : option (nd * nd) :=
  let grad := unsqueeze grad in
  do p <- view (lead t ++ [1; 3]) t; do m <- matmul grad p; do a <- cat_cols m grad; do b <- matmul (transpose (first_cols 3 g)) grad; reduced g t (a, squeeze b).
(** 813-817 (_untransform_impl), 820-837 (_juntransform_impl), 853-868 (Untransform.backward) *)
Definition untransform_se3 (g t : nd) : option nd :=
  if check_group_shape 4 g && check_transform t then
    do d <- zipw Rminus (unsqueeze t) (cols_from 3 g); do r <- matmul (transpose (first_cols 3 g)) d; Some (squeeze r)
  else None.
Definition juntransform_se3 (g t : nd) : option ((nd * nd) * nd) :=
  do r <- untransform_se3 g t; do j1 <- expand (lead r ++ [3; 3]) (lift_so3 r); do jg <- cat_cols (neg (eyes (lead r) 3)) j1;
  do jp <- expand (lead r ++ [3; 3]) (transpose (first_cols 3 g)); Some ((jg, jp), r).
Definition untransform_backward_se3 (g t grad : nd) : option (nd * nd) :=
  do tmp <- zipw Rminus (unsqueeze t) (cols_from 3 g);
  let grad := unsqueeze grad in
  do b <- matmul (first_cols 3 g) grad;
  do p <- view (lead t ++ [3; 1]) tmp; do m <- matmul p (transpose grad); do a <- cat_cols m (neg b);
  reduced g t (a, squeeze b).

(** ** theseus/geometry/so3.py 247-268 (_rotate_shape_check) for a tensor, 286-303 (rotate, unrotate) *)
Definition rotate_shape_check (g p : nd) : bool :=
  ((ndim p =? 2) || (ndim p =? 3)) && (nth 1 (sh p) 0 =? 3) && ((negb (ndim p =? 3)) || (last_dim p =? 1)) &&
  ((nth 0 (sh p) 0 =? nth 0 (sh g) 0) || (nth 0 (sh p) 0 =? 1) || (nth 0 (sh g) 0 =? 1)).
Definition rotate_th (g p : nd) : option nd := if rotate_shape_check g p then transform_so3 g p else None.
Definition unrotate_th (g p : nd) : option nd := if rotate_shape_check g p then untransform_so3 g p else None.

(** ** theseus/geometry/se3.py 231-247 (_transform_shape_check) for a tensor, 249-265 (transform_from, transform_to) *)
Definition transform_shape_check (g p : nd) : bool :=
  (ndim p =? 2) && (nth 1 (sh p) 0 =? 3) && ((nth 0 (sh p) 0 =? nth 0 (sh g) 0) || (nth 0 (sh p) 0 =? 1) || (nth 0 (sh g) 0 =? 1)).
Definition transform_from_th (g p : nd) : option nd := if transform_shape_check g p then transform_se3 g p else None.
Definition transform_to_th (g p : nd) : option nd := if transform_shape_check g p then untransform_se3 g p else None.
