(** Model of the damping of the normal matrix in the linear solvers, of the solves' backward functions
    and of what they return. Real numbers. *)
From Coq Require Import List Arith Bool Reals.
From Verif Require Import RSum Csr_model.
Import ListNotations.
Local Open Scope nat_scope.

(** A tensor: shape and flat data (the flat index ranges over the product of the shape). A Python
    float is a tensor of shape [] (torch.as_tensor). *)
Record tensor := mkT { t_shape : list nat; t_data : nat -> R }.
Definition numel (t : tensor) : nat := fold_right Nat.mul 1 (t_shape t).

(** broadcasting of a dimension of size [a] against one of size [b] (None: RuntimeError) *)
Definition bcast (a b : nat) : option nat := if a =? b then Some a else if a =? 1 then Some b else if b =? 1 then Some a else None.
Definition bidx (size i : nat) : nat := if size =? 1 then 0 else i.

(** dense_solver.py 37-65 [_apply_damping], [M i r c]: a (B, n, m) tensor; result (batch, entries).
    [view(-1, 1)] and [view(-1, 1, 1)] have first dimension [numel]. The check of ndim is not modelled. *)
Definition dense_apply_damping (B n m : nat) (M : nat -> nat -> nat -> R) (damping : tensor) (ellipsoidal : bool) (eps : R)
  : option (nat * (nat -> nat -> nat -> R)) :=
  if negb (n =? m) then None else
  let D := numel damping in
  let lam i := t_data damping (bidx D i) in
  let finish (batch : nat) (damped_D : nat -> nat -> nat -> R) :=
    match bcast B batch with
    | None => None
    | Some out => Some (out, fun i r c => (M (bidx B i) r c + damped_D (bidx batch i) r c)%R)
    end in
  if ellipsoidal then
    match bcast D B with
    | None => None
    | Some batch => finish batch (fun i r c => if r =? c then (lam i * M (bidx B i) r r + eps)%R else 0%R)
    end
  else finish D (fun i r c => (lam i * (if r =? c then 1 else 0))%R).

(** linear/utils.py 14-33 [convert_to_alpha_beta_damping_tensors]: (alpha, beta), both 1-D of the
    returned length; None: ValueError *)
Definition convert_to_alpha_beta (damping : tensor) (eps : R) (ellipsoidal : bool) (batch_size : nat)
  : option (nat * (nat -> R) * (nat -> R)) :=
  match t_shape damping with
  | _ :: _ :: _ => None
  | shape =>
    let is_scalar := match shape with [] => true | d :: _ => (d =? 1) && negb (batch_size =? 1) end in
    let len := if is_scalar then batch_size else hd 0 shape in
    let d i := t_data damping (if is_scalar then 0 else i) in
    Some (if ellipsoidal then (len, d, fun _ => eps) else (len, fun _ => 0%R, d))
  end.

(** lu_cuda_sparse_autograd.py 50-61 with mat_mult.cu: the normal matrices of all batch elements;
    [vals i]: the values of A; [sched1 i], [sched2 i]: the orders in which the additions of the
    threads of batch element [i] take effect. mat_mult.cu 337-339: the length of alpha and beta must
    be the batch size (RuntimeError otherwise) *)
Definition lu_normal_matrix (B : nat) (rp2 ci2 : list nat) (damping : option (nat * (nat -> R) * (nat -> R)))
    (sched1 : nat -> list add) (sched2 : nat -> list nat) : option (nat -> nat -> R) :=
  let MtM i := run_adds (fun _ => 0%R) (sched1 i) in
  match damping with
  | None => Some MtM
  | Some (len, alpha, beta) =>
    if len =? B then Some (fun i => run_damping (alpha i) (beta i) (sched2 i) (MtM i)) else None
  end.

(** baspacho_solver.cpp 158-187 [damp], CPU branch, on the matrix that the factor data represent *)
Definition baspacho_damp (B : nat) (M : nat -> nat -> nat -> R) (damping : option (nat * (nat -> R) * (nat -> R)))
  : option (nat -> nat -> nat -> R) :=
  match damping with
  | None => Some M
  | Some (len, alpha, beta) =>
    if len =? B then Some (fun i r c => if r =? c then (M i r c * (1 + alpha i) + beta i)%R else M i r c) else None
  end.

(** cholmod_sparse_solver.py 56-74 [solve] and cholmod_sparse_autograd.py 43: [cholesky_AAt(At, beta)]
    factors A^T A + beta I. The argument: None, a Python float or something else (ValueError); [dflt]:
    [self._damping]. The other keyword arguments are ignored. *)
Inductive pyval := PyNone | PyFloat (x : R) | PyOther.
Definition cholmod_damping (damping : pyval) (dflt : R) : option R :=
  match damping with
  | PyOther => None
  | PyNone => Some dflt
  | PyFloat x => Some (if Req_EM_T x 0 then dflt else x)
  end.
Definition cholmod_matrix (damping : pyval) (dflt : R) (M : nat -> nat -> nat -> R) : option (nat -> nat -> nat -> R) :=
  match cholmod_damping damping dflt with
  | None => None
  | Some beta => Some (fun i r c => (M i r c + beta * (if r =? c then 1 else 0))%R)
  end.

(** ---- backward of the sparse solves: autograd/common.py 11-53 [compute_A_grad] ---- *)
(** One batch element [i]; [B]: the batch size; [alphas]: damping_alpha_beta[0] of all elements, None
    if no damping. None: the AssertionError. [put_range] writes [A_grad[:, start:end]]; memory of
    torch.empty is shown as 0 (every place is written, see the theorem). *)
Section Adj.
Variables (rp ci : list nat) (val : nat -> R).
Definition any_positive (B : nat) (alphas : nat -> R) : bool :=
  existsb (fun i => if Rlt_dec 0 (alphas i) then true else false) (seq 0 B).
Definition compute_A_grad (B i : nat) (b x b_Ax H AH : nat -> R) (alphas : option (nat -> R)) (detach_hessian : bool)
  : option (nat -> R) :=
  let A_grad := fold_left (fun X r =>
      put_range (row_start rp r) (row_end rp r)
        (fun j => let c := col ci (row_start rp r + j) in
                  if detach_hessian then (b r * H c)%R else (b_Ax r * H c - AH r * x c)%R) X)
    (seq 0 (nrows rp)) (fun _ => 0%R) in
  match alphas with
  | None => Some A_grad
  | Some al =>
    if any_positive B al then
      if detach_hessian then None
      else Some (fun k => (A_grad k - val k * (al i * 2 * H (col ci k) * x (col ci k)))%R)
    else Some A_grad
  end.
(** cholmod_sparse_autograd.py 103-146, lu_cuda_sparse_autograd.py 137-190, baspacho 109-150
    [backward]: (A_grad, b_grad); [x]: the forward's solution, [H]: the solution for grad_output *)
Definition solve_backward (B i : nat) (b x H : nat -> R) (alphas : option (nat -> R)) (detach_hessian : bool)
  : option ((nat -> R) * (nat -> R)) :=
  let AH := mat_vec rp ci val H in
  let b_Ax := fun r => (b r - mat_vec rp ci val x r)%R in
  match compute_A_grad B i b x b_Ax H AH alphas detach_hessian with
  | None => None
  | Some g => Some (g, AH)
  end.
End Adj.
