(** Model of DenseSolver.solve (theseus/optimizer/linear/dense_solver.py), in particular with check_singular=True.  Batches are lists with
    one entry per element; exceptions are [None]; numbers are real. *)
From Coq Require Import Reals List Arith Bool.
From Verif Require Import RSum Bwd_model Desc_model.
Import ListNotations.
Local Open Scope R_scope.

Inductive fdtype := Float32 | Float64.
Definition dtype_eqb (a b : fdtype) : bool := match a, b with Float32, Float32 | Float64, Float64 => true | _, _ => false end.
(** the argument damping: None, a number (or a tensor with one entry), a tensor with one entry per element *)
Inductive damping_arg := NoDamping | Number (lam : R) | PerElement (lams : list R).

(** broadcasting of two batch dimensions *)
Definition broadcast {A B C} (f : A -> B -> C) (l : list A) (r : list B) : option (list C) :=
  if Nat.eqb (length l) (length r) then Some (map (fun p => f (fst p) (snd p)) (combine l r))
  else match l, r with
       | [a], _ => Some (map (f a) r)
       | _, [b] => Some (map (fun a => f a b) l)
       | _, _ => None
       end.

Section Dense.
(** torch.lu(get_infos=True): info > 0 *)
Variable lu_singular : nat -> mat -> bool.
(** one element of torch.linalg.solve (LUDenseSolver) or cholesky and cholesky_solve (CholeskyDenseSolver) *)
Variable solve : nat -> mat -> vec -> option vec.

(** dense_solver.py:37-65 (_apply_damping) with a non-None damping *)
Definition apply_damping (lams : list R) (ellipsoidal : bool) (eps : R) (AtA : list mat) : option (list mat) :=
  broadcast (fun lam M => damped_matrix (Some (lam, ellipsoidal, eps)) M) lams AtA.
(** dense_solver.py:128-129, 150-152 (_solve_sytem): a batch fails if one element does *)
Definition solve_sytem (n : nat) (Atb : list vec) (AtA : list mat) : option (list vec) :=
  match broadcast (fun M b => solve n M b) AtA Atb with
  | Some l => all_or_none l
  | None => None
  end.
(** dense_solver.py:67-79 (_apply_damping_and_solve) *)
Definition damp_and_solve (n : nat) (damping : damping_arg) (ellipsoidal : bool) (eps : R) (Atb : list vec) (AtA : list mat) : option (list vec) :=
  match damping with
  | NoDamping => solve_sytem n Atb AtA
  | Number lam => match apply_damping [lam] ellipsoidal eps AtA with Some M => solve_sytem n Atb M | None => None end
  | PerElement lams => match apply_damping lams ellipsoidal eps AtA with Some M => solve_sytem n Atb M | None => None end
  end.
(** output[good_idx] = solution, with output zero: the rows *)
Fixpoint scatter (bad : list bool) (solution : list vec) : list vec := match bad with
  | [] => []
  | true :: r => (fun _ => 0) :: scatter r solution
  | false :: r => hd (fun _ => 0) solution :: scatter r (tl solution)
  end.
Definition keep_good {A} (bad : list bool) (l : list A) : list A := map snd (filter (fun p => negb (fst p)) (combine bad l)).
(** dense_solver.py:85-119 (solve); [dt]: the dtype of AtA; [default]: torch's default dtype, which output has (line 95).  Assignment through a
    mask requires equal dtypes unless the value has a single entry, and a value with as many rows as the mask selects, or one *)
Definition dense_solve (check_singular : bool) (default dt : fdtype) (n : nat) (damping : damping_arg) (ellipsoidal : bool) (eps : R)
  (Atb : list vec) (AtA : list mat) : option (list vec) :=
  if check_singular then
    let bad := map (lu_singular n) AtA in
    match damp_and_solve n damping ellipsoidal eps (keep_good bad Atb) (keep_good bad AtA) with
    | Some solution =>
        if dtype_eqb default dt || Nat.eqb (length solution * n) 1 then
          if Nat.eqb (length solution) (length (keep_good bad AtA)) then Some (scatter bad solution)
          else match solution with
               | [s] => Some (scatter bad (map (fun _ => s) (keep_good bad AtA)))
               | _ => None
               end
        else None
    | None => None
    end
  else damp_and_solve n damping ellipsoidal eps Atb AtA.
End Dense.
