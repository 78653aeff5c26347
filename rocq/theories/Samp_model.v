(** Model of TheseusLayer.compute_samples (theseus/theseus_layer.py 99-135).  Real numbers; an exception is [Raises]. *)
From Coq Require Import List Arith Bool Reals.
From Verif Require Import RSum.
Import ListNotations.
Local Open Scope nat_scope.

Inductive outcome (A : Type) := Raises | NoSamples | Samples (a : A).
Arguments Raises {A}. Arguments NoSamples {A}. Arguments Samples {A} a.
Inductive dtype := Float32 | Float64.
Definition dtype_eqb (a b : dtype) : bool := match a, b with Float32, Float32 | Float64, Float64 => true | _, _ => false end.

(** an optimization variable: degrees of freedom, shape of its tensor without the batch dimension, entries (of each batch element, flattened), and retract
    as a map from the entries and a tangent vector to the entries *)
Record svar := mkSvar { vdof : nat; vshape : list nat; vdata : nat -> nat -> R; vretract : (nat -> R) -> (nat -> R) -> nat -> R }.
(** what compute_samples uses of a linear solver: solve() (which may raise), the linearization's hessian_approx() (NotImplementedError for the sparse
    linearization: None), its ordering, the number of columns of the solution and the dtype of the data *)
Record lsolver := mkLsolver { ls_solve : option (nat -> nat -> R); ls_hessian : option (nat -> nat -> nat -> R); ls_ordering : list svar; ls_nvars : nat; ls_dtype : dtype }.

(** torch.linalg.solve_triangular(U, y, upper=True): back substitution, the last [k] unknowns *)
Fixpoint back (n : nat) (U : nat -> nat -> R) (y : nat -> R) (k : nat) : nat -> R := match k with
  | 0 => fun _ => 0%R
  | S k' => let w := back n U y k' in let i := n - S k' in
    fun j => if j =? i then ((y i - rsum k' (fun c => U i (S i + c)%nat * w (S i + c)%nat)) / U i i)%R else w j
  end.
Definition solve_upper (n : nat) (U : nat -> nat -> R) (y : nat -> R) : nat -> R := back n U y n.

(** 125-133: the slices of the sample, variable by variable; the assignment raises when the tensor of the variable does not have the shape of the slice *)
Fixpoint write_vars (vars : list svar) (var_idx : nat) (b : nat) (d : nat -> R) (x : nat -> R) : option (nat -> R) := match vars with
  | [] => Some x
  | v :: vs =>
    let new_var := vretract v (vdata v b) (fun i => d (var_idx + i)) in
    match vshape v with
    | [c] => if c =? vdof v then write_vars vs (var_idx + vdof v) b d (fun j => if (var_idx <=? j) && (j <? var_idx + vdof v) then new_var (j - var_idx) else x j) else None
    | _ => None
    end
  end.

Section M.
(** torch.linalg.cholesky, and torch's default dtype *)
Variable cholesky : nat -> (nat -> nat -> R) -> option (nat -> nat -> R).
Variable default : dtype.

Definition all_defined (n : nat) (f : nat -> bool) : bool := forallb f (seq 0 n).
(** 99-135; [y i s] are the draws of torch.normal (zero mean, unit deviation), in the default dtype, one matrix for the whole batch *)
Definition compute_samples (solver : option lsolver) (B n_samples : nat) (temperature : R) (y : nat -> nat -> R) : outcome (nat -> nat -> nat -> R) :=
  match solver with
  | None => NoSamples
  | Some ls =>
    match ls_solve ls, ls_hessian ls with
    | Some delta, Some H =>
      let n := ls_nvars ls in
      let L b := cholesky n (fun i j => (H b i j / temperature)%R) in
      if all_defined B (fun b => match L b with Some _ => true | None => false end) then
        if dtype_eqb (ls_dtype ls) default then
          let d b s i := match L b with Some l => (solve_upper n (fun r c => l c r) (fun r => y r s) i + delta b i)%R | None => 0%R end in
          let x b s := write_vars (ls_ordering ls) 0 b (d b s) (fun _ => 0%R) in
          if all_defined B (fun b => all_defined n_samples (fun s => match x b s with Some _ => true | None => false end))
          then Samples (fun b i s => match x b s with Some v => v i | None => 0%R end) else Raises
        else Raises
      else Raises
    | _, _ => Raises
    end
  end.
End M.
