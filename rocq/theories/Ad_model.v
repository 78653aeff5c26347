(** Model of [AutoDiffCostFunction] (theseus/core/cost_function.py 203-423): the three ways in which it obtains its Jacobians from
    automatic differentiation, over batches whose sizes may differ.

    Automatic differentiation itself is represented by [Derive], the derivative; what is modelled is which function is
    differentiated at which point, and which entries of the result are kept. *)
From Coq Require Import List Arith Reals Lia.
From Coquelicot Require Import Derive.
Import ListNotations.
Local Open Scope R_scope.

(** one batch row of a variable's tensor, flattened; a tensor is the list of its rows *)
Notation row := (list R) (only parsing).
Notation tensor := (list (list R)) (only parsing).

Fixpoint modify {A} (n : nat) (f : A -> A) (l : list A) : list A :=
  match l, n with
  | [], _ => []
  | x :: l', O => f x :: l'
  | x :: l', S m => x :: modify m f l'
  end.

Fixpoint sequence {A} (l : list (option A)) : option (list A) :=
  match l with
  | [] => Some []
  | None :: _ => None
  | Some x :: l' => match sequence l' with Some r => Some (x :: r) | None => None end
  end.

Definition mapi {A B} (f : nat -> A -> B) (l : list A) : list B := map (fun p => f (fst p) (snd p)) (combine (seq 0 (length l)) l).

(** [v.tensor[n : n + 1]] *)
Definition slice1 (n : nat) (t : tensor) : tensor := firstn 1 (skipn n t).

(** A variable of the cost function: its tensor and [project(., is_sparse=True)] for one row of its tensor and one Euclidean
    gradient; [None] stands for [Vector], which returns a clone of the gradient whatever the batch sizes are (vector.py 199-203).
    The group classes multiply the gradients with the rows of their own tensor, by torch's broadcasting (so2.py 119-129,
    se2.py 341-365, so3.py 102-114, se3.py 99-115). *)
Record var := mkVar { v_rows : tensor; v_project : option (row -> row -> row) }.

Section AutoDiff.
(** [self._err_fn], the user's function; [None] when it raises *)
Variable err_fn : list tensor -> list tensor -> option tensor.
Variable dim : nat.

(** cost_function.py 261-272 [_compute_error] *)
Definition compute_error (optim aux : list tensor) : option tensor :=
  match err_fn optim aux with
  | None => None
  | Some err => if forallb (fun r => length r =? dim)%nat err then Some err else None
  end.

(** [autogradF.jacobian(g, xs)] (cost_function.py 290-301), one result per input, indexed by the output's row and column and
    then the input's row and column.  torch stacks one gradient per output element, and [torch.stack] of no tensor raises. *)
Definition jac4 := list (list (list (list R))).
Definition autograd (g : list tensor -> option tensor) (xs : list tensor) : option (list jac4) :=
  match g xs with
  | None => None
  | Some y =>
      if (length (concat y) =? 0)%nat then None
      else Some (mapi (fun k x => mapi (fun b yb => mapi (fun i _ => mapi (fun b' xb => mapi (fun j _ =>
             Derive (fun t => match g (modify k (modify b' (modify j (Rplus t))) xs) with
                              | Some y' => nth i (nth b y' []) 0 | None => 0 end) 0) xb) x) yb) y) xs)
  end.

(** [jacrev(f)] for a function of one row per variable (cost_function.py 341) *)
Definition jacrev (f : list row -> option row) (xs : list row) : option (list (list row)) :=
  match f xs with
  | None => None
  | Some y => Some (mapi (fun k x => mapi (fun i _ => mapi (fun j _ =>
      Derive (fun t => match f (modify k (modify j (Rplus t)) xs) with Some y' => nth i y' 0 | None => 0 end) 0) x) y) xs)
  end.

(** cost_function.py 308-328 [jac_fn] of [_make_jac_fn_vmap]: the rows get a batch dimension of size 1 ([unsqueeze(0)]) and
    row 0 of the error is returned *)
Definition jac_fn_vmap (aux : list row) (optim : list row) : option row :=
  match err_fn (map (fun r => [r]) optim) (map (fun r => [r]) aux) with
  | Some (r :: _) => Some r
  | _ => None
  end.

(** cost_function.py 325-331 [_expand_all] *)
Definition expand_all (ts : list tensor) (b : nat) : list tensor :=
  map (fun t => if (length t =? b)%nat then t else repeat (nth 0 t []) b) ts.

(** cost_function.py 333-338: the batch sizes as a set, the assertion, the maximum *)
Definition sizes_of (ts : list tensor) : list nat := nodup Nat.eq_dec (map (@length row) ts).
Definition sizes_ok (ts : list tensor) : bool :=
  let s := sizes_of ts in
  ((length s =? 1) || ((length s =? 2) && existsb (fun n => n =? 1) s && forallb (fun n => 1 <=? n) s))%nat%bool.
Definition batch_size (ts : list tensor) : nat := list_max (sizes_of ts).

(** from a list over rows of (a list over variables of matrices) to a list over variables of batched matrices: how [vmap] and
    [torch.cat] stack the results; [n] is the number of variables *)
Definition stack_by_var (n : nat) (l : list (list (list row))) : list (list (list row)) :=
  map (fun k => map (fun js => nth k js []) l) (seq 0 n).

(** cost_function.py 318-341 [_compute_autograd_jacobian_vmap] *)
Definition jacobian_vmap (optim aux : list tensor) : option (list (list (list row))) :=
  if sizes_ok (optim ++ aux) then
    let b := batch_size (optim ++ aux) in
    let o := expand_all optim b in
    let a := expand_all aux b in
    match sequence (map (fun n => jacrev (jac_fn_vmap (map (fun t => nth n t []) a)) (map (fun t => nth n t []) o)) (seq 0 b)) with
    | Some js => Some (stack_by_var (length optim) js)
    | None => None
    end
  else None.

(** [jac[idx, :, idx, :]] with [idx = torch.arange(n)] (cost_function.py 386-387); an index out of range raises *)
Definition pick (n : nat) (j : jac4) : option (list (list row)) :=
  sequence (map (fun b => match nth_error j b with
                          | Some jb => sequence (map (fun ji => nth_error ji b) jb)
                          | None => None end) (seq 0 n)).
(** cost_function.py 381-387 *)
Definition jacobian_dense (err : tensor) (optim aux : list tensor) : option (list (list (list row))) :=
  match autograd (fun o => err_fn o aux) optim with
  | Some js => sequence (map (pick (length err)) js)
  | None => None
  end.

(** [jac[:, :, 0, :]] (cost_function.py 377-379) *)
Definition pick0 (j : jac4) : option (list (list row)) :=
  sequence (map (fun jb => sequence (map (fun ji => nth_error ji 0) jb)) j).
(** cost_function.py 360-380: the loop runs over the rows of the first optimization variable; [torch.cat] of no tensor raises *)
Definition loop_one (optim aux : list tensor) (n : nat) : option (list (list (list row))) :=
  match autograd (fun o => err_fn o (map (slice1 n) aux)) (map (slice1 n) optim) with
  | Some js => sequence (map pick0 js)
  | None => None
  end.
Definition jacobian_loop (optim aux : list tensor) : option (list (list (list row))) :=
  match sequence (map (loop_one optim aux) (seq 0 (length (nth 0 optim [])))) with
  | Some [] => None
  | Some l => Some (map (fun k => concat (map (fun js => nth k js []) l)) (seq 0 (length optim)))
  | None => None
  end.

(** [v.project(jac, is_sparse=True)] with torch's broadcasting of the batch dimension *)
Definition project (v : var) (jac : list (list row)) : option (list (list row)) :=
  match v_project v with
  | None => Some jac
  | Some p =>
      if (length (v_rows v) =? length jac)%nat then Some (map (fun xg => map (p (fst xg)) (snd xg)) (combine (v_rows v) jac))
      else if (length (v_rows v) =? 1)%nat then Some (map (map (p (nth 0 (v_rows v) []))) jac)
      else if (length jac =? 1)%nat then Some (map (fun x => map (p x) (nth 0 jac [])) (v_rows v))
      else None
  end.

Inductive mode := DENSE | LOOP_BATCH | VMAP.

(** cost_function.py 343-393 [jacobians()] *)
Definition jacobians (m : mode) (optim aux : list var) : option (list (list (list row)) * tensor) :=
  let o := map v_rows optim in
  let a := map v_rows aux in
  match compute_error o a with
  | None => None
  | Some err =>
      match (match m with VMAP => jacobian_vmap o a | LOOP_BATCH => jacobian_loop o a | DENSE => jacobian_dense err o a end) with
      | None => None
      | Some full =>
          match sequence (map (fun vj => project (fst vj) (snd vj)) (combine optim full)) with
          | Some js => Some (js, err)
          | None => None
          end
      end
  end.
End AutoDiff.
