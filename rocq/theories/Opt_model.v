(** Model of the construction of optimizers (GaussNewton, LevenbergMarquardt, Dogleg, LinearOptimizer) with
    their linear solver and linearization, of set_params, of BackwardMode.resolve and of the option checks of
    LevenbergMarquardt.
    Python values of options are elements of an arbitrary type. Not modelled: positional arguments,
    user-defined subclasses of solvers and linearizations other than as a third linearization class, devices,
    what the C++/CUDA libraries do (C76, C77 and the LU properties), attribute names with leading "__". *)
From Coq Require Import List String Ascii Arith Bool.
Import ListNotations.
Local Open Scope list_scope.
Local Open Scope string_scope.

(** NotImplementedError is a subclass of RuntimeError *)
Inductive exn := ValueErr | RuntimeErr | AttributeErr | TypeErr | NotImplErr.
Definition is_runtime_error (e : exn) : bool := match e with RuntimeErr | NotImplErr => true | _ => false end.

Inductive optcls := OGaussNewton | OLevenbergMarquardt | ODogleg | OLinear.
Inductive solcls := SCholeskyDense | SLUDense | SCholmod | SLUCuda | SBaspacho.
Inductive lincls := LDense | LSparse | LOther.

(** ---- BackwardMode.resolve: nonlinear_optimizer.py 20-41 ---- *)
Inductive bmode := UNROLL | IMPLICIT | TRUNCATED | DLM.
(** [str.upper], ASCII *)
Definition up (a : ascii) : ascii :=
  let n := nat_of_ascii a in if (97 <=? n)%nat && (n <=? 122)%nat then ascii_of_nat (n - 32) else a.
Fixpoint upper (s : string) : string := match s with EmptyString => EmptyString | String a r => String (up a) (upper r) end.
(** a key is a member, a string or something else *)
Inductive key := KMode (m : bmode) | KStr (s : string) | KOther.
Definition resolve (k : key) : bmode + exn :=
  match k with
  | KMode m => inl m
  | KOther => inr ValueErr
  | KStr s =>
    let u := upper s in
    if u =? "UNROLL" then inl UNROLL else if u =? "IMPLICIT" then inl IMPLICIT
    else if u =? "TRUNCATED" then inl TRUNCATED else if u =? "DLM" then inl DLM else inr ValueErr
  end.

Section Opt.
Context {V : Type}.
Definition kwargs := list (string * V).
Fixpoint lookup (k : string) (l : kwargs) : option V :=
  match l with [] => None | (k', v) :: r => if k' =? k then Some v else lookup k r end.
Definition get (k : string) (d : V) (l : kwargs) : V := match lookup k l with Some v => v | None => d end.

(** ---- NonlinearOptimizerParams: nonlinear_optimizer.py 44-56 ---- *)
(** [p_update]: an instance attribute called "update", which hides the method *)
Record params := mkP { p_abs : V; p_rel : V; p_max : V; p_step : V; p_update : option V }.
(** [hasattr], then [setattr] *)
Definition set_attr (p : params) (k : string) (v : V) : option params :=
  if k =? "abs_err_tolerance" then Some (mkP v (p_rel p) (p_max p) (p_step p) (p_update p))
  else if k =? "rel_err_tolerance" then Some (mkP (p_abs p) v (p_max p) (p_step p) (p_update p))
  else if k =? "max_iterations" then Some (mkP (p_abs p) (p_rel p) v (p_step p) (p_update p))
  else if k =? "step_size" then Some (mkP (p_abs p) (p_rel p) (p_max p) v (p_update p))
  else if k =? "update" then Some (mkP (p_abs p) (p_rel p) (p_max p) (p_step p) (Some v))
  else None.
Fixpoint params_update (p : params) (kw : kwargs) : params * option exn :=
  match kw with
  | [] => (p, None)
  | (k, v) :: r => match set_attr p k v with Some p' => params_update p' r | None => (p, Some ValueErr) end
  end.
(** nonlinear_optimizer.py 106-107 [set_params]: [self.params.update(kwargs)] *)
Definition set_params (p : params) (kw : kwargs) : params * option exn :=
  match p_update p with Some _ => (p, Some TypeErr) | None => params_update p kw end.

(** ---- the objective, as far as construction reads it ---- *)
Record objective := mkOb { ob_squared : bool; ob_vectorized : bool; ob_vars : list string; ob_rows : nat; ob_version : nat }.
Definition vectorize (o : objective) : objective := mkOb (ob_squared o) true (ob_vars o) (ob_rows o) (ob_version o).

(** ---- linearization.py 16-43, dense_linearization.py 16-28, sparse_linearization.py 19-27 ---- *)
(** [lk_ordering]: None if absent or None; [lk_names]: the other keys, swallowed by **kwargs *)
Record lin_kwargs := mkLk { lk_ordering : option (list string); lk_names : list string }.
Record linearization := mkLin { ln_cls : lincls; ln_order : list string }.
Definition make_linearization (c : lincls) (o : objective) (k : lin_kwargs) : linearization + exn :=
  if existsb (String.eqb "objective") (lk_names k) then inr TypeErr else
  let order := match lk_ordering k with Some l => l | None => ob_vars o end in
  if Nat.eqb (List.length order) (List.length (ob_vars o)) then inl (mkLin c order) else inr ValueErr.

(** ---- the linear solvers ---- *)
(** [cuda]: torch.cuda.is_available(); [lib]: the compiled extension loads *)
Variables cuda lib : bool.
Record solver := mkS { so_cls : solcls; so_lin : linearization; so_opts : kwargs }.
Definition reserved : list string := ["objective"; "linearization_cls"; "linearization_kwargs"].
Definition mem (k : string) (l : list string) : bool := existsb (String.eqb k) l.
Definition is_dense (c : solcls) : bool := match c with SCholeskyDense | SLUDense => true | _ => false end.
(** the options of a solver that it uses *)
Definition solver_options (c : solcls) : list string :=
  match c with
  | SCholeskyDense | SLUDense => ["check_singular"]
  | SCholmod => ["damping"]
  | SLUCuda => ["num_solver_contexts"; "batch_size"; "auto_reset"]
  | SBaspacho => []
  end.
(** dense_solver.py 20-36, 125-160; cholmod_sparse_solver.py 30-54; lu_cuda_sparse_solver.py 43-73;
    baspacho_sparse_solver.py 24-46; linear_solver.py 17-27. The messages of the sparse solvers about a wrong
    linearization read [self.linearization], which does not exist yet. *)
Definition make_solver (c : solcls) (o : objective) (lc : option lincls) (lk : lin_kwargs) (skw : kwargs) : solver + exn :=
  if existsb (fun kv => mem (fst kv) reserved) skw then inr TypeErr else
  if is_dense c && existsb (fun kv => negb (mem (fst kv) (solver_options c))) skw then inr TypeErr else
  if (match c with SLUCuda => negb cuda | _ => false end) then inr RuntimeErr else
  let lcls := match lc with Some l => l | None => if is_dense c then LDense else LSparse end in
  match is_dense c, lcls with
  | true, LDense | false, LSparse =>
    match make_linearization lcls o lk with
    | inr e => inr e
    | inl ln =>
      if (match c with SLUCuda | SBaspacho => negb lib && negb (Nat.eqb (ob_rows o) 0) | _ => false end) then inr RuntimeErr
      else inl (mkS c ln (filter (fun kv => mem (fst kv) (solver_options c)) skw))
    end
  | true, _ => inr RuntimeErr
  | false, _ => inr AttributeErr
  end.

(** ---- the optimizers ---- *)
Variables d_abs d_rel d_max d_step : V.            (* 1e-10, 1e-8, 20, 1.0 *)
Record opt_args := mkArgs { g_solver : option solcls; g_vectorize : bool; g_lin : option lincls; g_lin_kwargs : lin_kwargs;
                            g_solver_kwargs : kwargs; g_kwargs : kwargs }.
Record optimizer := mkOpt { op_cls : optcls; op_solver : solver; op_params : option params; op_order : list string;
                            op_tmp : list string; op_version : nat; op_ellipsoidal : bool; op_adaptive : bool }.
(** levenberg_marquardt.py 22-46 *)
Definition lm_allowed (c : solcls) : bool :=
  existsb (fun a => match a, c with SBaspacho, SBaspacho | SCholeskyDense, SCholeskyDense | SLUDense, SLUDense | SLUCuda, SLUCuda => true | _, _ => false end)
    [SBaspacho; SCholeskyDense; SLUDense; SLUCuda].
(** nonlinear_least_squares.py 58-97, nonlinear_optimizer.py 90-104, optimizer.py 27-35, gauss_newton.py 18-44,
    levenberg_marquardt.py 51-88, trust_region.py 36-63, dogleg.py 21-47, linear_optimizer.py 26-45 (whose
    linear_solver_cls is required). The objective afterwards, and the optimizer or the exception. *)
Definition make_optimizer (c : optcls) (o : objective) (g : opt_args) : objective * (optimizer + exn) :=
  match c with
  | OLinear =>
    match g_solver g with
    | None => (o, inr TypeErr)
    | Some sc =>
      let o := if g_vectorize g then vectorize o else o in
      match make_solver sc o (g_lin g) (g_lin_kwargs g) (g_solver_kwargs g) with
      | inr e => (o, inr e)
      | inl s => (o, inl (mkOpt c s None (ln_order (so_lin s)) [] (ob_version o) false false))
      end
    end
  | _ =>
    if negb (ob_squared o) then (o, inr ValueErr) else
    let o := if g_vectorize g then vectorize o else o in
    let p := mkP (get "abs_err_tolerance" d_abs (g_kwargs g)) (get "rel_err_tolerance" d_rel (g_kwargs g))
                 (get "max_iterations" d_max (g_kwargs g)) (get "step_size" d_step (g_kwargs g)) None in
    let sc := match g_solver g with Some s => s | None => SCholeskyDense end in
    match make_solver sc o (g_lin g) (g_lin_kwargs g) (g_solver_kwargs g) with
    | inr e => (o, inr e)
    | inl s =>
      let order := ln_order (so_lin s) in
      let lm := match c with OLevenbergMarquardt => lm_allowed (so_cls s) | _ => false end in
      (o, inl (mkOpt c s (Some p) order order (ob_version o) lm lm))
    end
  end.

(** ---- options of LevenbergMarquardt.optimize ---- *)
(** levenberg_marquardt.py 90-112 [reset], 116-135 [compute_delta]; nonlinear_least_squares.py 233-236, 118-160:
    [reset] is outside of the try statement, [compute_delta] inside *)
Inductive start := Raises (e : exn) | AllFail | Solves.
Definition lm_reset (op : optimizer) (adaptive : bool) : option exn :=
  if adaptive && negb (op_adaptive op) then Some NotImplErr else None.
Definition lm_compute_delta (op : optimizer) (ellipsoidal : bool) (eps : option V) : option exn :=
  if ellipsoidal && negb (op_ellipsoidal op) then Some NotImplErr
  else match eps with Some _ => if negb (op_ellipsoidal op) then Some NotImplErr else None | None => None end.
(** the first iteration of optimize(adaptive_damping, ellipsoidal_damping, damping_eps); [grad]:
    torch.is_grad_enabled() *)
Definition lm_start (op : optimizer) (adaptive ellipsoidal : bool) (eps : option V) (grad : bool) : start :=
  match lm_reset op adaptive with
  | Some e => Raises e
  | None =>
    match lm_compute_delta op ellipsoidal eps with
    | None => Solves
    | Some e => if is_runtime_error e then (if grad then Raises RuntimeErr else AllFail) else Raises e
    end
  end.
End Opt.
