(** A layer over many calls: what persists between calls of [TheseusLayer.forward] — the tensors of
    the objective, the damping and the trust region of the optimizer, the buffers and caches of the
    linearization, the factorization contexts of the linear solver — and how a call uses it.
    Composes [Upd_model] (objective.update), [NL_model] (the optimization loop), [LM_model]
    (accept/reject) and [LU_model] (contexts). Values are exact rationals; gradients, the detach flag of
    the linearization and the vectorization cache (see C13) are not modelled. *)
From Coq Require Import List Arith Bool ZArith QArith.
From Verif Require Import Dict Obj_model Upd_model QSum NL_model LM_model LU_model.
Import ListNotations.
Local Open Scope nat_scope.

(** gauss_newton.py, levenberg_marquardt.py, dogleg.py *)
Inductive kind := GN | LM | DL.
(** dense_solver.py (either factorization), cholmod_sparse_solver.py, lu_cuda_sparse_solver.py *)
Inductive lsolver := Dense | Cholmod | LUcuda.
(** fixed at construction: nonlinear_least_squares.py 58-97 and nonlinear_optimizer.py 43-56 *)
Record cfg := mkCfg { c_kind : kind; c_solver : lsolver; c_step : Q; c_abs : Q; c_rel : Q; c_max : Z }.
(** optimizer_kwargs of one call: [reset], [compute_delta] and [_complete_step] of
    levenberg_marquardt.py 90-154 and trust_region.py 65-127, backward_mode and
    backward_num_iterations (nonlinear_optimizer.py 274-297), batch_size and num_solver_contexts
    (lu_cuda_sparse_solver.py 92-97), __strict_implicit_final_gn__ *)
Record kwargs := mkKw { k_damping : Q; k_adaptive : bool; k_ell : bool; k_eps : option Q;
  k_accept : Q; k_down : Q; k_up : Q; k_tr_init : Q; k_tr : tr_params;
  k_mode : bmode; k_bnum : option Z; k_batch : option nat; k_ctxs : option nat; k_strict : bool }.

(** What the optimizer and its solver keep between calls: [_damping] (a float is a constant
    function), [_trust_region], A and b of the last linearization (dense_linearization.py 24-27,
    sparse_linearization.py 85-97), the lazily computed A^T b and diagonal of A^T A, and the LU
    contexts. *)
Record ost := mkO { z_damp : nat -> Q; z_radius : nat -> Q; z_A : option (nat -> linz);
  z_Atb : option (nat -> nat -> Q); z_diag : option (nat -> nat -> Q); z_lu : lu }.

Section Sess.
Context {E : Type}.
Variable dflt : E.                                       (* never read, see [row] *)
(** The values of the optimization variables and of the auxiliary variables of one batch element *)
Notation X := (list E * list E)%type.
Notation D := (nat -> Q).
(** The problem: error metric, linearization and retraction of one batch element *)
Variable errf : X -> ext.
Variable linf : X -> linz.
Variable retrf : list E -> D -> list E.
(** The numerical kernels: the solution for one matrix with (damping, ellipsoidal, eps), [None] is a
    RuntimeError, and the dogleg combination for the batch (dogleg.py 49-105) from A, A^T b, the
    Gauss-Newton steps and the radii *)
Variable solve1 : linz -> option (Q * bool * Q) -> option D.
Variable dogleg : nat -> (nat -> linz) -> (nat -> nat -> Q) -> (nat -> D) -> (nat -> Q) -> nat -> D.

Section Call.
Variable c : cfg.
Variable kw : kwargs.
Variable n : nat.                                        (* objective.batch_size *)

(** dense_linearization.py 29-64 and sparse_linearization.py 99-158: both replace A and b; the
    dense one computes the products, the sparse one forgets the cached ones *)
Definition linearize (z : ost) (x : nat -> X) : ost :=
  let A := fun i => linf (x i) in
  match c_solver c with
  | Dense => mkO (z_damp z) (z_radius z) (Some A) (Some (fun i => Atb (A i))) (Some (fun i k => AtA (A i) k k)) (z_lu z)
  | _ => mkO (z_damp z) (z_radius z) (Some A) None None (z_lu z)
  end.
(** reading A before any linearization raises in the code; no call does *)
Definition buf_A (z : ost) : nat -> linz := match z_A z with Some A => A | None => fun _ => mkLin 0 0 (fun _ _ => 0%Q) (fun _ => 0%Q) end.
(** dense_linearization.py 72-73, sparse_linearization.py 163-178 *)
Definition read_Atb (z : ost) : ost * (nat -> nat -> Q) :=
  match z_Atb z with
  | Some v => (z, v)
  | None => let v := fun i => Atb (buf_A z i) in
            (mkO (z_damp z) (z_radius z) (z_A z) (Some v) (z_diag z) (z_lu z), v)
  end.
(** dense_linearization.py 77-78, sparse_linearization.py 187-198 *)
Definition read_diag (z : ost) : ost * (nat -> nat -> Q) :=
  match z_diag z with
  | Some v => (z, v)
  | None => let v := fun i k => AtA (buf_A z i) k k in
            (mkO (z_damp z) (z_radius z) (z_A z) (z_Atb z) (Some v) (z_lu z), v)
  end.

Definition is_some {T} (o : option T) : bool := match o with Some _ => true | None => false end.
(** [linear_solver.solve]: dense_solver.py 80-117, cholmod_sparse_solver.py 56-73,
    lu_cuda_sparse_solver.py 149-200. One failing element makes the call raise. *)
Definition solver_solve (damp : nat -> option (Q * bool * Q)) (z : ost) : ost * option (nat -> D) :=
  let sol := fun i => solve1 (buf_A z i) (damp i) in
  let ok := forallb (fun i => is_some (sol i)) (seq 0 n) in
  let r := fun i => match sol i with Some d => d | None => fun _ => 0%Q end in
  match c_solver c with
  | LUcuda => let (l, o) := solve n n ok (z_lu z) in
              (mkO (z_damp z) (z_radius z) (z_A z) (z_Atb z) (z_diag z) l, match o with Ok _ => Some r | Raise => None end)
  | _ => (z, if ok then Some r else None)
  end.

Definition eps_default : Q := 1 # 100000000.             (* levenberg_marquardt.py 131 *)
(** linearize, then gauss_newton.py 47-48 | levenberg_marquardt.py 114-137 (the
    NotImplementedErrors are RuntimeErrors) | dogleg.py 49-105 *)
Definition compute_delta (z0 : ost) (x : nat -> X) : ost * option (nat -> D) :=
  let z := linearize z0 x in
  match c_kind c with
  | GN => solver_solve (fun _ => None) z
  | LM =>
    match c_solver c with
    | Cholmod => if k_ell kw || is_some (k_eps kw) then (z, None)
                 else solver_solve (fun i => Some (z_damp z i, false, eps_default)) z
    | _ => solver_solve (fun i => Some (z_damp z i, k_ell kw, match k_eps kw with Some e => e | None => eps_default end)) z
    end
  | DL =>
    match solver_solve (fun _ => None) z with
    | (z1, Some gn) => let (z2, atb) := read_Atb z1 in
                       (z2, Some (dogleg n (buf_A z2) atb gn (z_radius z2)))
    | (z1, None) => (z1, None)
    end
  end.
(** nonlinear_least_squares.py 119-137: linearize, then solve() without damping. If it fails
    compute_delta is called on the same linearization; linearizing again at the same values is
    the same. *)
Definition gn_solve (z0 : ost) (x : nat -> X) : ost * option (nat -> D) :=
  solver_solve (fun _ => None) (linearize z0 x).

(** levenberg_marquardt.py 183-201 from the buffers *)
Definition buf_accept (A : linz) (atb diag : nat -> Q) (delta : D) (err previous_err : ext) (damping : Q) : bool * Q :=
  let den := (qsum (l_n A) (fun k => delta k * ((if k_ell kw then damping * diag k else damping) * delta k + atb k)) / 2)%Q in
  let rho := xdiv (esub previous_err err) den in
  let reject := xleb rho (k_accept kw) in
  (reject, qclamp min_damping max_damping (if reject then damping * k_up kw else damping / k_down kw)%Q).
(** trust_region.py 91-111 from the buffers *)
Definition buf_rho (A : linz) (atb : nat -> Q) (delta : D) (err previous_err : ext) : xq :=
  let change := (qdot (l_n A) delta (fun k => - atb k) + (1#2) * qdot (l_m A) (qmv (l_n A) (l_A A) delta) (qmv (l_n A) (l_A A) delta))%Q in
  match previous_err with
  | Fin _ => xdiv (esub previous_err err) (- change)
  | _ => XNaN
  end.
(** nonlinear_least_squares.py 382-396 | levenberg_marquardt.py 139-201 | trust_region.py 113-151 *)
Definition complete (z : ost) (x : nat -> X) (delta : nat -> D) (err previous_err : nat -> ext) : ost * option (nat -> bool) :=
  match c_kind c with
  | GN => (z, None)
  | LM =>
    if k_adaptive kw then
      let (z1, diag) := if k_ell kw then read_diag z else (z, fun _ _ => 0%Q) in
      let (z2, atb) := read_Atb z1 in
      let r := fun i => buf_accept (buf_A z2 i) (atb i) (diag i) (delta i) (err i) (previous_err i) (z_damp z2 i) in
      (mkO (fun i => snd (r i)) (z_radius z2) (z_A z2) (z_Atb z2) (z_diag z2) (z_lu z2), Some (fun i => fst (r i)))
    else (z, None)
  | DL =>
    let (z2, atb) := read_Atb z in
    let r := fun i => tr_update (k_tr kw) (buf_rho (buf_A z2 i) (atb i) (delta i) (err i) (previous_err i)) (z_radius z2 i) in
    (mkO (z_damp z2) (fun i => fst (r i)) (z_A z2) (z_Atb z2) (z_diag z2) (z_lu z2), Some (fun i => snd (r i)))
  end.

Definition retr (x : X) (d : D) : X := (retrf (fst x) d, snd x).
Definition scale (d : D) : D := fun k => (c_step c * d k)%Q.

(** nonlinear_least_squares.py 370-380, levenberg_marquardt.py 90-110, trust_region.py 65-76;
    [None]: NotImplementedError. [bnum]: backward_num_iters *)
Definition reset (bnum : nat) (z : ost) : ost * bool :=
  let l := match c_solver c with LUcuda => nlls_reset (k_ctxs kw) bnum (k_batch kw) (z_lu z) | _ => z_lu z end in
  let z1 := mkO (z_damp z) (z_radius z) (z_A z) (z_Atb z) (z_diag z) l in
  match c_kind c with
  | GN => (z1, true)
  | LM => match c_solver c, k_adaptive kw with
          | Cholmod, true => (z1, false)
          | _, _ => (mkO (fun _ => k_damping kw) (z_radius z) (z_A z) (z_Atb z) (z_diag z) l, true)
          end
  | DL => (mkO (z_damp z) (fun _ => k_tr_init kw) (z_A z) (z_Atb z) (z_diag z) l, true)
  end.
(** Arguments that raise inside the loop, here before it: invalid trust region parameters
    (trust_region.py 129-137), ellipsoidal adaptive damping with a sparse linearization
    (sparse_linearization.py 188-189, unless there is one column), no LU context
    (lu_cuda_sparse_solver.py 157-158). *)
Definition bad_args (bnum : nat) : bool :=
  match c_kind c with
  | DL => negb (tr_good_params (k_tr kw))
  | LM => match c_solver c with LUcuda => k_adaptive kw && k_ell kw | _ => false end
  | GN => false
  end
  || match c_solver c with
     | LUcuda => match k_ctxs kw with Some k => k =? 0 | None => bnum =? 0 end
     | _ => false
     end.
End Call.

(** A call either returns the info and the tensors of the optimization variables, or raises *)
Inductive fres := FOk (f : @info X) (values : list (tensor E)) | FRaise.

(** row [i] of a tensor broadcast along the batch; with a resolved batch size the row exists *)
Definition row (t : tensor E) (i : nat) : E := match brow (t_rows t) i with Some e => e | None => dflt end.
Definition elements (ts : list (tensor E) * list (tensor E)) : nat -> X :=
  fun i => (map (fun t => row t i) (fst ts), map (fun t => row t i) (snd ts)).
Definition tensors (o : ostate E) : list (tensor E) * list (tensor E) :=
  (map (store o) (values (optim_vars (reg o))), map (store o) (values (aux_vars (reg o)))).

Fixpoint index_of (v : vid) (l : list vid) : option nat :=
  match l with [] => None | w :: r => if v =? w then Some 0 else option_map S (index_of v r) end.
(** nonlinear_least_squares.py 365 [objective.update(tensor_dict, ...)] after the last step: the
    optimization variables hold the final values. A tensor with one row is expanded, which the code
    does at the first accepted step. *)
Definition write_back (o : ostate E) (n : nat) (x : nat -> X) : ostate E :=
  {| reg := reg o;
     store := fun v => match index_of v (values (optim_vars (reg o))) with
                       | Some j => {| t_dtype := t_dtype (store o v); t_dev := t_dev (store o v);
                                      t_shape := t_shape (store o v);
                                      t_rows := map (fun i => nth j (fst (x i)) dflt) (seq 0 n) |}
                       | None => store o v
                       end;
     nupd := nupd o; bsize := bsize o; o_dtype := o_dtype o; o_dev := o_dev o |}.

Definition stopped (o : @outcome X ost) : @lstate X ost := match o with Finished s | Failed s | Raised s => s end.

(** The session: the objective and the optimizer *)
Record sess := mkS { ss_obj : ostate E; ss_opt : ost }.

Definition the_loop (c : cfg) (kw : kwargs) (n : nat) (num : nat) (grad last_implicit : bool) (z : ost) (x : nat -> X) : option outcome :=
  loop n errf retr (compute_delta c kw n) (gn_solve c n) (complete c kw) (scale c) (c_abs c) (c_rel c)
       (3 * num) num grad last_implicit (k_strict kw) (loop_init z x (init_info errf x)).

(** optimizer.py 39-53 [optimize] and nonlinear_least_squares.py 225-309 [_optimize_impl]: the modes
    with one loop and with two loops; DLM is treated as UNROLL, as there *)
Definition optimize (c : cfg) (kw : kwargs) (grad : bool) (s : sess) : sess * fres :=
  let o := ss_obj s in
  match bsize o, split_backward_iters (k_mode kw) (k_bnum kw) (c_max c) with
  | Some n, Some (b, ng) =>
    let bnum := Z.to_nat b in let nnum := Z.to_nat ng in
    let (z, ok) := reset c kw bnum (ss_opt s) in
    if negb ok || bad_args c kw bnum then (mkS o z, FRaise) else
    let x := elements (tensors o) in
    let fin := fun (ls : @lstate X ost) (r : ostate E -> fres) => let o' := write_back o n (l_x ls) in (mkS o' (l_z ls), r o') in
    let vals := fun o' : ostate E => fst (tensors o') in
    match k_mode kw with
    | UNROLL | DLM =>
      match the_loop c kw n bnum grad false z x with
      | None => (mkS o z, FRaise)
      | Some (Raised ls) => fin ls (fun _ => FRaise)
      | Some (Finished ls) | Some (Failed ls) =>
        let f := l_info ls in
        fin ls (fun o' => FOk (with_converged_iter f (fun i => if status_eqb (i_status f i) MAX_ITERATIONS then (-1)%Z else i_converged_iter f i)) (vals o'))
      end
    | IMPLICIT | TRUNCATED =>
      match the_loop c kw n nnum false false z x with
      | None => (mkS o z, FRaise)
      | Some (Raised ls) => fin ls (fun _ => FRaise)
      | Some (Finished l1) | Some (Failed l1) =>
        match the_loop c kw n bnum grad (match k_mode kw with IMPLICIT => true | _ => false end) (l_z l1) (l_x l1) with
        | None => fin l1 (fun _ => FRaise)
        | Some (Raised ls) => fin ls (fun _ => FRaise)
        | Some (Finished l2) | Some (Failed l2) =>
          match merge_infos n (l_info l2) (l_iters_done l1) (l_iters_done l2) (l_info l1) with
          | None => fin l2 (fun _ => FRaise)
          | Some f => fin l2 (fun o' => FOk f (vals o'))
          end
        end
      end
    end
  | _, _ => (s, FRaise)
  end.

(** theseus_layer.py 40-96 and 164-174 [forward] *)
Definition forward (c : cfg) (kw : kwargs) (grad : bool) (input : list (name * tensor E)) (s : sess) : sess * fres :=
  match update (ss_obj s) input None with
  | Exc _ o => (mkS o (ss_opt s), FRaise)
  | RetV _ o => optimize c kw grad (mkS o (ss_opt s))
  end.

(** What can happen between two calls: other calls (which may raise), updates of the objective,
    optimizing without the layer, and direct use of the linearization and of the solver (for example
    by compute_samples) *)
Inductive event :=
| EForward (kw : kwargs) (grad : bool) (input : list (name * tensor E))
| EUpdate (input : list (name * tensor E)) (mask : option (list bool))
| EOptimize (kw : kwargs) (grad : bool)
| ELinearize
| ESolve (damping : option (Q * bool * Q))
| EReset (batch_size num_solver_contexts : option nat).
Definition batch_of (o : ostate E) : nat := match bsize o with Some n => n | None => 0 end.
Definition event_step (c : cfg) (s : sess) (e : event) : sess :=
  match e with
  | EForward kw g inp => fst (forward c kw g inp s)
  | EUpdate inp m => mkS (rstate (update (ss_obj s) inp m)) (ss_opt s)
  | EOptimize kw g => fst (optimize c kw g s)
  | ELinearize => mkS (ss_obj s) (linearize c (ss_opt s) (elements (tensors (ss_obj s))))
  | ESolve d => mkS (ss_obj s) (fst (solver_solve c (batch_of (ss_obj s)) (fun _ => d) (ss_opt s)))
  | EReset b k => let z := ss_opt s in
      mkS (ss_obj s) (mkO (z_damp z) (z_radius z) (z_A z) (z_Atb z) (z_diag z)
        (match c_solver c with LUcuda => LU_model.reset b k (z_lu z) | _ => z_lu z end))
  end.
Definition history (c : cfg) (s : sess) (h : list event) : sess := fold_left (event_step c) h s.
(** A new layer: damping 0.001 (levenberg_marquardt.py 88), no trust region, no linearization, a
    solver that was reset or not (lu_cuda_sparse_solver.py 76-78) *)
Definition new_session (auto : bool) (o : ostate E) : sess :=
  mkS o (mkO (fun _ => 1 # 1000)%Q (fun _ => 0%Q) None None None (fresh auto)).
End Sess.
