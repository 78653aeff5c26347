(** Specification of a layer call without memory: the optimization loop started from the damping and
    the radius given in the call, reading the linearization of the current values. Nothing persists. *)
From Coq Require Import List Arith Bool ZArith QArith.
From Verif Require Import Dict Obj_model Upd_model QSum NL_model LM_model LU_model Sess_model.
Import ListNotations.
Local Open Scope nat_scope.

Section Spec.
Context {E : Type}.
Variable dflt : E.
Notation X := (list E * list E)%type.
Notation D := (nat -> Q).
Variable errf : X -> ext.
Variable linf : X -> linz.
Variable retrf : list E -> D -> list E.
Variable solve1 : linz -> option (Q * bool * Q) -> option D.
Variable dogleg : nat -> (nat -> linz) -> (nat -> nat -> Q) -> (nat -> D) -> (nat -> Q) -> nat -> D.

(** the damping and the radius, evolving inside one call only *)
Record ist := mkI { w_damp : nat -> Q; w_radius : nat -> Q }.

Section Call.
Variable c : cfg.
Variable kw : kwargs.
Variable n : nat.

(** solve the systems of all elements, or fail *)
Definition ideal_solve (damp : nat -> option (Q * bool * Q)) (x : nat -> X) : option (nat -> D) :=
  let sol := fun i => solve1 (linf (x i)) (damp i) in
  if forallb (fun i => is_some (sol i)) (seq 0 n)
  then Some (fun i => match sol i with Some d => d | None => fun _ => 0%Q end) else None.
Definition ideal_delta (w : ist) (x : nat -> X) : ist * option (nat -> D) :=
  (w, match c_kind c with
      | GN => ideal_solve (fun _ => None) x
      | LM => match c_solver c with
              | Cholmod => if k_ell kw || is_some (k_eps kw) then None
                           else ideal_solve (fun i => Some (w_damp w i, false, eps_default)) x
              | _ => ideal_solve (fun i => Some (w_damp w i, k_ell kw, match k_eps kw with Some e => e | None => eps_default end)) x
              end
      | DL => match ideal_solve (fun _ => None) x with
              | Some gn => Some (dogleg n (fun i => linf (x i)) (fun i => Atb (linf (x i))) gn (w_radius w))
              | None => None
              end
      end).
Definition ideal_gn (w : ist) (x : nat -> X) : ist * option (nat -> D) := (w, ideal_solve (fun _ => None) x).
(** accept/reject as in [LM_model], the subject of C21, C22 and C23 *)
Definition ideal_complete (w : ist) (x : nat -> X) (delta : nat -> D) (err previous_err : nat -> ext) : ist * option (nat -> bool) :=
  match c_kind c with
  | GN => (w, None)
  | LM => let (d, r) := lm_complete linf (k_adaptive kw) (k_ell kw) (k_accept kw) (k_down kw) (k_up kw) (w_damp w) x delta err previous_err in
          (mkI d (w_radius w), r)
  | DL => let (t, r) := tr_complete linf (k_tr kw) (w_radius w) x delta err previous_err in
          (mkI (w_damp w) t, r)
  end.
(** arguments for which every call raises *)
Definition unsupported (bnum : nat) : bool :=
  match c_kind c, c_solver c with LM, Cholmod => k_adaptive kw | _, _ => false end || bad_args c kw bnum.
Definition start : ist := mkI (fun _ => k_damping kw) (fun _ => k_tr_init kw).

(** info and final values of a call on batch size [n] and tensors [ts]; [None]: raises *)
Definition ideal (grad : bool) (ts : list (tensor E) * list (tensor E)) : option (@info X * (nat -> X)) :=
  match split_backward_iters (k_mode kw) (k_bnum kw) (c_max c) with
  | None => None
  | Some (b, ng) =>
    if unsupported (Z.to_nat b) then None else
    match k_mode kw with
    | UNROLL | DLM =>
      optimize_unroll n errf (retr retrf) ideal_delta ideal_gn ideal_complete (scale c) (c_abs c) (c_rel c)
        (Z.to_nat b) grad (k_strict kw) start (elements dflt ts)
    | IMPLICIT | TRUNCATED =>
      optimize_two_loops n errf (retr retrf) ideal_delta ideal_gn ideal_complete (scale c) (c_abs c) (c_rel c)
        (Z.to_nat b) (Z.to_nat ng) (match k_mode kw with IMPLICIT => true | _ => false end) grad (k_strict kw) start (elements dflt ts)
    end
  end.
End Call.

(** the tensor of the [j]-th optimization variable after a call: its old dtype, device and shape and
    the final rows *)
Definition result_tensor (t : tensor E) (n : nat) (x : nat -> X) (j : nat) : tensor E :=
  {| t_dtype := t_dtype t; t_dev := t_dev t; t_shape := t_shape t;
     t_rows := map (fun i => nth j (fst (x i)) dflt) (seq 0 n) |}.
(** the result of a call, given the tensors it starts from *)
Definition pure_call (c : cfg) (kw : kwargs) (grad : bool) (n : nat) (ts : list (tensor E) * list (tensor E)) : fres :=
  match ideal c kw n grad ts with
  | None => FRaise
  | Some (f, x) => FOk f (map (fun j => result_tensor (nth j (fst ts) {| t_dtype := 0; t_dev := 0; t_shape := []; t_rows := [] |}) n x j)
                              (seq 0 (length (fst ts))))
  end.
(** ---- a call, as a function of its arguments and of the current tensors ---- *)
(** the tensor of the variable [v] registered as [k]: the one given, else the current one *)
Definition given_or_current (o : ostate E) (input : list (name * tensor E)) (kv : name * vid) : tensor E :=
  match lookup (fst kv) input with Some t => t | None => store o (snd kv) end.
Definition start_tensors (o : ostate E) (input : list (name * tensor E)) : list (tensor E) * list (tensor E) :=
  (map (given_or_current o input) (optim_vars (reg o)), map (given_or_current o input) (aux_vars (reg o))).
(** a given tensor is accepted: batched, on the device and of the dtype of the objective, and with the
    shape and dtype of the variable it is for (names of no variable are ignored) *)
Definition accepts (o : ostate E) (kt : name * tensor E) : bool :=
  let (k, t) := kt in
  negb (length (t_shape t) =? 0) && (t_dev t =? o_dev o) && (t_dtype t =? o_dtype o) &&
  forallb (fun kv => negb (fst kv =? k) || (shape_eqb (t_shape t) (t_shape (store o (snd kv))) && (t_dtype t =? t_dtype (store o (snd kv)))))
          (optim_vars (reg o) ++ aux_vars (reg o)).
Definition call_spec (c : cfg) (kw : kwargs) (grad : bool) (o : ostate E) (input : list (name * tensor E)) : fres :=
  if forallb (accepts o) input then
    let ts := start_tensors o input in
    match get_batch_size (map batch (fst ts ++ snd ts)) with
    | Some n => pure_call c kw grad n ts
    | None => FRaise
    end
  else FRaise.
(** every variable of the objective is given *)
Definition gives_all (o : ostate E) (input : list (name * tensor E)) : Prop :=
  forall k v, In (k, v) (optim_vars (reg o)) \/ In (k, v) (aux_vars (reg o)) -> In k (map fst input).
End Spec.
