(** Model of [theseus.core.vectorizer.Vectorize] (grouping by schema, shared variables,
    concatenation, slicing, masking of zero weights, vectorized retraction). *)
From Coq Require Import List Arith Bool.
Import ListNotations.
From Verif Require Import Dict Obj_model Upd_model.

Section Vec.
(** [E]: one batch row of a variable's tensor; [O]: one batch row of jacobians and error. *)
Context {E O : Type}.
Variable dE : E.  (* default row, returned by out-of-range reads (never reached) *)
Variable dO : O.

(** What vectorization sees of a cost function.  Assumption (documented for users of theseus):
    a cost function acts row by row on the batch dimension and broadcasts batch-1 tensors, so it is
    given by a function of one row of each variable.
    [cf_sch]: the value of [_get_cost_function_schema] (vectorizer.py 22-43);
    [cf_vars]: optim_vars ++ aux_vars; [cf_wvars]: weight.aux_vars;
    [cf_row]: jacobians() and error() of one row; [cf_weigh]: weight_jacobians_and_error of one row;
    [cf_wzero]: weight.is_zero() of one row, [None] if it raises NotImplementedError;
    [cf_zero]: one row of all-zero jacobians and error of this cost function's dimensions
    (cost_function.py 46-50). *)
Record cfn := {
  cf_id : cid;
  cf_sch : nat;
  cf_vars : list vid;
  cf_wvars : list vid;
  cf_row : list E -> O;
  cf_weigh : list E -> O -> O;
  cf_wzero : option (list E -> bool);
  cf_zero : O
}.

(** vectorizer.py 198-204 [_get_all_vars] *)
Definition all_vars_of (c : cfn) : list vid := cf_vars c ++ cf_wvars c.

Local Notation tens := (list E) (only parsing). (* the rows of one variable *)

(** Row [i] of a tensor under broadcasting of the batch dimension. *)
Definition rowat (t : tens) (i : nat) : E :=
  if length t =? 1 then nth 0 t dE else nth i t dE.
Definition rows_at (ts : list tens) (i : nat) : list E := map (fun t => rowat t i) ts.

(** Batch dimension of an elementwise operation on tensors of batch 1 or B. *)
Definition batch_of (ts : list tens) : nat :=
  fold_right Nat.max 0 (map (@length E) ts).

(** cost_function.py 107-122 without masking ([weighted_jacobians_error]); also
    cost_function.py 103-105 ([weighted_error]) when [O] is read as the error part only. *)
Definition eval_plain (c : cfn) (ts wts : list tens) : list O :=
  map (fun i => cf_weigh c (rows_at wts i) (cf_row c (rows_at ts i)))
      (seq 0 (batch_of (ts ++ wts))).

(** boolean-mask indexing [t[mask]] along the batch dimension *)
Fixpoint select {A} (mask : list bool) (l : list A) : list A :=
  match mask, l with
  | b :: m, x :: r => if b then x :: select m r else select m r
  | _, _ => []
  end.
(** [out = zeros(batch); out[mask] = vals] *)
Fixpoint scatter (zero : O) (mask : list bool) (vals : list O) : list O :=
  match mask with
  | [] => []
  | true :: m => match vals with v :: r => v :: scatter zero m r | [] => dO :: scatter zero m [] end
  | false :: m => zero :: scatter zero m vals
  end.

(** cost_function.py 37-55 [masked_jacobians] and variable.py 134-148 [masked_variables];
    [None]: the assertion that all variables have the mask's batch size fails. *)
Definition masked_jacobians (c : cfn) (ts : list tens) (mask : list bool) : option (list O) :=
  if forallb (fun t => length t =? length mask) ts then
    let mts := map (select mask) ts in
    let vals := map (fun i => cf_row c (map (fun t => nth i t dE) mts))
                    (seq 0 (length (filter (fun b => b) mask))) in
    Some (scatter (cf_zero c) mask vals)
  else None.

(** cost_function.py 107-122 [weighted_jacobians_error] with [_supports_masking]. *)
Definition eval_masked (c : cfn) (ts wts : list tens) : option (list O) :=
  match cf_wzero c with
  | None => Some (eval_plain c ts wts)
  | Some wz =>
    let mask := map (fun i => negb (wz (map (fun t => nth i t dE) wts))) (seq 0 (batch_of wts)) in
    if 1 <? length mask then
      match masked_jacobians c ts mask with
      | None => None
      | Some je =>
        Some (map (fun i => cf_weigh c (rows_at wts i) (nth i je dO)) (seq 0 (length mask)))
      end
    else Some (eval_plain c ts wts)
  end.

(** vectorizer.py 168-196 [_get_var_names]: a position whose variables all have the same
    name is shared. *)
Variable vn : vid -> name.
Inductive vkey := Shared (n : name) | Pos (i : nat).
Definition vkey_eqb (a b : vkey) : bool :=
  match a, b with
  | Shared n, Shared m => n =? m
  | Pos i, Pos j => i =? j
  | _, _ => false
  end.
Definition names_at (g : list cfn) (i : nat) : list name :=
  map (fun c => vn (nth i (all_vars_of c) 0)) g.
Definition key_at (g : list cfn) (i : nat) : vkey :=
  match nodup Nat.eq_dec (names_at g i) with
  | [n] => Shared n
  | _ => Pos i
  end.
Definition var_keys (g : list cfn) : list vkey :=
  match g with
  | [] => []
  | c :: _ => map (key_at g) (seq 0 (length (all_vars_of c)))
  end.

(** vectorizer.py 206-208 [_expand] of a batch-1 tensor *)
Definition expand (t : tens) (n : nat) : tens :=
  if length t =? 1 then repeat (nth 0 t dE) n else t.

(** names_to_tensors: a defaultdict from keys to lists of tensors *)
Definition ntt := list (vkey * list tens).
Fixpoint ntt_get (k : vkey) (d : ntt) : option (list tens) :=
  match d with
  | [] => None
  | (k', l) :: r => if vkey_eqb k k' then Some l else ntt_get k r
  end.
Fixpoint ntt_push (k : vkey) (t : tens) (d : ntt) : ntt :=
  match d with
  | [] => [(k, [t])]
  | (k', l) :: r => if vkey_eqb k k' then (k', l ++ [t]) :: r else (k', l) :: ntt_push k t r
  end.
Definition is_shared (k : vkey) : bool := match k with Shared _ => true | Pos _ => false end.

(** vectorizer.py 236-269: the inner loop over one cost function's variables; [st] is the
    current tensor of every variable, [b] the objective's batch size. *)
Fixpoint gather_vars (st : vid -> tens) (b : nat) (kvs : list (vkey * vid)) (seen : list vkey) (d : ntt) : ntt :=
  match kvs with
  | [] => d
  | (k, v) :: r =>
    if existsb (vkey_eqb k) seen then gather_vars st b r seen d else
    let t := st v in
    if (match ntt_get k d with Some _ => true | None => false end) && is_shared k && (length t =? 1)
    then gather_vars st b r seen d
    else
      let t' := if (1 <? length t) || (b =? 1) || is_shared k then t else expand t b in
      gather_vars st b r (k :: seen) (ntt_push k t' d)
  end.
(** vectorizer.py 221-269 [_update_all_cost_fns_var_tensors] *)
Definition gather (st : vid -> tens) (b : nat) (keys : list vkey) (g : list cfn) : ntt :=
  fold_left (fun d c => gather_vars st b (combine keys (all_vars_of c)) [] d) g [].

(** vectorizer.py 275-300 [_update_vectorized_vars]: the tensor given to each variable of the
    vectorized cost function (only called with at least two cost functions). *)
Definition vec_tensor (d : ntt) (b n : nat) (k : vkey) : tens :=
  let ts := match ntt_get k d with Some l => l | None => [] end in
  if n =? 1 then nth 0 ts [] else
  if is_shared k && (length (nth 0 ts []) =? 1) then expand (nth 0 ts []) (b * n)
  else concat ts.

(** vectorizer.py 355-380 [_handle_schema_vectorization] with 316-332: the base cost function is
    the first of the group; its copy (with its own variables) is evaluated on the concatenated tensors,
    and wrapper [k] gets rows [k*b, (k+1)*b).  [full] selects mode FULL (masking on). *)
Definition run_group (full : bool) (st : vid -> tens) (b : nat) (g : list cfn) : option (list (list O)) :=
  match g with
  | [] => Some []
  | base :: _ =>
    let ks := var_keys g in
    let d := gather st b ks g in
    let vts := map (vec_tensor d b (length g)) ks in
    let ts := firstn (length (cf_vars base)) vts in
    let wts := skipn (length (cf_vars base)) vts in
    match (if full then eval_masked base ts wts else Some (eval_plain base ts wts)) with
    | None => None
    | Some out => Some (map (fun k => firstn b (skipn (k * b) out)) (seq 0 (length g)))
    end
  end.

(** vectorizer.py 343-353 [_handle_singleton_wrapper]: the cost function itself (no masking) *)
Definition run_single (st : vid -> tens) (c : cfn) : list O :=
  eval_plain c (map st (cf_vars c)) (map st (cf_wvars c)).

Definition run_schema (full : bool) (st : vid -> tens) (b : nat) (g : list cfn) : option (list (list O)) :=
  match g with
  | [c] => Some [run_single st c]
  | _ => run_group full st b g
  end.

(** vectorizer.py 125-130: the schema dict, in insertion order of schemas. *)
Definition group_add (d : dict (list cfn)) (c : cfn) : dict (list cfn) :=
  Dict.set (cf_sch c) (match lookup (cf_sch c) d with Some l => l ++ [c] | None => [c] end) d.
Definition groups (cs : list cfn) : dict (list cfn) := fold_left group_add cs [].

(** vectorizer.py 382-404 [_vectorize]: the cached result of every wrapper, listed in
    schema-dict order (the order of the temporary wrappers returned in the error modes, lines 394-398);
    [None]: an assertion fails. *)
Fixpoint run_all (full : bool) (st : vid -> tens) (b : nat) (gs : list (list cfn)) : option (dict (list O)) :=
  match gs with
  | [] => Some []
  | g :: r => match run_schema full st b g, run_all full st b r with
              | Some a, Some l => Some (combine (map cf_id g) a ++ l)
              | _, _ => None
              end
  end.
Definition vectorize (full : bool) (st : vid -> tens) (b : nat) (cs : list cfn) : option (dict (list O)) :=
  run_all full st b (values (groups cs)).

(** vectorizer.py 385-390, objective.py 839-842: in FULL mode the wrappers are served in the
    order in which the cost functions were added. *)
Definition serve_full (st : vid -> tens) (b : nat) (cs : list cfn) : option (list (option (list O))) :=
  match vectorize true st b cs with
  | None => None
  | Some d => Some (map (fun c => lookup (cf_id c) d) cs)
  end.
(** vectorizer.py 391-398, 406-407, objective.py 603-605: in the error modes the results are
    served in schema-dict order. *)
Definition serve_error (st : vid -> tens) (b : nat) (cs : list cfn) : option (list (list O)) :=
  match vectorize false st b cs with
  | None => None
  | Some d => Some (values d)
  end.
End Vec.
Arguments cfn E O : clear implicits.
