(** Specification of copying an objective, independent of how the copy is made. *)
From Coq Require Import List Arith Bool.
Import ListNotations.
From Verif Require Import Dict Obj_model Obj_spec Copy_model.

Section Spec.
Context {V : Type}.

(** The variables a cost function and its weight refer to, one entry per reference. *)
Definition references (w : world) (c : cid) : list vid :=
  c_optim w c ++ c_aux w c ++ w_aux w (c_weight w c).

(** Every variable to which one cost function together with its weight refers twice was already
    used by a cost function added before. *)
Definition no_double_reference (w : world) (cs : list cid) : Prop :=
  forall pre c post, cs = pre ++ c :: post ->
  forall i j v, i <> j -> nth_error (references w c) i = Some v ->
                nth_error (references w c) j = Some v -> used w pre v.

(** The Python objects in use exist, and a robust cost function has the variables of the cost
    function it wraps, followed by its own, and its weight. *)
Record well_formed (h : heap V) (cs : list cid) : Prop := {
  wf_c : forall c, In c cs -> c < nc h;
  wf_w : forall c, In c cs -> c_weight (hw h) c < nw h;
  wf_v : forall c v, In c cs -> In v (references (hw h) c) -> v < nv h;
  wf_i : forall c i, In c cs -> inner h c = Some i ->
     i < nc h /\ inner h i = None /\ c_optim (hw h) i = c_optim (hw h) c /\
     c_weight (hw h) i = c_weight (hw h) c /\
     exists own, c_aux (hw h) c = c_aux (hw h) i ++ own
}.

(** Nothing that existed in [h] differs in [h']. *)
Record unchanged (h h' : heap V) : Prop := {
  un_v : forall v, v < nv h ->
     v_name (hw h') v = v_name (hw h) v /\ v_dtype_ok (hw h') v = v_dtype_ok (hw h) v /\
     val h' v = val h v;
  un_c : forall c, c < nc h ->
     c_name (hw h') c = c_name (hw h) c /\ c_optim (hw h') c = c_optim (hw h) c /\
     c_aux (hw h') c = c_aux (hw h) c /\ c_weight (hw h') c = c_weight (hw h) c /\
     cls h' c = cls h c /\ inner h' c = inner h c;
  un_w : forall x, x < nw h ->
     w_optim (hw h') x = w_optim (hw h) x /\ w_aux (hw h') x = w_aux (hw h) x /\
     wcls h' x = wcls h x;
  un_size : nv h <= nv h' /\ nc h <= nc h' /\ nw h <= nw h'
}.

(** [l'] is, up to order, the list of the copies of the functions in [l]. *)
Definition same_functions (h : heap V) (cs : list cid) (fc : cid -> cid) (fw : wid -> wid)
  (l l' : list fid) : Prop :=
  (forall c, In c cs -> count_occ fid_eq_dec l' (CF (fc c)) = count_occ fid_eq_dec l (CF c) /\
     count_occ fid_eq_dec l' (CW (fw (c_weight (hw h) c))) =
     count_occ fid_eq_dec l (CW (c_weight (hw h) c))) /\
  (forall f, In f l' -> exists c, In c cs /\ (f = CF (fc c) \/ f = CW (fw (c_weight (hw h) c)))).

(** The objective [s'] in heap [h'] is an isomorphic copy of the objective [s] in [h] with cost
    functions [cs]: [fv], [fc], [fw] give the copy of each variable, cost function and weight. *)
Record isomorphic (h : heap V) (s : state) (cs : list cid) (h' : heap V) (s' : state)
  (fv : vid -> vid) (fc : cid -> cid) (fw : wid -> wid) : Prop := {
  (* the cost functions, in the same order, under the same names *)
  iso_cfs : cost_functions s' = map (fun nc => (fst nc, fc (snd nc))) (cost_functions s);
  (* same names, same objects up to copying, same containers *)
  iso_optim : forall n, get_optim_var s' n = option_map fv (get_optim_var s n);
  iso_aux : forall n, get_aux_var s' n = option_map fv (get_aux_var s n);
  (* the same functions are connected to each variable, as often *)
  iso_conn_optim : forall v, used_optim (hw h) cs v -> exists l l',
     get_functions_connected_to_optim_var s (v_name (hw h) v) = Some l /\
     get_functions_connected_to_optim_var s' (v_name (hw h) v) = Some l' /\
     same_functions h cs fc fw l l';
  iso_conn_aux : forall v, used_aux (hw h) cs v -> exists l l',
     get_functions_connected_to_aux_var s (v_name (hw h) v) = Some l /\
     get_functions_connected_to_aux_var s' (v_name (hw h) v) = Some l' /\
     same_functions h cs fc fw l l';
  (* every copied cost function refers to the copies of what the original refers to *)
  iso_c : forall c, In c cs ->
     c_name (hw h') (fc c) = c_name (hw h) c /\ cls h' (fc c) = cls h c /\
     c_optim (hw h') (fc c) = map fv (c_optim (hw h) c) /\
     c_aux (hw h') (fc c) = map fv (c_aux (hw h) c) /\
     c_weight (hw h') (fc c) = fw (c_weight (hw h) c) /\
     (inner h' (fc c) = None <-> inner h c = None);
  iso_w : forall c, In c cs -> let x := c_weight (hw h) c in
     wcls h' (fw x) = wcls h x /\ w_optim (hw h') (fw x) = [] /\ w_optim (hw h) x = [] /\
     w_aux (hw h') (fw x) = map fv (w_aux (hw h) x);
  (* the copies have the names and the values of the originals *)
  iso_v : forall v, used (hw h) cs v ->
     v_name (hw h') (fv v) = v_name (hw h) v /\ val h' (fv v) = val h v /\
     v_dtype_ok (hw h') (fv v) = v_dtype_ok (hw h) v;
  (* sharing is the same, and none of the copies is an object that existed before *)
  iso_inj_v : forall a b, used (hw h) cs a -> used (hw h) cs b -> fv a = fv b -> a = b;
  iso_inj_c : forall a b, In a cs -> In b cs -> fc a = fc b -> a = b;
  iso_inj_w : forall a b, In a cs -> In b cs ->
     fw (c_weight (hw h) a) = fw (c_weight (hw h) b) -> c_weight (hw h) a = c_weight (hw h) b;
  iso_new_v : forall v, used (hw h) cs v -> nv h <= fv v < nv h';
  iso_new_c : forall c, In c cs -> nc h <= fc c < nc h';
  iso_new_w : forall c, In c cs -> nw h <= fw (c_weight (hw h) c) < nw h'
}.

(** A cost function is plain, or it is robust and none of the variables of the cost function it
    wraps is used by the cost functions [pre] added before it. *)
Definition private_if_robust (h : heap V) (pre : list cid) (c : cid) : Prop :=
  forall i, inner h c = Some i ->
  forall v, In v (c_optim (hw h) i ++ c_aux (hw h) i) -> ~ used (hw h) pre v.

(** A sequence of updates of variables. *)
Definition set_vals (h : heap V) (ups : list (vid * V)) : heap V :=
  fold_left (fun h p => set_val h (fst p) (snd p)) ups h.
End Spec.
