(** Model of [Objective.copy] and of the copy methods of variables, cost weights and cost
    functions it relies on.  The structural registry ([add], the containers) is [Obj_model]. *)
From Coq Require Import List Arith Bool.
Import ListNotations.
From Verif Require Import Dict Obj_model.

Section Copy.
(** Tensors are abstract values; [copy_name n] is the name f"{n}_copy". *)
Context {V : Type}.
Variable copy_name : name -> name.

(** The heap: every Python object the copy reads or creates.  [hw] has the names, dtypes and
    registered variables of [Obj_model]; [val] is [Variable.tensor]; [cls]/[wcls] stand for the
    class of a cost function / weight together with the non-variable data its methods use (error
    function, dimension, robust loss class); [inner c] is the cost function wrapped by a
    [RobustCostFunction] (theseus/core/robust_cost_function.py 62), [None] for the others.
    [nv]/[nc]/[nw]: the next unused object identities.
    Simplifications: a robust cost function wraps a plain one (not another robust one); the
    attributes of a function are its lists of registered variables, addressed by position (the
    registered attribute names are distinct, theseus/core/theseus_function.py 29-58). *)
Record heap := {
  hw : world;
  val : vid -> V;
  cls : cid -> nat;
  wcls : wid -> nat;
  inner : cid -> option cid;
  nv : nat; nc : nat; nw : nat
}.

Definition upd {A} (f : nat -> A) (k : nat) (x : A) : nat -> A :=
  fun y => if y =? k then x else f y.

(** Creating and renaming objects. *)
(** theseus/core/variable.py 19-26 [Variable.__init__] *)
Definition new_var (h : heap) (n : name) (d : bool) (x : V) : heap * vid :=
  let w := hw h in
  ({| hw := {| v_name := upd (v_name w) (nv h) n; v_dtype_ok := upd (v_dtype_ok w) (nv h) d;
               c_name := c_name w; c_optim := c_optim w; c_aux := c_aux w;
               c_weight := c_weight w; w_optim := w_optim w; w_aux := w_aux w;
               allow_mixed := allow_mixed w |};
      val := upd (val h) (nv h) x; cls := cls h; wcls := wcls h; inner := inner h;
      nv := S (nv h); nc := nc h; nw := nw h |}, nv h).

(** theseus/core/variable.py 21-26: the attribute [name] is assigned (here by
    theseus_function.py 96-100) *)
Definition set_vname (h : heap) (v : vid) (n : name) : heap :=
  let w := hw h in
  {| hw := {| v_name := upd (v_name w) v n; v_dtype_ok := v_dtype_ok w;
              c_name := c_name w; c_optim := c_optim w; c_aux := c_aux w;
              c_weight := c_weight w; w_optim := w_optim w; w_aux := w_aux w;
              allow_mixed := allow_mixed w |};
     val := val h; cls := cls h; wcls := wcls h; inner := inner h;
     nv := nv h; nc := nc h; nw := nw h |}.

(** theseus/core/cost_weight.py 20-25 and the constructors of its subclasses *)
Definition new_weight (h : heap) (k : nat) (o a : list vid) : heap * wid :=
  let w := hw h in
  ({| hw := {| v_name := v_name w; v_dtype_ok := v_dtype_ok w;
               c_name := c_name w; c_optim := c_optim w; c_aux := c_aux w;
               c_weight := c_weight w;
               w_optim := upd (w_optim w) (nw h) o; w_aux := upd (w_aux w) (nw h) a;
               allow_mixed := allow_mixed w |};
      val := val h; cls := cls h; wcls := upd (wcls h) (nw h) k; inner := inner h;
      nv := nv h; nc := nc h; nw := S (nw h) |}, nw h).

(** theseus/core/cost_function.py 69-82 and the constructors of its subclasses *)
Definition new_cf (h : heap) (n : name) (k : nat) (o a : list vid) (x : wid) (i : option cid)
  : heap * cid :=
  let w := hw h in
  ({| hw := {| v_name := v_name w; v_dtype_ok := v_dtype_ok w;
               c_name := upd (c_name w) (nc h) n; c_optim := upd (c_optim w) (nc h) o;
               c_aux := upd (c_aux w) (nc h) a; c_weight := upd (c_weight w) (nc h) x;
               w_optim := w_optim w; w_aux := w_aux w; allow_mixed := allow_mixed w |};
      val := val h; cls := upd (cls h) (nc h) k; wcls := wcls h;
      inner := upd (inner h) (nc h) i;
      nv := nv h; nc := S (nc h); nw := nw h |}, nc h).

(** Assigning the registered variables of a cost function / weight:
    theseus_function.py 137-161 [_set_variable_at], for all positions at once. *)
Definition set_cf_optim (h : heap) (c : cid) (l : list vid) : heap :=
  let w := hw h in
  {| hw := {| v_name := v_name w; v_dtype_ok := v_dtype_ok w;
              c_name := c_name w; c_optim := upd (c_optim w) c l; c_aux := c_aux w;
              c_weight := c_weight w; w_optim := w_optim w; w_aux := w_aux w;
              allow_mixed := allow_mixed w |};
     val := val h; cls := cls h; wcls := wcls h; inner := inner h;
     nv := nv h; nc := nc h; nw := nw h |}.
(** theseus_function.py 137-161, as above *)
Definition set_cf_aux (h : heap) (c : cid) (l : list vid) : heap :=
  let w := hw h in
  {| hw := {| v_name := v_name w; v_dtype_ok := v_dtype_ok w;
              c_name := c_name w; c_optim := c_optim w; c_aux := upd (c_aux w) c l;
              c_weight := c_weight w; w_optim := w_optim w; w_aux := w_aux w;
              allow_mixed := allow_mixed w |};
     val := val h; cls := cls h; wcls := wcls h; inner := inner h;
     nv := nv h; nc := nc h; nw := nw h |}.
(** theseus_function.py 137-161, as above *)
Definition set_w_optim (h : heap) (x : wid) (l : list vid) : heap :=
  let w := hw h in
  {| hw := {| v_name := v_name w; v_dtype_ok := v_dtype_ok w;
              c_name := c_name w; c_optim := c_optim w; c_aux := c_aux w;
              c_weight := c_weight w; w_optim := upd (w_optim w) x l; w_aux := w_aux w;
              allow_mixed := allow_mixed w |};
     val := val h; cls := cls h; wcls := wcls h; inner := inner h;
     nv := nv h; nc := nc h; nw := nw h |}.
(** theseus_function.py 137-161, as above *)
Definition set_w_aux (h : heap) (x : wid) (l : list vid) : heap :=
  let w := hw h in
  {| hw := {| v_name := v_name w; v_dtype_ok := v_dtype_ok w;
              c_name := c_name w; c_optim := c_optim w; c_aux := c_aux w;
              c_weight := c_weight w; w_optim := w_optim w; w_aux := upd (w_aux w) x l;
              allow_mixed := allow_mixed w |};
     val := val h; cls := cls h; wcls := wcls h; inner := inner h;
     nv := nv h; nc := nc h; nw := nw h |}.

(** cost_function.py 84-90, one assignment of the attribute [_weight] *)
Definition set_weight1 (h : heap) (c : cid) (x : wid) : heap :=
  let w := hw h in
  {| hw := {| v_name := v_name w; v_dtype_ok := v_dtype_ok w;
              c_name := c_name w; c_optim := c_optim w; c_aux := c_aux w;
              c_weight := upd (c_weight w) c x; w_optim := w_optim w; w_aux := w_aux w;
              allow_mixed := allow_mixed w |};
     val := val h; cls := cls h; wcls := wcls h; inner := inner h;
     nv := nv h; nc := nc h; nw := nw h |}.

(** cost_function.py 88-90 (the weight setter) and robust_cost_function.py 156-162 (the weight of
    a robust cost function is that of the one it wraps, for reading and for writing). *)
Definition set_weight (h : heap) (c : cid) (x : wid) : heap :=
  match inner h c with
  | None => set_weight1 h c x
  | Some i => set_weight1 (set_weight1 h i x) c x
  end.

(** variable.py 40-73: [Variable.update] with well-formed data (checks in [Upd_model]). *)
Definition set_val (h : heap) (v : vid) (x : V) : heap :=
  {| hw := hw h; val := upd (val h) v x; cls := cls h; wcls := wcls h; inner := inner h;
     nv := nv h; nc := nc h; nw := nw h |}.

(** A computation on the heap returns a value or raises. *)
Inductive res (A : Type) := Ret (h : heap) (a : A) | Exn (e : exn) (h : heap).
Arguments Ret {A} h a.
Arguments Exn {A} e h.
Definition rbind {A B} (r : res A) (k : heap -> A -> res B) : res B :=
  match r with Ret h a => k h a | Exn e h => Exn e h end.

(** variable.py 28-31 [Variable.copy] (the geometry classes only change the class) *)
Definition copy_var (h : heap) (v : vid) : heap * vid :=
  new_var h (copy_name (v_name (hw h) v)) (v_dtype_ok (hw h) v) (val h v).

(** the argument lists [v.copy(), ...] of the [_copy_impl] methods *)
Fixpoint copy_vars (h : heap) (l : list vid) : heap * list vid :=
  match l with
  | [] => (h, [])
  | v :: r => let (h1, v1) := copy_var h v in
              let (h2, r1) := copy_vars h1 r in (h2, v1 :: r1)
  end.

(** theseus_function.py 96-100: [for old_var, new_var in zip(...): new_var.name = old_var.name] *)
Definition keep_names (h : heap) (old new : list vid) : heap :=
  fold_left (fun h p => set_vname h (snd p) (v_name (hw h) (fst p))) (combine old new) h.

(** theseus_function.py 80-88 [_has_duplicate_vars] *)
Definition share (l l' : list vid) : bool :=
  existsb (fun v => existsb (Nat.eqb v) l') l.

(** cost_weight.py 90-91, 135-136; embodied/motionmodel/double_integrator.py 172-176:
    [_copy_impl] of the weights copies every registered variable *)
Definition copy_weight_impl (h : heap) (x : wid) : heap * wid :=
  let (h1, o) := copy_vars h (w_optim (hw h) x) in
  let (h2, a) := copy_vars h1 (w_aux (hw h) x) in
  new_weight h2 (wcls h x) o a.

(** theseus_function.py 90-110 [TheseusFunction.copy] of a cost weight *)
Definition copy_weight (h : heap) (x : wid) (keep : bool) : res wid :=
  let (h1, x') := copy_weight_impl h x in
  let h2 := if keep
            then keep_names (keep_names h1 (w_optim (hw h1) x) (w_optim (hw h1) x'))
                            (w_aux (hw h1) x) (w_aux (hw h1) x')
            else h1 in
  if share (w_optim (hw h2) x) (w_optim (hw h2) x') || share (w_aux (hw h2) x) (w_aux (hw h2) x')
  then Exn RuntimeError h2 else Ret h2 x'.

(** [_copy_impl] of the cost functions that are not wrappers (embodied/**/*.py,
    cost_function.py 398-407): copies every registered variable, then the weight, then
    constructs.  ([CostFunction.copy] passes the name.) *)
Definition copy_plain_impl (h : heap) (c : cid) (n : name) : res cid :=
  let (h1, o) := copy_vars h (c_optim (hw h) c) in
  let (h2, a) := copy_vars h1 (c_aux (hw h) c) in
  rbind (copy_weight h2 (c_weight (hw h) c) false) (fun h3 x =>
  let (h4, c') := new_cf h3 n (cls h c) o a x None in Ret h4 c').

(** theseus_function.py 90-110: what [copy] does around a given [_copy_impl] *)
Definition finish_copy (c : cid) (keep : bool) (h1 : heap) (c' : cid) : res cid :=
  let h2 := if keep
            then keep_names (keep_names h1 (c_optim (hw h1) c) (c_optim (hw h1) c'))
                            (c_aux (hw h1) c) (c_aux (hw h1) c')
            else h1 in
  if share (c_optim (hw h2) c) (c_optim (hw h2) c') || share (c_aux (hw h2) c) (c_aux (hw h2) c')
  then Exn RuntimeError h2 else Ret h2 c'.

(** robust_cost_function.py 139-146 [_copy_impl] and 54-76 [__init__]: the wrapped cost function
    is copied (with a default name and default variable names), then the loss radius (and the
    control value of the GNC variant); the new object registers the variables of the wrapped copy
    followed by those. *)
Definition copy_robust_impl (h : heap) (c i : cid) (n : name) : res cid :=
  rbind (rbind (copy_plain_impl h i (copy_name (c_name (hw h) i))) (finish_copy i false))
  (fun h1 i' =>
  let (h2, e) := copy_vars h1 (skipn (length (c_aux (hw h) i)) (c_aux (hw h) c)) in
  let (h3, c') := new_cf h2 n (cls h c) (c_optim (hw h2) i') (c_aux (hw h2) i' ++ e)
                         (c_weight (hw h2) i') (Some i') in
  Ret h3 c').

(** [CostFunction.copy(new_name=n, keep_variable_names=keep)] *)
Definition copy_cf (h : heap) (c : cid) (n : name) (keep : bool) : res cid :=
  rbind (match inner h c with
         | None => copy_plain_impl h c n
         | Some i => copy_robust_impl h c i n
         end) (finish_copy c keep).

(** objective.py 655-661: the loop over [cost_functions_for_weights] *)
Fixpoint copy_weights (h : heap) (ws : list wid) (m : dict wid) : res (dict wid) :=
  match ws with
  | [] => Ret h m
  | x :: r => rbind (copy_weight h x true) (fun h1 x' => copy_weights h1 r (set x x' m))
  end.

(** objective.py 663-671: the loop over the cost functions *)
Fixpoint copy_cfs (h : heap) (m : dict wid) (cs : list cid) : res (list cid) :=
  match cs with
  | [] => Ret h []
  | c :: r =>
    rbind (copy_cf h c (c_name (hw h) c) true) (fun h1 c' =>
    match lookup (c_weight (hw h1) c) m with
    | None => Exn KeyError h1
    | Some x' =>
      rbind (copy_cfs (set_weight h1 c' x') m r) (fun h2 cs' => Ret h2 (c' :: cs'))
    end)
  end.

(** objective.py 677-698, one inner loop:
    [for i, var in enumerate(f.vars): if var.name in d: f.set_var_at(i, d[var.name])];
    the assignment at position [i] does not touch the other positions. *)
Definition redirect (w : world) (d : dict vid) (l : list vid) : list vid :=
  map (fun v => match lookup (v_name w v) d with Some v' => v' | None => v end) l.

(** objective.py 675-699: the body of the last loop, up to [new_objective.add] *)
Definition unify (h : heap) (s : state) (c : cid) : heap :=
  let h1 := set_cf_optim h c (redirect (hw h) (optim_vars s) (c_optim (hw h) c)) in
  let h2 := set_cf_aux h1 c (redirect (hw h1) (aux_vars s) (c_aux (hw h1) c)) in
  let x := c_weight (hw h2) c in
  let h3 := set_w_optim h2 x (redirect (hw h2) (cw_optim_vars s) (w_optim (hw h2) x)) in
  set_w_aux h3 x (redirect (hw h3) (aux_vars s) (w_aux (hw h3) x)).

(** objective.py 651-653: the new objective is created without passing
    [__allow_mixed_optim_aux_vars__], so it has the default [False]. *)
Definition unmixed (w : world) : world :=
  {| v_name := v_name w; v_dtype_ok := v_dtype_ok w;
     c_name := c_name w; c_optim := c_optim w; c_aux := c_aux w;
     c_weight := c_weight w; w_optim := w_optim w; w_aux := w_aux w; allow_mixed := false |}.

(** objective.py 673-700: the last loop *)
Fixpoint attach (h : heap) (s : state) (cs : list cid) : res state :=
  match cs with
  | [] => Ret h s
  | c :: r =>
    let h1 := unify h s c in
    match add (unmixed (hw h1)) c s with
    | Raise e _ => Exn e h1
    | Ok s1 => attach h1 s1 r
    end
  end.

(** objective.py 643-701 [Objective.copy] *)
Definition copy_objective (h : heap) (s : state) : res state :=
  rbind (copy_weights h (keys (cfs_for_weights s)) []) (fun h1 m =>
  rbind (copy_cfs h1 m (values (cost_functions s))) (fun h2 cs' =>
  attach h2 init cs')).

(** What a cost function evaluates to.  [efn], [wfn], [lfn]: the error of a class of cost
    functions, the weighting of a class of weights, the loss of a class of robust functions. *)
Section Eval.
Context {E : Type}.
Variable efn : nat -> list V -> list V -> E.
Variable wfn : nat -> list V -> list V -> E -> E.
Variable lfn : nat -> list V -> E -> E.

(** cost_function.py 101-103 [weighted_error] (and [error]: reads the registered attributes) *)
Definition plain_error (h : heap) (c : cid) : E :=
  let w := hw h in let x := c_weight w c in
  wfn (wcls h x) (map (val h) (w_optim w x)) (map (val h) (w_aux w x))
      (efn (cls h c) (map (val h) (c_optim w c)) (map (val h) (c_aux w c))).

(** robust_cost_function.py 85-104: the wrapped cost function computes its own weighted error
    from its own attributes; the loss reads the radius registered on the outer object. *)
Definition weighted_error (h : heap) (c : cid) : E :=
  match inner h c with
  | None => plain_error h c
  | Some i =>
    lfn (cls h c) (map (val h) (skipn (length (c_aux (hw h) i)) (c_aux (hw h) c)))
        (plain_error h i)
  end.
End Eval.
End Copy.
Arguments heap : clear implicits.
Arguments Ret {V A} h a.
Arguments Exn {V A} e h.
