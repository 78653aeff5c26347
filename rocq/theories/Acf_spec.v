(** What C99 says, without the constructors. *)
From Coq Require Import List String Ascii Arith Bool.
From Verif Require Import Acf_model.
Import ListNotations.
Local Open Scope string_scope.
Local Open Scope list_scope.
Local Open Scope nat_scope.

(** the same string up to the case of its letters *)
Inductive same_letters : string -> string -> Prop :=
| sl_nil : same_letters "" ""
| sl_eq : forall c s t, same_letters s t -> same_letters (String c s) (String c t)
| sl_case : forall c d s t, 97 <= nat_of_ascii c <= 122 -> nat_of_ascii d + 32 = nat_of_ascii c ->
    same_letters s t -> same_letters (String c s) (String d t).
Definition mode_name (m : mode) : string := match m with DENSE => "DENSE" | LOOP_BATCH => "LOOP_BATCH" | VMAP => "VMAP" end.

(** the attributes AutoDiffCostFunction assigns after it has registered the variables *)
Definition internal : list string :=
  ["_err_fn"; "_dim"; "_autograd_create_graph"; "_autograd_strict"; "_autograd_vectorize"; "_autograd_strategy"; "_autograd_mode";
   "_tmp_optim_vars"; "_tmp_aux_vars"; "_tmp_optim_vars_for_loop"; "_tmp_aux_vars_for_loop"].
(** the attributes a robust wrapper has of its own, besides those it registers *)
Definition wrapper_own : list string := ["cost_function"; "loss"; "flatten_dims"].

Section Spec.
Variables T F : Type.
Implicit Types w : world T F.
(** the variables exist, and their names *)
Definition exist w (vs : list nat) : Prop := forall v, In v vs -> v < List.length (w_vars w).
Definition name_at w (v : nat) : string := match nth_error (w_vars w) v with Some x => v_name x | None => "" end.
Definition names w (vs : list nat) : list string := map (name_at w) vs.
(** a weight that exists with its variables *)
Definition weight_exists w (k : nat) : Prop := exists x, nth_error (w_wts w) k = Some x /\ exist w (w_aux x).
(** nothing that existed has changed *)
Definition extends w w' : Prop :=
  (exists l, w_vars w' = w_vars w ++ l) /\ (exists l, w_wts w' = w_wts w ++ l) /\ (exists l, w_objs w' = w_objs w ++ l).
(** the user's view of object [i]: class, variables, weight, dimension *)
Record looks w (i : nat) (c : ccls) (optim aux : list nat) (wt d : nat) : Prop := mkLooks {
  lk_obj : exists o, nth_error (w_objs w) i = Some o /\ o_cls o = c
             /\ optim_vars o = Some (map PVar optim) /\ aux_vars o = Some (map PVar aux);
  lk_weight : weight w i = Some wt;
  lk_dim : dim w i = Some d }.
(** the attributes that hold its variables *)
Definition registered w (i : nat) (ko ka : list string) : Prop := exists o, nth_error (w_objs w) i = Some o /\ o_optim o = ko /\ o_aux o = ka.
(** its name *)
Definition named w (i : nat) (s : string) : Prop := exists o, nth_error (w_objs w) i = Some o /\ getattr o "name" = Some (PStr s).
(** the rest of an AutoDiffCostFunction *)
Definition autodiff_has w (i : nat) (f : F) (m : mode) (op : adopts) : Prop :=
  exists o, nth_error (w_objs w) i = Some o /\
    getattr o "_err_fn" = Some (PFn f) /\ getattr o "_autograd_mode" = Some (PMode m) /\
    getattr o "_autograd_create_graph" = Some (PBool (a_create op)) /\ getattr o "_autograd_strict" = Some (PBool (a_strict op)) /\
    getattr o "_autograd_vectorize" = Some (PBool (a_vec op)) /\ getattr o "_autograd_strategy" = Some (PStr (a_strategy op)).
(** of a wrapper *)
Definition wrapper_has w (i b : nat) (l : loss) (fl : bool) : Prop :=
  exists o, nth_error (w_objs w) i = Some o /\
    getattr o "cost_function" = Some (PObj b) /\ getattr o "loss" = Some (PLoss l) /\ getattr o "flatten_dims" = Some (PBool fl).
(** [vs'] are new variables, with the values the variables [vs] have in [w], and their names, with or without "_copy" *)
Definition copied w w' (keep : bool) (vs vs' : list nat) : Prop :=
  List.length vs' = List.length vs /\
  forall k v v', nth_error vs k = Some v -> nth_error vs' k = Some v' ->
    exists x x', nth_error (w_vars w) v = Some x /\ nth_error (w_vars w') v' = Some x' /\
      List.length (w_vars w) <= v' /\ v_dt x' = v_dt x /\ v_val x' = v_val x /\
      v_name x' = (if keep then v_name x else (v_name x ++ "_copy")%string).
(** the variables and the weight of a copy: all new, none of them twice; nothing that existed has changed *)
Definition is_copy w w' (keep : bool) (optim aux : list nat) (wt : nat) (optim' aux' : list nat) (wt' : nat) : Prop :=
  copied w w' keep optim optim' /\ copied w w' keep aux aux' /\
  (exists x x', nth_error (w_wts w) wt = Some x /\ nth_error (w_wts w') wt' = Some x' /\ List.length (w_wts w) <= wt' /\
     w_name x' = (w_name x ++ "_copy")%string /\ copied w w' false (w_aux x) (w_aux x') /\ NoDup (optim' ++ aux' ++ w_aux x')) /\
  extends w w'.
End Spec.
Arguments exist {T F}. Arguments name_at {T F}. Arguments names {T F}. Arguments weight_exists {T F}. Arguments extends {T F}.
Arguments looks {T F}. Arguments autodiff_has {T F}. Arguments wrapper_has {T F}. Arguments copied {T F}.
Arguments registered {T F}. Arguments named {T F}.
Arguments is_copy {T F}.
