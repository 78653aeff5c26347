(** C88, specification: moved arguments, one batch element, slices of a function. *)
From Coq Require Import Reals List Arith Bool ZArith.
From Verif Require Import Geo_spec Geo3_spec Geo4_spec RSum SE2_model SO3_model SE3_model Emb_model Emb_spec Nd_model.
Import ListNotations.
Local Open Scope R_scope.

(** the LieGroup classes, with what it means to differentiate in them (Emb_spec) *)
Inductive theseus_ng : forall o : NGroup, Calculus (ng o) -> Prop :=
| NVector : forall n, theseus_ng (vector_ng n) (vector_calculus n)
| NSO2 : theseus_ng so2_ng so2_calculus
| NSE2 : forall d, theseus_ng (se2_ng d) (se2_calculus d)
| NSO3 : forall d, theseus_ng (so3_ng d) (so3_calculus d)
| NSE3 : forall d, theseus_ng (se3_ng d) (se3_calculus d).

(** the tangent vector of length n with t at position d *)
Definition axis (n d : nat) (t : R) : list R := map (fun i => if Nat.eqb i d then t else 0) (seq 0 n).
(** [args'] is [args] with every element of argument k retracted by t along its axis d *)
Definition moved (args : list garg) (k d : nat) (t : R) (args' : list garg) : Prop :=
  length args' = length args /\
  (forall m, m <> k -> nth_error args' m = nth_error args m) /\
  exists a v, nth_error args k = Some a /\ nth_error args' k = Some (mkGA (ga_cls a) v) /\
    Forall2 (fun g g' => ng_retract (ga_ng a) g (ng_vec (ga_ng a) (axis (ng_dof (ga_ng a)) d t)) = Some g') (ga_val a) v.
(** element b of a batch; a batch of one element serves every b *)
Definition of_batch {A} (l : list A) (b : nat) : option A :=
  match l with [x] => Some x | _ => nth_error l b end.
(** the number of rows asked for: function_dim, or dof when it is absent or 0 *)
Definition rows_asked (function_dim : option nat) (dof : nat) : nat :=
  match function_dim with Some 0%nat | None => dof | Some n => n end.
(** the curve of outputs for batch element b when argument k moves along axis d *)
Definition output_curve {o : NGroup} (f : list garg -> option (list (elt (ng o)))) (args : list garg) (k d b : nat) (r : R)
    (c : R -> elt (ng o)) : Prop :=
  forall t args' out, Rabs t < r -> moved args k d t args' -> f args' = Some out -> of_batch out b = Some (c t).
(** the limit of [q h] as h goes to 0 from above *)
Definition tends_to (q : R -> R) (l : R) : Prop :=
  forall eps, 0 < eps -> exists r, 0 < r /\ forall h, 0 < h < r -> Rabs (q h - l) < eps.
(** g0 has the successive derivatives g1, g2, g3 on [-h, h] and |g3| <= M there *)
Definition smooth3 (g0 g1 g2 g3 : R -> R) (h M : R) : Prop :=
  forall t, - h <= t <= h -> derivable_pt_lim g0 t (g1 t) /\ derivable_pt_lim g1 t (g2 t) /\ derivable_pt_lim g2 t (g3 t) /\ Rabs (g3 t) <= M.
(** the array x with t added to its entry i *)
Definition shifted (x : ndarray) (i : nat) (t : R) : ndarray :=
  mkNd (nd_dtype x) (nd_shape x) (map (fun p => if Nat.eqb (snd p) i then fst p + t else fst p) (combine (nd_data x) (seq 0 (length (nd_data x))))).

(** the function [lambda args: args[0].between(args[1])] on arguments of class [c] *)
Definition gclass_eq_dec (a b : gclass) : {a = b} + {a <> b}.
Proof. decide equality; first [apply Nat.eq_dec | decide equality]. Defined.
Definition as_class (c : gclass) (a : garg) : option (list (elt (ng (ng_of c)))) :=
  match gclass_eq_dec (ga_cls a) c with
  | left E => Some (eq_rect (ga_cls a) (fun k => list (elt (ng (ng_of k)))) (ga_val a) c E)
  | right _ => None
  end.
Definition between_fn (c : gclass) (args : list garg) : option (list (elt (ng (ng_of c)))) :=
  match args with
  | [a; b] =>
      match as_class c a, as_class c b with
      | Some x, Some y => match bzip x y with Some ps => Some (map (fun p => between (fst p) (snd p)) ps) | None => None end
      | _, _ => None
      end
  | _ => None
  end.
