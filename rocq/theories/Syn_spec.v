(** C85, specification: what a synthetic pose graph is. *)
From Coq Require Import Reals List Arith Bool ZArith.
From Verif Require Import Geo_spec Geo3_spec Geo4_spec SE2_model SO3_model SE3_model G2o_model Syn_model.
Import ListNotations.
Local Open Scope R_scope.

(** the numbers torch.rand can return, the indices numpy can return in round n, the poses SE3.rand can *)
Definition in01 (x : R) : Prop := 0 <= x <= 1.
Definition draw (u : Tw) : Prop :=
  in01 (b0 (lin u)) /\ in01 (b1 (lin u)) /\ in01 (b2 (lin u)) /\ in01 (b0 (ang u)) /\ in01 (b1 (ang u)) /\ in01 (b2 (ang u)).
Definition loop_ok (N n : nat) (c : nat * (Tw + list Rig)) : Prop :=
  (fst c < n - 1)%nat /\
  match snd c with inl u => draw u | inr p => List.length p = N /\ Forall rigid3 p end.
Definition round_ok (N n : nat) (r : Round) : Prop :=
  List.length (ro_gt r) = N /\ List.length (ro_noise r) = N /\ Forall draw (ro_gt r) /\ Forall draw (ro_noise r) /\
  Forall (loop_ok N n) (ro_loops r) /\ NoDup (map fst (ro_loops r)).
(** rounds n, n+1, ... *)
Definition rounds_ok (N n : nat) (rs : list Round) : Prop := forall k r, nth_error rs k = Some r -> round_ok N (n + k) r.

(** a twist within the noise levels *)
Definition within (tn rn : R) (v : Tw) : Prop :=
  Rabs (b0 (lin v)) <= Rabs tn /\ Rabs (b1 (lin v)) <= Rabs tn /\ Rabs (b2 (lin v)) <= Rabs tn /\
  Rabs (b0 (ang v)) <= Rabs rn /\ Rabs (b1 (ang v)) <= Rabs rn /\ Rabs (b2 (ang v)) <= Rabs rn.
(** a measurement [z] of the pose [gj] seen from [gi]: gi z = gj nu, where nu is the error; the error of
    an inlier is within the noise levels *)
Definition measures (d : dtype) (tn rn : R) (inlier : bool) (gi gj z : Rig) : Prop :=
  exists nu, rigid3 nu /\ se3_compose gi z = se3_compose gj nu /\
    (inlier = true -> exists v, within tn rn v /\ se3_exp d v = Some nu).
Definition edge_good (d : dtype) (tn rn : R) (N : nat) (gt : list (list Rig)) (e : DEdge Rig (list R)) (inlier : bool) : Prop :=
  exists i j gi gj, de_i e = Z.of_nat i /\ de_j e = Z.of_nat j /\ (i < j)%nat /\
    nth_error gt i = Some gi /\ nth_error gt j = Some gj /\ List.length (de_rel e) = N /\
    (forall b a c z, nth_error gi b = Some a -> nth_error gj b = Some c -> nth_error (de_rel e) b = Some z ->
       rigid3 z /\ measures d tn rn inlier a c z) /\
    (inlier = false -> (i + 1 < j)%nat) /\
    de_weight e = Some [[1 / tn; 1 / tn; 1 / tn; 1 / rn; 1 / rn; 1 / rn]].
