(** C98: compose, transform and untransform of SO3 and SE3 on tensors of any shape. *)
From Coq Require Import List Arith Bool ZArith Reals Lra Lia.
From Verif Require Import RSum Act_model Act_base Act_ops Act_props Act_raise Grp_model Grp_spec Grp_base Grp_grad Grp_jac.
Import ListNotations.
Local Open Scope nat_scope.

(** They return exactly for groups of 3x3 (3x4) matrices and matrices or points whose batch shapes broadcast... *)
Theorem C98_returns : forall k g t, (exists r, op_of k g t = Some r) <-> exists A B S, fits k A B S g t.
Proof.
  intros k g t. split.
  - intros [r E]. exact (returns_fits k g t r E).
  - intros (A & B & S & Eg & Et & H). destruct (forward A B S g t H k Eg Et) as (r & R1 & _). eauto.
Qed.
(** ...and then hold at every position the textbook formula of the matrices and points that broadcasting pairs there. *)
Theorem C98_values : forall k A B S g t, fits k A B S g t -> exists r, op_of k g t = Some r /\ holds_blocks k A B S g t r.
Proof. intros k A B S g t (Eg & Et & H). exact (forward A B S g t H k Eg Et). Qed.

(** The Jacobians come with the value that the operation returns. *)
Theorem C98_jacobians : forall k A B S g t, fits k A B S g t ->
  exists j0 j1 r, jac_of k g t = Some ((j0, j1), r) /\ op_of k g t = Some r /\ jacobians_of k A B S g t j0 j1.
Proof.
  intros k A B S g t (Eg & Et & H). destruct k.
  - exact (jac_compose3 A B S g t H Eg Et).
  - exact (jac_transform3 A B S g t H Eg Et).
  - exact (jac_untransform3 A B S g t H Eg Et).
  - exact (jac_compose4 A B S g t H Eg Et).
  - exact (jac_transform4 A B S g t H Eg Et).
  - exact (jac_untransform4 A B S g t H Eg Et).
Qed.
Theorem C98_jacobians_refuse : forall k g t, ~ (exists A B S, fits k A B S g t) -> jac_of k g t = None.
Proof.
  intros k g t N. assert (E : op_of k g t = None).
  { destruct (op_of k g t) as [r|] eqn:E; [|reflexivity]. exfalso. apply N. exact (returns_fits k g t r E). }
  destruct k; cbn [op_of jac_of] in *; unfold jcompose_so3, jtransform_so3, juntransform_so3, jcompose_se3, jtransform_se3, juntransform_se3; rewrite E; reflexivity.
Qed.

(** The hand-written backward functions are the gradients; for untransform of SE3 the points must not be broadcast. *)
Theorem C98_gradient : forall k A B S g t r, fits k A B S g t -> op_of k g t = Some r -> (k = Untransform4 -> numel S = numel B) ->
  gradient_of (op_of k) (bwd_of k) g t r.
Proof.
  intros k A B S g t r F E N. destruct (C98_values k A B S g t F) as (r' & E' & V). rewrite E in E'. injection E' as <-.
  apply (gradient_blocks k A B S g t r F V). intros grad Egr. destruct F as (Eg & Et & H). destruct k.
  - exact (grad_compose3 A B S g t H grad Eg Et Egr).
  - exact (grad_transform3 A B S g t H grad Eg Et Egr).
  - exact (grad_untransform3 A B S g t H grad Eg Et Egr).
  - exact (grad_compose4 A B S g t H grad Eg Et Egr).
  - exact (grad_transform4 A B S g t H grad Eg Et Egr).
  - exact (grad_untransform4 A B S g t H grad (N eq_refl) Eg Et Egr).
Qed.
(** With broadcast points the forward of SE3's untransform returns and its backward raises. *)
Theorem C98_untransform_gradient_refuted : forall A B S g t, fits Untransform4 A B S g t -> numel S <> numel B ->
  (exists r, op_of Untransform4 g t = Some r) /\ forall grad, sh grad = S ++ [3] -> bwd_of Untransform4 g t grad = None.
Proof.
  intros A B S g t F N. split; [apply C98_returns; eauto|]. destruct F as (Eg & Et & H). cbn [gdims tdims is_compose] in Eg, Et. intros grad Egr. cbn [bwd_of].
  unfold untransform_backward_se3. destruct (vec_lead _ _ _ Et) as (-> & _).
  destruct (unsqueeze_blocks t B 3 Et) as [V1 V2]. destruct (cols_from_blocks 3 g A 3 4 Eg) as [C1 C2]. cbn [Nat.sub] in C1. pose proof H as H'. rewrite bcast_sym in H'.
  destruct (zipw_blocks Rminus (unsqueeze t) (cols_from 3 g) B A S [3; 1] V1 C1 H') as (w & W1 & W2 & W3). rewrite W1. cbn [opt_bind].
  destruct (matmul (first_cols 3 g) (unsqueeze grad)); [|reflexivity]. cbn [opt_bind]. unfold view. rewrite W2, !numel_app. cbn [numel].
  destruct (Nat.eqb_spec (numel B * (3 * (1 * 1))) (numel S * (3 * (1 * 1)))); [lia|]. reflexivity.
Qed.

(** ** the methods of theseus, whose groups have one batch dimension *)
Definition sizes_pair (n m s : nat) : Prop := (m = n /\ s = n) \/ (m = 1 /\ s = n) \/ (n = 1 /\ s = m).
Lemma bcast_pair n m s : sizes_pair n m s -> bcast [n] [m] = Some [s].
Proof.
  unfold bcast, pad. cbn. intros [[-> ->]|[[-> ->]|[-> ->]]]; [rewrite Nat.eqb_refl; reflexivity| |].
  - destruct (Nat.eqb_spec n 1); [subst; reflexivity|]. reflexivity.
  - destruct m as [|[|m]]; reflexivity.
Qed.
(** SO3.rotate, SO3.unrotate, SE3.transform_from and SE3.transform_to of points of shape (m, 3) *)
Theorem C98_methods : forall n m s g p, sizes_pair n m s -> sh p = [m; 3] ->
  (sh g = [n; 3; 3] -> (exists r, rotate_th g p = Some r /\ holds_blocks Transform3 [n] [m] [s] g p r) /\
                       exists r, unrotate_th g p = Some r /\ holds_blocks Untransform3 [n] [m] [s] g p r) /\
  (sh g = [n; 3; 4] -> (exists r, transform_from_th g p = Some r /\ holds_blocks Transform4 [n] [m] [s] g p r) /\
                       exists r, transform_to_th g p = Some r /\ holds_blocks Untransform4 [n] [m] [s] g p r).
Proof.
  intros n m s g p Hs Ep. pose proof (bcast_pair _ _ _ Hs) as Hb.
  assert (C : (m =? n) || (m =? 1) || (n =? 1) = true).
  { destruct Hs as [[-> _]|[[-> _]|[-> _]]]; rewrite ?Nat.eqb_refl, ?orb_true_r; reflexivity. }
  split; intros Eg.
  - assert (R : rotate_shape_check g p = true) by (unfold rotate_shape_check, last_dim; rewrite Ep, Eg; cbn [length nth Nat.eqb Nat.sub orb andb negb]; exact C).
    unfold rotate_th, unrotate_th. rewrite R. split; [apply (C98_values Transform3)|apply (C98_values Untransform3)]; (split; [exact Eg|split; [exact Ep|exact Hb]]).
  - assert (R : transform_shape_check g p = true) by (unfold transform_shape_check; rewrite Ep, Eg; cbn [length nth Nat.eqb andb]; exact C).
    unfold transform_from_th, transform_to_th. rewrite R. split; [apply (C98_values Transform4)|apply (C98_values Untransform4)]; (split; [exact Eg|split; [exact Ep|exact Hb]]).
Qed.
(** Points of shape (m, 3, 1), which the shape check of SO3.rotate and SO3.unrotate accepts (and its message announces), always raise. *)
Theorem C98_rotate_column_refuted : forall n m s g p, sizes_pair n m s -> sh g = [n; 3; 3] -> sh p = [m; 3; 1] ->
  rotate_shape_check g p = true /\ rotate_th g p = None /\ unrotate_th g p = None.
Proof.
  intros n m s g p Hs Eg Ep.
  assert (C : (m =? n) || (m =? 1) || (n =? 1) = true).
  { destruct Hs as [[-> _]|[[-> _]|[-> _]]]; rewrite ?Nat.eqb_refl, ?orb_true_r; reflexivity. }
  assert (R : rotate_shape_check g p = true) by (unfold rotate_shape_check, last_dim; rewrite Ep, Eg; cbn [length nth Nat.eqb Nat.sub orb andb negb]; exact C).
  split; [exact R|]. unfold rotate_th, unrotate_th, transform_so3, untransform_so3. rewrite R.
  replace (check_transform p) with false; [rewrite andb_false_r; auto|]. unfold check_transform, last_dim. rewrite Ep. reflexivity.
Qed.
(** Points whose batch size differs from that of the group, neither being 1, and points of other shapes, are refused. *)
Theorem C98_methods_refuse : forall n c g p r, sh g = [n; 3; c] ->
  (rotate_th g p = Some r \/ unrotate_th g p = Some r \/ transform_from_th g p = Some r \/ transform_to_th g p = Some r) -> exists m s, sh p = [m; 3] /\ sizes_pair n m s.
Proof.
  intros n c g p r Eg E.
  assert (P : forall m, (m =? nth 0 (sh g) 0) || (m =? 1) || (nth 0 (sh g) 0 =? 1) = true -> exists s, sizes_pair n m s).
  { intros m. rewrite Eg. cbn [nth]. rewrite !orb_true_iff, !Nat.eqb_eq. unfold sizes_pair. intros [[H|H]|H]; [exists n|exists n|exists m]; lia. }
  assert (Q : check_transform p = true -> rotate_shape_check g p = true \/ transform_shape_check g p = true -> exists m s, sh p = [m; 3] /\ sizes_pair n m s).
  { unfold check_transform, rotate_shape_check, transform_shape_check, last_dim. rewrite !andb_true_iff. intros [C0 C1] C.
    assert (K : exists m x, sh p = [m; x]).
    { destruct (sh p) as [|m [|x [|y [|z l]]]]; cbn in C, C1; try (eexists; eexists; reflexivity); exfalso;
        rewrite ?orb_true_iff, ?Nat.eqb_eq in *; destruct C as [C|C]; decompose [and] C; try discriminate; intuition (discriminate || lia). }
    destruct K as (m & x & Ep). rewrite Ep in C, C1. cbn [length nth Nat.sub] in C, C1. apply Nat.eqb_eq in C1. subst x.
    destruct (P m) as [s Hs]; [destruct C as [C|C]; apply C|]. exists m, s. auto. }
  unfold rotate_th, unrotate_th, transform_from_th, transform_to_th in E.
  destruct E as [E|[E|[E|E]]].
  - destruct (rotate_shape_check g p) eqn:R; [|discriminate]. unfold transform_so3 in E. destruct (check_group_shape 3 g); [|discriminate]. destruct (check_transform p); [|discriminate]. auto.
  - destruct (rotate_shape_check g p) eqn:R; [|discriminate]. unfold untransform_so3 in E. destruct (check_group_shape 3 g); [|discriminate]. destruct (check_transform p); [|discriminate]. auto.
  - destruct (transform_shape_check g p) eqn:R; [|discriminate]. unfold transform_se3 in E. destruct (check_group_shape 4 g); [|discriminate]. destruct (check_transform p); [|discriminate]. auto.
  - destruct (transform_shape_check g p) eqn:R; [|discriminate]. unfold untransform_se3 in E. destruct (check_group_shape 4 g); [|discriminate]. destruct (check_transform p); [|discriminate]. auto.
Qed.

(** ** examples *)
(** a 2x1 batch of poses (a quarter turn about the z axis, translated) and 3 matrices or points: all six apply, to a 2x3 batch *)
Definition turn (x : list nat) : R := match skipn (length x - 2) x with
  | [0; 1] => (-1)%R | [1; 0] => 1%R | [2; 2] => 1%R | [0; 3] => 5%R | _ => 0%R end.
Lemma C98_example : forall k, let g := mkNd ([2; 1] ++ gdims k) turn in let t := mkNd ([3] ++ tdims k) turn in
  fits k [2; 1] [3] [2; 3] g t /\ is_rotation (block g [2; 1] [1; 2]) /\ (is_compose k = true -> is_rotation (block t [3] [1; 2])).
Proof.
  intros k g t. split; [split; [reflexivity|split; [reflexivity|reflexivity]]|].
  assert (K : forall x, is_rotation (fun z => turn (x ++ z))).
  { intros x. assert (E : forall i j, turn (x ++ [i; j]) = turn [i; j]).
    { intros i j. unfold turn. destruct (idx_split x i j) as (-> & _). rewrite (skipn_app_exact x [i; j]) by reflexivity. reflexivity. }
    split.
    - intros i j Hi Hj. cbn [rsum]. rewrite !E. destruct i as [|[|[|i]]]; [| | |lia]; (destruct j as [|[|[|j]]]; [| | |lia]); cbn; ring.
    - unfold ent. rewrite !E. cbn. ring. }
  split; [exact (K _)|intros _; exact (K _)].
Qed.
(** two poses and one point of shape (1, 3): SE3.transform_to works and cannot be differentiated *)
Lemma C98_untransform_example : let g := mkNd [2; 3; 4] turn in let p := mkNd [1; 3] (fun _ => 1%R) in
  (exists r, transform_to_th g p = Some r /\ sh r = [2; 3]) /\ forall grad, sh grad = [2; 3] -> untransform_backward_se3 g p grad = None.
Proof.
  intros g p. assert (Hs : sizes_pair 2 1 2) by (right; left; auto). split.
  - destruct (proj2 (C98_methods 2 1 2 g p Hs eq_refl) eq_refl) as [_ (r & R1 & R2 & _)]. exists r. auto.
  - intros grad E. apply (C98_untransform_gradient_refuted [2] [1] [2] g p); [|cbn; lia|exact E]. split; [reflexivity|split; [reflexivity|exact (bcast_pair _ _ _ Hs)]].
Qed.
