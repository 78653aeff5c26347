(** C88: numeric_jacobian and the Jacobians that between() reports. *)
From Coq Require Import Reals List Arith Bool ZArith Lra Lia Eqdep_dec.
From Verif Require Import Geo_spec Geo3_spec Geo4_spec RSum SE2_model SO3_model SE3_model Emb_model Emb_spec Emb_laws Nd_model Nd_spec Nd_props Nd_jac Nd_limit.
Import ListNotations.
Local Open Scope R_scope.

Lemma as_class_same : forall c v, as_class c (mkGA c v) = Some v.
Proof.
  intros c v. unfold as_class. cbn [ga_cls]. destruct (gclass_eq_dec c c) as [E|N]; [|congruence].
  cbn [ga_val]. now rewrite <- (eq_rect_eq_dec gclass_eq_dec).
Qed.
Lemma between_fn_one : forall c x y, between_fn c [mkGA c [x]; mkGA c [y]] = Some [between x y].
Proof. intros c x y. unfold between_fn. rewrite !as_class_same. reflexivity. Qed.

Lemma fold_total : forall o f args k a h B r n s j, j_b j = B -> j_r j = r ->
  (forall d j, (s <= d < s + n)%nat -> j_b j = B -> j_r j = r -> exists j', nj_step o f args k a h (Some j) d = Some j' /\ j_b j' = B /\ j_r j' = r) ->
  exists j', fold_left (nj_step o f args k a h) (seq s n) (Some j) = Some j'.
Proof.
  intros o f args k a h B r n. induction n as [|n IH]; intros s j HB HR H; cbn [seq fold_left]; [eauto|].
  destruct (H s j ltac:(lia) HB HR) as (j' & E & B' & R'). rewrite E. apply IH; [exact B'|exact R'|].
  intros d j0 Hd. apply H. lia.
Qed.
Lemma min_all : forall (P : nat -> R -> Prop) n, (forall d r r', 0 < r' <= r -> P d r -> P d r') ->
  (forall d, (d < n)%nat -> exists r, 0 < r /\ P d r) -> exists r, 0 < r /\ forall d, (d < n)%nat -> P d r.
Proof.
  intros P n M. induction n as [|n IH]; intro H; [exists 1; split; [lra|intros; lia]|].
  destruct IH as (r & Hr & Q); [intros d Hd; apply H; lia|]. destruct (H n ltac:(lia)) as (r' & Hr' & Q').
  exists (Rmin r r'). pose proof (Rmin_l r r'). pose proof (Rmin_r r r'). assert (0 < Rmin r r') by (apply Rmin_pos; assumption).
  split; [assumption|]. intros d Hd. destruct (Nat.eq_dec d n) as [->|N]; [apply (M n r'); [lra|exact Q']|apply (M d r); [lra|apply Q; lia]].
Qed.

(** one step of the loop on batches of one element *)
Lemma step_one : forall o (f : list garg -> option (list (elt (ng o)))) args k c z h j d zp zm om op u,
  (d < ng_dof (ng_of c))%nat ->
  ng_retract (ng_of c) z (ng_vec (ng_of c) (axis (ng_dof (ng_of c)) d h)) = Some zp ->
  ng_retract (ng_of c) z (ng_vec (ng_of c) (axis (ng_dof (ng_of c)) d (- h))) = Some zm ->
  f (set_nth args k (mkGA c [zm])) = Some [om] -> f (set_nth args k (mkGA c [zp])) = Some [op] -> local om op = Some u ->
  j_b j = 1%nat -> j_r j = ng_dof o ->
  exists j', nj_step o f args k (mkGA c [z]) h (Some j) d = Some j' /\ j_b j' = 1%nat /\ j_r j' = ng_dof o.
Proof.
  intros o f args k c z h j d zp zm om op u Hd Ep Em Fm Fp L B R0. unfold nj_step. cbn [bind]. cbv zeta. unfold ga_ng. cbn [ga_cls].
  rewrite delta_axis by exact Hd. rewrite neg_axis.
  assert (X : forall v w, ng_retract (ng_of c) z (ng_vec (ng_of c) v) = Some w -> ga_retract (mkGA c [z]) v = Some (mkGA c [w])).
  { intros v w E. unfold ga_retract. cbn [ga_val ga_cls mapM]. unfold ga_ng. cbn [ga_cls]. rewrite E. reflexivity. }
  rewrite (X _ _ Ep), (X _ _ Em). cbn [bind]. rewrite Fm, Fp. cbn [bind]. unfold ng_local. cbn [bzip length Nat.eqb combine bind mapM fst snd].
  rewrite L. cbn [bind map]. unfold set_column. cbn [length]. rewrite B, R0, !Nat.eqb_refl. cbn [orb andb].
  eexists. split; [reflexivity|]. cbn. auto.
Qed.

Section Between.
Context (c : gclass) (C : Calculus (ng (ng_of c))) (T : theseus_ng (ng_of c) C).
Context (x y : elt (ng (ng_of c))) (Vx : is_elt C x) (Vy : is_elt C y).
Let o := ng_of c.
Let N := ng_laws _ _ T.
Let L := group_laws _ _ (n_group _ _ N).
Let rt (z : elt (ng o)) (d : nat) (t : R) : elt (ng o) :=
  match ng_retract o z (ng_vec o (axis (ng_dof o) d t)) with Some z' => z' | None => z end.
Lemma rt_ok : forall z d t, is_elt C z -> ng_retract o z (ng_vec o (axis (ng_dof o) d t)) = Some (rt z d t) /\ is_elt C (rt z d t).
Proof. intros z d t V. unfold rt. destruct (n_total _ _ N z (ng_vec o (axis (ng_dof o) d t)) V) as (z' & E & V'). unfold o in *. rewrite E. auto. Qed.
Lemma rt_curve : forall z d, is_elt C z -> (d < ng_dof o)%nat -> curve C 1 (rt z d) z (ng_vec o (axis (ng_dof o) d 1)).
Proof. intros z d V Hd. apply (n_retract _ _ N z d (rt z d) V Hd). intro t. apply rt_ok. exact V. Qed.
Lemma curve0 : forall d, (d < ng_dof o)%nat -> curve C 1 (fun t => between (rt x d t) y) (between x y) (japp C (fst (between_jac x y)) (ng_vec o (axis (ng_dof o) d 1))).
Proof.
  intros d Hd. destruct (rt_curve x d Vx Hd) as [P V]. split.
  - eapply (l_passes _ _ L); [apply (n_zero _ _ N _ (ng_vec o (axis (ng_dof o) d 1)))|].
    apply (l_moves _ _ L x y (rt x d) (fun _ => y) _ _ Vx Vy P). apply (n_const _ _ N).
  - intros t Ht. apply (l_between _ _ L); [apply V; exact Ht|exact Vy].
Qed.
Lemma curve1 : forall d, (d < ng_dof o)%nat -> curve C 1 (fun t => between x (rt y d t)) (between x y) (japp C (snd (between_jac x y)) (ng_vec o (axis (ng_dof o) d 1))).
Proof.
  intros d Hd. destruct (rt_curve y d Vy Hd) as [P V]. split.
  - eapply (l_passes _ _ L); [apply (l_sym _ _ L), (l_snd _ _ L)|]. apply (l_moves_r _ _ L x y (rt y d) _ Vx Vy P).
  - intros t Ht. apply (l_between _ _ L); [exact Vx|apply V; exact Ht].
Qed.
Let args := [mkGA c [x]; mkGA c [y]].
Lemma returns : exists r, 0 < r /\ forall h, 0 < h < r -> exists j0 j1, numeric_jacobian o (between_fn c) args None h = Some [j0; j1].
Proof.
  destruct (min_all (fun d r => forall t, Rabs t < r -> exists u, local (between (rt x d (- t)) y) (between (rt x d t) y) = Some u) (ng_dof o)) as (r0 & P0 & Q0).
  { intros d r r' Hr H t Ht. apply H. lra. }
  { intros d Hd. destruct (local_near _ C T 1 _ _ _ Rlt_0_1 (curve0 d Hd)) as (r & Hr & H). exists r. split; [lra|exact H]. }
  destruct (min_all (fun d r => forall t, Rabs t < r -> exists u, local (between x (rt y d (- t))) (between x (rt y d t)) = Some u) (ng_dof o)) as (r1 & P1 & Q1).
  { intros d r r' Hr H t Ht. apply H. lra. }
  { intros d Hd. destruct (local_near _ C T 1 _ _ _ Rlt_0_1 (curve1 d Hd)) as (r & Hr & H). exists r. split; [lra|exact H]. }
  exists (Rmin r0 r1). split; [apply Rmin_pos; assumption|]. intros h Hh. pose proof (Rmin_l r0 r1). pose proof (Rmin_r r0 r1).
  assert (AH : Rabs h = h) by (apply Rabs_right; lra).
  unfold numeric_jacobian, args. cbn [max_batch map ga_val length list_max fold_right Nat.max bind seq mapM].
  assert (C0 : exists j0, nj_compute o (between_fn c) [mkGA c [x]; mkGA c [y]] 1 None h 0 = Some j0).
  { unfold nj_compute. cbn [nth_error bind]. cbv zeta. apply (fold_total _ _ _ _ _ _ 1 (ng_dof o)); [reflexivity|reflexivity|].
    intros d j Hd B R0. destruct (Q0 d ltac:(unfold ga_ng in Hd; cbn [ga_cls] in Hd; unfold o; lia) h ltac:(lra)) as (u & LU).
    eapply step_one; [unfold ga_ng in Hd; cbn [ga_cls] in Hd; lia|apply (rt_ok x d h Vx)|apply (rt_ok x d (- h) Vx)| | |exact LU|exact B|exact R0];
      cbn [set_nth]; apply between_fn_one. }
  assert (C1 : exists j1, nj_compute o (between_fn c) [mkGA c [x]; mkGA c [y]] 1 None h 1 = Some j1).
  { unfold nj_compute. cbn [nth_error bind]. cbv zeta. apply (fold_total _ _ _ _ _ _ 1 (ng_dof o)); [reflexivity|reflexivity|].
    intros d j Hd B R0. destruct (Q1 d ltac:(unfold ga_ng in Hd; cbn [ga_cls] in Hd; unfold o; lia) h ltac:(lra)) as (u & LU).
    eapply step_one; [unfold ga_ng in Hd; cbn [ga_cls] in Hd; lia|apply (rt_ok y d h Vy)|apply (rt_ok y d (- h) Vy)| | |exact LU|exact B|exact R0];
      cbn [set_nth]; apply between_fn_one. }
  destruct C0 as (j0 & E0), C1 as (j1 & E1). exists j0, j1. rewrite E0. cbn [bind]. rewrite E1. reflexivity.
Qed.
Lemma moved0 : forall d t args', moved args 0 d t args' -> args' = [mkGA c [rt x d t]; mkGA c [y]].
Proof.
  intros d t args' (Len & Oth & a & v & N0 & N1 & F). cbn in N0. injection N0 as <-. cbn in Len.
  destruct args' as [|a0 [|a1 [|? ?]]]; try discriminate. cbn in N1. injection N1 as ->.
  pose proof (Oth 1%nat ltac:(lia)) as O1. cbn in O1. injection O1 as ->. f_equal.
  unfold ga_ng in F. cbn [ga_cls ga_val] in *. inversion F as [|? z ? l E F' EQ1 EQ2]; subst. inversion F'; subst.
  fold o in E. rewrite (proj1 (rt_ok x d t Vx)) in E. injection E as <-. reflexivity.
Qed.
Lemma moved1 : forall d t args', moved args 1 d t args' -> args' = [mkGA c [x]; mkGA c [rt y d t]].
Proof.
  intros d t args' (Len & Oth & a & v & N0 & N1 & F). cbn in N0. injection N0 as <-. cbn in Len.
  destruct args' as [|a0 [|a1 [|? ?]]]; try discriminate. cbn in N1. injection N1 as ->.
  pose proof (Oth 0%nat ltac:(lia)) as O1. cbn in O1. injection O1 as ->. f_equal. f_equal.
  unfold ga_ng in F. cbn [ga_cls ga_val] in *. inversion F as [|? z ? l E F' EQ1 EQ2]; subst. inversion F'; subst.
  fold o in E. rewrite (proj1 (rt_ok y d t Vy)) in E. injection E as <-. reflexivity.
Qed.
Lemma between_limits : forall d i, (d < ng_dof o)%nat -> (i < ng_dof o)%nat ->
  exists r q0 q1, 0 < r /\
    (forall h, 0 < h < r -> exists j0 j1, numeric_jacobian o (between_fn c) args None h = Some [j0; j1] /\
       q0 h = j_at j0 0%nat i d /\ q1 h = j_at j1 0%nat i d) /\
    tends_to q0 (ng_coord o (japp C (fst (between_jac x y)) (ng_vec o (axis (ng_dof o) d 1))) i) /\
    tends_to q1 (ng_coord o (japp C (snd (between_jac x y)) (ng_vec o (axis (ng_dof o) d 1))) i).
Proof.
  intros d i Hd Hi. destruct returns as (r & Hr & RT).
  exists (Rmin r 1), (fun h => match numeric_jacobian o (between_fn c) args None h with Some [j0; _] => j_at j0 0%nat i d | _ => 0 end),
    (fun h => match numeric_jacobian o (between_fn c) args None h with Some [_; j1] => j_at j1 0%nat i d | _ => 0 end).
  assert (RP : 0 < Rmin r 1) by (apply Rmin_pos; lra). pose proof (Rmin_l r 1) as ML. pose proof (Rmin_r r 1) as MR.
  split; [exact RP|]. split; [|split].
  - intros h Hh. destruct (RT h ltac:(lra)) as (j0 & j1 & E). exists j0, j1. rewrite E. auto.
  - refine (C88_jacobian_limit o C (between_fn c) args None 0 (mkGA c [x]) d 0 i (Rmin r 1) (fun t => between (rt x d t) y) (between x y) _ _ T RP eq_refl Hd _ eq_refl Hi _ _ _).
    + exists (mkGA c [x]). split; [now left|cbn; lia].
    + intros t args' out Ht M E. rewrite (moved0 d t args' M), between_fn_one in E. injection E as <-. reflexivity.
    + destruct (curve0 d Hd) as [P V]. split; [exact P|]. intros t Ht. apply V. lra.
    + intros h Hh. destruct (RT h ltac:(lra)) as (j0 & j1 & E). exists [j0; j1], j0. rewrite E. auto.
  - refine (C88_jacobian_limit o C (between_fn c) args None 1 (mkGA c [y]) d 0 i (Rmin r 1) (fun t => between x (rt y d t)) (between x y) _ _ T RP eq_refl Hd _ eq_refl Hi _ _ _).
    + exists (mkGA c [x]). split; [now left|cbn; lia].
    + intros t args' out Ht M E. rewrite (moved1 d t args' M), between_fn_one in E. injection E as <-. reflexivity.
    + destruct (curve1 d Hd) as [P V]. split; [exact P|]. intros t Ht. apply V. lra.
    + intros h Hh. destruct (RT h ltac:(lra)) as (j0 & j1 & E). exists [j0; j1], j1. rewrite E. auto.
Qed.
End Between.

(** For every LieGroup class: the numeric Jacobians of between() exist for every small enough step
    and tend to the Jacobians that between() reports. *)
Theorem C88_jacobian_of_between : forall c (C : Calculus (ng (ng_of c))) x y d i,
  theseus_ng (ng_of c) C -> is_elt C x -> is_elt C y -> (d < ng_dof (ng_of c))%nat -> (i < ng_dof (ng_of c))%nat ->
  exists r q0 q1, 0 < r /\
    (forall h, 0 < h < r -> exists j0 j1,
       numeric_jacobian (ng_of c) (between_fn c) [mkGA c [x]; mkGA c [y]] None h = Some [j0; j1] /\
       q0 h = j_at j0 0%nat i d /\ q1 h = j_at j1 0%nat i d) /\
    tends_to q0 (ng_coord (ng_of c) (japp C (fst (between_jac x y)) (ng_vec (ng_of c) (axis (ng_dof (ng_of c)) d 1))) i) /\
    tends_to q1 (ng_coord (ng_of c) (japp C (snd (between_jac x y)) (ng_vec (ng_of c) (axis (ng_dof (ng_of c)) d 1))) i).
Proof. intros c C x y d i T Vx Vy Hd Hi. exact (between_limits c C T x y Vx Vy d i Hd Hi). Qed.

(** The hypotheses are met: SE3, any two rigid motions. *)
Example C88_example_se3 : exists C x y, theseus_ng (ng_of (KSE3 F64)) C /\ is_elt C x /\ is_elt C y /\ x <> y.
Proof.
  exists (se3_calculus F64), (mkRig I3 zero3), (mkRig I3 (mkV3 1 2 3)). split; [constructor|]. split; [apply Mg_laws3.I3_rot|]. split; [apply Mg_laws3.I3_rot|].
  intro E. injection E as E _ _. lra.
Qed.
(** A function of one 2-vector with values in a Vector of 1 component, and no function_dim: 2 equal rows. *)
Definition sum_fn (args : list garg) : option (list (elt (ng (vector_ng 1)))) :=
  match args with
  | [a] => match as_class (KVector 2) a with Some l => Some (map (fun v => fun _ : nat => v 0%nat + v 1%nat) l) | None => None end
  | _ => None
  end.
Example C88_example_rows : exists j, numeric_jacobian (vector_ng 1) sum_fn [mkGA (KVector 2) [fun _ => 5]] None 1 = Some [j] /\
  j_b j = 1%nat /\ j_r j = 2%nat /\ j_c j = 2%nat /\ j_at j 0 0 0 = 1 /\ j_at j 0 1 0 = 1.
Proof. eexists. split; [reflexivity|]. cbn. repeat split; field. Qed.
(** numeric_grad on a float and an integer array. *)
Example C88_example_grad : forall dt, exists g, numeric_grad (fun x => nth 0 (nd_data x) 0 * nth 1 (nd_data x) 0) (1/2) (mkNd dt [2%nat] [3; 4]) = Some g /\
  match dt with NpFloat => nd_data g = [4; 3] | NpInt => nth 0 (nd_data g) 7 = 0 end.
Proof.
  intro dt. destruct dt.
  - eexists. split; [reflexivity|]. cbn. f_equal; [field|]. f_equal. field.
  - destruct (C88_grad_integers_refuted (fun x => nth 0 (nd_data x) 0 * nth 1 (nd_data x) 0) (1/2) (mkNd NpInt [2%nat] [3; 4]) 2 eq_refl eq_refl eq_refl) as (g & E & Lg & Z).
    + rewrite Rabs_right; lra.
    + exists g. split; [exact E|]. rewrite (nth_indep _ 7 0) by (rewrite Lg; lia). apply Z.
Qed.
