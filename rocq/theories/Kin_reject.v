(** C64: what every accepted robot satisfies, also when the description is not a tree. *)
From Coq Require Import List Arith Bool Lia.
Import ListNotations.
From Verif Require Import Geo_spec Geo3_spec SE2_model Kin_spec Kin_model.

Lemma bfs_inv u t : forall fuel q n n', n_dof n = length (n_joints n) -> (forall j i, n_jid n j = Some i -> i < n_dof n /\ joint_fixed u j = false) ->
  bfs fuel u t q n = Some n' ->
  n_dof n' = length (n_joints n') /\ (forall j i, n_jid n' j = Some i -> i < n_dof n' /\ joint_fixed u j = false).
Proof.
  induction fuel as [|f IH]; intros [|j q] n n' Hd HI E; cbn [bfs] in E; try discriminate; try (inversion E; subst; auto; fail).
  destruct (joint_fixed u j) eqn:F; [now apply (IH _ _ _ Hd HI) in E|].
  apply IH in E; trivial.
  - unfold number_joint, joint_dof. rewrite F. cbn. rewrite app_length, Hd. reflexivity.
  - unfold number_joint, joint_dof. rewrite F. cbn. intros j' i. unfold upd. destruct (Nat.eqb_spec j' j) as [->|_].
    + intro H. inversion H. rewrite Hd. split; [lia|exact F].
    + intro H. specialize (HI _ _ H). split; [lia|apply HI].
Qed.

Definition inv (u : Urdf) (d m : nat) (n : Num) : Prop :=
  n_dof n = d /\ d <= length (n_joints n) /\ (forall j i, n_jid n j = Some i -> (i < d <-> joint_fixed u j = false)) /\
  forall j, j < m -> n_jid n j <> None.
Lemma rest_inv u d n : inv u d 0 n -> forall m n', fold_left (number_rest u) (seq 0 m) (Some n) = Some n' -> inv u d m n'.
Proof.
  intros H0. induction m as [|m IH]; intros n' E; [inversion E; subst; exact H0|].
  rewrite seq_S, fold_left_app in E. cbn [fold_left Nat.add] in E.
  destruct (fold_left (number_rest u) (seq 0 m) (Some n)) as [n1|] eqn:E1; [|discriminate].
  destruct (IH n1 eq_refl) as (Hd & Hl & Hi & Hm). unfold number_rest in E. cbn [bind] in E.
  destruct (n_jid n1 m) as [i|] eqn:Em.
  - inversion E; subst. repeat split; trivial; try (now apply (Hi j i0)). intros j Hj. destruct (Nat.eq_dec j m) as [->|]; [congruence|apply Hm; lia].
  - destruct (joint_fixed u m) eqn:F; [|discriminate]. inversion E. unfold number_joint, joint_dof. rewrite F.
    split; [cbn; lia|]. cbn. rewrite app_length. cbn. split; [lia|]. split.
    + intros j i. unfold upd. destruct (Nat.eqb_spec j m) as [->|_]; [|apply Hi]. intro K. inversion K. rewrite F. split; [lia|discriminate].
    + intros j Hj. unfold upd. destruct (Nat.eqb_spec j m); [discriminate|]. apply Hm. lia.
Qed.
Lemma cache_num u : forall ls r r', fold_left (cache_link u) ls r = Some r' -> exists r0, r = Some r0 /\ r_num r' = r_num r0.
Proof.
  induction ls as [|l ls IH]; intros r r' E; cbn in E; [exists r'; auto|]. apply IH in E. destruct E as (r0 & E & ->).
  destruct r as [r|]; [|discriminate]. exists r. split; [reflexivity|]. unfold cache_link in E. cbn [bind] in E.
  destruct (t_pjoint (r_tree r) l); [|now inversion E]. destruct (n_jid (r_num r) n); [|discriminate]. cbn in E. now inversion E.
Qed.

(** Any description, tree or not: if it is accepted, every joint has an id, and the ids below dof are exactly those of the
    non-fixed joints.  In particular a description with a non-fixed joint that the search from the root does not reach is refused. *)
Theorem C64_accepted : forall u r, from_urdf u = Some r -> forall j uj, nth_error (u_joints u) j = Some uj ->
  exists i, n_jid (r_num r) j = Some i /\ (i < n_dof (r_num r) <-> fixed_joint uj = false).
Proof.
  intros u r E j uj Ej. unfold from_urdf in E. destruct (create_tree u) as [t0|]; [|discriminate]. cbn [bind] in E.
  destruct (simplify_tree u t0) as [t|]; [|discriminate]. cbn [bind] in E. destruct (build_tree u t) as [n|] eqn:En; [|discriminate]. cbn [bind] in E.
  apply cache_num in E. destruct E as (r0 & E & ->). inversion E; subst; clear E. cbn [r_num].
  unfold build_tree in En. destruct (get_root u) as [root|]; [|discriminate]. cbn [bind] in En.
  destruct (bfs _ u t _ _) as [n1|] eqn:Eb; [|discriminate]. cbn [bind] in En.
  apply bfs_inv in Eb; [|reflexivity|cbn; intros; discriminate]. destruct Eb as [Hd Hi].
  assert (I0 : inv u (n_dof n1) 0 n1).
  { split; [reflexivity|]. split; [lia|]. split; [|intros; lia]. intros j0 i0 H. destruct (Hi _ _ H). tauto. }
  destruct (rest_inv u _ _ I0 _ _ En) as (Kd & _ & Ki & Km).
  assert (Lj : j < length (u_joints u)) by (apply nth_error_Some; congruence).
  destruct (n_jid n j) as [i|] eqn:Ji; [|now apply Km in Lj]. exists i. split; [reflexivity|]. rewrite Kd, (Ki _ _ Ji). unfold joint_fixed. rewrite Ej. reflexivity.
Qed.

(** two links in a circle of revolute joints beside the root *)
Example C64_rejected_example : from_urdf (mkUrdf 3 [mkUJ 1 2 Revolute zero3 None None; mkUJ 2 1 Revolute zero3 None None]) = None.
Proof. reflexivity. Qed.
