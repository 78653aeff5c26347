(** Forward kinematics of torchkin: the loops of forward_kinematics.py over a
    robot built by from_urdf. *)
From Coq Require Import Reals List Arith Bool Lia Sorted.
Import ListNotations.
From Verif Require Import Geo_spec Geo3_spec Geo4_spec SE2_model SO3_model SE3_model Kin_spec Kin_model Kin_tree Kin_num.
Local Open Scope nat_scope.

(** ** lists *)
Lemma opt_all_map {A B} (f : A -> option B) (g : A -> B) l : (forall x, In x l -> f x = Some (g x)) -> opt_all (map f l) = Some (map g l).
Proof.
  induction l as [|x l IH]; intros H; [reflexivity|]. cbn [map opt_all]. rewrite (H x (or_introl eq_refl)).
  rewrite IH by (intros y I; apply H; right; exact I). reflexivity.
Qed.
Lemma sorted_seq : forall n a, StronglySorted lt (seq a n).
Proof.
  induction n as [|n IH]; intros a; [constructor|]. cbn. constructor; [apply IH|]. apply Forall_forall. intros x I. apply in_seq in I. lia.
Qed.
Lemma sorted_filter f l : StronglySorted lt l -> StronglySorted lt (filter f l).
Proof.
  induction 1 as [|x l S IH F]; [constructor|]. cbn. destruct (f x); [|exact IH]. constructor; [exact IH|].
  apply Forall_forall. intros y I. apply filter_In in I. rewrite Forall_forall in F. apply F. tauto.
Qed.
Lemma sorted_set_In x l : In x (sorted_set l) <-> In x l.
Proof.
  unfold sorted_set. rewrite filter_In, existsb_In, in_seq. split; [tauto|]. intros I. split; [|exact I]. split; [lia|].
  assert (H : Forall (fun k => k <= list_max l) l) by (apply list_max_le; lia). rewrite Forall_forall in H. specialize (H x I). lia.
Qed.
Lemma sorted_set_sorted l : StronglySorted lt (sorted_set l).
Proof. apply sorted_filter, sorted_seq. Qed.
Lemma sorted_nodup l : StronglySorted lt l -> NoDup l.
Proof.
  induction 1 as [|x l S IH F]; [constructor|]. constructor; [|exact IH]. intros I. rewrite Forall_forall in F. specialize (F x I). lia.
Qed.
(** a sorted list that contains 0 starts with it *)
Lemma sorted_head l : StronglySorted lt l -> In 0 l -> exists r, l = 0 :: r /\ StronglySorted lt r /\ forall x, In x r -> 1 <= x.
Proof.
  intros S I. destruct S as [|x r S F]; [destruct I|]. rewrite Forall_forall in F. destruct I as [->|I].
  - exists r. split; [reflexivity|]. split; [exact S|]. intros x I. specialize (F x I). lia.
  - specialize (F 0 I). lia.
Qed.

Section K.
Variable u : Urdf.
Variable root : nat.
Variable depth : nat -> nat.
Hypothesis WF : tree_of u root depth.
Notation nj := (length (u_joints u)).
Notation child := (joint_child u).

(** ** the poses of the links for given motions of the joints *)
Definition ujn (j : nat) : UJoint := nth j (u_joints u) (mkUJ 0 0 Fixed zero3 None None).
Definition org (j : nat) : Rig := get_origin (uj_xyz (ujn j)) (uj_rpy (ujn j)).
Fixpoint pfun (fuel : nat) (m : nat -> Rig) (l : nat) : Rig :=
  if Nat.eqb l root then mkRig I3 zero3 else
  match fuel with
  | O => mkRig I3 zero3
  | S f => match find (fun j => Nat.eqb (child j) l) (seq 0 nj) with
           | Some j => se3_compose (se3_compose (pfun f m (uj_parent (ujn j))) (org j)) (m j)
           | None => mkRig I3 zero3
           end
  end.
Definition posef (m : nat -> Rig) (l : nat) : Rig := pfun (depth l) m l.

Lemma ujn_ok j : j < nj -> nth_error (u_joints u) j = Some (ujn j) /\ uj_child (ujn j) = child j /\ fixed_joint (ujn j) = joint_fixed u j
  /\ uj_parent (ujn j) < u_nlinks u /\ depth (uj_parent (ujn j)) < depth (child j).
Proof.
  intros H. destruct (nth_joint u j H) as (uj & E & I & Ec & Ef). unfold ujn. rewrite (nth_error_nth _ _ _ E).
  destruct WF as (_ & _ & _ & W). destruct (W uj I) as (A & B & C). rewrite Ec. auto.
Qed.
Lemma find_child j : j < nj -> find (fun k => Nat.eqb (child k) (child j)) (seq 0 nj) = Some j.
Proof.
  intros H. destruct (find _ _) as [k|] eqn:E.
  - apply find_some in E. destruct E as (I & E). apply in_seq in I. apply Nat.eqb_eq in E. f_equal. apply (child_inj u root depth WF); [lia|exact H|exact E].
  - apply find_none with (x := j) in E; [|apply in_seq; lia]. rewrite Nat.eqb_refl in E. discriminate.
Qed.
Lemma pfun_stable m : forall f1 f2 l, l < u_nlinks u -> depth l <= f1 -> depth l <= f2 -> pfun f1 m l = pfun f2 m l.
Proof.
  induction f1 as [|f1 IH]; intros f2 l Ll H1 H2; destruct (Nat.eq_dec l root) as [->|N].
  - destruct f2; cbn [pfun]; rewrite Nat.eqb_refl; reflexivity.
  - exfalso. destruct (child_exists u root depth WF l Ll N) as (j & Lj & <-). pose proof (ujn_ok j Lj). lia.
  - destruct f2; cbn [pfun]; rewrite Nat.eqb_refl; reflexivity.
  - destruct (child_exists u root depth WF l Ll N) as (j & Lj & <-). destruct (ujn_ok j Lj) as (_ & _ & _ & Lp & D).
    destruct f2 as [|f2]; [lia|]. cbn [pfun]. rewrite (proj2 (Nat.eqb_neq _ _) N), (find_child j Lj). rewrite (IH f2 (uj_parent (ujn j)) Lp) by lia. reflexivity.
Qed.
Lemma posef_root m : posef m root = mkRig I3 zero3.
Proof. unfold posef. destruct (depth root); cbn [pfun]; rewrite Nat.eqb_refl; reflexivity. Qed.
Lemma posef_child m j : j < nj -> posef m (child j) = se3_compose (se3_compose (posef m (uj_parent (ujn j))) (org j)) (m j).
Proof.
  intros Lj. destruct (ujn_ok j Lj) as (_ & _ & _ & Lp & D). unfold posef at 1. destruct (depth (child j)) as [|f] eqn:E; [lia|].
  cbn [pfun]. pose proof (child_not_root u root depth WF j Lj) as N. apply Nat.eqb_neq in N. rewrite N, (find_child j Lj).
  rewrite (pfun_stable m f (depth (uj_parent (ujn j)))) by lia. reflexivity.
Qed.

(** ** a robot *)
Definition robot_of (r : Robot) := exists V F,
  tree_ok u root depth (r_tree r)
  /\ (forall P, (forall f, f < nj -> joint_fixed u f = true -> P (child f) = se3_compose (P (uj_parent (ujn f))) (org f)) -> fits u P (r_tree r))
  /\ NoDup (V ++ F) /\ (forall j, In j (V ++ F) <-> j < nj)
  /\ (forall j, In j V -> joint_fixed u j = false) /\ (forall j, In j F -> joint_fixed u j = true)
  /\ ordered u root (r_tree r) (V ++ F) /\ num_ok u root (r_num r) (V ++ F) /\ n_dof (r_num r) = length V
  /\ forall l, l < u_nlinks u -> exists a c, chain u root (r_tree r) l a c /\ r_anc r l = a
       /\ (forall i, In i (r_ancj r l) <-> exists j, In j c /\ n_jid (r_num r) j = Some i).

Lemma from_urdf_ok : exists r, from_urdf u = Some r /\ robot_of r.
Proof.
  unfold from_urdf. destruct (create_tree_ok u root depth WF) as (t & E & OK & HF). rewrite E. cbn [bind].
  assert (HP : forall P, (forall f, f < nj -> joint_fixed u f = true -> P (child f) = se3_compose (P (uj_parent (ujn f))) (org f)) ->
    forall f, f < nj -> joint_fixed u f = true -> forall t, fits u P t -> P (child f) = se3_compose (P (t_jparent t f)) (t_origin t f)).
  { intros P H f Lf Ff t0 Ht. rewrite (H f Lf Ff). apply (Ht f Lf). }
  pose (P0 := posef (fun _ => mkRig I3 zero3)).
  assert (HP0 : forall f, f < nj -> joint_fixed u f = true -> P0 (child f) = se3_compose (P0 (uj_parent (ujn f))) (org f)).
  { intros f Lf _. unfold P0. rewrite posef_child by exact Lf. destruct (se3_compose _ (org f)) as [[] []]. apply Rig_ext; [apply M3_ext|apply V3_ext]; cbn; ring. }
  destruct (simplify_tree_ok u root depth P0 (HP P0 HP0) t OK (HF P0)) as (t' & E' & OK' & _ & FL).
  rewrite E'. cbn [bind].
  destruct (build_tree_ok u root depth WF t' OK' FL) as (V & F & n & En & ND & HI & HV & HFx & HO & HN & Hd).
  rewrite En. cbn [bind].
  destruct (cache_ok u root depth WF t' OK' n V F ND HI HO HN) as (r & Er & Et & Enr & Hc).
  exists r. split; [exact Er|]. exists V, F. rewrite Et, Enr.
  split; [exact OK'|]. split; [|auto 10].
  intros P H. destruct (simplify_tree_ok u root depth P (HP P H) t OK (HF P)) as (t2 & E2 & _ & F2 & _).
  assert (t2 = t') by congruence. subst t2. exact F2.
Qed.

Section R.
Variable r : Robot.
Hypothesis HR : robot_of r.
Notation t := (r_tree r).
Notation n := (r_num r).

Lemma robot_tree_ok : tree_ok u root depth t.
Proof. destruct HR as (V & F & H). tauto. Qed.

(** ids *)
Definition lidf (l : nat) : nat := match n_lid n l with Some i => i | None => 0 end.
Definition jidf (j : nat) : nat := match n_jid n j with Some i => i | None => 0 end.
Definition linkf (i : nat) : nat := nth i (n_links n) 0.

Lemma joint_facts j : j < nj -> n_jid n j = Some (jidf j) /\ n_lid n (child j) = Some (S (jidf j)) /\ nth_error (n_links n) (S (jidf j)) = Some (child j)
  /\ (jidf j < n_dof n <-> joint_fixed u j = false) /\ nth_error (n_joints n) (jidf j) = Some j
  /\ exists p, n_lid n (t_jparent t j) = Some p /\ p <= jidf j.
Proof.
  intros Lj. destruct HR as (V & F & OK & _ & ND & HI & HV & HF & HO & (A & B & C & D & E) & Hd & _).
  pose proof (proj2 (HI j) Lj) as Ij. apply In_nth_error in Ij. destruct Ij as (i & Ei). destruct (C i j Ei) as (J1 & J2).
  unfold jidf. rewrite J1. split; [reflexivity|]. split; [exact J2|]. split.
  { rewrite B. cbn [nth_error]. rewrite nth_error_map, Ei. reflexivity. }
  split; [|split; [rewrite A; exact Ei|]].
  - rewrite Hd. destruct (Nat.lt_ge_cases i (length V)) as [L|L].
    + rewrite nth_error_app1 in Ei by exact L. apply nth_error_In, HV in Ei. tauto.
    + rewrite nth_error_app2 in Ei by exact L. apply nth_error_In, HF in Ei. rewrite Ei. split; [lia|discriminate].
  - destruct (HO i j Ei) as [Q|Q]; [exists 0; rewrite <- Q; split; [exact E|lia]|].
    apply in_map_iff in Q. destruct Q as (k & Q & Ik). apply In_nth_error in Ik. destruct Ik as (m & Em).
    assert (Lm : m < i) by (assert (Z : nth_error (firstn i (V ++ F)) m <> None) by congruence; apply nth_error_Some in Z; rewrite firstn_length in Z; lia).
    assert (Em2 : nth_error (V ++ F) m = Some k).
    { rewrite <- (firstn_skipn i (V ++ F)). rewrite nth_error_app1; [exact Em|]. apply nth_error_Some. congruence. }
    exists (S m). split; [rewrite <- Q; apply (C m k Em2)|lia].
Qed.
Lemma root_lid : n_lid n root = Some 0 /\ nth_error (n_links n) 0 = Some root.
Proof. destruct HR as (V & F & _ & _ & _ & _ & _ & _ & _ & (A & B & C & D & E) & _). split; [exact E|]. rewrite B. reflexivity. Qed.
Lemma link_facts l : l < u_nlinks u -> n_lid n l = Some (lidf l) /\ nth_error (n_links n) (lidf l) = Some l /\ linkf (lidf l) = l.
Proof.
  intros Ll. assert (H : exists i, n_lid n l = Some i /\ nth_error (n_links n) i = Some l).
  { destruct (Nat.eq_dec l root) as [->|N]; [exists 0; apply root_lid|].
    destruct (child_exists u root depth WF l Ll N) as (j & Lj & <-). destruct (joint_facts j Lj) as (_ & A & B & _). eauto. }
  destruct H as (i & E1 & E2). unfold lidf, linkf. rewrite E1. split; [reflexivity|]. split; [exact E2|]. apply nth_error_nth. exact E2.
Qed.
Lemma jid_inj i j : i < nj -> j < nj -> jidf i = jidf j -> i = j.
Proof. intros Hi Hj E. destruct (joint_facts i Hi) as (_ & _ & _ & _ & A & _), (joint_facts j Hj) as (_ & _ & _ & _ & B & _). congruence. Qed.
Lemma jid_surj c : c < n_dof n -> exists j, j < nj /\ jidf j = c /\ joint_fixed u j = false.
Proof.
  intros H. destruct HR as (V & F & OK & _ & ND & HI & HV & HF & HO & (A & B & C & D & E) & Hd & _).
  rewrite Hd in H. destruct (nth_error V c) as [j|] eqn:Ej; [|apply nth_error_None in Ej; lia].
  exists j. assert (Ij : In j V) by (eapply nth_error_In; exact Ej). assert (Lj : j < nj) by (apply HI; apply in_or_app; left; exact Ij).
  split; [exact Lj|]. split; [|apply HV; exact Ij].
  assert (E2 : nth_error (V ++ F) c = Some j) by (rewrite nth_error_app1; [exact Ej|lia]).
  unfold jidf. rewrite (proj1 (C c j E2)). reflexivity.
Qed.

(** chains *)
Lemma chain_range l a c : l < u_nlinks u -> chain u root t l a c ->
  (forall x, In x a -> x < u_nlinks u) /\ In root (a ++ [l])
  /\ (forall x, In x (a ++ [l]) -> x <> root -> exists j, j < nj /\ x = child j /\ In (t_jparent t j) a)
  /\ (forall j, In j c -> j < nj /\ joint_fixed u j = false /\ depth (child j) <= depth l /\ In (child j) (a ++ [l])) /\ NoDup c.
Proof.
  intros Ll H. destruct robot_tree_ok as (OC & ON & OD & _). induction H as [|j a c Lj H IH].
  - split; [intros x []|]. split; [left; reflexivity|]. split; [intros x [Q|[]]; congruence|]. split; [intros j []|constructor].
  - destruct (OD j Lj) as (Lp & Dp). destruct (IH Lp) as (I1 & I2 & I3 & I4 & I5). split; [|split; [|split]].
    + intros x Ix. apply in_app_iff in Ix. destruct Ix as [Ix|[<-|[]]]; [apply I1; exact Ix|exact Lp].
    + apply in_or_app. left. exact I2.
    + intros x Ix Nx. apply in_app_iff in Ix. destruct Ix as [Ix|[<-|[]]].
      * destruct (I3 x Ix Nx) as (k & Lk & Ek & Ik). exists k. split; [exact Lk|]. split; [exact Ek|]. apply in_or_app. left. exact Ik.
      * exists j. split; [exact Lj|]. split; [reflexivity|]. apply in_or_app. right. left. reflexivity.
    + assert (G : forall k, In k c -> k < nj /\ joint_fixed u k = false /\ depth (child k) <= depth (child j) /\ In (child k) ((a ++ [t_jparent t j]) ++ [child j])).
      { intros k Ik. destruct (I4 k Ik) as (A & B & C & D). split; [exact A|]. split; [exact B|]. split; [lia|]. apply in_or_app. left. exact D. }
      destruct (joint_fixed u j) eqn:Fj; [split; [exact G|exact I5]|]. split.
      * intros k Ik. apply in_app_iff in Ik. destruct Ik as [Ik|[<-|[]]]; [apply G; exact Ik|].
        split; [exact Lj|]. split; [exact Fj|]. split; [lia|]. apply in_or_app. right. left. reflexivity.
      * apply nodup_app; [exact I5|constructor; [intros []|constructor]|]. intros k Ik [Q|[]]. subst k. destruct (I4 j Ik) as (_ & _ & C & _). lia.
Qed.

(** ** the loop *)
Section M.
Variable d : dtype.
Variable m : nat -> Rig.
Variable angles : nat -> R.
Hypothesis Hm : forall j, j < nj ->
  relative_pose d (ujn j) (t_origin t j) (if Nat.ltb (jidf j) (n_dof n) then Some (angles (jidf j)) else None) = Some (se3_compose (t_origin t j) (m j)).
Hypothesis Hfix : forall j, j < nj -> joint_fixed u j = true -> m j = mkRig I3 zero3.
Notation P := (posef m).

Lemma compose_I g : se3_compose g (mkRig I3 zero3) = g.
Proof. destruct g as [[] []]. apply Rig_ext; [apply M3_ext|apply V3_ext]; cbn; ring. Qed.
Lemma pose_tree j : j < nj -> P (child j) = se3_compose (P (t_jparent t j)) (se3_compose (t_origin t j) (m j)).
Proof.
  intros Lj. destruct HR as (V & F & _ & HF & _). 
  assert (H : fits u P t).
  { apply HF. intros f Lf Ff. rewrite posef_child by exact Lf. rewrite (Hfix f Lf Ff). apply compose_I. }
  rewrite posef_child by exact Lj. unfold org, ujn. rewrite (H j Lj). apply se3_compose_assoc.
Qed.

Lemma fk_step_ok poses j p : j < nj -> n_lid n (t_jparent t j) = Some p -> poses p = Some (P (t_jparent t j)) ->
  fk_step d u r angles (Some poses) (S (jidf j)) = Some (upd poses (S (jidf j)) (Some (P (child j)))).
Proof.
  intros Lj Ep Hp. unfold fk_step. cbn [bind]. destruct (joint_facts j Lj) as (A & B & C & D & E & _).
  rewrite C. cbn [bind]. destruct robot_tree_ok as (_ & _ & _ & OP & _). rewrite (OP j Lj). cbn [bind].
  rewrite (proj1 (ujn_ok j Lj)). cbn [bind]. rewrite A. cbn [bind]. rewrite Ep. cbn [bind]. rewrite (Hm j Lj). cbn [bind]. rewrite Hp. cbn [bind].
  rewrite (pose_tree j Lj). reflexivity.
Qed.

(** [ids]: ids of links other than the root, in order, each with its parent in the list or already computed *)
Definition closed (ids : list nat) (known : nat -> Prop) := forall id, In id ids -> exists j, j < nj /\ id = S (jidf j)
  /\ exists p, n_lid n (t_jparent t j) = Some p /\ (In p ids \/ known p).
Lemma fk_loop : forall ids poses, StronglySorted lt ids ->
  closed ids (fun p => poses p = Some (P (linkf p))) ->
  exists poses', fold_left (fk_step d u r angles) ids (Some poses) = Some poses'
  /\ (forall id, In id ids -> poses' id = Some (P (linkf id))) /\ (forall k, ~ In k ids -> poses' k = poses k).
Proof.
  induction ids as [|id ids IH]; intros poses HS HC; [exists poses; split; [reflexivity|]; split; [intros id []|reflexivity]|].
  inversion HS as [|? ? HS' Hlt]; subst. rewrite Forall_forall in Hlt.
  destruct (HC id (or_introl eq_refl)) as (j & Lj & -> & p & Ep & Hp).
  destruct (joint_facts j Lj) as (A & B & C & D & E & p' & Ep' & Lp). assert (p' = p) by congruence. subst p'.
  assert (Kp : poses p = Some (P (linkf p))).
  { destruct Hp as [[Q|Q]|Q]; [lia|specialize (Hlt p Q); lia|exact Q]. }
  assert (Lk : linkf p = t_jparent t j).
  { destruct robot_tree_ok as (_ & _ & OD & _). destruct (link_facts (t_jparent t j) (proj1 (OD j Lj))) as (G1 & _ & G3). rewrite Ep in G1. injection G1 as ->. exact G3. }
  rewrite Lk in Kp. cbn [fold_left]. rewrite (fk_step_ok poses j p Lj Ep Kp).
  assert (Lc : linkf (S (jidf j)) = child j) by (unfold linkf; apply nth_error_nth; exact C).
  destruct (IH (upd poses (S (jidf j)) (Some (P (child j)))) HS') as (poses' & E' & H1 & H2).
  - intros id' I'. destruct (HC id' (or_intror I')) as (k & Lk' & Ek & q & Eq & Hq). exists k. split; [exact Lk'|]. split; [exact Ek|]. exists q. split; [exact Eq|].
    destruct Hq as [[Q|Q]|Q]; [right|left; exact Q|right].
    + subst q. rewrite upd_same, Lc. reflexivity.
    + unfold upd. destruct (Nat.eqb_spec q (S (jidf j))) as [->|]; [rewrite Lc; reflexivity|exact Q].
  - exists poses'. split; [exact E'|]. split.
    + intros id [<-|I]; [|apply H1; exact I]. destruct (in_dec Nat.eq_dec (S (jidf j)) ids) as [I|I]; [apply H1; exact I|].
      rewrite (H2 _ I), upd_same, Lc. reflexivity.
    + intros k Nk. rewrite H2 by (intro Q; apply Nk; right; exact Q). apply upd_other. intros ->. apply Nk. left. reflexivity.
Qed.

(** ** the poses of the requested links *)
Definition wanted (names : option (list nat)) (ls : list nat) := get_links u r names = Some ls /\ forall l, In l ls -> l < u_nlinks u.
Definition related (ls : list nat) : list nat := sorted_set (map lidf (flat_map (r_anc r) ls) ++ map lidf ls).
Lemma anc_facts l : l < u_nlinks u -> exists a c, chain u root t l a c /\ r_anc r l = a /\ (forall i, In i (r_ancj r l) <-> exists j, In j c /\ jidf j = i).
Proof.
  intros Ll. destruct HR as (V & F & _ & _ & _ & _ & _ & _ & _ & _ & _ & H). destruct (H l Ll) as (a & c & Hc & Ha & Hj).
  exists a, c. split; [exact Hc|]. split; [exact Ha|]. intros i. rewrite Hj. destruct (chain_range l a c Ll Hc) as (_ & _ & _ & G & _).
  split; intros (j & Ij & Ej); exists j; (split; [exact Ij|]); destruct (G j Ij) as (Lj & _); destruct (joint_facts j Lj) as (A & _); congruence.
Qed.
Lemma fk_ids_ok names ls : wanted names ls ->
  fk_ids u r names = Some (map lidf ls, sorted_set (flat_map (r_ancj r) ls), related ls).
Proof.
  intros (E & H). unfold fk_ids. rewrite E. cbn [bind].
  rewrite (opt_all_map _ lidf) by (intros x I; apply link_facts, H, I). cbn [bind].
  rewrite (opt_all_map _ lidf).
  - reflexivity.
  - intros x I. apply in_flat_map in I. destruct I as (l & Il & Ix). destruct (anc_facts l (H l Il)) as (a & c & Hc & Ha & _).
    apply link_facts. rewrite Ha in Ix. apply (chain_range l a c (H l Il) Hc). exact Ix.
Qed.
(** the ids that are computed: ancestors and links *)
Lemma related_In ls id : (forall l, In l ls -> l < u_nlinks u) ->
  In id (related ls) <-> exists l x, In l ls /\ In x (r_anc r l ++ [l]) /\ id = lidf x.
Proof.
  intros H. unfold related. rewrite sorted_set_In, in_app_iff, !in_map_iff. split.
  - intros [(x & <- & I)|(x & <- & I)].
    + apply in_flat_map in I. destruct I as (l & Il & Ix). exists l, x. split; [exact Il|]. split; [apply in_or_app; left; exact Ix|reflexivity].
    + exists x, x. split; [exact I|]. split; [apply in_or_app; right; left; reflexivity|reflexivity].
  - intros (l & x & Il & Ix & ->). apply in_app_iff in Ix. destruct Ix as [Ix|[<-|[]]].
    + left. exists x. split; [reflexivity|]. apply in_flat_map. exists l. auto.
    + right. exists l. auto.
Qed.
Lemma related_shape ls : (forall l, In l ls -> l < u_nlinks u) ->
  exists rest, (related ls = 0 :: rest \/ (related ls = [] /\ rest = [] /\ ls = [])) /\ tl (related ls) = rest /\ StronglySorted lt rest
  /\ (forall l, In l ls -> forall x, In x (r_anc r l ++ [l]) -> lidf x = 0 \/ In (lidf x) rest)
  /\ closed rest (fun p => p = 0) /\ (forall id, In id rest -> 1 <= id).
Proof.
  intros H. destruct ls as [|l0 ls0] eqn:El.
  - exists []. split; [right; auto|]. split; [reflexivity|]. split; [constructor|]. split; [intros l []|]. split; [intros id []|intros id []].
  - rewrite <- El in *. assert (I0 : In l0 ls) by (rewrite El; left; reflexivity). clear El.
    assert (Z : In 0 (related ls)).
    { apply related_In; [exact H|]. destruct (anc_facts l0 (H l0 I0)) as (a & c & Hc & Ha & _). exists l0, root. split; [exact I0|].
      split; [rewrite Ha; apply (chain_range l0 a c (H l0 I0) Hc)|]. unfold lidf. rewrite (proj1 root_lid). reflexivity. }
    destruct (sorted_head _ (sorted_set_sorted _) Z) as (rest & Er & Sr & Gr). unfold related at 1 2 3. rewrite Er.
    exists rest. split; [left; reflexivity|]. split; [reflexivity|]. split; [exact Sr|].
    assert (HIn : forall l, In l ls -> forall x, In x (r_anc r l ++ [l]) -> lidf x = 0 \/ In (lidf x) rest).
    { intros l Il x Ix. assert (Q : In (lidf x) (related ls)) by (apply related_In; [exact H|]; exists l, x; auto).
      unfold related in Q. rewrite Er in Q. destruct Q as [Q|Q]; [left; symmetry; exact Q|right; exact Q]. }
    split; [exact HIn|]. split; [|exact Gr].
    intros id Iid. assert (Q : In id (related ls)) by (unfold related; rewrite Er; right; exact Iid).
    apply related_In in Q; [|exact H]. destruct Q as (l & x & Il & Ix & ->). destruct (anc_facts l (H l Il)) as (a & c & Hc & Ha & _).
    rewrite Ha in Ix. destruct (chain_range l a c (H l Il) Hc) as (Ra & _ & Rc & _).
    assert (Nx : x <> root) by (intros ->; specialize (Gr _ Iid); unfold lidf in Gr; rewrite (proj1 root_lid) in Gr; lia).
    destruct (Rc x Ix Nx) as (j & Lj & -> & Ip). destruct (joint_facts j Lj) as (A & B & C & D & E & p & Ep & Lp).
    exists j. split; [exact Lj|]. split; [unfold lidf; rewrite B; reflexivity|]. exists p. split; [exact Ep|].
    assert (Lq : lidf (t_jparent t j) = p) by (unfold lidf; rewrite Ep; reflexivity).
    destruct (HIn l Il (t_jparent t j)) as [G|G]; [rewrite Ha; apply in_or_app; left; exact Ip| |]; rewrite Lq in G; [right; exact G|left; exact G].
Qed.

Lemma fk_helper_ok ls : (forall l, In l ls -> l < u_nlinks u) ->
  exists poses, fk_helper d u r (related ls) (n_dof n) angles = Some poses
  /\ forall l, In l ls -> forall x, In x (r_anc r l ++ [l]) -> poses (lidf x) = Some (P x).
Proof.
  intros H. unfold fk_helper. rewrite Nat.eqb_refl.
  destruct (related_shape ls H) as (rest & _ & -> & Sr & HIn & HC & Gr).
  set (poses0 := upd (fun _ => None) 0 (Some (mkRig I3 zero3))).
  assert (L0 : linkf 0 = root) by (unfold linkf; apply nth_error_nth, root_lid).
  assert (K0 : poses0 0 = Some (P (linkf 0))) by (unfold poses0; rewrite upd_same, L0, posef_root; reflexivity).
  destruct (fk_loop rest poses0 Sr) as (poses & E & H1 & H2).
  { intros id I. destruct (HC id I) as (j & A & B & p & C & D). exists j. split; [exact A|]. split; [exact B|]. exists p. split; [exact C|].
    destruct D as [D|D]; [left; exact D|right]. rewrite D. exact K0. }
  exists poses. split; [exact E|]. intros l Il x Ix.
  assert (Lx : x < u_nlinks u).
  { destruct (anc_facts l (H l Il)) as (a & c & Hc & Ha & _). rewrite Ha in Ix. apply in_app_iff in Ix. destruct Ix as [Ix|[<-|[]]]; [|apply H; exact Il].
    apply (chain_range l a c (H l Il) Hc). exact Ix. }
  destruct (link_facts x Lx) as (_ & _ & Lf). rewrite <- Lf at 2.
  destruct (HIn l Il x Ix) as [Q|Q]; [|apply H1; exact Q]. rewrite Q, H2; [exact K0|]. intros I. specialize (Gr 0 I). lia.
Qed.

Lemma fk_forward_ok names ls : wanted names ls -> fk_forward d u r names (n_dof n) angles = Some (map P ls).
Proof.
  intros W. unfold fk_forward. rewrite (fk_ids_ok names ls W). cbn [bind]. destruct W as (_ & H).
  destruct (fk_helper_ok ls H) as (poses & E & HP). rewrite E. cbn [bind]. rewrite map_map.
  apply opt_all_map. intros l Il. apply (HP l Il). apply in_or_app. right. left. reflexivity.
Qed.
End M.
End R.
End K.
