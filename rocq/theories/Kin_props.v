(** C64: the forward kinematics of torchkin are the products of the joint
    transforms along the tree, and the numbering of the degrees of freedom. *)
From Coq Require Import Reals List Arith Bool Lia Lra Sorted.
Import ListNotations.
From Verif Require Import Geo_spec Geo3_spec Geo4_spec SE2_model SE2_exp SO3_model SO3_group SO3_exp SE3_model SE3_exp SE3_group Kin_spec Kin_model Kin_tree Kin_num Kin_fk.
Local Open Scope R_scope.

(** ** origins *)
Lemma rot_axis a : rotation3 (rot_x a) /\ rotation3 (rot_y a) /\ rotation3 (rot_z a).
Proof.
  assert (S := sin2_cos2 a). unfold Rsqr in S.
  unfold rotation3, orthogonal3, rot_x, rot_y, rot_z, det3. split; [|split]; (split; [apply M3_ext|]; cbn; try ring).
  all: lra.
Qed.
Theorem C64_origin : forall uj, get_origin (uj_xyz uj) (uj_rpy uj) = joint_origin uj /\ rigid3 (joint_origin uj).
Proof.
  intros uj. assert (E : get_origin (uj_xyz uj) (uj_rpy uj) = joint_origin uj).
  { unfold get_origin, joint_origin. destruct (uj_rpy uj) as [a|], (uj_xyz uj) as [t|]; apply Rig_ext; try reflexivity;
      cbn [rr rp]; apply M3_ext; cbn; ring. }
  split; [exact E|]. unfold rigid3, joint_origin. cbn [rr]. destruct (uj_rpy uj) as [[a b c]|]; cbn [b0 b1 b2].
  - apply rot_mul; [apply (rot_axis c)|apply rot_mul; [apply (rot_axis b)|apply (rot_axis a)]].
  - exact rot_I.
Qed.

(** ** the motions of the joints in the code: exact, or the code's exponential for revolute joints *)
Definition mot_code (d : dtype) (uj : UJoint) (q : R) (m : Rig) := match uj_type uj with
  | Revolute => so3_exp d (scal3 q (uj_axis uj)) = Some (rr m) /\ rp m = zero3
  | _ => joint_motion uj q m
  end.
Definition motf (d : dtype) (uj : UJoint) (q : R) : Rig := match uj_type uj with
  | Revolute => match so3_exp d (scal3 q (uj_axis uj)) with Some g => mkRig g zero3 | None => mkRig I3 zero3 end
  | Prismatic => mkRig I3 (scal3 q (uj_axis uj))
  | Fixed => mkRig I3 zero3
  end.
Lemma motf_ok d uj q m : mot_code d uj q m <-> m = motf d uj q.
Proof.
  unfold mot_code, motf, joint_motion. destruct (uj_type uj); [|tauto|tauto].
  destruct (C36_exp_rotation d (scal3 q (uj_axis uj))) as (g & E & _). rewrite E. split.
  - intros (H & Z). apply some_inj in H. apply Rig_ext; [symmetry; exact H|exact Z].
  - intros ->. split; reflexivity.
Qed.
Lemma motf_rigid d uj q : rigid3 (motf d uj q).
Proof.
  unfold rigid3, motf. assert (I := rot_I). destruct (uj_type uj); [|exact I|exact I].
  destruct (C36_exp_rotation d (scal3 q (uj_axis uj))) as (g & E & H). rewrite E. exact H.
Qed.
Lemma relative_pose_ok d uj o q : relative_pose d uj o (if fixed_joint uj then None else Some q) = Some (se3_compose o (motf d uj q)).
Proof.
  unfold relative_pose, motf, fixed_joint. destruct (uj_type uj).
  - destruct (C36_exp_rotation d (scal3 q (uj_axis uj))) as (g & E & H). rewrite E. cbn [bind]. f_equal. destruct o as [[] []], g; apply Rig_ext; [reflexivity|apply V3_ext; cbn; ring].
  - f_equal. destruct o as [[] []]. apply Rig_ext; [apply M3_ext; cbn; ring|apply V3_ext; cbn; ring].
  - f_equal. destruct o as [[] []]. apply Rig_ext; [apply M3_ext; cbn; ring|apply V3_ext; cbn; ring].
Qed.

Section W.
Variable u : Urdf.
Variable root : nat.
Variable depth : nat -> nat.
Hypothesis WF : tree_of u root depth.
Notation nj := (length (u_joints u)).

Lemma nj_nth j uj : nth_error (u_joints u) j = Some uj -> (j < nj)%nat /\ ujn u j = uj /\ joint_child u j = uj_child uj /\ joint_fixed u j = fixed_joint uj.
Proof.
  intros E. split; [apply nth_error_Some; congruence|]. unfold ujn, joint_child, joint_fixed. rewrite E. split; [|auto]. apply nth_error_nth. exact E.
Qed.

(** the poses as a function *)
Lemma link_pose_gen mot (mf : UJoint -> R -> Rig) (q : nat -> R) l : (forall uj x m, mot uj x m <-> m = mf uj x) -> (l < u_nlinks u)%nat ->
  forall T, link_pose mot u root q l T <-> T = posef u root depth (fun j => mf (ujn u j) (q j)) l.
Proof.
  intros HM Ll T. set (m := fun j => mf (ujn u j) (q j)). split.
  - intros H. clear Ll. induction H as [|j uj T m' Ej H IH Hm]; [symmetry; apply posef_root|].
    destruct (nj_nth j uj Ej) as (Lj & Eu & Ec & _). rewrite <- Ec. rewrite (posef_child u root depth WF m j Lj).
    apply HM in Hm. subst m' T. unfold rig_mul. unfold org, m. rewrite Eu, (proj1 (C64_origin uj)). reflexivity.
  - intros ->. remember (depth l) as n eqn:En. revert l Ll En. induction n as [n IH] using lt_wf_ind. intros l Ll ->.
    destruct (Nat.eq_dec l root) as [->|N]; [rewrite posef_root; constructor|].
    destruct (child_exists u root depth WF l Ll N) as (j & Lj & <-). destruct (ujn_ok u root depth WF j Lj) as (Ej & Ec & Ef & Lp & D).
    rewrite (posef_child u root depth WF m j Lj). rewrite <- Ec at 1. unfold org. rewrite (proj1 (C64_origin (ujn u j))).
    apply (lp_joint mot u root q j (ujn u j) _ _ Ej).
    + apply (IH _ D); [exact Lp|reflexivity].
    + apply HM. reflexivity.
Qed.
Lemma link_pose_iff d (q : nat -> R) l : (l < u_nlinks u)%nat ->
  forall T, link_pose (mot_code d) u root q l T <-> T = posef u root depth (fun j => motf d (ujn u j) (q j)) l.
Proof. apply link_pose_gen. apply motf_ok. Qed.

Section R.
Variable r : Robot.
Hypothesis HR : robot_of u root depth r.
Notation n := (r_num r).
Definition mof (d : dtype) (angles : nat -> R) : nat -> Rig := fun j => motf d (ujn u j) (angles (jidf r j)).

Lemma mof_rel d angles j : (j < nj)%nat ->
  relative_pose d (ujn u j) (t_origin (r_tree r) j) (if Nat.ltb (jidf r j) (n_dof n) then Some (angles (jidf r j)) else None) = Some (se3_compose (t_origin (r_tree r) j) (mof d angles j)).
Proof.
  intros Lj. unfold mof. rewrite <- relative_pose_ok. f_equal. destruct (ujn_ok u root depth WF j Lj) as (_ & _ & Ef & _).
  destruct (joint_facts u root depth r HR j Lj) as (_ & _ & _ & D & _). rewrite Ef. destruct (Nat.ltb_spec (jidf r j) (n_dof n)) as [L|L].
  - apply D in L. rewrite L. reflexivity.
  - destruct (joint_fixed u j); [reflexivity|]. destruct D as (_ & D). specialize (D eq_refl). lia.
Qed.
Lemma mof_fix d angles j : (j < nj)%nat -> joint_fixed u j = true -> mof d angles j = mkRig I3 zero3.
Proof.
  intros Lj F. unfold mof, motf. destruct (ujn_ok u root depth WF j Lj) as (_ & _ & Ef & _). rewrite F in Ef. unfold fixed_joint in Ef.
  destruct (uj_type (ujn u j)); [discriminate|discriminate|reflexivity].
Qed.
End R.
End W.

Lemma dof_count u root depth r : tree_of u root depth -> robot_of u root depth r ->
  n_dof (r_num r) = length (filter (fun uj => negb (fixed_joint uj)) (u_joints u)).
Proof.
  intros WF (V & F & _ & _ & ND & HI & HV & HF & _ & _ & Hd & _). rewrite Hd.
  assert (E : filter (fun uj => negb (fixed_joint uj)) (u_joints u) = map (ujn u) (filter (fun j => negb (joint_fixed u j)) (seq 0 (length (u_joints u))))).
  { assert (M : u_joints u = map (ujn u) (seq 0 (length (u_joints u)))).
    { apply nth_ext with (d := mkUJ 0 0 Fixed zero3 None None) (d' := ujn u 0); [rewrite map_length, seq_length; reflexivity|].
      intros k Hk. rewrite map_nth, seq_nth by exact Hk. reflexivity. }
    rewrite M at 1. assert (G : forall s, (forall j, In j s -> (j < length (u_joints u))%nat) -> filter (fun uj => negb (fixed_joint uj)) (map (ujn u) s) = map (ujn u) (filter (fun j => negb (joint_fixed u j)) s)).
    { induction s as [|j s IH]; intros H; [reflexivity|]. cbn [map filter]. destruct (ujn_ok u root depth WF j (H j (or_introl eq_refl))) as (_ & _ & Ef & _).
      rewrite Ef. rewrite IH by (intros; apply H; right; assumption). destruct (negb (joint_fixed u j)); reflexivity. }
    apply G. intros j I. apply in_seq in I. lia. }
  rewrite E, map_length.
  assert (NV : NoDup V).
  { clear - ND. induction V as [|x V IH]; [constructor|]. cbn in ND. apply NoDup_cons_iff in ND. destruct ND as (N & ND). constructor; [|apply IH; exact ND]. intro I. apply N, in_or_app. left. exact I. }
  apply Nat.le_antisymm; apply NoDup_incl_length.
  - exact NV.
  - intros j I. apply filter_In. split; [apply in_seq; assert ((j < length (u_joints u))%nat) by (apply HI, in_or_app; left; exact I); lia|]. rewrite (HV j I). reflexivity.
  - apply NoDup_filter, seq_NoDup.
  - intros j I. apply filter_In in I. destruct I as (I & Fj). apply in_seq in I. assert (Ij : In j (V ++ F)) by (apply HI; lia). apply in_app_iff in Ij. destruct Ij as [Ij|Ij]; [exact Ij|]. rewrite (HF j Ij) in Fj. discriminate.
Qed.

(** the degrees of freedom are numbered 0 .. dof-1 by the moving joints, every joint has one id, the links follow the joints *)
Theorem C64_numbering : forall u root, is_tree u root -> exists r, from_urdf u = Some r
  /\ n_dof (r_num r) = length (filter (fun uj => negb (fixed_joint uj)) (u_joints u))
  /\ n_lid (r_num r) root = Some 0%nat
  /\ (forall j uj, nth_error (u_joints u) j = Some uj -> exists i, n_jid (r_num r) j = Some i
        /\ ((i < n_dof (r_num r))%nat <-> fixed_joint uj = false) /\ n_lid (r_num r) (uj_child uj) = Some (S i))
  /\ (forall c, (c < n_dof (r_num r))%nat -> exists j uj, nth_error (u_joints u) j = Some uj /\ fixed_joint uj = false /\ n_jid (r_num r) j = Some c)
  /\ (forall j k uj uk i, nth_error (u_joints u) j = Some uj -> nth_error (u_joints u) k = Some uk -> n_jid (r_num r) j = Some i -> n_jid (r_num r) k = Some i -> j = k).
Proof.
  intros u root (depth & WF). destruct (from_urdf_ok u root depth WF) as (r & E & HR). exists r. split; [exact E|].
  split; [apply (dof_count u root depth r WF HR)|]. split; [apply (root_lid u root depth r HR)|].
  assert (J : forall j uj, nth_error (u_joints u) j = Some uj -> exists i, n_jid (r_num r) j = Some i
        /\ ((i < n_dof (r_num r))%nat <-> fixed_joint uj = false) /\ n_lid (r_num r) (uj_child uj) = Some (S i)).
  { intros j uj Ej. destruct (nj_nth u j uj Ej) as (Lj & _ & Ec & Ef). destruct (joint_facts u root depth r HR j Lj) as (A & B & C & D & _).
    exists (jidf r j). split; [exact A|]. rewrite <- Ef, <- Ec. split; [exact D|exact B]. }
  split; [exact J|]. split.
  - intros c Hc. destruct (jid_surj u root depth r HR c Hc) as (j & Lj & Ej & Fj). destruct (ujn_ok u root depth WF j Lj) as (En & _ & Ef & _).
    exists j, (ujn u j). split; [exact En|]. split; [congruence|]. destruct (joint_facts u root depth r HR j Lj) as (A & _). congruence.
  - intros j k uj uk i Ej Ek Ij Ik. destruct (nj_nth u j uj Ej) as (Lj & _). destruct (nj_nth u k uk Ek) as (Lk & _).
    apply (jid_inj u root depth r HR j k Lj Lk). unfold jidf. rewrite Ij, Ik. reflexivity.
Qed.

Lemma posef_ext u root depth : tree_of u root depth -> forall m m' l, (l < u_nlinks u)%nat ->
  (forall j, (j < length (u_joints u))%nat -> m j = m' j) -> posef u root depth m l = posef u root depth m' l.
Proof.
  intros WF m m' l Ll H. remember (depth l) as k eqn:Ek. revert l Ll Ek. induction k as [k IH] using lt_wf_ind. intros l Ll ->.
  destruct (Nat.eq_dec l root) as [->|N]; [rewrite !posef_root; reflexivity|].
  destruct (child_exists u root depth WF l Ll N) as (j & Lj & <-). destruct (ujn_ok u root depth WF j Lj) as (_ & _ & _ & Lp & D).
  rewrite !(posef_child u root depth WF _ j Lj), (H j Lj), (IH _ D _ Lp eq_refl). reflexivity.
Qed.

(** the links a call asks for: the given ones, or all links *)
Definition asked (u : Urdf) (r : Robot) (names : option (list nat)) (ls : list nat) :=
  match names with Some l => ls = l /\ forall x, In x l -> (x < u_nlinks u)%nat | None => ls = n_links (r_num r) end.
(** joint number j moves by the entry of the angles with its id *)
Definition joint_angles (r : Robot) (angles q : nat -> R) :=
  forall j i, n_jid (r_num r) j = Some i -> (i < n_dof (r_num r))%nat -> q j = angles i.

Lemma nodup_map_in {A B} (f : A -> B) l : (forall x y, In x l -> In y l -> f x = f y -> x = y) -> NoDup l -> NoDup (map f l).
Proof.
  induction l as [|x l IH]; intros H ND; [constructor|]. apply NoDup_cons_iff in ND. destruct ND as (N & ND). cbn [map]. constructor.
  - intros I. apply in_map_iff in I. destruct I as (y & E & I). apply N. rewrite (H x y); [exact I|left; reflexivity|right; exact I|symmetry; exact E].
  - apply IH; [|exact ND]. intros y z Iy Iz. apply H; right; assumption.
Qed.
Lemma links_all u root depth r : tree_of u root depth -> robot_of u root depth r -> NoDup (n_links (r_num r)) /\ forall l, In l (n_links (r_num r)) <-> (l < u_nlinks u)%nat.
Proof.
  intros WF (V & F & _ & _ & ND & HI & _ & _ & _ & (_ & B & _) & _). rewrite B. split.
  - constructor.
    + intros I. apply in_map_iff in I. destruct I as (j & E & I). apply HI in I. apply (child_not_root u root depth WF j I). exact E.
    + apply nodup_map_in; [|exact ND]. intros x y Ix Iy E. apply HI in Ix. apply HI in Iy. apply (child_inj u root depth WF); assumption.
  - intros l. split.
    + intros [<-|I]; [destruct WF as (W & _); exact W|]. apply in_map_iff in I. destruct I as (j & <- & I). apply HI in I. apply (child_range u root depth WF j I).
    + intros Ll. destruct (Nat.eq_dec l root) as [->|N]; [left; reflexivity|]. right. destruct (child_exists u root depth WF l Ll N) as (j & Lj & <-). apply in_map. apply HI. exact Lj.
Qed.
Lemma asked_wanted u root depth r names ls : tree_of u root depth -> robot_of u root depth r -> asked u r names ls -> wanted u r names ls.
Proof.
  intros WF HR H. unfold wanted. destruct names as [l|]; cbn [asked get_links] in *.
  - destruct H as (-> & H). split; [|exact H]. rewrite (proj2 (forallb_forall _ _)); [reflexivity|]. intros x I. apply Nat.ltb_lt, H, I.
  - subst ls. split; [reflexivity|]. intros x I. apply (links_all u root depth r WF HR). exact I.
Qed.
Lemma pose_of_angles u root depth r d angles q l : tree_of u root depth -> robot_of u root depth r -> joint_angles r angles q -> (l < u_nlinks u)%nat ->
  forall T, link_pose (mot_code d) u root q l T <-> T = posef u root depth (mof u r d angles) l.
Proof.
  intros WF HR HQ Ll T. rewrite (link_pose_iff u root depth WF d q l Ll). erewrite posef_ext; [reflexivity|exact WF|exact Ll|].
  intros j Lj. unfold mof. destruct (ujn_ok u root depth WF j Lj) as (_ & _ & Ef & _). destruct (joint_facts u root depth r HR j Lj) as (A & _ & _ & D & _).
  destruct (fixed_joint (ujn u j)) eqn:F.
  - unfold motf, fixed_joint in *. destruct (uj_type (ujn u j)); [discriminate|discriminate|reflexivity].
  - rewrite (HQ j _ A); [reflexivity|]. apply D. congruence.
Qed.

(** the poses of the asked links are the products of the joint transforms, for every tree, every subset and order of links and all angles *)
Theorem C64_forward_kinematics : forall u root r d names ls dim angles q, is_tree u root -> from_urdf u = Some r -> asked u r names ls -> joint_angles r angles q ->
  (dim = n_dof (r_num r) -> exists poses, fk_forward d u r names dim angles = Some poses
     /\ Forall2 (fun l T => forall T', link_pose (mot_code d) u root q l T' <-> T' = T) ls poses)
  /\ (dim <> n_dof (r_num r) -> fk_forward d u r names dim angles = None).
Proof.
  intros u root r d names ls dim angles q (depth & WF) E HA HQ. destruct (from_urdf_ok u root depth WF) as (r' & E' & HR).
  assert (r' = r) by congruence. subst r'. pose proof (asked_wanted u root depth r names ls WF HR HA) as HW. split.
  - intros ->. exists (map (posef u root depth (mof u r d angles)) ls). split.
    + apply (fk_forward_ok u root depth WF r HR d (mof u r d angles) angles); [apply mof_rel with (1 := WF); exact HR|apply mof_fix with (1 := WF)|exact HW].
    + destruct HW as (_ & HL). clear HA. induction ls as [|l ls IH]; constructor.
      * intros T'. apply (pose_of_angles u root depth r d angles q l WF HR HQ). apply HL. left. reflexivity.
      * apply IH. intros x I. apply HL. right. exact I.
  - intros N. unfold fk_forward. rewrite (fk_ids_ok u root depth WF r HR names ls HW). cbn [bind]. unfold fk_helper.
    rewrite (proj2 (Nat.eqb_neq _ _) N). reflexivity.
Qed.
(** asking for all links gives every link once *)
Theorem C64_all_links : forall u root r, is_tree u root -> from_urdf u = Some r ->
  NoDup (n_links (r_num r)) /\ forall l, In l (n_links (r_num r)) <-> (l < u_nlinks u)%nat.
Proof.
  intros u root r (depth & WF) E. destruct (from_urdf_ok u root depth WF) as (r' & E' & HR). assert (r' = r) by congruence. subst r'. apply (links_all u root depth r WF HR).
Qed.

(** the motion of the code is the rotation about the axis by the exact exponential, except for small angles *)
Definition exact_angles (d : dtype) (u : Urdf) (q : nat -> R) := forall j uj, nth_error (u_joints u) j = Some uj -> uj_type uj = Revolute ->
  so3_near_zero_eps d <= len3 (scal3 (q j) (uj_axis uj)) \/ scal3 (q j) (uj_axis uj) = zero3.
Theorem C64_exact : forall u root d q l T, exact_angles d u q -> link_pose (mot_code d) u root q l T <-> link_pose joint_motion u root q l T.
Proof.
  intros u root d q l T H. assert (M : forall j uj m, nth_error (u_joints u) j = Some uj -> mot_code d uj (q j) m <-> joint_motion uj (q j) m).
  { intros j uj m Ej. unfold mot_code, joint_motion. specialize (H j uj Ej). destruct (uj_type uj); [|tauto|tauto]. specialize (H eq_refl).
    destruct (C36_exp_rotation d (scal3 (q j) (uj_axis uj))) as (g & E & _). pose proof (C36_exp_is_exponential d _ g H E (rr m)) as X. rewrite X, E.
    split; intros (A & B); (split; [|exact B]); [apply some_inj in A; symmetry; exact A|rewrite A; reflexivity]. }
  split; intros K; induction K as [|j uj T m Ej K IH Hm]; try constructor; (apply (lp_joint _ u root q j uj T m Ej IH)); apply (M j uj m Ej); exact Hm.
Qed.

(** a robot: link 1 on a revolute joint of link 0; link 2 fixed to link 1; link 3 on a prismatic joint of link 2, and link 4 on a revolute joint of link 0, in a mixed order *)
Definition example_urdf : Urdf := mkUrdf 5 [
  mkUJ 2 3 Prismatic (mkV3 1 0 0) None None;
  mkUJ 1 2 Fixed zero3 (Some (mkV3 0 2 0)) (Some (mkV3 0 0 (PI / 2)));
  mkUJ 0 4 Revolute (mkV3 0 1 0) None None;
  mkUJ 0 1 Revolute (mkV3 0 0 1) (Some (mkV3 1 0 0)) None].
Lemma example_tree : is_tree example_urdf 0.
Proof.
  exists (fun l => match l with 0 => 0 | 1 => 1 | 2 => 2 | 3 => 3 | _ => 1 end%nat). split; [cbn; lia|]. split; [|split].
  - cbn. repeat (constructor; [cbn; intuition lia|]). constructor.
  - intros l Hl. cbn in Hl |- *. intuition lia.
  - intros uj I. cbn in I. repeat (destruct I as [<-|I]; [cbn; lia|]). destruct I.
Qed.
(** the moving joints are numbered breadth first: the 3rd, 4th and 1st of the file; then the fixed one *)
Example example_numbering : exists r, from_urdf example_urdf = Some r /\ n_dof (r_num r) = 3%nat
  /\ n_jid (r_num r) 3 = Some 1%nat /\ n_jid (r_num r) 2 = Some 0%nat /\ n_jid (r_num r) 0 = Some 2%nat /\ n_jid (r_num r) 1 = Some 3%nat
  /\ n_links (r_num r) = [0; 4; 1; 3; 2]%nat.
Proof. unfold from_urdf. cbn. eexists. split; [reflexivity|]. cbn. repeat split. Qed.
