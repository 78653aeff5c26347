(** C65: the Jacobians and the gradients of the forward kinematics of torchkin (continued). *)
From Coq Require Import Reals List Arith Bool Lia Lra Sorted Permutation.
Import ListNotations.
From Verif Require Import Geo_spec Geo3_spec Geo4_spec Exp_unique SE2_model SE2_exp SE2_jac SO3_model SO3_group SO3_exp SE3_model SE3_exp SE3_group Kin_spec Kin_model Kin_tree Kin_num Kin_fk Kin_props Kin_jac.
Local Open Scope R_scope.

(** ** sums *)
Definition lsum (f : nat -> Tw) (l : list nat) : Tw := fold_right (fun x a => tadd (f x) a) tzero l.
Lemma lsum_cons f x l : lsum f (x :: l) = tadd (f x) (lsum f l).
Proof. reflexivity. Qed.
Lemma lsum_app f l l' : lsum f (l ++ l') = tadd (lsum f l) (lsum f l').
Proof. induction l as [|x l IH]; [symmetry; apply tadd_0_l|]. cbn [app]. rewrite !lsum_cons, IH, tadd_assoc. reflexivity. Qed.
Lemma lsum_perm f l l' : Permutation l l' -> lsum f l = lsum f l'.
Proof.
  induction 1 as [|x l l' P IH|x y l|l1 l2 l3 P1 IH1 P2 IH2]; rewrite ?lsum_cons; [reflexivity|rewrite IH; reflexivity| |congruence].
  rewrite <- !tadd_assoc, (tadd_comm (f y)). reflexivity.
Qed.
Lemma lsum_ext f g l : (forall x, In x l -> f x = g x) -> lsum f l = lsum g l.
Proof. induction l as [|x l IH]; intros H; [reflexivity|]. rewrite !lsum_cons, (H x (or_introl eq_refl)), IH; [reflexivity|]. intros y I. apply H. right. exact I. Qed.
Lemma lsum_map f g l : lsum f (map g l) = lsum (fun x => f (g x)) l.
Proof. induction l as [|x l IH]; [reflexivity|]. cbn [map]. rewrite !lsum_cons, IH. reflexivity. Qed.
Lemma tsum_lsum n f : tsum n f = lsum f (seq 0 n).
Proof. induction n as [|n IH]; [reflexivity|]. rewrite seq_S, lsum_app, <- IH. cbn [plus]. rewrite lsum_cons. unfold lsum. cbn [fold_right]. rewrite tadd_0_r. reflexivity. Qed.
Lemma lsum_filter f p l : lsum f (filter p l) = lsum (fun x => if p x then f x else tzero) l.
Proof. induction l as [|x l IH]; [reflexivity|]. cbn [filter]. rewrite lsum_cons. destruct (p x); rewrite ?lsum_cons, IH; [reflexivity|]. rewrite tadd_0_l. reflexivity. Qed.
Lemma tsum_sel n f L L' : NoDup L -> (forall x, In x L -> (x < n)%nat) -> (forall c, In c L' <-> In c L) ->
  tsum n (fun c => if existsb (Nat.eqb c) L' then f c else tzero) = lsum f L.
Proof.
  intros ND HL HE. rewrite tsum_lsum, <- (lsum_filter f (fun c => existsb (Nat.eqb c) L')). apply lsum_perm, NoDup_Permutation.
  - apply NoDup_filter, seq_NoDup.
  - exact ND.
  - intros x. rewrite filter_In, existsb_In, HE, in_seq. split; [tauto|]. intros I. split; [|exact I]. specialize (HL x I). lia.
Qed.
Lemma tsum_ext n f g : (forall c, (c < n)%nat -> f c = g c) -> tsum n f = tsum n g.
Proof. induction n as [|n IH]; intros H; [reflexivity|]. cbn. rewrite IH by (intros; apply H; lia). rewrite H by lia. reflexivity. Qed.

Section J.
Variable u : Urdf.
Variable root : nat.
Variable depth : nat -> nat.
Hypothesis WF : tree_of u root depth.
Variable r : Robot.
Hypothesis HR : robot_of u root depth r.
Notation nj := (length (u_joints u)).
Notation child := (joint_child u).
Notation t := (r_tree r).
Notation n := (r_num r).
Notation posef := (posef u root depth).

Lemma posef_rigid m l : (l < u_nlinks u)%nat -> (forall j, (j < nj)%nat -> rigid3 (m j)) -> rigid3 (posef m l).
Proof.
  intros Ll Hm. remember (depth l) as k eqn:Ek. revert l Ll Ek. induction k as [k IH] using lt_wf_ind. intros l Ll ->.
  destruct (Nat.eq_dec l root) as [->|N]; [rewrite posef_root; exact rot_I|].
  destruct (child_exists u root depth WF l Ll N) as (j & Lj & <-). destruct (ujn_ok u root depth WF j Lj) as (_ & _ & _ & Lp & D).
  rewrite (posef_child u root depth WF m j Lj). unfold rigid3. cbn [se3_compose rr]. apply rot_mul; [apply rot_mul|apply Hm, Lj].
  - apply (IH _ D _ Lp eq_refl).
  - unfold org. rewrite (proj1 (C64_origin (ujn u j))). apply (C64_origin (ujn u j)).
Qed.
Lemma jparent_range j : (j < nj)%nat -> (t_jparent t j < u_nlinks u)%nat.
Proof. intros Lj. destruct (robot_tree_ok u root depth r HR) as (_ & _ & OD & _). apply OD. exact Lj. Qed.
Lemma origin_rigid j : (j < nj)%nat -> rigid3 (t_origin t j).
Proof.
  intros Lj. set (m := fun _ : nat => mkRig I3 zero3).
  pose proof (pose_tree u root depth WF r HR m (fun _ _ _ => eq_refl) j Lj) as E.
  assert (Rm : forall k, (k < nj)%nat -> rigid3 (m k)) by (intros; exact rot_I).
  pose proof (posef_rigid m (child j) (child_range u root depth WF j Lj) Rm) as Rc.
  pose proof (posef_rigid m (t_jparent t j) (jparent_range j Lj) Rm) as Rp.
  apply (f_equal rr) in E. cbn [se3_compose rr m] in E. rewrite mul3_I_r in E.
  assert (E2 : rr (t_origin t j) = mul3 (tr3 (rr (posef m (t_jparent t j)))) (rr (posef m (child j)))).
  { rewrite E, <- mul3_assoc, (proj1 Rp), mul3_I_l. reflexivity. }
  unfold rigid3. rewrite E2. apply rot_mul; [apply rot_tr; exact Rp|exact Rc].
Qed.

Section C.
Variable m : R -> nat -> Rig.
Variable w : nat -> R.
Hypothesis Hrig : forall j, (j < nj)%nat -> rigid3 (m 0 j).
Hypothesis Hfix : forall x j, (j < nj)%nat -> joint_fixed u j = true -> m x j = mkRig I3 zero3.
Hypothesis Hmv : forall j, (j < nj)%nat -> joint_fixed u j = false -> moves6 (fun x => m x j) (m 0 j) (tscal (w j) (joint_axis (ujn u j))).
Notation P := (posef (m 0)).

Definition col (j : nat) : Tw := app66 (se3_adjoint (P (child j))) (joint_axis (ujn u j)).

Lemma chain_moves l a c : (l < u_nlinks u)%nat -> chain u root t l a c -> moves6_spatial (fun x => posef (m x) l) (P l) (lsum (fun j => tscal (w j) (col j)) c).
Proof.
  intros Ll H. induction H as [|j a c Lj H IH].
  - cbn. apply spatial_iff. split; [reflexivity|]. split.
    + apply (deriv_m3_ext (fun _ => I3)); [intros x; rewrite posef_root; reflexivity|]. eapply deriv_m3_eq; [|apply deriv_const_m3]. apply M3_ext; cbn; ring.
    + apply (deriv3_ext (fun _ => zero3)); [intros x; rewrite posef_root; reflexivity|]. eapply deriv3_eq; [|apply deriv_const3]. rewrite posef_root. apply V3_ext; cbn; ring.
  - specialize (IH (jparent_range j Lj)). set (p := t_jparent t j) in *. clear a H.
    set (xi := if joint_fixed u j then tzero else tscal (w j) (joint_axis (ujn u j))).
    assert (M : moves6 (fun x => m x j) (m 0 j) xi).
    { unfold xi. destruct (joint_fixed u j) eqn:F; [|apply Hmv; assumption]. apply moves6_iff. split; [reflexivity|]. split.
      - apply (deriv_m3_ext (fun _ => I3)); [intros x; rewrite (Hfix x j Lj F); reflexivity|]. eapply deriv_m3_eq; [|apply deriv_const_m3]. apply M3_ext; cbn; ring.
      - apply (deriv3_ext (fun _ => zero3)); [intros x; rewrite (Hfix x j Lj F); reflexivity|]. eapply deriv3_eq; [|apply deriv_const3]. apply V3_ext; cbn; ring. }
    set (o := t_origin t j). pose proof (origin_rigid j Lj) as Ro. fold o in Ro.
    assert (MO : moves6 (fun _ => o) o tzero).
    { apply moves6_iff. split; [reflexivity|]. split; [eapply deriv_m3_eq; [|apply deriv_const_m3]; apply M3_ext; cbn; ring|eapply deriv3_eq; [|apply deriv_const3]; apply V3_ext; cbn; ring]. }
    assert (MK := compose_moves o (m 0 j) _ _ _ _ Ro (Hrig j Lj) MO M). rewrite app66_0, tadd_0_l in MK.
    set (k0 := se3_compose o (m 0 j)) in *. assert (Rk : rigid3 k0) by (apply rot_mul; [exact Ro|apply Hrig, Lj]).
    assert (Rp : rigid3 (P p)) by (apply posef_rigid; [apply jparent_range, Lj|exact Hrig]).
    assert (EC : forall x, posef (m x) (child j) = se3_compose (posef (m x) p) (se3_compose o (m x j))) by (intros x; apply (pose_tree u root depth WF r HR (m x) (Hfix x) j Lj)).
    assert (Rc : rigid3 (P (child j))) by (apply posef_rigid; [apply (child_range u root depth WF j Lj)|exact Hrig]).
    set (sp := lsum (fun j => tscal (w j) (col j)) c) in *.
    destruct (C37_group (P p) (P p) (P p) Rp Rp Rp) as (_ & Ri & _).
    destruct (C37_adjoint (P p) (P p) tzero Rp Rp) as (_ & _ & AI & _).
    assert (MP : moves6 (fun x => posef (m x) p) (P p) (app66 (se3_adjoint (se3_inverse (P p))) sp)).
    { apply (body_spatial _ _ _ Rp). rewrite <- app66_mul, AI, app66_I. exact IH. }
    assert (MC := compose_moves (P p) k0 _ _ _ _ Rp Rk MP MK). cbv beta in MC.
    assert (EP : P (child j) = se3_compose (P p) k0) by apply EC. rewrite <- EP in MC.
    apply (body_spatial _ _ _ Rc) in MC.
    assert (EX : app66 (se3_adjoint (P (child j))) (tadd (app66 (se3_adjoint (se3_inverse k0)) (app66 (se3_adjoint (se3_inverse (P p))) sp)) xi)
      = lsum (fun j => tscal (w j) (col j)) (if joint_fixed u j then c else c ++ [j])).
    { rewrite app66_add. f_equal. assert (A1 : app66 (se3_adjoint (P (child j))) (app66 (se3_adjoint (se3_inverse k0)) (app66 (se3_adjoint (se3_inverse (P p))) sp)) = sp).
      { rewrite EP. destruct (C37_adjoint (P p) k0 tzero Rp Rk) as (_ & AC & _ & _). rewrite AC, !app66_mul.
        destruct (C37_adjoint k0 k0 tzero Rk Rk) as (_ & _ & AK & _). rewrite <- (app66_mul (se3_adjoint k0)), AK, app66_I, <- app66_mul, AI, app66_I. reflexivity. }
      rewrite A1. unfold xi. destruct (joint_fixed u j).
      - rewrite app66_0, tadd_0_r. reflexivity.
      - rewrite lsum_app, lsum_cons. unfold lsum at 2. cbn [fold_right]. rewrite tadd_0_r, app66_scal. reflexivity. }
    rewrite EX in MC. destruct MC as (M0 & MD). split; [reflexivity|].
    assert (EE : forall x, hmat (se3_compose (posef (m x) p) (se3_compose o (m x j))) = hmat (posef (m x) (child j))) by (intros x; rewrite EC; reflexivity).
    destruct MD as (D1 & D2 & D3 & D4). repeat split; (eapply deriv_ext; [|first [apply D1|apply D2|apply D3|apply D4]]); intros x; cbv beta; rewrite EE; reflexivity.
Qed.

(** ** the columns of the code *)
Lemma fk_jposes_ok poses : forall ids jp0, StronglySorted lt ids ->
  (forall id, In id ids -> exists j, (j < nj)%nat /\ id = S (jidf r j) /\ poses id = Some (P (child j))) ->
  exists jp, fk_jposes u r poses ids jp0 = Some jp
  /\ (forall j, (j < nj)%nat -> joint_fixed u j = false -> In (S (jidf r j)) ids -> jp (jidf r j) = col j)
  /\ (forall c, ~ In (S c) ids -> jp c = jp0 c).
Proof.
  induction ids as [|id ids IH]; intros jp0 HS HC; [exists jp0; split; [reflexivity|]; split; [intros j _ _ []|reflexivity]|].
  inversion HS as [|? ? HS' Hlt]; subst. rewrite Forall_forall in Hlt.
  destruct (HC id (or_introl eq_refl)) as (j & Lj & -> & Ep).
  destruct (joint_facts u root depth r HR j Lj) as (A & B & C & D & E & _).
  cbn [fk_jposes]. rewrite C. cbn [bind]. destruct (robot_tree_ok u root depth r HR) as (_ & _ & _ & OP & _). rewrite (OP j Lj). cbn [bind].
  rewrite (proj1 (ujn_ok u root depth WF j Lj)). cbn [bind]. rewrite A. cbn [bind].
  destruct (Nat.leb_spec (n_dof n) (jidf r j)) as [G|G].
  - exists jp0. split; [reflexivity|]. split; [|reflexivity]. intros k Lk Fk Ik. exfalso.
    destruct (joint_facts u root depth r HR k Lk) as (_ & _ & _ & Dk & _). apply Dk in Fk.
    destruct Ik as [Q|Q]; [lia|]. specialize (Hlt _ Q). lia.
  - rewrite Ep. cbn [bind]. destruct (IH (upd jp0 (jidf r j) (col j)) HS') as (jp & E' & H1 & H2).
    { intros id I. apply HC. right. exact I. }
    exists jp. split; [exact E'|]. split.
    + intros k Lk Fk [Q|Q]; [|apply H1; assumption]. assert (k = j) by (apply (jid_inj u root depth r HR); [assumption|assumption|lia]). subst k.
      rewrite H2; [apply upd_same|]. intros Q2. specialize (Hlt _ Q2). lia.
    + intros c Nc. rewrite H2 by (intro Q; apply Nc; right; exact Q). apply upd_other. intros ->. apply Nc. left. reflexivity.
Qed.

Lemma poses_of_map f : forall l, NoDup l -> forall id, poses_of l (map f l) id = if existsb (Nat.eqb id) l then Some (f id) else None.
Proof.
  intros l ND id. unfold poses_of.
  assert (G : forall l g, NoDup l -> fold_left (fun f0 (ip : nat * Rig) => upd f0 (fst ip) (Some (snd ip))) (combine l (map f l)) g id = if existsb (Nat.eqb id) l then Some (f id) else g id).
  { clear l ND. induction l as [|x l IH]; intros g ND; [reflexivity|]. apply NoDup_cons_iff in ND. destruct ND as (Nx & ND). cbn [map combine fold_left fst snd existsb]. rewrite (IH _ ND).
    destruct (existsb (Nat.eqb id) l) eqn:Ex; [rewrite orb_true_r; reflexivity|]. rewrite orb_false_r. unfold upd. destruct (Nat.eqb_spec id x) as [->|]; reflexivity. }
  rewrite (G l _ ND). reflexivity.
Qed.

(** the Jacobian of a link *)
Lemma link_sum l (jp : nat -> Tw) (v : nat -> R) : (l < u_nlinks u)%nat -> (forall j, (j < nj)%nat -> joint_fixed u j = false -> w j = v (jidf r j)) ->
  (forall j, (j < nj)%nat -> joint_fixed u j = false -> In (child j) (r_anc r l ++ [l]) -> jp (jidf r j) = col j) ->
  moves6_spatial (fun x => posef (m x) l) (P l) (tsum (n_dof n) (fun c => tscal (v c) (if existsb (Nat.eqb c) (r_ancj r l) then jp c else tzero))).
Proof.
  intros Ll Hv Hjp. destruct (anc_facts u root depth r HR l Ll) as (a & c & Hc & Ha & Hj).
  destruct (chain_range u root depth r HR l a c Ll Hc) as (_ & _ & _ & G & ND).
  assert (E : tsum (n_dof n) (fun c => tscal (v c) (if existsb (Nat.eqb c) (r_ancj r l) then jp c else tzero)) = lsum (fun j => tscal (w j) (col j)) c).
  { rewrite (tsum_ext _ _ (fun c => if existsb (Nat.eqb c) (r_ancj r l) then tscal (v c) (jp c) else tzero)).
    2:{ intros i _. destruct (existsb _ _); [reflexivity|apply tscal_z]. }
    rewrite (tsum_sel _ (fun c => tscal (v c) (jp c)) (map (jidf r) c)).
    - rewrite lsum_map. apply lsum_ext. intros j Ij. destruct (G j Ij) as (Lj & Fj & _ & Ic). rewrite (Hv j Lj Fj), (Hjp j Lj Fj); [reflexivity|]. rewrite Ha. exact Ic.
    - apply nodup_map_in; [|exact ND]. intros x y Ix Iy Q. apply (jid_inj u root depth r HR); [apply (G x Ix)|apply (G y Iy)|exact Q].
    - intros x I. apply in_map_iff in I. destruct I as (j & <- & Ij). destruct (G j Ij) as (Lj & Fj & _). apply (joint_facts u root depth r HR j Lj). exact Fj.
    - intros i. rewrite Hj, in_map_iff. split; intros (j & X & Y); exists j; auto. }
  rewrite E. apply (chain_moves l a c Ll Hc).
Qed.

(** the columns needed for the asked links *)
Lemma cols_ok ls poses : (forall l, In l ls -> (l < u_nlinks u)%nat) ->
  (forall l, In l ls -> forall x, In x (r_anc r l ++ [l]) -> poses (lidf r x) = Some (P x)) ->
  exists jp, fk_jposes u r poses (tl (related r ls)) (fun _ => tzero) = Some jp
  /\ (forall l, In l ls -> forall j, (j < nj)%nat -> joint_fixed u j = false -> In (child j) (r_anc r l ++ [l]) -> jp (jidf r j) = col j).
Proof.
  intros H HP. destruct (related_shape u root depth r HR ls H) as (rest & SH & -> & Sr & HIn & HC & Gr).
  assert (RIn : forall id, In id rest -> exists l x, In l ls /\ In x (r_anc r l ++ [l]) /\ id = lidf r x).
  { intros id I. apply (related_In u r ls id H). destruct SH as [->|(_ & -> & _)]; [right; exact I|destruct I]. }
  destruct (fk_jposes_ok poses rest (fun _ => tzero) Sr) as (jp & E & H1 & _).
  { intros id I. destruct (HC id I) as (j & Lj & -> & _). exists j. split; [exact Lj|]. split; [reflexivity|].
    destruct (RIn _ I) as (l & x & Il & Ix & Ex). rewrite Ex. rewrite (HP l Il x Ix). f_equal. f_equal.
    assert (Lx : (x < u_nlinks u)%nat).
    { destruct (anc_facts u root depth r HR l (H l Il)) as (a & c & Hc & Ha & _). rewrite Ha in Ix. apply in_app_iff in Ix. destruct Ix as [Ix|[<-|[]]]; [|apply H; exact Il].
      apply (chain_range u root depth r HR l a c (H l Il) Hc). exact Ix. }
    destruct (link_facts u root depth WF r HR x Lx) as (_ & F2 & _). rewrite <- Ex in F2. destruct (joint_facts u root depth r HR j Lj) as (_ & _ & C & _). congruence. }
  exists jp. split; [exact E|]. intros l Il j Lj Fj Ic. apply H1; [exact Lj|exact Fj|].
  destruct (joint_facts u root depth r HR j Lj) as (_ & B & _). destruct (HIn l Il (child j) Ic) as [Q|Q]; unfold lidf in Q; rewrite B in Q; [discriminate|exact Q].
Qed.

Section A.
Variable d : dtype.
Variable angles : nat -> R.
Hypothesis Hm : forall j, (j < nj)%nat ->
  relative_pose d (ujn u j) (t_origin t j) (if Nat.ltb (jidf r j) (n_dof n) then Some (angles (jidf r j)) else None) = Some (se3_compose (t_origin t j) (m 0 j)).

Lemma fk_spatial_ok names ls : wanted u r names ls -> ls <> [] ->
  exists jp, fk_spatial d u r names (n_dof n) angles = Some (map (fun l c => if existsb (Nat.eqb c) (r_ancj r l) then jp c else tzero) ls, map P ls)
  /\ forall l, In l ls -> forall j, (j < nj)%nat -> joint_fixed u j = false -> In (child j) (r_anc r l ++ [l]) -> jp (jidf r j) = col j.
Proof.
  intros W NE. assert (H := proj2 W). unfold fk_spatial. rewrite (fk_ids_ok u root depth WF r HR names ls W). cbn [bind].
  assert (RL : forall id, In id (related r ls) -> nth_error (n_links n) id = Some (linkf r id) /\ (linkf r id < u_nlinks u)%nat).
  { intros id I. apply (related_In u r ls id H) in I. destruct I as (l & x & Il & Ix & ->).
    assert (Lx : (x < u_nlinks u)%nat).
    { destruct (anc_facts u root depth r HR l (H l Il)) as (a & c & Hc & Ha & _). rewrite Ha in Ix. apply in_app_iff in Ix. destruct Ix as [Ix|[<-|[]]]; [|apply H; exact Il].
      apply (chain_range u root depth r HR l a c (H l Il) Hc). exact Ix. }
    destruct (link_facts u root depth WF r HR x Lx) as (_ & F2 & F3). rewrite F3. auto. }
  rewrite (opt_all_map _ (linkf r)) by (intros id I; apply RL; exact I). cbn [bind].
  assert (WS : wanted u r (Some (map (linkf r) (related r ls))) (map (linkf r) (related r ls))).
  { assert (Q : forall x, In x (map (linkf r) (related r ls)) -> (x < u_nlinks u)%nat) by (intros x I; apply in_map_iff in I; destruct I as (id & <- & I); apply RL; exact I).
    split; [|exact Q]. cbn [get_links]. rewrite (proj2 (forallb_forall _ _)); [reflexivity|]. intros x I. apply Nat.ltb_lt, Q, I. }
  rewrite (fk_forward_ok u root depth WF r HR d (m 0) angles Hm (Hfix 0) _ _ WS). cbn [bind]. rewrite map_map.
  assert (HP : forall id, In id (related r ls) -> poses_of (related r ls) (map (fun x => P (linkf r x)) (related r ls)) id = Some (P (linkf r id))).
  { intros id I. rewrite (poses_of_map (fun x => P (linkf r x)) (related r ls) (sorted_nodup _ (sorted_set_sorted _))). rewrite (proj2 (existsb_In _ _) I). reflexivity. }
  set (poses := poses_of _ _) in *. clearbody poses.
  destruct (related_shape u root depth r HR ls H) as (rest & SH & _). destruct SH as [SH|(_ & _ & Q)]; [|contradiction].
  rewrite (HP 0%nat) by (rewrite SH; left; reflexivity). cbn [bind].
  assert (HX : forall l, In l ls -> forall x, In x (r_anc r l ++ [l]) -> poses (lidf r x) = Some (P x)).
  { intros l Il x Ix. assert (I : In (lidf r x) (related r ls)) by (apply (related_In u r ls _ H); exists l, x; auto). rewrite (HP _ I). do 2 f_equal.
    assert (Lx : (x < u_nlinks u)%nat).
    { destruct (anc_facts u root depth r HR l (H l Il)) as (a & c & Hc & Ha & _). rewrite Ha in Ix. apply in_app_iff in Ix. destruct Ix as [Ix|[<-|[]]]; [|apply H; exact Il].
      apply (chain_range u root depth r HR l a c (H l Il) Hc). exact Ix. }
    apply (link_facts u root depth WF r HR x Lx). }
  destruct (cols_ok ls poses H HX) as (jp & E & HJ). rewrite E. cbn [bind]. exists jp. split; [|exact HJ].
  rewrite (map_map (lidf r) poses). rewrite (opt_all_map _ P) by (intros l Il; apply (HX l Il); apply in_or_app; right; left; reflexivity). cbn [bind].
  rewrite (map_map (lidf r)). rewrite (opt_all_map _ (fun l => l)) by (intros l Il; apply (link_facts u root depth WF r HR l (H l Il))). cbn [bind].
  rewrite map_id. reflexivity.
Qed.

(** ** the gradients *)
Definition pull (lg : nat * Rig) : Tw := let g := snd lg in let p := P (fst lg) in
  se3_project (mkRig (plus_m3 (mul3 (rr g) (tr3 (rr p))) (outer (rp g) (rp p))) (rp g)).
Definition gsum (c : nat) (L : list (nat * Rig)) : Tw := fold_right (fun lg a => tadd (if existsb (Nat.eqb c) (r_ancj r (fst lg)) then pull lg else tzero) a) tzero L.
Lemma fk_backward_ok names ls grads poses : wanted u r names ls -> length grads = length ls -> fk_helper d u r (related r ls) (n_dof n) angles = Some poses ->
  exists jp gi, fk_backward u r (map (lidf r) ls, sorted_set (flat_map (r_ancj r) ls), related r ls) poses grads = Some gi
  /\ (forall l, In l ls -> forall j, (j < nj)%nat -> joint_fixed u j = false -> In (child j) (r_anc r l ++ [l]) -> jp (jidf r j) = col j)
  /\ forall c, gi c = dot6 (jp c) (gsum c (combine ls grads)).
Proof.
  intros (_ & H) HL EH. destruct (fk_helper_ok u root depth WF r HR d (m 0) angles Hm (Hfix 0) ls H) as (poses' & EH' & HP).
  assert (poses' = poses) by congruence. subst poses'. clear EH EH'.
  destruct (cols_ok ls poses H HP) as (jp & E & HJ). unfold fk_backward. rewrite E. cbn [bind]. exists jp.
  match goal with |- context [fold_left ?f (combine (map (lidf r) ls) grads) (Some ?g)] => set (F := f); set (g0 := g) end.
  assert (G : forall ls' grads' gp, (forall l, In l ls' -> In l ls) -> length grads' = length ls' -> exists gp', fold_left F (combine (map (lidf r) ls') grads') (Some gp) = Some gp'
    /\ forall c, gp' c = tadd (gp c) (gsum c (combine ls' grads'))).
  { induction ls' as [|l ls' IH]; intros [|g grads'] gp HI HLn; cbn [length] in HLn; try lia.
    - exists gp. split; [reflexivity|]. intros c. cbn. rewrite tadd_0_r. reflexivity.
    - cbn [map combine fold_left]. assert (Il : In l ls) by (apply HI; left; reflexivity).
      assert (EF : F (Some gp) (lidf r l, g) = Some (fun c => if existsb (Nat.eqb c) (r_ancj r l) then tadd (gp c) (pull (l, g)) else gp c)).
      { unfold F. cbn [bind]. rewrite (proj1 (proj2 (link_facts u root depth WF r HR l (H l Il)))). cbn [bind].
        rewrite (HP l Il l) by (apply in_or_app; right; left; reflexivity). reflexivity. }
      rewrite EF. destruct (IH grads' (fun c => if existsb (Nat.eqb c) (r_ancj r l) then tadd (gp c) (pull (l, g)) else gp c)) as (gp' & E' & H'); [intros x I; apply HI; right; exact I|lia|].
      exists gp'. split; [exact E'|]. intros c. rewrite H'. unfold gsum. cbn [fold_right fst]. destruct (existsb (Nat.eqb c) (r_ancj r l)); [apply tadd_assoc|rewrite tadd_0_l; reflexivity]. }
  destruct (G ls grads g0 (fun l I => I) HL) as (gp & E2 & H2). rewrite E2. cbn [bind]. eexists. split; [reflexivity|]. split; [exact HJ|].
  intros c. cbv beta. rewrite H2. unfold g0. rewrite tadd_0_l. destruct (existsb (Nat.eqb c) (sorted_set (flat_map (r_ancj r) ls))) eqn:Ex; [reflexivity|].
  assert (Z : gsum c (combine ls grads) = tzero); [|rewrite Z; symmetry; apply dot6_0].
  assert (N : forall l, In l ls -> existsb (Nat.eqb c) (r_ancj r l) = false).
  { intros l Il. destruct (existsb (Nat.eqb c) (r_ancj r l)) eqn:Q; [|reflexivity]. apply existsb_In in Q. exfalso.
    assert (T : existsb (Nat.eqb c) (sorted_set (flat_map (r_ancj r) ls)) = true) by (apply existsb_In, sorted_set_In, in_flat_map; exists l; auto). congruence. }
  clear - N. revert grads. induction ls as [|l ls IH]; intros [|g grads]; try reflexivity. unfold gsum. cbn [combine fold_right fst].
  rewrite (N l (or_introl eq_refl)), tadd_0_l. apply IH. intros x I. apply N. right. exact I.
Qed.
End A.
End C.
End J.

Lemma pull_deriv h T xi g : moves6_spatial h T xi ->
  deriv (fun x => frob34 g (h x)) 0 (dot6 (se3_project (mkRig (plus_m3 (mul3 (rr g) (tr3 (rr T))) (outer (rp g) (rp T))) (rp g))) xi).
Proof.
  intros H. apply spatial_iff in H. destruct H as (_ & D & Pd). unfold frob34. eapply deriv_val; [|apply d_plus; [apply d_frob, D|apply d_dot3, Pd]].
  destruct g as [[] []], T as [[] []], xi as [[] []]. unfold dot6, frob, dot3. cbn. ring.
Qed.
Lemma dot6_tsum a n f : dot6 a (tsum n f) = rsum_list (map (fun c => dot6 a (f c)) (seq 0 n)).
Proof.
  rewrite tsum_lsum. induction (seq 0 n) as [|x l IH]; [apply dot6_0|]. rewrite lsum_cons, dot6_add, IH. reflexivity.
Qed.
Lemma rsum_add (f g : nat -> R) l : rsum_list (map (fun c => f c + g c) l) = rsum_list (map f l) + rsum_list (map g l).
Proof. induction l as [|x l IH]; cbn; [ring|]. rewrite IH. ring. Qed.
Lemma rsum_ext (f g : nat -> R) l : (forall x, In x l -> f x = g x) -> rsum_list (map f l) = rsum_list (map g l).
Proof. intros H. f_equal. apply map_ext_in. exact H. Qed.
