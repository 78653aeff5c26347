(** C65, C66: the theorems on the Jacobians of torchkin's forward kinematics, and two defects. *)
From Coq Require Import Reals List Arith Bool Lia Lra Sorted ZArith.
Import ListNotations.
From Verif Require Import Geo_spec Geo3_spec Geo4_spec Exp_unique SE2_model SE2_exp SE2_jac SO3_model SO3_group SO3_exp SE3_model SE3_exp SE3_group Kin_spec Kin_model Kin_tree Kin_num Kin_fk Kin_props Kin_jac Kin_jac2.
Local Open Scope R_scope.

(** ** the rate of the joints *)
(** entry c of the angles turns (or shifts) its joint at the rate [s c] *)
Definition turns (d : dtype) (u : Urdf) (r : Robot) (angles s : nat -> R) := forall j uj i,
  nth_error (u_joints u) j = Some uj -> n_jid (r_num r) j = Some i -> (i < n_dof (r_num r))%nat -> s i = turn_scale d uj (angles i).
(** away from the switch between the two formulas of the exponential *)
Definition off_switch (d : dtype) (u : Urdf) (r : Robot) (angles : nat -> R) := forall j uj i,
  nth_error (u_joints u) j = Some uj -> n_jid (r_num r) j = Some i -> (i < n_dof (r_num r))%nat -> uj_type uj = Revolute ->
  len3 (scal3 (angles i) (uj_axis uj)) <> so3_near_zero_eps d.
Lemma len3_nonneg v : 0 <= len3 v.
Proof. apply sqrt_pos. Qed.
(** the rate is one except for small rotations, where it is less than one by at most a quarter of the squared angle *)
Theorem C65_turn_scale : forall d uj x, let th := len3 (scal3 x (uj_axis uj)) in
  (uj_type uj <> Revolute \/ so3_near_zero_eps d <= th \/ th = 0 -> turn_scale d uj x = 1)
  /\ (uj_type uj = Revolute -> th < so3_near_zero_eps d -> turn_scale d uj x = 4 / (4 + th ^ 2))
  /\ 1 - th ^ 2 / 4 <= turn_scale d uj x <= 1.
Proof.
  intros d uj x th. assert (P : 0 <= th ^ 2) by (apply pow2_ge_0).
  assert (B : 1 - th ^ 2 / 4 <= 4 / (4 + th ^ 2) <= 1).
  { set (y := th ^ 2) in *. clearbody y. assert (E : 4 / (4 + y) * (4 + y) = 4) by (field; lra). set (z := 4 / (4 + y)) in *. clearbody z. split; nra. }
  unfold turn_scale. fold th. destruct (uj_type uj); [|split; [auto|split; [discriminate|lra]]|split; [auto|split; [discriminate|lra]]].
  unfold lt_b. destruct (Rlt_dec th (so3_near_zero_eps d)) as [S|S].
  - split; [|split; [reflexivity|exact B]]. intros [N|[N|Z]]; [congruence|lra|]. rewrite Z. field.
  - split; [reflexivity|]. split; [intros; lra|lra].
Qed.
Theorem C65_turns_exists : forall d u root r angles, is_tree u root -> from_urdf u = Some r -> exists s, turns d u r angles s.
Proof.
  intros d u root r angles (depth & WF) E. destruct (from_urdf_ok u root depth WF) as (r' & E' & HR). assert (r' = r) by congruence. subst r'.
  exists (fun c => match find (fun j => Nat.eqb (jidf r j) c) (seq 0 (length (u_joints u))) with Some j => turn_scale d (ujn u j) (angles c) | None => 1 end).
  intros j uj i Ej Ei _. destruct (nj_nth u j uj Ej) as (Lj & Eu & _).
  assert (Ji : jidf r j = i) by (unfold jidf; rewrite Ei; reflexivity).
  destruct (find _ _) as [k|] eqn:F.
  - apply find_some in F. destruct F as (Ik & Ek). apply in_seq in Ik. apply Nat.eqb_eq in Ek. assert (k = j) by (apply (jid_inj u root depth r HR); [lia|exact Lj|congruence]). subst k. rewrite Eu. reflexivity.
  - apply find_none with (x := j) in F; [|apply in_seq; lia]. rewrite Ji, Nat.eqb_refl in F. discriminate.
Qed.

(** ** general curves *)
Section G.
Variable u : Urdf.
Variable root : nat.
Variable depth : nat -> nat.
Hypothesis WF : tree_of u root depth.
Variable r : Robot.
Hypothesis HR : robot_of u root depth r.
Variable d : dtype.
Variable m : R -> nat -> Rig.
Variable v : nat -> R.
Variable angles : nat -> R.
Notation nj := (length (u_joints u)).
Hypothesis Hrig : forall j, (j < nj)%nat -> rigid3 (m 0 j).
Hypothesis Hfix : forall x j, (j < nj)%nat -> joint_fixed u j = true -> m x j = mkRig I3 zero3.
Hypothesis Hmv : forall j, (j < nj)%nat -> joint_fixed u j = false -> moves6 (fun x => m x j) (m 0 j) (tscal (v (jidf r j)) (joint_axis (ujn u j))).
Hypothesis Hm : forall j, (j < nj)%nat ->
  relative_pose d (ujn u j) (t_origin (r_tree r) j) (if Nat.ltb (jidf r j) (n_dof (r_num r)) then Some (angles (jidf r j)) else None) = Some (se3_compose (t_origin (r_tree r) j) (m 0 j)).
Notation Pc x := (posef u root depth (m x)).

Lemma gen_spatial names ls : wanted u r names ls -> ls <> [] ->
  exists jacs, fk_spatial d u r names (n_dof (r_num r)) angles = Some (jacs, map (Pc 0) ls)
  /\ Forall2 (fun l J => moves6_spatial (fun x => Pc x l) (Pc 0 l) (tsum (n_dof (r_num r)) (fun c => tscal (v c) (J c)))) ls jacs.
Proof.
  intros W NE. destruct (fk_spatial_ok u root depth WF r HR m Hfix d angles Hm names ls W NE) as (jp & E & HJ).
  eexists. split; [exact E|]. destruct W as (_ & H). clear E NE.
  assert (G : forall ls', (forall l, In l ls' -> In l ls) -> Forall2 (fun l J => moves6_spatial (fun x => Pc x l) (Pc 0 l) (tsum (n_dof (r_num r)) (fun c => tscal (v c) (J c)))) ls'
    (map (fun l c => if existsb (Nat.eqb c) (r_ancj r l) then jp c else tzero) ls')).
  { induction ls' as [|l ls' IH]; intros HI; constructor.
    - apply (link_sum u root depth WF r HR m (fun j => v (jidf r j)) Hrig Hfix Hmv l jp v); [apply H, HI; left; reflexivity|reflexivity|].
      apply HJ, HI. left. reflexivity.
    - apply IH. intros x I. apply HI. right. exact I. }
  apply G. auto.
Qed.
Lemma gen_body names ls : wanted u r names ls -> ls <> [] ->
  exists jacs, fk_body d u r names (n_dof (r_num r)) angles = Some (jacs, map (Pc 0) ls)
  /\ Forall2 (fun l J => moves6 (fun x => Pc x l) (Pc 0 l) (tsum (n_dof (r_num r)) (fun c => tscal (v c) (J c)))) ls jacs.
Proof.
  intros W NE. destruct (gen_spatial names ls W NE) as (js & E & F). unfold fk_body. rewrite E. cbn [bind]. eexists. split; [reflexivity|].
  assert (H := proj2 W). clear E W NE. revert js F H. induction ls as [|l ls IH]; intros js F H; inversion F as [|? J ? js' M F' E1 E2]; subst; [constructor|].
  cbn [map combine]. constructor; [|apply IH; [exact F'|intros x I; apply H; right; exact I]]. cbn [fst snd].
  assert (Rp : rigid3 (Pc 0 l)) by (apply posef_rigid; [exact WF|apply H; left; reflexivity|exact Hrig]).
  apply (body_spatial _ _ _ Rp). destruct (C37_adjoint (Pc 0 l) (Pc 0 l) tzero Rp Rp) as (_ & _ & AI & _).
  replace (app66 _ _) with (tsum (n_dof (r_num r)) (fun c => tscal (v c) (J c))); [exact M|].
  rewrite !tsum_lsum. induction (seq 0 (n_dof (r_num r))) as [|c s IHs]; [symmetry; apply app66_0|].
  rewrite !lsum_cons, app66_add, <- IHs, app66_scal, <- app66_mul, AI, app66_I. reflexivity.
Qed.
Lemma gen_backward names ls grads poses ids : wanted u r names ls -> length grads = length ls -> fk_ids u r names = Some ids ->
  fk_helper d u r (snd ids) (n_dof (r_num r)) angles = Some poses ->
  exists gi, fk_backward u r ids poses grads = Some gi
  /\ deriv (fun x => rsum_list (map (fun lg => frob34 (snd lg) (Pc x (fst lg))) (combine ls grads))) 0
           (rsum_list (map (fun c => gi c * v c) (seq 0 (n_dof (r_num r))))).
Proof.
  intros W HL EI EH. rewrite (fk_ids_ok u root depth WF r HR names ls W) in EI. injection EI as <-. cbn [snd] in EH.
  destruct (fk_backward_ok u root depth WF r HR m Hfix d angles Hm names ls grads poses W HL EH) as (jp & gi & E & HJ & HG).
  exists gi. split; [exact E|]. clear E EH. destruct W as (_ & H).
  set (N := n_dof (r_num r)).
  assert (X : forall L : list (nat * Rig), (forall lg, In lg L -> In (fst lg) ls) ->
    deriv (fun x => rsum_list (map (fun lg => frob34 (snd lg) (Pc x (fst lg))) L)) 0 (rsum_list (map (fun c => dot6 (jp c) (gsum u root depth r m c L) * v c) (seq 0 N)))).
  { induction L as [|lg L IH]; intros HI.
    - cbn [map rsum_list]. eapply deriv_val; [|apply d_const]. induction (seq 0 N) as [|c s IHs]; [reflexivity|]. cbn [map rsum_list]. rewrite <- IHs. unfold gsum. cbn [fold_right]. rewrite dot6_0. ring.
    - cbn [map rsum_list]. assert (Il : In (fst lg) ls) by (apply HI; left; reflexivity).
      pose proof (link_sum u root depth WF r HR m (fun j => v (jidf r j)) Hrig Hfix Hmv (fst lg) jp v (H _ Il) (fun _ _ _ => eq_refl) (HJ _ Il)) as M.
      eapply deriv_val; [|apply d_plus; [apply (pull_deriv _ _ _ (snd lg) M)|apply IH; intros x I; apply HI; right; exact I]].
      rewrite dot6_tsum, <- rsum_add. apply rsum_ext. intros c _. unfold gsum at 2. cbn [fold_right]. fold (gsum u root depth r m c L).
      rewrite dot6_add, dot6_scal. unfold pull. cbv zeta. fold N. destruct (existsb (Nat.eqb c) (r_ancj r (fst lg))); [|rewrite !dot6_0; ring].
      rewrite (dot6_comm _ (jp c)). ring. }
  eapply deriv_val; [|apply X; intros lg I; destruct lg as [a b]; apply in_combine_l in I; exact I].
  apply rsum_ext. intros c _. rewrite HG. reflexivity.
Qed.
End G.

Lemma map_eq_in {A B} (f g : A -> B) l : (forall x, In x l -> f x = g x) -> map f l = map g l.
Proof. apply map_ext_in. Qed.

(** ** the theorems *)
(** the hypotheses: a tree; the asked links; curves of the angles, numbered by entry ([angles]) and by joint ([q]), with derivatives [dq]; [h]: the poses along the curve *)
Definition fk_curve (mot : UJoint -> R -> Rig -> Prop) (u : Urdf) (root : nat) (r : Robot) (names : option (list nat)) (ls : list nat)
    (angles q : R -> nat -> R) (dq : nat -> R) (h : nat -> R -> Rig) :=
  is_tree u root /\ from_urdf u = Some r /\ asked u r names ls
  /\ (forall x, joint_angles r (angles x) (q x)) /\ (forall c, (c < n_dof (r_num r))%nat -> deriv (fun x => angles x c) 0 (dq c))
  /\ (forall l x, In l ls -> link_pose mot u root (q x) l (h l x)).

Lemma curve_code u root depth r d angles q dq s j : tree_of u root depth -> robot_of u root depth r ->
  (forall x, joint_angles r (angles x) (q x)) -> (forall c, (c < n_dof (r_num r))%nat -> deriv (fun x => angles x c) 0 (dq c)) ->
  off_switch d u r (angles 0) -> turns d u r (angles 0) s -> (j < length (u_joints u))%nat -> joint_fixed u j = false ->
  moves6 (fun x => mof u r d (angles x) j) (mof u r d (angles 0) j) (tscal (s (jidf r j) * dq (jidf r j)) (joint_axis (ujn u j))).
Proof.
  intros WF HR HQ HD HO HT Lj Fj. unfold mof. destruct (joint_facts u root depth r HR j Lj) as (A & _ & _ & D & _). apply D in Fj.
  destruct (ujn_ok u root depth WF j Lj) as (Ej & _). rewrite (HT j _ _ Ej A Fj).
  apply (motf_moves d (ujn u j) (fun x => angles x (jidf r j)) (dq (jidf r j)) (HD _ Fj)). intros Tj. apply (HO j _ _ Ej A Fj Tj).
Qed.
Lemma curve_exact u root depth r (angles : R -> nat -> R) dq j : tree_of u root depth -> robot_of u root depth r ->
  (forall c, (c < n_dof (r_num r))%nat -> deriv (fun x => angles x c) 0 (dq c)) -> (j < length (u_joints u))%nat -> joint_fixed u j = false ->
  moves6 (fun x => mote (ujn u j) (angles x (jidf r j))) (mote (ujn u j) (angles 0 (jidf r j))) (tscal (dq (jidf r j)) (joint_axis (ujn u j))).
Proof.
  intros WF HR HD Lj Fj. destruct (joint_facts u root depth r HR j Lj) as (A & _ & _ & D & _). apply D in Fj.
  apply (mote_moves (ujn u j) (fun x => angles x (jidf r j)) (dq (jidf r j)) (HD _ Fj)).
Qed.
Lemma mote_fix u root depth q j : tree_of u root depth -> (j < length (u_joints u))%nat -> joint_fixed u j = true -> mote (ujn u j) q = mkRig I3 zero3.
Proof.
  intros WF Lj F. unfold mote. destruct (ujn_ok u root depth WF j Lj) as (_ & _ & Ef & _). rewrite F in Ef. unfold fixed_joint in Ef.
  destruct (uj_type (ujn u j)); [discriminate|discriminate|reflexivity].
Qed.
(** where the code is exact *)
Lemma mote_motf u root depth r d angles q j : tree_of u root depth -> robot_of u root depth r -> joint_angles r angles q -> exact_angles d u q -> (j < length (u_joints u))%nat ->
  mote (ujn u j) (angles (jidf r j)) = mof u r d angles j.
Proof.
  intros WF HR HQ HE Lj. unfold mof. destruct (ujn_ok u root depth WF j Lj) as (Ej & _ & Ef & _). destruct (joint_facts u root depth r HR j Lj) as (A & _ & _ & D & _).
  specialize (HE j _ Ej). destruct (joint_fixed u j) eqn:Fj.
  - unfold mote, motf, fixed_joint in *. destruct (uj_type (ujn u j)); [discriminate|discriminate|reflexivity].
  - rewrite (HQ j _ A (proj2 D eq_refl)) in HE. unfold mote, motf. destruct (uj_type (ujn u j)); [|reflexivity|reflexivity]. specialize (HE eq_refl).
    destruct (C36_exp_rotation d (scal3 (angles (jidf r j)) (uj_axis (ujn u j)))) as (g & E & _). rewrite E. f_equal.
    apply (C36_exp_is_exponential d _ g HE E). apply is_exp_E3. reflexivity.
Qed.
Lemma mote_poses u root depth r angles q l : tree_of u root depth -> robot_of u root depth r -> joint_angles r angles q -> (l < u_nlinks u)%nat ->
  forall T, link_pose joint_motion u root q l T <-> T = posef u root depth (fun j => mote (ujn u j) (angles (jidf r j))) l.
Proof.
  intros WF HR HQ Ll T. rewrite (link_pose_gen u root depth WF joint_motion mote q l mote_ok Ll). erewrite posef_ext; [reflexivity|exact WF|exact Ll|].
  intros j Lj. cbv beta. destruct (ujn_ok u root depth WF j Lj) as (_ & _ & Ef & _). destruct (joint_facts u root depth r HR j Lj) as (A & _ & _ & D & _).
  destruct (fixed_joint (ujn u j)) eqn:F.
  - unfold mote, fixed_joint in *. destruct (uj_type (ujn u j)); [discriminate|discriminate|reflexivity].
  - rewrite (HQ j _ A); [reflexivity|]. apply D. congruence.
Qed.

(** what a Jacobian and a gradient mean: velocities of the poses [h], spatial or body, and the derivative of a loss with the gradients [grads] *)
Definition jacobians_ok (d : dtype) (u : Urdf) (r : Robot) (names : option (list nat)) (ls : list nat) (angles : nat -> R) (rate : nat -> R) (h : nat -> R -> Rig) :=
  (exists jacs, fk_spatial d u r names (n_dof (r_num r)) angles = Some (jacs, map (fun l => h l 0) ls)
    /\ Forall2 (fun l J => moves6_spatial (h l) (h l 0) (tsum (n_dof (r_num r)) (fun c => tscal (rate c) (J c)))) ls jacs)
  /\ (exists jacs, fk_body d u r names (n_dof (r_num r)) angles = Some (jacs, map (fun l => h l 0) ls)
    /\ Forall2 (fun l J => moves6 (h l) (h l 0) (tsum (n_dof (r_num r)) (fun c => tscal (rate c) (J c)))) ls jacs).
Definition gradient_ok (d : dtype) (u : Urdf) (r : Robot) (names : option (list nat)) (ls : list nat) (angles : nat -> R) (rate : nat -> R) (h : nat -> R -> Rig) :=
  exists ids poses, fk_ids u r names = Some ids /\ fk_helper d u r (snd ids) (n_dof (r_num r)) angles = Some poses
  /\ forall grads, length grads = length ls -> exists gi, fk_backward u r ids poses grads = Some gi
    /\ deriv (fun x => rsum_list (map (fun lg => frob34 (snd lg) (h (fst lg) x)) (combine ls grads))) 0
             (rsum_list (map (fun c => gi c * rate c) (seq 0 (n_dof (r_num r))))).

Lemma gen_all u root depth r d m v angles names ls h : tree_of u root depth -> robot_of u root depth r ->
  (forall j, (j < length (u_joints u))%nat -> rigid3 (m 0 j)) ->
  (forall x j, (j < length (u_joints u))%nat -> joint_fixed u j = true -> m x j = mkRig I3 zero3) ->
  (forall j, (j < length (u_joints u))%nat -> joint_fixed u j = false -> moves6 (fun x => m x j) (m 0 j) (tscal (v (jidf r j)) (joint_axis (ujn u j)))) ->
  (forall j, (j < length (u_joints u))%nat -> relative_pose d (ujn u j) (t_origin (r_tree r) j) (if Nat.ltb (jidf r j) (n_dof (r_num r)) then Some (angles (jidf r j)) else None) = Some (se3_compose (t_origin (r_tree r) j) (m 0 j))) ->
  wanted u r names ls -> (forall l x, In l ls -> h l x = posef u root depth (m x) l) ->
  (ls <> [] -> jacobians_ok d u r names ls angles v h) /\ gradient_ok d u r names ls angles v h.
Proof.
  intros WF HR Hrig Hfix Hmv Hm W Hh.
  assert (E0 : map (posef u root depth (m 0)) ls = map (fun l => h l 0) ls) by (apply map_ext_in; intros l I; symmetry; apply Hh, I).
  split; [intros NE; split|].
  - destruct (gen_spatial u root depth WF r HR d m v angles Hrig Hfix Hmv Hm names ls W NE) as (jacs & E & F). exists jacs. rewrite E, E0. split; [reflexivity|].
    clear E E0 W NE. revert Hh. induction F as [|l J ls' js M F IH]; intros Hh; constructor; [|apply IH; intros; apply Hh; right; assumption].
    apply spatial_iff in M. apply spatial_iff. rewrite (Hh l 0 (or_introl eq_refl)). split; [reflexivity|]. destruct M as (_ & M1 & M2). split.
    + apply (deriv_m3_ext (fun x => rr (posef u root depth (m x) l))); [intros x; rewrite (Hh l x (or_introl eq_refl)); reflexivity|exact M1].
    + apply (deriv3_ext (fun x => rp (posef u root depth (m x) l))); [intros x; rewrite (Hh l x (or_introl eq_refl)); reflexivity|exact M2].
  - destruct (gen_body u root depth WF r HR d m v angles Hrig Hfix Hmv Hm names ls W NE) as (jacs & E & F). exists jacs. rewrite E, E0. split; [reflexivity|].
    clear E E0 W NE. revert Hh. induction F as [|l J ls' js M F IH]; intros Hh; constructor; [|apply IH; intros; apply Hh; right; assumption].
    apply moves6_iff in M. apply moves6_iff. rewrite (Hh l 0 (or_introl eq_refl)). split; [reflexivity|]. destruct M as (_ & M1 & M2). split.
    + apply (deriv_m3_ext (fun x => rr (posef u root depth (m x) l))); [intros x; rewrite (Hh l x (or_introl eq_refl)); reflexivity|exact M1].
    + apply (deriv3_ext (fun x => rp (posef u root depth (m x) l))); [intros x; rewrite (Hh l x (or_introl eq_refl)); reflexivity|exact M2].
  - destruct (fk_helper_ok u root depth WF r HR d (m 0) angles Hm (Hfix 0) ls (proj2 W)) as (poses & EH & _).
    eexists. exists poses. split; [apply (fk_ids_ok u root depth WF r HR names ls W)|]. split; [exact EH|]. intros grads HL.
    destruct (gen_backward u root depth WF r HR d m v angles Hrig Hfix Hmv Hm names ls grads poses _ W HL (fk_ids_ok u root depth WF r HR names ls W) EH) as (gi & E & D).
    exists gi. split; [exact E|]. eapply deriv_ext; [|exact D]. intros x. cbv beta. f_equal. apply map_ext_in. intros [l g] I. cbn [fst snd]. rewrite Hh; [reflexivity|]. apply in_combine_l in I. exact I.
Qed.

(** the Jacobians and gradients of the code are those of the poses the code computes, at the rate of [C65_turn_scale] *)
Theorem C65_jacobians : forall d u root r names ls angles q dq h s, fk_curve (mot_code d) u root r names ls angles q dq h ->
  off_switch d u r (angles 0) -> turns d u r (angles 0) s ->
  (ls <> [] -> jacobians_ok d u r names ls (angles 0) (fun c => s c * dq c) h) /\ gradient_ok d u r names ls (angles 0) (fun c => s c * dq c) h.
Proof.
  intros d u root r names ls angles q dq h s ((depth & WF) & E & HA & HQ & HD & HP) HO HT.
  destruct (from_urdf_ok u root depth WF) as (r' & E' & HR). assert (r' = r) by congruence. subst r'. pose proof (asked_wanted u root depth r names ls WF HR HA) as W.
  apply (gen_all u root depth r d (fun x => mof u r d (angles x)) (fun c => s c * dq c) (angles 0) names ls h WF HR).
  - intros j Lj. apply motf_rigid.
  - intros x j Lj F. apply (mof_fix u root depth WF r d (angles x) j Lj F).
  - intros j Lj F. apply (curve_code u root depth r d angles q dq s j WF HR HQ HD HO HT Lj F).
  - intros j Lj. apply (mof_rel u root depth WF r HR d (angles 0) j Lj).
  - exact W.
  - intros l x I. apply (pose_of_angles u root depth r d (angles x) (q x) l WF HR (HQ x)); [apply (proj2 W l I)|]. apply HP, I.
Qed.
(** they are those of the exact kinematics where the poses are exact *)
Theorem C65_exact_jacobians : forall d u root r names ls angles q dq h, fk_curve joint_motion u root r names ls angles q dq h ->
  exact_angles d u (q 0) -> (ls <> [] -> jacobians_ok d u r names ls (angles 0) dq h) /\ gradient_ok d u r names ls (angles 0) dq h.
Proof.
  intros d u root r names ls angles q dq h ((depth & WF) & E & HA & HQ & HD & HP) HX.
  destruct (from_urdf_ok u root depth WF) as (r' & E' & HR). assert (r' = r) by congruence. subst r'. pose proof (asked_wanted u root depth r names ls WF HR HA) as W.
  apply (gen_all u root depth r d (fun x j => mote (ujn u j) (angles x (jidf r j))) dq (angles 0) names ls h WF HR).
  - intros j Lj. rewrite (mote_motf u root depth r d (angles 0) (q 0) j WF HR (HQ 0) HX Lj). apply motf_rigid.
  - intros x j Lj F. apply (mote_fix u root depth _ j WF Lj F).
  - intros j Lj F. apply (curve_exact u root depth r angles dq j WF HR HD Lj F).
  - intros j Lj. rewrite (mote_motf u root depth r d (angles 0) (q 0) j WF HR (HQ 0) HX Lj). apply (mof_rel u root depth WF r HR d (angles 0) j Lj).
  - exact W.
  - intros l x I. apply (mote_poses u root depth r (angles x) (q x) l WF HR (HQ x)); [apply (proj2 W l I)|]. apply HP, I.
Qed.

(** curves as in the hypotheses: all angles of the example robot from zero at unit speed *)
Example C65_example : exists r h, fk_curve joint_motion example_urdf 0 r None (n_links (r_num r)) (fun x _ => x) (fun x _ => x) (fun _ => 1) h
  /\ exact_angles F64 example_urdf (fun _ => 0).
Proof.
  destruct example_tree as (depth & WF). destruct (from_urdf_ok _ _ _ WF) as (r & E & HR).
  exists r, (fun l x => posef example_urdf 0 depth (fun j => mote (ujn example_urdf j) x) l). split; [|].
  - split; [exact example_tree|]. split; [exact E|]. split; [reflexivity|]. split; [intros x j i _ _; reflexivity|]. split; [intros c _; apply derivable_pt_lim_id|].
    intros l x I. apply (mote_poses _ _ _ r (fun _ => x) (fun _ => x) l WF HR); [intros j i _ _; reflexivity|apply (links_all _ _ _ r WF HR); exact I|reflexivity].
  - intros j uj _ _. right. apply V3_ext; cbn; ring.
Qed.

(** ** C66 *)
(** UrdfRobotModel cannot be used with its default link_names: the call raises, for every robot and all angles *)
Theorem C66_default_link_names : forall d u r dim angles, urdf_fk d u r None dim angles = None.
Proof. intros d u r dim angles. unfold urdf_fk. destruct (Nat.eqb dim _); [|reflexivity]. destruct (fk_forward d u r None dim angles); reflexivity. Qed.
(** with link names, the dictionary has the poses of the forward kinematics *)
Theorem C66_named_links : forall u root r d ls angles q, is_tree u root -> from_urdf u = Some r -> (forall l, In l ls -> (l < u_nlinks u)%nat) -> joint_angles r angles q ->
  exists res, urdf_fk d u r (Some ls) (n_dof (r_num r)) angles = Some res /\ map fst res = ls
  /\ forall l T, In (l, T) res -> link_pose (mot_code d) u root q l T.
Proof.
  intros u root r d ls angles q HT E HL HQ. destruct (C64_forward_kinematics u root r d (Some ls) ls (n_dof (r_num r)) angles q HT E) as (H & _); [split; [reflexivity|exact HL]|exact HQ|].
  destruct (H eq_refl) as (poses & EF & F). unfold urdf_fk. rewrite Nat.eqb_refl, EF. cbn [bind]. eexists. split; [reflexivity|]. clear EF HL H.
  induction F as [|l T ls poses HLT F IH]; [split; [reflexivity|intros l T []]|]. destruct IH as (IH1 & IH2). cbn [combine map fst]. split; [rewrite IH1; reflexivity|].
  intros l' T' [Q|Q]; [|apply IH2, Q]. injection Q as <- <-. apply HLT. reflexivity.
Qed.
(** RevoluteJointX, Y and Z (k = 0, 1, 2): without id the constructor raises; with an id the axis is the id, not k *)
Theorem C66_xyz_axis : forall k id, (0 <= k < 3)%Z ->
  revolute_xyz k None = None /\ (forall a i, revolute_xyz k (Some id) = Some (a, i) -> a = id /\ i = Some k) /\ ((id < 0 \/ 3 <= id)%Z -> revolute_xyz k (Some id) = None).
Proof.
  intros k id Hk. unfold revolute_xyz, xyz_init. cbn [bind]. split; [reflexivity|].
  destruct (Z.ltb_spec id 0), (Z.leb_spec 3 id); cbn [orb]; (split; [intros a i Q; congruence || (injection Q as <- <-; auto)|intros; try reflexivity; lia]).
Qed.
