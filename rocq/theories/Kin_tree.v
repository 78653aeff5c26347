(** The tree operations of torchkin's Robot: invariants of create_tree,
    simplify_tree, the breadth-first numbering and the caches. *)
From Coq Require Import Reals List Arith Bool Lia Permutation.
Import ListNotations.
From Verif Require Import Geo_spec Geo3_spec Geo4_spec SE2_model SO3_model SE3_model Kin_spec Kin_model.
Local Open Scope nat_scope.

Lemma upd_same {A} (f : nat -> A) i v : upd f i v i = v.
Proof. unfold upd. rewrite Nat.eqb_refl. reflexivity. Qed.
Lemma upd_other {A} (f : nat -> A) i v k : k <> i -> upd f i v k = f k.
Proof. intros H. unfold upd. apply Nat.eqb_neq in H. rewrite H. reflexivity. Qed.

Lemma nodup_app {A} (a b : list A) : NoDup a -> NoDup b -> (forall x, In x a -> ~ In x b) -> NoDup (a ++ b).
Proof.
  induction a as [|x a IH]; intros Na Nb H; [exact Nb|]. inversion Na; subst. cbn. constructor.
  - rewrite in_app_iff. intros [I|I]; [contradiction|]. exact (H x (or_introl eq_refl) I).
  - apply IH; auto. intros y I. apply H. right. exact I.
Qed.
Lemma nodup_bounded l n : NoDup l -> (forall x, In x l -> x < n) -> length l <= n.
Proof.
  intros N H. rewrite <- (seq_length n 0). apply NoDup_incl_length; [exact N|]. intros x I. apply in_seq. specialize (H x I). lia.
Qed.

Section T.
Variable u : Urdf.
Variable root : nat.
Variable depth : nat -> nat.
Hypothesis WF : tree_of u root depth.
Notation nj := (length (u_joints u)).
Notation child := (joint_child u).

Lemma nth_joint j : j < nj -> exists uj, nth_error (u_joints u) j = Some uj /\ In uj (u_joints u) /\ child j = uj_child uj
  /\ joint_fixed u j = fixed_joint uj.
Proof.
  intros H. destruct (nth_error (u_joints u) j) as [uj|] eqn:E.
  - exists uj. split; [reflexivity|]. split; [eapply nth_error_In; exact E|]. unfold joint_child, joint_fixed. rewrite E. auto.
  - apply nth_error_None in E. lia.
Qed.

Lemma child_inj i j : i < nj -> j < nj -> child i = child j -> i = j.
Proof.
  intros Hi Hj E. destruct WF as (_ & ND & _).
  destruct (nth_joint i Hi) as (ui & Ei & _ & Ci & _), (nth_joint j Hj) as (uj & Ej & _ & Cj & _).
  assert (nth_error (map uj_child (u_joints u)) i = Some (child i)) by (rewrite nth_error_map, Ei, Ci; reflexivity).
  assert (nth_error (map uj_child (u_joints u)) j = Some (child i)) by (rewrite nth_error_map, Ej, E, Cj; reflexivity).
  apply (proj1 (NoDup_nth_error _) ND); [rewrite map_length; exact Hi|congruence].
Qed.
Lemma child_range j : j < nj -> child j < u_nlinks u.
Proof. intros H. destruct (nth_joint j H) as (uj & _ & I & -> & _). destruct WF as (_ & _ & _ & W). apply W, I. Qed.
Lemma child_not_root j : j < nj -> child j <> root.
Proof.
  intros H. pose proof (child_range j H) as R. destruct (nth_joint j H) as (uj & _ & I & E & _). destruct WF as (_ & _ & W & _).
  apply (W _ R). rewrite E. apply in_map, I.
Qed.
Lemma child_exists l : l < u_nlinks u -> l <> root -> exists j, j < nj /\ child j = l.
Proof.
  intros Hl N. destruct WF as (_ & _ & W & _). apply (W l Hl) in N. apply in_map_iff in N. destruct N as (uj & E & I).
  apply In_nth_error in I. destruct I as (j & Ej). exists j. split; [apply nth_error_Some; congruence|].
  unfold joint_child. rewrite Ej. exact E.
Qed.

(** ** the invariant of trees *)
Definition tree_ok (t : Tree) :=
  (forall l j, In j (t_children t l) <-> j < nj /\ t_jparent t j = l)
  /\ (forall l, NoDup (t_children t l))
  /\ (forall j, j < nj -> t_jparent t j < u_nlinks u /\ depth (t_jparent t j) < depth (child j))
  /\ (forall j, j < nj -> t_pjoint t (child j) = Some j)
  /\ t_pjoint t root = None.

(** the poses [P] of the links fit the tree: joints sit where the file puts them, and children of fixed joints on their joint *)
Definition fits (P : nat -> Rig) (t : Tree) := forall j, j < nj ->
  se3_compose (P (uj_parent (nth j (u_joints u) (mkUJ 0 0 Fixed zero3 None None)))) 
    (get_origin (uj_xyz (nth j (u_joints u) (mkUJ 0 0 Fixed zero3 None None))) (uj_rpy (nth j (u_joints u) (mkUJ 0 0 Fixed zero3 None None))))
  = se3_compose (P (t_jparent t j)) (t_origin t j).

Lemma nth_ujoint j uj : nth_error (u_joints u) j = Some uj -> nth j (u_joints u) (mkUJ 0 0 Fixed zero3 None None) = uj.
Proof. intros H. apply nth_error_nth. exact H. Qed.

(** create_tree: invariant of the prefixes *)
Lemma create_prefix : forall l1 l2, u_joints u = l1 ++ l2 ->
  exists t, fold_left (create_joint u) l1 (Some (0, mkTree (fun _ => []) (fun _ => None) (fun _ => 0) (fun _ => mkRig I3 zero3)))
    = Some (length l1, t)
  /\ (forall l j, In j (t_children t l) <-> j < length l1 /\ t_jparent t j = l)
  /\ (forall l, NoDup (t_children t l))
  /\ (forall j uj, j < length l1 -> nth_error (u_joints u) j = Some uj ->
        t_jparent t j = uj_parent uj /\ t_origin t j = get_origin (uj_xyz uj) (uj_rpy uj) /\ t_pjoint t (uj_child uj) = Some j)
  /\ t_pjoint t root = None.
Proof.
  induction l1 as [|uj l1 IH] using rev_ind; intros l2 E.
  - eexists. split; [reflexivity|]. cbn. split; [intros; split; [tauto|intros []; lia]|]. split; [constructor|]. split; [intros; lia|reflexivity].
  - rewrite <- app_assoc in E. destruct (IH ([uj] ++ l2) E) as (t & F & C & N & J & Rt). rewrite fold_left_app, F. cbn [fold_left create_joint bind].
    assert (Iu : In uj (u_joints u)) by (rewrite E; apply in_or_app; right; left; reflexivity).
    destruct WF as (_ & ND & W1 & W2). destruct (W2 uj Iu) as (Hp & Hc & Hd).
    apply Nat.ltb_lt in Hp, Hc. rewrite Hp, Hc. cbn [andb]. apply Nat.ltb_lt in Hp, Hc.
    assert (Lu : nth_error (u_joints u) (length l1) = Some uj) by (rewrite E, nth_error_app2, Nat.sub_diag by lia; reflexivity).
    assert (L1 : length l1 < nj) by (apply nth_error_Some; congruence).
    eexists. split; [rewrite app_length; cbn [length]; rewrite Nat.add_1_r; reflexivity|].
    cbn [t_children t_pjoint t_jparent t_origin]. rewrite app_length; cbn [length]. split; [|split; [|split]].
    + intros l j. destruct (Nat.eq_dec l (uj_parent uj)) as [->|Nl].
      * rewrite upd_same, in_app_iff, C. cbn [In]. destruct (Nat.eq_dec j (length l1)) as [->|Nj].
        -- rewrite upd_same. split; [intros _; split; [lia|reflexivity]|]. intros _. right. left. reflexivity.
        -- rewrite upd_other by exact Nj. split; [intros [H|[H|[]]]; [split; [lia|tauto]|congruence]|]. intros (H1 & H2). left. split; [lia|exact H2].
      * rewrite upd_other by exact Nl. rewrite C. destruct (Nat.eq_dec j (length l1)) as [->|Nj].
        -- rewrite upd_same. split; [intros (H & _); lia|]. intros (_ & H). congruence.
        -- rewrite upd_other by exact Nj. split; intros (H & H2); (split; [lia|exact H2]).
    + intros l. destruct (Nat.eq_dec l (uj_parent uj)) as [->|Nl]; [|rewrite upd_other by exact Nl; apply N].
      rewrite upd_same.
      apply Permutation_NoDup with (l := length l1 :: t_children t (uj_parent uj)); [apply Permutation_cons_append|].
      constructor; [|apply N]. rewrite C. lia.
    + intros j vj Hj Ej. destruct (Nat.eq_dec j (length l1)) as [->|Nj].
      * rewrite !upd_same. assert (vj = uj) as -> by congruence. rewrite upd_same. auto.
      * rewrite !upd_other with (k := j) by exact Nj. destruct (J j vj ltac:(lia) Ej) as (A & B & D). split; [exact A|]. split; [exact B|].
        rewrite upd_other; [exact D|]. intro Q. apply Nj.
        apply child_inj; [lia|exact L1|]. unfold joint_child. rewrite Ej, Lu. exact Q.
    + rewrite upd_other; [exact Rt|]. intro Q.
      assert (H : child (length l1) <> root) by (apply child_not_root; exact L1). unfold joint_child in H. rewrite Lu in H. congruence.
Qed.

Lemma create_tree_ok : exists t, create_tree u = Some t /\ tree_ok t /\ forall P, fits P t.
Proof.
  destruct (create_prefix (u_joints u) [] ltac:(rewrite app_nil_r; reflexivity)) as (t & F & C & N & J & Rt).
  exists t. split; [unfold create_tree; rewrite F; reflexivity|].
  split.
  - split; [exact C|]. split; [exact N|]. split; [|split; [|exact Rt]].
    + intros j Hj. destruct (nth_joint j Hj) as (uj & Ej & I & Ec & _). destruct (J j uj Hj Ej) as (-> & _).
      rewrite Ec. destruct WF as (_ & _ & _ & W). destruct (W uj I). tauto.
    + intros j Hj. destruct (nth_joint j Hj) as (uj & Ej & I & Ec & _). rewrite Ec. apply (J j uj Hj Ej).
  - intros P j Hj. destruct (nth_joint j Hj) as (uj & Ej & _). rewrite (nth_ujoint j uj Ej).
    destruct (J j uj Hj Ej) as (-> & -> & _). reflexivity.
Qed.

(** ** simplify_tree *)
Lemma se3_compose_assoc g h k : se3_compose (se3_compose g h) k = se3_compose g (se3_compose h k).
Proof. destruct g as [[] []], h as [[] []], k as [[] []]. apply Rig_ext; [apply M3_ext|apply V3_ext]; cbn; ring. Qed.

(** moving the subjoints [subs] of the fixed joint [f] to [link]; [P (child f)] sits on the joint *)
Lemma move_subjoints f link P : forall subs t,
  NoDup subs -> (forall s, In s subs -> s < nj /\ t_jparent t s = child f /\ s <> f) ->
  P (child f) = se3_compose (P link) (t_origin t f) ->
  fits P t ->
  let t' := fold_left (move_subjoint f link) subs t in
  t_pjoint t' = t_pjoint t
  /\ (forall l, t_children t' l = if Nat.eqb l link then t_children t l ++ subs else t_children t l)
  /\ (forall j, t_jparent t' j = if existsb (Nat.eqb j) subs then link else t_jparent t j)
  /\ t_origin t' f = t_origin t f
  /\ fits P t'.
Proof.
  induction subs as [|s subs IH]; intros t ND Hs HP HF t'.
  - subst t'. cbn. split; [reflexivity|]. split; [intros l; destruct (Nat.eqb l link); [rewrite app_nil_r|]; reflexivity|]. auto.
  - subst t'. cbn [fold_left]. inversion ND as [|? ? Ns ND']; subst.
    destruct (Hs s (or_introl eq_refl)) as (Ls & Ps & Nf).
    set (t1 := move_subjoint f link t s).
    assert (Hs1 : forall s', In s' subs -> s' < nj /\ t_jparent t1 s' = child f /\ s' <> f).
    { intros s' I. destruct (Hs s' (or_intror I)) as (A & B & C). split; [exact A|]. split; [|exact C].
      unfold t1, move_subjoint. cbn [t_jparent]. rewrite upd_other; [exact B|]. intros ->. exact (Ns I). }
    assert (O1 : t_origin t1 f = t_origin t f).
    { unfold t1, move_subjoint. cbn [t_origin]. apply upd_other. auto. }
    assert (F1 : fits P t1).
    { intros j Hj. rewrite (HF j Hj). unfold t1, move_subjoint. cbn [t_origin t_jparent].
      destruct (Nat.eq_dec j s) as [->|N]; [|rewrite !upd_other by exact N; reflexivity].
      rewrite !upd_same, Ps, HP. apply se3_compose_assoc. }
    destruct (IH t1 ND' Hs1 ltac:(rewrite O1; exact HP) F1) as (A & B & C & D & E). split; [|split; [|split; [|split]]].
    + rewrite A. reflexivity.
    + intros l. rewrite B. unfold t1, move_subjoint. cbn [t_children]. destruct (Nat.eqb_spec l link) as [->|N].
      * rewrite upd_same, <- app_assoc. reflexivity.
      * rewrite upd_other by exact N. reflexivity.
    + intros j. rewrite C. cbn [existsb]. unfold t1, move_subjoint. cbn [t_jparent]. unfold upd.
      destruct (Nat.eqb j s), (existsb (Nat.eqb j) subs); reflexivity.
    + rewrite D. exact O1.
    + exact E.
Qed.

(** the children of the child of a fixed joint *)
Definition flat_at (t : Tree) (f : nat) := t_children t (child f) = [].

Lemma existsb_In j l : existsb (Nat.eqb j) l = true <-> In j l.
Proof.
  rewrite existsb_exists. split; [intros (x & I & E); apply Nat.eqb_eq in E; subst; exact I|].
  intros I. exists j. split; [exact I|apply Nat.eqb_refl].
Qed.

Section P.
Variable P : nat -> Rig.
Hypothesis HP : forall f, f < nj -> joint_fixed u f = true -> forall t, fits P t ->
  P (child f) = se3_compose (P (t_jparent t f)) (t_origin t f).

Lemma simplify_joint_ok t link f : tree_ok t -> fits P t -> link < u_nlinks u -> In f (t_children t link) ->
  let t' := simplify_joint u link t f in
  tree_ok t' /\ fits P t'
  /\ (exists more, t_children t' link = t_children t link ++ more)
  /\ (joint_fixed u f = true -> flat_at t' f)
  /\ (forall l, l <> link -> t_children t' l = t_children t l \/ t_children t' l = [])
  /\ (forall l, l <> link -> forall j, t_jparent t' j = l -> t_jparent t j = l).
Proof.
  intros (OC & ON & OD & OP & OR) HF Hl If t'. subst t'. unfold simplify_joint.
  apply OC in If. destruct If as (Lf & Pf).
  destruct (joint_fixed u f) eqn:Ef.
  2:{ split; [split; auto|]. split; [exact HF|]. split; [exists []; rewrite app_nil_r; reflexivity|]. split; [discriminate|]. split; [auto|auto]. }
  set (c := child f). set (subs := t_children t c).
  set (t0 := mkTree (upd (t_children t) c []) (t_pjoint t) (t_jparent t) (t_origin t)).
  assert (Ncl : c <> link). { intro Q. pose proof (proj2 (OD f Lf)) as D. rewrite Pf in D. unfold c in Q. rewrite Q in D. lia. }
  assert (Hs : forall s, In s subs -> s < nj /\ t_jparent t0 s = child f /\ s <> f).
  { intros s I. apply OC in I. destruct I as (A & B). split; [exact A|]. split; [exact B|]. intros ->. unfold c in *. congruence. }
  assert (HP0 : P (child f) = se3_compose (P link) (t_origin t0 f)).
  { cbn [t0 t_origin]. rewrite <- Pf. apply HP; assumption. }
  destruct (move_subjoints f link P subs t0 (ON c) Hs HP0 HF) as (A & B & C & _ & F).
  set (t' := fold_left (move_subjoint f link) subs t0) in *. clearbody t'.
  assert (Bl : t_children t' link = t_children t link ++ subs).
  { rewrite B, Nat.eqb_refl. cbn [t0 t_children]. rewrite upd_other by auto. reflexivity. }
  assert (Bc : t_children t' c = []).
  { rewrite B. destruct (Nat.eqb_spec c link); [contradiction|]. cbn [t0 t_children]. apply upd_same. }
  assert (Bo : forall l, l <> link -> l <> c -> t_children t' l = t_children t l).
  { intros l N1 N2. rewrite B. destruct (Nat.eqb_spec l link); [contradiction|]. cbn [t0 t_children]. apply upd_other. exact N2. }
  assert (Cs : forall j, In j subs -> t_jparent t' j = link).
  { intros j I. rewrite C. apply existsb_In in I. rewrite I. reflexivity. }
  assert (Cn : forall j, ~ In j subs -> t_jparent t' j = t_jparent t j).
  { intros j I. rewrite C. destruct (existsb (Nat.eqb j) subs) eqn:Q; [apply existsb_In in Q; contradiction|reflexivity]. }
  split; [split; [|split; [|split; [|split]]]|].
  - intros l j. destruct (in_dec Nat.eq_dec j subs) as [I|I].
    + rewrite (Cs j I). assert (Hj := I). apply OC in Hj. destruct Hj as (Lj & Pj). split.
      * intros H. split; [exact Lj|]. destruct (Nat.eq_dec l link) as [->|N1]; [reflexivity|].
        destruct (Nat.eq_dec l c) as [->|N2]; [rewrite Bc in H; destruct H|].
        rewrite (Bo l N1 N2) in H. apply OC in H. destruct H as (_ & H). congruence.
      * intros (_ & <-). rewrite Bl. apply in_or_app. right. exact I.
    + rewrite (Cn j I). destruct (Nat.eq_dec l link) as [->|N1].
      * rewrite Bl, in_app_iff, OC. tauto.
      * destruct (Nat.eq_dec l c) as [->|N2].
        -- rewrite Bc. split; [intros []|]. intros H. apply OC in H. contradiction.
        -- rewrite (Bo l N1 N2). apply OC.
  - intros l. destruct (Nat.eq_dec l link) as [->|N1].
    + rewrite Bl. apply nodup_app; [apply ON|apply ON|]. intros x I1 I2. apply OC in I1, I2. destruct I1, I2. congruence.
    + destruct (Nat.eq_dec l c) as [->|N2]; [rewrite Bc; constructor|rewrite (Bo l N1 N2); apply ON].
  - intros j Lj. destruct (in_dec Nat.eq_dec j subs) as [I|I].
    + rewrite (Cs j I). split; [exact Hl|]. apply OC in I. destruct I as (_ & I).
      pose proof (proj2 (OD j Lj)) as D1. pose proof (proj2 (OD f Lf)) as D2. rewrite I in D1. rewrite Pf in D2. unfold c in *. lia.
    + rewrite (Cn j I). apply OD. exact Lj.
  - intros j Lj. rewrite A. apply OP. exact Lj.
  - rewrite A. exact OR.
  - split; [exact F|]. split; [exists subs; exact Bl|]. split; [intros _; exact Bc|]. split.
    + intros l N1. destruct (Nat.eq_dec l c) as [->|N2]; [right; exact Bc|left; apply Bo; assumption].
    + intros l N1 j H. destruct (in_dec Nat.eq_dec j subs) as [I|I]; [rewrite (Cs j I) in H; congruence|]. rewrite (Cn j I) in H. exact H.
Qed.

Definition done (D : nat -> Prop) (t : Tree) := forall f, f < nj -> joint_fixed u f = true -> D (t_jparent t f) -> flat_at t f.

Lemma simplify_link_ok link (D : nat -> Prop) : link < u_nlinks u -> ~ D link -> forall fuel i t,
  nj <= fuel + i -> tree_ok t -> fits P t -> done D t ->
  (forall f, In f (firstn i (t_children t link)) -> joint_fixed u f = true -> flat_at t f) ->
  exists t', simplify_link fuel u link i t = Some t' /\ tree_ok t' /\ fits P t' /\ done (fun l => D l \/ l = link) t'.
Proof.
  intros Hl ND. induction fuel as [|fuel IH]; intros i t Hf OK HF HD Hi.
  - assert (L : length (t_children t link) <= nj).
    { destruct OK as (OC & ON & _). apply nodup_bounded; [apply ON|]. intros x I. apply OC in I. tauto. }
    cbn [simplify_link]. assert (E : nth_error (t_children t link) i = None) by (apply nth_error_None; lia). rewrite E.
    exists t. split; [reflexivity|]. split; [exact OK|]. split; [exact HF|]. intros f Lf Ff [H|H]; [apply HD; assumption|].
    apply Hi; [|exact Ff]. rewrite firstn_all2 by lia. apply (proj1 OK). auto.
  - cbn [simplify_link]. destruct (nth_error (t_children t link) i) as [j|] eqn:E.
    2:{ exists t. split; [reflexivity|]. split; [exact OK|]. split; [exact HF|]. intros f Lf Ff [H|H]; [apply HD; assumption|].
        apply Hi; [|exact Ff]. apply nth_error_None in E. rewrite firstn_all2 by lia. apply (proj1 OK). auto. }
    destruct (simplify_joint_ok t link j OK HF Hl (nth_error_In _ _ E)) as (OK' & HF' & (more & EM) & FL & CO & JO).
    set (t' := simplify_joint u link t j) in *. clearbody t'.
    assert (Keep : forall f, child f <> link -> flat_at t f -> flat_at t' f).
    { intros f N H. unfold flat_at in *. destruct (CO _ N) as [Q|Q]; congruence. }
    apply IH; [lia|exact OK'|exact HF'| |].
    + intros f Lf Ff Df. destruct (Nat.eq_dec (t_jparent t' f) link) as [Q|Q]; [rewrite Q in Df; contradiction|].
      pose proof (JO _ Q f eq_refl) as Q2. apply Keep; [|apply HD; [exact Lf|exact Ff|rewrite Q2; exact Df]].
      intros Q3. assert (Fl : flat_at t f) by (apply HD; [exact Lf|exact Ff|rewrite Q2; exact Df]).
      unfold flat_at in Fl. rewrite Q3 in Fl. rewrite Fl in E. destruct i; discriminate.
    + intros f If Ff. rewrite EM in If.
      assert (Li : S i <= length (t_children t link)) by (assert (nth_error (t_children t link) i <> None) by congruence; apply nth_error_Some; assumption).
      rewrite firstn_app in If. replace (S i - length (t_children t link)) with 0 in If by lia. rewrite app_nil_r in If.
      assert (E2 : firstn (S i) (t_children t link) = firstn i (t_children t link) ++ [j]).
      { clear -E. revert i E. generalize (t_children t link). induction l as [|x l IH]; intros [|i] E; try discriminate; cbn in *; [congruence|].
        f_equal. apply IH. exact E. }
      rewrite E2, in_app_iff in If. destruct If as [If|[<-|[]]]; [|apply FL; exact Ff].
      assert (Hf2 : In f (t_children t link)) by (rewrite <- (firstn_skipn i (t_children t link)); apply in_or_app; left; exact If).
      apply Keep; [|apply Hi; assumption]. destruct OK as (OC & _ & OD & _). apply OC in Hf2. destruct Hf2 as (Lf & Pf).
      intros Q. pose proof (proj2 (OD f Lf)) as Dd. rewrite Pf, Q in Dd. lia.
Qed.

Lemma simplify_tree_ok t : tree_ok t -> fits P t -> exists t', simplify_tree u t = Some t' /\ tree_ok t' /\ fits P t'
  /\ forall j f, j < nj -> f < nj -> joint_fixed u f = true -> t_jparent t' j <> child f.
Proof.
  intros OK HF. unfold simplify_tree.
  assert (H : forall n, n <= u_nlinks u -> exists t',
    fold_left (fun t link => bind t (fun t => simplify_link nj u link 0 t)) (seq 0 n) (Some t) = Some t'
    /\ tree_ok t' /\ fits P t' /\ done (fun l => l < n) t').
  { induction n as [|n IH]; intros Hn.
    - exists t. split; [reflexivity|]. split; [exact OK|]. split; [exact HF|]. intros f _ _ H. lia.
    - destruct (IH ltac:(lia)) as (t1 & E1 & OK1 & HF1 & D1). rewrite seq_S, fold_left_app, E1. cbn [fold_left bind Nat.add].
      destruct (simplify_link_ok n (fun l => l < n) Hn (Nat.lt_irrefl n) nj 0 t1 ltac:(lia) OK1 HF1 D1) as (t2 & E2 & OK2 & HF2 & D2).
      { cbn. tauto. }
      exists t2. split; [exact E2|]. split; [exact OK2|]. split; [exact HF2|]. intros f Lf Ff H. apply D2; try assumption. lia. }
  destruct (H (u_nlinks u) (Nat.le_refl _)) as (t' & E & OK' & HF' & D'). exists t'. split; [exact E|]. split; [exact OK'|]. split; [exact HF'|].
  intros j f Lj Lf Ff Q. destruct OK' as (OC & _ & OD & _).
  assert (Fl : flat_at t' f) by (apply D'; [exact Lf|exact Ff|apply OD; exact Lf]).
  unfold flat_at in Fl. assert (I : In j (t_children t' (child f))) by (apply OC; auto). rewrite Fl in I. destruct I.
Qed.
End P.
End T.
