(** Proofs about [Objective.copy]: the last loop, which unifies the copies and adds them. *)
From Coq Require Import List Arith Lia Bool.
Import ListNotations.
From Verif Require Import Dict Obj_model Obj_spec Obj_proofs Copy_model Copy_spec
  Copy_proofs Copy_proofs2.

(** The registry invariant only depends on what the objective's cost functions refer to. *)
Record agree (w w' : world) (cs : list cid) : Prop := {
  ag_c : forall c, In c cs -> c_name w' c = c_name w c /\ c_optim w' c = c_optim w c /\
     c_aux w' c = c_aux w c /\ c_weight w' c = c_weight w c;
  ag_w : forall c, In c cs -> w_optim w' (c_weight w c) = w_optim w (c_weight w c) /\
     w_aux w' (c_weight w c) = w_aux w (c_weight w c);
  ag_v : forall v, v_name w' v = v_name w v /\ v_dtype_ok w' v = v_dtype_ok w v
}.

Lemma agree_existsb w w' cs x : agree w w' cs ->
  existsb (fun c => c_weight w' c =? x) cs = existsb (fun c => c_weight w c =? x) cs.
Proof.
  intros [A _ _]. induction cs as [|c cs IH]; [reflexivity|]. simpl.
  destruct (A c (or_introl eq_refl)) as (_ & _ & _ & ->). rewrite IH; [reflexivity|].
  intros d Hd. apply A. now right.
Qed.

Lemma Inv_agree w w' s cs : agree w w' cs -> Inv w s cs -> Inv w' s cs.
Proof.
  intros HA [HJ Hnd Hcf Hnm Hw Hwo Hcw].
  assert (Huse : forall k v f, uses w cs k v f = uses w' cs k v f).
  { intros k v f. unfold uses, times_optim, times_aux. destruct k; [|reflexivity|].
    - destruct f as [c|x]; [|reflexivity].
      destruct (in_dec Nat.eq_dec c cs) as [Hin|Hin].
      + destruct (ag_c _ _ _ HA c Hin) as (_ & -> & _). reflexivity.
      + apply (count_occ_not_In Nat.eq_dec) in Hin. rewrite Hin. reflexivity.
    - destruct f as [c|x].
      + destruct (in_dec Nat.eq_dec c cs) as [Hin|Hin].
        * destruct (ag_c _ _ _ HA c Hin) as (_ & _ & -> & _). reflexivity.
        * apply (count_occ_not_In Nat.eq_dec) in Hin. rewrite Hin. reflexivity.
      + rewrite (agree_existsb _ _ _ x HA).
        destruct (existsb (fun c => c_weight w c =? x) cs) eqn:E; [|reflexivity].
        apply existsb_exists in E as (c & Hin & E). apply Nat.eqb_eq in E; subst x.
        destruct (ag_w _ _ _ HA c Hin) as (_ & ->). reflexivity. }
  assert (Hname : forall v, v_name w' v = v_name w v) by (intros; apply (ag_v _ _ _ HA)).
  assert (Hdt : forall v, v_dtype_ok w' v = v_dtype_ok w v) by (intros; apply (ag_v _ _ _ HA)).
  split; auto.
  - apply (J_ext w' s (uses w cs)); [intros; apply Huse|].
    destruct HJ as [F1 F2 N1 N2 N3 O A L D T]. split; auto.
    + intros n v. rewrite Hname. apply O.
    + intros n v. rewrite Hname. apply A.
    + intros n v. rewrite Hname. apply L.
    + intros v Hv. rewrite Hdt. auto.
  - rewrite Hcf. apply map_ext_in. intros c Hc. destruct (ag_c _ _ _ HA c Hc) as (-> & _). reflexivity.
  - replace (map (c_name w') cs) with (map (c_name w) cs); [exact Hnm|].
    apply map_ext_in. intros c Hc. destruct (ag_c _ _ _ HA c Hc) as (-> & _). reflexivity.
  - destruct Hw as [Hk Hw]. split; [exact Hk|]. intros x. specialize (Hw x).
    destruct (lookup x (cfs_for_weights s)) as [l|].
    + destruct Hw as [Hne Hc]. split; [exact Hne|]. intros c. rewrite Hc.
      destruct (in_dec Nat.eq_dec c cs) as [Hin|Hin].
      * destruct (ag_c _ _ _ HA c Hin) as (_ & _ & _ & ->). reflexivity.
      * apply (count_occ_not_In Nat.eq_dec) in Hin. rewrite Hin.
        destruct (Nat.eq_dec _ x), (Nat.eq_dec _ x); reflexivity.
    + intros c Hin. destruct (ag_c _ _ _ HA c Hin) as (_ & _ & _ & ->). auto.
  - intros c Hin. destruct (ag_c _ _ _ HA c Hin) as (_ & _ & _ & ->).
    destruct (ag_w _ _ _ HA c Hin) as (-> & _). auto.
Qed.

Lemma Inv_optim w s cs : Inv w s cs -> forall n v,
  lookup n (optim_vars s) = Some v <-> used_optim w cs v /\ v_name w v = n.
Proof.
  intros [HJ _ _ _ _ _ _] n v. rewrite (J_o _ _ _ HJ).
  rewrite (J_uactive w s _ KOptim v ltac:(congruence) HJ), uses_active_optim. tauto.
Qed.
Lemma Inv_aux w s cs : Inv w s cs -> forall n v,
  lookup n (aux_vars s) = Some v <-> used_aux w cs v /\ v_name w v = n.
Proof.
  intros [HJ _ _ _ _ _ _] n v. rewrite (J_a _ _ _ HJ).
  rewrite (J_uactive w s _ KAux v ltac:(congruence) HJ), uses_active_aux. tauto.
Qed.

(** lists in step *)
Inductive F3 {A B C} (P : A -> B -> C -> Prop) : list A -> list B -> list C -> Prop :=
| F3_nil : F3 P [] [] []
| F3_cons a b c la lb lc : P a b c -> F3 P la lb lc -> F3 P (a :: la) (b :: lb) (c :: lc).

Lemma F3_app {A B C} (P : A -> B -> C -> Prop) l1 l2 l3 k1 k2 k3 :
  F3 P l1 l2 l3 -> F3 P k1 k2 k3 -> F3 P (l1 ++ k1) (l2 ++ k2) (l3 ++ k3).
Proof. intros H K. induction H; simpl; [exact K|constructor; auto]. Qed.

Lemma F3_firstn {A B C} (P : A -> B -> C -> Prop) l1 l2 l3 : F3 P l1 l2 l3 ->
  forall n, F3 P (firstn n l1) (firstn n l2) (firstn n l3).
Proof. intros H. induction H; intros [|n]; simpl; constructor; auto. Qed.

Lemma F3_nth1 {A B C} (P : A -> B -> C -> Prop) l1 l2 l3 : F3 P l1 l2 l3 ->
  forall k a, nth_error l1 k = Some a ->
  exists b c, nth_error l2 k = Some b /\ nth_error l3 k = Some c /\ P a b c.
Proof.
  intros H. induction H; intros k x E; destruct k; simpl in *; try discriminate.
  - injection E as <-. eauto.
  - eauto.
Qed.
Lemma F3_nth3 {A B C} (P : A -> B -> C -> Prop) l1 l2 l3 : F3 P l1 l2 l3 ->
  forall k c, nth_error l3 k = Some c ->
  exists a b, nth_error l1 k = Some a /\ nth_error l2 k = Some b /\ P a b c.
Proof.
  intros H. induction H; intros k x E; destruct k; simpl in *; try discriminate.
  - injection E as <-. eauto.
  - eauto.
Qed.
Lemma F3_13 {A B C} (P : A -> B -> C -> Prop) (R : A -> C -> Prop) l1 l2 l3 :
  (forall a b c, P a b c -> R a c) -> F3 P l1 l2 l3 -> Forall2 R l1 l3.
Proof. intros Hi H. induction H; constructor; eauto. Qed.

Lemma Forall2_in_l {A B} (R : A -> B -> Prop) l l' a : Forall2 R l l' -> In a l ->
  exists b, In b l' /\ R a b.
Proof.
  intros F. induction F as [|x y l l' H F IH]; intros Hin; [contradiction|].
  destruct Hin as [->|Hin]; [exists y; simpl; auto|]. destruct (IH Hin) as (b & ? & ?). exists b; simpl; auto.
Qed.
Lemma Forall2_in_r {A B} (R : A -> B -> Prop) l l' b : Forall2 R l l' -> In b l' ->
  exists a, In a l /\ R a b.
Proof.
  intros F. induction F as [|x y l l' H F IH]; intros Hin; [contradiction|].
  destruct Hin as [->|Hin]; [exists x; simpl; auto|]. destruct (IH Hin) as (a & ? & ?). exists a; simpl; auto.
Qed.

Lemma NoDup_flat_map {A B} (f : A -> list B) l a b v :
  NoDup (flat_map f l) -> In a l -> In b l -> In v (f a) -> In v (f b) -> a = b.
Proof.
  induction l as [|x l IH]; simpl; intros ND Ha Hb Hva Hvb; [contradiction|].
  destruct (NoDup_app_inv _ _ ND) as (_ & ND' & D).
  assert (Hin : forall c, In c l -> In v (f c) -> In v (flat_map f l))
    by (intros c Hc Hv; apply in_flat_map; eauto).
  destruct Ha as [->|Ha], Hb as [->|Hb]; auto.
  - exfalso. eapply D; eauto.
  - exfalso. eapply D; eauto.
Qed.
Lemma NoDup_flat_map_elt {A B} (f : A -> list B) l a : NoDup (flat_map f l) -> In a l -> NoDup (f a).
Proof.
  induction l as [|x l IH]; simpl; intros ND Ha; [contradiction|].
  destruct (NoDup_app_inv _ _ ND) as (N1 & N2 & _). destruct Ha as [->|Ha]; auto.
Qed.

(** ---- the abstract step: worlds [w0] (original) and [w1], [w2] (the copy before and after
    unifying one cost function) ---- *)
Section Step.
Variables (w0 w1 w2 : world) (ic : vid -> vid -> Prop).
Variables (cs don don' : list cid) (c c' : cid) (rest : list cid).
Variable s : state.
Variables (lo la lw : list vid).   (* the freshly copied lists of [c'] and of its weight *)
Let x := c_weight w0 c.
Let x' := c_weight w1 c'.

Hypothesis Hcs : cs = don ++ c :: rest.
Hypothesis HC : consistent w0 cs.
Hypothesis Hic : forall v v', ic v v' ->
  v_name w1 v' = v_name w0 v /\ v_dtype_ok w1 v' = v_dtype_ok w0 v.
Hypothesis Hvn : forall v, v_name w2 v = v_name w1 v.
Hypothesis Hvd : forall v, v_dtype_ok w2 v = v_dtype_ok w1 v.
Hypothesis HI : Inv w1 s don'.
Hypothesis Hlen : length don = length don'.
Hypothesis Hnin : ~ In c' don'.
(* the pairs done so far *)
Definition pair_ok (w : world) (d d' : cid) : Prop :=
  c_name w d' = c_name w0 d /\
  Forall2 ic (c_optim w0 d) (c_optim w d') /\ Forall2 ic (c_aux w0 d) (c_aux w d') /\
  w_optim w (c_weight w d') = [] /\
  Forall2 ic (w_aux w0 (c_weight w0 d)) (w_aux w (c_weight w d')).
Hypothesis Hdon : Forall2 (pair_ok w1) don don'.
(* the new pair, before *)
Hypothesis Hname : c_name w1 c' = c_name w0 c.
Hypothesis Hlo : Forall2 ic (c_optim w0 c) lo.
Hypothesis Hla : Forall2 ic (c_aux w0 c) la.
Hypothesis Hlw : Forall2 ic (w_aux w0 x) lw.
Hypothesis Hco1 : c_optim w1 c' = lo.
Hypothesis Hca1 : c_aux w1 c' = la.
Hypothesis Hwo1 : w_optim w1 x' = [].
(* its weight is either that of a cost function already done or still freshly copied *)
Hypothesis Hwt : (exists d d', In d don /\ In d' don' /\ c_weight w0 d = x /\ c_weight w1 d' = x' /\
                    Forall2 ic (w_aux w0 x) (w_aux w1 x')) \/
                 ((forall d', In d' don' -> c_weight w1 d' <> x') /\ w_aux w1 x' = lw).
(* the fresh variables are different from each other and not in use *)
Hypothesis Hfresh : NoDup (lo ++ la ++ lw).
Hypothesis Hunused : forall v, In v (lo ++ la) -> ~ used w1 don' v.
(* the unified world *)
Hypothesis H2n : forall d, c_name w2 d = c_name w1 d.
Hypothesis H2w : forall d, c_weight w2 d = c_weight w1 d.
Hypothesis H2o : c_optim w2 = upd (c_optim w1) c' (redirect w1 (optim_vars s) lo).
Hypothesis H2a : c_aux w2 = upd (c_aux w1) c' (redirect w1 (aux_vars s) la).
Hypothesis H2wo : forall y, w_optim w1 y = [] -> w_optim w2 y = [].
Hypothesis H2wa : w_aux w2 = upd (w_aux w1) x' (redirect w1 (aux_vars s) (w_aux w1 x')).

Lemma used_don_cs v : used w0 don v -> used w0 cs v.
Proof.
  rewrite Hcs. intros [(d & A & B)|(d & A & B)]; [left|right]; exists d;
    (split; [apply in_or_app; auto|exact B]).
Qed.
Lemma used_optim_don_cs v : used_optim w0 don v -> used_optim w0 cs v.
Proof. rewrite Hcs. intros (d & A & B). exists d. split; [apply in_or_app; auto|exact B]. Qed.
Lemma used_aux_don_cs v : used_aux w0 don v -> used_aux w0 cs v.
Proof. rewrite Hcs. intros (d & A & B). exists d. split; [apply in_or_app; auto|exact B]. Qed.
Lemma c_in_cs : In c cs.
Proof. rewrite Hcs. apply in_or_app; simpl; auto. Qed.

Lemma back_optim v' : used_optim w1 don' v' -> exists v, used_optim w0 don v /\ ic v v'.
Proof.
  intros (d' & Hd & Hv). destruct (Forall2_in_r _ _ _ _ Hdon Hd) as (d & Hd0 & (_ & A & _)).
  destruct (Forall2_in_r _ _ _ _ A Hv) as (v & Hv0 & Hi). exists v. split; [exists d; auto|exact Hi].
Qed.
Lemma forth_optim v : used_optim w0 don v -> exists v', used_optim w1 don' v' /\ ic v v'.
Proof.
  intros (d & Hd & Hv). destruct (Forall2_in_l _ _ _ _ Hdon Hd) as (d' & Hd0 & (_ & A & _)).
  destruct (Forall2_in_l _ _ _ _ A Hv) as (v' & Hv0 & Hi). exists v'. split; [exists d'; auto|exact Hi].
Qed.
Lemma back_aux v' : used_aux w1 don' v' -> exists v, used_aux w0 don v /\ ic v v'.
Proof.
  intros (d' & Hd & Hv). destruct (Forall2_in_r _ _ _ _ Hdon Hd) as (d & Hd0 & (_ & _ & A & _ & B)).
  destruct Hv as [Hv|Hv].
  - destruct (Forall2_in_r _ _ _ _ A Hv) as (v & Hv0 & Hi). exists v. split; [exists d; auto|exact Hi].
  - destruct (Forall2_in_r _ _ _ _ B Hv) as (v & Hv0 & Hi). exists v. split; [exists d; auto|exact Hi].
Qed.
Lemma forth_aux v : used_aux w0 don v -> exists v', used_aux w1 don' v' /\ ic v v'.
Proof.
  intros (d & Hd & Hv). destruct (Forall2_in_l _ _ _ _ Hdon Hd) as (d' & Hd0 & (_ & _ & A & _ & B)).
  destruct Hv as [Hv|Hv].
  - destruct (Forall2_in_l _ _ _ _ A Hv) as (v' & Hv0 & Hi). exists v'. split; [exists d'; auto|exact Hi].
  - destruct (Forall2_in_l _ _ _ _ B Hv) as (v' & Hv0 & Hi). exists v'. split; [exists d'; auto|exact Hi].
Qed.
Lemma back_used v' : used w1 don' v' -> exists v, used w0 don v /\ ic v v'.
Proof.
  intros [H|H]; [apply back_optim in H as (v & A & B)|apply back_aux in H as (v & A & B)];
    exists v; split; auto; [left|right]; auto.
Qed.

Lemma ic_same_name v v2 a b : used w0 cs v -> used w0 cs v2 -> ic v a -> ic v2 b ->
  v_name w1 a = v_name w1 b -> v = v2.
Proof.
  intros U1 U2 I1 I2 E. destruct (Hic _ _ I1) as [E1 _]. destruct (Hic _ _ I2) as [E2 _].
  apply (con_names _ _ HC); auto. congruence.
Qed.

(** what unifying does to one reference *)
Definition slot (v v2 r : vid) : Prop :=
  ic v r /\ ((used w0 don v /\ used w1 don' r) \/ (~ used w0 don v /\ r = v2)).

Lemma slots_optim : F3 slot (c_optim w0 c) lo (redirect w1 (optim_vars s) lo).
Proof.
  assert (Hsub : forall v, In v (c_optim w0 c) -> used_optim w0 cs v)
    by (intros v Hv; exists c; split; [apply c_in_cs|exact Hv]).
  clear Hco1 Hfresh Hunused H2o. revert Hsub.
  induction Hlo as [|v v' l0 l2 Hi Hr IH]; intros Hsub; [constructor|]. simpl. constructor.
  - assert (Uv : used_optim w0 cs v) by (apply Hsub; now left).
    unfold slot. destruct (lookup (v_name w1 v') (optim_vars s)) as [r|] eqn:E.
    + apply (Inv_optim _ _ _ HI) in E as [Ur En].
      destruct (back_optim r Ur) as (v2 & U2 & I2).
      assert (v2 = v).
      { apply (ic_same_name v2 v r v'); auto; left; auto. now apply used_optim_don_cs. }
      subst v2. split; [exact I2|]. left. split; left; auto.
    + split; [exact Hi|]. right. split; [|reflexivity]. intros [U|U].
      * destruct (forth_optim v U) as (r & Ur & Ir).
        assert (E2 : lookup (v_name w1 v') (optim_vars s) = Some r).
        { apply (Inv_optim _ _ _ HI). split; [exact Ur|].
          destruct (Hic _ _ Hi), (Hic _ _ Ir). congruence. }
        congruence.
      * apply (con_dual _ _ HC v Uv). now apply used_aux_don_cs.
  - apply IH; auto. intros u Hu. apply Hsub. now right.
Qed.

Lemma slots_aux l0 l2 : Forall2 ic l0 l2 -> (forall v, In v l0 -> used_aux w0 cs v) ->
  F3 slot l0 l2 (redirect w1 (aux_vars s) l2).
Proof.
  intros F. induction F as [|v v' l0 l2 Hi Hr IH]; intros Hsub; [constructor|]. simpl. constructor.
  - assert (Uv : used_aux w0 cs v) by (apply Hsub; now left).
    unfold slot. destruct (lookup (v_name w1 v') (aux_vars s)) as [r|] eqn:E.
    + apply (Inv_aux _ _ _ HI) in E as [Ur En].
      destruct (back_aux r Ur) as (v2 & U2 & I2).
      assert (v2 = v).
      { apply (ic_same_name v2 v r v'); auto; right; auto. now apply used_aux_don_cs. }
      subst v2. split; [exact I2|]. left. split; right; auto.
    + split; [exact Hi|]. right. split; [|reflexivity]. intros [U|U].
      * apply (con_dual _ _ HC v); [now apply used_optim_don_cs|exact Uv].
      * destruct (forth_aux v U) as (r & Ur & Ir).
        assert (E2 : lookup (v_name w1 v') (aux_vars s) = Some r).
        { apply (Inv_aux _ _ _ HI). split; [exact Ur|].
          destruct (Hic _ _ Hi), (Hic _ _ Ir). congruence. }
        congruence.
  - apply IH; auto. intros u Hu. apply Hsub. now right.
Qed.

Lemma aux_sub v : In v (c_aux w0 c) \/ In v (w_aux w0 x) -> used_aux w0 cs v.
Proof. intros H. exists c. split; [apply c_in_cs|exact H]. Qed.

(** variables of a weight that is already in the new objective stay what they are *)
Lemma redirect_done d' : In d' don' ->
  redirect w1 (aux_vars s) (w_aux w1 (c_weight w1 d')) = w_aux w1 (c_weight w1 d').
Proof.
  intros Hd. unfold redirect. rewrite <- (map_id (w_aux w1 (c_weight w1 d'))) at 2.
  apply map_ext_in. intros v Hv.
  assert (E : lookup (v_name w1 v) (aux_vars s) = Some v).
  { apply (Inv_aux _ _ _ HI). split; [|reflexivity]. exists d'. auto. }
  now rewrite E.
Qed.

Lemma slots_weight : F3 slot (w_aux w0 x) lw (w_aux w2 x').
Proof.
  rewrite H2wa, upd_eq. destruct Hwt as [(d & d' & Hd & Hd' & E0 & E1 & F)|[_ E]].
  - assert (Hall : forall v, In v (w_aux w0 x) -> used w0 don v).
    { intros v Hv. right. exists d. split; [exact Hd|]. right. now rewrite E0. }
    assert (Hall' : forall v, In v (w_aux w1 x') -> used w1 don' v).
    { intros v Hv. right. exists d'. split; [exact Hd'|]. right. now rewrite E1. }
    rewrite <- E1, redirect_done by exact Hd'. rewrite E1.
    clear -F Hlw Hall Hall'. revert F Hall Hall'. generalize (w_aux w1 x').
    induction Hlw as [|v v2 l0 l2 Hi Hr IH]; intros l4 F Hall Hall'; inversion F; subst; [constructor|].
    constructor.
    + split; [assumption|]. left. split; [apply Hall|apply Hall']; simpl; auto.
    + apply IH; auto; intros u Hu; [apply Hall|apply Hall']; simpl; auto.
  - rewrite E. apply slots_aux; [exact Hlw|]. intros v Hv. apply aux_sub. auto.
Qed.

Let refs := references w0 c.
Let refs2 := lo ++ la ++ lw.

Lemma slots_all : F3 slot refs refs2 (references w2 c').
Proof.
  unfold refs, refs2, references. rewrite H2w. fold x x'.
  apply F3_app; [|apply F3_app].
  - rewrite H2o, upd_eq. apply slots_optim.
  - rewrite H2a, upd_eq. apply slots_aux; [exact Hla|]. intros v Hv. apply aux_sub. auto.
  - apply slots_weight.
Qed.

(** the cost functions already in the new objective are not affected *)
Lemma step_agree : agree w1 w2 don'.
Proof.
  split.
  - intros d Hd. assert (d <> c') by (intros ->; contradiction).
    rewrite H2n, H2w, H2o, H2a, !upd_ne by assumption. auto.
  - intros d Hd. split.
    + destruct (Forall2_in_r _ _ _ _ Hdon Hd) as (d0 & _ & (_ & _ & _ & E & _)).
      rewrite E. now apply H2wo.
    + rewrite H2wa. destruct (Nat.eq_dec (c_weight w1 d) x') as [E|E].
      * rewrite E, upd_eq, <- E. now apply redirect_done.
      * now apply upd_ne.
  - intros v. auto.
Qed.

Lemma used_step_don v : used w2 don' v <-> used w1 don' v.
Proof.
  pose proof step_agree as [A B _]. unfold used, used_optim, used_aux.
  split; (intros [(d & Hd & Hv)|(d & Hd & Hv)]; [left|right]; exists d; split; [exact Hd| |exact Hd|];
    destruct (A d Hd) as (_ & E1 & E2 & E3); destruct (B d Hd) as (_ & E4)); 
    rewrite ?E3, ?E1, ?E2, ?E4 in *; exact Hv.
Qed.
Lemma used_optim_step_don v : used_optim w2 don' v <-> used_optim w1 don' v.
Proof.
  pose proof step_agree as [A B _]. unfold used_optim.
  split; intros (d & Hd & Hv); exists d; (split; [exact Hd|]);
    destruct (A d Hd) as (_ & E1 & E2 & E3); rewrite ?E1 in *; exact Hv.
Qed.
Lemma used_aux_step_don v : used_aux w2 don' v <-> used_aux w1 don' v.
Proof.
  pose proof step_agree as [A B _]. unfold used_aux.
  split; intros (d & Hd & Hv); exists d; (split; [exact Hd|]);
    destruct (A d Hd) as (_ & E1 & E2 & E3); destruct (B d Hd) as (_ & E4);
    rewrite ?E3, ?E2, ?E4 in *; exact Hv.
Qed.

Lemma used_step_new v : used w2 (don' ++ [c']) v <-> used w1 don' v \/ In v (references w2 c').
Proof.
  rewrite <- used_step_don. unfold used, used_optim, used_aux, references.
  split.
  - intros [(d & Hd & Hv)|(d & Hd & Hv)]; apply in_app_or in Hd as [Hd|[<-|[]]].
    + left; left; eauto.
    + right. apply in_or_app; auto.
    + left; right; eauto.
    + right. apply in_or_app; right. apply in_or_app. tauto.
  - intros [[(d & Hd & Hv)|(d & Hd & Hv)]|Hv].
    + left. exists d. split; [apply in_or_app; auto|exact Hv].
    + right. exists d. split; [apply in_or_app; auto|exact Hv].
    + apply in_app_or in Hv as [Hv|Hv].
      * left. exists c'. split; [apply in_or_app; simpl; auto|exact Hv].
      * right. exists c'. split; [apply in_or_app; simpl; auto|]. now apply in_app_or in Hv.
Qed.

(** the pair just made is a proper copy, and the earlier ones still are *)
Lemma step_pairs : Forall2 (pair_ok w2) (don ++ [c]) (don' ++ [c']).
Proof.
  apply Forall2_app.
  - pose proof step_agree as [A B _].
    eapply Forall2_impl; [|exact Hdon]. intros d d' _ Hd' (P1 & P2 & P3 & P4 & P5).
    destruct (A d' Hd') as (E0 & E1 & E2 & E3). destruct (B d' Hd') as (E5 & E4).
    unfold pair_ok. rewrite E0, E1, E2, E3, E4, E5. auto 10.
  - constructor; [|constructor]. unfold pair_ok.
    rewrite H2n, H2w. split; [exact Hname|].
    assert (P : forall a b r, slot a b r -> ic a r) by (intros a b r [? _]; assumption).
    split; [|split; [|split]].
    + rewrite H2o, upd_eq. eapply F3_13; [exact P|apply slots_optim].
    + rewrite H2a, upd_eq. eapply F3_13; [exact P|apply slots_aux; [exact Hla|]].
      intros v Hv. apply aux_sub; auto.
    + fold x'. now apply H2wo.
    + eapply F3_13; [exact P|apply slots_weight].
Qed.

Lemma In_nth {A} (l : list A) v : In v l -> exists k, nth_error l k = Some v.
Proof. apply In_nth_error. Qed.

Lemma refs_used v : In v refs -> used w0 cs v.
Proof.
  unfold refs, references. intros H. apply in_app_or in H as [H|H].
  - left. exists c. split; [apply c_in_cs|exact H].
  - right. apply aux_sub. now apply in_app_or in H.
Qed.

(** fresh copies of two references differ *)
Lemma refs2_inj i j v : nth_error refs2 i = Some v -> nth_error refs2 j = Some v -> i = j.
Proof.
  intros A B. assert (i < length refs2) by (apply nth_error_Some; congruence).
  apply (proj1 (NoDup_nth_error refs2) Hfresh); auto. congruence.
Qed.

Definition no_double : Prop :=
  forall i j v, i <> j -> nth_error refs i = Some v -> nth_error refs j = Some v -> used w0 don v.

Lemma origin r : used w2 (don' ++ [c']) r -> exists v, used w0 cs v /\ ic v r /\
  ((used w0 don v /\ used w1 don' r) \/
   (~ used w0 don v /\ exists k, nth_error refs k = Some v /\ nth_error refs2 k = Some r)).
Proof.
  intros U. apply used_step_new in U as [U|U].
  - destruct (back_used r U) as (v & Uv & Iv). exists v. split; [now apply used_don_cs|]. auto.
  - apply In_nth in U as (k & Ek). destruct (F3_nth3 _ _ _ _ slots_all k r Ek) as (v & b & E0 & E2 & [I Hs]).
    exists v. split; [apply refs_used; eapply nth_error_In; eauto|]. split; [exact I|].
    destruct Hs as [Hs|[Hs ->]]; [auto|]. right. split; [exact Hs|]. exists k. auto.
Qed.

Lemma step_consistent : no_double -> consistent w2 (don' ++ [c']).
Proof.
  intros HD. split.
  - intros r U. destruct (origin r U) as (v & Uv & Iv & _). rewrite Hvd.
    destruct (Hic _ _ Iv) as [_ ->]. now apply (con_dtype _ _ HC).
  - intros r r' U U' E. rewrite !Hvn in E.
    destruct (origin r U) as (v & Uv & Iv & Cv). destruct (origin r' U') as (v' & Uv' & Iv' & Cv').
    assert (v = v') by (eapply ic_same_name; eauto). subst v'.
    destruct Cv as [[A B]|[A (k & B & C)]], Cv' as [[A' B']|[A' (k' & B' & C')]]; try contradiction.
    + apply (con_names _ _ (Inv_consistent _ _ _ HI)); auto.
    + destruct (Nat.eq_dec k k') as [->|Hne]; [congruence|]. exfalso. apply A. eapply HD; eauto.
  - intros r Uo Ua.
    assert (Ho : exists v, used_optim w0 cs v /\ ic v r).
    { destruct Uo as (d & Hd & Hv). destruct (Forall2_in_r _ _ _ _ step_pairs Hd) as (d0 & H0 & (_ & P & _)).
      destruct (Forall2_in_r _ _ _ _ P Hv) as (v & Hv0 & Iv). exists v. split; [|exact Iv].
      exists d0. split; [|exact Hv0]. rewrite Hcs. apply in_app_or in H0 as [H0|[<-|[]]]; apply in_or_app; simpl; auto. }
    assert (Ha : exists v, used_aux w0 cs v /\ ic v r).
    { destruct Ua as (d & Hd & Hv). destruct (Forall2_in_r _ _ _ _ step_pairs Hd) as (d0 & H0 & (_ & _ & P & _ & Q)).
      assert (Hin : In d0 cs).
      { rewrite Hcs. apply in_app_or in H0 as [H0|[<-|[]]]; apply in_or_app; simpl; auto. }
      destruct Hv as [Hv|Hv].
      - destruct (Forall2_in_r _ _ _ _ P Hv) as (v & Hv0 & Iv). exists v. split; [|exact Iv]. exists d0. auto.
      - destruct (Forall2_in_r _ _ _ _ Q Hv) as (v & Hv0 & Iv). exists v. split; [|exact Iv]. exists d0. auto. }
    destruct Ho as (v & U1 & I1), Ha as (v2 & U2 & I2).
    assert (v = v2) by (apply (ic_same_name v v2 r r); auto; [left|right]; auto). subst v2.
    exact (con_dual _ _ HC v U1 U2).
  - intros d Hd. destruct (Forall2_in_r _ _ _ _ step_pairs Hd) as (d0 & _ & (_ & _ & _ & E & _)). exact E.
  - assert (En : map (c_name w2) (don' ++ [c']) = map (c_name w0) (don ++ [c])).
    { generalize step_pairs. generalize (don ++ [c]) (don' ++ [c']). intros l l' F.
      induction F as [|a b l l' (E & _) F IH]; simpl; [reflexivity|]. congruence. }
    rewrite En. pose proof (con_cf_names _ _ HC) as ND. rewrite Hcs in ND.
    rewrite map_app in ND |- *. simpl in ND |- *.
    replace (map (c_name w0) don ++ c_name w0 c :: map (c_name w0) rest)
      with ((map (c_name w0) don ++ [c_name w0 c]) ++ map (c_name w0) rest) in ND
      by (rewrite <- app_assoc; reflexivity).
    now apply NoDup_app_inv in ND.
Qed.

Lemma step_no_double : consistent w2 (don' ++ [c']) -> no_double.
Proof.
  intros HC2 i j v Hij Ei Ej.
  destruct (F3_nth1 _ _ _ _ slots_all i v Ei) as (bi & ri & Ei2 & Eri & [Ii Hi]).
  destruct (F3_nth1 _ _ _ _ slots_all j v Ej) as (bj & rj & Ej2 & Erj & [Ij Hj]).
  destruct Hi as [[U _]|[Ni ->]]; [exact U|]. destruct Hj as [[U _]|[Nj ->]]; [exact U|].
  exfalso. apply Hij.
  assert (bi = bj).
  { apply (con_names _ _ HC2).
    - apply used_step_new. right. eapply nth_error_In; eauto.
    - apply used_step_new. right. eapply nth_error_In; eauto.
    - rewrite !Hvn. destruct (Hic _ _ Ii), (Hic _ _ Ij). congruence. }
  subst bj. eapply refs2_inj; eauto.
Qed.

(** after the step, the variables in use were in use before or are fresh copies of this step *)
Lemma step_used r : used w2 (don' ++ [c']) r -> used w1 don' r \/ In r (lo ++ la) \/
  (In r lw /\ forall d', In d' don' -> c_weight w1 d' <> x').
Proof.
  intros U. apply used_step_new in U as [U|U]; [auto|].
  unfold references in U. rewrite H2w in U. fold x' in U.
  assert (G : forall v l0 l2 l4, F3 slot l0 l2 l4 -> In v l4 -> used w1 don' v \/ In v l2).
  { intros v l0 l2 l4 F. induction F as [|a b r0 l0 l2 l4 [_ P] F IH]; intros Hin; [contradiction|].
    destruct Hin as [->|Hin].
    - destruct P as [[_ P]|[_ ->]]; simpl; auto.
    - destruct (IH Hin); simpl; auto. }
  apply in_app_or in U as [U|U].
  - rewrite H2o, upd_eq in U. destruct (G _ _ _ _ slots_optim U); auto.
    right; left; apply in_or_app; auto.
  - apply in_app_or in U as [U|U].
    + rewrite H2a, upd_eq in U.
      destruct (G r (c_aux w0 c) la (redirect w1 (aux_vars s) la)); auto.
      { apply slots_aux; [exact Hla|]. intros v Hv. apply aux_sub; auto. }
      right; left; apply in_or_app; auto.
    + destruct Hwt as [(d & d' & Hd & Hd' & E0 & E1 & F)|[Hp E]].
      * left. right. exists d'. split; [exact Hd'|]. right.
        rewrite H2wa, upd_eq, <- E1, redirect_done, E1 in U by exact Hd'. now rewrite E1.
      * destruct (G _ _ _ _ slots_weight U); auto.
Qed.

(** a cost function whose optimization variables and first [n] auxiliary variables were not used
    before keeps the fresh copies of those *)
Lemma step_fresh n :
  (forall v, In v (c_optim w0 c ++ firstn n (c_aux w0 c)) -> ~ used w0 don v) ->
  c_optim w2 c' = lo /\ firstn n (c_aux w2 c') = firstn n la.
Proof.
  intros Hn.
  assert (G : forall l0 l2 l4, (forall v, In v l0 -> ~ used w0 don v) -> F3 slot l0 l2 l4 -> l4 = l2).
  { intros l0 l2 l4 Hl F. induction F as [|a b r l0 l2 l4 [_ P] F IH]; [reflexivity|].
    destruct P as [[U _]|[_ ->]].
    - exfalso. apply (Hl a); simpl; auto.
    - f_equal. apply IH. intros v Hv. apply Hl. simpl; auto. }
  rewrite H2o, H2a, !upd_eq. split.
  - apply (G (c_optim w0 c)); [|apply slots_optim]. intros v Hv. apply Hn, in_or_app; auto.
  - apply (G (firstn n (c_aux w0 c))).
    + intros v Hv. apply Hn, in_or_app; auto.
    + apply F3_firstn. apply slots_aux; [exact Hla|]. intros v Hv. apply aux_sub; auto.
Qed.
End Step.
