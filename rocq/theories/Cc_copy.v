(** C97: the copies. *)
From Coq Require Import Reals List String Arith Bool Lia Lra Permutation.
From Verif Require Import Mp_model Cc_model Cc_spec Cc_props.
Import ListNotations.
Local Open Scope string_scope.
Local Open Scope nat_scope.

(** ** association lists *)
Lemma assoc_in {A} (l : list (string * A)) k a : assoc l k = Some a -> In (k, a) l.
Proof.
  induction l as [|[k' a'] l IH]; cbn; [discriminate|].
  destruct (String.eqb_spec k' k) as [->|N]; [intros [= ->]; now left | right; now apply IH].
Qed.
Lemma assoc_map (g : string -> nat) (ps : list (string * prep)) k : In k (map fst ps) ->
  assoc (map (fun kp => (fst kp, g (fst kp))) ps) k = Some (g k).
Proof.
  induction ps as [|[k' p] ps IH]; cbn; [tauto|]. intros I.
  destruct (String.eqb_spec k' k) as [->|N]; [reflexivity|]. apply IH. now destruct I.
Qed.
Lemma attrs_of h h' args ps l : Forall2 (prepared h h' args) ps l -> NoDup (map fst ps) ->
  forall k p, In (k, p) ps -> exists v, assoc l k = Some v /\ v < List.length h' /\ shape_ok p (getv h' v) /\
    (p = PKeep -> arg_of args k = AV v /\ getv h' v = getv h v).
Proof.
  intros F. induction F as [|[k0 p0] [k1 v1] ps l H F IH]; intros ND k p I; [destruct I|].
  destruct H as (E & L & S & N & P). cbn [fst snd] in *. subst k1.
  cbn [map fst] in ND. inversion ND as [|? ? NI ND']; subst.
  destruct I as [[= -> ->]|I].
  - exists v1. cbn [assoc]. rewrite String.eqb_refl. auto.
  - destruct (IH ND' k p I) as (v & A & R). exists v. split; auto. cbn [assoc].
    destruct (String.eqb_spec k0 k) as [->|]; auto. exfalso. apply NI. apply in_map_iff. now exists (k, p).
Qed.
Lemma combine_inj (ks : list string) args : NoDup (ids args) -> forall k1 k2 v,
  assoc (combine ks args) k1 = Some (AV v) -> assoc (combine ks args) k2 = Some (AV v) -> k1 = k2.
Proof.
  revert args; induction ks as [|k ks IH]; intros [|a args] ND k1 k2 v E1 E2; try discriminate.
  cbn [combine assoc] in E1, E2.
  assert (ND' : NoDup (ids args)).
  { unfold ids in *; cbn [flat_map] in ND. destruct a; cbn in ND; auto; now inversion ND. }
  assert (X : forall k', a = AV v -> assoc (combine ks args) k' = Some (AV v) -> False).
  { intros k' -> E. unfold ids in ND; cbn in ND. inversion ND as [|? ? NI _]; subst. apply NI.
    apply assoc_in, in_combine_r in E. apply in_flat_map. exists (AV v). split; [auto|now left]. }
  destruct (String.eqb_spec k k1) as [->|N1]; destruct (String.eqb_spec k1 k2) as [->|N2]; auto.
  - destruct (String.eqb_spec k1 k2) as [?|_]; [contradiction|]. injection E1 as ->. exfalso; eauto.
  - destruct (String.eqb_spec k k2) as [->|N3]; [injection E2 as ->; exfalso; eauto|]. eapply IH; eauto.
Qed.
Lemma prep_ids_proper h (ks : list string) args ps : proper h args -> NoDup (map fst ps) ->
  NoDup (prep_ids (combine ks args) ps) /\ (forall u, In u (prep_ids (combine ks args) ps) -> u < List.length h).
Proof.
  intros [ND V] NK. assert (J := combine_inj ks args ND).
  assert (MEM : forall u ps, In u (prep_ids (combine ks args) ps) -> exists k, In k (map fst ps) /\ assoc (combine ks args) k = Some (AV u)).
  { intros u qs I. unfold prep_ids in I. apply in_flat_map in I as ([k p] & I1 & I2). cbn [fst] in I2. unfold arg_of in I2.
    destruct (assoc (combine ks args) k) as [[v| | |]|] eqn:E; cbn in I2; try tauto. destruct I2 as [->|[]].
    exists k. split; auto. apply in_map_iff. now exists (k, p). }
  split.
  - induction ps as [|[k p] ps IH]; cbn; [constructor|]. fold (prep_ids (combine ks args) ps).
    cbn [map fst] in NK. inversion NK as [|? ? NI NK']; subst.
    unfold arg_of. destruct (assoc (combine ks args) k) as [[v| | |]|] eqn:E; cbn; auto.
    constructor; auto. intros I. destruct (MEM _ _ I) as (k' & I1 & I2). rewrite (J k k' v E I2) in NI. contradiction.
  - intros u I. destruct (MEM _ _ I) as (k & _ & E). apply V. unfold ids. apply in_flat_map. exists (AV u).
    split; [apply assoc_in, in_combine_r in E; exact E | now left].
Qed.

(** ** copying attributes *)
Definition cpy (x : var) : var := mkV (v_cls x) (v_name x ++ "_copy") (v_tensor x).
Definition held (h : heap) (attrs : list (string * nat)) (k : string) : Prop := exists v, assoc attrs k = Some v /\ v < List.length h.
Lemma look_app h k attrs n : held h attrs n -> look (attr_vars (h ++ k)%list attrs) n = look (attr_vars h attrs) n.
Proof. intros (v & E & L). unfold look, attr_vars. rewrite E. now apply getv_app_l. Qed.
Lemma copy_attrs_run attrs ks : forall h, (forall k, In k ks -> held h attrs k) ->
  copy_attrs attrs ks h = Ret (h ++ map (fun k => cpy (look (attr_vars h attrs) k)) ks)%list (map AV (seq (List.length h) (List.length ks))).
Proof.
  induction ks as [|k ks IH]; intros h H; cbn [copy_attrs map seq List.length].
  - unfold ret. now rewrite app_nil_r.
  - destruct (H k (or_introl eq_refl)) as (v & E & L). rewrite E. unfold bind at 1, copy_var, bind at 1, get, alloc.
    rewrite append_copy_neq.
    assert (X : forall k', In k' ks -> held (h ++ [cpy (getv h v)])%list attrs k').
    { intros k' I. destruct (H k' (or_intror I)) as (v' & E' & L'). exists v'. rewrite app_length. split; auto; lia. }
    unfold bind. fold (cpy (getv h v)). rewrite (IH _ X). unfold ret. f_equal.
    + rewrite <- app_assoc. cbn [app]. f_equal. f_equal.
      * unfold look, attr_vars. now rewrite E.
      * apply map_ext_in. intros k' I. rewrite look_app by (apply H; now right). reflexivity.
    + rewrite app_length. cbn [List.length]. now rewrite Nat.add_1_r.
Qed.
(** the arguments of a copy: the copy of attribute [k] *)
Definition vid (args : list (string * arg)) (k : string) : nat := match arg_of args k with AV v => v | _ => 0 end.
Lemma copy_args_at (ks : list string) n k : In k ks ->
  exists i, nth_error ks i = Some k /\ i < List.length ks /\ assoc (combine ks (map AV (seq n (List.length ks)))) k = Some (AV (n + i)).
Proof.
  revert n; induction ks as [|k0 ks IH]; intros n I; [destruct I|]. cbn [List.length seq map combine assoc].
  destruct (String.eqb_spec k0 k) as [->|N].
  - exists 0. rewrite Nat.add_0_r. cbn. repeat split; auto; lia.
  - destruct I as [->|I]; [contradiction|]. destruct (IH (S n) I) as (i & E & L & A).
    exists (S i). cbn. rewrite A. repeat split; auto; try lia. do 2 f_equal. lia.
Qed.
Lemma copy_args_vid (ks : list string) n k : In k ks -> let kw := combine ks (map AV (seq n (List.length ks))) in
  arg_of kw k = AV (vid kw k) /\ n <= vid kw k < n + List.length ks /\ nth_error ks (vid kw k - n) = Some k.
Proof.
  intros I kw. destruct (copy_args_at ks n k I) as (i & E & L & A). fold kw in A.
  unfold vid, arg_of. rewrite A. replace (n + i - n) with i by lia. repeat split; auto; lia.
Qed.
Lemma copy_args_var h (f : string -> var) ks rest k : In k ks ->
  getv (h ++ map f ks ++ rest)%list (vid (combine ks (map AV (seq (List.length h) (List.length ks)))) k) = f k.
Proof.
  intros I. destruct (copy_args_vid ks (List.length h) k I) as (_ & B & E). cbv zeta in *.
  set (v := vid _ k) in *. clearbody v.
  rewrite getv_app_r by lia. rewrite getv_app_l by (rewrite map_length; lia).
  unfold getv. apply nth_error_nth. now apply map_nth_error.
Qed.
Lemma copy_args_inj ks n k1 k2 : In k1 ks -> In k2 ks -> let kw := combine ks (map AV (seq n (List.length ks))) in
  vid kw k1 = vid kw k2 -> k1 = k2.
Proof.
  intros I1 I2 kw E. destruct (copy_args_vid ks n k1 I1) as (_ & _ & E1). destruct (copy_args_vid ks n k2 I2) as (_ & _ & E2).
  cbv zeta in *. fold kw in E1, E2. rewrite E in E1. congruence.
Qed.
Lemma run_preps_stable chol sn name vd b args ps H :
  (forall k p, In (k, p) ps -> arg_of args k = AV (vid args k) /\ wf (v_tensor (getv H (vid args k))) /\
     shape_ok p (getv H (vid args k)) /\ value_ok chol p (getv H (vid args k))) ->
  run_preps chol sn name vd b args ps H = Ret H (map (fun kp => (fst kp, vid args (fst kp))) ps).
Proof.
  induction ps as [|[k p] ps IH]; intros S; cbn [run_preps map fst]; [reflexivity|].
  destruct (S k p (or_introl eq_refl)) as (E & W & S1 & V1). rewrite E. unfold bind.
  rewrite prep_stable by assumption. rewrite IH; [reflexivity|]. intros k' p' I. apply S. now right.
Qed.

(** ** keep_names *)
Lemma keep_names_app l1 : forall l1' l2 l2' h, List.length l1 = List.length l1' ->
  (let* _ := keep_names l1 l1' in keep_names l2 l2') h = keep_names (l1 ++ l2)%list (l1' ++ l2')%list h.
Proof.
  induction l1 as [|v l IH]; intros [|v' l'] l2 l2' h E; try discriminate; [reflexivity|]. cbn [app keep_names].
  unfold bind, get, set_name. cbn [List.length] in E. rewrite <- IH by lia. reflexivity.
Qed.
Lemma keep_names_run l : forall l' h, NoDup l' -> (forall v', In v' l' -> v' < List.length h) ->
  (forall v, In v l -> ~ In v l') ->
  exists h', keep_names l l' h = Ret h' tt /\ List.length h' = List.length h /\
    (forall u, v_cls (getv h' u) = v_cls (getv h u) /\ v_tensor (getv h' u) = v_tensor (getv h u)) /\
    (forall u, ~ In u l' -> getv h' u = getv h u) /\
    (forall v v', In (v, v') (combine l l') -> v_name (getv h' v') = v_name (getv h v)).
Proof.
  induction l as [|v l IH]; intros [|v' l'] h ND B D; cbn [keep_names combine].
  1-3: exists h; repeat split; auto; intros ? ? [].
  unfold bind, get, set_name. set (x := mkV _ _ _). set (h1 := setv h v' x).
  inversion ND as [|? ? NI ND']; subst.
  assert (Lv : v' < List.length h) by (apply B; now left).
  destruct (IH l' h1) as (h' & E & L & CT & O & N); auto.
  { intros u I. unfold h1. rewrite setv_length. apply B. now right. }
  { intros u I I'. apply (D u); [now right|now right]. }
  exists h'. split; [exact E|]. unfold h1 in *. rewrite setv_length in L.
  assert (G : forall u, v_cls (getv (setv h v' x) u) = v_cls (getv h u) /\ v_tensor (getv (setv h v' x) u) = v_tensor (getv h u)).
  { intros u. destruct (Nat.eq_dec u v') as [->|Nu]; [rewrite getv_setv_same by auto; split; reflexivity | now rewrite getv_setv_other]. }
  repeat split; auto.
  - destruct (CT u) as [-> _]. apply G.
  - destruct (CT u) as [_ ->]. apply G.
  - intros u NIu. rewrite O by (intros I; apply NIu; now right). apply getv_setv_other. intros ->. apply NIu. now left.
  - intros a a' [[= <- <-]|I].
    + rewrite O by auto. rewrite getv_setv_same by auto. reflexivity.
    + rewrite (N a a' I). rewrite getv_setv_other; auto. intros ->. apply in_combine_l in I. apply (D v'); [now right | now left].
Qed.

(** ** checks *)
Definition sim (x y : var) : Prop :=
  v_cls x = v_cls y /\ List.length (t_shape (v_tensor x)) = List.length (t_shape (v_tensor y)) /\
  tl (t_shape (v_tensor x)) = tl (t_shape (v_tensor y)).
Lemma sim_nth1 x y : sim x y -> nth 1 (t_shape (v_tensor x)) 0 = nth 1 (t_shape (v_tensor y)) 0.
Proof.
  intros (_ & L & T). destruct (t_shape (v_tensor x)) as [|a s], (t_shape (v_tensor y)) as [|b s']; try discriminate; auto.
  cbn in T. now subst.
Qed.
Lemma sim_dof x y : sim x y -> dof x = dof y.
Proof. intros S. assert (N := sim_nth1 _ _ S). destruct S as (C & _). unfold dof. now rewrite <- C, N. Qed.
Lemma sim_ndim x y : sim x y -> ndim (v_tensor x) = ndim (v_tensor y).
Proof. intros (_ & L & _). exact L. Qed.
Lemma sim_cls x y : sim x y -> v_cls x = v_cls y.
Proof. now intros (C & _). Qed.
Lemma pre_check_sim c wc g g' : (forall k, In (k, PKeep) (f_preps c) -> sim (look g k) (look g' k)) ->
  pre_check c wc g = pre_check c wc g'.
Proof.
  intros S. destruct c; cbn [f_preps] in S; cbn [pre_check]; auto; unfold same_dof; cbn [forallb dofs];
  repeat match goal with |- context[look g ?k] =>
    let Q := fresh in assert (Q : sim (look g k) (look g' k)) by (apply S; cbn; auto 10);
    rewrite ?(sim_cls _ _ Q), ?(sim_dof _ _ Q), ?(sim_nth1 _ _ Q), ?(sim_ndim _ _ Q); clear Q end; reflexivity.
Qed.
Lemma hinge_check d u t : hinge_valid d u t -> check_limits d u = None /\
  (List.length (t_data t) =? 0) = false /\ forallb (fun x => if Rlt_dec x 0 then true else false) (t_data t) = false.
Proof.
  intros [H (x & I & P)]. repeat split.
  - unfold check_limits. set (n := nth 1 (t_shape d) 0) in *. destruct (Nat.eqb_spec n 0) as [_|N]; [reflexivity|].
    assert (B : nth 0 (t_shape d) 0 = nth 0 (t_shape u) 0 \/ nth 0 (t_shape d) 0 = 1 \/ nth 0 (t_shape u) 0 = 1) by (apply (H 0 0); lia).
    assert (E : (nth 0 (t_shape d) 0 =? nth 0 (t_shape u) 0) || (nth 0 (t_shape d) 0 =? 1) || (nth 0 (t_shape u) 0 =? 1) = true).
    { rewrite !Bool.orb_true_iff, !Nat.eqb_eq. tauto. }
    rewrite E. cbn [negb]. clear E.
    match goal with |- (if ?b then _ else _) = _ => assert (E : b = true) end; [|now rewrite E].
    apply forallb_forall. intros j Ij. apply in_seq in Ij. apply forallb_forall. intros i Ii. apply in_seq in Ii.
    destruct (Rle_dec (entry d i j) (entry u i j)) as [_|F]; auto. exfalso. apply F. apply H; lia.
  - destruct (t_data t); [destruct I|reflexivity].
  - apply Bool.not_true_iff_false. intros F. rewrite forallb_forall in F. specialize (F x I).
    destruct (Rlt_dec x 0) as [L|]; [|discriminate]. lra.
Qed.
Lemma post_check_sim c g g' : (forall k, In k (map fst (f_preps c)) -> sim (look g k) (look g' k)) ->
  (c = CHinge -> hinge_valid (v_tensor (look g' "down_limit")) (v_tensor (look g' "up_limit")) (v_tensor (look g' "threshold"))) ->
  post_check c g = None -> post_check c g' = None.
Proof.
  intros S HV. destruct c; cbn [f_preps map fst] in S; cbn [post_check]; auto.
  - rewrite !(sim_cls (look g _) (look g' _)) by (apply S; cbn; auto 10). auto.
  - unfold same_dof; cbn [dofs]. rewrite !(sim_dof (look g _) (look g' _)) by (apply S; cbn; auto 10). auto.
  - specialize (HV eq_refl). apply hinge_check in HV as (-> & -> & ->).
    cbn [forallb].
    rewrite !(sim_dof (look g _) (look g' _)) by (apply S; cbn; auto 10).
    rewrite !(sim_ndim (look g _) (look g' _)), !(sim_nth1 (look g _) (look g' _)) by (apply S; cbn; auto 10).
    destruct (dof _); [|discriminate]. destruct (negb _); [discriminate|]. reflexivity.
Qed.
