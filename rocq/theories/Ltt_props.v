(** C89: every operation as a sequence of elementary changes. *)
From Coq Require Import Reals List Arith Bool Lia.
From Verif Require Import Ltt_model Ltt_spec.
Import ListNotations.

(** ** elementary changes *)
Inductive label :=
| LAlloc (k : kind) (t : ten)
| LAlias (k : kind) (src : nat) (off : nat) (shape : list nat)   (* memory of object src *)
| LMark (i : nat)
| LSetNew (i : nat) (t : ten)                                     (* i looks at new memory *)
| LSetFrom (i src : nat)
| LWrite (x : nat) (d : list R)
| LFlags.
Definition fits_kind (k : kind) (s : list nat) : Prop := match k with KLie l => last2 s = rows_cols l | _ => True end.
Inductive micro : state -> label -> state -> Prop :=
| MAlloc : forall st k t, fits_kind k (t_shape t) -> ten_ok t -> micro st (LAlloc k t) (fst (alloc st k t))
| MAlias : forall st k src o off shape, get st src = Some o -> fits_kind k shape ->
    (forall d : list R, (length d >= o_off o + numel (o_shape o) -> length d >= off + numel shape)%nat) ->
    micro st (LAlias k src off shape) (fst (alias st k (o_store o) off shape))
| MMark : forall st i o, get st i = Some o -> micro st (LMark i) (set_obj st i (mkObj (o_kind o) true (o_store o) (o_off o) (o_shape o)))
| MSetNew : forall st i o l t, get st i = Some o -> o_kind o = KLie l -> last2 (t_shape t) = rows_cols l -> t_dtype t = dtype_of st o -> ten_ok t ->
    micro st (LSetNew i t) (do_set (new_store st t) i o (length (s_stores st)) 0 (t_shape t))
| MSetFrom : forall st i o src o' l, get st i = Some o -> get st src = Some o' -> o_kind o = KLie l -> o_kind o' = KLie l -> dtype_of st o' = dtype_of st o ->
    micro st (LSetFrom i src) (do_set st i o (o_store o') (o_off o') (o_shape o'))
| MWrite : forall st x o dt old d, get st x = Some o -> o_kind o = KTensor -> nth (o_store o) (s_stores st) (TF32, []) = (dt, old) -> length d = numel (o_shape o) ->
    micro st (LWrite x d) (mkSt (upd (s_stores st) (o_store o) (dt, firstn (o_off o) old ++ d ++ skipn (o_off o + numel (o_shape o)) old)) (s_objs st) (s_eucl st) (s_checks st))
| MFlags : forall st a b, micro st LFlags (mkSt (s_stores st) (s_objs st) a b).
Inductive micros : state -> list label -> state -> Prop :=
| MsNil : forall st, micros st [] st
| MsCons : forall st l st1 ls st2, micro st l st1 -> micros st1 ls st2 -> micros st (l :: ls) st2.
(** what an operation may do *)
Definition allowed (c : op) (l : label) : Prop :=
  match l with
  | LAlloc _ _ | LFlags => True
  | LAlias _ src _ _ => mentions c src
  | LMark i => mentions c i
  | LSetNew i _ => updates c i
  | LSetFrom i src => updates c i /\ mentions c src
  | LWrite x _ => mentions c x /\ writes c
  end.
Lemma micros_app : forall st ls st1 ls' st2, micros st ls st1 -> micros st1 ls' st2 -> micros st (ls ++ ls') st2.
Proof. induction 1; intros; cbn; [assumption|]. econstructor; eauto. Qed.
Lemma micros_one : forall st l st', micro st l st' -> micros st [l] st'.
Proof. intros. econstructor; [eassumption|constructor]. Qed.

Lemma fits_spec : forall l s, fits l s = true -> last2 s = rows_cols l.
Proof. intros l s. unfold fits, shape_eqb. destruct (list_eq_dec _ _ _); [auto|discriminate]. Qed.
Lemma check_fits : forall F st l t, check_group_tensor F st l t = true -> last2 (t_shape t) = rows_cols l.
Proof. intros F st l t H. apply andb_true_iff in H. apply fits_spec. apply H. Qed.
Lemma value_shape : forall st o, t_shape (value st o) = o_shape o.
Proof. intros st o. unfold value. destruct (nth _ _ _). reflexivity. Qed.
Lemma get_upd_same : forall st i o o', get st i = Some o -> get (set_obj st i o') i = Some o'.
Proof.
  intros st i o o'. unfold get, set_obj. cbn [s_objs]. generalize (s_objs st). intro l. revert i. induction l as [|x l IH]; intros [|i] H; cbn in *; try discriminate; auto.
Qed.
Lemma get_upd_other : forall st i j o', i <> j -> get (set_obj st i o') j = get st j.
Proof.
  intros st i j o'. unfold get, set_obj. cbn [s_objs]. generalize (s_objs st). intro l. revert i j. induction l as [|x l IH]; intros [|i] [|j] H; cbn; try reflexivity; try congruence.
  apply IH. congruence.
Qed.
Lemma upd_length : forall A (l : list A) i v, length (upd l i v) = length l.
Proof. intros A l. induction l; intros [|i] v; cbn; congruence. Qed.

(** the helpers *)
Definition reaches (c : op) (st st' : state) : Prop := exists ls, micros st ls st' /\ Forall (allowed c) ls.
Lemma r_refl : forall c st, reaches c st st.
Proof. intros. exists []. split; constructor. Qed.
Lemma r_one : forall c st l st', micro st l st' -> allowed c l -> reaches c st st'.
Proof. intros c st l st' M A. exists [l]. split; [now apply micros_one|]. repeat constructor. exact A. Qed.
Lemma r_trans : forall c a b d, reaches c a b -> reaches c b d -> reaches c a d.
Proof. intros c a b d (l & M & A) (l' & M' & A'). exists (l ++ l'). split; [eapply micros_app; eauto|]. apply Forall_app. auto. Qed.
Lemma r_alloc : forall c st k t, fits_kind k (t_shape t) -> ten_ok t -> reaches c st (fst (alloc st k t)).
Proof. intros. eapply r_one; [now constructor|exact I]. Qed.
Lemma r_copy : forall F c st l t st' r, ten_ok t -> new_copy F st l t = (st', r) -> reaches c st st'.
Proof.
  intros F c st l t st' r TK H. unfold new_copy in H. destruct (check_group_tensor F st l t) eqn:E; [|injection H as <- _; apply r_refl].
  cbv beta iota zeta delta [alloc] in H. injection H as <- _. apply (r_alloc c st (KLie l) t); [exact (check_fits _ _ _ _ E)|exact TK].
Qed.
Lemma r_wrap : forall F c st l t st' r, ten_ok t -> wrap_copy F st l t = (st', r) -> reaches c st st'.
Proof.
  intros F c st l t st' r TK H. unfold wrap_copy in H. destruct (s_eucl st); [|eapply r_copy; [exact TK|exact H]].
  cbv beta iota zeta delta [alloc] in H. injection H as <- _. apply (r_alloc c st KTensor t); [exact I|exact TK].
Qed.
Lemma r_alias : forall c st k src o off shape, get st src = Some o -> mentions c src -> fits_kind k shape ->
  (forall d : list R, (length d >= o_off o + numel (o_shape o) -> length d >= off + numel shape)%nat) -> reaches c st (fst (alias st k (o_store o) off shape)).
Proof. intros. eapply r_one; [eapply MAlias; eassumption|assumption]. Qed.
Lemma r_shared : forall F c st l src o off shape st' r, get st src = Some o -> mentions c src ->
  (forall d : list R, (length d >= o_off o + numel (o_shape o) -> length d >= off + numel shape)%nat) ->
  new_shared F st l (o_store o) off shape = (st', r) -> reaches c st st'.
Proof.
  intros F c st l src o off shape st' r G M D H. unfold new_shared in H.
  destruct (check_group_tensor F st l _) eqn:E; [|injection H as <- _; apply r_refl].
  cbv beta iota zeta delta [alias] in H. injection H as <- _. apply check_fits in E. rewrite value_shape in E. cbn [o_shape] in E.
  exact (r_alias c st (KLie l) src o off shape G M E D).
Qed.
Lemma r_view : forall c st src o off shape st' r, get st src = Some o -> mentions c src ->
  (forall d : list R, (length d >= o_off o + numel (o_shape o) -> length d >= off + numel shape)%nat) ->
  plain_view st (o_store o) off shape = (st', r) -> reaches c st st'.
Proof.
  intros c st src o off shape st' r G M D H. unfold plain_view in H. cbv beta iota zeta delta [alias] in H. injection H as <- _.
  exact (r_alias c st KTensor src o off shape G M I D).
Qed.
Lemma r_mark : forall c xs st, (forall x, In x xs -> mentions c x) -> reaches c st (mark_all st xs).
Proof.
  intros c xs. induction xs as [|x xs IH]; intros st H; cbn [mark_all]; [apply r_refl|].
  destruct (get st x) as [o|] eqn:G; [|apply IH; intros y Hy; apply H; now right].
  eapply r_trans; [|apply IH; intros y Hy; apply H; now right]. eapply r_one; [now apply MMark|]. apply H. now left.
Qed.
Lemma lie_kind : forall o l, lie_of o = Some l -> o_kind o = KLie l.
Proof. intros o l. unfold lie_of. destruct (o_kind o); [discriminate| |discriminate]. congruence. Qed.
Lemma ltype_eqb_eq : forall a b, ltype_eqb a b = true -> a = b.
Proof. intros [] []; cbn; congruence. Qed.
Lemma tdtype_eqb_eq : forall a b, tdtype_eqb a b = true -> a = b.
Proof. intros [] []; cbn; congruence. Qed.
Lemma r_compose : forall F c st g h st' r, lib_ok F -> do_compose F st g h = (st', r) -> reaches c st st'.
Proof.
  intros F c st g h st' r LO H. unfold do_compose in H.
  destruct (lie_of g) as [l|]; [|injection H as <- _; apply r_refl]. destruct (lie_of h) as [l'|]; [|injection H as <- _; apply r_refl].
  destruct (ltype_eqb l l'); [|injection H as <- _; apply r_refl].
  destruct (lie_compose _ _ _ _ _) as [[t|]|e] eqn:E; try (injection H as <- _; apply r_refl). eapply r_copy; [|exact H].
  unfold lie_compose in E. destruct (fl_compose F l _ _) as [t'|] eqn:E'; [|discriminate]. destruct (check_group_tensor F st l t'); [|discriminate].
  injection E as <-. exact (proj1 LO _ _ _ _ E').
Qed.
(** every object looks inside its storage, with the right last two dimensions *)
Definition obj_ok (st : state) (o : obj) : Prop :=
  (o_store o < length (s_stores st))%nat /\ fits_kind (o_kind o) (o_shape o) /\
  (o_off o + numel (o_shape o) <= length (snd (nth (o_store o) (s_stores st) (TF32, []))))%nat.
Definition bounded (st : state) : Prop := forall i o, get st i = Some o -> obj_ok st o.
Lemma value_ok : forall st o, obj_ok st o -> ten_ok (value st o).
Proof.
  intros st o (_ & _ & L). unfold ten_ok, value. destruct (nth (o_store o) (s_stores st) (TF32, [])) as [dt d]. cbn [t_data t_shape snd] in *.
  rewrite firstn_length, skipn_length. lia.
Qed.
Lemma to_dtype_ok : forall F dt t, ten_ok t -> ten_ok (to_dtype F dt t).
Proof. intros F dt t H. unfold ten_ok, to_dtype. cbn [t_data t_shape]. rewrite map_length. exact H. Qed.
Lemma shape_eqb_eq : forall a b, shape_eqb a b = true -> a = b.
Proof. intros a b. unfold shape_eqb. destruct (list_eq_dec _ _ _); [auto|discriminate]. Qed.
Lemma cat_ok : forall ts t, Forall ten_ok ts -> cat_ten ts = Some t -> ten_ok t.
Proof.
  intros ts t A H. unfold cat_ten in H. destruct ts as [|t0 ts0]; [discriminate|]. set (ts := t0 :: ts0) in *. clearbody ts.
  destruct (t_shape t0) as [|n rest]; [discriminate|]. destruct (forallb _ ts) eqn:Q; [|discriminate]. injection H as <-.
  unfold ten_ok. cbn [t_data t_shape numel fold_right]. clear n. induction A as [|u us HU HUS IH]; [reflexivity|].
  cbn [forallb] in Q. apply andb_true_iff in Q. destruct Q as [Q1 Q2]. cbn [map concat fold_right]. rewrite app_length, (IH Q2).
  apply andb_true_iff in Q1. destruct Q1 as [Q1 _]. unfold ten_ok in HU. rewrite HU. destruct (t_shape u) as [|m r]; [discriminate|].
  apply shape_eqb_eq in Q1. subst r. cbn [hd numel fold_right]. unfold numel. lia.
Qed.
Lemma retract_facts : forall F st l g x r, lib_ok F -> retract_val F st l g x = inl r -> last2 (t_shape r) = rows_cols l /\ ten_ok r.
Proof.
  intros F st l g x r (LC & _) H. unfold retract_val in H. destruct (fl_exp F l x) as [e|]; [|discriminate].
  destruct (check_group_tensor F st l e); [|discriminate]. unfold lie_compose in H.
  destruct (fl_compose F l g e) as [t|] eqn:E; [|discriminate]. destruct (check_group_tensor F st l t) eqn:Q; [|discriminate].
  injection H as <-. split; [exact (check_fits _ _ _ _ Q)|exact (LC _ _ _ _ E)].
Qed.
Lemma get_lt : forall st i o, get st i = Some o -> (i < length (s_objs st))%nat.
Proof. intros st i o H. apply nth_error_Some. unfold get in H. congruence. Qed.
Lemma r_add : forall F c st i g l grad alpha st' r, lib_ok F -> get st i = Some g -> o_kind g = KLie l -> updates c i ->
  do_add F st i g l grad alpha = (st', r) -> reaches c st st'.
Proof.
  intros F c st i g l grad alpha st' r LO G K U H. unfold do_add in H.
  destruct (fl_left_project F l (value st g) grad) as [p|]; [|injection H as <- _; apply r_refl].
  destruct (retract_val F st l (value st g) (fl_scale F alpha p)) as [t|e] eqn:E; [|injection H as <- _; apply r_refl].
  destruct (tdtype_eqb (t_dtype t) (dtype_of st g)) eqn:D; [|injection H as <- _; apply r_refl].
  injection H as <- _. apply tdtype_eqb_eq in D. destruct (retract_facts F st l _ _ t LO E) as [FT TO].
  eapply r_one; [exact (MSetNew st i g l t G K FT D TO)|exact U].
Qed.

Lemma numel_cons : forall n s, numel (n :: s) = (n * numel s)%nat.
Proof. reflexivity. Qed.
Lemma mark_stores : forall xs st, s_stores (mark_all st xs) = s_stores st /\ length (s_objs (mark_all st xs)) = length (s_objs st).
Proof.
  induction xs as [|x xs IH]; intro st; cbn [mark_all]; [auto|]. destruct (get st x); [|apply IH].
  destruct (IH (set_obj st x (mkObj (o_kind o) true (o_store o) (o_off o) (o_shape o)))) as [A B]. rewrite A, B. cbn [set_obj s_stores s_objs]. now rewrite upd_length.
Qed.
Definition same_but_mark (o o' : obj) : Prop := o_kind o' = o_kind o /\ o_store o' = o_store o /\ o_off o' = o_off o /\ o_shape o' = o_shape o.
Lemma mark_get : forall xs st i, match get st i with Some o => exists o', get (mark_all st xs) i = Some o' /\ same_but_mark o o' | None => get (mark_all st xs) i = None end.
Proof.
  induction xs as [|x xs IH]; intros st i; cbn [mark_all].
  - destruct (get st i); [|reflexivity]. eexists. split; [reflexivity|]. unfold same_but_mark. auto.
  - destruct (get st x) as [ox|] eqn:Gx; [|apply IH].
    specialize (IH (set_obj st x (mkObj (o_kind ox) true (o_store ox) (o_off ox) (o_shape ox))) i).
    destruct (Nat.eq_dec x i) as [->|N].
    + rewrite (get_upd_same _ _ _ _ Gx) in IH. rewrite Gx. exact IH.
    + rewrite get_upd_other in IH by exact N. exact IH.
Qed.
Lemma bounded_mark : forall st xs, bounded st -> bounded (mark_all st xs).
Proof.
  intros st xs B i o G. unfold obj_ok. rewrite (proj1 (mark_stores xs st)). pose proof (mark_get xs st i) as M. destruct (get st i) as [o0|] eqn:G0.
  - destruct M as (o' & G' & (S1 & S2 & S3 & S4)). rewrite G in G'. injection G' as <-. rewrite S1, S2, S3, S4. exact (B i o0 G0).
  - congruence.
Qed.

Lemma getM_ok : forall st gs os, bounded st -> getM st gs = Some os -> Forall ten_ok (map (value st) os).
Proof.
  intros st gs. induction gs as [|x gs IH]; intros os B H; cbn [getM] in H; [injection H as <-; constructor|].
  destruct (get st x) as [o|] eqn:G; [|discriminate]. destruct (getM st gs) as [os'|]; [|discriminate]. injection H as <-.
  cbn [map]. constructor; [apply value_ok; exact (B x o G)|now apply IH].
Qed.
(** every operation is a sequence of elementary changes it is allowed to make *)
Theorem step_reaches : forall F st c, lib_ok F -> op_ok c -> bounded st -> reaches c st (fst (step F st c)).
Proof.
  intros F st c LO OK B. destruct (step F st c) as [st' r] eqn:H. cbn [fst].
  assert (VO : forall i o, get st i = Some o -> ten_ok (value st o)) by (intros i o G; apply value_ok; exact (B i o G)).
  destruct c; cbn [step] in H; unfold with_lie, with_obj in H.
  - cbv beta iota zeta delta [alloc] in H. injection H as <- _. apply (r_alloc _ st KTensor t); [exact I|exact OK].
  - destruct (get st x) as [o|] eqn:G; [|injection H as <- _; apply r_refl]. destruct (o_kind o) eqn:K; try (injection H as <- _; apply r_refl).
    destruct (nth (o_store o) (s_stores st) (TF32, [])) as [dt old] eqn:N. cbv zeta in H.
    destruct (Nat.eqb (length d) (numel (o_shape o))) eqn:E; [|injection H as <- _; apply r_refl]. apply Nat.eqb_eq in E. injection H as <- _.
    eapply r_one; [exact (MWrite st x o dt old d G K N E)|]. cbn. auto.
  - destruct (get st x) as [o|] eqn:G; [|injection H as <- _; apply r_refl].
    eapply (r_view _ st x o (o_off o) (o_shape o)); [exact G|reflexivity|auto|exact H].
  - destruct (get st x) as [o|] eqn:G; [|injection H as <- _; apply r_refl]. eapply r_copy; [|exact H]. exact (VO x o G).
  - destruct (get st x) as [o|] eqn:G; [|injection H as <- _; apply r_refl].
    eapply (r_shared F _ st l x o (o_off o) (o_shape o)); [exact G|reflexivity|auto|exact H].
  - destruct (get st x) as [o|] eqn:G; [|injection H as <- _; apply r_refl]. destruct (lie_of o) as [l0|] eqn:K.
    + destruct (tdtype_eqb _ _); [injection H as <- _; apply r_refl|]. eapply r_wrap; [|exact H]. apply to_dtype_ok. exact (VO x o G).
    + destruct l as [l1|]; [|injection H as <- _; apply r_refl]. destruct (check_group_tensor _ _ _ _); [|injection H as <- _; apply r_refl].
      destruct (tdtype_eqb _ _); [|eapply r_wrap; [|exact H]; apply to_dtype_ok; exact (VO x o G)]. destruct (s_eucl st).
      * eapply (r_view _ st x o (o_off o) (o_shape o)); [exact G|reflexivity|auto|exact H].
      * eapply (r_shared F _ st l1 x o (o_off o) (o_shape o)); [exact G|reflexivity|auto|exact H].
  - destruct (get st g) as [o|] eqn:G; [|injection H as <- _; apply r_refl]. destruct (lie_of o) as [l|]; [|injection H as <- _; apply r_refl].
    destruct (get st x) as [ox|] eqn:Gx; [|injection H as <- _; apply r_refl]. eapply r_copy; [|exact H].
    match goal with |- context [tdtype_eqb ?p ?q] => destruct (tdtype_eqb p q) end; [|apply to_dtype_ok]; exact (VO x ox Gx).
  - destruct (get st g) as [o|] eqn:G; [|injection H as <- _; apply r_refl]. destruct (lie_of o) as [l|]; [|injection H as <- _; apply r_refl].
    eapply r_wrap; [|exact H]. exact (VO g o G).
  - destruct (get st g) as [o|] eqn:G; [|injection H as <- _; apply r_refl]. destruct (lie_of o) as [l|]; [|injection H as <- _; apply r_refl].
    destruct (o_shape o) as [|b rest] eqn:S; [injection H as <- _; apply r_refl|].
    destruct (Nat.ltb i b) eqn:L; [|injection H as <- _; apply r_refl]. apply Nat.ltb_lt in L.
    assert (X : forall d : list R, (length d >= o_off o + numel (o_shape o) -> length d >= o_off o + i * numel rest + numel rest)%nat) by (intro d; rewrite S, numel_cons; nia).
    destruct (s_eucl st); [|destruct (Nat.eqb (length rest) 2); [|destruct (Nat.eqb (length rest) 3); [|injection H as <- _; apply r_refl]]].
    + eapply (r_view _ st g o); [exact G|reflexivity| |exact H]. exact X.
    + eapply (r_shared F _ st l g o); [exact G|reflexivity| |exact H]. intros d. rewrite (numel_cons 1 rest), Nat.mul_1_l. apply X.
    + eapply (r_shared F _ st l g o); [exact G|reflexivity| |exact H]. exact X.
  - destruct (get st g) as [o|] eqn:G; [|injection H as <- _; apply r_refl]. destruct (lie_of o) as [l|]; [|injection H as <- _; apply r_refl].
    destruct (o_shape o) as [|n rest] eqn:S; [injection H as <- _; apply r_refl|]. cbv zeta in H.
    assert (X : forall d : list R, (length d >= o_off o + numel (o_shape o) -> length d >= o_off o + Nat.min a n * numel rest + numel ((Nat.min b n - Nat.min a n) :: rest))%nat).
    { intro d. rewrite S, !numel_cons. nia. }
    destruct (s_eucl st); [|destruct (Nat.eqb _ 2); [|destruct (Nat.eqb _ 3); [|injection H as <- _; apply r_refl]]].
    + eapply (r_view _ st g o); [exact G|reflexivity| |exact H]. exact X.
    + eapply (r_shared F _ st l g o); [exact G|reflexivity| |exact H]. intros d. rewrite (numel_cons 1), Nat.mul_1_l. apply X.
    + eapply (r_shared F _ st l g o); [exact G|reflexivity| |exact H]. exact X.
  - destruct (get st g) as [o|] eqn:G; [|injection H as <- _; apply r_refl]. destruct (lie_of o) as [l|]; [|injection H as <- _; apply r_refl].
    destruct (s_eucl st); injection H as <- _; apply r_refl.
  - destruct (getM st gs) as [os|] eqn:GM; [|injection H as <- _; apply r_refl]. destruct (get_ltype os) as [[l|]|]; try (injection H as <- _; apply r_refl).
    destruct (cat_ten _) as [t|] eqn:E; [|injection H as <- _; apply r_refl]. eapply r_wrap; [|exact H]. eapply cat_ok; [|exact E].
    exact (getM_ok st gs os B GM).
  - destruct (get st g) as [o|] eqn:G; [|injection H as <- _; apply r_refl]. destruct (get st h) as [o'|]; [|injection H as <- _; apply r_refl].
    eapply r_compose; [exact LO|exact H].
  - destruct (get st g) as [o|] eqn:G; [|injection H as <- _; apply r_refl]. destruct (lie_of o) as [l|]; [|injection H as <- _; apply r_refl].
    destruct (get st h) as [o'|]; [|injection H as <- _; apply r_refl]. destruct (lie_of o') as [l'|]; [|injection H as <- _; apply r_refl].
    eapply r_compose; [exact LO|exact H].
  - destruct (get st g) as [o|] eqn:G; [|injection H as <- _; apply r_refl]. destruct (lie_of o) as [l|]; [|injection H as <- _; apply r_refl].
    destruct (fl_inv F l (value st o)) as [t|] eqn:E; [|injection H as <- _; apply r_refl]. eapply r_copy; [|exact H]. exact (proj1 (proj2 LO) _ _ _ E).
  - destruct (get st g) as [o|] eqn:G; [|injection H as <- _; apply r_refl]. destruct (lie_of o) as [l|]; [|injection H as <- _; apply r_refl].
    destruct (fl_log F l (value st o)) as [t|] eqn:E; [|injection H as <- _; apply r_refl].
    cbv beta iota zeta delta [alloc] in H. injection H as <- _. apply (r_alloc _ st KTensor t); [exact I|exact (proj2 (proj2 LO) _ _ _ E)].
  - destruct (get st g) as [o|] eqn:G; [|injection H as <- _; apply r_refl]. destruct (lie_of o) as [l|]; [|injection H as <- _; apply r_refl].
    destruct (get st h) as [o'|]; [|injection H as <- _; apply r_refl]. destruct (lie_of o') as [l'|]; [|injection H as <- _; apply r_refl].
    destruct (ltype_eqb l' l); [|injection H as <- _; apply r_refl]. destruct (fl_inv _ _ _) as [t|]; [|injection H as <- _; apply r_refl].
    destruct (check_group_tensor _ _ _ _); [|injection H as <- _; apply r_refl].
    destruct (lie_compose _ _ _ _ _) as [[d|]|e]; try (injection H as <- _; apply r_refl).
    destruct (fl_log F l d) as [t'|] eqn:E; [|injection H as <- _; apply r_refl].
    cbv beta iota zeta delta [alloc] in H. injection H as <- _. apply (r_alloc _ st KTensor t'); [exact I|exact (proj2 (proj2 LO) _ _ _ E)].
  - destruct (get st g) as [o|] eqn:G; [|injection H as <- _; apply r_refl]. destruct (lie_of o) as [l|]; [|injection H as <- _; apply r_refl].
    destruct (get st x) as [o'|]; [|injection H as <- _; apply r_refl]. destruct (retract_val _ _ _ _ _) as [t|e] eqn:E; [|injection H as <- _; apply r_refl].
    eapply r_copy; [|exact H]. exact (proj2 (retract_facts F st l _ _ t LO E)).
  - destruct (get st g) as [o|] eqn:G; [|injection H as <- _; apply r_refl]. destruct (lie_of o) as [l|]; [|injection H as <- _; apply r_refl].
    destruct (get st x) as [o'|]; [|injection H as <- _; apply r_refl]. destruct (lie_of o'); injection H as <- _; apply r_refl.
  - destruct (get st g) as [o|] eqn:G; [|injection H as <- _; apply r_refl]. destruct (lie_of o) as [l|] eqn:K; [|injection H as <- _; apply r_refl].
    destruct (get st h) as [o'|] eqn:G'; [|injection H as <- _; apply r_refl]. destruct (lie_of o') as [l'|] eqn:K'; [|injection H as <- _; apply r_refl].
    destruct (ltype_eqb l' l) eqn:E; [|injection H as <- _; apply r_refl]. apply ltype_eqb_eq in E. subst l'.
    destruct (tdtype_eqb _ _) eqn:D; [|injection H as <- _; apply r_refl]. apply tdtype_eqb_eq in D. injection H as <- _.
    eapply r_one; [exact (MSetFrom st g o h o' l G G' (lie_kind _ _ K) (lie_kind _ _ K') D)|]. cbn. auto.
  - destruct (get st g) as [o|] eqn:G; [|injection H as <- _; apply r_refl]. destruct (lie_of o) as [l|] eqn:K; [|injection H as <- _; apply r_refl].
    destruct (get st x) as [o'|]; [|injection H as <- _; apply r_refl]. destruct (is_marked o'); [|injection H as <- _; apply r_refl].
    eapply (r_add F _ st g o l); [exact LO|exact G|exact (lie_kind _ _ K)|reflexivity|exact H].
  - cbv beta iota zeta delta [alloc] in H. injection H as <- _. apply (r_alloc _ st KGrad t); [exact I|exact OK].
  - destruct (getM st xs) as [os|]; [|injection H as <- _; apply r_refl].
    destruct (existsb (fun o => match lie_of o with Some _ => true | None => false end) os).
    + destruct (s_eucl st || eucl_op); [|injection H as <- _; apply r_refl]. destruct (get_ltype os); [|injection H as <- _; apply r_refl].
      destruct (f (map (value st) os)) as [t|] eqn:E; [|injection H as <- _; apply r_refl].
      cbv beta iota zeta delta [alloc] in H. injection H as <- _. apply (r_alloc _ st KTensor t); [exact I|exact (OK _ _ E)].
    + destruct (existsb is_grad os).
      * assert (M : reaches (OTorch xs f eucl_op) st (mark_all st xs)) by (apply r_mark; intros y Hy; exact Hy).
        cbv zeta in H. destruct (f (map (value st) os)) as [t|] eqn:E; [|injection H as <- _; exact M].
        cbv beta iota zeta delta [alloc] in H. injection H as <- _. eapply r_trans; [exact M|]. apply (r_alloc _ (mark_all st xs) KGrad t); [exact I|exact (OK _ _ E)].
      * destruct (f (map (value st) os)) as [t|] eqn:E; [|injection H as <- _; apply r_refl].
        cbv beta iota zeta delta [alloc] in H. injection H as <- _. apply (r_alloc _ st KTensor t); [exact I|exact (OK _ _ E)].
  - destruct (get st g) as [o|] eqn:G; [|injection H as <- _; apply r_refl]. destruct (lie_of o) as [l|] eqn:K; [|injection H as <- _; apply r_refl].
    destruct (get st x) as [ox|] eqn:Gx; [|injection H as <- _; apply r_refl]. destruct (get st y) as [oy|] eqn:Gy; [|injection H as <- _; apply r_refl].
    destruct (is_marked ox || is_marked oy)%bool; [|injection H as <- _; apply r_refl].
    destruct (lie_of ox) as [lx|] eqn:Kx; [injection H as <- _; apply r_refl|]. destruct (lie_of oy) as [ly|] eqn:Ky; [injection H as <- _; apply r_refl|].
    cbv zeta in H.
    set (st1 := if (is_grad ox || is_grad oy)%bool then mark_all st [x; y] else st) in *.
    assert (M : reaches (OAddC g x y f) st st1).
    { unfold st1. destruct (is_grad ox || is_grad oy)%bool; [|apply r_refl]. apply r_mark. cbn. intros z [<-|[<-|[]]]; auto. }
    assert (B1 : bounded st1) by (unfold st1; destruct (is_grad ox || is_grad oy)%bool; [now apply bounded_mark|exact B]).
    assert (G1 : get st1 g = Some o).
    { unfold st1. destruct (is_grad ox || is_grad oy)%bool; [|exact G].
      assert (N : forall z oz, get st z = Some oz -> lie_of oz = None -> z <> g) by (intros z oz Gz Kz ->; rewrite G in Gz; injection Gz as <-; congruence).
      cbn [mark_all]. rewrite Gx. pose proof (N x ox Gx Kx) as Nx. pose proof (N y oy Gy Ky) as Ny.
      match goal with |- context [get ?s y] => destruct (get s y) end; rewrite ?get_upd_other by assumption; exact G. }
    destruct (f (value st ox) (value st oy)) as [t|]; [|injection H as <- _; exact M].
    eapply r_trans; [exact M|]. eapply (r_add F _ st1 g o l); [exact LO|exact G1|exact (lie_kind _ _ K)|reflexivity|exact H].
  - injection H as <- _. eapply r_one; [apply MFlags|exact I].
  - injection H as <- _. eapply r_one; [apply MFlags|exact I].
Qed.
