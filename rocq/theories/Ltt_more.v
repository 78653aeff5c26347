(** C89: results, updates, sharing, refusals. *)
From Coq Require Import Reals List Arith Bool Lia.
From Verif Require Import Ltt_model Ltt_spec Ltt_props Ltt_main.
Import ListNotations.

(** ** results own their memory *)
Definition allocated (st' : state) (i : nat) : Prop := exists st1 k t, bounded st1 /\ ten_ok t /\ alloc st1 k t = (st', i).
Lemma allocated_unshared : forall st' i, allocated st' i -> unshared st' i.
Proof.
  intros st' i (st1 & k & t & B & _ & E). cbv beta iota zeta delta [alloc] in E. injection E as <- <-.
  eexists. split; [unfold get; cbn [s_objs]; rewrite nth_error_app2, Nat.sub_diag by lia; reflexivity|].
  intros j oj N H. apply get_app_inv in H. destruct H as [H|[-> _]]; [|congruence]. cbn [o_store]. pose proof (proj1 (B j oj H)). lia.
Qed.
Lemma alloc_get : forall st k t, get (fst (alloc st k t)) (snd (alloc st k t)) = Some (mkObj k false (length (s_stores st)) 0 (t_shape t)).
Proof. intros st k t. unfold alloc, get. cbn [fst snd s_objs]. rewrite nth_error_app2, Nat.sub_diag by lia. reflexivity. Qed.
Lemma alloc_value : forall st k t m k', ten_ok t -> value (fst (alloc st k t)) (mkObj k' m (length (s_stores st)) 0 (t_shape t)) = t.
Proof.
  intros st k t m k' TK. unfold alloc, value. cbn [fst s_stores o_store o_shape o_off]. rewrite app_nth2, Nat.sub_diag by lia. cbn [nth skipn].
  unfold ten_ok in TK. rewrite <- TK, firstn_all. destruct t; reflexivity.
Qed.
Lemma copy_result : forall F st l t st' r, new_copy F st l t = (st', r) ->
  match r with Ret i => alloc st (KLie l) t = (st', i) | Raise e => st' = st /\ e = EValue /\ check_group_tensor F st l t = false | Done => False end.
Proof.
  intros F st l t st' r H. unfold new_copy in H. destruct (check_group_tensor F st l t) eqn:E.
  - destruct (alloc st (KLie l) t) as [s i] eqn:Q. injection H as <- <-. reflexivity.
  - injection H as <- <-. auto.
Qed.
Lemma wrap_result : forall F st l t st' r, wrap_copy F st l t = (st', r) ->
  match r with Ret i => exists k, alloc st k t = (st', i) | Raise e => st' = st | Done => False end.
Proof.
  intros F st l t st' r H. unfold wrap_copy in H. destruct (s_eucl st).
  - destruct (alloc st KTensor t) as [s i] eqn:Q. injection H as <- <-. eauto.
  - apply copy_result in H. destruct r; [tauto|exact H|eauto].
Qed.
Lemma compose_result : forall F st g h st' r, do_compose F st g h = (st', r) ->
  match r with
  | Ret i => exists l t, o_kind g = KLie l /\ o_kind h = KLie l /\ fl_compose F l (value st g) (value st h) = Some t /\ alloc st (KLie l) t = (st', i)
  | Raise e => st' = st | Done => False end.
Proof.
  intros F st g h st' r H. unfold do_compose in H. destruct (lie_of g) as [l|] eqn:Kg; [|injection H as <- <-; auto]. destruct (lie_of h) as [l'|] eqn:Kh; [|injection H as <- <-; auto].
  destruct (ltype_eqb l l') eqn:E; [|injection H as <- <-; auto]. apply ltype_eqb_eq in E. subst l'.
  destruct (lie_compose F st l (value st g) (value st h)) as [[t|]|e] eqn:Q; [|injection H as <- <-; auto|injection H as <- <-; auto].
  apply copy_result in H. destruct r; [tauto|exact H|]. exists l, t. apply lie_kind in Kg. apply lie_kind in Kh. split; [exact Kg|]. split; [exact Kh|]. split; [|exact H].
  unfold lie_compose in Q. destruct (fl_compose F l (value st g) (value st h)); [|discriminate]. destruct (check_group_tensor F st l t0); congruence.
Qed.
Ltac none H := injection H; clear H; intros; subst; try discriminate.
Ltac step_cases H := cbn [step] in H; unfold with_lie, with_obj in H;
  repeat (match type of H with context [match ?x with _ => _ end] =>
    match x with context [match _ with _ => _ end] => fail 1 | context [new_copy] => fail 1 | context [wrap_copy] => fail 1 | context [do_compose] => fail 1 | context [do_add] => fail 1 | context [alloc] => fail 1 | _ => destruct x eqn:? end end).

(** T4b: the results of ltype(x), new_lietensor, clone, torch.cat, compose, *, inv, log, local,
    retract and of torch functions share their memory with nothing *)
Theorem C89_results_own_memory : forall F st c st' i, lib_ok F -> op_ok c -> reachable F st -> copies c -> step F st c = (st', Ret i) -> unshared st' i.
Proof.
  intros F st c st' i LO OK RE C H. pose proof (reachable_bounded F st LO RE) as B.
  assert (AL : forall k t, alloc st k t = (st', i) -> unshared st' i).
  { intros k t E. cbv beta iota zeta delta [alloc] in E. injection E as <- <-.
    eexists. split; [unfold get; cbn [s_objs]; rewrite nth_error_app2, Nat.sub_diag by lia; reflexivity|].
    intros j oj N Hj. apply get_app_inv in Hj. destruct Hj as [Hj|[-> _]]; [|congruence]. cbn [o_store]. pose proof (proj1 (B j oj Hj)). lia. }
  destruct c; cbn [copies] in C; try contradiction C; clear C.
  - cbn [step] in H. destruct (alloc st KTensor t) as [s k] eqn:E. none H. exact (AL _ _ E).
  - step_cases H; try (none H; fail). apply copy_result in H. exact (AL _ _ H).
  - step_cases H; try (none H; fail); apply copy_result in H; exact (AL _ _ H).
  - step_cases H; try (none H; fail). apply wrap_result in H. destruct H as (k & H). exact (AL _ _ H).
  - step_cases H; try (none H; fail). apply wrap_result in H. destruct H as (k & H). exact (AL _ _ H).
  - step_cases H; try (none H; fail). apply compose_result in H. destruct H as (l & t & _ & _ & _ & H). exact (AL _ _ H).
  - step_cases H; try (none H; fail). apply compose_result in H. destruct H as (l' & t & _ & _ & _ & H). exact (AL _ _ H).
  - step_cases H; try (none H; fail). apply copy_result in H. exact (AL _ _ H).
  - step_cases H; try (none H; fail). match type of H with context [alloc st KTensor ?q] => destruct (alloc st KTensor q) as [s k] eqn:E end. none H. exact (AL _ _ E).
  - step_cases H; try (none H; fail). match type of H with context [alloc st KTensor ?q] => destruct (alloc st KTensor q) as [s k] eqn:E end. none H. exact (AL _ _ E).
  - step_cases H; try (none H; fail). apply copy_result in H. exact (AL _ _ H).
  - cbn [step] in H. destruct (alloc st KGrad t) as [s k] eqn:E. none H. exact (AL _ _ E).
  - cbn [step] in H. destruct (getM st xs) as [os|]; [|none H].
    destruct (existsb (fun o => match lie_of o with Some _ => true | None => false end) os).
    + destruct (s_eucl st || eucl_op); [|none H]. destruct (get_ltype os); [|none H]. destruct (f (map (value st) os)) as [t|]; [|none H].
      destruct (alloc st KTensor t) as [s k] eqn:E. none H. exact (AL _ _ E).
    + destruct (existsb is_grad os).
      * cbv zeta in H. destruct (f (map (value st) os)) as [t|] eqn:Q; [|none H]. destruct (alloc (mark_all st xs) KGrad t) as [s k] eqn:E. none H.
        apply allocated_unshared. exists (mark_all st xs), KGrad, t. split; [now apply bounded_mark|]. split; [exact (OK _ _ Q)|exact E].
      * destruct (f (map (value st) os)) as [t|]; [|none H]. destruct (alloc st KTensor t) as [s k] eqn:E. none H. exact (AL _ _ E).
Qed.

(** T9: a call that raises leaves the contents of every object as they were *)
Lemma mark_contents : forall xs st i, contents (mark_all st xs) i = contents st i.
Proof.
  intros xs st i. unfold contents. pose proof (mark_get xs st i) as M. destruct (get st i) as [o|]; [|now rewrite M].
  destruct M as (o' & -> & _ & S1 & S2 & S3). cbn. f_equal. unfold value. rewrite (proj1 (mark_stores xs st)), S1, S2, S3. reflexivity.
Qed.
Lemma add_raise : forall F st i g l t a st' e, do_add F st i g l t a = (st', Raise e) -> st' = st.
Proof.
  intros F st i g l t a st' e H. unfold do_add in H. destruct (fl_left_project _ _ _ _); [|now injection H as <- _].
  destruct (retract_val _ _ _ _ _); [|now injection H as <- _]. destruct (tdtype_eqb _ _); [discriminate|now injection H as <- _].
Qed.
Theorem C89_raise_changes_nothing : forall F st c st' e, step F st c = (st', Raise e) ->
  length (s_objs st') = length (s_objs st) /\ forall i, contents st' i = contents st i.
Proof.
  intros F st c st' e H.
  enough (X : st' = st \/ exists xs, st' = mark_all st xs).
  { destruct X as [->|(xs & ->)]; [auto|]. split; [apply mark_stores|]. intro i. apply mark_contents. }
  destruct c; try (left; step_cases H; try discriminate; try (injection H as <- _; reflexivity); try (apply copy_result in H; tauto); try (apply wrap_result in H; exact H);
    try (apply compose_result in H; exact H); try (apply add_raise in H; exact H); try (unfold new_shared in H; destruct (check_group_tensor _ _ _ _); [discriminate|injection H as <- _; reflexivity]);
    try (match type of H with context [alloc ?s ?k ?q] => destruct (alloc s k q) end; discriminate); fail).
  - cbn [step] in H. destruct (getM st xs) as [os|]; [|left; now injection H as <- _].
    destruct (existsb (fun o => match lie_of o with Some _ => true | None => false end) os).
    + left. destruct (s_eucl st || eucl_op); [|now injection H as <- _]. destruct (get_ltype os); [|now injection H as <- _].
      destruct (f (map (value st) os)); [discriminate|now injection H as <- _].
    + destruct (existsb is_grad os).
      * right. exists xs. cbv zeta in H. destruct (f (map (value st) os)); [discriminate|now injection H as <- _].
      * left. destruct (f (map (value st) os)); [discriminate|now injection H as <- _].
  - cbn [step] in H. unfold with_lie, with_obj in H. destruct (get st g) as [o|]; [|left; now injection H as <- _]. destruct (lie_of o) as [l|]; [|left; now injection H as <- _].
    destruct (get st x) as [ox|]; [|left; now injection H as <- _]. destruct (get st y) as [oy|]; [|left; now injection H as <- _].
    destruct (is_marked ox || is_marked oy); [|left; now injection H as <- _]. destruct (lie_of ox); [left; now injection H as <- _|]. destruct (lie_of oy); [left; now injection H as <- _|].
    cbv zeta in H. destruct (is_grad ox || is_grad oy).
    + right. exists [x; y]. destruct (f (value st ox) (value st oy)); [|now injection H as <- _]. apply add_raise in H. exact H.
    + left. destruct (f (value st ox) (value st oy)); [|now injection H as <- _]. apply add_raise in H. exact H.
Qed.

(** ** values and types of results *)
Lemma fits_true : forall l s, last2 s = rows_cols l -> fits l s = true.
Proof. intros l s H. unfold fits, shape_eqb. rewrite H. destruct (list_eq_dec _ _ _); congruence. Qed.
Lemma ltype_eqb_refl : forall l, ltype_eqb l l = true.
Proof. intros []; reflexivity. Qed.
(** outside enable_checks() *)
Lemma check_true : forall F st l t, s_checks st = false -> last2 (t_shape t) = rows_cols l -> check_group_tensor F st l t = true.
Proof. intros F st l t C H. unfold check_group_tensor. rewrite (fits_true l _ H), C. reflexivity. Qed.
Lemma lie_of_kind : forall o l, o_kind o = KLie l -> lie_of o = Some l.
Proof. intros o l H. unfold lie_of. now rewrite H. Qed.
Lemma fresh_contents : forall st k t, ten_ok t -> contents (fst (alloc st k t)) (snd (alloc st k t)) = Some t /\ kind_of (fst (alloc st k t)) (snd (alloc st k t)) = Some k.
Proof. intros st k t TK. unfold contents, kind_of. rewrite alloc_get. cbn [option_map]. rewrite alloc_value by exact TK. auto. Qed.

(** g.compose(h) is the product of the contents, in that order, with the same ltype; g * h is
    h.compose(g) *)
Theorem C89_compose : forall F st g h og oh l t, lib_ok F -> s_checks st = false -> get st g = Some og -> get st h = Some oh -> o_kind og = KLie l -> o_kind oh = KLie l ->
  fl_compose F l (value st og) (value st oh) = Some t -> last2 (t_shape t) = rows_cols l ->
  exists st' i, step F st (OCompose g h) = (st', Ret i) /\ step F st (OMul h g) = (st', Ret i) /\ contents st' i = Some t /\ kind_of st' i = Some (KLie l).
Proof.
  intros F st g h og oh l t LO CK Gg Gh Kg Kh E FT. exists (fst (alloc st (KLie l) t)), (snd (alloc st (KLie l) t)).
  assert (X : do_compose F st og oh = (fst (alloc st (KLie l) t), Ret (snd (alloc st (KLie l) t)))).
  { unfold do_compose, lie_compose, new_copy. rewrite (lie_of_kind _ _ Kg), (lie_of_kind _ _ Kh), ltype_eqb_refl, E, (check_true F st l t CK FT). rewrite (check_true F st l t CK FT). reflexivity. }
  split; [cbn [step]; unfold with_obj; rewrite Gg, Gh; exact X|].
  split; [cbn [step]; unfold with_lie, with_obj; rewrite Gg, Gh, (lie_of_kind _ _ Kg), (lie_of_kind _ _ Kh); exact X|].
  apply fresh_contents. exact (proj1 LO _ _ _ _ E).
Qed.
(** inside as_euclidean() no torch function returns a LieTensor *)
Theorem C89_euclidean_context : forall F st c st' i, s_eucl st = true ->
  match c with OClone _ | OCat _ | OItem _ _ | OSlice _ _ _ | OTorch _ _ _ => True | _ => False end ->
  step F st c = (st', Ret i) -> kind_of st' i = Some KTensor \/ kind_of st' i = Some KGrad.
Proof.
  intros F st c st' i E C H.
  assert (AL : forall s k t, alloc s k t = (st', i) -> kind_of st' i = Some k).
  { intros s k t Q. unfold kind_of. pose proof (alloc_get s k t) as A. rewrite Q in A. cbn [fst snd] in A. rewrite A. reflexivity. }
  assert (PV : forall a b s, plain_view st a b s = (st', Ret i) -> kind_of st' i = Some KTensor).
  { intros a b s Q. unfold plain_view, alias in Q. injection Q as <- <-. unfold kind_of, get. cbn [s_objs]. rewrite nth_error_app2, Nat.sub_diag by lia. reflexivity. }
  assert (WR : forall l t, wrap_copy F st l t = (st', Ret i) -> kind_of st' i = Some KTensor).
  { intros l t Q. unfold wrap_copy in Q. rewrite E in Q. destruct (alloc st KTensor t) as [s k] eqn:A. injection Q as <- <-. exact (AL _ _ _ A). }
  destruct c; try contradiction C; clear C.
  - left. cbn [step] in H. unfold with_lie, with_obj in H. destruct (get st g) as [o|]; [|none H]. destruct (lie_of o); [|none H]. exact (WR _ _ H).
  - left. cbn [step] in H. unfold with_lie, with_obj in H. destruct (get st g) as [o|]; [|none H]. destruct (lie_of o); [|none H].
    destruct (o_shape o); [none H|]. destruct (Nat.ltb _ _); [|none H]. rewrite E in H. exact (PV _ _ _ H).
  - left. cbn [step] in H. unfold with_lie, with_obj in H. destruct (get st g) as [o|]; [|none H]. destruct (lie_of o); [|none H].
    destruct (o_shape o); [none H|]. cbv zeta in H. rewrite E in H. exact (PV _ _ _ H).
  - left. cbn [step] in H. destruct (getM st gs); [|none H]. destruct (get_ltype l) as [[]|]; try (none H; fail). destruct (cat_ten _); [|none H]. exact (WR _ _ H).
  - cbn [step] in H. destruct (getM st xs) as [os|]; [|none H].
    destruct (existsb (fun o => match lie_of o with Some _ => true | None => false end) os).
    + rewrite E in H. cbn [orb] in H. destruct (get_ltype os); [|none H]. destruct (f (map (value st) os)) as [t|]; [|none H].
      destruct (alloc st KTensor t) as [s k] eqn:A. none H. left. exact (AL _ _ _ A).
    + destruct (existsb is_grad os).
      * cbv zeta in H. destruct (f (map (value st) os)) as [t|] eqn:Q; [|none H]. destruct (alloc (mark_all st xs) KGrad t) as [s k] eqn:A. none H. right. exact (AL _ _ _ A).
      * destruct (f (map (value st) os)) as [t|]; [|none H]. destruct (alloc st KTensor t) as [s k] eqn:A. none H. left. exact (AL _ _ _ A).
Qed.

(** ** refusals *)
Lemma ltype_neqb : forall a b, a <> b -> ltype_eqb a b = false.
Proof. intros [] []; cbn; congruence. Qed.
Lemma other_fits : forall l l' s, l <> l' -> last2 s = rows_cols l -> fits l' s = false.
Proof. intros l l' s N H. unfold fits, shape_eqb. rewrite H. destruct (list_eq_dec _ _ _) as [E|]; [|reflexivity]. destruct l, l'; try congruence; discriminate. Qed.
(** two LieTensors of different ltypes never meet in one operation *)
Theorem C89_ltypes_do_not_mix : forall F st g h og oh l l', lib_ok F -> reachable F st -> get st g = Some og -> get st h = Some oh -> o_kind og = KLie l -> o_kind oh = KLie l' -> l <> l' ->
  step F st (OCompose g h) = (st, Raise EValue) /\ step F st (OMul g h) = (st, Raise EValue) /\ step F st (OLocal g h) = (st, Raise EValue) /\
  step F st (OSet g h) = (st, Raise ERuntime) /\ step F st (OCat [g; h]) = (st, Raise EValue) /\
  (forall dt, step F st (ONewLie g h dt) = (st, Raise EValue)) /\ step F st (ONew h l) = (st, Raise EValue) /\ step F st (OFromTensor h l) = (st, Raise EValue).
Proof.
  intros F st g h og oh l l' LO RE Gg Gh Kg Kh N. pose proof (lie_of_kind _ _ Kg) as Lg. pose proof (lie_of_kind _ _ Kh) as Lh.
  pose proof (proj1 (proj2 (reachable_bounded F st LO RE h oh Gh))) as FH. rewrite Kh in FH. cbn [fits_kind] in FH.
  pose proof (other_fits l' l _ (not_eq_sym N) FH) as NF. pose proof (ltype_neqb l l' N) as NE. pose proof (ltype_neqb l' l (not_eq_sym N)) as NE'.
  assert (NC : forall t, t_shape t = o_shape oh -> new_copy F st l t = (st, Raise EValue)).
  { intros t E. unfold new_copy, check_group_tensor. rewrite E, NF. reflexivity. }
  cbn [step]. unfold with_lie, with_obj. rewrite Gg, Gh, Lg, Lh, NE'.
  split; [unfold do_compose; rewrite Lg, Lh, NE; reflexivity|]. split; [unfold do_compose; rewrite Lg, Lh, NE'; reflexivity|]. split; [reflexivity|]. split; [reflexivity|].
  split; [cbn [getM]; rewrite Gg, Gh; unfold get_ltype; cbn [fold_right]; rewrite Lh, Lg, NE; reflexivity|].
  split; [intros dt; apply NC; match goal with |- context [if ?b then _ else _] => destruct b end; [apply value_shape|cbn [to_dtype t_shape]; apply value_shape]|].
  split; [apply NC; apply value_shape|]. unfold new_shared, check_group_tensor. rewrite value_shape. cbn [o_shape]. rewrite NF. reflexivity.
Qed.
(** an ordinary tensor cannot be composed with, set to, or added to a LieTensor; unsupported torch
    functions are refused outside as_euclidean() *)
Theorem C89_refusals : forall F st g x og ox l, get st g = Some og -> o_kind og = KLie l -> get st x = Some ox -> o_kind ox = KTensor ->
  step F st (OCompose g x) = (st, Raise EType) /\ step F st (OMul g x) = (st, Raise EType) /\ step F st (OLocal g x) = (st, Raise EType) /\
  step F st (OSet g x) = (st, Raise ERuntime) /\
  (o_mark ox = false -> forall a, step F st (OAdd g x a) = (st, Raise ERuntime)) /\
  (o_mark ox = false -> forall y oy f, get st y = Some oy -> o_kind oy = KTensor -> o_mark oy = false -> step F st (OAddC g x y f) = (st, Raise ERuntime)) /\
  (forall a, step F st (OAdd g g a) = (st, Raise ERuntime) \/ o_mark og = true) /\
  step F st (OMatmulCheck g g) = (st, Raise EType) /\
  (s_eucl st = false -> forall xs os f, In g xs -> getM st xs = Some os -> step F st (OTorch xs f false) = (st, Raise ENotImplemented)) /\
  (s_eucl st = false -> step F st (OItems g) = (st, Raise ENotImplemented)).
Proof.
  intros F st g x og ox l Gg Kg Gx Kx. pose proof (lie_of_kind _ _ Kg) as Lg. assert (Lx : lie_of ox = None) by (unfold lie_of; now rewrite Kx).
  assert (MX : is_marked ox = o_mark ox) by (unfold is_marked; now rewrite Kx). assert (MG : is_marked og = o_mark og) by (unfold is_marked; now rewrite Kg).
  cbn [step]. unfold with_lie, with_obj. rewrite !Gg, !Gx, !Lg, !Lx.
  split; [unfold do_compose; rewrite Lg, Lx; reflexivity|]. split; [reflexivity|]. split; [reflexivity|]. split; [reflexivity|].
  split; [intros M a; rewrite MX, M; reflexivity|].
  split. { intros M y oy f Gy Ky My. rewrite Gy. unfold is_marked at 2. rewrite Ky, My, MX, M. reflexivity. }
  split. { intro a. rewrite MG. destruct (o_mark og); [right; reflexivity|left; reflexivity]. }
  split; [reflexivity|]. split; [|intros ->; reflexivity].
  intros E xs os f I0 GM. rewrite GM.
  assert (X : existsb (fun o => match lie_of o with Some _ => true | None => false end) os = true).
  { revert os GM. induction xs as [|y xs IH]; intros os GM; [destruct I0|]. cbn [getM] in GM. destruct (get st y) as [oy|] eqn:Gy; [|discriminate].
    destruct (getM st xs) as [os'|] eqn:GM'; [|discriminate]. injection GM as <-. cbn [existsb]. destruct I0 as [->|I0].
    - rewrite Gg in Gy. injection Gy as <-. rewrite Lg. reflexivity.
    - rewrite (IH I0 os' eq_refl). apply orb_true_r. }
  rewrite X, E. reflexivity.
Qed.
(** an integer index on a LieTensor without batch dimension hits the assertion *)
Theorem C89_item_unbatched : forall F st g og l i, get st g = Some og -> o_kind og = KLie l -> s_eucl st = false -> (length (o_shape og) = 2)%nat -> (i < 3)%nat -> last2 (o_shape og) = rows_cols l ->
  step F st (OItem g i) = (st, Raise EAssertion).
Proof.
  intros F st g og l i Gg Kg E L Hi FT. cbn [step]. unfold with_lie, with_obj. rewrite Gg, (lie_of_kind _ _ Kg), E.
  unfold last2 in FT. rewrite L in FT. change (o_shape og = rows_cols l) in FT. rewrite FT. assert (X : Nat.ltb i 3 = true) by now apply Nat.ltb_lt. destruct l; cbn [rows_cols]; rewrite X; reflexivity.
Qed.
(** as_lietensor and cast return a LieTensor of the right dtype as it is, whatever ltype is asked
    for, and convert one of another dtype (the default is float32) *)
Theorem C89_as_lietensor : forall F st x ox l l' dt, get st x = Some ox -> o_kind ox = KLie l ->
  (dtype_of st ox = dt -> step F st (OAs x l' dt) = (st, Ret x)) /\
  (dtype_of st ox <> dt -> lib_ok F -> reachable F st -> s_eucl st = false -> s_checks st = false ->
   exists st' i, step F st (OAs x l' dt) = (st', Ret i) /\ kind_of st' i = Some (KLie l) /\ contents st' i = Some (to_dtype F dt (value st ox)) /\ unshared st' i).
Proof.
  intros F st x ox l l' dt Gx Kx. cbn [step]. unfold with_obj. rewrite Gx, (lie_of_kind _ _ Kx). split.
  - intros ->. destruct dt; reflexivity.
  - intros N LO RE E C. assert (X : tdtype_eqb (dtype_of st ox) dt = false) by (destruct (dtype_of st ox), dt; try reflexivity; congruence).
    rewrite X. unfold wrap_copy, new_copy. rewrite E. pose proof (reachable_bounded F st LO RE) as B. destruct (B x ox Gx) as (S1 & S2 & S3). rewrite Kx in S2.
    rewrite (check_true F st l _ C) by (cbn [to_dtype t_shape]; rewrite value_shape; exact S2).
    assert (TK : ten_ok (to_dtype F dt (value st ox))) by (apply to_dtype_ok, value_ok; exact (B x ox Gx)).
    set (t := to_dtype F dt (value st ox)) in *. exists (fst (alloc st (KLie l) t)), (snd (alloc st (KLie l) t)).
    split; [destruct (alloc st (KLie l) t); reflexivity|]. destruct (fresh_contents st (KLie l) t TK) as [A1 A2]. split; [exact A2|]. split; [exact A1|].
    apply allocated_unshared. exists st, (KLie l), t. split; [exact B|]. split; [exact TK|]. destruct (alloc st (KLie l) t); reflexivity.
Qed.
