(** C89: who sees a change; in-place updates; marks of gradients. *)
From Coq Require Import Reals List Arith Bool Lia.
From Verif Require Import Ltt_model Ltt_spec Ltt_props Ltt_main Ltt_more.
Import ListNotations.

(** ** writing into memory *)
Definition window (d : list R) (off n : nat) : list R := firstn n (skipn off d).
Lemma value_window : forall st o, t_data (value st o) = window (snd (nth (o_store o) (s_stores st) (TF32, []))) (o_off o) (numel (o_shape o)).
Proof. intros st o. unfold value. destruct (nth _ _ _). reflexivity. Qed.
Lemma skipn_skipn : forall (l : list R) x y, skipn x (skipn y l) = skipn (x + y) l.
Proof.
  intros l x y. revert l. induction y as [|y IH]; intro l; [now rewrite Nat.add_0_r|]. rewrite Nat.add_succ_r. destruct l as [|a l]; cbn [skipn]; [now destruct x|]. apply IH.
Qed.
Lemma write_window : forall (old d : list R) a n b m, length d = n -> (b <= a)%nat -> (a + n <= b + m)%nat -> (b + m <= length old)%nat ->
  window (firstn a old ++ d ++ skipn (a + n) old) b m = firstn (a - b) (window old b m) ++ d ++ skipn (a - b + n) (window old b m).
Proof.
  intros old d a n b m Ld H1 H2 H3. unfold window.
  assert (E : skipn b (firstn a old) = firstn (a - b) (skipn b old)).
  { rewrite skipn_firstn_comm. reflexivity. }
  rewrite skipn_app, firstn_length, Nat.min_l by lia. replace (b - a)%nat with 0%nat by lia. cbn [skipn]. rewrite E.
  rewrite firstn_app, firstn_firstn, firstn_length, skipn_length.
  rewrite (Nat.min_r m (a - b)) by lia. rewrite (Nat.min_l (a - b) (length old - b)) by lia.
  rewrite firstn_firstn, (Nat.min_l (a - b) m) by lia. f_equal.
  rewrite firstn_app, Ld. rewrite (firstn_all2 d) by lia. f_equal.
  rewrite skipn_firstn_comm, skipn_skipn. f_equal; [lia|]. f_equal. lia.
Qed.
(** a write through a plain tensor x is seen, in its place, by every object whose part of the
    memory contains that of x *)
Theorem C89_write_is_seen : forall F st x ox j oj d, lib_ok F -> reachable F st -> get st x = Some ox -> o_kind ox = KTensor -> length d = numel (o_shape ox) ->
  get st j = Some oj -> o_store oj = o_store ox -> (o_off oj <= o_off ox)%nat -> (o_off ox + numel (o_shape ox) <= o_off oj + numel (o_shape oj))%nat ->
  exists st', step F st (OWrite x d) = (st', Done) /\ get st' j = Some oj /\
    t_data (value st' oj) = firstn (o_off ox - o_off oj) (t_data (value st oj)) ++ d ++ skipn (o_off ox - o_off oj + numel (o_shape ox)) (t_data (value st oj)).
Proof.
  intros F st x ox j oj d LO RE Gx Kx Ld Gj ES H1 H2. pose proof (reachable_bounded F st LO RE) as B. destruct (B j oj Gj) as (A1 & A2 & A3).
  cbn [step]. unfold with_obj. rewrite Gx, Kx. rewrite !value_window. rewrite ES in *.
  destruct (nth (o_store ox) (s_stores st) (TF32, [])) as [dt old] eqn:N. cbn [snd] in *. rewrite Ld, Nat.eqb_refl.
  eexists. split; [reflexivity|]. split; [exact Gj|]. rewrite value_window. cbn [s_stores]. rewrite ES, nth_upd_same by exact A1. cbn [snd]. now apply write_window.
Qed.
Lemma alias_get : forall st k a b s, get (fst (alias st k a b s)) (snd (alias st k a b s)) = Some (mkObj k false a b s).
Proof. intros st k a b s. unfold alias, get. cbn [fst snd s_objs]. rewrite nth_error_app2, Nat.sub_diag by lia. reflexivity. Qed.
Lemma alias_old : forall st k a b s i o, get st i = Some o -> get (fst (alias st k a b s)) i = Some o.
Proof. intros st k a b s i o G. unfold alias. cbn [fst]. rewrite get_app1; [exact G|exact (get_lt st i o G)]. Qed.
(** from_tensor and _t look at the memory of their argument *)
Theorem C89_from_tensor_shares : forall F st x ox l, s_checks st = false -> get st x = Some ox -> last2 (o_shape ox) = rows_cols l ->
  exists st' i, step F st (OFromTensor x l) = (st', Ret i) /\ kind_of st' i = Some (KLie l) /\ same_memory st' x i /\ contents st' i = contents st x.
Proof.
  intros F st x ox l C G FT. set (A := alias st (KLie l) (o_store ox) (o_off ox) (o_shape ox)). exists (fst A), (snd A).
  split. { cbn [step]. unfold with_obj. rewrite G. unfold new_shared. rewrite check_true; [|exact C|rewrite value_shape; exact FT]. reflexivity. }
  unfold kind_of, same_memory, contents. pose proof (alias_get st (KLie l) (o_store ox) (o_off ox) (o_shape ox)) as A1. fold A in A1. rewrite A1.
  split; [reflexivity|]. split; [exists ox; eexists; split; [apply alias_old; exact G|]; split; [reflexivity|]; cbn; auto|].
  rewrite G. reflexivity.
Qed.
Theorem C89_view_shares : forall F st x ox, get st x = Some ox ->
  exists st' i, step F st (OView x) = (st', Ret i) /\ kind_of st' i = Some KTensor /\ same_memory st' x i /\ contents st' i = contents st x.
Proof.
  intros F st x ox G. set (A := alias st KTensor (o_store ox) (o_off ox) (o_shape ox)). exists (fst A), (snd A).
  split. { cbn [step]. unfold with_obj. rewrite G. reflexivity. }
  unfold kind_of, same_memory, contents. pose proof (alias_get st KTensor (o_store ox) (o_off ox) (o_shape ox)) as A1. fold A in A1. rewrite A1.
  split; [reflexivity|]. split; [exists ox; eexists; split; [apply alias_old; exact G|]; split; [reflexivity|]; cbn; auto|].
  rewrite G. reflexivity.
Qed.
(** g[i] of a batch: the i-th matrix, with a batch dimension of 1, in the memory of g *)
Theorem C89_item : forall F st g og l b rest i, lib_ok F -> reachable F st -> s_checks st = false -> s_eucl st = false -> get st g = Some og -> o_kind og = KLie l ->
  o_shape og = b :: rest -> (length rest = 2)%nat -> (i < b)%nat ->
  exists st' k, step F st (OItem g i) = (st', Ret k) /\ kind_of st' k = Some (KLie l) /\
    (exists dt, contents st' k = Some (mkTen dt (1%nat :: rest) (firstn (numel rest) (skipn (i * numel rest) (t_data (value st og)))))) /\
    exists og' ok, get st' g = Some og' /\ get st' k = Some ok /\ o_store ok = o_store og' /\ o_off ok = (o_off og' + i * numel rest)%nat.
Proof.
  intros F st g og l b rest i LO RE C E G K S L Hi. destruct (reachable_bounded F st LO RE g og G) as (A1 & A2 & A3). rewrite K in A2. cbn [fits_kind] in A2.
  set (A := alias st (KLie l) (o_store og) (o_off og + i * numel rest) (1%nat :: rest)). exists (fst A), (snd A).
  assert (FT : last2 (1%nat :: rest) = rows_cols l).
  { rewrite S in A2. unfold last2 in *. cbn [length] in *. rewrite L in *. exact A2. }
  split.
  { cbn [step]. unfold with_lie, with_obj. rewrite G, (lie_of_kind _ _ K), S, E. assert (X : Nat.ltb i b = true) by now apply Nat.ltb_lt. rewrite X, L. cbn [Nat.eqb].
    unfold new_shared. rewrite check_true; [|exact C|rewrite value_shape; exact FT]. reflexivity. }
  unfold kind_of, contents. pose proof (alias_get st (KLie l) (o_store og) (o_off og + i * numel rest) (1%nat :: rest)) as Q. fold A in Q. rewrite Q.
  split; [reflexivity|]. split.
  - unfold value at 1. cbn [option_map o_store o_shape o_off]. unfold A, alias. cbn [fst s_stores]. unfold value.
    destruct (nth (o_store og) (s_stores st) (TF32, [])) as [dt d]. exists dt. cbn [option_map t_data]. f_equal. f_equal.
    rewrite S. rewrite numel_cons, Nat.mul_1_l, numel_cons. rewrite skipn_firstn_comm, skipn_skipn, firstn_firstn.
    rewrite Nat.min_l by nia. f_equal. f_equal. lia.
  - exists og. eexists. split; [apply alias_old; exact G|]. split; [reflexivity|]. cbn. auto.
Qed.
(** g.set_(h): from then on g looks at the memory of h *)
Theorem C89_set_shares : forall F st g h og oh l, get st g = Some og -> get st h = Some oh -> o_kind og = KLie l -> o_kind oh = KLie l -> dtype_of st oh = dtype_of st og ->
  exists st', step F st (OSet g h) = (st', Done) /\ same_memory st' g h /\ contents st' g = contents st h /\ (forall j, j <> g -> contents st' j = contents st j) /\ kind_of st' g = Some (KLie l).
Proof.
  intros F st g h og oh l Gg Gh Kg Kh D. exists (do_set st g og (o_store oh) (o_off oh) (o_shape oh)).
  split. { cbn [step]. unfold with_lie, with_obj. rewrite Gg, Gh, (lie_of_kind _ _ Kg), (lie_of_kind _ _ Kh), ltype_eqb_refl, D. destruct (dtype_of st og); reflexivity. }
  unfold do_set. set (o' := mkObj (o_kind og) (o_mark og) (o_store oh) (o_off oh) (o_shape oh)).
  pose proof (get_upd_same st g og o' Gg) as Q. split.
  - exists o'. destruct (Nat.eq_dec g h) as [->|N].
    + exists o'. rewrite Q. auto 6.
    + exists oh. rewrite Q, get_upd_other by exact N. split; [reflexivity|]. split; [exact Gh|]. cbn. auto.
  - unfold contents, kind_of. rewrite Q, Gh. cbn. split; [reflexivity|]. split; [|now rewrite Kg]. intros j N. rewrite get_upd_other by congruence. reflexivity.
Qed.
(** ** add_: the retraction of the projected gradient, in memory of its own *)
Theorem C89_add : forall F st g x og ox l alpha p e r, lib_ok F -> reachable F st -> s_checks st = false -> get st g = Some og -> o_kind og = KLie l -> get st x = Some ox ->
  o_kind ox = KGrad \/ o_mark ox = true ->
  fl_left_project F l (value st og) (value st ox) = Some p -> fl_exp F l (fl_scale F alpha p) = Some e -> last2 (t_shape e) = rows_cols l ->
  fl_compose F l (value st og) e = Some r -> last2 (t_shape r) = rows_cols l -> t_dtype r = dtype_of st og ->
  exists st', step F st (OAdd g x alpha) = (st', Done) /\ contents st' g = Some r /\ unshared st' g /\ kind_of st' g = Some (KLie l) /\
    (forall j, j <> g -> contents st' j = contents st j).
Proof.
  intros F st g x og ox l alpha p e r LO RE C Gg Kg Gx MK EP EE FE EC FR DT. pose proof (reachable_bounded F st LO RE) as B.
  assert (MX : is_marked ox = true) by (unfold is_marked; destruct MK as [->|H]; [reflexivity|destruct (o_kind ox); auto]).
  exists (do_set (new_store st r) g og (length (s_stores st)) 0 (t_shape r)). split.
  { cbn [step]. unfold with_lie, with_obj. rewrite Gg, Gx, (lie_of_kind _ _ Kg), MX. unfold do_add. rewrite EP. unfold retract_val. rewrite EE, (check_true F st l e C FE).
    unfold lie_compose. rewrite EC, (check_true F st l r C FR), DT. destruct (dtype_of st og); reflexivity. }
  unfold do_set. set (o' := mkObj (o_kind og) (o_mark og) (length (s_stores st)) 0 (t_shape r)).
  pose proof (get_upd_same (new_store st r) g og o' Gg) as Q. pose proof (proj1 LO _ _ _ _ EC) as TK.
  split. { unfold contents. rewrite Q. cbn [option_map]. f_equal. exact (alloc_value st (KLie l) r (o_mark og) (o_kind og) TK). }
  split. { exists o'. split; [exact Q|]. intros j oj N H. rewrite get_upd_other in H by congruence. change (get st j = Some oj) in H. cbn [o_store o']. pose proof (proj1 (B j oj H)). cbn. lia. }
  split; [unfold kind_of; rewrite Q; cbn; now rewrite Kg|].
  intros j N. unfold contents. rewrite get_upd_other by congruence. change (get (new_store st r) j) with (get st j). destruct (get st j) as [oj|] eqn:Gj; [|reflexivity].
  cbn [option_map]. f_equal. apply (value_app st oj (t_dtype r, t_data r) (s_objs st) (s_eucl st) (s_checks st)). exact (proj1 (B j oj Gj)).
Qed.
(** ** marks *)
(** once accepted, an object is accepted for ever *)
Theorem C89_mark_is_permanent : forall F st cs i o, lib_ok F -> reachable F st -> Forall op_ok cs -> get st i = Some o -> is_marked o = true ->
  exists o', get (run F st cs) i = Some o' /\ is_marked o' = true.
Proof.
  intros F st cs i o LO RE OK G M. destruct (run_object F cs st i o LO OK (reachable_bounded F st LO RE) G) as (o' & G' & K & _ & MK & _).
  exists o'. split; [exact G'|]. unfold is_marked in *. rewrite K. destruct (o_kind o); auto.
Qed.
(** where a mark comes from *)
Definition mark_label (l : label) (i : nat) : Prop := l = LMark i.
Lemma micro_mark_origin : forall st l st' i o', micro st l st' -> get st' i = Some o' -> o_mark o' = true ->
  (exists o, get st i = Some o /\ o_mark o = true) \/ l = LMark i.
Proof.
  intros st l st' i o' M G MK.
  destruct M as [st k t FK TK|st k src os off shape Gs FK D|st j oj Gj|st j oj l t Gj K FT DT TK|st j oj src os l Gj Gs K K' DT|st x ox dt old d Gx K N L|st a b].
  - cbv beta iota zeta delta [alloc fst] in G. apply get_app_inv in G. destruct G as [G|[-> ->]]; [left; eauto|discriminate].
  - cbv beta iota zeta delta [alias fst] in G. apply get_app_inv in G. destruct G as [G|[-> ->]]; [left; eauto|discriminate].
  - apply get_set_inv in G. destruct G as [[-> _]|G]; [right; reflexivity|left; eauto].
  - unfold do_set in G. apply get_set_inv in G. destruct G as [[-> ->]|G]; [left; exists oj; auto|left; exists o'; auto].
  - unfold do_set in G. apply get_set_inv in G. destruct G as [[-> ->]|G]; [left; exists oj; auto|left; exists o'; auto].
  - left. exists o'. auto.
  - left. exists o'. auto.
Qed.
Lemma micros_mark_origin : forall st ls st' i o', micros st ls st' -> get st' i = Some o' -> o_mark o' = true ->
  (exists o, get st i = Some o /\ o_mark o = true) \/ In (LMark i) ls.
Proof.
  intros st ls st' i o' M. revert o'. induction M as [st|st l st1 ls st2 M1 M2 IH]; intros o' G MK; [left; eauto|].
  destruct (IH o' G MK) as [(o1 & G1 & MK1)|H]; [|right; now right].
  destruct (micro_mark_origin st l st1 i o1 M1 G1 MK1) as [H| ->]; [left; exact H|right; now left].
Qed.
(** an operation that marks: a torch function or addcdiv_/addcmul_ one of whose arguments is a gradient *)
Definition marks_arguments (st : state) (c : op) : Prop :=
  exists j oj, get st j = Some oj /\ o_kind oj = KGrad /\
    match c with OTorch xs _ _ => In j xs | OAddC _ x y _ => j = x \/ j = y | _ => False end.
Definition no_marks (a b : state) : Prop := forall i o', get b i = Some o' -> o_mark o' = true -> exists o, get a i = Some o /\ o_mark o = true.
Lemma nm_refl : forall a, no_marks a a. Proof. intros a i o G M. eauto. Qed.
Lemma nm_micro : forall a l b, micro a l b -> (forall i, l <> LMark i) -> no_marks a b.
Proof. intros a l b M N i o G MK. destruct (micro_mark_origin a l b i o M G MK) as [H| ->]; [exact H|exfalso; exact (N i eq_refl)]. Qed.
Lemma nm_alloc : forall st k t st' i, alloc st k t = (st', i) -> no_marks st st'.
Proof. intros st k t st' i H j o G MK. unfold alloc in H. injection H as <- _. apply get_app_inv in G. destruct G as [G|[-> ->]]; [eauto|discriminate]. Qed.
Lemma nm_alias : forall st k a b s st' i, alias st k a b s = (st', i) -> no_marks st st'.
Proof. intros st k a b s st' i H j o G MK. unfold alias in H. injection H as <- _. apply get_app_inv in G. destruct G as [G|[-> ->]]; [eauto|discriminate]. Qed.
Lemma nm_copy : forall F st l t st' r, new_copy F st l t = (st', r) -> no_marks st st'.
Proof. intros F st l t st' r H. apply copy_result in H. destruct r; [destruct H as [-> _]; apply nm_refl|destruct H|eapply nm_alloc; exact H]. Qed.
Lemma nm_wrap : forall F st l t st' r, wrap_copy F st l t = (st', r) -> no_marks st st'.
Proof. intros F st l t st' r H. apply wrap_result in H. destruct r; [subst; apply nm_refl|destruct H|destruct H as (k & H); eapply nm_alloc; exact H]. Qed.
Lemma nm_shared : forall F st l a b s st' r, new_shared F st l a b s = (st', r) -> no_marks st st'.
Proof.
  intros F st l a b s st' r H. unfold new_shared in H. destruct (check_group_tensor _ _ _ _); [|injection H as <- _; apply nm_refl].
  destruct (alias st (KLie l) a b s) as [s' i] eqn:E. injection H as <- _. eapply nm_alias; exact E.
Qed.
Lemma nm_view : forall st a b s st' r, plain_view st a b s = (st', r) -> no_marks st st'.
Proof. intros st a b s st' r H. unfold plain_view in H. destruct (alias st KTensor a b s) as [s' i] eqn:E. injection H as <- _. eapply nm_alias; exact E. Qed.
Lemma nm_compose : forall F st g h st' r, do_compose F st g h = (st', r) -> no_marks st st'.
Proof. intros F st g h st' r H. apply compose_result in H. destruct r; [subst; apply nm_refl|destruct H|destruct H as (l & t & _ & _ & _ & H); eapply nm_alloc; exact H]. Qed.
Lemma nm_set : forall st ss i g a b s, get st i = Some g -> no_marks st (do_set (mkSt ss (s_objs st) (s_eucl st) (s_checks st)) i g a b s).
Proof. intros st ss i g a b s G j o H MK. unfold do_set in H. apply get_set_inv in H. destruct H as [[-> ->]|H]; [exists g; auto|exists o; auto]. Qed.
Lemma nm_add : forall F st i g l t a st' r, get st i = Some g -> do_add F st i g l t a = (st', r) -> no_marks st st'.
Proof.
  intros F st i g l t a st' r G H. unfold do_add in H. destruct (fl_left_project _ _ _ _); [|injection H as <- _; apply nm_refl].
  destruct (retract_val _ _ _ _ _); [|injection H as <- _; apply nm_refl]. destruct (tdtype_eqb _ _); [|injection H as <- _; apply nm_refl].
  injection H as <- _. unfold new_store. now apply nm_set.
Qed.
Lemma existsb_grad : forall st xs os, getM st xs = Some os -> existsb is_grad os = true -> exists j oj, In j xs /\ get st j = Some oj /\ o_kind oj = KGrad.
Proof.
  intros st xs. induction xs as [|x xs IH]; intros os H E; cbn [getM] in H; [injection H as <-; discriminate|].
  destruct (get st x) as [o|] eqn:G; [|discriminate]. destruct (getM st xs) as [os'|] eqn:GM; [|discriminate]. injection H as <-. cbn [existsb] in E.
  apply orb_true_iff in E. destruct E as [E|E].
  - exists x, o. split; [now left|]. split; [exact G|]. unfold is_grad in E. destruct (o_kind o); congruence.
  - destruct (IH os' eq_refl E) as (j & oj & I0 & Gj & Kj). exists j, oj. split; [now right|]. auto.
Qed.
Lemma mark_all_origin : forall xs st i o', get (mark_all st xs) i = Some o' -> o_mark o' = true -> (exists o, get st i = Some o /\ o_mark o = true) \/ In i xs.
Proof.
  induction xs as [|x xs IH]; intros st i o' G MK; cbn [mark_all] in G; [left; eauto|].
  destruct (get st x) as [ox|] eqn:Gx; [|destruct (IH st i o' G MK) as [H|H]; [left; exact H|right; now right]].
  destruct (IH _ i o' G MK) as [(o & Go & Mo)|H]; [|right; now right]. apply get_set_inv in Go. destruct Go as [[-> _]|Go]; [right; now left|left; eauto].
Qed.
Lemma step_mark_origin : forall F st c i o', get (fst (step F st c)) i = Some o' -> o_mark o' = true ->
  (exists o, get st i = Some o /\ o_mark o = true) \/ (marks_arguments st c /\ mentions c i).
Proof.
  intros F st c i o' G MK. destruct (step F st c) as [st' r] eqn:H. cbn [fst] in G.
  assert (NM : no_marks st st' -> (exists o, get st i = Some o /\ o_mark o = true) \/ (marks_arguments st c /\ mentions c i)) by (intro X; left; exact (X i o' G MK)).
  destruct c; try (apply NM; clear NM G MK; step_cases H;
    try (injection H as <- _; apply nm_refl); try (eapply nm_copy; exact H); try (eapply nm_wrap; exact H); try (eapply nm_compose; exact H);
    try (eapply nm_shared; exact H); try (eapply nm_view; exact H); try (eapply nm_add; [|exact H]; eassumption); try (injection H as <- _; eapply nm_alias; eassumption);
    try (match type of H with context [alloc ?s ?k ?q] => destruct (alloc s k q) as [s0 k0] eqn:E0 end; injection H as <- _; eapply nm_alloc; exact E0);
    try (match type of H with context [alias ?s ?k ?a ?b ?q] => destruct (alias s k a b q) as [s0 k0] eqn:E0 end; injection H as <- _; eapply nm_alias; exact E0);
    try (injection H as <- _; intros j oj Gj Mj; exists oj; auto; fail);
    try (injection H as <- _; destruct st; apply nm_set; assumption); fail).
  - cbn [step] in H. destruct (getM st xs) as [os|] eqn:GM; [|apply NM; injection H as <- _; apply nm_refl].
    destruct (existsb (fun o => match lie_of o with Some _ => true | None => false end) os).
    + apply NM. destruct (s_eucl st || eucl_op); [|injection H as <- _; apply nm_refl]. destruct (get_ltype os); [|injection H as <- _; apply nm_refl].
      destruct (f (map (value st) os)) as [t|]; [|injection H as <- _; apply nm_refl]. destruct (alloc st KTensor t) as [s0 k0] eqn:E0. injection H as <- _. eapply nm_alloc; exact E0.
    + destruct (existsb is_grad os) eqn:EG.
      * assert (X : (exists o, get st i = Some o /\ o_mark o = true) \/ In i xs).
        { cbv zeta in H. destruct (f (map (value st) os)) as [t|].
          - destruct (alloc (mark_all st xs) KGrad t) as [s0 k0] eqn:E0. injection H as <- _. destruct (nm_alloc _ _ _ _ _ E0 i o' G MK) as (o & Go & Mo). exact (mark_all_origin xs st i o Go Mo).
          - injection H as <- _. exact (mark_all_origin xs st i o' G MK). }
        destruct X as [X|X]; [left; exact X|]. right. split; [|exact X]. destruct (existsb_grad st xs os GM EG) as (j & oj & I0 & Gj & Kj). exists j, oj. auto.
      * apply NM. destruct (f (map (value st) os)) as [t|]; [|injection H as <- _; apply nm_refl]. destruct (alloc st KTensor t) as [s0 k0] eqn:E0. injection H as <- _. eapply nm_alloc; exact E0.
  - cbn [step] in H. unfold with_lie, with_obj in H. destruct (get st g) as [o|] eqn:Gg; [|apply NM; injection H as <- _; apply nm_refl]. destruct (lie_of o) as [l|] eqn:Kg; [|apply NM; injection H as <- _; apply nm_refl].
    destruct (get st x) as [ox|] eqn:Gx; [|apply NM; injection H as <- _; apply nm_refl]. destruct (get st y) as [oy|] eqn:Gy; [|apply NM; injection H as <- _; apply nm_refl].
    destruct (is_marked ox || is_marked oy); [|apply NM; injection H as <- _; apply nm_refl]. destruct (lie_of ox) eqn:Kx; [apply NM; injection H as <- _; apply nm_refl|]. destruct (lie_of oy) eqn:Ky; [apply NM; injection H as <- _; apply nm_refl|].
    cbv zeta in H. destruct (is_grad ox || is_grad oy) eqn:EG.
    + assert (X : (exists o, get st i = Some o /\ o_mark o = true) \/ In i [x; y]).
      { destruct (f (value st ox) (value st oy)) as [t|].
        - pose proof (mark_get [x; y] st g) as MG. rewrite Gg in MG.
          assert (G1 : get (mark_all st [x; y]) g = Some o).
          { assert (N : forall z oz, get st z = Some oz -> lie_of oz = None -> z <> g) by (intros z oz Gz Kz ->; rewrite Gg in Gz; injection Gz as <-; congruence).
            cbn [mark_all]. rewrite Gx. pose proof (N x ox Gx Kx) as Nx. pose proof (N y oy Gy Ky) as Ny.
            match goal with |- context [get ?s y] => destruct (get s y) end; rewrite ?get_upd_other by assumption; exact Gg. }
          destruct (nm_add F _ g o l t _ st' r G1 H i o' G MK) as (o1 & Go & Mo). exact (mark_all_origin [x; y] st i o1 Go Mo).
        - injection H as <- _. exact (mark_all_origin [x; y] st i o' G MK). }
      destruct X as [X|X]; [left; exact X|]. right. split.
      * apply orb_true_iff in EG. unfold is_grad in EG. destruct EG as [EG|EG].
        -- exists x, ox. split; [exact Gx|]. split; [destruct (o_kind ox); congruence|auto].
        -- exists y, oy. split; [exact Gy|]. split; [destruct (o_kind oy); congruence|auto].
      * destruct X as [<-|[<-|[]]]; cbn; auto.
    + apply NM. destruct (f (value st ox) (value st oy)) as [t|]; [|injection H as <- _; apply nm_refl]. exact (nm_add F st g o l t _ st' r Gg H).
Qed.
(** an object accepted by add_ is a gradient, or was once an argument of an operation in which a
    gradient took part *)
Theorem C89_mark_origin : forall F cs i o, get (run F init cs) i = Some o -> is_marked o = true ->
  o_kind o = KGrad \/ exists cs1 c cs2, cs = cs1 ++ c :: cs2 /\ mentions c i /\ marks_arguments (run F init cs1) c.
Proof.
  intros F cs i o G MK. unfold is_marked in MK.
  assert (X : o_mark o = true -> exists cs1 c cs2, cs = cs1 ++ c :: cs2 /\ mentions c i /\ marks_arguments (run F init cs1) c).
  { clear MK. revert o G. induction cs as [|c cs IH] using rev_ind; intros o G M; [destruct i; discriminate|].
    assert (RA : forall st a b, run F st (a ++ b) = run F (run F st a) b) by (intros st a; revert st; induction a as [|y a IHa]; intros st b; cbn; auto).
    rewrite RA in G. cbn [run] in G. destruct (step_mark_origin F (run F init cs) c i o G M) as [(o1 & G1 & M1)|[A B]].
    - destruct (IH o1 G1 M1) as (cs1 & c1 & cs2 & E & H1 & H2). exists cs1, c1, (cs2 ++ [c]). split; [rewrite E, <- app_assoc; reflexivity|auto].
    - exists cs, c, []. auto. }
  destruct (o_kind o) eqn:K; [right; apply X; exact MK|right; apply X; exact MK|left; reflexivity].
Qed.
