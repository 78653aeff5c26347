(** C89: the contents of the remaining results. *)
From Coq Require Import Reals List Arith Bool Lia.
From Verif Require Import Ltt_model Ltt_spec Ltt_props Ltt_main Ltt_more Ltt_share.
Import ListNotations.

Lemma copy_contents : forall F st l t, s_checks st = false -> last2 (t_shape t) = rows_cols l -> ten_ok t ->
  exists st' i, new_copy F st l t = (st', Ret i) /\ contents st' i = Some t /\ kind_of st' i = Some (KLie l).
Proof.
  intros F st l t C FT TK. exists (fst (alloc st (KLie l) t)), (snd (alloc st (KLie l) t)). unfold new_copy. rewrite (check_true F st l t C FT).
  split; [destruct (alloc st (KLie l) t); reflexivity|]. now apply fresh_contents.
Qed.
(** inv, retract, local, log: what the functional library computes, of the same ltype *)
Theorem C89_values : forall F st g og l, lib_ok F -> reachable F st -> s_checks st = false -> get st g = Some og -> o_kind og = KLie l ->
  (forall t, fl_inv F l (value st og) = Some t -> last2 (t_shape t) = rows_cols l ->
     exists st' i, step F st (OInv g) = (st', Ret i) /\ contents st' i = Some t /\ kind_of st' i = Some (KLie l)) /\
  (forall x ox e t, get st x = Some ox -> fl_exp F l (value st ox) = Some e -> last2 (t_shape e) = rows_cols l ->
     fl_compose F l (value st og) e = Some t -> last2 (t_shape t) = rows_cols l ->
     exists st' i, step F st (ORetract g x) = (st', Ret i) /\ contents st' i = Some t /\ kind_of st' i = Some (KLie l)) /\
  (forall t, fl_log F l (value st og) = Some t -> exists st' i, step F st (OLog g) = (st', Ret i) /\ contents st' i = Some t /\ kind_of st' i = Some KTensor) /\
  (forall h oh i d t, get st h = Some oh -> o_kind oh = KLie l -> fl_inv F l (value st og) = Some i -> last2 (t_shape i) = rows_cols l ->
     fl_compose F l i (value st oh) = Some d -> last2 (t_shape d) = rows_cols l -> fl_log F l d = Some t ->
     exists st' k, step F st (OLocal g h) = (st', Ret k) /\ contents st' k = Some t /\ kind_of st' k = Some KTensor) /\
  (s_eucl st = false -> exists st' i, step F st (OClone g) = (st', Ret i) /\ contents st' i = contents st g /\ kind_of st' i = Some (KLie l)).
Proof.
  intros F st g og l LO RE C G K. pose proof (lie_of_kind _ _ K) as L. destruct LO as (LC & LI & LL). cbn [step]. unfold with_lie, with_obj. rewrite G, L.
  split. { intros t E FT. rewrite E. apply copy_contents; [exact C|exact FT|exact (LI _ _ _ E)]. }
  split. { intros x ox e t Gx EE FE EC FT. rewrite Gx. unfold retract_val, lie_compose. rewrite EE, (check_true F st l e C FE), EC, (check_true F st l t C FT).
    apply copy_contents; [exact C|exact FT|exact (LC _ _ _ _ EC)]. }
  split. { intros t E. rewrite E. exists (fst (alloc st KTensor t)), (snd (alloc st KTensor t)). split; [destruct (alloc st KTensor t); reflexivity|].
    apply fresh_contents. exact (LL _ _ _ E). }
  split. { intros h oh i d t Gh Kh EI FI EC FD EL. rewrite Gh, (lie_of_kind _ _ Kh), ltype_eqb_refl, EI, (check_true F st l i C FI). unfold lie_compose.
    rewrite EC, (check_true F st l d C FD), EL. exists (fst (alloc st KTensor t)), (snd (alloc st KTensor t)). split; [destruct (alloc st KTensor t); reflexivity|].
    apply fresh_contents. exact (LL _ _ _ EL). }
  intro E. unfold wrap_copy. rewrite E. unfold contents at 2. rewrite G. cbn [option_map].
  destruct (reachable_bounded F st (conj LC (conj LI LL)) RE g og G) as (A1 & A2 & A3). rewrite K in A2. apply copy_contents; [exact C|rewrite value_shape; exact A2|].
  apply value_ok. exact (reachable_bounded F st (conj LC (conj LI LL)) RE g og G).
Qed.
(** torch.cat along the batch: the batches one after the other *)
Theorem C89_cat : forall F st gs os l dt rest, lib_ok F -> reachable F st -> s_checks st = false -> s_eucl st = false -> gs <> [] -> getM st gs = Some os ->
  Forall (fun o => o_kind o = KLie l /\ dtype_of st o = dt /\ exists b, o_shape o = b :: rest) os -> (length rest = 2)%nat ->
  exists st' i, step F st (OCat gs) = (st', Ret i) /\ kind_of st' i = Some (KLie l) /\
    contents st' i = Some (mkTen dt (list_sum (map (fun o => hd 0%nat (o_shape o)) os) :: rest) (concat (map (fun o => t_data (value st o)) os))).
Proof.
  intros F st gs os l dt rest LO RE C E N GM A L. cbn [step]. rewrite GM.
  assert (NE : exists o os', os = o :: os').
  { destruct gs as [|g gs]; [congruence|]. cbn [getM] in GM. destruct (get st g); [|discriminate]. destruct (getM st gs); [|discriminate]. injection GM as <-. eauto. }
  assert (GL : get_ltype os = Some (Some l)).
  { destruct NE as (o & os' & ->). clear GM. revert o A. induction os' as [|o1 os' IH]; intros o A.
    - unfold get_ltype. cbn [fold_right]. rewrite (lie_of_kind _ _ (proj1 (Forall_inv A))). reflexivity.
    - specialize (IH o1 (Forall_inv_tail A)). unfold get_ltype in *. cbn [fold_right] in *. rewrite IH, (lie_of_kind _ _ (proj1 (Forall_inv A))), ltype_eqb_refl. reflexivity. }
  rewrite GL. set (r := mkTen dt (list_sum (map (fun o => hd 0%nat (o_shape o)) os) :: rest) (concat (map (fun o => t_data (value st o)) os))).
  assert (DT : forall o, t_dtype (value st o) = dtype_of st o) by (intro o; unfold value, dtype_of; destruct (nth _ _ _); reflexivity).
  assert (CT : cat_ten (map (value st) os) = Some r).
  { assert (FB : forallb (fun u => match t_shape u with _ :: r0 => shape_eqb r0 rest | [] => false end && tdtype_eqb (t_dtype u) dt) (map (value st) os) = true).
    { apply forallb_forall. intros u Hu. apply in_map_iff in Hu. destruct Hu as (o & <- & Ho). rewrite Forall_forall in A. destruct (A o Ho) as (_ & D & b & S).
      rewrite value_shape, S, DT, D. unfold shape_eqb. destruct (list_eq_dec _ _ _); [|congruence]. destruct dt; reflexivity. }
    destruct NE as (o & os' & EQ). unfold cat_ten. rewrite EQ at 1. cbn [map]. pose proof A as A'. rewrite EQ in A'. destruct (Forall_inv A') as (_ & D & b & S).
    rewrite value_shape, S, DT, D. rewrite FB. unfold r. f_equal. f_equal.
    - f_equal. rewrite map_map. unfold list_sum. f_equal. apply map_ext. intro. now rewrite value_shape.
    - now rewrite map_map. }
  rewrite CT. unfold wrap_copy. rewrite E.
  assert (FT : last2 (t_shape r) = rows_cols l).
  { destruct NE as (o & os' & EQ). pose proof A as A'. rewrite EQ in A'. destruct (Forall_inv A') as (K & _ & b & S).
    assert (B : exists i, get st i = Some o).
    { destruct gs as [|g gs]; [congruence|]. cbn [getM] in GM. destruct (get st g) as [o0|] eqn:Gg; [|discriminate]. destruct (getM st gs); [|discriminate]. injection GM as <-. exists g. congruence. }
    destruct B as (i & G). destruct (reachable_bounded F st LO RE i o G) as (_ & FK & _). rewrite K, S in FK. cbn [fits_kind] in FK. unfold last2 in *. cbn [t_shape r length] in *. rewrite L in *. exact FK. }
  destruct (copy_contents F st l r C FT) as (st' & i & H1 & H2 & H3); [|exists st', i; auto].
  eapply cat_ok; [|exact CT]. exact (getM_ok st gs os (reachable_bounded F st LO RE) GM).
Qed.
(** g[a:b] of a batch: the matrices a, ..., b-1, in the memory of g *)
Theorem C89_slice : forall F st g og l n rest a b, lib_ok F -> reachable F st -> s_checks st = false -> s_eucl st = false -> get st g = Some og -> o_kind og = KLie l ->
  o_shape og = n :: rest -> (length rest = 2)%nat -> (a <= b <= n)%nat ->
  exists st' k, step F st (OSlice g a b) = (st', Ret k) /\ kind_of st' k = Some (KLie l) /\
    (exists dt, contents st' k = Some (mkTen dt ((b - a)%nat :: rest) (firstn ((b - a) * numel rest) (skipn (a * numel rest) (t_data (value st og)))))) /\
    exists ok, get st' g = Some og /\ get st' k = Some ok /\ o_store ok = o_store og /\ o_off ok = (o_off og + a * numel rest)%nat.
Proof.
  intros F st g og l n rest a b LO RE C E G K S L [H1 H2]. destruct (reachable_bounded F st LO RE g og G) as (A1 & A2 & A3). rewrite K in A2. cbn [fits_kind] in A2.
  set (A := alias st (KLie l) (o_store og) (o_off og + a * numel rest) ((b - a)%nat :: rest)). exists (fst A), (snd A).
  assert (FT : last2 ((b - a)%nat :: rest) = rows_cols l) by (rewrite S in A2; unfold last2 in *; cbn [length] in *; rewrite L in *; exact A2).
  split.
  { cbn [step]. unfold with_lie, with_obj. rewrite G, (lie_of_kind _ _ K), S, E. cbv zeta. rewrite (Nat.min_l b n), (Nat.min_l a n) by lia. cbn [length]. rewrite L. cbn [Nat.eqb].
    unfold new_shared. rewrite check_true; [|exact C|rewrite value_shape; exact FT]. reflexivity. }
  unfold kind_of, contents. pose proof (alias_get st (KLie l) (o_store og) (o_off og + a * numel rest) ((b - a)%nat :: rest)) as Q. fold A in Q. rewrite Q.
  split; [reflexivity|]. split.
  - unfold value at 1. cbn [option_map o_store o_shape o_off]. unfold A, alias. cbn [fst s_stores]. unfold value.
    destruct (nth (o_store og) (s_stores st) (TF32, [])) as [dt d]. exists dt. cbn [option_map t_data]. f_equal. f_equal.
    rewrite S. rewrite !numel_cons. rewrite skipn_firstn_comm, skipn_skipn, firstn_firstn.
    rewrite Nat.min_l by nia. f_equal. f_equal. lia.
  - eexists. split; [apply alias_old; exact G|]. split; [reflexivity|]. cbn. auto.
Qed.
