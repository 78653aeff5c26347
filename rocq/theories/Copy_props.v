(** Property theorems C09 ([Objective.copy]). *)
From Coq Require Import List Arith Lia Bool.
Import ListNotations.
From Verif Require Import Dict Obj_model Obj_spec Obj_proofs Copy_model Copy_spec
  Copy_proofs Copy_proofs2 Copy_proofs3 Copy_proofs4.

Section P.
Context {V : Type}.
Variable copy_name : name -> name.
Notation heap := (heap V).

Lemma wf_wf1 (h : heap) s cs : Inv (hw h) s cs -> well_formed h cs -> forall c, In c cs -> wf1 h c.
Proof.
  intros HI [A B C D] c Hc. split; auto.
  - intros v Hv. apply (C c v Hc). unfold references. unfold cslots in Hv.
    rewrite app_assoc. apply in_or_app; auto.
  - intros v Hv. apply (C c v Hc). unfold references, wslots in *.
    rewrite (I_wo _ _ _ HI c Hc) in Hv. simpl in Hv. rewrite app_assoc. apply in_or_app; auto.
Qed.

Lemma weights_keys w s cs : Inv w s cs -> forall x, In x (keys (cfs_for_weights s)) <->
  exists c, In c cs /\ c_weight w c = x.
Proof.
  intros HI x. destruct (I_w _ _ _ HI) as [_ H]. specialize (H x). rewrite <- lookup_In_keys.
  destruct (lookup x (cfs_for_weights s)) as [l|].
  - split; [intros _|congruence]. destruct H as [Hne Hc]. destruct l as [|c l]; [congruence|].
    specialize (Hc c). simpl in Hc. destruct (Nat.eq_dec c c); [|congruence].
    destruct (Nat.eq_dec (c_weight w c) x) as [E|]; [|lia].
    exists c. split; [|exact E]. apply (count_occ_In Nat.eq_dec). lia.
  - split; [congruence|]. intros (c & Hc & E). exfalso. exact (H c Hc E).
Qed.

Lemma lookup_inj (m : dict wid) (P : wid -> wid -> Prop) ws xs :
  Forall2 (fun x x' => lookup x m = Some x' /\ P x x') ws xs -> NoDup xs ->
  (forall x, ~ In x ws -> lookup x m = None) ->
  forall x y z, lookup x m = Some z -> lookup y m = Some z -> x = y.
Proof.
  intros F ND Hn x y z Ex Ey.
  assert (Hx : In x ws) by (destruct (in_dec Nat.eq_dec x ws) as [|H]; [auto|apply Hn in H; congruence]).
  assert (Hy : In y ws) by (destruct (in_dec Nat.eq_dec y ws) as [|H]; [auto|apply Hn in H; congruence]).
  clear Hn. induction F as [|a a' ws xs [E _] F IH]; [contradiction|].
  inversion ND as [|? ? Hnin ND']; subst.
  assert (G : forall u, In u ws -> lookup u m = Some a' -> False).
  { intros u Hu Eu. destruct (Forall2_in_l _ _ _ _ F Hu) as (u' & Hu' & E' & _).
    apply Hnin. congruence. }
  destruct Hx as [<-|Hx], Hy as [<-|Hy]; auto.
  - exfalso. apply (G y Hy). congruence.
  - exfalso. apply (G x Hx). congruence.
Qed.

(** Everything known about the heap in which the last loop starts. *)
Lemma prepare (h : heap) s cs :
  Inv (hw h) s cs -> well_formed h cs ->
  exists h2 cs' m xs',
    copy_objective copy_name h s = attach h2 init cs' /\
    unchanged h h2 /\
    Forall2 (fun c c' => cfrel h h2 c c' /\ mirrored h2 c' /\
               lookup (c_weight (hw h) c) m = Some (c_weight (hw h2) c')) cs cs' /\
    NoDup (flat_map (ids h2) cs') /\
    (forall j, In j (flat_map (ids h2) cs') -> nc h <= j < nc h2) /\
    (forall c, In c cs -> exists x', lookup (c_weight (hw h) c) m = Some x' /\
        wrel h h2 (c_weight (hw h) c) x' /\ nw h <= x' < nw h2 /\ In x' xs') /\
    (forall x y z, lookup x m = Some z -> lookup y m = Some z -> x = y) /\
    NoDup (flat_map (cslots h2) cs' ++ flat_map (wslots h2) xs') /\
    (forall v, In v (flat_map (cslots h2) cs' ++ flat_map (wslots h2) xs') -> nv h <= v < nv h2).
Proof.
  intros HI Hwf. pose proof (wf_wf1 _ _ _ HI Hwf) as Hw1.
  pose proof (weights_keys _ _ _ HI) as Hk.
  unfold copy_objective.
  destruct (copy_weights_spec copy_name (keys (cfs_for_weights s)) h [])
    as (h1 & m & xs' & E1 & U1 & L1 & F1 & ND1 & Rg1 & NDv1 & Rv1).
  { apply (I_w _ _ _ HI). }
  { intros x Hx. apply Hk in Hx as (c & Hc & <-). apply (f_w _ _ (Hw1 c Hc)). }
  { intros x v Hx Hv. apply Hk in Hx as (c & Hc & <-). apply (f_wv _ _ (Hw1 c Hc)). exact Hv. }
  rewrite E1. cbn [rbind].
  assert (Ecs : values (cost_functions s) = cs).
  { rewrite (I_cf _ _ _ HI). unfold values. rewrite map_map. apply map_id. }
  rewrite Ecs.
  assert (HwL : forall c, In c cs -> c_weight (hw h1) c = c_weight (hw h) c).
  { intros c Hc. apply (un_c _ _ U1 c (f_c _ _ (Hw1 c Hc))). }
  destruct (copy_cfs_spec copy_name m cs h1) as (h2 & cs' & E2 & U2 & F2 & NI2 & RI2 & NS2 & RS2).
  { intros c Hc. eapply wf1_unchanged; eauto. }
  { intros c Hc. rewrite HwL by exact Hc.
    assert (Hin : In (c_weight (hw h) c) (keys (cfs_for_weights s))) by (apply Hk; eauto).
    destruct (Forall2_in_l _ _ _ _ F1 Hin) as (x' & _ & E & _). congruence. }
  rewrite E2. cbn [rbind].
  pose proof (un_size _ _ U1) as Z1. pose proof (un_size _ _ U2) as Z2.
  assert (Hws : forall x', In x' xs' -> wslots h2 x' = wslots h1 x').
  { intros x' Hx. apply Rg1 in Hx. destruct (un_w _ _ U2 x') as (A & B & _); [lia|].
    unfold wslots. congruence. }
  assert (Hfm : flat_map (wslots h2) xs' = flat_map (wslots h1) xs').
  { clear -Hws. induction xs' as [|x l IH]; [reflexivity|]. simpl.
    rewrite Hws by (simpl; auto). rewrite IH; [reflexivity|]. intros; apply Hws; simpl; auto. }
  exists h2, cs', m, xs'. split; [reflexivity|]. split; [eapply unchanged_trans; eauto|].
  split.
  { eapply Forall2_impl; [|exact F2]. intros c c' Hc _ (A & B & C). split; [|split].
    - eapply cfrel_left; eauto.
    - exact B.
    - rewrite HwL in C by exact Hc. exact C. }
  split; [exact NI2|]. split; [intros j Hj; apply RI2 in Hj; lia|].
  split.
  { intros c Hc. assert (Hin : In (c_weight (hw h) c) (keys (cfs_for_weights s))) by (apply Hk; eauto).
    destruct (Forall2_in_l _ _ _ _ F1 Hin) as (x' & Hx' & E & R). exists x'.
    pose proof (Rg1 x' Hx') as Rg.
    split; [exact E|]. split; [|split; [lia|exact Hx']].
    eapply wrel_right; [exact U2|lia| |exact R].
    intros v Hv. assert (Hin' : In v (flat_map (wslots h1) xs')) by (apply in_flat_map; eauto).
    apply Rv1 in Hin'. lia. }
  split.
  { eapply lookup_inj; eauto. }
  rewrite Hfm. split.
  - apply NoDup_app_intro; auto. intros v A B. apply RS2 in A. apply Rv1 in B. lia.
  - intros v Hin. apply in_app_or in Hin as [Hin|Hin]; [apply RS2 in Hin|apply Rv1 in Hin]; lia.
Qed.

(** ---- success ---- *)
Lemma copy_iff (h : heap) s cs :
  Inv (hw h) s cs -> well_formed h cs ->
  ((exists h' s', copy_objective copy_name h s = Ret h' s') <-> no_double_reference (hw h) cs).
Proof.
  intros HI Hwf.
  destruct (prepare h s cs HI Hwf)
    as (h2 & cs' & m & xs' & E & U & F & NI & RI & HW & Hinj & NS & RS).
  rewrite E.
  pose proof (attach_spec h h2 cs cs' m xs' (Inv_consistent _ _ _ HI) F NI RI HW Hinj NS
                cs cs' h2 init [] [] (PInv_start h h2 cs cs' xs' U)) as [A B].
  unfold no_double_reference. split.
  - intros (h' & s' & Ea). destruct (B h' s' Ea) as [_ HD].
    intros pre c post Ec. apply (HD pre c post Ec). simpl; lia.
  - intros HD. destruct A as (h' & s' & Ea & _); [|eauto].
    intros pre c post Ec _. exact (HD pre c post Ec).
Qed.

(** ---- the result ---- *)
(** the copy of an object: through names for variables, positions for cost functions *)
Fixpoint assoc (l l' : list nat) (d : nat) : nat :=
  match l, l' with
  | a :: r, b :: r' => if d =? a then b else assoc r r' d
  | _, _ => d
  end.
Lemma assoc_nth l : forall l' k a b, NoDup l -> nth_error l k = Some a -> nth_error l' k = Some b ->
  assoc l l' a = b.
Proof.
  induction l as [|x l IH]; intros [|y l'] [|k] a b ND E1 E2; simpl in *; try discriminate.
  - injection E1 as <-. injection E2 as <-. now rewrite Nat.eqb_refl.
  - inversion ND as [|? ? Hn ND']; subst. destruct (a =? x) eqn:E.
    + apply Nat.eqb_eq in E; subst. exfalso. apply Hn. eapply nth_error_In; eauto.
    + eauto.
Qed.

Lemma Forall2_nth {A B} (R : A -> B -> Prop) l l' : Forall2 R l l' ->
  forall k a, nth_error l k = Some a -> exists b, nth_error l' k = Some b /\ R a b.
Proof.
  intros F. induction F; intros [|k] z E; simpl in *; try discriminate.
  - injection E as <-. eauto.
  - eauto.
Qed.
Lemma Forall2_map_eq {A} (R : A -> A -> Prop) (f : A -> A) l l' :
  Forall2 R l l' -> (forall a b, In a l -> In b l' -> R a b -> b = f a) -> l' = map f l.
Proof.
  intros F. induction F as [|a b l l' H F IH]; intros G; [reflexivity|]. simpl. f_equal.
  - apply G; simpl; auto.
  - apply IH. intros x y Hx Hy. apply G; simpl; auto.
Qed.

Lemma map_assoc l : forall l', NoDup l -> length l = length l' -> map (assoc l l') l = l'.
Proof.
  induction l as [|a l IH]; intros [|b l'] ND E; simpl in *; try discriminate; [reflexivity|].
  inversion ND as [|? ? Hn ND']; subst. rewrite Nat.eqb_refl. f_equal.
  transitivity (map (assoc l l') l); [|apply IH; auto; lia]. apply map_ext_in. intros c Hc.
  destruct (c =? a) eqn:Ec; [|reflexivity]. apply Nat.eqb_eq in Ec; subst. contradiction.
Qed.

Lemma Inv_all w s cs : Inv w s cs -> forall n v,
  lookup n (all_vars s) = Some v <-> used w cs v /\ v_name w v = n.
Proof.
  intros [HJ _ _ _ _ _ _] n v. rewrite (J_all _ _ _ HJ). unfold active, used.
  pose proof (J_uactive w s _ KOptim v ltac:(congruence) HJ) as A.
  pose proof (J_uactive w s _ KAux v ltac:(congruence) HJ) as B.
  rewrite uses_active_optim in A. rewrite uses_active_aux in B. simpl in A, B. tauto.
Qed.

Lemma conn_optim w s cs : Inv w s cs -> forall v, used_optim w cs v ->
  exists l, get_functions_connected_to_optim_var s (v_name w v) = Some l /\
            forall f, count_occ fid_eq_dec l f = times_optim w cs v f.
Proof.
  intros HI v Hv. unfold get_functions_connected_to_optim_var, functions_connected.
  rewrite (proj2 (Inv_optim _ _ _ HI (v_name w v) v)) by auto.
  destruct HI as [HJ _ _ _ _ _ _]. destruct (J_fo _ _ _ HJ) as [_ F]. specialize (F v).
  assert (Hact : lookup v (fns_for_optim s) <> None)
    by (apply (J_uactive w s _ KOptim v ltac:(congruence) HJ); now apply uses_active_optim).
  destruct (lookup v (fns_for_optim s)) as [l|]; [|congruence]. exists l. split; [reflexivity|apply F].
Qed.
Lemma conn_aux w s cs : Inv w s cs -> forall v, used_aux w cs v ->
  exists l, get_functions_connected_to_aux_var s (v_name w v) = Some l /\
            forall f, count_occ fid_eq_dec l f = times_aux w cs v f.
Proof.
  intros HI v Hv. unfold get_functions_connected_to_aux_var, functions_connected.
  rewrite (proj2 (Inv_aux _ _ _ HI (v_name w v) v)) by auto.
  destruct HI as [HJ _ _ _ _ _ _]. destruct (J_fa _ _ _ HJ) as [_ F]. specialize (F v).
  assert (Hact : lookup v (fns_for_aux s) <> None)
    by (apply (J_uactive w s _ KAux v ltac:(congruence) HJ); now apply uses_active_aux).
  destruct (lookup v (fns_for_aux s)) as [l|]; [|congruence]. exists l. split; [reflexivity|apply F].
Qed.

Section Result.
Variables (h h' : heap) (s s' : state) (cs : list cid).
Hypothesis HI : Inv (hw h) s cs.
Hypothesis Hwf : well_formed h cs.
Hypothesis Hcopy : copy_objective copy_name h s = Ret h' s'.

Lemma result : exists cs' fv fc fw,
  cs' = map fc cs /\ unchanged h h' /\ Inv (unmixed (hw h')) s' cs' /\ isomorphic h s cs h' s' fv fc fw /\
  (forall c i, In c cs -> inner h c = Some i -> exists i',
     inner h' (fc c) = Some i' /\ inner h' i' = None /\ cls h' i' = cls h i /\
     c_weight (hw h') i' = c_weight (hw h') (fc c) /\
     length (c_aux (hw h') i') = length (c_aux (hw h) i) /\
     (forall v, In v (c_optim (hw h') i' ++ c_aux (hw h') i') -> nv h <= v)) /\
  (forall pre c post i, cs = pre ++ c :: post -> inner h c = Some i -> private_if_robust h pre c ->
     forall i', inner h' (fc c) = Some i' ->
     c_optim (hw h') i' = map fv (c_optim (hw h) i) /\ c_aux (hw h') i' = map fv (c_aux (hw h) i)).
Proof.
  destruct (prepare h s cs HI Hwf)
    as (h2 & cs' & m & xs' & E & U & F & NI & RI & HW & Hinj & NS & RS).
  pose proof (Inv_consistent _ _ _ HI) as HC.
  pose proof (attach_spec h h2 cs cs' m xs' HC F NI RI HW Hinj NS
                cs cs' h2 init [] [] (PInv_start h h2 cs cs' xs' U)) as [_ B].
  rewrite E in Hcopy. destruct (B h' s' Hcopy) as [HP _]. clear B E.
  destruct HP as [_ _ Elen SV U' Hdon _ Hinn _ Hused HI' Hfr].
  pose proof (NoDup_cs' h2 cs' NI) as ND'. pose proof (I_nd _ _ _ HI) as ND.
  set (fc := assoc cs cs'). set (fw := fun x => match lookup x m with Some x' => x' | None => x end).
  set (fv := fun v => match lookup (v_name (hw h) v) (all_vars s') with Some v' => v' | None => v end).
  assert (Hidx : forall c, In c cs -> exists k, nth_error cs k = Some c /\ nth_error cs' k = Some (fc c)).
  { intros c Hc. destruct (In_nth_error _ _ Hc) as (k & Ek). exists k. split; [exact Ek|].
    destruct (Forall2_nth _ _ _ Hdon k c Ek) as (c' & Ek' & _).
    unfold fc. rewrite (assoc_nth cs cs' k c c'); auto. }
  assert (Hfc' : forall c, In c cs -> In (fc c) cs').
  { intros c Hc. destruct (Hidx c Hc) as (k & _ & Ek). eapply nth_error_In; eauto. }
  assert (Hpair : forall c, In c cs -> pair_ok (hw h) (is_copy h h2) (unmixed (hw h')) c (fc c)).
  { intros c Hc. destruct (Hidx c Hc) as (k & Ek & Ek').
    destruct (Forall2_nth _ _ _ Hdon k c Ek) as (c' & Ek2 & P). assert (c' = fc c) by congruence.
    now subst c'. }
  assert (Hrel : forall c, In c cs -> cfrel h h2 c (fc c) /\ mirrored h2 (fc c) /\
               lookup (c_weight (hw h) c) m = Some (c_weight (hw h2) (fc c))).
  { intros c Hc. destruct (Hidx c Hc) as (k & Ek & Ek').
    destruct (Forall2_nth _ _ _ F k c Ek) as (c' & Ek2 & P). assert (c' = fc c) by congruence.
    now subst c'. }
  assert (Emap : cs' = map fc cs) by (symmetry; apply map_assoc; auto).
  (* variables *)
  assert (Hvn : forall v v', is_copy h h2 v v' -> v_name (hw h') v' = v_name (hw h) v /\
            val h' v' = val h v /\ v_dtype_ok (hw h') v' = v_dtype_ok (hw h) v).
  { intros v v' (A & B & C). rewrite (sv_n _ _ SV), (sv_d _ _ SV), (sv_v _ _ SV). auto. }
  assert (Hfv : forall v r, is_copy h h2 v r -> used (hw h') cs' r -> fv v = r).
  { intros v r Hi Hu. unfold fv.
    assert (El : lookup (v_name (hw h) v) (all_vars s') = Some r).
    { apply (Inv_all _ _ _ HI'). split; [exact Hu|]. apply Hvn in Hi. exact (proj1 Hi). }
    now rewrite El. }
  assert (Hco : forall c, In c cs -> c_optim (hw h') (fc c) = map fv (c_optim (hw h) c)).
  { intros c Hc. destruct (Hpair c Hc) as (_ & P & _). eapply Forall2_map_eq; [exact P|].
    intros a b Ha Hb Hi. symmetry. apply Hfv; [exact Hi|]. left. exists (fc c). auto. }
  assert (Hca : forall c, In c cs -> c_aux (hw h') (fc c) = map fv (c_aux (hw h) c)).
  { intros c Hc. destruct (Hpair c Hc) as (_ & _ & P & _). eapply Forall2_map_eq; [exact P|].
    intros a b Ha Hb Hi. symmetry. apply Hfv; [exact Hi|]. right. exists (fc c). auto. }
  assert (Hcw : forall c, In c cs -> c_weight (hw h') (fc c) = fw (c_weight (hw h) c)).
  { intros c Hc. destruct (Hrel c Hc) as (_ & _ & L). unfold fw. rewrite L, (sv_cw _ _ SV). reflexivity. }
  assert (Hwa : forall c, In c cs ->
     w_aux (hw h') (fw (c_weight (hw h) c)) = map fv (w_aux (hw h) (c_weight (hw h) c))).
  { intros c Hc. destruct (Hpair c Hc) as (_ & _ & _ & _ & P).
    rewrite <- (Hcw c Hc). eapply Forall2_map_eq; [exact P|].
    intros a b Ha Hb Hi. symmetry. apply Hfv; [exact Hi|]. right. exists (fc c). auto. }
  assert (Hwo : forall c, In c cs -> w_optim (hw h') (fw (c_weight (hw h) c)) = []).
  { intros c Hc. destruct (Hpair c Hc) as (_ & _ & _ & P & _). rewrite <- (Hcw c Hc). exact P. }
  assert (Huo : forall v, used_optim (hw h) cs v -> used_optim (hw h') cs' (fv v) /\ is_copy h h2 v (fv v)).
  { intros v (c & Hc & Hv). destruct (Hpair c Hc) as (_ & P & _).
    destruct (Forall2_in_l _ _ _ _ P Hv) as (r & Hr & Hi).
    assert (Ur : used_optim (hw h') cs' r) by (exists (fc c); auto).
    rewrite (Hfv v r Hi (or_introl Ur)). auto. }
  assert (Hua : forall v, used_aux (hw h) cs v -> used_aux (hw h') cs' (fv v) /\ is_copy h h2 v (fv v)).
  { intros v (c & Hc & Hv). destruct (Hpair c Hc) as (_ & _ & P & _ & Q).
    destruct Hv as [Hv|Hv].
    - destruct (Forall2_in_l _ _ _ _ P Hv) as (r & Hr & Hi).
      assert (Ur : used_aux (hw h') cs' r) by (exists (fc c); auto).
      rewrite (Hfv v r Hi (or_intror Ur)). auto.
    - destruct (Forall2_in_l _ _ _ _ Q Hv) as (r & Hr & Hi).
      assert (Ur : used_aux (hw h') cs' r) by (exists (fc c); auto).
      rewrite (Hfv v r Hi (or_intror Ur)). auto. }
  assert (Hu : forall v, used (hw h) cs v -> used (hw h') cs' (fv v) /\ is_copy h h2 v (fv v)).
  { intros v [H|H]; [destruct (Huo v H)|destruct (Hua v H)]; split; auto; [left|right]; auto. }
  assert (Hbo : forall r, used_optim (hw h') cs' r -> exists v, used_optim (hw h) cs v /\ r = fv v).
  { intros r (c' & Hc' & Hr). rewrite Emap in Hc'. apply in_map_iff in Hc' as (c & <- & Hc).
    rewrite Hco in Hr by exact Hc. apply in_map_iff in Hr as (v & <- & Hv).
    exists v. split; [exists c; auto|reflexivity]. }
  assert (Hba : forall r, used_aux (hw h') cs' r -> exists v, used_aux (hw h) cs v /\ r = fv v).
  { intros r (c' & Hc' & Hr). rewrite Emap in Hc'. apply in_map_iff in Hc' as (c & <- & Hc).
    rewrite Hca, Hcw, Hwa in Hr by exact Hc.
    destruct Hr as [Hr|Hr]; apply in_map_iff in Hr as (v & <- & Hv);
      exists v; (split; [exists c; auto|reflexivity]). }
  assert (Hinjv : forall a b, used (hw h) cs a -> used (hw h) cs b -> fv a = fv b -> a = b).
  { intros a b Ua Ub Ef. apply (con_names _ _ HC); auto.
    destruct (Hu a Ua) as [_ Ia], (Hu b Ub) as [_ Ib]. apply Hvn in Ia. apply Hvn in Ib.
    destruct Ia as [Ia _], Ib as [Ib _]. congruence. }
  assert (Hinjc : forall a b, In a cs -> In b cs -> fc a = fc b -> a = b).
  { intros a b Ha Hb Ef. destruct (Hidx a Ha) as (k & Ek & Ek'), (Hidx b Hb) as (j & Ej & Ej').
    assert (k = j).
    { apply (proj1 (NoDup_nth_error cs') ND'); [apply nth_error_Some; congruence|congruence]. }
    congruence. }
  assert (Hinjw : forall a b, In a cs -> In b cs ->
     fw (c_weight (hw h) a) = fw (c_weight (hw h) b) -> c_weight (hw h) a = c_weight (hw h) b).
  { intros a b Ha Hb Ef. destruct (Hrel a Ha) as (_ & _ & La), (Hrel b Hb) as (_ & _ & Lb).
    unfold fw in Ef. rewrite La, Lb in Ef. eapply Hinj; [exact La|]. congruence. }
  assert (Hnewv : forall v, used (hw h) cs v -> nv h <= fv v < nv h').
  { intros v Uv. destruct (Hu v Uv) as [Ur _]. rewrite (sv_nv _ _ SV). apply RS.
    apply in_or_app. apply Hused in Ur as [H|(d' & Hd & H)]; [auto|]. right.
    rewrite Emap in Hd. apply in_map_iff in Hd as (c & <- & Hc).
    destruct (HW c Hc) as (x' & Lx & _ & _ & Hx). destruct (Hrel c Hc) as (_ & _ & Ly).
    apply in_flat_map. exists x'. split; [exact Hx|]. replace x' with (c_weight (hw h2) (fc c)) by congruence.
    exact H. }
  assert (Hgo : forall n, get_optim_var s' n = option_map fv (get_optim_var s n)).
  { intros n. unfold get_optim_var. destruct (lookup n (optim_vars s)) as [v|] eqn:Ev; simpl.
    - apply (Inv_optim _ _ _ HI) in Ev as [Uv En]. apply (Inv_optim _ _ _ HI').
      destruct (Huo v Uv) as [A I]. split; [exact A|]. apply Hvn in I. destruct I as [I _].
      change (v_name (hw h') (fv v) = n). congruence.
    - destruct (lookup n (optim_vars s')) as [r|] eqn:Er; [|reflexivity].
      apply (Inv_optim _ _ _ HI') in Er as [Ur En]. destruct (Hbo r Ur) as (v & Uv & ->).
      assert (Ec : lookup n (optim_vars s) = Some v); [|congruence].
      apply (Inv_optim _ _ _ HI). split; [exact Uv|]. destruct (Huo v Uv) as [_ I].
      apply Hvn in I. destruct I as [I _]. rewrite <- I. exact En. }
  assert (Hga : forall n, get_aux_var s' n = option_map fv (get_aux_var s n)).
  { intros n. unfold get_aux_var. destruct (lookup n (aux_vars s)) as [v|] eqn:Ev; simpl.
    - apply (Inv_aux _ _ _ HI) in Ev as [Uv En]. apply (Inv_aux _ _ _ HI').
      destruct (Hua v Uv) as [A I]. split; [exact A|]. apply Hvn in I. destruct I as [I _].
      change (v_name (hw h') (fv v) = n). congruence.
    - destruct (lookup n (aux_vars s')) as [r|] eqn:Er; [|reflexivity].
      apply (Inv_aux _ _ _ HI') in Er as [Ur En]. destruct (Hba r Ur) as (v & Uv & ->).
      assert (Ec : lookup n (aux_vars s) = Some v); [|congruence].
      apply (Inv_aux _ _ _ HI). split; [exact Uv|]. destruct (Hua v Uv) as [_ I].
      apply Hvn in I. destruct I as [I _]. rewrite <- I. exact En. }
  (* counting *)
  assert (Hcnt : forall l v, (forall u, In u l -> used (hw h) cs u) -> used (hw h) cs v ->
     count_occ Nat.eq_dec (map fv l) (fv v) = count_occ Nat.eq_dec l v).
  { intros l v Hl Uv. induction l as [|a l IH]; [reflexivity|]. simpl.
    rewrite IH by (intros; apply Hl; simpl; auto).
    destruct (Nat.eq_dec (fv a) (fv v)) as [Ef|Ef], (Nat.eq_dec a v) as [Ea|Ea]; auto.
    - exfalso. apply Ea. apply Hinjv; auto. apply Hl; simpl; auto.
    - exfalso. apply Ef. congruence. }
  assert (Hcnt1 : forall c, In c cs -> count_occ Nat.eq_dec cs c = 1)
    by (intros c Hc; apply NoDup_count_occ'; auto).
  assert (Hcnt1' : forall c, In c cs -> count_occ Nat.eq_dec cs' (fc c) = 1)
    by (intros c Hc; apply NoDup_count_occ'; auto).
  assert (Hex : forall c, In c cs ->
     existsb (fun d => c_weight (hw h) d =? c_weight (hw h) c) cs = true /\
     existsb (fun d => c_weight (hw h') d =? fw (c_weight (hw h) c)) cs' = true).
  { intros c Hc. split; apply existsb_exists.
    - exists c. split; [exact Hc|apply Nat.eqb_refl].
    - exists (fc c). split; [auto|]. rewrite Hcw by exact Hc. apply Nat.eqb_refl. }
  assert (Hconno : forall v, used_optim (hw h) cs v -> exists l l',
     get_functions_connected_to_optim_var s (v_name (hw h) v) = Some l /\
     get_functions_connected_to_optim_var s' (v_name (hw h) v) = Some l' /\
     same_functions h cs fc fw l l').
  { intros v Uv. destruct (Huo v Uv) as [Ur Iv]. pose proof (Hvn _ _ Iv) as (En & _).
    destruct (conn_optim _ _ _ HI v Uv) as (l & El & Cl).
    destruct (conn_optim _ _ _ HI' (fv v) Ur) as (l' & El' & Cl').
    change (v_name (unmixed (hw h'))) with (v_name (hw h')) in El'. rewrite En in El'.
    exists l, l'. split; [exact El|]. split; [exact El'|]. split.
    - intros c Hc. rewrite !Cl, !Cl'. unfold times_optim. split; [|reflexivity].
      rewrite Hcnt1, Hcnt1' by exact Hc. change (c_optim (unmixed (hw h'))) with (c_optim (hw h')).
      rewrite Hco by exact Hc. rewrite Hcnt; [reflexivity| |left; exact Uv].
      intros u Huu. left. exists c. auto.
    - intros f Hin. apply (count_occ_In fid_eq_dec) in Hin. rewrite Cl' in Hin.
      unfold times_optim in Hin. destruct f as [c'|x]; [|lia].
      assert (Hc' : In c' cs') by (apply (count_occ_In Nat.eq_dec); lia).
      rewrite Emap in Hc'. apply in_map_iff in Hc' as (c & <- & Hc). eauto. }
  assert (Hconna : forall v, used_aux (hw h) cs v -> exists l l',
     get_functions_connected_to_aux_var s (v_name (hw h) v) = Some l /\
     get_functions_connected_to_aux_var s' (v_name (hw h) v) = Some l' /\
     same_functions h cs fc fw l l').
  { intros v Uv. destruct (Hua v Uv) as [Ur Iv]. pose proof (Hvn _ _ Iv) as (En & _).
    destruct (conn_aux _ _ _ HI v Uv) as (l & El & Cl).
    destruct (conn_aux _ _ _ HI' (fv v) Ur) as (l' & El' & Cl').
    change (v_name (unmixed (hw h'))) with (v_name (hw h')) in El'. rewrite En in El'.
    exists l, l'. split; [exact El|]. split; [exact El'|]. split.
    - intros c Hc. rewrite !Cl, !Cl'. unfold times_aux.
      change (c_aux (unmixed (hw h'))) with (c_aux (hw h')).
      change (w_aux (unmixed (hw h'))) with (w_aux (hw h')).
      change (c_weight (unmixed (hw h'))) with (c_weight (hw h')).
      split.
      + rewrite Hcnt1, Hcnt1' by exact Hc.
        rewrite Hca by exact Hc. rewrite Hcnt; [reflexivity| |right; exact Uv].
        intros u Huu. right. exists c. auto.
      + destruct (Hex c Hc) as [-> ->]. rewrite Hwa by exact Hc.
        rewrite Hcnt; [reflexivity| |right; exact Uv]. intros u Huu. right. exists c. auto.
    - intros f Hin. apply (count_occ_In fid_eq_dec) in Hin. rewrite Cl' in Hin.
      unfold times_aux in Hin. destruct f as [c'|x].
      + assert (Hc' : In c' cs') by (apply (count_occ_In Nat.eq_dec); lia).
        rewrite Emap in Hc'. apply in_map_iff in Hc' as (c & <- & Hc). eauto.
      + destruct (existsb _ cs') eqn:Ee; [|lia]. apply existsb_exists in Ee as (c' & Hc' & Ee).
        apply Nat.eqb_eq in Ee. rewrite Emap in Hc'. apply in_map_iff in Hc' as (c & <- & Hc).
        exists c. split; [exact Hc|]. right. rewrite <- Ee. f_equal.
        change (c_weight (unmixed (hw h'))) with (c_weight (hw h')). auto. }
  assert (Hcls : forall c, In c cs -> cls h' (fc c) = cls h c).
  { intros c Hc. destruct (Hrel c Hc) as ([_ R _ _ _] & _). rewrite (sv_cl _ _ SV). exact R. }
  exists cs', fv, fc, fw. split; [exact Emap|]. split; [exact U'|]. split; [exact HI'|].
  split; [|split].
  - split; auto.
    + rewrite (I_cf _ _ _ HI'), (I_cf _ _ _ HI), Emap, !map_map. apply map_ext_in.
      intros c Hc. simpl. destruct (Hpair c Hc) as (P & _). f_equal. exact P.
    + intros c Hc. destruct (Hpair c Hc) as (P & _). split; [exact P|].
      do 4 (split; [auto|]). destruct (Hrel c Hc) as ([_ _ _ _ R] & _).
      rewrite (sv_in _ _ SV). destruct (inner h c) as [i|].
      * destruct R as (i' & R1 & _). rewrite R1. split; intros; discriminate.
      * split; auto.
    + intros c Hc. cbv zeta. destruct (HW c Hc) as (x' & Lx & [K _ _] & _).
      split; [unfold fw; rewrite Lx, (sv_wl _ _ SV); exact K|].
      split; [auto|]. split; [apply (I_wo _ _ _ HI c Hc)|auto].
    + intros v Uv. destruct (Hu v Uv) as [_ Iv]. now apply Hvn.
    + intros c Hc. rewrite (sv_nc _ _ SV). eapply cs'_range; eauto.
    + intros c Hc. destruct (HW c Hc) as (x' & Lx & _ & R & _). unfold fw. rewrite Lx, (sv_nw _ _ SV). exact R.
  - intros c i Hc Hi. destruct (Hrel c Hc) as ([_ _ _ _ R] & _). rewrite Hi in R.
    destruct R as (i' & R1 & R2 & R3 & R4 & R5). exists i'.
    destruct (Hinn (fc c) i' (Hfc' c Hc) R1) as [Q1 Q2].
    rewrite (sv_in _ _ SV), (sv_cl _ _ SV), (sv_cw _ _ SV), Q1, Q2.
    do 5 (split; [auto|]).
    destruct (Hrel c Hc) as (_ & M & _). destruct (M i' R1) as [M1 M2].
    intros v Hv. apply RS. apply in_or_app. left. apply in_flat_map. exists (fc c).
    split; [auto|]. unfold cslots. rewrite M1, M2 in Hv.
    apply in_app_or in Hv as [Hv|Hv]; apply in_or_app; [auto|right].
    rewrite <- (firstn_skipn (length (c_aux (hw h2) i'))). apply in_or_app; auto.
  - intros pre c post i Ec Hi Hpr i' Hi'.
    assert (Hc : In c cs) by (rewrite Ec; apply in_or_app; simpl; auto).
    destruct (wf_i _ _ Hwf c i Hc Hi) as (_ & _ & W1 & _ & own & W2).
    assert (Ek : nth_error cs (length pre) = Some c).
    { rewrite Ec, nth_error_app2, Nat.sub_diag by lia. reflexivity. }
    assert (Ek' : nth_error cs' (length pre) = Some (fc c)).
    { destruct (Hidx c Hc) as (k & A & B). assert (k = length pre).
      { apply (proj1 (NoDup_nth_error cs) ND); [apply nth_error_Some; congruence|congruence]. }
      now subst k. }
    rewrite (sv_in _ _ SV) in Hi'.
    destruct (Hinn (fc c) i' (Hfc' c Hc) Hi') as [Q1 Q2].
    destruct (Hrel c Hc) as ([_ _ _ _ R] & M & _). rewrite Hi in R.
    destruct R as (i2 & R1 & _ & _ & _ & R5). assert (i2 = i') by congruence. subst i2.
    destruct (M i' Hi') as [M1 M2]. rewrite R5 in M2.
    destruct (Hfr (length pre) c (fc c) (length (c_aux (hw h) i)) Ek Ek') as [G1 G2].
    { rewrite Ec, firstn_app, firstn_all, Nat.sub_diag. simpl. rewrite app_nil_r.
      rewrite W2, firstn_app, firstn_all, Nat.sub_diag. simpl. rewrite app_nil_r, <- W1.
      intros v Hv. exact (Hpr i Hi v Hv). }
    rewrite Q1, Q2, M1, M2, <- G1, <- G2, (Hco c Hc), (Hca c Hc), W1. split; [reflexivity|].
    rewrite firstn_map, W2, firstn_app, firstn_all, Nat.sub_diag. simpl. now rewrite app_nil_r.
Qed.
End Result.

(** ---- updates ---- *)
Lemma set_vals_other (ups : list (vid * V)) : forall g : heap,
  hw (set_vals g ups) = hw g /\ cls (set_vals g ups) = cls g /\ wcls (set_vals g ups) = wcls g /\
  inner (set_vals g ups) = inner g /\
  forall v, ~ In v (map fst ups) -> val (set_vals g ups) v = val g v.
Proof.
  induction ups as [|[a x] ups IH]; intros g; [repeat split; auto|].
  destruct (IH (set_val g a x)) as (A & B & C & D & F).
  unfold set_vals in *. simpl. split; [exact A|]. split; [exact B|]. split; [exact C|].
  split; [exact D|]. intros v Hv. rewrite F by tauto. simpl. unfold upd.
  destruct (v =? a) eqn:E; [|reflexivity]. apply Nat.eqb_eq in E. subst. tauto.
Qed.

Lemma set_vals_track (P : vid -> Prop) (f : vid -> vid) :
  (forall a b, P a -> P b -> f a = f b -> a = b) ->
  forall (ups : list (vid * V)) (g g' : heap),
  (forall u, In u (map fst ups) -> P u) -> (forall v, P v -> val g' (f v) = val g v) ->
  forall v, P v -> val (set_vals g' (map (fun p => (f (fst p), snd p)) ups)) (f v)
                   = val (set_vals g ups) v.
Proof.
  intros Hinj ups. induction ups as [|[a x] ups IH]; intros g g' Hu Hv v Pv; [apply Hv; auto|].
  unfold set_vals in *. simpl. apply IH; auto.
  - intros u Hin. apply Hu. simpl. auto.
  - intros u Pu. simpl. unfold upd. assert (Pa : P a) by (apply Hu; simpl; auto).
    destruct (f u =? f a) eqn:E1, (u =? a) eqn:E2; auto.
    + apply Nat.eqb_eq in E1. apply Nat.eqb_neq in E2. exfalso. auto.
    + apply Nat.eqb_neq in E1. apply Nat.eqb_eq in E2. subst. congruence.
Qed.

Section Errors.
Context {E : Type}.
Variable efn : nat -> list V -> list V -> E.
Variable wfn : nat -> list V -> list V -> E -> E.
Variable lfn : nat -> list V -> E -> E.
Notation err := (weighted_error efn wfn lfn).

(** the error only depends on what the cost function refers to *)
Definition agree (g g' : heap) (f : vid -> vid) (l l' : list vid) : Prop :=
  l' = map f l /\ forall v, In v l -> val g' (f v) = val g v.
Lemma agree_map g g' f l l' : agree g g' f l l' -> map (val g') l' = map (val g) l.
Proof. intros [-> H]. rewrite map_map. now apply map_ext_in. Qed.

Lemma plain_agree (g g' : heap) f c c' :
  let w := hw g in let w' := hw g' in
  cls g' c' = cls g c -> wcls g' (c_weight w' c') = wcls g (c_weight w c) ->
  agree g g' f (c_optim w c) (c_optim w' c') -> agree g g' f (c_aux w c) (c_aux w' c') ->
  agree g g' f (w_optim w (c_weight w c)) (w_optim w' (c_weight w' c')) ->
  agree g g' f (w_aux w (c_weight w c)) (w_aux w' (c_weight w' c')) ->
  plain_error efn wfn g' c' = plain_error efn wfn g c.
Proof.
  cbv zeta. intros A B C D F G. unfold plain_error. cbv zeta.
  now rewrite A, B, (agree_map _ _ _ _ _ C), (agree_map _ _ _ _ _ D), (agree_map _ _ _ _ _ F),
    (agree_map _ _ _ _ _ G).
Qed.

Lemma err_agree (g g' : heap) f c c' :
  let w := hw g in let w' := hw g' in
  cls g' c' = cls g c -> wcls g' (c_weight w' c') = wcls g (c_weight w c) ->
  agree g g' f (c_optim w c) (c_optim w' c') -> agree g g' f (c_aux w c) (c_aux w' c') ->
  agree g g' f (w_optim w (c_weight w c)) (w_optim w' (c_weight w' c')) ->
  agree g g' f (w_aux w (c_weight w c)) (w_aux w' (c_weight w' c')) ->
  match inner g c, inner g' c' with
  | None, None => True
  | Some i, Some i' =>
    cls g' i' = cls g i /\ length (c_aux w' i') = length (c_aux w i) /\
    c_weight w' i' = c_weight w' c' /\ c_weight w i = c_weight w c /\
    agree g g' f (c_optim w i) (c_optim w' i') /\ agree g g' f (c_aux w i) (c_aux w' i')
  | _, _ => False
  end -> err g' c' = err g c.
Proof.
  cbv zeta. intros A B C D F G H. unfold weighted_error.
  destruct (inner g c) as [i|], (inner g' c') as [i'|]; try contradiction.
  - destruct H as (H1 & H2 & H3 & H4 & H5 & H6). rewrite A, H2. f_equal.
    + destruct D as [D1 D2]. rewrite D1, skipn_map, map_map. apply map_ext_in. intros v Hv.
      apply D2. rewrite <- (firstn_skipn (length (c_aux (hw g) i))). apply in_or_app; auto.
    + apply plain_agree with f; auto; rewrite H3, H4; auto.
  - now apply plain_agree with f.
Qed.

Variables (h h' : heap) (s s' : state) (cs : list cid).
Hypothesis HI : Inv (hw h) s cs.
Hypothesis Hwf : well_formed h cs.
Hypothesis Hcopy : copy_objective copy_name h s = Ret h' s'.

Lemma tracks : exists fv fc fw,
  unchanged h h' /\ isomorphic h s cs h' s' fv fc fw /\
  (forall pre c post, cs = pre ++ c :: post -> private_if_robust h pre c ->
   forall ups, (forall u, In u (map fst ups) -> used (hw h) cs u) ->
   err (set_vals h' (map (fun p => (fv (fst p), snd p)) ups)) (fc c) = err (set_vals h ups) c) /\
  (forall c, In c cs -> forall ups, (forall u, In u (map fst ups) -> nv h <= u) ->
   err (set_vals h' ups) c = err h c) /\
  (forall c, In c cs -> forall ups, (forall u, In u (map fst ups) -> u < nv h) ->
   err (set_vals h' ups) (fc c) = err h' (fc c)).
Proof.
  destruct (result h h' s s' cs HI Hwf Hcopy) as (cs' & fv & fc & fw & Ecs & U & HI' & Iso & Rin & Rpr).
  exists fv, fc, fw. split; [exact U|]. split; [exact Iso|]. split; [|split].
  - intros pre c post Ec Hp ups Hups.
    assert (Hc : In c cs) by (rewrite Ec; apply in_or_app; simpl; auto).
    pose proof (set_vals_other ups h) as (A1 & A2 & A3 & A4 & _).
    pose proof (set_vals_other (map (fun p => (fv (fst p), snd p)) ups) h') as (B1 & B2 & B3 & B4 & _).
    assert (T : forall v, used (hw h) cs v ->
       val (set_vals h' (map (fun p => (fv (fst p), snd p)) ups)) (fv v) = val (set_vals h ups) v).
    { apply set_vals_track; auto.
      - exact (iso_inj_v _ _ _ _ _ _ _ _ Iso).
      - intros v Hv. apply (iso_v _ _ _ _ _ _ _ _ Iso v Hv). }
    destruct (iso_c _ _ _ _ _ _ _ _ Iso c Hc) as (C1 & C2 & C3 & C4 & C5 & C6).
    destruct (iso_w _ _ _ _ _ _ _ _ Iso c Hc) as (W1 & W2 & W3 & W4).
    assert (Uo : forall v, In v (c_optim (hw h) c) -> used (hw h) cs v) by (intros; left; exists c; auto).
    assert (Ua : forall v, In v (c_aux (hw h) c) -> used (hw h) cs v) by (intros; right; exists c; auto).
    assert (Uw : forall v, In v (w_aux (hw h) (c_weight (hw h) c)) -> used (hw h) cs v)
      by (intros; right; exists c; auto).
    apply err_agree with fv; rewrite ?A1, ?A2, ?A3, ?A4, ?B1, ?B2, ?B3, ?B4, ?C5; auto.
    + split; auto.
    + split; auto.
    + split; [rewrite W2, W3; reflexivity|]. rewrite W3. intros v [].
    + split; auto.
    + destruct (inner h c) as [i|] eqn:Ei.
      * destruct (Rin c i Hc Ei) as (i' & D1 & D2 & D3 & D4 & D5 & D6). rewrite D1.
        destruct (Rpr pre c post i Ec Ei Hp i' D1) as [P1 P2].
        destruct (wf_i _ _ Hwf c i Hc Ei) as (_ & _ & X1 & X2 & own & X3).
        rewrite D4, C5. do 4 (split; [auto|]). split; (split; [auto|]).
        -- intros v Hv. apply T, Uo. now rewrite <- X1.
        -- intros v Hv. apply T, Ua. rewrite X3. apply in_or_app; auto.
      * rewrite (proj2 C6 eq_refl). exact I.
  - intros c Hc ups Hups.
    pose proof (set_vals_other ups h') as (B1 & B2 & B3 & B4 & B5).
    pose proof (wf_c _ _ Hwf c Hc) as Lc. pose proof (wf_w _ _ Hwf c Hc) as Lw.
    destruct (un_c _ _ U c Lc) as (C1 & C2 & C3 & C4 & C5 & C6).
    destruct (un_w _ _ U _ Lw) as (W1 & W2 & W3).
    assert (T : forall v, v < nv h -> val (set_vals h' ups) v = val h v).
    { intros v Hv. rewrite B5; [apply (un_v _ _ U v Hv)|]. intros Hin. apply Hups in Hin. lia. }
    assert (Lv : forall v, In v (references (hw h) c) -> v < nv h) by (intros; eapply wf_v; eauto).
    unfold references in Lv.
    apply err_agree with (fun v => v); rewrite ?B1, ?B2, ?B3, ?B4, ?C4, ?C2, ?C3, ?C6; auto.
    + split; [now rewrite map_id|]. intros v Hv. apply T, Lv. apply in_or_app; auto.
    + split; [now rewrite map_id|]. intros v Hv. apply T, Lv. apply in_or_app; right; apply in_or_app; auto.
    + split; [now rewrite map_id|]. rewrite (I_wo _ _ _ HI c Hc). intros v [].
    + split; [now rewrite map_id|]. intros v Hv. apply T, Lv. apply in_or_app; right; apply in_or_app; auto.
    + destruct (inner h c) as [i|] eqn:Ei; [|exact I].
      destruct (wf_i _ _ Hwf c i Hc Ei) as (Li & _ & X1 & X2 & own & X3).
      destruct (un_c _ _ U i Li) as (D1 & D2 & D3 & D4 & D5 & D6).
      rewrite D2, D3, D4, D5. do 4 (split; [auto|]).
      split; (split; [now rewrite map_id|]); intros v Hv; apply T, Lv.
      * rewrite X1 in Hv. apply in_or_app; auto.
      * rewrite X3, <- app_assoc. apply in_or_app; right; apply in_or_app; auto.
  - intros c Hc ups Hups.
    pose proof (set_vals_other ups h') as (B1 & B2 & B3 & B4 & B5).
    assert (T : forall v, nv h <= v -> val (set_vals h' ups) v = val h' v).
    { intros v Hv. apply B5. intros Hin. apply Hups in Hin. lia. }
    destruct (iso_c _ _ _ _ _ _ _ _ Iso c Hc) as (C1 & C2 & C3 & C4 & C5 & C6).
    destruct (iso_w _ _ _ _ _ _ _ _ Iso c Hc) as (W1 & W2 & W3 & W4).
    assert (N : forall v, used (hw h) cs v -> nv h <= fv v)
      by (intros v Hv; apply (iso_new_v _ _ _ _ _ _ _ _ Iso v Hv)).
    apply err_agree with (fun v => v); rewrite ?B1, ?B2, ?B3, ?B4; auto.
    + split; [now rewrite map_id|]. rewrite C3. intros v Hv. apply in_map_iff in Hv as (u & <- & Hv).
      apply T, N. left. exists c; auto.
    + split; [now rewrite map_id|]. rewrite C4. intros v Hv. apply in_map_iff in Hv as (u & <- & Hv).
      apply T, N. right. exists c; auto.
    + split; [now rewrite map_id|]. rewrite C5, W2. intros v [].
    + split; [now rewrite map_id|]. rewrite C5, W4. intros v Hv. apply in_map_iff in Hv as (u & <- & Hv).
      apply T, N. right. exists c; auto.
    + destruct (inner h' (fc c)) as [i'|] eqn:Ei'; [|exact I].
      destruct (inner h c) as [i|] eqn:Ei; [|discriminate (proj2 C6 eq_refl)].
      destruct (Rin c i Hc Ei) as (i2 & D1 & D2 & D3 & D4 & D5 & D6).
      assert (i2 = i') by congruence. subst i2.
      do 4 (split; [auto|]). split; (split; [now rewrite map_id|]); intros v Hv; apply T, D6;
        apply in_or_app; auto.
Qed.
End Errors.
End P.

(** C09.  Copying succeeds exactly when no cost function together with its weight refers twice to
    a variable that no earlier cost function uses. *)
Theorem C09_copy_succeeds_iff :
  forall (V : Type) (copy_name : name -> name) (h : heap V) (ops : list op),
    allow_mixed (hw h) = false -> all_ok (hw h) ops init = true -> fresh (hw h) ops ->
    let s := run (hw h) ops init in
    let cs := present (hw h) ops in
    well_formed h cs ->
    ((exists h' s', copy_objective copy_name h s = Ret h' s') <-> no_double_reference (hw h) cs).
Proof.
  intros V cn h ops Hm Hok Hfr s cs Hwf. apply copy_iff; auto.
  apply run_Inv; auto; apply Inv_init.
Qed.
Print Assumptions C09_copy_succeeds_iff.

(** C09.  When it succeeds, nothing that existed has changed and the result is an isomorphic copy
    made of new objects. *)
Theorem C09_copy_isomorphic :
  forall (V : Type) (copy_name : name -> name) (h h' : heap V) (ops : list op) (s' : state),
    allow_mixed (hw h) = false -> all_ok (hw h) ops init = true -> fresh (hw h) ops ->
    let s := run (hw h) ops init in
    let cs := present (hw h) ops in
    well_formed h cs ->
    copy_objective copy_name h s = Ret h' s' ->
    unchanged h h' /\ exists fv fc fw, isomorphic h s cs h' s' fv fc fw.
Proof.
  intros V cn h h' ops s' Hm Hok Hfr s cs Hwf E.
  assert (HI : Inv (hw h) s cs) by (apply run_Inv; auto; apply Inv_init).
  destruct (result cn h h' s s' cs HI Hwf E) as (cs' & fv & fc & fw & _ & U & _ & Iso & _).
  eauto.
Qed.
Print Assumptions C09_copy_isomorphic.

(** C09.  After any updates of the copied variables, a copied cost function evaluates to what the
    original evaluates to after the same updates of the original variables.  Updates of copied
    variables do not change the originals, and updates of any variables that existed before do not
    change the copies.
    Missing from the full claim: robust cost functions wrapping one whose variables are used by a
    cost function added earlier (the claim fails for them: [C09_robust_refuted]). *)
Theorem C09_update_tracks_partial :
  forall (V E : Type) (copy_name : name -> name)
         (efn : nat -> list V -> list V -> E) (wfn : nat -> list V -> list V -> E -> E)
         (lfn : nat -> list V -> E -> E)
         (h h' : heap V) (ops : list op) (s' : state),
    allow_mixed (hw h) = false -> all_ok (hw h) ops init = true -> fresh (hw h) ops ->
    let s := run (hw h) ops init in
    let cs := present (hw h) ops in
    well_formed h cs ->
    copy_objective copy_name h s = Ret h' s' ->
    let err := weighted_error efn wfn lfn in
    exists fv fc fw, isomorphic h s cs h' s' fv fc fw /\
    (forall pre c post, cs = pre ++ c :: post -> private_if_robust h pre c ->
     forall ups, (forall u, In u (map fst ups) -> used (hw h) cs u) ->
     err (set_vals h' (map (fun p => (fv (fst p), snd p)) ups)) (fc c) = err (set_vals h ups) c) /\
    (forall c, In c cs -> forall ups, (forall u, In u (map fst ups) -> used (hw h') (map fc cs) u) ->
     err (set_vals h' ups) c = err h c) /\
    (forall c, In c cs -> forall ups, (forall u, In u (map fst ups) -> u < nv h) ->
     err (set_vals h' ups) (fc c) = err h' (fc c)).
Proof.
  intros V E cn efn wfn lfn h h' ops s' Hm Hok Hfr s cs Hwf Ec err.
  assert (HI : Inv (hw h) s cs) by (apply run_Inv; auto; apply Inv_init).
  destruct (tracks cn efn wfn lfn h h' s s' cs HI Hwf Ec) as (fv & fc & fw & U & Iso & A & B & C).
  exists fv, fc, fw. split; [exact Iso|]. split; [exact A|]. split; [|exact C].
  intros c Hc ups Hups. apply B; [exact Hc|]. intros u Hu. apply Hups in Hu.
  assert (G : exists v, used (hw h) cs v /\ u = fv v).
  { destruct Hu as [(c' & Hc' & Hv)|(c' & Hc' & Hv)]; apply in_map_iff in Hc' as (d & <- & Hd);
      destruct (iso_c _ _ _ _ _ _ _ _ Iso d Hd) as (_ & _ & C3 & C4 & C5 & _);
      destruct (iso_w _ _ _ _ _ _ _ _ Iso d Hd) as (_ & _ & _ & W4).
    - rewrite C3 in Hv. apply in_map_iff in Hv as (v & <- & Hv). exists v. split; [|reflexivity].
      left. exists d; auto.
    - rewrite C4, C5, W4 in Hv. destruct Hv as [Hv|Hv]; apply in_map_iff in Hv as (v & <- & Hv);
        (exists v; split; [|reflexivity]; right; exists d; auto). }
  destruct G as (v & Hv & ->). apply (iso_new_v _ _ _ _ _ _ _ _ Iso v Hv).
Qed.
Print Assumptions C09_update_tracks_partial.

(** ---- concrete cases ---- *)
(** Cost functions 0 and 1 share variable 0, auxiliary variable 2 and weight 0; cost function 2 is
    robust, wraps 3 and shares nothing but auxiliary variable 3 of its weight. *)
Definition ex_heap : heap nat := {|
  hw := {| v_name := fun v => v; v_dtype_ok := fun _ => true; c_name := fun c => c;
           c_optim := fun c => nth c [[0]; [0; 1]; [4; 5]; [4; 5]] [];
           c_aux := fun c => nth c [[2]; [2]; [6; 7]; [6]] [];
           c_weight := fun c => nth c [0; 0; 1; 1] 0;
           w_optim := fun _ => []; w_aux := fun x => if x =? 0 then [3] else [8; 3];
           allow_mixed := false |};
  val := fun v => v + 10; cls := fun c => c; wcls := fun x => x;
  inner := fun c => if c =? 2 then Some 3 else None;
  nv := 9; nc := 4; nw := 2 |}.

Definition is_ret {V A} (r : @res V A) : bool := match r with Ret _ _ => true | Exn _ _ => false end.

Example C09_satisfiable :
  let h := ex_heap in let ops := [Add 1; Add 0; Erase 1; Add 1; Add 2] in
  allow_mixed (hw h) = false /\ all_ok (hw h) ops init = true /\ fresh (hw h) ops /\
  present (hw h) ops = [0; 1; 2] /\ well_formed h (present (hw h) ops) /\
  (exists h' s', copy_objective (fun n => n + 100) h (run (hw h) ops init) = Ret h' s') /\
  private_if_robust h [0; 1] 2.
Proof.
  cbv zeta. split; [reflexivity|]. split; [reflexivity|]. split.
  { unfold fresh; simpl. repeat split; try exact I; vm_compute; intros H;
      repeat match type of H with _ \/ _ => destruct H as [H|H] end; discriminate || contradiction. }
  split; [reflexivity|]. change (present (hw ex_heap) [Add 1; Add 0; Erase 1; Add 1; Add 2]) with [0; 1; 2].
  split; [|split].
  - split; simpl.
    + intros c [<-|[<-|[<-|[]]]]; simpl; lia.
    + intros c [<-|[<-|[<-|[]]]]; simpl; lia.
    + intros c v [<-|[<-|[<-|[]]]]; simpl; intuition lia.
    + intros c i [<-|[<-|[<-|[]]]]; simpl; intros H; try discriminate. injection H as <-.
      repeat split; try lia. exists [7]. reflexivity.
  - assert (Hr : is_ret (copy_objective (fun n => n + 100) ex_heap
        (run (hw ex_heap) [Add 1; Add 0; Erase 1; Add 1; Add 2] init)) = true)
      by (vm_compute; reflexivity).
    destruct (copy_objective _ _ _); [eauto|discriminate].
  - intros i Hi v Hv. vm_compute in Hi. injection Hi as <-. simpl in Hv.
    intros [(c & Hc & Hw)|(c & Hc & Hw)]; simpl in Hc; destruct Hc as [<-|[<-|[]]]; simpl in Hw; intuition lia.
Qed.

(** C09 refuted for wrapped cost functions: cost function 1 is robust and wraps one that uses
    variable 0, which cost function 0 uses as well.  After the copy, updating the variable of that
    name in the copied objective does not change the error of the copied robust cost function,
    although the same update changes the error of the original. *)
Theorem C09_robust_refuted :
  exists (h h' : heap nat) (ops : list op) (s' : state) (c' v' : nat),
    let copy_name := fun n => n + 100 in
    let efn := fun (_ : nat) (o _ : list nat) => list_sum o in
    let wfn := fun (_ : nat) (_ _ : list nat) (e : nat) => e in
    let lfn := fun (_ : nat) (_ : list nat) (e : nat) => e in
    let s := run (hw h) ops init in
    allow_mixed (hw h) = false /\ all_ok (hw h) ops init = true /\ fresh (hw h) ops /\
    well_formed h (present (hw h) ops) /\ present (hw h) ops = [0; 1] /\
    copy_objective copy_name h s = Ret h' s' /\
    lookup (c_name (hw h) 1) (cost_functions s') = Some c' /\
    get_optim_var s (v_name (hw h) 0) = Some 0 /\ get_optim_var s' (v_name (hw h) 0) = Some v' /\
    c_optim (hw h') c' = [v'] /\
    forall x, weighted_error efn wfn lfn (set_val h' v' x) c' = val h 0 /\
              weighted_error efn wfn lfn (set_val h 0 x) 1 = x.
Proof.
  set (h := {|
    hw := {| v_name := fun v => v; v_dtype_ok := fun _ => true; c_name := fun c => c;
             c_optim := fun c => [0]; c_aux := fun c => if c =? 1 then [1] else [];
             c_weight := fun c => if c =? 0 then 0 else 1;
             w_optim := fun _ => []; w_aux := fun x => [x + 2]; allow_mixed := false |};
    val := fun v => v + 10; cls := fun c => c; wcls := fun x => x;
    inner := fun c => if c =? 1 then Some 2 else None;
    nv := 4; nc := 3; nw := 2 |} : heap nat).
  assert (Hx : exists h' s', copy_objective (fun n => n + 100) h (run (hw h) [Add 0; Add 1] init) = Ret h' s' /\
     lookup 1 (cost_functions s') = Some 5 /\ get_optim_var s' 0 = Some 6 /\
     inner h' 5 = Some 4 /\ c_optim (hw h') 5 = [6] /\ c_optim (hw h') 4 = [8] /\
     val h' 8 = 10).
  { assert (Hr : match copy_objective (fun n => n + 100) h (run (hw h) [Add 0; Add 1] init) with
       | Ret h' s' => (lookup 1 (cost_functions s'), get_optim_var s' 0, inner h' 5,
                       c_optim (hw h') 5, c_optim (hw h') 4, val h' 8)
       | Exn _ _ => (None, None, None, [], [], 0)
       end = (Some 5, Some 6, Some 4, [6], [8], 10)) by (vm_compute; reflexivity).
    destruct (copy_objective _ _ _) as [h' s'|]; [|discriminate]. exists h', s'.
    injection Hr. intros. auto 10. }
  destruct Hx as (h' & s' & E & X1 & X2 & X3 & X4 & X5 & X6).
  exists h, h', [Add 0; Add 1], s', 5, 6.
  cbv zeta. split; [reflexivity|]. split; [reflexivity|]. split.
  { unfold fresh; simpl. clear. split; [intros []|]. split; [|exact I]. intros [H|[]]. discriminate. }
  split.
  { change (present (hw h) [Add 0; Add 1]) with [0; 1]. clear - h. split; simpl.
    + intros c [<-|[<-|[]]]; simpl; lia.
    + intros c [<-|[<-|[]]]; simpl; lia.
    + intros c v [<-|[<-|[]]]; simpl; intuition lia.
    + intros c i [<-|[<-|[]]]; simpl; intros H; try discriminate. injection H as <-.
      repeat split; try lia. exists [1]. reflexivity. }
  split; [reflexivity|]. split; [exact E|]. split; [exact X1|]. split; [reflexivity|].
  split; [exact X2|]. split; [exact X4|]. intros x. split.
  - unfold weighted_error, plain_error. cbn [set_val inner hw cls wcls val]. rewrite X3, X5.
    cbn [map upd]. unfold upd. cbn [Nat.eqb]. rewrite X6. reflexivity.
  - exact (Nat.add_0_r x).
Qed.
Print Assumptions C09_robust_refuted.

(** C09 refuted for a cost function that shares an auxiliary variable with its weight (as the
    Gaussian-process motion model does), and for an objective that allows a variable to be used
    both ways: the objective is accepted, but copying it raises. *)
Theorem C09_shared_weight_refuted :
  exists (h : heap nat) (ops : list op),
    allow_mixed (hw h) = false /\ all_ok (hw h) ops init = true /\ fresh (hw h) ops /\
    well_formed h (present (hw h) ops) /\ ops = [Add 0] /\
    c_aux (hw h) 0 = w_aux (hw h) (c_weight (hw h) 0) /\
    exists h', copy_objective (fun n => n + 100) h (run (hw h) ops init) = Exn ValueError h'.
Proof.
  exists {|
    hw := {| v_name := fun v => v; v_dtype_ok := fun _ => true; c_name := fun c => c;
             c_optim := fun c => [0]; c_aux := fun c => [1]; c_weight := fun c => 0;
             w_optim := fun _ => []; w_aux := fun x => [1]; allow_mixed := false |};
    val := fun v => v + 10; cls := fun c => c; wcls := fun x => x; inner := fun c => None;
    nv := 2; nc := 1; nw := 1 |}, [Add 0].
  split; [reflexivity|]. split; [reflexivity|]. split.
  { unfold fresh; simpl. tauto. }
  split.
  { split; simpl.
    + intros c [<-|[]]; simpl; lia.
    + intros c [<-|[]]; simpl; lia.
    + intros c v [<-|[]]; simpl; intuition lia.
    + intros c i [<-|[]]; discriminate. }
  split; [reflexivity|]. split; [reflexivity|].
  match goal with |- exists _, ?r = _ =>
    assert (Hr : match r with Exn ValueError _ => true | _ => false end = true) by (vm_compute; reflexivity);
    destruct r as [|[] h']; try discriminate; exists h'; reflexivity end.
Qed.
Print Assumptions C09_shared_weight_refuted.

Theorem C09_mixed_refuted :
  exists (h : heap nat) (ops : list op),
    allow_mixed (hw h) = true /\ all_ok (hw h) ops init = true /\ fresh (hw h) ops /\
    well_formed h (present (hw h) ops) /\ no_double_reference (hw h) (present (hw h) ops) /\
    exists e h', copy_objective (fun n => n + 100) h (run (hw h) ops init) = Exn e h'.
Proof.
  exists {|
    hw := {| v_name := fun v => v; v_dtype_ok := fun _ => true; c_name := fun c => c;
             c_optim := fun c => [c]; c_aux := fun c => [S c]; c_weight := fun c => 0;
             w_optim := fun _ => []; w_aux := fun x => []; allow_mixed := true |};
    val := fun v => v + 10; cls := fun c => c; wcls := fun x => x; inner := fun c => None;
    nv := 3; nc := 2; nw := 1 |}, [Add 0; Add 1].
  split; [reflexivity|]. split; [reflexivity|]. split.
  { unfold fresh; simpl. split; [tauto|]. split; [intuition lia|exact I]. }
  split.
  { simpl. split; simpl.
    + intros c [<-|[<-|[]]]; simpl; lia.
    + intros c [<-|[<-|[]]]; simpl; lia.
    + intros c v [<-|[<-|[]]]; simpl; intuition lia.
    + intros c i [<-|[<-|[]]]; discriminate. }
  split.
  { unfold no_double_reference, references. simpl. intros pre c post _ i j v Hij.
    destruct i as [|[|i]], j as [|[|j]]; simpl; intros A B; try congruence;
      try (destruct i; discriminate); try (destruct j; discriminate).
    - injection A as <-. injection B as B. lia.
    - injection A as <-. injection B as B. lia. }
  match goal with |- exists _ _, ?r = _ =>
    assert (Hr : is_ret r = false) by (vm_compute; reflexivity);
    destruct r as [|e h']; [discriminate|exists e, h'; reflexivity] end.
Qed.
Print Assumptions C09_mixed_refuted.
