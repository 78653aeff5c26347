(** Proofs about [Objective.copy]: the whole of the last loop, and the result. *)
From Coq Require Import List Arith Lia Bool.
Import ListNotations.
From Verif Require Import Dict Obj_model Obj_spec Obj_proofs Copy_model Copy_spec
  Copy_proofs Copy_proofs2 Copy_proofs3.

Section A.
Context {V : Type}.
Notation heap := (heap V).
Variables (h0 h2 : heap) (cs cs' : list cid) (m : dict wid) (xs' : list wid).
Let w0 := hw h0.
Let ic := is_copy h0 h2.

Hypothesis HC : consistent w0 cs.
Hypothesis HU : unchanged h0 h2.
Hypothesis HF : Forall2 (fun c c' => cfrel h0 h2 c c' /\ mirrored h2 c' /\
                  lookup (c_weight w0 c) m = Some (c_weight (hw h2) c')) cs cs'.
Hypothesis HNI : NoDup (flat_map (ids h2) cs').
Hypothesis HRI : forall j, In j (flat_map (ids h2) cs') -> nc h0 <= j < nc h2.
Hypothesis HW : forall c, In c cs -> exists x', lookup (c_weight w0 c) m = Some x' /\
                  wrel h0 h2 (c_weight w0 c) x' /\ nw h0 <= x' < nw h2 /\ In x' xs'.
Hypothesis Hinj : forall x y z, lookup x m = Some z -> lookup y m = Some z -> x = y.
Hypothesis HNS : NoDup (flat_map (cslots h2) cs' ++ flat_map (wslots h2) xs').
Hypothesis HRS : forall v, In v (flat_map (cslots h2) cs' ++ flat_map (wslots h2) xs') -> nv h0 <= v < nv h2.

(** the last loop only assigns the registered variables of copies *)
Record samev (h : heap) : Prop := {
  sv_n : v_name (hw h) = v_name (hw h2);
  sv_d : v_dtype_ok (hw h) = v_dtype_ok (hw h2);
  sv_v : val h = val h2;
  sv_cn : c_name (hw h) = c_name (hw h2);
  sv_cw : c_weight (hw h) = c_weight (hw h2);
  sv_cl : cls h = cls h2;
  sv_wl : wcls h = wcls h2;
  sv_in : inner h = inner h2;
  sv_nv : nv h = nv h2;
  sv_nc : nc h = nc h2;
  sv_nw : nw h = nw h2
}.

Record PInv (h : heap) (s : state) (don don' rest rest' : list cid) : Prop := {
  q_cs : cs = don ++ rest;
  q_cs' : cs' = don' ++ rest';
  q_len : length don = length don';
  q_same : samev h;
  q_U : unchanged h0 h;
  q_don : Forall2 (pair_ok w0 ic (unmixed (hw h))) don don';
  q_rest : forall c', In c' rest' -> c_optim (hw h) c' = c_optim (hw h2) c' /\
                                     c_aux (hw h) c' = c_aux (hw h2) c';
  q_inner : forall c' i', In c' cs' -> inner h2 c' = Some i' ->
     c_optim (hw h) i' = c_optim (hw h2) i' /\ c_aux (hw h) i' = c_aux (hw h2) i';
  q_pend : forall x', In x' xs' -> (forall d', In d' don' -> c_weight (hw h2) d' <> x') ->
     w_optim (hw h) x' = w_optim (hw h2) x' /\ w_aux (hw h) x' = w_aux (hw h2) x';
  q_used : forall v, used (hw h) don' v -> In v (flat_map (cslots h2) don') \/
     exists d', In d' don' /\ In v (wslots h2 (c_weight (hw h2) d'));
  q_inv : Inv (unmixed (hw h)) s don';
  q_fresh : forall k c c' n, nth_error don k = Some c -> nth_error don' k = Some c' ->
     (forall v, In v (c_optim w0 c ++ firstn n (c_aux w0 c)) -> ~ used w0 (firstn k don) v) ->
     c_optim (hw h) c' = c_optim (hw h2) c' /\
     firstn n (c_aux (hw h) c') = firstn n (c_aux (hw h2) c')
}.

Lemma PInv_start : PInv h2 init [] [] cs cs'.
Proof.
  split; auto; try apply Inv_init; try (split; reflexivity).
  intros v [(d & [] & _)|(d & [] & _)].
Qed.

Lemma NoDup_cs' : NoDup cs'.
Proof.
  clear -HNI. induction cs' as [|c l IH]; [constructor|]. simpl in HNI.
  inversion HNI as [|? ? Hn ND]; subst. constructor.
  - intros Hin. apply Hn. apply in_or_app. right. apply in_flat_map. exists c.
    split; [exact Hin|]. unfold ids; simpl; auto.
  - apply IH. apply NoDup_app_inv in ND. apply ND.
Qed.

Lemma cs'_range c' : In c' cs' -> nc h0 <= c' < nc h2.
Proof. intros H. apply HRI. apply in_flat_map. exists c'. split; [exact H|]. unfold ids; simpl; auto. Qed.

Lemma inner_not_cs' c' i' : In c' cs' -> inner h2 c' = Some i' -> ~ In i' cs'.
Proof.
  intros Hc Hi Hin.
  assert (E : c' = i').
  { apply (NoDup_flat_map (ids h2) cs' c' i' i'); auto; unfold ids; rewrite ?Hi; simpl; auto. }
  subst i'. pose proof (NoDup_flat_map_elt _ _ _ HNI Hc) as ND. unfold ids in ND. rewrite Hi in ND.
  inversion ND as [|? ? Hn _]; subst. apply Hn; simpl; auto.
Qed.

(** [unify] in terms of the lists it assigns *)
Lemma unify_samev h s c' : samev h -> samev (unify h s c').
Proof. intros []. split; assumption. Qed.

Lemma step h s don don' c rest c' rest' :
  PInv h s don don' (c :: rest) (c' :: rest') ->
  let h1 := unify h s c' in
  (consistent (unmixed (hw h1)) (don' ++ [c']) <->
   (forall i j v, i <> j -> nth_error (references w0 c) i = Some v ->
                  nth_error (references w0 c) j = Some v -> used w0 don v)) /\
  (forall s1, Inv (unmixed (hw h1)) s1 (don' ++ [c']) ->
     PInv h1 s1 (don ++ [c]) (don' ++ [c']) rest rest') /\
  Inv (unmixed (hw h1)) s don' /\ ~ In c' don'.
Proof.
  intros [Ecs Ecs' Elen SV U Hdon Hrest Hinn Hpend Hused HI Hfr] h1.
  assert (Hc' : In c' cs') by (rewrite Ecs'; apply in_or_app; simpl; auto).
  assert (Hc : In c cs) by (rewrite Ecs; apply in_or_app; simpl; auto).
  pose proof NoDup_cs' as ND'.
  assert (Hnin : ~ In c' don').
  { rewrite Ecs' in ND'. apply NoDup_remove_2 in ND'. intros H. apply ND', in_or_app; auto. }
  assert (HP : cfrel h0 h2 c c' /\ mirrored h2 c' /\
               lookup (c_weight w0 c) m = Some (c_weight (hw h2) c')).
  { clear -HF Ecs Ecs' Elen. subst cs cs'. revert don' Elen HF.
    induction don as [|a don IH]; intros [|a' don'] E F; simpl in *; try discriminate.
    - inversion F; subst; assumption.
    - inversion F; subst. apply (IH don'); auto. }
  destruct HP as ([Rn Rc Ro Ra Ri] & Mir & Hlk).
  destruct (Hrest c' (or_introl eq_refl)) as [Eo Ea].
  set (x' := c_weight (hw h2) c') in *.
  destruct (HW c Hc) as (x1 & Hx1 & [WK WO WA] & Hxr & Hxin).
  assert (x1 = x') by congruence. subst x1.
  set (w1 := unmixed (hw h)). set (w2 := unmixed (hw h1)).
  assert (Ex' : c_weight (hw h) c' = x') by (rewrite (sv_cw _ SV); reflexivity).
  assert (WO0 : w_optim (hw h2) x' = []).
  { assert (E : w_optim (hw h0) (c_weight w0 c) = []) by exact (con_weights _ _ HC c Hc). rewrite E in WO. inversion WO. reflexivity. }
  (* weights of earlier cost functions *)
  assert (Hdec : (exists d', In d' don' /\ c_weight (hw h2) d' = x') \/
                 (forall d', In d' don' -> c_weight (hw h2) d' <> x')).
  { destruct (in_dec Nat.eq_dec x' (map (c_weight (hw h2)) don')) as [Hin|Hin].
    - left. apply in_map_iff in Hin as (d' & E & Hd). eauto.
    - right. intros d' Hd E. apply Hin. apply in_map_iff. eauto. }
  assert (Hpair : forall d', In d' don' -> exists d, In d don /\ pair_ok w0 ic w1 d d' /\
            lookup (c_weight w0 d) m = Some (c_weight (hw h2) d')).
  { intros d' Hd'. clear -Hd' Hdon HF Ecs Ecs' Elen. subst cs cs'. revert don' Elen HF Hdon Hd'.
    induction don as [|a don IH]; intros [|a' don'] E F G Hin; simpl in *; try discriminate; [contradiction|].
    inversion F; subst. inversion G; subst. destruct Hin as [->|Hin].
    - exists a. split; [auto|]. split; [assumption|]. tauto.
    - destruct (IH don') as (d & A & B); auto. exists d. auto. }
  assert (Hwo1 : w_optim w1 (c_weight w1 c') = []).
  { change (w_optim (hw h) (c_weight (hw h) c') = []). rewrite Ex'.
    destruct Hdec as [(d' & Hd & E)|Hno].
    - destruct (Hpair d' Hd) as (d & _ & (_ & _ & _ & P & _) & _).
      change (w_optim (hw h) (c_weight (hw h) d') = []) in P.
      rewrite (sv_cw _ SV), E in P. exact P.
    - destruct (Hpend x' Hxin Hno) as [-> _]. exact WO0. }
  assert (Hwt : (exists d d', In d don /\ In d' don' /\ c_weight w0 d = c_weight w0 c /\
                    c_weight w1 d' = c_weight w1 c' /\
                    Forall2 ic (w_aux w0 (c_weight w0 c)) (w_aux w1 (c_weight w1 c'))) \/
                 ((forall d', In d' don' -> c_weight w1 d' <> c_weight w1 c') /\
                  w_aux w1 (c_weight w1 c') = w_aux (hw h2) x')).
  { change (c_weight w1) with (c_weight (hw h)). change (w_aux w1) with (w_aux (hw h)).
    rewrite Ex'. destruct Hdec as [(d' & Hd & E)|Hno].
    - left. destruct (Hpair d' Hd) as (d & Hd0 & (_ & _ & _ & _ & P) & L). exists d, d'.
      assert (E0 : c_weight w0 d = c_weight w0 c) by (eapply Hinj; [exact L|]; congruence).
      split; [exact Hd0|]. split; [exact Hd|]. split; [exact E0|].
      split; [rewrite (sv_cw _ SV); exact E|].
      change (Forall2 ic (w_aux w0 (c_weight w0 d)) (w_aux (hw h) (c_weight (hw h) d'))) in P.
      rewrite E0, (sv_cw _ SV), E in P. exact P.
    - right. split; [rewrite (sv_cw _ SV); exact Hno|]. now destruct (Hpend x' Hxin Hno). }
  assert (Hic : forall v v', ic v v' -> v_name w1 v' = v_name w0 v /\ v_dtype_ok w1 v' = v_dtype_ok w0 v).
  { intros v v' (A & B & C). change (v_name w1) with (v_name (hw h)).
    change (v_dtype_ok w1) with (v_dtype_ok (hw h)). rewrite (sv_n _ SV), (sv_d _ SV). auto. }
  set (lo := c_optim (hw h2) c') in *. set (la := c_aux (hw h2) c') in *.
  set (lw := w_aux (hw h2) x') in *.
  destruct (NoDup_app_inv _ _ HNS) as (NS1 & NS2 & NS3).
  assert (Hwsl : wslots h2 x' = lw) by (unfold wslots; rewrite WO0; reflexivity).
  assert (Hfresh : NoDup (lo ++ la ++ lw)).
  { rewrite app_assoc. apply NoDup_app_intro.
    - exact (NoDup_flat_map_elt _ _ _ NS1 Hc').
    - rewrite <- Hwsl. exact (NoDup_flat_map_elt _ _ _ NS2 Hxin).
    - intros v A B. apply (NS3 v); apply in_flat_map; [exists c'|exists x']; auto.
      rewrite Hwsl. auto. }
  assert (H2o : c_optim w2 = upd (c_optim w1) c' (redirect w1 (optim_vars s) lo)).
  { rewrite <- Eo. reflexivity. }
  assert (H2a : c_aux w2 = upd (c_aux w1) c' (redirect w1 (aux_vars s) la)).
  { rewrite <- Ea. reflexivity. }
  assert (H2wo : forall y, w_optim w1 y = [] -> w_optim w2 y = []).
  { intros y Hy. change (upd (w_optim (hw h)) (c_weight (hw h) c')
      (redirect (hw h) (cw_optim_vars s) (w_optim (hw h) (c_weight (hw h) c'))) y = []).
    unfold upd. destruct (y =? _) eqn:E; [|exact Hy]. change (w_optim (hw h)) with (w_optim w1).
    change (c_weight (hw h)) with (c_weight w1). rewrite Hwo1. reflexivity. }
  assert (H2wa : w_aux w2 = upd (w_aux w1) (c_weight w1 c')
                    (redirect w1 (aux_vars s) (w_aux w1 (c_weight w1 c')))) by reflexivity.
  assert (Hvn : forall v, v_name w2 v = v_name w1 v) by reflexivity.
  assert (Hvd : forall v, v_dtype_ok w2 v = v_dtype_ok w1 v) by reflexivity.
  assert (H2n : forall v, c_name w2 v = c_name w1 v) by reflexivity.
  assert (H2w : forall v, c_weight w2 v = c_weight w1 v) by reflexivity.
  assert (Hname : c_name w1 c' = c_name w0 c).
  { change (c_name (hw h) c' = c_name (hw h0) c). rewrite <- Rn. now rewrite (sv_cn _ SV). }
  assert (Hag : agree w1 w2 don')
    by (eapply (step_agree w0 w1 w2 ic don don' c' s lo la); eauto).
  split; [split|split].
  - intros H. eapply (step_no_double w0 w1 w2 ic cs don don' c c' rest s lo la lw); eauto.
  - intros H. eapply (step_consistent w0 w1 w2 ic cs don don' c c' rest s lo la lw); eauto.
  - intros s1 HI1.
    assert (Hi' : forall c2' i', In c2' cs' -> inner h2 c2' = Some i' -> i' <> c').
    { intros c2' i' A B ->. exact (inner_not_cs' _ _ A B Hc'). }
    split.
    + rewrite <- app_assoc. exact Ecs.
    + rewrite <- app_assoc. exact Ecs'.
    + rewrite !app_length. simpl. lia.
    + now apply unify_samev.
    + destruct U as [A B C D]. pose proof (cs'_range c' Hc') as Rg.
      split; [exact A| | |exact D].
      * intros d Hd. destruct (B d Hd) as (B1 & B2 & B3 & B4 & B5 & B6).
        change (c_optim (hw h1)) with (c_optim w2). change (c_aux (hw h1)) with (c_aux w2).
        rewrite H2o, H2a, !upd_ne by lia. auto 10.
      * intros y Hy. destruct (C y Hy) as (C1 & C2 & C3).
        change (w_aux (hw h1)) with (w_aux w2). rewrite H2wa.
        change (c_weight w1 c') with (c_weight (hw h) c'). rewrite Ex'.
        change (w_optim (hw h1) y) with (upd (w_optim (hw h)) (c_weight (hw h) c')
          (redirect (hw h) (cw_optim_vars s) (w_optim (hw h) (c_weight (hw h) c'))) y).
        rewrite Ex', !upd_ne by lia. auto.
    + eapply (step_pairs w0 w1 w2 ic cs don don' c c' rest s lo la lw); eauto.
    + intros d' Hd'. assert (d' <> c').
      { intros ->. rewrite Ecs' in ND'. apply NoDup_remove_2 in ND'. apply ND', in_or_app; auto. }
      change (c_optim (hw h1)) with (c_optim w2). change (c_aux (hw h1)) with (c_aux w2).
      rewrite H2o, H2a, !upd_ne by assumption. apply Hrest. now right.
    + intros d' i' Hd' Hii. pose proof (Hi' _ _ Hd' Hii) as Hne.
      change (c_optim (hw h1)) with (c_optim w2). change (c_aux (hw h1)) with (c_aux w2).
      rewrite H2o, H2a, !upd_ne by assumption. eapply Hinn; eauto.
    + intros y Hy Hno. assert (Hne : y <> x').
      { intros ->. apply (Hno c'); [apply in_or_app; simpl; auto|reflexivity]. }
      change (w_aux (hw h1)) with (w_aux w2). rewrite H2wa.
      change (c_weight w1 c') with (c_weight (hw h) c'). rewrite Ex'.
      change (w_optim (hw h1) y) with (upd (w_optim (hw h)) (c_weight (hw h) c')
          (redirect (hw h) (cw_optim_vars s) (w_optim (hw h) (c_weight (hw h) c'))) y).
      rewrite Ex', !upd_ne by assumption. apply Hpend; auto.
      intros d' Hd'. apply Hno. apply in_or_app; auto.
    + intros v Hv. rewrite flat_map_app. simpl.
      destruct (step_used w0 w1 w2 ic cs don don' c c' rest s lo la lw) with (r := v)
        as [A|[A|[A _]]]; eauto.
      * destruct (Hused v A) as [B|(d' & B & C)].
        -- left. apply in_or_app; auto.
        -- right. exists d'. split; [apply in_or_app; auto|exact C].
      * left. apply in_or_app. right. rewrite app_nil_r. exact A.
      * right. exists c'. split; [apply in_or_app; simpl; auto|]. fold x'. rewrite Hwsl. exact A.
    + exact HI1.
    + intros k d d' n Ek Ek' Hun.
      destruct (Nat.lt_ge_cases k (length don)) as [Hk|Hk].
      * rewrite nth_error_app1 in Ek by exact Hk. rewrite nth_error_app1 in Ek' by lia.
        assert (d' <> c') by (intros ->; apply Hnin; eapply nth_error_In; eauto).
        change (c_optim (hw h1)) with (c_optim w2). change (c_aux (hw h1)) with (c_aux w2).
        rewrite H2o, H2a, !upd_ne by assumption. eapply Hfr; eauto.
        rewrite firstn_app in Hun. replace (k - length don) with 0 in Hun by lia.
        simpl in Hun. rewrite app_nil_r in Hun. exact Hun.
      * rewrite nth_error_app2 in Ek by exact Hk. rewrite nth_error_app2 in Ek' by lia.
        rewrite <- Elen in Ek'. destruct (k - length don) as [|j] eqn:Ej.
        2:{ destruct j; discriminate. }
        simpl in Ek, Ek'. injection Ek as <-. injection Ek' as <-.
        assert (k = length don) by lia. subst k.
        rewrite firstn_app, firstn_all, Nat.sub_diag in Hun. simpl in Hun. rewrite app_nil_r in Hun.
        eapply (step_fresh w0 w1 w2 ic cs don don' c c' rest s lo la); eauto.
  - split; [|exact Hnin]. eapply Inv_agree; eauto.
Qed.

Lemma attach_spec : forall rest rest' h s don don',
  PInv h s don don' rest rest' ->
  ((forall pre c post, cs = pre ++ c :: post -> length don <= length pre ->
     forall i j v, i <> j -> nth_error (references w0 c) i = Some v ->
                   nth_error (references w0 c) j = Some v -> used w0 pre v) ->
   exists h' s', attach h s rest' = Ret h' s' /\ PInv h' s' cs cs' [] []) /\
  (forall h' s', attach h s rest' = Ret h' s' ->
   PInv h' s' cs cs' [] [] /\
   (forall pre c post, cs = pre ++ c :: post -> length don <= length pre ->
     forall i j v, i <> j -> nth_error (references w0 c) i = Some v ->
                   nth_error (references w0 c) j = Some v -> used w0 pre v)).
Proof.
  induction rest as [|c rest IH]; intros rest' h s don don' HP.
  - assert (rest' = []).
    { pose proof (Forall2_length _ _ _ HF) as E.
      rewrite (q_cs _ _ _ _ _ _ HP), (q_cs' _ _ _ _ _ _ HP), !app_length in E.
      pose proof (q_len _ _ _ _ _ _ HP). destruct rest'; [reflexivity|]. simpl in E. lia. }
    subst rest'.
    assert (don = cs) by (rewrite (q_cs _ _ _ _ _ _ HP), app_nil_r; reflexivity).
    assert (don' = cs') by (rewrite (q_cs' _ _ _ _ _ _ HP), app_nil_r; reflexivity).
    subst don don'. simpl. split.
    + intros _. exists h, s. auto.
    + intros h' s' E. injection E as <- <-. split; [exact HP|].
      intros pre c post E Hle. exfalso. apply (f_equal (@length _)) in E.
      rewrite app_length in E. simpl in E. lia.
  - destruct rest' as [|c' rest'].
    { exfalso. pose proof (Forall2_length _ _ _ HF) as E.
      rewrite (q_cs _ _ _ _ _ _ HP), (q_cs' _ _ _ _ _ _ HP), !app_length in E.
      pose proof (q_len _ _ _ _ _ _ HP). simpl in E. lia. }
    pose proof (step _ _ _ _ _ _ _ _ HP) as S. cbv zeta in S.
    destruct S as (S1 & S2 & S3 & S4).
    cbn [attach]. set (h1 := unify h s c') in *.
    assert (Hthis : forall pre c0 post, cs = pre ++ c0 :: post -> length pre = length don ->
              pre = don /\ c0 = c).
    { intros pre c0 post E El. rewrite (q_cs _ _ _ _ _ _ HP) in E.
      apply app_eq_app in E. destruct E as (l & [[E1 E2]|[E1 E2]]).
      - assert (l = []) by (apply (f_equal (@length _)) in E1; rewrite app_length in E1;
          destruct l; [reflexivity|simpl in E1; lia]). subst l.
        rewrite app_nil_r in E1. simpl in E2. injection E2 as <- _. auto.
      - assert (l = []) by (apply (f_equal (@length _)) in E1; rewrite app_length in E1;
          destruct l; [reflexivity|simpl in E1; lia]). subst l.
        rewrite app_nil_r in E1. simpl in E2. injection E2 as <- _. auto. }
    split.
    + intros HD.
      assert (HCon : consistent (unmixed (hw h1)) (don' ++ [c'])).
      { apply S1. intros i j v Hij A B. eapply (HD don c rest); eauto. apply (q_cs _ _ _ _ _ _ HP). }
      destruct (add_fresh_ok (unmixed (hw h1)) eq_refl s don' c' S3 S4 HCon) as (s1 & E & HI1 & _).
      rewrite E. apply (IH rest' h1 s1 (don ++ [c]) (don' ++ [c'])).
      * now apply S2.
      * intros pre c0 post E0 Hle. apply (HD pre c0 post E0). rewrite app_length in Hle. lia.
    + intros h' s' E.
      destruct (add (unmixed (hw h1)) c' s) as [s1|] eqn:Ea; [|discriminate].
      assert (HCon : consistent (unmixed (hw h1)) (don' ++ [c'])).
      { eapply add_fresh_ok_inv; eauto. now rewrite Ea. }
      destruct (add_fresh_ok (unmixed (hw h1)) eq_refl s don' c' S3 S4 HCon) as (s1' & E' & HI1 & _).
      rewrite Ea in E'. injection E' as <-.
      destruct (IH rest' h1 s1 (don ++ [c]) (don' ++ [c']) (S2 s1 HI1)) as [_ IH2].
      destruct (IH2 h' s' E) as [HP' HD]. split; [exact HP'|].
      intros pre c0 post E0 Hle. rewrite app_length in HD. simpl in HD.
      destruct (Nat.eq_dec (length pre) (length don)) as [El|El].
      * destruct (Hthis pre c0 post E0 El) as [-> ->]. apply (proj1 S1 HCon).
      * apply (HD pre c0 post E0). lia.
Qed.
End A.
