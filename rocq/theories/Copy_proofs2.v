(** Proofs about [Objective.copy]: the loops over the weights and the cost functions. *)
From Coq Require Import List Arith Lia Bool.
Import ListNotations.
From Verif Require Import Dict Obj_model Obj_spec Obj_proofs Copy_model Copy_spec Copy_proofs.

Section P.
Context {V : Type}.
Variable copy_name : name -> name.
Notation heap := (heap V).

Lemma is_copy_left (h h1 h' : heap) v v' :
  unchanged h h1 -> v < nv h -> is_copy h1 h' v v' -> is_copy h h' v v'.
Proof.
  intros U Hv (A & B & C). destruct (un_v _ _ U v Hv) as (D & E & F).
  split; [|split]; congruence.
Qed.
Lemma is_copy_right (h h1 h' : heap) v v' :
  unchanged h1 h' -> v' < nv h1 -> is_copy h h1 v v' -> is_copy h h' v v'.
Proof.
  intros U Hv (A & B & C). destruct (un_v _ _ U v' Hv) as (D & E & F).
  split; [|split]; congruence.
Qed.

Lemma wrel_left (h h1 h' : heap) x x' : unchanged h h1 -> x < nw h ->
  (forall v, In v (wslots h x) -> v < nv h) -> wrel h1 h' x x' -> wrel h h' x x'.
Proof.
  intros U Hx Hv [A B C]. destruct (un_w _ _ U x Hx) as (W1 & W2 & W3).
  split; [congruence| |].
  - rewrite W1 in B. eapply Forall2_impl; [|exact B]. intros a b Ha _ H.
    eapply is_copy_left; eauto. apply Hv, in_or_app; auto.
  - rewrite W2 in C. eapply Forall2_impl; [|exact C]. intros a b Ha _ H.
    eapply is_copy_left; eauto. apply Hv, in_or_app; auto.
Qed.
Lemma wrel_right (h h1 h' : heap) x x' : unchanged h1 h' -> x' < nw h1 ->
  (forall v, In v (wslots h1 x') -> v < nv h1) -> wrel h h1 x x' -> wrel h h' x x'.
Proof.
  intros U Hx Hv [A B C]. destruct (un_w _ _ U x' Hx) as (W1 & W2 & W3).
  split; [congruence| |].
  - rewrite W1. eapply Forall2_impl; [|exact B]. intros a b _ Hb H.
    eapply is_copy_right; eauto. apply Hv, in_or_app; auto.
  - rewrite W2. eapply Forall2_impl; [|exact C]. intros a b _ Hb H.
    eapply is_copy_right; eauto. apply Hv, in_or_app; auto.
Qed.

Lemma cfrel_left (h h1 h' : heap) c c' : unchanged h h1 -> wf1 h c -> cfrel h1 h' c c' -> cfrel h h' c c'.
Proof.
  intros U [Hc _ Hv _ Hi] [A B C D E]. destruct (un_c _ _ U c Hc) as (C1 & C2 & C3 & C4 & C5 & C6).
  split; [congruence|congruence| | |].
  - rewrite C2 in C. eapply Forall2_impl; [|exact C]. intros a b Ha _ H.
    eapply is_copy_left; eauto. apply Hv, in_or_app; auto.
  - rewrite C3 in D. eapply Forall2_impl; [|exact D]. intros a b Ha _ H.
    eapply is_copy_left; eauto. apply Hv, in_or_app; auto.
  - rewrite C6 in E. destruct (inner h c) as [i|] eqn:Ei; [|exact E].
    destruct (Hi i eq_refl) as (I1 & _). destruct (un_c _ _ U i I1) as (_ & _ & I3 & _ & I5 & _).
    destruct E as (i' & E1 & E2 & E3 & E4 & E5). exists i'. repeat split; congruence.
Qed.
Lemma cfrel_right (h h1 h' : heap) c c' : unchanged h1 h' ->
  (forall j, In j (ids h1 c') -> j < nc h1) ->
  (forall v, In v (cslots h1 c') -> v < nv h1) -> cfrel h h1 c c' -> cfrel h h' c c'.
Proof.
  intros U Hj Hv [A B C D E].
  destruct (un_c _ _ U c' (Hj c' (or_introl eq_refl))) as (C1 & C2 & C3 & C4 & C5 & C6).
  split; [congruence|congruence| | |].
  - rewrite C2. eapply Forall2_impl; [|exact C]. intros a b _ Hb H.
    eapply is_copy_right; eauto. apply Hv, in_or_app; auto.
  - rewrite C3. eapply Forall2_impl; [|exact D]. intros a b _ Hb H.
    eapply is_copy_right; eauto. apply Hv, in_or_app; auto.
  - destruct (inner h c) as [i|] eqn:Ei; [|congruence].
    destruct E as (i' & E1 & E2 & E3 & E4 & E5). exists i'.
    assert (Hi' : i' < nc h1) by (apply Hj; unfold ids; rewrite E1; simpl; auto).
    destruct (un_c _ _ U i' Hi') as (_ & _ & I3 & I4 & I5 & I6).
    repeat split; congruence.
Qed.

(** ---- the loop over the weights ---- *)
Lemma copy_weights_spec ws : forall (h : heap) m,
  NoDup ws -> (forall x, In x ws -> x < nw h) ->
  (forall x v, In x ws -> In v (wslots h x) -> v < nv h) ->
  exists h' m' xs', copy_weights copy_name h ws m = Ret h' m' /\ unchanged h h' /\
    (forall x, ~ In x ws -> lookup x m' = lookup x m) /\
    Forall2 (fun x x' => lookup x m' = Some x' /\ wrel h h' x x') ws xs' /\
    NoDup xs' /\ (forall x', In x' xs' -> nw h <= x' < nw h') /\
    NoDup (flat_map (wslots h') xs') /\
    (forall v, In v (flat_map (wslots h') xs') -> nv h <= v < nv h').
Proof.
  induction ws as [|x ws IH]; intros h m Hnd Hx Hv; cbn [copy_weights].
  - exists h, m, []. simpl. split; [reflexivity|]. split; [apply unchanged_refl|].
    split; [auto|]. split; [constructor|]. split; [constructor|]. split; [tauto|].
    split; [constructor|tauto].
  - inversion Hnd as [|? ? Hn Hnd']; subst.
    destruct (copy_weight_spec copy_name h x true) as (h1 & E1 & U1 & W1 & C1 & K1 & S1 & N1 & R1).
    { apply Hx; now left. }
    { intros v H. apply (Hv x v); [now left|exact H]. }
    cbv zeta in *. rewrite E1. cbn [rbind]. set (x0 := nw h) in *.
    destruct (IH h1 (set x x0 m)) as (h' & m' & xs' & E2 & U2 & L2 & F2 & ND2 & Rg2 & NDv2 & Rv2).
    { exact Hnd'. }
    { intros y Hy. specialize (Hx y (or_intror Hy)). lia. }
    { intros y v Hy Hin. destruct (un_w _ _ U1 y (Hx y (or_intror Hy))) as (A & B & _).
      unfold wslots in Hin. rewrite A, B in Hin. specialize (Hv y v (or_intror Hy) Hin). lia. }
    assert (Hsl : wslots h1 x0 = seq (nv h) (length (wslots h x))) by exact S1.
    assert (Hx0 : x0 < nw h1) by lia.
    assert (Hslr : forall v, In v (wslots h1 x0) -> nv h <= v < nv h1).
    { rewrite Hsl. intros v Hin. apply in_seq in Hin. unfold wslots in *. lia. }
    destruct (un_w _ _ U2 x0 Hx0) as (A & B & _).
    assert (Hsl' : wslots h' x0 = wslots h1 x0) by (unfold wslots; congruence).
    pose proof (un_size _ _ U1) as Z1. pose proof (un_size _ _ U2) as Z2.
    exists h', m', (x0 :: xs'). split; [exact E2|].
    split; [eapply unchanged_trans; eauto|].
    split.
    { intros y Hy. rewrite L2 by (intros H; apply Hy; now right).
      apply lookup_set_ne. intros ->. apply Hy; now left. }
    split.
    { constructor.
      - split; [rewrite L2 by exact Hn; apply lookup_set_eq|].
        eapply wrel_right; eauto. intros v Hin. apply Hslr in Hin. lia.
      - eapply Forall2_impl; [|exact F2]. intros y y' Hy _ [G1 G2]. split; [exact G1|].
        eapply wrel_left; eauto.
        + apply Hx; now right.
        + intros v Hin. apply (Hv y v); [now right|exact Hin]. }
    split.
    { constructor; [|exact ND2]. intros Hin. apply Rg2 in Hin. lia. }
    split.
    { intros x' [<-|Hin]; [unfold x0; lia|]. apply Rg2 in Hin. lia. }
    cbn [flat_map]. rewrite Hsl'. split.
    + apply NoDup_app_intro; [rewrite Hsl; apply seq_NoDup|exact NDv2|].
      intros v H1 H2. apply Hslr in H1. apply Rv2 in H2. lia.
    + intros v Hin. apply in_app_or in Hin as [Hin|Hin].
      * apply Hslr in Hin. lia.
      * apply Rv2 in Hin. lia.
Qed.

(** ---- the loop over the cost functions ---- *)
Lemma set_weight_spec (h h1 : heap) c' x' : unchanged h h1 ->
  (forall j, In j (ids h1 c') -> nc h <= j < nc h1) -> NoDup (ids h1 c') ->
  let h2 := set_weight h1 c' x' in
  unchanged h h2 /\ nv h2 = nv h1 /\ nc h2 = nc h1 /\ nw h2 = nw h1 /\
  c_weight (hw h2) c' = x' /\
  (forall c, cfrel h h1 c c' -> cfrel h h2 c c') /\ (mirrored h1 c' -> mirrored h2 c') /\
  (forall c, cslots h2 c = cslots h1 c) /\ (forall c, ids h2 c = ids h1 c).
Proof.
  intros U Hj ND. unfold set_weight, ids in *.
  destruct (inner h1 c') as [i|] eqn:Ei; cbv zeta.
  - assert (Hi : i <> c').
    { inversion ND as [|? ? Hn _]; subst. intros ->. apply Hn; simpl; auto. }
    pose proof (Hj c' (or_introl eq_refl)) as R1.
    pose proof (Hj i (or_intror (or_introl eq_refl))) as R2.
    split; [|split; [reflexivity|split; [reflexivity|split; [reflexivity|]]]].
    { destruct U as [A B C D]. split; simpl; auto.
      intros c Hc. destruct (B c Hc) as (?&?&?&?&?&?). rewrite !upd_ne by lia. auto 10. }
    split; [simpl; apply upd_eq|]. split.
    { intros c [A B C D E]. split; auto. simpl.
      destruct (inner h c) as [j|]; [|exact E]. destruct E as (i' & E1 & E2 & E3 & E4 & E5).
      rewrite Ei in E1. injection E1 as <-. exists i.
      rewrite upd_eq, (upd_ne _ c') by exact Hi. rewrite upd_eq. auto 10. }
    split; [|split; intros; reflexivity]. intros M. exact M.
  - pose proof (Hj c' (or_introl eq_refl)) as R1.
    split; [|split; [reflexivity|split; [reflexivity|split; [reflexivity|]]]].
    { destruct U as [A B C D]. split; simpl; auto.
      intros c Hc. destruct (B c Hc) as (?&?&?&?&?&?). rewrite !upd_ne by lia. auto 10. }
    split; [simpl; apply upd_eq|]. split.
    { intros c [A B C D E]. split; auto. simpl.
      destruct (inner h c) as [j|]; [|exact E]. destruct E as (i' & E1 & _). congruence. }
    split; [|split; intros; reflexivity]. intros M. exact M.
Qed.

Lemma copy_cfs_spec m cs : forall (h : heap),
  (forall c, In c cs -> wf1 h c) -> (forall c, In c cs -> lookup (c_weight (hw h) c) m <> None) ->
  exists h' cs', copy_cfs copy_name h m cs = Ret h' cs' /\ unchanged h h' /\
    Forall2 (fun c c' => cfrel h h' c c' /\ mirrored h' c' /\
                         lookup (c_weight (hw h) c) m = Some (c_weight (hw h') c')) cs cs' /\
    NoDup (flat_map (ids h') cs') /\
    (forall j, In j (flat_map (ids h') cs') -> nc h <= j < nc h') /\
    NoDup (flat_map (cslots h') cs') /\
    (forall v, In v (flat_map (cslots h') cs') -> nv h <= v < nv h').
Proof.
  induction cs as [|c cs IH]; intros h Hwf Hm; cbn [copy_cfs].
  - exists h, []. simpl. split; [reflexivity|]. split; [apply unchanged_refl|].
    repeat split; try constructor; tauto.
  - pose proof (Hwf c (or_introl eq_refl)) as Hc.
    destruct (copy_cf_spec copy_name h c Hc) as (h1 & c' & E1 & U1 & R1 & M1 & NS1 & RS1 & NI1 & RI1).
    rewrite E1. cbn [rbind].
    destruct (un_c _ _ U1 c (f_c _ _ Hc)) as (_ & _ & _ & Ew & _). rewrite Ew.
    destruct (lookup (c_weight (hw h) c) m) as [x'|] eqn:El; [|exfalso; apply (Hm c); simpl; auto].
    destruct (set_weight_spec h h1 c' x' U1 RI1 NI1) as (U2 & N2 & C2 & W2 & Ex & R2 & M2 & CS2 & ID2).
    set (h2 := set_weight h1 c' x') in *.
    destruct (IH h2) as (h' & cs' & E3 & U3 & F3 & NI3 & RI3 & NS3 & RS3).
    { intros d Hd. eapply wf1_unchanged; [exact U2|]. apply Hwf; now right. }
    { intros d Hd. destruct (un_c _ _ U2 d) as (_ & _ & _ & E & _).
      - apply f_c, Hwf; now right.
      - rewrite E. apply Hm; now right. }
    rewrite E3. cbn [rbind].
    assert (Hids : forall j, In j (ids h2 c') -> nc h <= j < nc h2).
    { rewrite ID2, C2. exact RI1. }
    assert (Hsl : forall v, In v (cslots h2 c') -> nv h <= v < nv h2).
    { rewrite CS2, N2. exact RS1. }
    assert (Hc' : c' < nc h2) by (apply (Hids c'); unfold ids; simpl; auto).
    destruct (un_c _ _ U3 c' Hc') as (G1 & G2 & G3 & G4 & G5 & G6).
    assert (Hids' : ids h' c' = ids h2 c') by (unfold ids; rewrite G6; reflexivity).
    assert (Hsl' : cslots h' c' = cslots h2 c') by (unfold cslots; congruence).
    pose proof (un_size _ _ U2) as Z2. pose proof (un_size _ _ U3) as Z3.
    exists h', (c' :: cs'). split; [reflexivity|]. split; [eapply unchanged_trans; eauto|].
    split.
    { constructor.
      - split; [|split].
        + eapply cfrel_right; [exact U3| | |apply R2, R1].
          * intros j Hj. apply Hids in Hj. lia.
          * intros v Hin. apply Hsl in Hin. lia.
        + intros i' Hi'. rewrite G6 in Hi'. destruct (M2 M1 i' Hi') as [A B].
          assert (Hi2 : i' < nc h2) by (apply (Hids i'); unfold ids; rewrite Hi'; simpl; auto).
          destruct (un_c _ _ U3 i' Hi2) as (_ & K2 & K3 & _).
          rewrite K2, K3, G2, G3. auto.
        + rewrite G4, Ex. exact El.
      - eapply Forall2_impl; [|exact F3]. intros d d' Hd _ (A & B & C). split; [|split].
        + eapply cfrel_left; eauto. apply Hwf; now right.
        + exact B.
        + destruct (un_c _ _ U2 d) as (_ & _ & _ & E & _).
          * apply f_c, Hwf; now right.
          * rewrite E in C. exact C. }
    cbn [flat_map]. rewrite Hids', Hsl'. split; [|split; [|split]].
    + apply NoDup_app_intro; [rewrite ID2; exact NI1|exact NI3|].
      intros j A B. apply Hids in A. apply RI3 in B. lia.
    + intros j Hin. apply in_app_or in Hin as [Hin|Hin].
      * apply Hids in Hin. lia.
      * apply RI3 in Hin. lia.
    + apply NoDup_app_intro; [rewrite CS2; exact NS1|exact NS3|].
      intros v A B. apply Hsl in A. apply RS3 in B. lia.
    + intros v Hin. apply in_app_or in Hin as [Hin|Hin].
      * apply Hsl in Hin. lia.
      * apply RS3 in Hin. lia.
Qed.
End P.
