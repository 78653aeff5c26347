(** Proofs about [Objective.copy]: copying variables, weights and cost functions. *)
From Coq Require Import List Arith Lia Bool.
Import ListNotations.
From Verif Require Import Dict Obj_model Obj_spec Obj_proofs Copy_model Copy_spec.

Section P.
Context {V : Type}.
Variable copy_name : name -> name.
Notation heap := (heap V).

Lemma upd_eq {A} (f : nat -> A) k x : upd f k x k = x.
Proof. unfold upd. now rewrite Nat.eqb_refl. Qed.
Lemma upd_ne {A} (f : nat -> A) k x y : y <> k -> upd f k x y = f y.
Proof. intros H. unfold upd. apply Nat.eqb_neq in H. now rewrite H. Qed.

Lemma Forall2_impl {A B} (R S : A -> B -> Prop) l l' :
  (forall a b, In a l -> In b l' -> R a b -> S a b) -> Forall2 R l l' -> Forall2 S l l'.
Proof.
  intros H F. induction F; constructor; simpl in *; auto.
Qed.

Lemma Forall2_length {A B} (R : A -> B -> Prop) l l' : Forall2 R l l' -> length l = length l'.
Proof. intros F. induction F; simpl; congruence. Qed.

Lemma NoDup_app_inv {A} (l l' : list A) : NoDup (l ++ l') ->
  NoDup l /\ NoDup l' /\ forall v, In v l -> In v l' -> False.
Proof.
  induction l as [|a l IH]; simpl; intros H.
  - split; [constructor|]. split; [exact H|]. auto.
  - inversion H as [|? ? Hn H']; subst. destruct (IH H') as (A1 & A2 & A3).
    split; [constructor; auto; intros Hin; apply Hn, in_or_app; auto|].
    split; [exact A2|]. intros v [->|Hv] Hv'; [apply Hn, in_or_app; auto|eauto].
Qed.

Lemma NoDup_app_intro {A} (l l' : list A) : NoDup l -> NoDup l' ->
  (forall v, In v l -> In v l' -> False) -> NoDup (l ++ l').
Proof.
  induction l as [|a l IH]; simpl; intros H H' D; [exact H'|].
  inversion H as [|? ? Hn Hl]; subst. constructor.
  - intros Hin. apply in_app_or in Hin as [Hin|Hin]; [auto|eapply D; eauto].
  - apply IH; auto. intros v Hv Hv'. eapply D; eauto.
Qed.

Lemma unchanged_refl (h : heap) : unchanged h h.
Proof. split; intros; repeat split; auto. Qed.

Lemma unchanged_trans (a b c : heap) : unchanged a b -> unchanged b c -> unchanged a c.
Proof.
  intros [A1 A2 A3 A4] [B1 B2 B3 B4]. split; [intros v Hv|intros x Hx|intros x Hx|lia].
  - destruct (A1 v Hv) as (->&H1&H2) || destruct (A1 v Hv) as (H0&H1&H2).
    destruct (B1 v ltac:(lia)) as (G0&G1&G2). repeat split; congruence.
  - destruct (A2 x Hx) as (?&?&?&?&?&?). destruct (B2 x ltac:(lia)) as (?&?&?&?&?&?).
    repeat split; congruence.
  - destruct (A3 x Hx) as (?&?&?). destruct (B3 x ltac:(lia)) as (?&?&?). repeat split; congruence.
Qed.

(** everything but the variables is the same *)
Record sameo (h h' : heap) : Prop := {
  so_cn : c_name (hw h') = c_name (hw h);
  so_co : c_optim (hw h') = c_optim (hw h);
  so_ca : c_aux (hw h') = c_aux (hw h);
  so_cw : c_weight (hw h') = c_weight (hw h);
  so_wo : w_optim (hw h') = w_optim (hw h);
  so_wa : w_aux (hw h') = w_aux (hw h);
  so_cls : cls h' = cls h;
  so_wcls : wcls h' = wcls h;
  so_in : inner h' = inner h;
  so_nc : nc h' = nc h;
  so_nw : nw h' = nw h
}.
Lemma sameo_refl h : sameo h h.
Proof. split; reflexivity. Qed.
Lemma sameo_trans a b c : sameo a b -> sameo b c -> sameo a c.
Proof. intros [] []. split; congruence. Qed.

Definition same_data (h h' : heap) (v v' : vid) : Prop :=
  v_dtype_ok (hw h') v' = v_dtype_ok (hw h) v /\ val h' v' = val h v.
Definition is_copy (h h' : heap) (v v' : vid) : Prop :=
  v_name (hw h') v' = v_name (hw h) v /\ same_data h h' v v'.

Lemma copy_var_spec h v h' v' : copy_var copy_name h v = (h', v') ->
  v' = nv h /\ sameo h h' /\ nv h' = S (nv h) /\
  (forall u, u < nv h -> v_name (hw h') u = v_name (hw h) u /\
     v_dtype_ok (hw h') u = v_dtype_ok (hw h) u /\ val h' u = val h u) /\
  v_dtype_ok (hw h') (nv h) = v_dtype_ok (hw h) v /\ val h' (nv h) = val h v.
Proof.
  intros E. injection E as <- <-. simpl. split; [reflexivity|]. split; [split; reflexivity|].
  split; [reflexivity|]. split; [|split; apply upd_eq].
  intros u Hu. rewrite !upd_ne by lia. auto.
Qed.

Lemma copy_vars_spec (l : list vid) : forall (h h' : heap) (l' : list vid),
  (forall v, In v l -> v < nv h) -> copy_vars copy_name h l = (h', l') ->
  l' = seq (nv h) (length l) /\ nv h' = nv h + length l /\ sameo h h' /\
  (forall v, v < nv h -> v_name (hw h') v = v_name (hw h) v /\
     v_dtype_ok (hw h') v = v_dtype_ok (hw h) v /\ val h' v = val h v) /\
  Forall2 (same_data h h') l l'.
Proof.
  induction l as [|v r IH]; intros h h' l' Hl E; cbn [copy_vars] in E.
  - injection E as <- <-. simpl. rewrite Nat.add_0_r. repeat split; auto.
  - destruct (copy_var copy_name h v) as [h1' v1] eqn:E1.
    apply copy_var_spec in E1 as (E1 & S1 & N1 & U & D1 & X1); subst v1.
    destruct (copy_vars copy_name h1' r) as [h2 r1] eqn:E2.
    injection E as <- <-.
    apply IH in E2.
    2:{ intros u Hu. specialize (Hl u (or_intror Hu)). lia. }
    destruct E2 as (-> & N & S & A & B). rewrite N1 in *.
    assert (A' : forall u, u < nv h -> v_name (hw h2) u = v_name (hw h) u /\
       v_dtype_ok (hw h2) u = v_dtype_ok (hw h) u /\ val h2 u = val h u).
    { intros u Hu. destruct (U u Hu) as (U1&U2&U3).
      destruct (A u ltac:(lia)) as (A1&A2&A3). repeat split; congruence. }
    simpl length. split; [reflexivity|]. split; [lia|]. split.
    { eapply sameo_trans; eauto. }
    split; [exact A'|].
    constructor.
    + destruct (A (nv h) ltac:(lia)) as (A1&A2&A3). split; congruence.
    + clear -B Hl U. assert (Hr : forall u, In u r -> u < nv h) by (intros; apply Hl; now right).
      clear Hl. 
      induction B as [|a b l l' [H1 H2] HB IHB]; constructor.
      * destruct (U a (Hr a (or_introl eq_refl))) as (_&U2&U3). split; congruence.
      * apply IHB. intros; apply Hr; now right.
Qed.

Lemma keep_names_spec (old : list vid) : forall (new : list vid) (h : heap),
  NoDup new -> (forall v, In v old -> ~ In v new) ->
  let h' := keep_names h old new in
  sameo h h' /\ nv h' = nv h /\ v_dtype_ok (hw h') = v_dtype_ok (hw h) /\ val h' = val h /\
  (forall v, ~ In v new -> v_name (hw h') v = v_name (hw h) v) /\
  (length old = length new -> Forall2 (fun v v' => v_name (hw h') v' = v_name (hw h) v) old new).
Proof.
  unfold keep_names.
  induction old as [|a old IH]; intros new h Hnd Hdis; simpl.
  - split; [apply sameo_refl|]. repeat split; auto. destruct new; [constructor|discriminate].
  - destruct new as [|b new]; simpl.
    + split; [apply sameo_refl|]. repeat split; auto. discriminate.
    + inversion Hnd as [|? ? Hb Hnd']; subst.
      destruct (IH new (set_vname h b (v_name (hw h) a)) Hnd') as (S & N & D & X & U & F).
      { intros v Hv Hin. apply (Hdis v); simpl; auto. }
      split; [eapply sameo_trans; [|exact S]; split; reflexivity|].
      split; [rewrite N; reflexivity|]. split; [rewrite D; reflexivity|].
      split; [rewrite X; reflexivity|]. split.
      * intros v Hv. rewrite U by (intros H; apply Hv; now right). simpl.
        apply upd_ne. intros ->. apply Hv; now left.
      * intros Hlen. constructor.
        -- rewrite U by exact Hb. simpl. apply upd_eq.
        -- assert (F' := F ltac:(lia)). clear F.
           assert (Hn : forall v, In v old -> v <> b).
           { intros v Hv ->. apply (Hdis b); simpl; auto. }
           eapply Forall2_impl; [|exact F']. intros x y Hx _ H1. cbv beta in H1 |- *.
           rewrite H1. simpl. apply upd_ne. now apply Hn.
Qed.

Lemma share_false l l' : (forall v, In v l -> ~ In v l') -> share l l' = false.
Proof.
  intros H. unfold share. apply not_true_iff_false. intros E.
  apply existsb_exists in E as (v & Hv & E). apply existsb_exists in E as (u & Hu & E).
  apply Nat.eqb_eq in E; subst. exact (H u Hv Hu).
Qed.


Lemma Forall2_conj {A B} (R S : A -> B -> Prop) l l' :
  Forall2 R l l' -> Forall2 S l l' -> Forall2 (fun a b => R a b /\ S a b) l l'.
Proof.
  intros F. induction F; intros G; inversion G; subst; constructor; auto.
Qed.

(** ---- weights ---- *)
Record wrel (h0 h : heap) (x x' : wid) : Prop := {
  wr_cls : wcls h x' = wcls h0 x;
  wr_o : Forall2 (is_copy h0 h) (w_optim (hw h0) x) (w_optim (hw h) x');
  wr_a : Forall2 (is_copy h0 h) (w_aux (hw h0) x) (w_aux (hw h) x')
}.

Lemma unchanged_new_weight (h : heap) k o a (h' : heap) x : new_weight h k o a = (h', x) ->
  unchanged h h' /\ x = nw h /\ nw h' = S (nw h) /\ nv h' = nv h /\ nc h' = nc h /\
  w_optim (hw h') x = o /\ w_aux (hw h') x = a /\ wcls h' x = k /\
  v_name (hw h') = v_name (hw h) /\ v_dtype_ok (hw h') = v_dtype_ok (hw h) /\ val h' = val h.
Proof.
  intros E. injection E as <- <-. simpl.
  repeat match goal with |- _ /\ _ => split end; auto using upd_eq.
  split; simpl; try lia; intros; rewrite ?upd_ne by lia; auto.
  repeat split; auto.
Qed.

Lemma unchanged_sameo (h h' : heap) : sameo h h' -> nv h <= nv h' ->
  (forall v, v < nv h -> v_name (hw h') v = v_name (hw h) v /\
     v_dtype_ok (hw h') v = v_dtype_ok (hw h) v /\ val h' v = val h v) -> unchanged h h'.
Proof.
  intros [] N H. split; auto; try lia; intros; repeat split; congruence.
Qed.

Lemma unchanged_rename (h h3 h4 : heap) : unchanged h h3 -> sameo h3 h4 -> nv h3 <= nv h4 ->
  v_dtype_ok (hw h4) = v_dtype_ok (hw h3) -> val h4 = val h3 ->
  (forall v, v < nv h -> v_name (hw h4) v = v_name (hw h3) v) -> unchanged h h4.
Proof.
  intros [A B C D] [] N E1 E2 E3. split.
  - intros v Hv. destruct (A v Hv) as (?&?&?). rewrite E3 by auto. repeat split; congruence.
  - intros c Hc. destruct (B c Hc) as (?&?&?&?&?&?). repeat split; congruence.
  - intros c Hc. destruct (C c Hc) as (?&?&?). repeat split; congruence.
  - lia.
Qed.

Lemma copy_weight_spec (h : heap) x keep :
  x < nw h -> (forall v, In v (w_optim (hw h) x ++ w_aux (hw h) x) -> v < nv h) ->
  exists h', copy_weight copy_name h x keep = Ret h' (nw h) /\ unchanged h h' /\
    nw h' = S (nw h) /\ nc h' = nc h /\
    let x' := nw h in
    wcls h' x' = wcls h x /\
    w_optim (hw h') x' ++ w_aux (hw h') x' =
      seq (nv h) (length (w_optim (hw h) x ++ w_aux (hw h) x)) /\
    nv h' = nv h + length (w_optim (hw h) x ++ w_aux (hw h) x) /\
    (keep = true -> wrel h h' x x').
Proof.
  intros Hx Hv. unfold copy_weight, copy_weight_impl.
  assert (Hv1 : forall v, In v (w_optim (hw h) x) -> v < nv h)
    by (intros; apply Hv, in_or_app; auto).
  assert (Hv2 : forall v, In v (w_aux (hw h) x) -> v < nv h)
    by (intros; apply Hv, in_or_app; auto).
  destruct (copy_vars copy_name h (w_optim (hw h) x)) as [h1 o] eqn:E1.
  apply copy_vars_spec in E1 as (Eo & N1 & S1 & U1 & F1); [|exact Hv1].
  destruct (copy_vars copy_name h1 (w_aux (hw h) x)) as [h2 a] eqn:E2.
  apply copy_vars_spec in E2 as (Ea & N2 & S2 & U2 & F2); [|intros v H; specialize (Hv2 v H); lia].
  destruct (new_weight h2 (wcls h x) o a) as [h3 x'] eqn:E3.
  apply unchanged_new_weight in E3 as (U3 & Ex & W3 & N3 & C3 & O3 & A3 & K3 & VN & VD & VV).
  assert (U01 : unchanged h h1) by (apply unchanged_sameo; auto; lia).
  assert (U12 : unchanged h1 h2) by (apply unchanged_sameo; auto; lia).
  assert (U03 : unchanged h h3) by (eapply unchanged_trans; [exact U01|]; eapply unchanged_trans; eauto).
  assert (Exn : x' = nw h) by (rewrite Ex, (so_nw _ _ S2), (so_nw _ _ S1); reflexivity).
  destruct (un_w _ _ U03 x Hx) as (WO & WA & WK).
  assert (Hlen : length o = length (w_optim (hw h) x)) by (rewrite Eo; apply seq_length).
  assert (Hlena : length a = length (w_aux (hw h) x)) by (rewrite Ea; apply seq_length).
  assert (Eoa : o ++ a = seq (nv h) (length (w_optim (hw h) x ++ w_aux (hw h) x))).
  { rewrite Eo, Ea, N1, app_length, seq_app. reflexivity. }
  assert (NDo : NoDup o) by (rewrite Eo; apply seq_NoDup).
  assert (NDa : NoDup a) by (rewrite Ea; apply seq_NoDup).
  assert (Ho : forall v, In v o -> nv h <= v < nv h1) by (intros v H; rewrite Eo in H; apply in_seq in H; lia).
  assert (Ha : forall v, In v a -> nv h1 <= v < nv h2) by (intros v H; rewrite Ea in H; apply in_seq in H; lia).
  assert (Nall : nv h3 = nv h + length (w_optim (hw h) x ++ w_aux (hw h) x))
    by (rewrite app_length; lia).
  set (h4 := if keep then _ else _).
  assert (H4 : sameo h3 h4 /\ nv h4 = nv h3 /\ v_dtype_ok (hw h4) = v_dtype_ok (hw h3) /\
     val h4 = val h3 /\ (forall v, v < nv h -> v_name (hw h4) v = v_name (hw h3) v) /\
     (keep = true -> Forall2 (fun v v' => v_name (hw h4) v' = v_name (hw h3) v) (w_optim (hw h) x) o /\
                     Forall2 (fun v v' => v_name (hw h4) v' = v_name (hw h3) v) (w_aux (hw h) x) a)).
  { unfold h4. destruct keep.
    - rewrite WO, WA, O3, A3.
      destruct (keep_names_spec (w_optim (hw h) x) o h3) as (S & N & D & X & U & F); auto.
      { intros v H1 H2. apply Hv1 in H1. apply Ho in H2. lia. }
      set (h3' := keep_names h3 (w_optim (hw h) x) o) in *.
      destruct (keep_names_spec (w_aux (hw h) x) a h3') as (S' & N' & D' & X' & U' & F'); auto.
      { intros v H1 H2. apply Hv2 in H1. apply Ha in H2. lia. }
      split; [eapply sameo_trans; eauto|]. split; [congruence|]. split; [congruence|].
      split; [congruence|]. split.
      + intros v Hlt. rewrite U', U; auto; intros H; [apply Ho in H|apply Ha in H]; lia.
      + intros _. split.
        * eapply Forall2_impl; [|apply F; congruence]. intros p q _ Hq E. simpl in E |- *.
          rewrite U'; [exact E|]. intros H. apply Ho in Hq. apply Ha in H. lia.
        * eapply Forall2_impl; [|apply F'; congruence]. intros p q Hp Hq E. simpl in E |- *.
          rewrite E. apply U. intros H. apply Ho in H. apply Hv2 in Hp. lia.
    - split; [apply sameo_refl|]. repeat split; auto; discriminate. }
  destruct H4 as (S4 & N4 & D4 & X4 & U4 & F4).
  assert (UF : unchanged h h4) by (eapply unchanged_rename; eauto; lia).
  assert (Eo4 : w_optim (hw h4) x' = o) by (rewrite (so_wo _ _ S4); exact O3).
  assert (Ea4 : w_aux (hw h4) x' = a) by (rewrite (so_wa _ _ S4); exact A3).
  destruct (un_w _ _ UF x Hx) as (WO4 & WA4 & WK4).
  rewrite WO4, WA4, Eo4, Ea4.
  rewrite share_false by (intros v H1 H2; apply Hv1 in H1; apply Ho in H2; lia).
  rewrite share_false by (intros v H1 H2; apply Hv2 in H1; apply Ha in H2; lia).
  simpl. exists h4. rewrite <- Exn. split; [reflexivity|]. split; [exact UF|].
  split; [rewrite (so_nw _ _ S4), W3; f_equal; congruence|].
  split; [rewrite (so_nc _ _ S4), C3, (so_nc _ _ S2), (so_nc _ _ S1); reflexivity|].
  split; [rewrite (so_wcls _ _ S4); exact K3|].
  split; [rewrite Eo4, Ea4; exact Eoa|]. split; [congruence|].
  intros Hk. destruct (F4 Hk) as [FO FA].
  split; [rewrite (so_wcls _ _ S4); exact K3| |]; rewrite ?Eo4, ?Ea4.
  - eapply Forall2_impl; [|exact (Forall2_conj _ _ _ _ FO F1)].
    intros p q Hp Hq [E [E1 E2]]. apply Hv1 in Hp. apply Ho in Hq.
    destruct (un_v _ _ U03 p Hp) as (G1 & G2 & G3). split; [congruence|].
    destruct (U2 q ltac:(lia)) as (J1 & J2 & J3).
    split; rewrite ?D4, ?X4, ?VD, ?VV; congruence.
  - eapply Forall2_impl; [|exact (Forall2_conj _ _ _ _ FA F2)].
    intros p q Hp Hq [E [E1 E2]]. apply Hv2 in Hp. apply Ha in Hq.
    destruct (un_v _ _ U03 p Hp) as (G1 & G2 & G3). split; [congruence|].
    destruct (U1 p ltac:(lia)) as (J1 & J2 & J3).
    split; rewrite ?D4, ?X4, ?VD, ?VV; congruence.
Qed.

(** ---- cost functions ---- *)
Lemma unchanged_new_cf (h : heap) n k o a x i (h' : heap) c : new_cf h n k o a x i = (h', c) ->
  unchanged h h' /\ c = nc h /\ nc h' = S (nc h) /\ nv h' = nv h /\ nw h' = nw h /\
  c_name (hw h') c = n /\ cls h' c = k /\ c_optim (hw h') c = o /\ c_aux (hw h') c = a /\
  c_weight (hw h') c = x /\ inner h' c = i /\
  v_name (hw h') = v_name (hw h) /\ v_dtype_ok (hw h') = v_dtype_ok (hw h) /\ val h' = val h.
Proof.
  intros E. injection E as <- <-. simpl.
  repeat match goal with |- _ /\ _ => split end; auto using upd_eq.
  split; simpl; try lia; intros; rewrite ?upd_ne by lia; auto.
  repeat split; auto.
Qed.

Lemma copy_plain_spec (h : heap) c n :
  c < nc h -> c_weight (hw h) c < nw h ->
  (forall v, In v (c_optim (hw h) c ++ c_aux (hw h) c) -> v < nv h) ->
  (forall v, In v (w_optim (hw h) (c_weight (hw h) c) ++ w_aux (hw h) (c_weight (hw h) c)) -> v < nv h) ->
  exists h', copy_plain_impl copy_name h c n = Ret h' (nc h) /\ unchanged h h' /\
    nc h' = S (nc h) /\
    nv h + length (c_optim (hw h) c ++ c_aux (hw h) c) <= nv h' /\
    let c' := nc h in
    c_name (hw h') c' = n /\ cls h' c' = cls h c /\ inner h' c' = None /\
    nw h <= c_weight (hw h') c' < nw h' /\
    c_optim (hw h') c' = seq (nv h) (length (c_optim (hw h) c)) /\
    c_aux (hw h') c' = seq (nv h + length (c_optim (hw h) c)) (length (c_aux (hw h) c)) /\
    Forall2 (same_data h h') (c_optim (hw h) c) (c_optim (hw h') c') /\
    Forall2 (same_data h h') (c_aux (hw h) c) (c_aux (hw h') c').
Proof.
  intros Hc Hx Hv Hwv. unfold copy_plain_impl.
  assert (Hv1 : forall v, In v (c_optim (hw h) c) -> v < nv h)
    by (intros; apply Hv, in_or_app; auto).
  assert (Hv2 : forall v, In v (c_aux (hw h) c) -> v < nv h)
    by (intros; apply Hv, in_or_app; auto).
  destruct (copy_vars copy_name h (c_optim (hw h) c)) as [h1 o] eqn:E1.
  apply copy_vars_spec in E1 as (Eo & N1 & S1 & U1 & F1); [|exact Hv1].
  destruct (copy_vars copy_name h1 (c_aux (hw h) c)) as [h2 a] eqn:E2.
  apply copy_vars_spec in E2 as (Ea & N2 & S2 & U2 & F2); [|intros v H; specialize (Hv2 v H); lia].
  assert (U01 : unchanged h h1) by (apply unchanged_sameo; auto; lia).
  assert (U12 : unchanged h1 h2) by (apply unchanged_sameo; auto; lia).
  assert (U02 : unchanged h h2) by (eapply unchanged_trans; eauto).
  set (x := c_weight (hw h) c) in *.
  destruct (un_w _ _ U02 x Hx) as (WO & WA & _).
  destruct (copy_weight_spec h2 x false) as (h3 & E3 & U23 & W3 & C3 & _ & _ & N3 & _).
  { rewrite (so_nw _ _ S2), (so_nw _ _ S1). exact Hx. }
  { rewrite WO, WA. intros v H. specialize (Hwv v H). lia. }
  rewrite E3. cbn [rbind].
  destruct (new_cf h3 n (cls h c) o a (nw h2) None) as [h4 c'] eqn:E4.
  apply unchanged_new_cf in E4
    as (U34 & Ec & C4 & N4 & W4 & Gn & Gk & Go & Ga & Gx & Gi & VN & VD & VV).
  assert (Ec' : c' = nc h) by (rewrite Ec, C3, (so_nc _ _ S2), (so_nc _ _ S1); reflexivity).
  assert (U24 : unchanged h2 h4) by (eapply unchanged_trans; eauto).
  assert (W2 : nw h2 = nw h) by (rewrite (so_nw _ _ S2), (so_nw _ _ S1); reflexivity).
  exists h4. rewrite <- Ec'. split; [reflexivity|].
  split; [eapply unchanged_trans; eauto|].
  split; [rewrite C4, Ec'; f_equal; congruence|].
  split; [rewrite app_length; lia|].
  split; [exact Gn|]. split; [exact Gk|]. split; [exact Gi|].
  split; [rewrite Gx; lia|].
  split; [rewrite Go; exact Eo|]. split; [rewrite Ga, Ea, N1; reflexivity|].
  rewrite Go, Ga. split.
  - eapply Forall2_impl; [|exact F1]. intros p q Hp Hq [E5 E6].
    rewrite Eo in Hq. apply in_seq in Hq.
    destruct (U2 q ltac:(lia)) as (J1 & J2 & J3).
    destruct (un_v _ _ U24 q ltac:(lia)) as (K1 & K2 & K3). split; congruence.
  - eapply Forall2_impl; [|exact F2]. intros p q Hp Hq [E5 E6].
    rewrite Ea in Hq. apply in_seq in Hq. apply Hv2 in Hp.
    destruct (U1 p ltac:(lia)) as (J1 & J2 & J3).
    destruct (un_v _ _ U24 q ltac:(lia)) as (K1 & K2 & K3). split; congruence.
Qed.

Lemma finish_spec (h h1 : heap) c c' keep :
  c < nc h -> unchanged h h1 ->
  (forall v, In v (c_optim (hw h) c ++ c_aux (hw h) c) -> v < nv h) ->
  (forall v, In v (c_optim (hw h1) c' ++ c_aux (hw h1) c') -> nv h <= v) ->
  NoDup (c_optim (hw h1) c' ++ c_aux (hw h1) c') ->
  Forall2 (same_data h h1) (c_optim (hw h) c) (c_optim (hw h1) c') ->
  Forall2 (same_data h h1) (c_aux (hw h) c) (c_aux (hw h1) c') ->
  exists h2, finish_copy c keep h1 c' = Ret h2 c' /\ sameo h1 h2 /\ nv h2 = nv h1 /\
    v_dtype_ok (hw h2) = v_dtype_ok (hw h1) /\ val h2 = val h1 /\ unchanged h h2 /\
    (keep = true -> Forall2 (is_copy h h2) (c_optim (hw h) c) (c_optim (hw h2) c') /\
                    Forall2 (is_copy h h2) (c_aux (hw h) c) (c_aux (hw h2) c')) /\
    (keep = false -> h2 = h1).
Proof.
  intros Hc U Hv Hv' ND FO FA. unfold finish_copy.
  destruct (un_c _ _ U c Hc) as (_ & CO & CA & _).
  set (o := c_optim (hw h1) c') in *. set (a := c_aux (hw h1) c') in *.
  rewrite CO, CA.
  set (h2 := if keep then _ else _).
  destruct (NoDup_app_inv _ _ ND) as (NDo & NDa & Hoa).
  assert (H : sameo h1 h2 /\ nv h2 = nv h1 /\ v_dtype_ok (hw h2) = v_dtype_ok (hw h1) /\
     val h2 = val h1 /\ (forall v, v < nv h -> v_name (hw h2) v = v_name (hw h1) v) /\
     (keep = true ->
        Forall2 (fun v v' => v_name (hw h2) v' = v_name (hw h1) v) (c_optim (hw h) c) o /\
        Forall2 (fun v v' => v_name (hw h2) v' = v_name (hw h1) v) (c_aux (hw h) c) a)).
  { unfold h2. destruct keep.
    - destruct (keep_names_spec (c_optim (hw h) c) o h1) as (S & N & D & X & Un & F); auto.
      { intros v H1 H2. specialize (Hv v (in_or_app _ _ _ (or_introl H1))).
        specialize (Hv' v (in_or_app _ _ _ (or_introl H2))). lia. }
      set (h3' := keep_names h1 (c_optim (hw h) c) o) in *.
      destruct (keep_names_spec (c_aux (hw h) c) a h3') as (S' & N' & D' & X' & U' & F'); auto.
      { intros v H1 H2. specialize (Hv v (in_or_app _ _ _ (or_intror H1))).
        specialize (Hv' v (in_or_app _ _ _ (or_intror H2))). lia. }
      split; [eapply sameo_trans; eauto|]. split; [congruence|]. split; [congruence|].
      split; [congruence|]. split.
      + intros v Hlt. rewrite U', Un; auto; intros H.
        * specialize (Hv' v (in_or_app _ _ _ (or_introl H))). lia.
        * specialize (Hv' v (in_or_app _ _ _ (or_intror H))). lia.
      + intros _. split.
        * eapply Forall2_impl; [|apply F; eapply Forall2_length; eauto].
          intros p q _ Hq E. simpl in E |- *. rewrite U'; [exact E|]. intros H. eauto.
        * eapply Forall2_impl; [|apply F'; eapply Forall2_length; eauto].
          intros p q Hp Hq E. simpl in E |- *.
          rewrite E. apply Un. intros H. specialize (Hv p (in_or_app _ _ _ (or_intror Hp))).
          specialize (Hv' p (in_or_app _ _ _ (or_introl H))). lia.
    - split; [apply sameo_refl|]. repeat split; auto; discriminate. }
  destruct H as (S2 & N2 & D2 & X2 & U2 & F2).
  assert (UF : unchanged h h2) by (eapply unchanged_rename; eauto; lia).
  destruct (un_c _ _ UF c Hc) as (_ & CO2 & CA2 & _). rewrite CO2, CA2.
  rewrite (so_co _ _ S2), (so_ca _ _ S2). fold o a.
  rewrite share_false
    by (intros v H1 H2; specialize (Hv v (in_or_app _ _ _ (or_introl H1)));
        specialize (Hv' v (in_or_app _ _ _ (or_introl H2))); lia).
  rewrite share_false
    by (intros v H1 H2; specialize (Hv v (in_or_app _ _ _ (or_intror H1)));
        specialize (Hv' v (in_or_app _ _ _ (or_intror H2))); lia).
  simpl. exists h2. split; [reflexivity|].
  repeat (split; [assumption|]). split.
  - intros Hk. destruct (F2 Hk) as [G1 G2]. rewrite (so_co _ _ S2), (so_ca _ _ S2). fold o a. split.
    + eapply Forall2_impl; [|exact (Forall2_conj _ _ _ _ G1 FO)].
      intros p q Hp Hq [E [E1 E2]]. specialize (Hv p (in_or_app _ _ _ (or_introl Hp))).
      destruct (un_v _ _ U p Hv) as (K1 & K2 & K3). split; [congruence|].
      split; congruence.
    + eapply Forall2_impl; [|exact (Forall2_conj _ _ _ _ G2 FA)].
      intros p q Hp Hq [E [E1 E2]]. specialize (Hv p (in_or_app _ _ _ (or_intror Hp))).
      destruct (un_v _ _ U p Hv) as (K1 & K2 & K3). split; [congruence|].
      split; congruence.
  - intros ->. reflexivity.
Qed.

Definition cslots (h : heap) (c : cid) : list vid := c_optim (hw h) c ++ c_aux (hw h) c.
Definition wslots (h : heap) (x : wid) : list vid := w_optim (hw h) x ++ w_aux (hw h) x.
Definition ids (h : heap) (c : cid) : list cid :=
  c :: match inner h c with Some i => [i] | None => [] end.

(** [c'] is a copy of [c] (the weight is treated separately) *)
Record cfrel (h0 h : heap) (c c' : cid) : Prop := {
  cr_name : c_name (hw h) c' = c_name (hw h0) c;
  cr_cls : cls h c' = cls h0 c;
  cr_o : Forall2 (is_copy h0 h) (c_optim (hw h0) c) (c_optim (hw h) c');
  cr_a : Forall2 (is_copy h0 h) (c_aux (hw h0) c) (c_aux (hw h) c');
  cr_i : match inner h0 c with
         | None => inner h c' = None
         | Some i => exists i', inner h c' = Some i' /\ inner h i' = None /\ cls h i' = cls h0 i /\
                      c_weight (hw h) i' = c_weight (hw h) c' /\
                      length (c_aux (hw h) i') = length (c_aux (hw h0) i)
         end
}.
(** the wrapped copy reads the variables registered on the outer object *)
Definition mirrored (h : heap) (c' : cid) : Prop :=
  forall i', inner h c' = Some i' ->
    c_optim (hw h) i' = c_optim (hw h) c' /\
    c_aux (hw h) i' = firstn (length (c_aux (hw h) i')) (c_aux (hw h) c').

(** what [well_formed] says of one cost function, plus its weight's variables *)
Record wf1 (h : heap) (c : cid) : Prop := {
  f_c : c < nc h;
  f_w : c_weight (hw h) c < nw h;
  f_v : forall v, In v (cslots h c) -> v < nv h;
  f_wv : forall v, In v (wslots h (c_weight (hw h) c)) -> v < nv h;
  f_i : forall i, inner h c = Some i ->
     i < nc h /\ inner h i = None /\ c_optim (hw h) i = c_optim (hw h) c /\
     c_weight (hw h) i = c_weight (hw h) c /\
     exists own, c_aux (hw h) c = c_aux (hw h) i ++ own
}.

Lemma wf1_unchanged h h' c : unchanged h h' -> wf1 h c -> wf1 h' c.
Proof.
  intros U [A B C D E].
  destruct (un_c _ _ U c A) as (C1 & C2 & C3 & C4 & C5 & C6).
  destruct (un_w _ _ U _ B) as (W1 & W2 & W3).
  pose proof (un_size _ _ U) as Z.
  split; unfold cslots, wslots in *; rewrite ?C4, ?C2, ?C3, ?C6, ?W1, ?W2; try lia.
  - intros v Hv. specialize (C v Hv). lia.
  - intros v Hv. specialize (D v Hv). lia.
  - intros i Hi. destruct (E i Hi) as (E1 & E2 & E3 & E4 & own & E5).
    destruct (un_c _ _ U i E1) as (_ & I2 & I3 & I4 & _ & I6).
    split; [lia|]. split; [congruence|]. split; [congruence|]. split; [congruence|].
    exists own. congruence.
Qed.

Lemma copy_cf_spec (h : heap) c : wf1 h c ->
  exists h' c', copy_cf copy_name h c (c_name (hw h) c) true = Ret h' c' /\
    unchanged h h' /\ cfrel h h' c c' /\ mirrored h' c' /\
    NoDup (cslots h' c') /\ (forall v, In v (cslots h' c') -> nv h <= v < nv h') /\
    NoDup (ids h' c') /\ (forall j, In j (ids h' c') -> nc h <= j < nc h').
Proof.
  intros [Hc Hx Hv Hwv Hi]. unfold copy_cf.
  destruct (inner h c) as [i|] eqn:Ei.
  - destruct (Hi i eq_refl) as (I1 & I2 & I3 & I4 & own & I5). clear Hi.
    unfold copy_robust_impl.
    assert (Hvi : forall v, In v (c_optim (hw h) i ++ c_aux (hw h) i) -> v < nv h).
    { intros v Hin. apply Hv. unfold cslots. rewrite I5, <- I3, app_assoc.
      apply in_or_app; now left. }
    destruct (copy_plain_spec h i (copy_name (c_name (hw h) i)))
      as (h1 & E1 & U1 & C1 & N1 & Gn & Gk & Gi & Gx & Go & Ga & F1 & F2); auto;
      rewrite ?I4; auto.
    cbv zeta in *. set (i' := nc h) in *.
    rewrite E1. cbn [rbind].
    assert (Eoa : c_optim (hw h1) i' ++ c_aux (hw h1) i' =
                  seq (nv h) (length (c_optim (hw h) i ++ c_aux (hw h) i))).
    { rewrite Go, Ga, app_length, seq_app. reflexivity. }
    destruct (finish_spec h h1 i i' false) as (h2 & E2 & _ & _ & _ & _ & _ & _ & Eh); auto.
    { rewrite Eoa. intros v Hin. apply in_seq in Hin. lia. }
    { rewrite Eoa. apply seq_NoDup. }
    rewrite (Eh eq_refl) in E2. rewrite E2. cbn [rbind]. clear h2 E2 Eh.
    assert (Eown : skipn (length (c_aux (hw h) i)) (c_aux (hw h) c) = own).
    { rewrite I5, skipn_app, skipn_all, Nat.sub_diag. reflexivity. }
    rewrite Eown.
    destruct (copy_vars copy_name h1 own) as [h2 e] eqn:E2.
    assert (Hown : forall v, In v own -> v < nv h).
    { intros v Hin. apply Hv. unfold cslots. rewrite I5.
      apply in_or_app; right. apply in_or_app; now right. }
    pose proof (un_size _ _ U1) as Z1.
    apply copy_vars_spec in E2 as (Ee & N2 & S2 & U2 & F3).
    2:{ intros v Hin. specialize (Hown v Hin). lia. }
    rewrite (so_co _ _ S2), (so_ca _ _ S2), (so_cw _ _ S2).
    destruct (new_cf h2 _ _ _ _ _ _) as [h3 c'] eqn:E3.
    apply unchanged_new_cf in E3
      as (U23 & Ec & C3 & N3 & W3 & Kn & Kk & Ko & Ka & Kx & Ki & VN & VD & VV).
    assert (U12 : unchanged h1 h2) by (apply unchanged_sameo; auto; lia).
    assert (U13 : unchanged h1 h3) by (eapply unchanged_trans; eauto).
    assert (U03 : unchanged h h3) by (eapply unchanged_trans; eauto).
    assert (Ec' : c' = S (nc h)) by (rewrite Ec, (so_nc _ _ S2); exact C1).
    assert (Hin1 : forall v, In v (c_optim (hw h1) i' ++ c_aux (hw h1) i') -> nv h <= v < nv h1).
    { rewrite Eoa. intros v Hin. apply in_seq in Hin. lia. }
    assert (Hine : forall v, In v e -> nv h1 <= v < nv h2).
    { rewrite Ee. intros v Hin. apply in_seq in Hin. lia. }
    assert (Hslots : c_optim (hw h3) c' ++ c_aux (hw h3) c' =
                     (c_optim (hw h1) i' ++ c_aux (hw h1) i') ++ e).
    { rewrite Ko, Ka. apply app_assoc. }
    cbn [rbind].
    destruct (finish_spec h h3 c c' true)
      as (h4 & E4 & S4 & N4 & D4 & X4 & U04 & FC & _); auto.
    { rewrite Hslots. intros v Hin. apply in_app_or in Hin as [Hin|Hin].
      - apply Hin1 in Hin. lia.
      - apply Hine in Hin. lia. }
    { rewrite Hslots. apply NoDup_app_intro.
      - rewrite Eoa. apply seq_NoDup.
      - rewrite Ee. apply seq_NoDup.
      - intros v A B. apply Hin1 in A. apply Hine in B. lia. }
    { rewrite Ko, <- I3. eapply Forall2_impl; [|exact F1]. intros p q Hp Hq [E5 E6].
      destruct (un_v _ _ U13 q) as (_ & J2 & J3).
      { specialize (Hin1 q (in_or_app _ _ _ (or_introl Hq))). lia. }
      split; congruence. }
    { rewrite Ka, I5. apply Forall2_app.
      - eapply Forall2_impl; [|exact F2]. intros p q Hp Hq [E5 E6].
        destruct (un_v _ _ U13 q) as (_ & J2 & J3).
        { specialize (Hin1 q (in_or_app _ _ _ (or_intror Hq))). lia. }
        split; congruence.
      - eapply Forall2_impl; [|exact F3]. intros p q Hp Hq [E5 E6].
        destruct (un_v _ _ U23 q) as (_ & J2 & J3).
        { specialize (Hine q Hq). lia. }
        destruct (un_v _ _ U1 p (Hown p Hp)) as (_ & J5 & J6).
        split; congruence. }
    destruct (FC eq_refl) as [FCo FCa].
    assert (In4 : inner h4 c' = Some i') by (rewrite (so_in _ _ S4); exact Ki).
    assert (Hi1 : i' < nc h1) by (unfold i'; lia).
    destruct (un_c _ _ U13 i' Hi1) as (_ & Q2 & Q3 & Q4 & Q5 & Q6).
    exists h4, c'. split; [exact E4|]. split; [exact U04|]. split; [|split; [|split; [|split; [|split]]]].
    + split; auto.
      * rewrite (so_cn _ _ S4). exact Kn.
      * rewrite (so_cls _ _ S4). exact Kk.
      * rewrite Ei. exists i'. split; [exact In4|].
        rewrite (so_in _ _ S4), (so_cls _ _ S4), (so_cw _ _ S4), (so_ca _ _ S4).
        split; [congruence|]. split; [congruence|]. split; [congruence|].
        rewrite Q3, Ga. apply seq_length.
    + intros j Hj. rewrite In4 in Hj. injection Hj as <-.
      rewrite (so_co _ _ S4), (so_ca _ _ S4), Ko, Ka, Q2, Q3. split; [reflexivity|].
      rewrite firstn_app, firstn_all, Nat.sub_diag. simpl. now rewrite app_nil_r.
    + unfold cslots. rewrite (so_co _ _ S4), (so_ca _ _ S4), Hslots. apply NoDup_app_intro.
      * rewrite Eoa. apply seq_NoDup.
      * rewrite Ee. apply seq_NoDup.
      * intros v A B. apply Hin1 in A. apply Hine in B. lia.
    + unfold cslots. rewrite (so_co _ _ S4), (so_ca _ _ S4), Hslots.
      intros v Hin. apply in_app_or in Hin as [Hin|Hin].
      * apply Hin1 in Hin. lia.
      * apply Hine in Hin. lia.
    + unfold ids. rewrite In4. constructor; [|repeat constructor; simpl; auto].
      simpl. unfold i'. intros [H|[]]. lia.
    + unfold ids. rewrite In4, (so_nc _ _ S4), C3, (so_nc _ _ S2), C1.
      simpl. unfold i'. intros j [H|[H|[]]]; lia.
  - destruct (copy_plain_spec h c (c_name (hw h) c))
      as (h1 & E1 & U1 & C1 & N1 & Gn & Gk & Gi & Gx & Go & Ga & F1 & F2); auto.
    cbv zeta in *. set (c' := nc h) in *. rewrite E1. cbn [rbind].
    assert (Eoa : c_optim (hw h1) c' ++ c_aux (hw h1) c' =
                  seq (nv h) (length (c_optim (hw h) c ++ c_aux (hw h) c))).
    { rewrite Go, Ga, app_length, seq_app. reflexivity. }
    destruct (finish_spec h h1 c c' true) as (h2 & E2 & S2 & N2 & D2 & X2 & U2 & FC & _); auto.
    { rewrite Eoa. intros v Hin. apply in_seq in Hin. lia. }
    { rewrite Eoa. apply seq_NoDup. }
    destruct (FC eq_refl) as [FCo FCa].
    assert (In2 : inner h2 c' = None) by (rewrite (so_in _ _ S2); exact Gi).
    exists h2, c'. split; [exact E2|]. split; [exact U2|]. split; [|split; [|split; [|split; [|split]]]].
    + split; auto.
      * rewrite (so_cn _ _ S2). exact Gn.
      * rewrite (so_cls _ _ S2). exact Gk.
      * rewrite Ei. exact In2.
    + intros j Hj. congruence.
    + unfold cslots. rewrite (so_co _ _ S2), (so_ca _ _ S2), Eoa. apply seq_NoDup.
    + unfold cslots. rewrite (so_co _ _ S2), (so_ca _ _ S2), Eoa, N2.
      intros v Hin. apply in_seq in Hin. lia.
    + unfold ids. rewrite In2. repeat constructor; simpl; auto.
    + unfold ids. rewrite In2, (so_nc _ _ S2), C1. simpl. unfold c'. intros j [H|[]]; lia.
Qed.
End P.
