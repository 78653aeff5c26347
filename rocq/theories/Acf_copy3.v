(** copy() of the robust wrappers (C99). *)
From Coq Require Import List String Ascii Arith Bool Lia.
From Verif Require Import Mp_model Acf_model Acf_spec Acf_base Acf_make Acf_auto Acf_wrap Acf_robust Acf_copy Acf_copy2.
Import ListNotations.
Local Open Scope string_scope.
Local Open Scope list_scope.
Local Open Scope nat_scope.

Section Copy.
Variables T F : Type.
Variable one : T.
Variable dflt : dtype.
Implicit Types (w : world T F) (o : cobj F).

(** a cost function that copy() can copy *)
Record copyable w (b : nat) (c : ccls) (O A : list nat) (wid d : nat) (ko ka : list string) (nm : string) : Prop := mkCopyable {
  c_base : base_ok T F w b c O A wid d ko ka;
  c_name : named w b nm;
  c_exist : exist w (O ++ A);
  c_weight : weight_exists w wid;
  c_cls : (c = CPlain /\ ~ In "_dim" (ko ++ ka)) \/
          (c = CAutoDiff /\ O <> [] /\ NoDup (names w (O ++ A)) /\ exists f m op, autodiff_has w b f m op) }.
Definition no_extra (ks : list string) : Prop := ~ In "log_loss_radius" ks /\ ~ In "gnc_control_val" ks.
Lemma copy_base : forall n w b c O A wid d ko ka nm new keep, copyable w b c O A wid d ko ka nm ->
  exists w1 b' O' A' wid' ko' ka', copy_at one dflt (S n) b new keep w = Ret w1 b' /\ b' = List.length (w_objs w) /\
    is_copy w w1 keep O A wid O' A' wid' /\ base_ok T F w1 b' c O' A' wid' d ko' ka' /\ named w1 b' (copy_name new nm) /\
    (~ In "log_loss_radius" (ko ++ ka) -> ~ In "log_loss_radius" (ko' ++ ka')) /\ (~ In "gnc_control_val" (ko ++ ka) -> ~ In "gnc_control_val" (ko' ++ ka')) /\
    (forall f m op, c = CAutoDiff -> autodiff_has w b f m op -> autodiff_has w1 b' f m default_opts /\ jac_ok w1 b' = true).
Proof.
  intros n w b c O A wid d ko ka nm new keep [[S LK RG N OW] NM E WE CL]. destruct CL as [[-> ND]|[-> [NE [NN [f [m [op AH]]]]]]].
  - assert (KF : forall k, In k (ko ++ ka) -> ~ In k ("_dim" :: init_attrs)).
    { intros k Hk [<-|H]; [exact (ND Hk)|]. apply (OW k Hk). unfold own_keys. apply in_or_app. right. exact H. }
    destruct (copy_plain T F one dflt n w b O A wid d ko ka nm new keep LK RG NM E WE N KF) as [w1 [b' [O' [A' [wid' [C1 [C2 [C3 [C4 [C5 C6]]]]]]]]]].
    exists w1, b', O', A', wid', ko, ka. split; [exact C1|]. split; [exact C2|]. split; [exact C3|]. split; [constructor; assumption|].
    split; [exact C5|]. split; [tauto|]. split; [tauto|]. intros f m op H. discriminate H.
  - destruct (copy_auto T F one dflt n w b O A wid d f m op nm new keep LK AH NM NE E WE NN) as [w1 [b' [O' [A' [wid' [ko' [ka' [C1 [C2 [C3 [C4 [C5 [C6 [C7 [C8 [C9 C10]]]]]]]]]]]]]]]].
    exists w1, b', O', A', wid', ko', ka'. split; [exact C1|]. split; [exact C2|]. split; [exact C3|].
    split. { constructor; try assumption. intros k Hk H. apply (C10 k Hk). apply in_or_app. left. exact H. }
    split; [exact C6|]. split; [intros _ H; apply (C10 _ H); apply in_or_app; right; cbn; tauto|]. split; [intros _ H; apply (C10 _ H); apply in_or_app; right; cbn; tauto|].
    intros f' m' op' _ [q [Q1 [Q2 [Q3 _]]]]. destruct AH as [q' [P1 [P2 [P3 _]]]]. rewrite P1 in Q1. injection Q1 as <-. rewrite P2 in Q2. injection Q2 as <-. rewrite P3 in Q3. injection Q3 as <-.
    split; [exact C5|exact C7].
Qed.
Lemma extends_trans : forall w1 w2 w3, extends w1 w2 -> extends w2 w3 -> extends w1 w3.
Proof.
  intros w1 w2 w3 [[a A] [[b B] [c C]]] [[a' A'] [[b' B'] [c' C']]]. rewrite A in A'. rewrite B in B'. rewrite C in C'.
  rewrite <- app_assoc in A', B', C'. split; [|split]; eexists; eassumption.
Qed.
Lemma extends_nth : forall w w' v x, extends w w' -> nth_error (w_vars w) v = Some x -> nth_error (w_vars w') v = Some x.
Proof. intros w w' v x [[l E] _] H. rewrite E, nth_error_app1; [exact H|]. apply nth_error_Some. rewrite H. discriminate. Qed.
Lemma copied_bounds : forall w w' keep l l', copied w w' keep l l' -> forall v', In v' l' -> List.length (w_vars w) <= v' < List.length (w_vars w').
Proof.
  intros w w' keep l l' [L H] v' HI. apply In_nth_error in HI. destruct HI as [k K'].
  assert (KL : k < List.length l) by (rewrite <- L; apply nth_error_Some; rewrite K'; discriminate).
  apply nth_error_Some in KL. destruct (nth_error l k) as [v|] eqn:K; [|contradiction].
  destruct (H k v v' K K') as [x [x' [X1 [X2 [X3 _]]]]]. split; [exact X3|]. apply nth_error_Some. rewrite X2. discriminate.
Qed.
Lemma nodup_insert : forall A (a b c r : list A), NoDup (a ++ b ++ c) -> NoDup r -> (forall x, In x r -> ~ In x (a ++ b ++ c)) -> NoDup (a ++ (b ++ r) ++ c).
Proof.
  intros A a b c r N NR D. apply nodup_app_iff in N. destruct N as [Na [Nbc Dab]]. apply nodup_app_iff in Nbc. destruct Nbc as [Nb [Nc Dbc]].
  apply nodup_app_iff. split; [exact Na|]. split.
  - apply nodup_app_iff. split; [|split; [exact Nc|]].
    + apply nodup_app_iff. split; [exact Nb|]. split; [exact NR|]. intros x Hx Hr. apply (D x Hr). rewrite !in_app_iff. tauto.
    + intros x Hx Hc. apply in_app_or in Hx. destruct Hx as [Hx|Hx]; [exact (Dbc x Hx Hc)|]. apply (D x Hx). rewrite !in_app_iff. tauto.
  - intros x Ha H. rewrite !in_app_iff in H. destruct H as [[H|H]|H].
    + apply (Dab x Ha). apply in_or_app. tauto.
    + apply (D x H). rewrite in_app_iff. tauto.
    + apply (Dab x Ha). apply in_or_app. tauto.
Qed.
Lemma wrap_finish : forall w w1 wD i o o' O A R wid O' A' wid' keep,
  nth_error (w_objs w) i = Some o -> optim_vars o = Some (map PVar O) -> aux_vars o = Some (map PVar (A ++ R)) ->
  exist w (O ++ A ++ R) -> is_copy w w1 false O A wid O' A' wid' ->
  let R' := seq (List.length (w_vars w1)) (List.length R) in let i' := List.length (w_objs w1) in
  w_vars wD = w_vars w1 ++ flat_map (got T F w1) R -> w_wts wD = w_wts w1 -> w_objs wD = w_objs w1 ++ [o'] ->
  optim_vars o' = Some (map PVar O') -> aux_vars o' = Some (map PVar (A' ++ R')) ->
  exists w', finish_copy i i' keep wD = Ret w' i' /\ is_copy w w' keep O (A ++ R) wid O' (A' ++ R') wid' /\
    w_objs w' = w_objs wD /\ w_wts w' = w_wts wD /\ (forall v, dt_at T F w' v = dt_at T F wD v).
Proof.
  intros w w1 wD i o o' O A R wid O' A' wid' keep HO V1 V2 E [CO [CA [[x [x' [X1 [X2 [X3 [X4 [X5 X6]]]]]]] EXT]]] R' i' DV DW DO V3 V4.
  assert (ED : extends w1 wD). { split; [eexists; exact DV|]. split; [exists []; rewrite app_nil_r; exact DW|eexists; exact DO]. }
  assert (ER : exist w R) by (intros v Hv; apply E; rewrite !in_app_iff; tauto).
  pose proof EXT as [[lv LV] [_ [lo LOBJ]]].
  assert (ER1 : exist w1 R) by (intros v Hv; specialize (ER v Hv); rewrite LV, app_length; lia).
  assert (GR : List.length (flat_map (got T F w1) R) = List.length R) by (apply got_len; exact ER1).
  assert (LW : List.length (w_vars w) <= List.length (w_vars w1)) by (rewrite LV, app_length; lia).
  assert (BO : forall v, In v O' -> List.length (w_vars w) <= v < List.length (w_vars w1)) by (apply (copied_bounds _ _ _ _ _ CO)).
  assert (BA : forall v, In v A' -> List.length (w_vars w) <= v < List.length (w_vars w1)) by (apply (copied_bounds _ _ _ _ _ CA)).
  assert (BW : forall v, In v (w_aux x') -> List.length (w_vars w) <= v < List.length (w_vars w1)) by (apply (copied_bounds _ _ _ _ _ X5)).
  assert (BR : forall v, In v R' -> List.length (w_vars w1) <= v < List.length (w_vars wD)).
  { intros v Hv. apply in_seq in Hv. rewrite DV, app_length, GR. lia. }
  assert (LD : List.length (w_vars w1) <= List.length (w_vars wD)) by (rewrite DV, app_length; lia).
  assert (NR : NoDup R') by apply seq_NoDup.
  assert (NALL : NoDup (O' ++ (A' ++ R') ++ w_aux x')).
  { apply nodup_insert; [exact X6|exact NR|]. intros v Hv H. specialize (BR v Hv). rewrite !in_app_iff in H. destruct H as [H|[H|H]]; [specialize (BO v H)|specialize (BA v H)|specialize (BW v H)]; lia. }
  assert (IO : nth_error (w_objs wD) i = Some o).
  { assert (IL : i < List.length (w_objs w)) by (apply nth_error_Some; rewrite HO; discriminate).
    rewrite DO, LOBJ, <- app_assoc, nth_error_app1 by exact IL. exact HO. }
  assert (IO' : nth_error (w_objs wD) i' = Some o') by (rewrite DO; unfold i'; rewrite nth_error_app2, Nat.sub_diag by lia; reflexivity).
  assert (NOA : NoDup (O' ++ A' ++ R')) by (rewrite app_assoc in NALL; apply nodup_app_iff in NALL; apply NALL).
  destruct (finish_eq T F wD (List.length (w_vars w)) i i' o o' O (A ++ R) O' (A' ++ R') keep IO IO' V1 V2 V3 V4) as [vs [Q1 [Q2 [Q3 Q4]]]].
  - symmetry. apply CO.
  - rewrite !app_length. unfold R'. rewrite seq_length. f_equal. symmetry. apply CA.
  - exact E.
  - intros v Hv. rewrite !in_app_iff in Hv. destruct Hv as [H|[H|H]]; [specialize (BO v H)|specialize (BA v H)|specialize (BR v H)]; lia.
  - lia.
  - intros v Hv. rewrite !in_app_iff in Hv. destruct Hv as [H|[H|H]]; [specialize (BO v H)|specialize (BA v H)|specialize (BR v H)]; lia.
  - exact NOA.
  - (* the values in wD *)
    assert (CW : copied w wD false (O ++ A ++ R) (O' ++ A' ++ R')).
    { assert (CC : forall l l', copied w w1 false l l' -> copied w wD false l l').
      { intros l l' [L H]. split; [exact L|]. intros k v v' K K'. destruct (H k v v' K K') as [y [y' [Y1 [Y2 Y3]]]]. exists y, y'.
        split; [exact Y1|]. split; [apply (extends_nth w1 wD v' y' ED Y2)|exact Y3]. }
      assert (CR : copied w wD false R R').
      { split; [unfold R'; rewrite seq_length; reflexivity|]. intros k v v' K K'.
        assert (KL : k < List.length R) by (apply nth_error_Some; rewrite K; discriminate).
        unfold R' in K'. rewrite nth_error_seq' in K' by exact KL. injection K' as <-.
        destruct (got_nth T F w1 R ER1 k v K) as [y [Y1 Y2]].
        assert (HV : In v R) by (apply nth_error_In in K; exact K). pose proof (ER v HV) as HV2. apply nth_error_Some in HV2.
        destruct (nth_error (w_vars w) v) as [z|] eqn:Z; [|contradiction]. rewrite (extends_nth w w1 v z EXT Z) in Y1. injection Y1 as <-.
        exists z, (copy_of T z). split; [reflexivity|]. split; [rewrite DV, nth_error_app2 by lia; replace (List.length (w_vars w1) + k - List.length (w_vars w1)) with k by lia; exact Y2|].
        split; [lia|]. repeat split; reflexivity. }
      pose proof (CC _ _ CO) as [L1 H1]. pose proof (CC _ _ CA) as [L2 H2]. pose proof CR as [L3 H3].
      split; [rewrite !app_length, L1, L2, L3; reflexivity|]. intros k v v' K K'.
      destruct (Nat.lt_ge_cases k (List.length O)) as [KL|KL].
      { rewrite nth_error_app1 in K, K' by lia. apply (H1 k); assumption. }
      rewrite nth_error_app2 in K by lia. rewrite nth_error_app2 in K' by lia. rewrite L1 in K'.
      destruct (Nat.lt_ge_cases (k - List.length O) (List.length A)) as [KA|KA].
      { rewrite nth_error_app1 in K, K' by lia. apply (H2 (k - List.length O)); assumption. }
      rewrite nth_error_app2 in K by lia. rewrite nth_error_app2 in K' by lia. rewrite L2 in K'. apply (H3 (k - List.length O - List.length A)); assumption. }
    destruct CW as [CL CW].
    exists (set_vars wD vs). split; [exact Q1|]. split; [|split; [reflexivity|split; [reflexivity|]]].
    + assert (CP : copied w (set_vars wD vs) keep (O ++ A ++ R) (O' ++ A' ++ R')).
      { split; [exact CL|]. intros k v v' K K'. destruct (CW k v v' K K') as [y [y' [Y1 [Y2 [Y3 [Y4 [Y5 Y6]]]]]]].
        destruct (Q4 k v v' K K') as [z [z' [Z1 [Z2 Z3]]]]. rewrite Y2 in Z2. injection Z2 as <-.
        rewrite (extends_nth w wD v y (extends_trans _ _ _ EXT ED) Y1) in Z1. injection Z1 as <-.
        exists y, (mkVar (if keep then v_name y else v_name y') (v_dt y') (v_val y')). split; [exact Y1|]. split; [exact Z3|]. split; [exact Y3|].
        split; [exact Y4|]. split; [exact Y5|]. destruct keep; [reflexivity|exact Y6]. }
      destruct (copied_app T F w (set_vars wD vs) keep O O' (A ++ R) (A' ++ R')) as [C1 C2]; [symmetry; apply CO|exact CP|].
      split; [exact C1|]. split; [exact C2|]. split.
      * exists x, x'. split; [exact X1|]. split; [cbn [set_vars w_wts]; rewrite DW; exact X2|]. split; [exact X3|]. split; [exact X4|]. split; [|exact NALL].
        destruct X5 as [L H]. split; [exact L|]. intros k v v' K K'. destruct (H k v v' K K') as [y [y' [Y1 [Y2 Y3]]]]. exists y, y'. split; [exact Y1|]. split; [|exact Y3].
        cbn [set_vars w_vars]. rewrite Q3; [apply (extends_nth w1 wD v' y' ED Y2)|].
        intro HI. rewrite app_assoc in NALL. apply nodup_app_iff in NALL. destruct NALL as [_ [_ DD]]. apply (DD v' HI). apply nth_error_In in K'. exact K'.
      * destruct (extends_trans _ _ _ EXT ED) as [[l' L'] [B1 B2]]. split; [|split; [exact B1|exact B2]].
        apply prefix_eq. intros j J. cbn [set_vars w_vars]. rewrite Q3.
        { rewrite L', nth_error_app1 by exact J. reflexivity. }
        intro HI. rewrite !in_app_iff in HI. destruct HI as [H|[H|H]]; [specialize (BO j H)|specialize (BA j H)|specialize (BR j H)]; lia.
    + intros v. unfold dt_at. cbn [set_vars w_vars]. destruct (in_dec Nat.eq_dec v (O' ++ A' ++ R')) as [HI|HI]; [|rewrite Q3 by exact HI; reflexivity].
      apply In_nth_error in HI. destruct HI as [k HK].
      assert (KL : k < List.length (O ++ A ++ R)) by (rewrite <- CL; apply nth_error_Some; rewrite HK; discriminate).
      apply nth_error_Some in KL. destruct (nth_error (O ++ A ++ R) k) as [u|] eqn:HU; [|contradiction].
      destruct (Q4 k u v HU HK) as [z [z' [Z1 [Z2 Z3]]]]. rewrite Z2, Z3. reflexivity.
Qed.
Lemma base_objs : forall w w' b c O A wid d ko ka, w_objs w = w_objs w' -> base_ok T F w b c O A wid d ko ka -> base_ok T F w' b c O A wid d ko ka.
Proof.
  intros w w' b c O A wid d ko ka E [S LK RG N OW]. constructor; try assumption; [apply (looks_objs T F w w'); assumption|].
  destruct RG as [o H]. exists o. rewrite <- E. exact H.
Qed.
Lemma jac_base : forall w w' b o, nth_error (w_objs w) b = Some o -> o_cls o = CAutoDiff -> extends w w' -> jac_ok w b = true -> jac_ok w' b = true.
Proof.
  intros w w' b o HB HC [[lv LV] [_ [lo LO]]] J. unfold jac_ok in *. cbn [jac_ok_at] in *. rewrite HB, HC in J.
  assert (HB' : nth_error (w_objs w') b = Some o) by (rewrite LO, nth_error_app1; [exact HB|apply nth_error_Some; rewrite HB; discriminate]).
  rewrite HB', HC.
  assert (S : forall p, same_dt w p = true -> same_dt w' p = true).
  { intros [x y] H. unfold same_dt in *. destruct x; try discriminate. destruct y; try discriminate.
    destruct (nth_error (w_vars w) v) as [a|] eqn:A; [|discriminate]. destruct (nth_error (w_vars w) v0) as [a'|] eqn:A'; [|discriminate].
    rewrite LV, !nth_error_app1 by (apply nth_error_Some; congruence). rewrite A, A'. exact H. }
  assert (C : forall k l, check_tmp w o k l = true -> check_tmp w' o k l = true).
  { intros k l H. unfold check_tmp in *. destruct (getattr o k) as [[]|]; try discriminate. destruct l as [l|]; [|discriminate].
    apply andb_true_iff in H. destruct H as [H1 H2]. apply andb_true_iff. split; [exact H1|]. rewrite forallb_forall in *. intros p Hp. apply S, H2, Hp. }
  destruct (getattr o "_autograd_mode") as [[| | | | | | m | | | |]|]; try discriminate. destruct m; try (apply andb_true_iff in J; destruct J as [J1 J2]; apply andb_true_iff; split); apply C; assumption.
Qed.
Lemma named_ne : forall new nm, String.eqb (copy_name new nm) "" = false.
Proof. intros. unfold copy_name. destruct new as [s|]; [destruct (String.eqb_spec s "") as [_|D]; [apply copy_ne|apply String.eqb_neq; exact D]|apply copy_ne]. Qed.
Lemma named_objs : forall w w' i s, w_objs w = w_objs w' -> named w i s -> named w' i s.
Proof. intros w w' i s E [o H]. exists o. rewrite <- E. exact H. Qed.

(** the attribute in the last place *)
Lemma last_attr : forall o ka k l x, attr_vals o (ka ++ [k]) = Some (l ++ [x]) -> getattr o k = Some x.
Proof.
  intros o ka k l x H. destruct (attr_vals_map F o _ _ H) as [L G]. rewrite !app_length in L. cbn in L.
  apply (G (List.length ka)); [rewrite nth_error_app2, Nat.sub_diag by lia; reflexivity|]. replace (List.length ka) with (List.length l) by lia. rewrite nth_error_app2, Nat.sub_diag by lia; reflexivity.
Qed.
Lemma last_attr2 : forall o ka k k' l x x', attr_vals o (ka ++ [k; k']) = Some (l ++ [x; x']) -> getattr o k = Some x /\ getattr o k' = Some x'.
Proof.
  intros o ka k k' l x x' H. destruct (attr_vals_map F o _ _ H) as [L G]. rewrite !app_length in L. cbn in L. assert (LE : List.length ka = List.length l) by lia.
  split.
  - apply (G (List.length ka)); [rewrite nth_error_app2, Nat.sub_diag by lia; reflexivity|]. rewrite LE, nth_error_app2, Nat.sub_diag by lia; reflexivity.
  - apply (G (S (List.length ka))); rewrite nth_error_app2 by lia; [replace (S (List.length ka) - List.length ka) with 1 by lia|replace (S (List.length ka) - List.length l) with 1 by lia]; reflexivity.
Qed.

Lemma copy_robust : forall w i b c O A wid d ko ka bn l r fl nm new keep,
  copyable w b c O A wid d ko ka bn -> looks w i CRobust O (A ++ [r]) wid d -> registered w i ko (ka ++ ["log_loss_radius"]) ->
  wrapper_has w i b l fl -> named w i nm -> exist w [r] -> ~ In "log_loss_radius" (ko ++ ka) ->
  exists w' i' b' O' A' r' wid' ko' ka', copy one dflt i new keep w = Ret w' i' /\
    is_copy w w' keep O (A ++ [r]) wid O' (A' ++ [r']) wid' /\
    looks w' i' CRobust O' (A' ++ [r']) wid' d /\ registered w' i' ko' (ka' ++ ["log_loss_radius"]) /\ wrapper_has w' i' b' l fl /\ named w' i' (copy_name new nm) /\
    looks w' b' c O' A' wid' d /\ registered w' b' ko' ka' /\ named w' b' (bn ++ "_copy")%string /\
    (forall f m op, c = CAutoDiff -> autodiff_has w b f m op -> autodiff_has w' b' f m default_opts /\ jac_ok w' i' = true).
Proof.
  intros w i b c O A wid d ko ka bn l r fl nm new keep CB LK RG [o [HO [G1 [G2 G3]]]] [o2 [HO2 HN]] ER NR.
  pose proof LK as [[o3 [HO3 [HC [V1 V2]]]] _ _]. rewrite HO in HO2, HO3. injection HO2 as <-. injection HO3 as <-.
  destruct RG as [o4 [HO4 [R1 R2]]]. rewrite HO in HO4. injection HO4 as <-.
  assert (GR : getattr o "log_loss_radius" = Some (PVar r)).
  { unfold aux_vars in V2. rewrite R2, map_app in V2. apply (last_attr o ka _ _ _ V2). }
  unfold copy. destruct (List.length (w_objs w)) as [|n] eqn:LEN; [exfalso; assert (HH : i < List.length (w_objs w)) by (apply nth_error_Some; rewrite HO; discriminate); lia|].
  destruct (copy_base n w b c O A wid d ko ka bn None false CB) as [w1 [b' [O' [A' [wid' [ko' [ka' [C1 [C2 [C3 [C4 [C5 [C6 [C7 C8]]]]]]]]]]]]]].
  remember (S n) as sn eqn:ESN. cbn [copy_at]. rewrite HO, HC. cbv zeta. rewrite G1, G2, GR, G3. unfold the_name. rewrite HN.
  unfold bind at 1. subst sn. rewrite C1.
  pose proof C3 as [_ [_ [_ EXT]]]. pose proof EXT as [[lv LV] [_ [lo LOBJ]]].
  assert (ER1 : exist w1 [r]) by (intros v Hv; specialize (ER v Hv); rewrite LV, app_length; lia).
  unfold bind at 1. cbn [copy_val].
  destruct (copy_vars_eq T F [r] w1 ER1) as [CV CL]. cbn [mapM] in CV. unfold bind in CV. destruct (copy_var r w1) as [w2 r'|w2 e]; [|discriminate CV].
  cbn [ret List.length seq] in CV. injection CV as W2 R'. 
  assert (B2 : base_ok T F w2 b' c O' A' wid' d ko' ka') by (apply (base_objs w1); [rewrite W2; reflexivity|exact C4]).
  unfold bind at 1. rewrite (make_robust_eq T F w2 b' c O' A' wid' d ko' ka' l r' fl (Some (copy_name new nm)) B2).
  assert (NR' : ~ In "log_loss_radius" (ko' ++ ka')) by (apply C6; exact NR).
  assert (MR : mem "log_loss_radius" (ko' ++ ka') = false) by (apply mem_notIn; exact NR'). rewrite MR.
  destruct (rob_view T F w2 b' c O' A' wid' d ko' ka' l r' fl (Some (copy_name new nm)) B2 NR') as [P1 [P2 [P3 [P4 P5]]]].
  rewrite named_ne in P5.
  set (o' := rob_at T F w2 b' l r' fl (Some (copy_name new nm)) wid' ko' ka' O' A') in *. set (wD := push T F w2 o') in *.
  assert (OBJ2 : w_objs w2 = w_objs w1) by (rewrite W2; reflexivity). rewrite OBJ2 in *.
  destruct (wrap_finish w w1 wD i o o' O A [r] wid O' A' wid' keep HO V1 V2) as [w' [Q1 [Q2 [Q3 [Q4 Q5]]]]].
  - intros v Hv. rewrite app_assoc in Hv. apply in_app_or in Hv. destruct Hv as [Hv|Hv]; [apply (c_exist _ _ _ _ _ _ _ _ _ _ CB); exact Hv|apply ER; exact Hv].
  - exact C3.
  - unfold wD, push. cbn [w_vars]. rewrite W2. reflexivity.
  - unfold wD, push. cbn [w_wts]. rewrite W2. reflexivity.
  - unfold wD, push. cbn [w_objs]. rewrite OBJ2. reflexivity.
  - destruct P1 as [[q [K1 [K2 [K3 K4]]]] _ _]. unfold wD, push in K1. cbn [w_objs] in K1. rewrite OBJ2, nth_error_app2, Nat.sub_diag in K1 by lia. cbn [nth_error] in K1. injection K1 as <-. exact K3.
  - destruct P1 as [[q [K1 [K2 [K3 K4]]]] _ _]. unfold wD, push in K1. cbn [w_objs] in K1. rewrite OBJ2, nth_error_app2, Nat.sub_diag in K1 by lia. cbn [nth_error] in K1. injection K1 as <-.
    cbn [List.length seq]. rewrite <- R'. exact K4.
  - cbn [List.length seq] in Q2. rewrite <- R' in Q2.
    assert (EWD : extends w2 wD) by exact P3.
    assert (BL : looks wD b' c O' A' wid' d).
    { pose proof (b_looks _ _ _ _ _ _ _ _ _ _ _ B2) as [[q [K1 [K2 [K3 K4]]]] KW KD].
      assert (K1' : nth_error (w_objs wD) b' = Some q) by (unfold wD, push; cbn [w_objs]; rewrite nth_error_app1; [exact K1|apply nth_error_Some; rewrite K1; discriminate]).
      assert (SC : simple (o_cls q)) by (rewrite K2; apply B2).
      constructor; [exists q; repeat split; assumption| |].
      - unfold weight in *. rewrite (simple_weight T F _ w2 b' q K1 SC) in KW. rewrite (simple_weight T F _ wD b' q K1' SC). exact KW.
      - unfold dim in *. rewrite (simple_dim T F _ w2 b' q K1 SC) in KD. rewrite (simple_dim T F _ wD b' q K1' SC). exact KD. }
    assert (UP : forall q, nth_error (w_objs w1) b' = Some q -> nth_error (w_objs w') b' = Some q).
    { intros q K. rewrite Q3. unfold wD, push. cbn [w_objs]. rewrite OBJ2, nth_error_app1; [exact K|apply nth_error_Some; rewrite K; discriminate]. }
    exists w', (List.length (w_objs w1)), b', O', A', r', wid', ko', ka'.
    split; [exact Q1|]. split; [exact Q2|].
    split; [apply (looks_objs T F wD); [symmetry; exact Q3|exact P1]|].
    split; [destruct P2 as [q H]; exists q; rewrite Q3; exact H|].
    split; [destruct P4 as [q H]; exists q; rewrite Q3; exact H|].
    split; [apply (named_objs wD); [symmetry; exact Q3|exact P5]|].
    split; [apply (looks_objs T F wD); [symmetry; exact Q3|exact BL]|].
    split; [destruct (b_regs _ _ _ _ _ _ _ _ _ _ _ C4) as [q [K H]]; exists q; split; [apply UP; exact K|exact H]|].
    split; [destruct C5 as [q [K H]]; exists q; split; [apply UP; exact K|exact H]|].
    intros f m op HCA AH. destruct (C8 f m op HCA AH) as [[q [K H]] J]. split; [exists q; split; [apply UP; exact K|exact H]|].
    (* jacobians of the wrapper are those of the base *)
    rewrite (jac_ok_dts T F w' wD _ Q3 Q5).
    pose proof (b_looks _ _ _ _ _ _ _ _ _ _ _ C4) as [[q2 [K1 [K2 _]]] _ _].
    assert (EW1 : extends w1 wD).
    { apply (extends_trans _ w2); [|exact EWD]. rewrite W2. split; [eexists; reflexivity|]. split; exists []; symmetry; apply app_nil_r. }
    assert (JD : jac_ok wD b' = true) by (apply (jac_base w1 wD b' q2 K1); [rewrite K2; exact HCA|exact EW1|exact J]).
    destruct P4 as [q3 [K3 [K4 _]]]. pose proof P1 as [[q4 [K5 [K6 _]]] _ _]. rewrite K3 in K5. injection K5 as <-.
    unfold jac_ok in *. assert (LL : List.length (w_objs wD) = S (List.length (w_objs w1))) by (unfold wD, push; cbn [w_objs]; rewrite OBJ2, app_length; cbn [List.length]; lia).
    rewrite LL in *. remember (S (List.length (w_objs w1))) as m1 eqn:EM. cbn [jac_ok_at]. rewrite K3, K6, K4.
    assert (K1' : nth_error (w_objs wD) b' = Some q2) by (rewrite <- Q3; apply UP; exact K1).
    rewrite EM. cbn [jac_ok_at] in JD |- *. rewrite K1', K2, HCA in *. exact JD.
Qed.
Lemma copy_gnc : forall w i b c O A wid d ko ka bn l r ctl fl nm new keep, is_gnc l = true ->
  copyable w b c O A wid d ko ka bn -> looks w i CGNC O (A ++ [r; ctl]) wid d -> registered w i ko (ka ++ ["log_loss_radius"; "gnc_control_val"]) ->
  wrapper_has w i b l fl -> named w i nm -> exist w [r; ctl] -> ~ In "log_loss_radius" (ko ++ ka) -> ~ In "gnc_control_val" (ko ++ ka) ->
  exists w' i' b' O' A' r' ctl' wid' ko' ka', copy one dflt i new keep w = Ret w' i' /\
    is_copy w w' keep O (A ++ [r; ctl]) wid O' (A' ++ [r'; ctl']) wid' /\
    looks w' i' CGNC O' (A' ++ [r'; ctl']) wid' d /\ registered w' i' ko' (ka' ++ ["log_loss_radius"; "gnc_control_val"]) /\ wrapper_has w' i' b' l fl /\ named w' i' (copy_name new nm) /\
    looks w' b' c O' A' wid' d /\ registered w' b' ko' ka' /\ named w' b' (bn ++ "_copy")%string /\
    (forall f m op, c = CAutoDiff -> autodiff_has w b f m op -> autodiff_has w' b' f m default_opts /\ jac_ok w' i' = true).
Proof.
  intros w i b c O A wid d ko ka bn l r ctl fl nm new keep GL CB LK RG [o [HO [G1 [G2 G3]]]] [o2 [HO2 HN]] ER NR NG.
  pose proof LK as [[o3 [HO3 [HC [V1 V2]]]] _ _]. rewrite HO in HO2, HO3. injection HO2 as <-. injection HO3 as <-.
  destruct RG as [o4 [HO4 [R1 R2]]]. rewrite HO in HO4. injection HO4 as <-.
  assert (GR : getattr o "log_loss_radius" = Some (PVar r) /\ getattr o "gnc_control_val" = Some (PVar ctl)).
  { unfold aux_vars in V2. rewrite R2, map_app in V2. cbn [map] in V2. apply (last_attr2 o ka _ _ _ _ _ V2). }
  destruct GR as [GR GC].
  unfold copy. destruct (List.length (w_objs w)) as [|n] eqn:LEN; [exfalso; assert (HH : i < List.length (w_objs w)) by (apply nth_error_Some; rewrite HO; discriminate); lia|].
  destruct (copy_base n w b c O A wid d ko ka bn None false CB) as [w1 [b' [O' [A' [wid' [ko' [ka' [C1 [C2 [C3 [C4 [C5 [C6 [C7 C8]]]]]]]]]]]]]].
  remember (S n) as sn eqn:ESN. cbn [copy_at]. rewrite HO, HC. cbv zeta. rewrite G1, G2, GR, GC, G3. unfold the_name. rewrite HN.
  unfold bind at 1. subst sn. rewrite C1.
  pose proof C3 as [_ [_ [_ EXT]]]. pose proof EXT as [[lv LV] [_ [lo LOBJ]]].
  assert (ER1 : exist w1 [r; ctl]) by (intros v Hv; specialize (ER v Hv); rewrite LV, app_length; lia).
  unfold bind at 1. cbn [copy_val].
  destruct (copy_vars_eq T F [r; ctl] w1 ER1) as [CV CL]. cbn [mapM] in CV. unfold bind in CV. destruct (copy_var r w1) as [w2a r'|w2 e]; [|discriminate CV].
  unfold bind at 1. destruct (copy_var ctl w2a) as [w2 ctl'|w2 e]; [|discriminate CV].
  cbn [ret List.length seq] in CV. injection CV as W2 R' RC'.
  assert (B2 : base_ok T F w2 b' c O' A' wid' d ko' ka') by (apply (base_objs w1); [rewrite W2; reflexivity|exact C4]).
  unfold bind at 1. rewrite (make_gnc_eq T F w2 b' c O' A' wid' d ko' ka' l r' ctl' fl (Some (copy_name new nm)) B2). rewrite GL. cbn [negb].
  assert (NR' : ~ In "log_loss_radius" (ko' ++ ka')) by (apply C6; exact NR).
  assert (MR : mem "log_loss_radius" (ko' ++ ka') = false) by (apply mem_notIn; exact NR'). rewrite MR.
  assert (NG' : ~ In "gnc_control_val" (ko' ++ ka')) by (apply C7; exact NG).
  assert (MG : mem "gnc_control_val" (ko' ++ ka') = false) by (apply mem_notIn; exact NG'). rewrite MG.
  destruct (gnc_view T F w2 b' c O' A' wid' d ko' ka' l r' ctl' fl (Some (copy_name new nm)) B2 NR' NG') as [P1 [P2 [P3 [P4 P5]]]].
  rewrite named_ne in P5.
  set (o' := gnc_at T F w2 b' l r' ctl' fl (Some (copy_name new nm)) wid' ko' ka' O' A') in *. set (wD := push T F w2 o') in *.
  assert (OBJ2 : w_objs w2 = w_objs w1) by (rewrite W2; reflexivity). rewrite OBJ2 in *.
  destruct (wrap_finish w w1 wD i o o' O A [r; ctl] wid O' A' wid' keep HO V1 V2) as [w' [Q1 [Q2 [Q3 [Q4 Q5]]]]].
  - intros v Hv. rewrite app_assoc in Hv. apply in_app_or in Hv. destruct Hv as [Hv|Hv]; [apply (c_exist _ _ _ _ _ _ _ _ _ _ CB); exact Hv|apply ER; exact Hv].
  - exact C3.
  - unfold wD, push. cbn [w_vars]. rewrite W2. reflexivity.
  - unfold wD, push. cbn [w_wts]. rewrite W2. reflexivity.
  - unfold wD, push. cbn [w_objs]. rewrite OBJ2. reflexivity.
  - destruct P1 as [[q [K1 [K2 [K3 K4]]]] _ _]. unfold wD, push in K1. cbn [w_objs] in K1. rewrite OBJ2, nth_error_app2, Nat.sub_diag in K1 by lia. cbn [nth_error] in K1. injection K1 as <-. exact K3.
  - destruct P1 as [[q [K1 [K2 [K3 K4]]]] _ _]. unfold wD, push in K1. cbn [w_objs] in K1. rewrite OBJ2, nth_error_app2, Nat.sub_diag in K1 by lia. cbn [nth_error] in K1. injection K1 as <-.
    cbn [List.length seq]. rewrite <- RC', <- R'. exact K4.
  - cbn [List.length seq] in Q2. rewrite <- RC', <- R' in Q2.
    assert (EWD : extends w2 wD) by exact P3.
    assert (BL : looks wD b' c O' A' wid' d).
    { pose proof (b_looks _ _ _ _ _ _ _ _ _ _ _ B2) as [[q [K1 [K2 [K3 K4]]]] KW KD].
      assert (K1' : nth_error (w_objs wD) b' = Some q) by (unfold wD, push; cbn [w_objs]; rewrite nth_error_app1; [exact K1|apply nth_error_Some; rewrite K1; discriminate]).
      assert (SC : simple (o_cls q)) by (rewrite K2; apply B2).
      constructor; [exists q; repeat split; assumption| |].
      - unfold weight in *. rewrite (simple_weight T F _ w2 b' q K1 SC) in KW. rewrite (simple_weight T F _ wD b' q K1' SC). exact KW.
      - unfold dim in *. rewrite (simple_dim T F _ w2 b' q K1 SC) in KD. rewrite (simple_dim T F _ wD b' q K1' SC). exact KD. }
    assert (UP : forall q, nth_error (w_objs w1) b' = Some q -> nth_error (w_objs w') b' = Some q).
    { intros q K. rewrite Q3. unfold wD, push. cbn [w_objs]. rewrite OBJ2, nth_error_app1; [exact K|apply nth_error_Some; rewrite K; discriminate]. }
    exists w', (List.length (w_objs w1)), b', O', A', r', ctl', wid', ko', ka'.
    split; [exact Q1|]. split; [exact Q2|].
    split; [apply (looks_objs T F wD); [symmetry; exact Q3|exact P1]|].
    split; [destruct P2 as [q H]; exists q; rewrite Q3; exact H|].
    split; [destruct P4 as [q H]; exists q; rewrite Q3; exact H|].
    split; [apply (named_objs wD); [symmetry; exact Q3|exact P5]|].
    split; [apply (looks_objs T F wD); [symmetry; exact Q3|exact BL]|].
    split; [destruct (b_regs _ _ _ _ _ _ _ _ _ _ _ C4) as [q [K H]]; exists q; split; [apply UP; exact K|exact H]|].
    split; [destruct C5 as [q [K H]]; exists q; split; [apply UP; exact K|exact H]|].
    intros f m op HCA AH. destruct (C8 f m op HCA AH) as [[q [K H]] J]. split; [exists q; split; [apply UP; exact K|exact H]|].
    (* jacobians of the wrapper are those of the base *)
    rewrite (jac_ok_dts T F w' wD _ Q3 Q5).
    pose proof (b_looks _ _ _ _ _ _ _ _ _ _ _ C4) as [[q2 [K1 [K2 _]]] _ _].
    assert (EW1 : extends w1 wD).
    { apply (extends_trans _ w2); [|exact EWD]. rewrite W2. split; [eexists; reflexivity|]. split; exists []; symmetry; apply app_nil_r. }
    assert (JD : jac_ok wD b' = true) by (apply (jac_base w1 wD b' q2 K1); [rewrite K2; exact HCA|exact EW1|exact J]).
    destruct P4 as [q3 [K3 [K4 _]]]. pose proof P1 as [[q4 [K5 [K6 _]]] _ _]. rewrite K3 in K5. injection K5 as <-.
    unfold jac_ok in *. assert (LL : List.length (w_objs wD) = S (List.length (w_objs w1))) by (unfold wD, push; cbn [w_objs]; rewrite OBJ2, app_length; cbn [List.length]; lia).
    rewrite LL in *. remember (S (List.length (w_objs w1))) as m1 eqn:EM. cbn [jac_ok_at]. rewrite K3, K6, K4.
    assert (K1' : nth_error (w_objs wD) b' = Some q2) by (rewrite <- Q3; apply UP; exact K1).
    rewrite EM. cbn [jac_ok_at] in JD |- *. rewrite K1', K2, HCA in *. exact JD.
Qed.
End Copy.
