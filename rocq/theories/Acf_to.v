(** to(dtype) on cost functions (C99). *)
From Coq Require Import List String Ascii Arith Bool Lia.
From Verif Require Import Mp_model Acf_model Acf_spec Acf_base Acf_make Acf_auto Acf_wrap Acf_robust Acf_copy Acf_copy2.
Import ListNotations.
Local Open Scope string_scope.
Local Open Scope list_scope.
Local Open Scope nat_scope.

Section To.
Variables T F : Type.
Variable conv : dtype -> T -> T.
Variable d : dtype.
Implicit Types (w : world T F) (o : cobj F).

(** the variable after tensor.to(d) *)
Definition conv1 (x : var T) : var T := mkVar (v_name x) d (if dt_eqb (v_dt x) d then v_val x else conv d (v_val x)).
Lemma conv1_twice : forall x, conv1 (conv1 x) = conv1 x.
Proof. intros x. unfold conv1. cbn [v_name v_dt v_val]. destruct d; reflexivity. Qed.
Record eff w w' (L : list nat) : Prop := mkEff {
  e_objs : w_objs w' = w_objs w; e_wts : w_wts w' = w_wts w; e_len : List.length (w_vars w') = List.length (w_vars w);
  e_any : forall v x, nth_error (w_vars w) v = Some x -> nth_error (w_vars w') v = Some x \/ nth_error (w_vars w') v = Some (conv1 x);
  e_in : forall v x, In v L -> nth_error (w_vars w) v = Some x -> nth_error (w_vars w') v = Some (conv1 x);
  e_ex : exist w L }.
Lemma eff_nil : forall w, eff w w [].
Proof. intros w. constructor; try reflexivity; [intros v x H; left; exact H|intros v x []|intros v []]. Qed.
Lemma eff_app : forall w1 w2 w3 L L', eff w1 w2 L -> eff w2 w3 L' -> eff w1 w3 (L ++ L').
Proof.
  intros w1 w2 w3 L L' [A1 A2 A3 A4 A5 A6] [B1 B2 B3 B4 B5 B6]. constructor; try congruence.
  - intros v x H. destruct (A4 v x H) as [K|K]; destruct (B4 v _ K) as [K'|K']; rewrite ?conv1_twice in K'; auto.
  - intros v x HI H. apply in_app_or in HI. destruct HI as [HI|HI].
    + specialize (A5 v x HI H). destruct (B4 v _ A5) as [K'|K']; rewrite ?conv1_twice in K'; exact K'.
    + destruct (A4 v x H) as [K|K]; specialize (B5 v _ HI K); rewrite ?conv1_twice in B5; exact B5.
  - intros v Hv. apply in_app_or in Hv. destruct Hv as [Hv|Hv]; [apply A6; exact Hv|]. specialize (B6 v Hv). lia.
Qed.
Lemma to_var_eff : forall v w w' u, to_var conv d v w = Ret w' u -> eff w w' [v].
Proof.
  intros v w w' u H. unfold to_var in H. destruct (nth_error (w_vars w) v) as [x|] eqn:X; [|discriminate]. injection H as <- _. fold (conv1 x).
  assert (VL : v < List.length (w_vars w)) by (apply nth_error_Some; rewrite X; discriminate).
  constructor; try reflexivity; cbn [set_vars w_vars].
  - apply upd_len.
  - intros v' x' H'. destruct (Nat.eq_dec v v') as [<-|D]; [right|left; rewrite upd_other by exact D; exact H'].
    rewrite X in H'. injection H' as <-. apply upd_same. exact VL.
  - intros v' x' [<-|[]] H'. rewrite X in H'. injection H' as <-. apply upd_same. exact VL.
  - intros v' [<-|[]]. exact VL.
Qed.
Lemma to_vals_eff : forall l w w' u, to_vals conv d l w = Ret w' u -> exists vs, l = map PVar vs /\ eff w w' vs.
Proof.
  induction l as [|x l IH]; intros w w' u H; cbn [to_vals] in H.
  - unfold ret in H. injection H as <- _. exists []. split; [reflexivity|apply eff_nil].
  - unfold bind in H. destruct x; cbn [to_val] in H; try (unfold raise in H; discriminate H).
    destruct (to_var conv d v w) as [w1 a|w1 e] eqn:TV; [|discriminate]. destruct (IH w1 w' u H) as [vs [E1 E2]].
    exists (v :: vs). split; [rewrite E1; reflexivity|]. apply (eff_app w w1 w' [v] vs); [apply (to_var_eff v w w1 a TV)|exact E2].
Qed.
Lemma map_PVar_inj : forall a b, map (@PVar F) a = map PVar b -> a = b.
Proof. induction a as [|x a IH]; intros [|y b] H; try discriminate H; [reflexivity|]. cbn [map] in H. injection H as -> H. rewrite (IH b H). reflexivity. Qed.
Lemma to_attr_eff : forall o k w w' u, to_attr_list conv d o k w = Ret w' u -> exists l, getattr o k = Some (PVars l) /\ eff w w' l.
Proof.
  intros o k w w' u H. unfold to_attr_list in H. destruct (getattr o k) as [[]|]; try (unfold raise in H; discriminate H).
  exists l. split; [reflexivity|]. destruct (to_vals_eff _ _ _ _ H) as [vs [E1 E2]]. apply map_PVar_inj in E1. subst. exact E2.
Qed.
(** the scratch variables jacobians() will update, by mode *)
Definition scratch_keys (m : mode) : list string :=
  match m with DENSE => ["_tmp_optim_vars"] | LOOP_BATCH => ["_tmp_optim_vars_for_loop"; "_tmp_aux_vars_for_loop"] | VMAP => ["_tmp_optim_vars"; "_tmp_aux_vars"] end.
Lemma to_eff : forall i w w' u, to conv d i w = Ret w' u ->
  exists L o O A, eff w w' L /\ nth_error (w_objs w) i = Some o /\ optim_vars o = Some (map PVar O) /\ aux_vars o = Some (map PVar A) /\
    (forall v, In v (O ++ A) -> In v L) /\
    (exists wid x, weight w i = Some wid /\ nth_error (w_wts w) wid = Some x /\ (forall v, In v (w_aux x) -> In v L)) /\
    (forall m k, o_cls o = CAutoDiff -> getattr o "_autograd_mode" = Some (PMode m) -> In k (scratch_keys m) ->
       exists t, getattr o k = Some (PVars t) /\ (forall v, In v t -> In v L)).
Proof.
  intros i w w' u H. unfold to in H. destruct (nth_error (w_objs w) i) as [o|] eqn:HO; [|discriminate].
  destruct (optim_vars o) as [a|] eqn:OV; [|discriminate]. destruct (aux_vars o) as [b|] eqn:AV; [|discriminate]. destruct (weight w i) as [wid|] eqn:WT; [|discriminate].
  unfold bind in H. destruct (to_vals conv d a w) as [w1 u1|] eqn:H1; [|discriminate]. destruct (to_vals conv d b w1) as [w2 u2|] eqn:H2; [|discriminate].
  destruct (to_vals_eff _ _ _ _ H1) as [O [-> E1]]. destruct (to_vals_eff _ _ _ _ H2) as [A [-> E2]].
  destruct (nth_error (w_wts w2) wid) as [x|] eqn:X; [|discriminate].
  destruct (to_vals conv d (map PVar (w_aux x)) w2) as [w3 u3|] eqn:H3; [|discriminate].
  destruct (to_vals_eff _ _ _ _ H3) as [W [EW E3]]. apply map_PVar_inj in EW. subst W.
  assert (X0 : nth_error (w_wts w) wid = Some x) by (rewrite <- (e_wts _ _ _ E1), <- (e_wts _ _ _ E2); exact X).
  pose proof (eff_app _ _ _ _ _ (eff_app _ _ _ _ _ E1 E2) E3) as E0.
  assert (FIN : exists S, eff w3 w' S /\ (forall m k, o_cls o = CAutoDiff -> getattr o "_autograd_mode" = Some (PMode m) -> In k (scratch_keys m) ->
       exists t, getattr o k = Some (PVars t) /\ (forall v, In v t -> In v S))).
  { destruct (o_cls o) eqn:HC.
    1,3,4: unfold ret in H; injection H as <- _; exists []; split; [apply eff_nil|intros m k Q; discriminate Q].
    destruct (to_attr_list conv d o "_tmp_optim_vars" w3) as [w4 u4|] eqn:H4; [|discriminate]. destruct (to_attr_eff _ _ _ _ _ H4) as [t1 [T1 F1]].
    destruct (getattr o "_autograd_mode") as [[| | | | | | md | | | |]|];
      try (unfold ret in H; injection H as <- _; exists t1; split; [exact F1|intros m k _ Q; discriminate Q]).
    destruct md.
    - unfold ret in H; injection H as <- _. exists t1. split; [exact F1|]. intros m k _ Q. injection Q as <-. intros [<-|[]]. exists t1. split; [exact T1|auto].
    - destruct (to_attr_list conv d o "_tmp_optim_vars_for_loop" w4) as [w5 u5|] eqn:H5; [|discriminate]. destruct (to_attr_eff _ _ _ _ _ H5) as [t2 [T2 F2]].
      destruct (to_attr_eff _ _ _ _ _ H) as [t3 [T3 F3]]. exists ((t1 ++ t2) ++ t3). split; [apply (eff_app _ w5); [apply (eff_app _ w4); assumption|exact F3]|].
      intros m k _ Q. injection Q as <-. intros [<-|[<-|[]]]; [exists t2|exists t3]; (split; [assumption|intros v Hv; rewrite !in_app_iff; tauto]).
    - destruct (to_attr_eff _ _ _ _ _ H) as [t2 [T2 F2]]. exists (t1 ++ t2). split; [apply (eff_app _ w4); assumption|].
      intros m k _ Q. injection Q as <-. intros [<-|[<-|[]]]; [exists t1|exists t2]; (split; [assumption|intros v Hv; rewrite !in_app_iff; tauto]). }
  destruct FIN as [S [ES SK]].
  exists ((((O ++ A) ++ w_aux x)) ++ S), o, O, A. split; [apply (eff_app _ w3); assumption|]. split; [first [exact HO|reflexivity]|]. split; [exact OV|]. split; [exact AV|].
  split; [intros v Hv; rewrite !in_app_iff in *; tauto|]. split.
  - exists wid, x. split; [first [exact WT|reflexivity]|]. split; [exact X0|]. intros v Hv. rewrite !in_app_iff. tauto.
  - intros m k Q1 Q2 Q3. destruct (SK m k Q1 Q2 Q3) as [t [TT TI]]. exists t. split; [exact TT|]. intros v Hv. rewrite !in_app_iff. right. apply TI. exact Hv.
Qed.
(** the same for the whole objective *)
Lemma to_all_eff : forall l w w' u, to_all conv d l w = Ret w' u ->
  exists L, eff w w' L /\ forall i, In i l -> exists o O A, nth_error (w_objs w) i = Some o /\ optim_vars o = Some (map PVar O) /\ aux_vars o = Some (map PVar A) /\
    (forall v, In v (O ++ A) -> In v L) /\
    (exists wid x, weight w i = Some wid /\ nth_error (w_wts w) wid = Some x /\ (forall v, In v (w_aux x) -> In v L)) /\
    (forall m k, o_cls o = CAutoDiff -> getattr o "_autograd_mode" = Some (PMode m) -> In k (scratch_keys m) ->
       exists t, getattr o k = Some (PVars t) /\ (forall v, In v t -> In v L)).
Proof.
  induction l as [|i l IH]; intros w w' u H; cbn [to_all] in H.
  - unfold ret in H. injection H as <- _. exists []. split; [apply eff_nil|intros i []].
  - unfold bind in H. destruct (to conv d i w) as [w1 u1|] eqn:H1; [|discriminate].
    destruct (to_eff i w w1 u1 H1) as [L [o [O [A [E1 [B1 [B2 [B3 [B4 [B5 B6]]]]]]]]]]. destruct (IH w1 w' u H) as [L' [E2 C]].
    exists (L ++ L'). split; [apply (eff_app _ w1); assumption|]. intros j [<-|Hj].
    + exists o, O, A. split; [exact B1|]. split; [exact B2|]. split; [exact B3|]. split; [intros v Hv; apply in_or_app; left; apply B4; exact Hv|].
      split. { destruct B5 as [wid [x [X1 [X2 X3]]]]. exists wid, x. split; [exact X1|]. split; [exact X2|]. intros v Hv. apply in_or_app. left. apply X3; exact Hv. }
      intros m k Q1 Q2 Q3. destruct (B6 m k Q1 Q2 Q3) as [t [TT TI]]. exists t. split; [exact TT|]. intros v Hv. apply in_or_app. left. apply TI; exact Hv.
    + destruct (C j Hj) as [o' [O' [A' [C1 [C2 [C3 [C4 [C5 C6]]]]]]]]. rewrite (e_objs _ _ _ E1) in C1.
      exists o', O', A'. split; [exact C1|]. split; [exact C2|]. split; [exact C3|]. split; [intros v Hv; apply in_or_app; right; apply C4; exact Hv|].
      split. { destruct C5 as [wid [x [X1 [X2 X3]]]]. exists wid, x. rewrite (weight_objs T F w1 w) in X1 by apply (e_objs _ _ _ E1). rewrite (e_wts _ _ _ E1) in X2. split; [exact X1|]. split; [exact X2|]. intros v Hv. apply in_or_app. right. apply X3; exact Hv. }
      intros m k Q1 Q2 Q3. destruct (C6 m k Q1 Q2 Q3) as [t [TT TI]]. exists t. split; [exact TT|]. intros v Hv. apply in_or_app. right. apply TI; exact Hv.
Qed.
(** the checks of jacobians() after that *)
Lemma to_all_jac : forall l w w' u i o, to_all conv d l w = Ret w' u -> In i l -> nth_error (w_objs w) i = Some o -> o_cls o = CAutoDiff ->
  jac_ok w i = true -> jac_ok w' i = true.
Proof.
  intros l w w' u i o H HI HO HC J. destruct (to_all_eff l w w' u H) as [L [E C]].
  destruct (C i HI) as [o' [O [A [C1 [C2 [C3 [C4 [_ C6]]]]]]]]. rewrite HO in C1. injection C1 as <-.
  unfold jac_ok in *. cbn [jac_ok_at] in *. rewrite (e_objs _ _ _ E), HO, HC in *.
  assert (DT : forall v, In v L -> exists x, nth_error (w_vars w') v = Some x /\ v_dt x = d).
  { intros v Hv. pose proof (e_ex _ _ _ E v Hv) as VL. apply nth_error_Some in VL. destruct (nth_error (w_vars w) v) as [x|] eqn:X; [|contradiction].
    exists (conv1 x). split; [apply (e_in _ _ _ E v x Hv X)|reflexivity]. }
  assert (CK : forall k l0, (exists t, getattr o k = Some (PVars t) /\ (forall v, In v t -> In v L)) -> (forall v, In v l0 -> In v L) ->
     check_tmp w o k (Some (map PVar l0)) = true -> check_tmp w' o k (Some (map PVar l0)) = true).
  { intros k l0 [t [TT TI]] HL K. unfold check_tmp in *. rewrite TT in *. apply andb_true_iff in K. destruct K as [K1 _]. apply andb_true_iff. split; [exact K1|].
    apply forallb_forall. intros [p q] Hp. pose proof (in_combine_l _ _ _ _ Hp) as Hp1. pose proof (in_combine_r _ _ _ _ Hp) as Hp2.
    apply in_map_iff in Hp1. destruct Hp1 as [v1 [<- H1]]. apply in_map_iff in Hp2. destruct Hp2 as [v2 [<- H2]].
    destruct (DT v1 (TI v1 H1)) as [x1 [X1 D1]]. destruct (DT v2 (HL v2 H2)) as [x2 [X2 D2]]. unfold same_dt. rewrite X1, X2, D1, D2. destruct d; reflexivity. }
  rewrite C2, C3 in *.
  assert (HO1 : forall v, In v O -> In v L) by (intros v Hv; apply C4; apply in_or_app; auto).
  assert (HA1 : forall v, In v A -> In v L) by (intros v Hv; apply C4; apply in_or_app; auto).
  destruct (getattr o "_autograd_mode") as [[| | | | | | md | | | |]|] eqn:GM; try discriminate. destruct md.
  - apply (CK _ O); [apply (C6 DENSE); [first [exact HC|reflexivity]|reflexivity|left; reflexivity]|exact HO1|exact J].
  - apply andb_true_iff in J. destruct J as [J1 J2]. apply andb_true_iff. split.
    + apply (CK _ O); [apply (C6 LOOP_BATCH); [first [exact HC|reflexivity]|reflexivity|left; reflexivity]|exact HO1|exact J1].
    + apply (CK _ A); [apply (C6 LOOP_BATCH); [first [exact HC|reflexivity]|reflexivity|right; left; reflexivity]|exact HA1|exact J2].
  - apply andb_true_iff in J. destruct J as [J1 J2]. apply andb_true_iff. split.
    + apply (CK _ O); [apply (C6 VMAP); [first [exact HC|reflexivity]|reflexivity|left; reflexivity]|exact HO1|exact J1].
    + apply (CK _ A); [apply (C6 VMAP); [first [exact HC|reflexivity]|reflexivity|right; left; reflexivity]|exact HA1|exact J2].
Qed.
End To.
