(** C99: AutoDiffCostFunction, RobustCostFunction and GNCRobustCostFunction:
    what their constructors accept and make, what a copy is, what to(dtype) does. *)
From Coq Require Import List String Ascii Arith Bool Lia.
From Verif Require Import Mp_model Acf_model Acf_spec Acf_base Acf_make Acf_auto Acf_wrap Acf_robust Acf_copy Acf_copy2 Acf_copy3 Acf_to.
Import ListNotations.
Local Open Scope string_scope.
Local Open Scope list_scope.
Local Open Scope nat_scope.

(** ** The mode, as a string *)
Lemma upper_char : forall c, (97 <= nat_of_ascii c <= 122 /\ nat_of_ascii (upper_ascii c) + 32 = nat_of_ascii c) \/
  (~ (97 <= nat_of_ascii c <= 122) /\ upper_ascii c = c).
Proof. intros [[] [] [] [] [] [] [] []]; vm_compute; try (left; split; [split; repeat constructor|reflexivity]); right; (split; [intros [A B]|reflexivity]); lia. Qed.
Lemma upper_same : forall s, same_letters s (upper s).
Proof.
  induction s as [|c s IH]; cbn [upper]; [constructor|]. destruct (upper_char c) as [[A B]|[A B]].
  - apply sl_case; assumption.
  - rewrite B. apply sl_eq. exact IH.
Qed.
Definition no_lower (t : string) : Prop := upper t = t.
Lemma same_upper : forall s t, same_letters s t -> no_lower t -> upper s = t.
Proof.
  induction 1 as [|c s t H IH|c d s t HC HD H IH]; intros N; [reflexivity| |].
  - unfold no_lower in *. cbn [upper] in *. injection N as N1 N2. rewrite N1, (IH N2). reflexivity.
  - unfold no_lower in *. cbn [upper] in *. injection N as N1 N2. rewrite (IH N2). f_equal.
    destruct (upper_char c) as [[A B]|[A B]]; [|contradiction].
    assert (E : nat_of_ascii (upper_ascii c) = nat_of_ascii d) by lia.
    rewrite <- (ascii_nat_embedding (upper_ascii c)), E, ascii_nat_embedding. reflexivity.
Qed.
Theorem C99_mode : forall s m, resolve (KStr s) = inl m <-> same_letters s (mode_name m).
Proof.
  intros s m. split.
  - intros H. pose proof (upper_same s) as U. unfold resolve in H.
    destruct (String.eqb_spec (upper s) "DENSE") as [E|_]; [injection H as <-; cbn [mode_name]; rewrite <- E; exact U|].
    destruct (String.eqb_spec (upper s) "LOOP_BATCH") as [E|_]; [injection H as <-; cbn [mode_name]; rewrite <- E; exact U|].
    destruct (String.eqb_spec (upper s) "VMAP") as [E|_]; [injection H as <-; cbn [mode_name]; rewrite <- E; exact U|discriminate].
  - intros H. apply same_upper in H; [|destruct m; reflexivity]. unfold resolve. rewrite H. destruct m; reflexivity.
Qed.
Example C99_mode_ex : resolve (KStr "Loop_batch") = inl LOOP_BATCH /\ resolve (KStr "loopbatch") = inr ValueErr.
Proof. split; reflexivity. Qed.

Section Main.
Variables T F : Type.
Variable one : T.
Variable dflt : dtype.
Variable conv : dtype -> T -> T.
Implicit Types (w : world T F) (o : cobj F).

(** the names the constructor can use as attribute names: all different, and none already an attribute of the object *)
Definition usable w (vs : list nat) : Prop :=
  NoDup (names w vs) /\ forall s, In s (names w vs) -> ~ In s class_attrs /\ ~ In s init_attrs.

(** ** The constructor of AutoDiffCostFunction *)
(** with no weight given: one more variable, one more weight *)
Definition dw w : world T F :=
  mkW (w_vars w ++ [mkVar ("Variable__" ++ dec (List.length (w_vars w)))%string dflt one])
      (w_wts w ++ [mkWt ("ScaleCostWeight__" ++ dec (w_fid w))%string [List.length (w_vars w)]]) (w_objs w) (S (w_fid w)).
Definition start w (wo : option nat) : world T F := match wo with Some _ => w | None => dw w end.
Definition wt_used w (wo : option nat) : nat := match wo with Some k => k | None => List.length (w_wts w) end.
Lemma make_start : forall w optim f d wo aux name op m,
  make_autodiff one dflt optim f d wo aux name op m w = make_autodiff one dflt optim f d (Some (wt_used w wo)) aux name op m (start w wo).
Proof. intros. destruct wo as [k|]; reflexivity. Qed.
Lemma start_exist : forall w wo vs, exist w vs -> exist (start w wo) vs.
Proof. intros w [k|] vs E v Hv; [exact (E v Hv)|]. specialize (E v Hv). cbn [start dw w_vars]. rewrite app_length. lia. Qed.
Lemma start_names : forall w wo vs, exist w vs -> names (start w wo) vs = names w vs.
Proof.
  intros w [k|] vs E; [reflexivity|]. unfold names. apply map_ext_in. intros v Hv. unfold name_at. cbn [start dw w_vars].
  rewrite nth_error_app1 by (apply E; exact Hv). reflexivity.
Qed.
Lemma start_usable : forall w wo vs, exist w vs -> (names_free T F (start w wo) vs <-> usable w vs).
Proof. intros w wo vs E. unfold names_free, usable. rewrite start_names by exact E. tauto. Qed.
Lemma start_extends : forall w wo, extends w (start w wo).
Proof.
  intros w [k|]; cbn [start]; [|split; [eexists; reflexivity|split; [eexists; reflexivity|exists []; symmetry; apply app_nil_r]]].
  split; [exists []; symmetry; apply app_nil_r|]. split; exists []; symmetry; apply app_nil_r.
Qed.

(** It accepts exactly a non-empty list of optimization variables whose names, with those of the auxiliary variables, are usable,
    with a mode it knows; otherwise it raises the exception stated, in that order of precedence. *)
Theorem C99_autodiff_accepts : forall w optim f d wo aux name op m, exist w (optim ++ aux) ->
  let made := make_autodiff one dflt optim f d wo aux name op m w in
  (optim = [] /\ exists w', made = Exn w' ValueErr) \/
  (optim <> [] /\ ~ usable w (optim ++ aux) /\ exists w', made = Exn w' RuntimeErr) \/
  (optim <> [] /\ usable w (optim ++ aux) /\ (forall md, resolve m <> inl md) /\ exists w', made = Exn w' ValueErr) \/
  (optim <> [] /\ usable w (optim ++ aux) /\ exists md w', resolve m = inl md /\ made = Ret w' (List.length (w_objs w))).
Proof.
  intros w optim f d wo aux name op m E made. unfold made. rewrite make_start. pose proof (start_exist w wo _ E) as ES. pose proof (start_usable w wo _ E) as US.
  destruct (list_eq_dec Nat.eq_dec optim []) as [->|NE].
  { left. split; [reflexivity|]. eexists. unfold make_autodiff, bind, base_init, raise. reflexivity. }
  assert (DEC : {names_free T F (start w wo) (optim ++ aux)} + {~ names_free T F (start w wo) (optim ++ aux)}).
  { unfold names_free. destruct (ListDec.NoDup_dec string_dec (names (start w wo) (optim ++ aux))) as [A|A]; [|right; tauto].
    destruct (Forall_dec (fun s => ~ In s class_attrs /\ ~ In s init_attrs)) with (l := names (start w wo) (optim ++ aux)) as [B|B].
    - intros s. destruct (in_dec string_dec s class_attrs); [right; tauto|]. destruct (in_dec string_dec s init_attrs); [right; tauto|left; tauto].
    - left. split; [exact A|]. intros s Hs. rewrite Forall_forall in B. apply B; exact Hs.
    - right. intros [_ C]. apply B. apply Forall_forall. exact C. }
  right. destruct DEC as [NF|NF].
  - right. destruct (resolve m) as [md|e] eqn:R.
    + right. split; [exact NE|]. split; [apply US; exact NF|]. exists md.
      destruct (rest_good T F one dflt (start w wo) optim f d (wt_used w wo) aux name op m md ES NE NF R) as [H _].
      eexists. split; [reflexivity|]. rewrite H. f_equal. destruct wo; reflexivity.
    + left. split; [exact NE|]. split; [apply US; exact NF|]. split; [discriminate|].
      apply (make_no_mode T F one dflt (start w wo) optim f d (wt_used w wo) aux name op m e ES NE NF R).
  - left. split; [exact NE|]. split; [intro K; apply NF; apply US; exact K|].
    apply (make_not_free T F one dflt (start w wo) optim f d (wt_used w wo) aux name op m ES NE NF).
Qed.
(** What it makes: a cost function with these variables in this order under their names, this weight (a new one of torch's default dtype
    if none is given), this dimension, function, mode and options; what existed is unchanged, and jacobians() can run. *)
Theorem C99_autodiff_made : forall w optim f d wo aux name op m w' i, exist w (optim ++ aux) ->
  (forall s, In s (names w (optim ++ aux)) -> ~ In s internal) ->
  make_autodiff one dflt optim f d wo aux name op m w = Ret w' i ->
  exists md wt, resolve m = inl md /\ looks w' i CAutoDiff optim aux wt d /\ registered w' i (names w optim) (names w aux) /\
    autodiff_has w' i f md op /\ jac_ok w' i = true /\ extends w w' /\ List.length (w_objs w) <= i /\
    (forall s, name = Some s -> s <> "" -> named w' i s) /\
    match wo with
    | Some k => wt = k
    | None => List.length (w_wts w) <= wt /\ exists x v y, nth_error (w_wts w') wt = Some x /\ w_aux x = [v] /\
                List.length (w_vars w) <= v /\ nth_error (w_vars w') v = Some y /\ v_dt y = dflt /\ v_val y = one
    end.
Proof.
  intros w optim f d wo aux name op m w' i E NI H.
  pose proof (start_exist w wo _ E) as ES. pose proof (start_usable w wo _ E) as US.
  destruct (C99_autodiff_accepts w optim f d wo aux name op m E) as [[_ [w1 H1]]|[[_ [_ [w1 H1]]]|[[_ [_ [_ [w1 H1]]]]|[NE [U [md [w1 [R H1]]]]]]]];
    rewrite H in H1; try discriminate H1. clear H1.
  rewrite make_start in H. apply US in U.
  destruct (rest_good T F one dflt (start w wo) optim f d (wt_used w wo) aux name op m md ES NE U R) as [H1 _]. rewrite H in H1. injection H1 as -> ->.
  assert (NI' : forall s, In s (names (start w wo) (optim ++ aux)) -> ~ In s internal) by (rewrite start_names by exact E; exact NI).
  assert (N1 : names (start w wo) optim = names w optim) by (apply start_names; intros v Hv; apply E; apply in_or_app; left; exact Hv).
  assert (N2 : names (start w wo) aux = names w aux) by (apply start_names; intros v Hv; apply E; apply in_or_app; right; exact Hv).
  exists md, (wt_used w wo). split; [exact R|]. split; [apply ad_looks; assumption|]. split; [rewrite <- N1, <- N2; apply ad_registered|].
  split; [apply ad_has|]. split; [apply ad_jac_ok; assumption|].
  split; [apply (extends_trans T F _ (start w wo)); [apply start_extends|apply ad_extends]|].
  split; [destruct wo; cbn [start dw w_objs]; lia|].
  split.
  { intros s -> HS. pose proof (ad_named T F (start w wo) optim aux f d (wt_used w wo) (Some s) op md U) as K.
    cbv beta iota in K. rewrite (proj2 (String.eqb_neq s "") HS) in K. exact K. }
  destruct wo as [k|]; cbn [start wt_used]; [reflexivity|]. split; [lia|].
  eexists; exists (List.length (w_vars w)); eexists. unfold ad_world. cbn [dw w_wts w_vars].
  rewrite nth_error_app2, Nat.sub_diag by lia. split; [reflexivity|]. split; [reflexivity|]. split; [lia|].
  rewrite <- app_assoc, nth_error_app2, Nat.sub_diag by lia. split; [reflexivity|]. split; reflexivity.
Qed.
(** A variable with the name of one of the attributes that are assigned afterwards is accepted, and its attribute does not hold it. *)
Theorem C99_internal_refuted : forall w optim f d wo aux name op m md s, exist w (optim ++ aux) -> optim <> [] -> usable w (optim ++ aux) ->
  resolve m = inl md -> In s (names w (optim ++ aux)) -> In s internal ->
  exists w' i o, make_autodiff one dflt optim f d wo aux name op m w = Ret w' i /\ nth_error (w_objs w') i = Some o /\
    In s (o_optim o ++ o_aux o) /\ forall v, getattr o s <> Some (PVar v).
Proof.
  intros w optim f d wo aux name op m md s E NE U R HS HI.
  pose proof (start_exist w wo _ E) as ES. apply (start_usable w wo _ E) in U.
  destruct (rest_good T F one dflt (start w wo) optim f d (wt_used w wo) aux name op m md ES NE U R) as [H _].
  rewrite make_start. eexists; eexists; eexists. split; [exact H|]. split; [apply ad_obj_at|]. split.
  - unfold ad_obj. destruct (fin_shape F f d op md (tmp1 T F (start w wo) optim) (tmp2 T F (start w wo) optim) (tmp3 T F (start w wo) md optim aux)
      (reg_obj T F (start w wo) optim aux name (wt_used w wo))) as [_ [-> ->]].
    cbn [reg_obj o_optim o_aux]. unfold names. rewrite <- map_app. fold (names (start w wo) (optim ++ aux)). rewrite start_names by exact E. exact HS.
  - intros v K. unfold ad_obj in K.
    destruct (fin_internal F f d op md (tmp1 T F (start w wo) optim) (tmp2 T F (start w wo) optim) (tmp3 T F (start w wo) md optim aux)
      (reg_obj T F (start w wo) optim aux name (wt_used w wo)) s HI) as [x [X1 X2]]. rewrite K in X1. injection X1 as <-. exact (X2 v eq_refl).
Qed.

(** ** The wrappers *)
Lemma mk_base : forall w b c O A wid d ko ka, c = CPlain \/ c = CAutoDiff -> looks w b c O A wid d -> registered w b ko ka -> NoDup (ko ++ ka) ->
  (forall k, In k (ko ++ ka) -> ~ In k (wrapper_own ++ init_attrs)) -> base_ok T F w b c O A wid d ko ka.
Proof. intros. constructor; assumption. Qed.
(** RobustCostFunction of a cost function none of whose attributes is one of the wrapper's own: ValueError if one of them is called
    log_loss_radius, and otherwise a cost function with the same optimization variables, weight and dimension, one auxiliary variable more. *)
Theorem C99_wrapper : forall w b c O A wid d ko ka l r fl name, c = CPlain \/ c = CAutoDiff ->
  looks w b c O A wid d -> registered w b ko ka -> NoDup (ko ++ ka) -> (forall k, In k (ko ++ ka) -> ~ In k (wrapper_own ++ init_attrs)) ->
  (In "log_loss_radius" (ko ++ ka) -> exists w', make_robust b l r fl name w = Exn w' ValueErr) /\
  (~ In "log_loss_radius" (ko ++ ka) -> exists w', let i := List.length (w_objs w) in make_robust b l r fl name w = Ret w' i /\
     looks w' i CRobust O (A ++ [r]) wid d /\ registered w' i ko (ka ++ ["log_loss_radius"]) /\ wrapper_has w' i b l fl /\
     extends w w' /\ w_vars w' = w_vars w /\ (forall s, name = Some s -> s <> "" -> named w' i s)).
Proof.
  intros w b c O A wid d ko ka l r fl name S LK RG N OW. pose proof (mk_base w b c O A wid d ko ka S LK RG N OW) as B.
  pose proof (make_robust_eq T F w b c O A wid d ko ka l r fl name B) as M. split.
  - intros H. apply mem_In in H. rewrite H in M. eexists; exact M.
  - intros H. pose proof H as H'. apply mem_notIn in H'. rewrite H' in M.
    destruct (rob_view T F w b c O A wid d ko ka l r fl name B H) as [P1 [P2 [P3 [P4 P5]]]].
    eexists. cbv zeta. split; [exact M|]. split; [exact P1|]. split; [exact P2|]. split; [exact P4|]. split; [exact P3|]. split; [reflexivity|].
    intros s -> HS. cbv beta iota in P5. rewrite (proj2 (String.eqb_neq s "") HS) in P5. exact P5.
Qed.
Theorem C99_gnc : forall w b c O A wid d ko ka l r ctl fl name, c = CPlain \/ c = CAutoDiff ->
  looks w b c O A wid d -> registered w b ko ka -> NoDup (ko ++ ka) -> (forall k, In k (ko ++ ka) -> ~ In k (wrapper_own ++ init_attrs)) ->
  (l <> LGemanMcClure -> make_gnc b l r ctl fl name w = Exn w RuntimeErr) /\
  (l = LGemanMcClure -> In "log_loss_radius" (ko ++ ka) \/ In "gnc_control_val" (ko ++ ka) -> exists w', make_gnc b l r ctl fl name w = Exn w' ValueErr) /\
  (l = LGemanMcClure -> ~ In "log_loss_radius" (ko ++ ka) -> ~ In "gnc_control_val" (ko ++ ka) ->
   exists w', let i := List.length (w_objs w) in make_gnc b l r ctl fl name w = Ret w' i /\
     looks w' i CGNC O (A ++ [r; ctl]) wid d /\ registered w' i ko (ka ++ ["log_loss_radius"; "gnc_control_val"]) /\ wrapper_has w' i b l fl /\
     extends w w' /\ w_vars w' = w_vars w /\ (forall s, name = Some s -> s <> "" -> named w' i s)).
Proof.
  intros w b c O A wid d ko ka l r ctl fl name S LK RG N OW. pose proof (mk_base w b c O A wid d ko ka S LK RG N OW) as B.
  pose proof (make_gnc_eq T F w b c O A wid d ko ka l r ctl fl name B) as M. split; [|split].
  - intros H. rewrite M. destruct l; try reflexivity. contradiction.
  - intros -> H. cbn [is_gnc negb] in M. destruct (mem "log_loss_radius" (ko ++ ka)) eqn:E1; [eexists; exact M|].
    destruct (mem "gnc_control_val" (ko ++ ka)) eqn:E2; [eexists; exact M|]. apply mem_notIn in E1. apply mem_notIn in E2. tauto.
  - intros -> H1 H2. cbn [is_gnc negb] in M. pose proof H1 as H1'. apply mem_notIn in H1'. pose proof H2 as H2'. apply mem_notIn in H2'. rewrite H1', H2' in M.
    destruct (gnc_view T F w b c O A wid d ko ka LGemanMcClure r ctl fl name B H1 H2) as [P1 [P2 [P3 [P4 P5]]]].
    eexists. cbv zeta. split; [exact M|]. split; [exact P1|]. split; [exact P2|]. split; [exact P4|]. split; [exact P3|]. split; [reflexivity|].
    intros s -> HS. cbv beta iota in P5. rewrite (proj2 (String.eqb_neq s "") HS) in P5. exact P5.
Qed.
(** A robust cost function cannot be wrapped again, whatever the losses. *)
Theorem C99_nested_refuted : forall w b c O A wid d ko ka l r fl name w1 i, c = CPlain \/ c = CAutoDiff ->
  looks w b c O A wid d -> registered w b ko ka -> NoDup (ko ++ ka) -> (forall k, In k (ko ++ ka) -> ~ In k (wrapper_own ++ init_attrs)) ->
  make_robust b l r fl name w = Ret w1 i ->
  forall l' r' ctl' fl' name', (exists w2, make_robust i l' r' fl' name' w1 = Exn w2 ValueErr) /\
    exists w2 e, make_gnc i l' r' ctl' fl' name' w1 = Exn w2 e.
Proof.
  intros w b c O A wid d ko ka l r fl name w1 i S LK RG N OW H l' r' ctl' fl' name'.
  destruct (C99_wrapper w b c O A wid d ko ka l r fl name S LK RG N OW) as [H1 H2].
  destruct (in_dec string_dec "log_loss_radius" (ko ++ ka)) as [K|K]; [destruct (H1 K) as [w' H']; rewrite H in H'; discriminate|].
  destruct (H2 K) as [w' [M [V [R _]]]]. rewrite H in M. injection M as -> ->.
  destruct V as [[o [V1 [V2 [V3 V4]]]] V5 _]. destruct R as [o2 [R1 [R2 R3]]]. rewrite V1 in R1. injection R1 as <-.
  assert (ND : NoDup (ko ++ ka ++ ["log_loss_radius"])).
  { rewrite app_assoc. apply nodup_app_iff. split; [exact N|]. split; [constructor; [intros []|constructor]|]. intros x Hx [<-|[]]. exact (K Hx). }
  assert (MM : mem "log_loss_radius" (ko ++ ka ++ ["log_loss_radius"]) = true) by (apply mem_In; rewrite !in_app_iff; right; right; left; reflexivity).
  assert (I : forall c' , init_robust c' (List.length (w_objs w)) l' r' fl' name' w' = Exn (fid_up T F w') ValueErr).
  { intros c'. rewrite (init_robust_eq T F c' w' _ o wid ko (ka ++ ["log_loss_radius"]) (map PVar O) (map PVar (A ++ [r])) l' r' fl' name' V1 V5 R2 R3 V3 V4 ND), MM. reflexivity. }
  split.
  - eexists. unfold make_robust, bind. rewrite I. reflexivity.
  - unfold make_gnc. destruct (is_gnc l'); cbn [negb]; [|do 2 eexists; reflexivity]. do 2 eexists. unfold bind. rewrite I. reflexivity.
Qed.
Lemma attr_vals_in : forall o ks vals k, attr_vals o ks = Some (map PVar vals) -> In k ks -> exists v, getattr o k = Some (PVar v).
Proof.
  induction ks as [|k' ks IH]; intros vals k A HK; [destruct HK|]. unfold attr_vals in A. cbn [fold_right] in A. fold (attr_vals o ks) in A.
  destruct (getattr o k') as [x|] eqn:G; [|discriminate]. destruct (attr_vals o ks) as [r|] eqn:AV; [|discriminate].
  destruct vals as [|v vals]; [discriminate|]. cbn [map] in A. injection A as -> ->. destruct HK as [<-|HK]; [exists v; exact G|].
  apply (IH vals k eq_refl HK).
Qed.
(** A cost function with an attribute called loss, flatten_dims or cost_function is wrapped without complaint, but the wrapper does not
    hold both its variables and its base. *)
Theorem C99_own_name_refuted : forall w b c O A wid d ko ka l r fl name k, looks w b c O A wid d -> registered w b ko ka -> NoDup (ko ++ ka) ->
  ~ In "log_loss_radius" (ko ++ ka) -> In k (ko ++ ka) -> In k wrapper_own ->
  exists w' o, let i := List.length (w_objs w) in make_robust b l r fl name w = Ret w' i /\ nth_error (w_objs w') i = Some o /\
    ~ (getattr o "cost_function" = Some (PObj b) /\ (exists O', optim_vars o = Some (map PVar O')) /\ exists A', aux_vars o = Some (map PVar A')).
Proof.
  intros w b c O A wid d ko ka l r fl name k [[base [B1 [B2 [B3 B4]]]] BW _] [base' [B5 [B6 B7]]] N NR HK HO.
  rewrite B1 in B5. injection B5 as <-.
  pose proof (init_robust_eq T F CRobust w b base wid ko ka (map PVar O) (map PVar A) l r fl name B1 BW B6 B7 B3 B4 N) as I.
  pose proof NR as NR'. apply mem_notIn in NR'. rewrite NR' in I.
  set (o := rob_obj F CRobust b l r fl name wid (w_fid w) ko ka (map PVar O) (map PVar A)) in *.
  exists (push T F w o), o. cbv zeta. split; [|split].
  - unfold make_robust, bind. rewrite I. reflexivity.
  - unfold push. cbn [w_objs]. rewrite nth_error_app2, Nat.sub_diag by lia. reflexivity.
  - intros [G [[O' V1] [A' V2]]].
    assert (GK : exists v, getattr o k = Some (PVar v)).
    { apply in_app_or in HK. destruct HK as [HK|HK]; [apply (attr_vals_in o (o_optim o) O' k V1 HK)|].
      apply (attr_vals_in o (o_aux o) A' k V2). unfold o, rob_obj. cbn [o_aux]. apply in_or_app. left. exact HK. }
    destruct GK as [v GK]. destruct HO as [<-|[<-|[<-|[]]]]; [rewrite G in GK; discriminate| |]; cbv in GK; discriminate.
Qed.

(** ** Copies *)
(** A copy of an AutoDiffCostFunction: the same function, mode and dimension on copies of its variables and weight, none shared. *)
Theorem C99_copy_autodiff : forall w i O A wid d f m op nm new keep,
  looks w i CAutoDiff O A wid d -> autodiff_has w i f m op -> named w i nm -> O <> [] -> exist w (O ++ A) -> weight_exists w wid -> NoDup (names w (O ++ A)) ->
  exists w' i' O' A' wid', copy one dflt i new keep w = Ret w' i' /\ List.length (w_objs w) <= i' /\
    is_copy w w' keep O A wid O' A' wid' /\ looks w' i' CAutoDiff O' A' wid' d /\ autodiff_has w' i' f m default_opts /\
    named w' i' (copy_name new nm) /\ jac_ok w' i' = true.
Proof.
  intros w i O A wid d f m op nm new keep LK AH NM NE E WE N.
  destruct (copy_auto T F one dflt (List.length (w_objs w)) w i O A wid d f m op nm new keep LK AH NM NE E WE N)
    as [w' [i' [O' [A' [wid' [ko' [ka' [C1 [C2 [C3 [C4 [C5 [C6 [C7 _]]]]]]]]]]]]]].
  exists w', i', O', A', wid'. unfold copy. split; [exact C1|]. split; [lia|]. repeat (split; [assumption|]). assumption.
Qed.
(** The copy forgets the autograd options. *)
Theorem C99_copy_options_refuted : forall w i O A wid d f m op nm new keep, op <> default_opts ->
  looks w i CAutoDiff O A wid d -> autodiff_has w i f m op -> named w i nm -> O <> [] -> exist w (O ++ A) -> weight_exists w wid -> NoDup (names w (O ++ A)) ->
  exists w' i', copy one dflt i new keep w = Ret w' i' /\ forall f' m', ~ autodiff_has w' i' f' m' op.
Proof.
  intros w i O A wid d f m op nm new keep ND LK AH NM NE E WE N.
  destruct (C99_copy_autodiff w i O A wid d f m op nm new keep LK AH NM NE E WE N) as [w' [i' [O' [A' [wid' [C1 [_ [_ [_ [C5 _]]]]]]]]]].
  exists w', i'. split; [exact C1|]. intros f' m' [o [H0 [_ [_ [H1 [H2 [H3 H4]]]]]]]. destruct C5 as [o' [K0 [_ [_ [K1 [K2 [K3 K4]]]]]]].
  rewrite H0 in K0. injection K0 as <-. apply ND. rewrite K1 in H1. rewrite K2 in H2. rewrite K3 in H3. rewrite K4 in H4.
  destruct op as [p q s t]. cbn [a_create a_strict a_vec a_strategy default_opts] in *. injection H1 as <-. injection H2 as <-. injection H3 as <-. injection H4 as <-. reflexivity.
Qed.
(** What a copy() of the base needs: that of C99_copy_autodiff, or for a standard cost function attribute names that can be assigned *)
Definition base_copies w (b : nat) (c : ccls) (O A : list nat) (ko ka : list string) : Prop :=
  (c = CPlain /\ ~ In "_dim" (ko ++ ka)) \/ (c = CAutoDiff /\ O <> [] /\ NoDup (names w (O ++ A)) /\ exists f m op, autodiff_has w b f m op).
Theorem C99_copy_robust : forall w i b c O A wid d ko ka bn l r fl nm new keep,
  looks w b c O A wid d -> registered w b ko ka -> named w b bn -> NoDup (ko ++ ka) -> (forall k, In k (ko ++ ka) -> ~ In k (wrapper_own ++ init_attrs)) ->
  base_copies w b c O A ko ka -> exist w (O ++ A) -> weight_exists w wid ->
  looks w i CRobust O (A ++ [r]) wid d -> registered w i ko (ka ++ ["log_loss_radius"]) ->
  wrapper_has w i b l fl -> named w i nm -> exist w [r] -> ~ In "log_loss_radius" (ko ++ ka) ->
  exists w' i' b' O' A' r' wid', copy one dflt i new keep w = Ret w' i' /\
    is_copy w w' keep O (A ++ [r]) wid O' (A' ++ [r']) wid' /\
    looks w' i' CRobust O' (A' ++ [r']) wid' d /\ wrapper_has w' i' b' l fl /\ named w' i' (copy_name new nm) /\
    looks w' b' c O' A' wid' d /\ named w' b' (bn ++ "_copy")%string /\
    (forall f m op, c = CAutoDiff -> autodiff_has w b f m op -> autodiff_has w' b' f m default_opts /\ jac_ok w' i' = true).
Proof.
  intros w i b c O A wid d ko ka bn l r fl nm new keep LB RB NB N OW BC E WE LK RG WH NM ER NR.
  assert (CB : copyable T F w b c O A wid d ko ka bn).
  { constructor; try assumption. apply mk_base; try assumption. destruct BC as [[-> _]|[-> _]]; tauto. }
  destruct (copy_robust T F one dflt w i b c O A wid d ko ka bn l r fl nm new keep CB LK RG WH NM ER NR)
    as [w' [i' [b' [O' [A' [r' [wid' [ko' [ka' [C1 [C2 [C3 [C4 [C5 [C6 [C7 [C8 [C9 C10]]]]]]]]]]]]]]]]]].
  exists w', i', b', O', A', r', wid'. repeat (split; [assumption|]). assumption.
Qed.
Theorem C99_copy_gnc : forall w i b c O A wid d ko ka bn r ctl fl nm new keep,
  looks w b c O A wid d -> registered w b ko ka -> named w b bn -> NoDup (ko ++ ka) -> (forall k, In k (ko ++ ka) -> ~ In k (wrapper_own ++ init_attrs)) ->
  base_copies w b c O A ko ka -> exist w (O ++ A) -> weight_exists w wid ->
  looks w i CGNC O (A ++ [r; ctl]) wid d -> registered w i ko (ka ++ ["log_loss_radius"; "gnc_control_val"]) ->
  wrapper_has w i b LGemanMcClure fl -> named w i nm -> exist w [r; ctl] -> ~ In "log_loss_radius" (ko ++ ka) -> ~ In "gnc_control_val" (ko ++ ka) ->
  exists w' i' b' O' A' r' ctl' wid', copy one dflt i new keep w = Ret w' i' /\
    is_copy w w' keep O (A ++ [r; ctl]) wid O' (A' ++ [r'; ctl']) wid' /\
    looks w' i' CGNC O' (A' ++ [r'; ctl']) wid' d /\ wrapper_has w' i' b' LGemanMcClure fl /\ named w' i' (copy_name new nm) /\
    looks w' b' c O' A' wid' d /\ named w' b' (bn ++ "_copy")%string /\
    (forall f m op, c = CAutoDiff -> autodiff_has w b f m op -> autodiff_has w' b' f m default_opts /\ jac_ok w' i' = true).
Proof.
  intros w i b c O A wid d ko ka bn r ctl fl nm new keep LB RB NB N OW BC E WE LK RG WH NM ER NR NG.
  assert (CB : copyable T F w b c O A wid d ko ka bn).
  { constructor; try assumption. apply mk_base; try assumption. destruct BC as [[-> _]|[-> _]]; tauto. }
  destruct (copy_gnc T F one dflt w i b c O A wid d ko ka bn LGemanMcClure r ctl fl nm new keep eq_refl CB LK RG WH NM ER NR NG)
    as [w' [i' [b' [O' [A' [r' [ctl' [wid' [ko' [ka' [C1 [C2 [C3 [C4 [C5 [C6 [C7 [C8 [C9 C10]]]]]]]]]]]]]]]]]]].
  exists w', i', b', O', A', r', ctl', wid'. repeat (split; [assumption|]). assumption.
Qed.

(** ** to(dtype) *)
(** a variable after tensor.to(d) *)
Definition converted (d : dtype) (x y : var T) : Prop :=
  v_name y = v_name x /\ v_dt y = d /\ (v_dt x = d -> v_val y = v_val x) /\ (v_dt x <> d -> v_val y = conv d (v_val x)).
Lemma conv1_converted : forall d x, converted d x (conv1 T conv d x).
Proof. intros d x. unfold converted, conv1. cbn [v_name v_dt v_val]. split; [reflexivity|]. split; [reflexivity|]. destruct (v_dt x), d; split; intros H; try reflexivity; try discriminate; contradiction. Qed.
(** Objective.to: every variable of a cost function or of its weight is converted, once however often it is shared; any other variable is
    as it was or converted; the objects are the same; and jacobians() of an AutoDiffCostFunction can still run. *)
Theorem C99_to : forall d l w w' u, to_all conv d l w = Ret w' u ->
  w_objs w' = w_objs w /\ w_wts w' = w_wts w /\ List.length (w_vars w') = List.length (w_vars w) /\
  (forall v x, nth_error (w_vars w) v = Some x -> exists y, nth_error (w_vars w') v = Some y /\ (y = x \/ converted d x y)) /\
  (forall i, In i l -> exists o O A wid x, nth_error (w_objs w) i = Some o /\ optim_vars o = Some (map PVar O) /\ aux_vars o = Some (map PVar A) /\
     weight w i = Some wid /\ nth_error (w_wts w) wid = Some x /\
     forall v, In v (O ++ A ++ w_aux x) -> exists y z, nth_error (w_vars w) v = Some y /\ nth_error (w_vars w') v = Some z /\ converted d y z) /\
  (forall i o, In i l -> nth_error (w_objs w) i = Some o -> o_cls o = CAutoDiff -> jac_ok w i = true -> jac_ok w' i = true).
Proof.
  intros d l w w' u H. destruct (to_all_eff T F conv d l w w' u H) as [L [E C]].
  split; [apply E|]. split; [apply E|]. split; [apply E|]. split.
  { intros v x X. destruct (e_any _ _ _ _ _ _ _ E v x X) as [K|K]; (eexists; split; [exact K|]); [left; reflexivity|right; apply conv1_converted]. }
  split.
  - intros i Hi. destruct (C i Hi) as [o [O [A [C1 [C2 [C3 [C4 [[wid [x [C5 [C6 C7]]]] _]]]]]]]]. exists o, O, A, wid, x.
    repeat (split; [assumption|]). intros v Hv.
    assert (VL : In v L). { rewrite app_assoc in Hv. apply in_app_or in Hv. destruct Hv as [Hv|Hv]; [apply C4; exact Hv|apply C7; exact Hv]. }
    pose proof (e_ex _ _ _ _ _ _ _ E v VL) as VX. apply nth_error_Some in VX. destruct (nth_error (w_vars w) v) as [y|] eqn:Y; [|contradiction].
    exists y, (conv1 T conv d y). split; [reflexivity|]. split; [apply (e_in _ _ _ _ _ _ _ E v y VL Y)|apply conv1_converted].
  - intros i o Hi HO HC J. apply (to_all_jac T F conv d l w w' u i o); assumption.
Qed.
End Main.

(** ** Concrete runs; tensors are numbers, tensor.to(d) adds 100 *)
Definition cv (d : dtype) (t : nat) : nat := t + 100.
Definition world0 : world nat nat :=
  mkW [mkVar "x" F32 1; mkVar "y" F32 2; mkVar "a" F32 3; mkVar "r" F32 4; mkVar "c" F32 5; mkVar "loss" F32 6; mkVar "_dim" F32 7] [] [] 0.
Definition run {A} (m : world nat nat -> out nat nat A) (w : world nat nat) : world nat nat := match m w with Ret w _ => w | Exn w _ => w end.
Definition ad_run (m : mode_key) := make_autodiff 1 F32 [0; 1] 9 2 None [2] (Some "f") (mkOpts true true false "reverse-mode") m.
Definition w_ad : world nat nat := run (ad_run (KStr "vmap")) world0.
Definition w_rob : world nat nat := run (make_robust 0 LHuber 3 false (Some "g")) w_ad.
Example C99_made_ex : exists w', ad_run (KStr "vmap") world0 = Ret w' 0 /\ usable nat nat world0 [0; 1; 2] /\ w_ad = w' /\
  (forall s, In s (names world0 [0; 1; 2]) -> ~ In s internal).
Proof.
  eexists. split; [vm_compute; reflexivity|]. split.
  - split; [repeat constructor; vm_compute; intuition discriminate|]. intros s Hs. assert (Q : mem s class_attrs = false /\ mem s init_attrs = false) by (destruct Hs as [<-|[<-|[<-|[]]]]; split; reflexivity).
    split; apply mem_notIn; apply Q.
  - split; [vm_compute; reflexivity|]. intros s Hs. apply mem_notIn. destruct Hs as [<-|[<-|[<-|[]]]]; reflexivity.
Qed.
Example C99_wrapper_ex : exists w', make_robust 0 LHuber 3 false (Some "g") w_ad = Ret w' 1 /\ w_rob = w' /\
  (exists w2, make_gnc 0 LGemanMcClure 3 4 false None w_ad = Ret w2 1) /\ (exists w3, copy 1 F32 1 None true w_rob = Ret w3 3).
Proof. vm_compute. eexists. split; [reflexivity|]. split; [reflexivity|]. split; eexists; reflexivity. Qed.
Example C99_rejected_ex : exists w', make_autodiff 1 F32 [0; 0] 9 2 None [2] None default_opts (KStr "dense") world0 = Exn w' RuntimeErr.
Proof. eexists. vm_compute. reflexivity. Qed.
Example C99_internal_ex : exists w', make_autodiff 1 F32 [6] 9 2 None [] None default_opts (KStr "dense") world0 = Ret w' 0 /\
  exists o, nth_error (w_objs w') 0 = Some o /\ o_optim o = ["_dim"] /\ optim_vars o = Some [PNat 2].
Proof. eexists. split; [vm_compute; reflexivity|]. eexists. split; [reflexivity|]. split; vm_compute; reflexivity. Qed.
Example C99_own_name_ex : exists w', make_robust 0 LHuber 3 false None (run (make_autodiff 1 F32 [5] 9 2 None [] None default_opts (KStr "dense")) world0) = Ret w' 1 /\
  exists o, nth_error (w_objs w') 1 = Some o /\ o_optim o = ["loss"] /\ optim_vars o = Some [PLoss LHuber].
Proof. eexists. split; [vm_compute; reflexivity|]. eexists. split; [reflexivity|]. split; vm_compute; reflexivity. Qed.
Example C99_to_ex : exists w', to_all cv F64 [0] w_ad = Ret w' tt /\ jac_ok w_ad 0 = true /\ jac_ok w' 0 = true /\ map v_dt (firstn 3 (w_vars w')) = [F64; F64; F64].
Proof. eexists. vm_compute. repeat split. Qed.
(** to(dtype) of a robust cost function of an AutoDiffCostFunction leaves its base's scratch variables behind: jacobians() could run
    before and raises afterwards, for each of the modes. *)
Theorem C99_wrapped_to_refuted : forall m : mode, exists w w', w = run (make_robust 0 LHuber 3 false (Some "g")) (run (ad_run (KMode m)) world0) /\
  to_all cv F64 [1] w = Ret w' tt /\ jac_ok w 1 = true /\ jac_ok w' 1 = false.
Proof. intros m. destruct m; eexists; eexists; (split; [reflexivity|]); vm_compute; repeat split. Qed.
