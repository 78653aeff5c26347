(** copy() of AutoDiff and standard cost functions (C99), continued. *)
From Coq Require Import List String Ascii Arith Bool Lia FinFun.
From Verif Require Import Mp_model Acf_model Acf_spec Acf_base Acf_make Acf_auto Acf_wrap Acf_robust Acf_copy.
Import ListNotations.
Local Open Scope string_scope.
Local Open Scope list_scope.
Local Open Scope nat_scope.

Section Copy.
Variables T F : Type.
Variable one : T.
Variable dflt : dtype.
Implicit Types (w : world T F) (o : cobj F).

Lemma weight_objs : forall w w' i, w_objs w = w_objs w' -> weight w i = weight w' i.
Proof.
  intros w w' i E. unfold weight. rewrite E. generalize (S (List.length (w_objs w'))). intros n. revert i.
  induction n as [|n IH]; intros i; [reflexivity|]. cbn [weight_at]. rewrite E. destruct (nth_error (w_objs w') i) as [o|]; [|reflexivity].
  destruct (o_cls o); try reflexivity; destruct (getattr o "cost_function") as [[]|]; try reflexivity; apply IH.
Qed.
Lemma dim_objs : forall w w' i, w_objs w = w_objs w' -> dim w i = dim w' i.
Proof.
  intros w w' i E. unfold dim. rewrite E. generalize (S (List.length (w_objs w'))). intros n. revert i.
  induction n as [|n IH]; intros i; [reflexivity|]. cbn [dim_at]. rewrite E. destruct (nth_error (w_objs w') i) as [o|]; [|reflexivity].
  destruct (o_cls o); try reflexivity; destruct (getattr o "cost_function") as [[]|]; try reflexivity; apply IH.
Qed.
Lemma looks_objs : forall w w' i c O A wt d, w_objs w = w_objs w' -> looks w i c O A wt d -> looks w' i c O A wt d.
Proof.
  intros w w' i c O A wt d E [H W D]. constructor; [rewrite <- E; exact H|rewrite <- (weight_objs w w' i E); exact W|rewrite <- (dim_objs w w' i E); exact D].
Qed.
Definition dt_at w (v : nat) : option dtype := option_map v_dt (nth_error (w_vars w) v).
Lemma jac_ok_dts : forall w w' i, w_objs w = w_objs w' -> (forall v, dt_at w v = dt_at w' v) -> jac_ok w i = jac_ok w' i.
Proof.
  intros w w' i E D.
  assert (S : forall p, same_dt w p = same_dt w' p).
  { intros [a b]. unfold same_dt. destruct a; try reflexivity. destruct b; try reflexivity. pose proof (D v) as D1. pose proof (D v0) as D2. unfold dt_at in D1, D2.
    destruct (nth_error (w_vars w) v), (nth_error (w_vars w') v); cbn [option_map] in D1; try discriminate; try reflexivity;
    destruct (nth_error (w_vars w) v0), (nth_error (w_vars w') v0); cbn [option_map] in D2; try discriminate; try reflexivity; try (injection D1 as D1); try (injection D2 as D2); rewrite ?D1, ?D2; reflexivity. }
  assert (C : forall o k l, check_tmp w o k l = check_tmp w' o k l).
  { intros o k l. unfold check_tmp. destruct (getattr o k) as [[]|]; try reflexivity. destruct l as [l|]; [|reflexivity]. f_equal.
    generalize (combine (map (@PVar F) l0) l). intros q. induction q as [|p q IH]; [reflexivity|]. cbn [forallb]. rewrite S, IH. reflexivity. }
  unfold jac_ok. rewrite E. generalize (Datatypes.S (List.length (w_objs w'))). intros n. revert i.
  induction n as [|n IH]; intros i; [reflexivity|]. cbn [jac_ok_at]. rewrite E. destruct (nth_error (w_objs w') i) as [o|]; [|reflexivity].
  destruct (o_cls o).
  - reflexivity.
  - destruct (getattr o "_autograd_mode") as [[| | | | | | m | | | |]|]; try reflexivity. destruct m; rewrite !C; reflexivity.
  - destruct (getattr o "cost_function") as [[]|]; try reflexivity. apply IH.
  - destruct (getattr o "cost_function") as [[]|]; try reflexivity. apply IH.
Qed.
Lemma prefix_eq : forall A (l vs : list A), (forall j, j < List.length l -> nth_error vs j = nth_error l j) -> exists r, vs = l ++ r.
Proof.
  induction l as [|a l IH]; intros vs H; [exists vs; reflexivity|].
  destruct vs as [|b vs]; [specialize (H 0); cbn in H; discriminate H; lia|]. pose proof (H 0) as H0. cbn in H0. assert (E : Some b = Some a) by (apply H0; lia). injection E as ->.
  destruct (IH vs) as [r ->]; [intros j J; apply (H (S j)); cbn; lia|]. exists r. reflexivity.
Qed.
Lemma nth_error_seq' : forall n s k, k < n -> nth_error (seq s n) k = Some (s + k).
Proof. induction n as [|n IH]; intros s k K; [lia|]. cbn [seq]. destruct k as [|k]; [rewrite Nat.add_0_r; reflexivity|]. cbn [nth_error]. rewrite IH by lia. f_equal. lia. Qed.
Lemma copied_app : forall w w' keep a a' b b', List.length a = List.length a' -> copied w w' keep (a ++ b) (a' ++ b') -> copied w w' keep a a' /\ copied w w' keep b b'.
Proof.
  intros w w' keep a a' b b' L [LL H]. rewrite !app_length in LL. split; (split; [lia|]).
  - intros k v v' K K'. apply (H k); rewrite nth_error_app1; try assumption; apply nth_error_Some; [rewrite K|rewrite K']; discriminate.
  - intros k v v' K K'. apply (H (List.length a + k)).
    + rewrite nth_error_app2 by lia. replace (List.length a + k - List.length a) with k by lia. exact K.
    + rewrite nth_error_app2 by lia. replace (List.length a + k - List.length a') with k by lia. exact K'.
Qed.
(** after the constructor has made [o'] from the copies *)
Lemma finish_gen : forall w wD i o o' O A wid x e keep,
  nth_error (w_objs w) i = Some o -> optim_vars o = Some (map PVar O) -> aux_vars o = Some (map PVar A) ->
  exist w (O ++ A) -> nth_error (w_wts w) wid = Some x -> exist w (w_aux x) ->
  let O' := seq (List.length (w_vars w)) (List.length O) in let A' := seq (List.length (w_vars w) + List.length O) (List.length A) in
  let i' := List.length (w_objs w) in
  w_vars wD = w_vars (after T F w O A (w_aux x) (w_name x)) ++ e -> w_wts wD = w_wts (after T F w O A (w_aux x) (w_name x)) -> w_objs wD = w_objs w ++ [o'] ->
  optim_vars o' = Some (map PVar O') -> aux_vars o' = Some (map PVar A') ->
  exists w', finish_copy i i' keep wD = Ret w' i' /\ is_copy w w' keep O A wid O' A' (List.length (w_wts w)) /\
    w_objs w' = w_objs wD /\ w_wts w' = w_wts wD /\ (forall v, dt_at w' v = dt_at wD v).
Proof.
  intros w wD i o o' O A wid x e keep HO V1 V2 E X EX O' A' i' DV DW DO V3 V4.
  set (n := List.length (w_vars w)) in *.
  assert (OA : O' ++ A' = seq n (List.length (O ++ A))) by (unfold O', A'; rewrite app_length, seq_app; reflexivity).
  assert (OAW : O' ++ A' ++ seq (n + List.length O + List.length A) (List.length (w_aux x)) = seq n (List.length (O ++ A ++ w_aux x))).
  { unfold O', A'. rewrite !app_length, !seq_app. reflexivity. }
  assert (LD : n + List.length (O ++ A ++ w_aux x) <= List.length (w_vars wD)).
  { rewrite DV. unfold after. cbn [w_vars]. rewrite !app_length. rewrite !got_len; [fold n; lia|exact EX| |]; intros v Hv; apply E; apply in_or_app; auto. }
  rewrite !app_length in LD.
  assert (IH : nth_error (w_objs wD) i = Some o) by (rewrite DO, nth_error_app1; [exact HO|apply nth_error_Some; rewrite HO; discriminate]).
  assert (IH' : nth_error (w_objs wD) i' = Some o') by (rewrite DO; unfold i'; rewrite nth_error_app2, Nat.sub_diag by lia; reflexivity).
  destruct (finish_eq T F wD n i i' o o' O A O' A' keep IH IH' V1 V2 V3 V4) as [vs [Q1 [Q2 [Q3 Q4]]]].
  - unfold O'. rewrite seq_length. reflexivity.
  - unfold A'. rewrite seq_length. reflexivity.
  - exact E.
  - intros v Hv. rewrite OA in Hv. apply in_seq in Hv. lia.
  - lia.
  - intros v Hv. rewrite OA in Hv. apply in_seq in Hv. rewrite app_length in Hv. lia.
  - rewrite OA. apply seq_NoDup.
  - (* the values in wD *)
    assert (VD : forall k v, nth_error (O ++ A ++ w_aux x) k = Some v -> exists y, nth_error (w_vars w) v = Some y /\ nth_error (w_vars wD) (n + k) = Some (copy_of T y) /\ nth_error (w_vars wD) v = Some y).
    { intros k v K. destruct (after_nth T F w O A (w_aux x) (w_name x) E EX k v K) as [y [Y1 Y2]]. exists y. split; [exact Y1|]. split.
      - rewrite DV, nth_error_app1; [exact Y2|]. apply nth_error_Some. fold n in Y2. rewrite Y2. discriminate.
      - rewrite DV. unfold after. cbn [w_vars]. rewrite <- app_assoc, nth_error_app1; [exact Y1|]. apply nth_error_Some. rewrite Y1. discriminate. }
    exists (set_vars wD vs). split; [exact Q1|]. split; [|split; [reflexivity|split; [reflexivity|]]].
    + assert (CP : copied w (set_vars wD vs) keep (O ++ A) (O' ++ A')).
      { split; [rewrite OA, seq_length; reflexivity|]. intros k v v' K K'.
        assert (KL : k < List.length (O ++ A)) by (apply nth_error_Some; rewrite K; discriminate).
        assert (V' : v' = n + k) by (rewrite OA, nth_error_seq' in K' by exact KL; injection K' as <-; reflexivity).
        destruct (Q4 k v v' K K') as [z [z' [Z1 [Z2 Z3]]]].
        destruct (VD k v) as [y [Y1 [Y2 Y3]]]; [rewrite app_assoc, nth_error_app1 by exact KL; exact K|].
        rewrite Y3 in Z1. injection Z1 as <-. rewrite V', Y2 in Z2. injection Z2 as <-.
        exists y, (mkVar (if keep then v_name y else v_name (copy_of T y)) (v_dt (copy_of T y)) (v_val (copy_of T y))).
        split; [exact Y1|]. split; [exact Z3|]. split; [fold n; lia|]. split; [reflexivity|]. split; [reflexivity|]. destruct keep; reflexivity. }
      destruct (copied_app w (set_vars wD vs) keep O O' A A') as [CO CA]; [unfold O'; rewrite seq_length; reflexivity|exact CP|].
      split; [exact CO|]. split; [exact CA|]. split.
      * exists x, (mkWt (w_name x ++ "_copy")%string (seq (n + List.length O + List.length A) (List.length (w_aux x)))).
        split; [exact X|]. split; [cbn [set_vars w_wts]; rewrite DW; unfold after; cbn [w_wts]; rewrite nth_error_app2, Nat.sub_diag by lia; reflexivity|].
        split; [lia|]. split; [reflexivity|]. cbn [w_aux]. split; [|rewrite OAW; apply seq_NoDup].
        split; [rewrite seq_length; reflexivity|]. intros k v v' K K'.
        assert (KL : k < List.length (w_aux x)) by (apply nth_error_Some; rewrite K; discriminate).
        rewrite nth_error_seq' in K' by exact KL. injection K' as <-.
        destruct (VD (List.length O + (List.length A + k)) v) as [y [Y1 [Y2 Y3]]].
        { rewrite nth_error_app2 by lia. rewrite nth_error_app2 by lia. replace (List.length O + (List.length A + k) - List.length O - List.length A) with k by lia. exact K. }
        exists y, (copy_of T y). split; [exact Y1|]. split; [|split; [fold n; lia|repeat split; reflexivity]].
        cbn [set_vars w_vars]. rewrite Q3; [replace (n + List.length O + List.length A + k) with (n + (List.length O + (List.length A + k))) by lia; exact Y2|].
        rewrite OA. intro HI. apply in_seq in HI. rewrite app_length in HI. lia.
      * split; [|split].
        { apply prefix_eq. intros j J. cbn [set_vars w_vars]. rewrite Q3 by (rewrite OA; intro HI; apply in_seq in HI; fold n in J; lia).
          rewrite DV. unfold after. cbn [w_vars]. rewrite <- app_assoc, nth_error_app1 by exact J. reflexivity. }
        { cbn [set_vars w_wts]. rewrite DW. unfold after. cbn [w_wts]. eexists; reflexivity. }
        { cbn [set_vars w_objs]. rewrite DO. eexists; reflexivity. }
    + intros v. unfold dt_at. cbn [set_vars w_vars]. destruct (in_dec Nat.eq_dec v (O' ++ A')) as [HI|HI]; [|rewrite Q3 by exact HI; reflexivity].
      pose proof HI as HI2. apply In_nth_error in HI. destruct HI as [k HK].
      assert (KL : k < List.length (O ++ A)) by (rewrite OA in HK; rewrite <- (seq_length (List.length (O ++ A)) n); apply nth_error_Some; rewrite HK; discriminate).
      apply nth_error_Some in KL. destruct (nth_error (O ++ A) k) as [u|] eqn:HU; [|contradiction].
      destruct (Q4 k u v HU HK) as [z [z' [Z1 [Z2 Z3]]]]. rewrite Z2, Z3. reflexivity.
Qed.

Lemma after_names : forall w O A x, exist w (O ++ A) -> exist w (w_aux x) ->
  names (after T F w O A (w_aux x) (w_name x)) (seq (List.length (w_vars w)) (List.length (O ++ A))) = map (fun s => (s ++ "_copy")%string) (names w (O ++ A)).
Proof.
  intros w O A x E EX. set (wC := after T F w O A (w_aux x) (w_name x)).
  assert (G : forall L s, (forall k v, nth_error L k = Some v -> name_at wC (s + k) = (name_at w v ++ "_copy")%string) ->
     names wC (seq s (List.length L)) = map (fun s => (s ++ "_copy")%string) (names w L)).
  { induction L as [|v L IH]; intros s H; [reflexivity|]. cbn [List.length seq]. unfold names. cbn [map]. f_equal.
    - rewrite <- (Nat.add_0_r s) at 1. apply H. reflexivity.
    - apply IH. intros k u K. replace (S s + k) with (s + S k) by lia. apply H. exact K. }
  apply G. intros k v K. assert (KL : k < List.length (O ++ A)) by (apply nth_error_Some; rewrite K; discriminate).
  destruct (after_nth T F w O A (w_aux x) (w_name x) E EX k v) as [y [Y1 Y2]]; [rewrite app_assoc, nth_error_app1 by exact KL; exact K|].
  unfold name_at. fold wC in Y2. rewrite Y1, Y2. reflexivity.
Qed.
Lemma bind_ext : forall A B (m m' : M T F A) (k k' : A -> M T F B) w, (forall w, m w = m' w) -> (forall a w, k a w = k' a w) -> bind m k w = bind m' k' w.
Proof. intros A B m m' k k' w H K. unfold bind. rewrite H. destruct (m' w) as [w1 a|w1 e]; [apply K|reflexivity]. Qed.
Lemma names_copy_free : forall w O A x, exist w (O ++ A) -> exist w (w_aux x) -> NoDup (names w (O ++ A)) ->
  let wC := after T F w O A (w_aux x) (w_name x) in let L := seq (List.length (w_vars w)) (List.length (O ++ A)) in
  names_free T F wC L /\ (forall s, In s (names wC L) -> ~ In s internal) /\ (forall s, In s (names wC L) -> ~ In s (own_keys ++ ["log_loss_radius"; "gnc_control_val"; "_dim"])).
Proof.
  intros w O A x E EX N wC L. unfold wC, L, names_free. rewrite after_names by assumption.
  split; [split|split].
  - apply FinFun.Injective_map_NoDup; [intros s t H; apply app_inj in H; exact H|exact N].
  - intros s H. apply in_map_iff in H. destruct H as [t [<- _]]. split; apply copy_not_in; vm_compute; reflexivity.
  - intros s H. apply in_map_iff in H. destruct H as [t [<- _]]. apply copy_not_in; vm_compute; reflexivity.
  - intros s H. apply in_map_iff in H. destruct H as [t [<- _]]. apply copy_not_in; vm_compute; reflexivity.
Qed.

(** copy() of an AutoDiffCostFunction *)
Lemma copy_auto : forall n w i O A wid d f m op nm new keep,
  looks w i CAutoDiff O A wid d -> autodiff_has w i f m op -> named w i nm ->
  O <> [] -> exist w (O ++ A) -> weight_exists w wid -> NoDup (names w (O ++ A)) ->
  exists w' i' O' A' wid' ko ka, copy_at one dflt (S n) i new keep w = Ret w' i' /\ i' = List.length (w_objs w) /\
    is_copy w w' keep O A wid O' A' wid' /\ looks w' i' CAutoDiff O' A' wid' d /\ autodiff_has w' i' f m default_opts /\ named w' i' (copy_name new nm) /\
    jac_ok w' i' = true /\ registered w' i' ko ka /\ NoDup (ko ++ ka) /\
    (forall k, In k (ko ++ ka) -> ~ In k (own_keys ++ ["log_loss_radius"; "gnc_control_val"; "_dim"])).
Proof.
  intros n w i O A wid d f m op nm new keep [[o [HO [HC [V1 V2]]]] HW HD] [o2 [HO2 [A1 [A2 _]]]] [o3 [HO3 HN]] NE E [x [X EX]] N.
  rewrite HO in HO2, HO3. injection HO2 as <-. injection HO3 as <-.
  assert (DA : getattr o "_dim" = Some (PNat d)).
  { unfold dim in HD. cbn [dim_at] in HD. rewrite HO, HC in HD. destruct (getattr o "_dim") as [[]|]; try discriminate. injection HD as ->. reflexivity. }
  cbn [copy_at]. rewrite HO, HC. cbv zeta. rewrite HW, A1, DA, A2, V1, V2. unfold the_name. rewrite HN.
  set (K := fun (a b : list nat) (wid' : nat) => bind (make_autodiff one dflt a f d (Some wid') b (Some (copy_name new nm)) default_opts (KMode m)) (fun i' => finish_copy i i' keep)).
  set (wC := after T F w O A (w_aux x) (w_name x)). set (O' := seq (List.length (w_vars w)) (List.length O)).
  set (A' := seq (List.length (w_vars w) + List.length O) (List.length A)).
  assert (PE : bind (copy_vals (Some (map PVar O))) (fun a => bind (copy_vals (Some (map PVar A))) (fun b => bind (copy_weight wid) (fun wid' => K a b wid'))) w = K O' A' (List.length (w_wts w)) wC).
  { unfold wC, O', A'. rewrite <- (prep_eq T F w O A wid x nat K E X EX). apply bind_ext; [intros; apply copy_vals_map|]. intros a w1. apply bind_ext; [intros; apply copy_vals_map|]. reflexivity. }
  unfold K in PE. rewrite PE. unfold bind. clear K PE.
  assert (OA : O' ++ A' = seq (List.length (w_vars w)) (List.length (O ++ A))) by (unfold O', A'; rewrite app_length, seq_app; reflexivity).
  destruct (names_copy_free w O A x E EX N) as [NF [NI NK]]. fold wC in NF, NI, NK. rewrite <- OA in NF, NI, NK.
  assert (EC : exist wC (O' ++ A')).
  { rewrite OA. intros v Hv. apply in_seq in Hv. unfold wC, after. cbn [w_vars]. rewrite !app_length in *. rewrite !got_len; [lia|exact EX| |]; intros u Hu; apply E; apply in_or_app; auto. }
  assert (NE' : O' <> []) by (unfold O'; destruct O; [contradiction|discriminate]).
  destruct (rest_good T F one dflt wC O' f d (List.length (w_wts w)) A' (Some (copy_name new nm)) default_opts (KMode m) m EC NE' NF eq_refl) as [MK _].
  rewrite MK. set (wD := ad_world T F wC O' f d (List.length (w_wts w)) A' (Some (copy_name new nm)) default_opts m).
  change (List.length (w_objs wC)) with (List.length (w_objs w)).
  pose proof (ad_looks T F wC O' A' f d (List.length (w_wts w)) (Some (copy_name new nm)) default_opts m NF NI) as LK. fold wD in LK.
  destruct (finish_gen w wD i o (ad_obj T F wC O' f d (List.length (w_wts w)) A' (Some (copy_name new nm)) default_opts m) O A wid x (extra T F wC m O' A') keep HO V1 V2 E X EX) as [w' [Q1 [Q2 [Q3 [Q4 Q5]]]]].
  - reflexivity.
  - reflexivity.
  - reflexivity.
  - apply ad_optim_vars; assumption.
  - apply ad_aux_vars; assumption.
  - exists w', (List.length (w_objs w)), O', A', (List.length (w_wts w)), (names wC O'), (names wC A').
    split; [exact Q1|]. split; [reflexivity|]. split; [exact Q2|]. split; [apply (looks_objs wD); [symmetry; exact Q3|exact LK]|].
    split. { destruct (ad_has T F wC O' A' f d (List.length (w_wts w)) (Some (copy_name new nm)) default_opts m) as [q HQ]. exists q. rewrite Q3. exact HQ. }
    split. { destruct (ad_named T F wC O' A' f d (List.length (w_wts w)) (Some (copy_name new nm)) default_opts m NF) as [q HQ]. exists q. rewrite Q3.
             assert (CN : String.eqb (copy_name new nm) "" = false) by (unfold copy_name; destruct new as [s|]; [destruct (String.eqb_spec s "") as [_|D]; [apply copy_ne|apply String.eqb_neq; exact D]|apply copy_ne]).
             rewrite CN in HQ. exact HQ. }
    split. { rewrite (jac_ok_dts w' wD _ Q3 Q5). apply (ad_jac_ok T F wC O' A'); assumption. }
    split. { destruct (ad_registered T F wC O' A' f d (List.length (w_wts w)) (Some (copy_name new nm)) default_opts m) as [q HQ]. exists q. rewrite Q3. exact HQ. }
    assert (NN : names wC O' ++ names wC A' = names wC (O' ++ A')) by (unfold names; rewrite map_app; reflexivity). rewrite NN.
    split; [apply NF|exact NK].
Qed.

(** copy() of a standard cost function *)
Lemma copy_plain : forall n w i O A wid d ko ka nm new keep,
  looks w i CPlain O A wid d -> registered w i ko ka -> named w i nm ->
  exist w (O ++ A) -> weight_exists w wid -> NoDup (ko ++ ka) -> (forall k, In k (ko ++ ka) -> ~ In k ("_dim" :: init_attrs)) ->
  exists w' i' O' A' wid', copy_at one dflt (S n) i new keep w = Ret w' i' /\ i' = List.length (w_objs w) /\
    is_copy w w' keep O A wid O' A' wid' /\ looks w' i' CPlain O' A' wid' d /\ named w' i' (copy_name new nm) /\ registered w' i' ko ka.
Proof.
  intros n w i O A wid d ko ka nm new keep [[o [HO [HC [V1 V2]]]] HW HD] [o2 [HO2 [R1 R2]]] [o3 [HO3 HN]] E [x [X EX]] N KF.
  rewrite HO in HO2, HO3. injection HO2 as <-. injection HO3 as <-.
  assert (DA : getattr o "_dim" = Some (PNat d)).
  { unfold dim in HD. cbn [dim_at] in HD. rewrite HO, HC in HD. destruct (getattr o "_dim") as [[]|]; try discriminate. injection HD as ->. reflexivity. }
  cbn [copy_at]. rewrite HO, HC. cbv zeta. rewrite HW, DA. unfold the_name. rewrite HN.
  pose proof V1 as V1'. pose proof V2 as V2'. unfold optim_vars in V1'. unfold aux_vars in V2'. rewrite R1 in *. rewrite R2 in *.
  set (K := fun (a b : list nat) (wid' : nat) => bind (make_plain (combine ko a) (combine ka b) d wid' (Some (copy_name new nm))) (fun i' => finish_copy (T:=T) (F:=F) i i' keep)).
  set (wC := after T F w O A (w_aux x) (w_name x)). set (O' := seq (List.length (w_vars w)) (List.length O)).
  set (A' := seq (List.length (w_vars w) + List.length O) (List.length A)).
  match goal with |- exists w' i' O' A' wid', ?G = _ /\ _ => assert (PE : G = K O' A' (List.length (w_wts w)) wC) end.
  { unfold wC, O', A'. rewrite <- (prep_eq T F w O A wid x nat K E X EX). unfold bind. rewrite (copy_cells_map T F o ko O w V1').
    destruct (mapM copy_var O w) as [w1 a|w1 e]; [|reflexivity]. rewrite (copy_cells_map T F o ka A w1 V2').
    destruct (mapM copy_var A w1) as [w2 b|w2 e]; reflexivity. }
  rewrite PE. unfold K, bind. clear K PE.
  assert (LO : List.length ko = List.length O') by (unfold O'; rewrite seq_length; destruct (attr_vals_map F o ko _ V1') as [LL _]; rewrite map_length in LL; lia).
  assert (LA : List.length ka = List.length A') by (unfold A'; rewrite seq_length; destruct (attr_vals_map F o ka _ V2') as [LL _]; rewrite map_length in LL; lia).
  assert (KM : map fst (combine ko O' ++ combine ka A') = ko ++ ka) by (rewrite map_app, !combine_fst by assumption; reflexivity).
  assert (NM : NoDup (map fst (combine ko O' ++ combine ka A'))) by (rewrite KM; exact N).
  rewrite (plain_eq T F wC (combine ko O') (combine ka A') d (List.length (w_wts w)) (Some (copy_name new nm)) NM).
  set (wD := plain_world T F wC (combine ko O') (combine ka A') d (List.length (w_wts w)) (Some (copy_name new nm))).
  change (List.length (w_objs wC)) with (List.length (w_objs w)).
  destruct (plain_looks T F wC (combine ko O') (combine ka A') d (List.length (w_wts w)) (Some (copy_name new nm)) NM) as [LK [RG [_ NMD]]].
  { rewrite KM. intros k Hk. specialize (KF k Hk). cbn [In] in KF. split; [intros ->; apply KF; left; reflexivity|intro H; apply KF; right; exact H]. }
  fold wD in LK, RG, NMD. change (List.length (w_objs wC)) with (List.length (w_objs w)) in LK, RG, NMD.
  rewrite !combine_fst in RG by assumption. rewrite !combine_snd in LK by assumption.
  pose proof LK as [[o' [P1 [P2 [P3 P4]]]] _ _].
  assert (PO : w_objs wD = w_objs w ++ [o']).
  { unfold wD, plain_world in P1 |- *. cbn [w_objs] in P1 |- *. change (w_objs wC) with (w_objs w) in *. rewrite nth_error_app2, Nat.sub_diag in P1 by lia. cbn [nth_error] in P1. injection P1 as ->. reflexivity. }
  destruct (finish_gen w wD i o o' O A wid x [] keep HO V1 V2 E X EX) as [w' [Q1 [Q2 [Q3 [Q4 Q5]]]]].
  - rewrite app_nil_r. reflexivity.
  - reflexivity.
  - exact PO.
  - exact P3.
  - exact P4.
  - exists w', (List.length (w_objs w)), O', A', (List.length (w_wts w)).
    split; [exact Q1|]. split; [reflexivity|]. split; [exact Q2|]. split; [apply (looks_objs wD); [symmetry; exact Q3|exact LK]|].
    split. { destruct NMD as [q HQ]. exists q. rewrite Q3.
             assert (CN : String.eqb (copy_name new nm) "" = false) by (unfold copy_name; destruct new as [s|]; [destruct (String.eqb_spec s "") as [_|D]; [apply copy_ne|apply String.eqb_neq; exact D]|apply copy_ne]).
             rewrite CN in HQ. exact HQ. }
    destruct RG as [q HQ]. exists q. rewrite Q3. exact HQ.
Qed.
End Copy.
