(** An AutoDiffCostFunction just constructed, and its copies (C99). *)
From Coq Require Import List String Ascii Arith Bool Lia.
From Verif Require Import Mp_model Acf_model Acf_spec Acf_base Acf_make.
Import ListNotations.
Local Open Scope string_scope.
Local Open Scope list_scope.
Local Open Scope nat_scope.

Section Auto.
Variables T F : Type.
Variable one : T.
Variable dflt : dtype.
Implicit Types (w : world T F) (o : cobj F).

Lemma got_nth : forall w vs, exist w vs -> forall k v, nth_error vs k = Some v ->
  exists x, nth_error (w_vars w) v = Some x /\ nth_error (flat_map (got T F w) vs) k = Some (copy_of T x).
Proof.
  intros w. induction vs as [|u vs IH]; intros E k v K; [destruct k; discriminate|].
  cbn [flat_map]. assert (U : u < List.length (w_vars w)) by (apply E; left; reflexivity). apply nth_error_Some in U.
  destruct (nth_error (w_vars w) u) as [x|] eqn:X; [|contradiction]. unfold got at 1. rewrite X. cbn [app].
  destruct k as [|k]; cbn [nth_error] in K.
  - injection K as <-. exists x. split; [exact X|reflexivity].
  - cbn [nth_error]. apply IH; [intros z Hz; apply E; right; exact Hz|exact K].
Qed.
Lemma got_len : forall w vs, exist w vs -> List.length (flat_map (got T F w) vs) = List.length vs.
Proof. intros w vs E. apply (copy_vars_eq T F vs w E). Qed.
Lemma pairs_ok : forall w vs s, (forall k v, nth_error vs k = Some v -> exists x y, nth_error (w_vars w) (s + k) = Some x /\ nth_error (w_vars w) v = Some y /\ v_dt x = v_dt y) ->
  forallb (same_dt w) (combine (map PVar (seq s (List.length vs))) (map PVar vs)) = true.
Proof.
  intros w. induction vs as [|v vs IH]; intros s H; [reflexivity|].
  cbn [List.length seq map combine forallb]. apply andb_true_iff. split.
  - destruct (H 0 v eq_refl) as [x [y [X [Y D]]]]. rewrite Nat.add_0_r in X. unfold same_dt. rewrite X, Y, D. destruct (v_dt y); reflexivity.
  - apply IH. intros k u K. destruct (H (S k) u K) as [x [y [X [Y D]]]]. exists x, y. replace (S s + k) with (s + S k) by lia. auto.
Qed.
Lemma scratch_ok : forall w w' pre vs post s, exist w vs -> w_vars w' = w_vars w ++ pre ++ flat_map (got T F w) vs ++ post ->
  s = List.length (w_vars w) + List.length pre ->
  (List.length (seq s (List.length vs)) =? List.length (map (@PVar F) vs)) && forallb (same_dt w') (combine (map PVar (seq s (List.length vs))) (map PVar vs)) = true.
Proof.
  intros w w' pre vs post s E W ->. rewrite seq_length, map_length, Nat.eqb_refl. cbn [andb]. apply pairs_ok. intros k v K.
  destruct (got_nth w vs E k v K) as [x [X G]].
  assert (KL : k < List.length (flat_map (got T F w) vs)) by (apply nth_error_Some; rewrite G; discriminate).
  exists (copy_of T x), x. split; [|split; [|reflexivity]].
  - rewrite W, nth_error_app2 by lia. rewrite nth_error_app2 by lia. rewrite nth_error_app1 by lia.
    replace (List.length (w_vars w) + List.length pre + k - List.length (w_vars w) - List.length pre) with k by lia. exact G.
  - rewrite W, nth_error_app1; [exact X|]. apply nth_error_Some. rewrite X. discriminate.
Qed.

Lemma init_not_internal : forall k, In k init_attrs -> ~ In k internal.
Proof.
  intros k K L. unfold init_attrs in K. cbn [In] in K.
  repeat (destruct K as [<-|K]; [apply mem_In in L; vm_compute in L; discriminate|]). destruct K.
Qed.
Section Made.
Variables (w : world T F) (optim aux : list nat) (f : F) (d wid : nat) (name : option string) (op : adopts) (md : mode).
Hypothesis E : exist w (optim ++ aux).
Hypothesis NF : names_free T F w (optim ++ aux).
Hypothesis NI : forall s, In s (names w (optim ++ aux)) -> ~ In s internal.
Let o := ad_obj T F w optim f d wid aux name op md.
Let w' := ad_world T F w optim f d wid aux name op md.

Lemma ad_split : NoDup (names w optim) /\ NoDup (names w aux) /\ (forall s, In s (names w optim) -> ~ In s (names w aux)).
Proof. destruct NF as [N _]. unfold names in N. rewrite map_app in N. apply nodup_app_iff in N. exact N. Qed.
Lemma in_names_l : forall s, In s (names w optim) -> In s (names w (optim ++ aux)).
Proof. intros s H. unfold names. rewrite map_app. apply in_or_app. left. exact H. Qed.
Lemma in_names_r : forall s, In s (names w aux) -> In s (names w (optim ++ aux)).
Proof. intros s H. unfold names. rewrite map_app. apply in_or_app. right. exact H. Qed.
Lemma ad_reg_optim : forall v s, In (v, s) (combine optim (names w optim)) -> getattr o s = Some (PVar v).
Proof.
  intros v s H. destruct ad_split as [A [B C]].
  assert (S : In s (names w optim)) by (apply in_combine_r in H; exact H).
  unfold o, ad_obj. rewrite fin_skip by (apply NI, in_names_l, S). unfold getattr, reg_obj. cbn [o_dict].
  rewrite assoc_app, cells_none, assoc_app.
  - rewrite (cells_assoc F _ v s); [reflexivity|rewrite combine_snd by (symmetry; apply names_len); exact A|exact H].
  - rewrite combine_snd by (symmetry; apply names_len). apply C. exact S.
Qed.
Lemma ad_reg_aux : forall v s, In (v, s) (combine aux (names w aux)) -> getattr o s = Some (PVar v).
Proof.
  intros v s H. destruct ad_split as [A [B C]].
  assert (S : In s (names w aux)) by (apply in_combine_r in H; exact H).
  unfold o, ad_obj. rewrite fin_skip by (apply NI, in_names_r, S). unfold getattr, reg_obj. cbn [o_dict].
  rewrite assoc_app. rewrite (cells_assoc F _ v s); [reflexivity|rewrite combine_snd by (symmetry; apply names_len); exact B|exact H].
Qed.
Lemma ad_optim_vars : optim_vars o = Some (map PVar optim).
Proof.
  unfold optim_vars. assert (K : o_optim o = names w optim) by (unfold o, ad_obj; rewrite (proj1 (proj2 (fin_shape F _ _ _ _ _ _ _ _))); reflexivity).
  rewrite K. pose proof (attr_vals_vars F o (combine optim (names w optim)) ad_reg_optim) as H.
  rewrite combine_snd, combine_fst in H by (symmetry; apply names_len). exact H.
Qed.
Lemma ad_aux_vars : aux_vars o = Some (map PVar aux).
Proof.
  unfold aux_vars. assert (K : o_aux o = names w aux) by (unfold o, ad_obj; rewrite (proj2 (proj2 (fin_shape F _ _ _ _ _ _ _ _))); reflexivity).
  rewrite K. pose proof (attr_vals_vars F o (combine aux (names w aux)) ad_reg_aux) as H.
  rewrite combine_snd, combine_fst in H by (symmetry; apply names_len). exact H.
Qed.
Lemma ad_init : forall k, In k init_attrs -> getattr o k = assoc (base_dict F CAutoDiff name wid (w_fid w)) k.
Proof.
  intros k K. unfold o, ad_obj. rewrite fin_skip by (apply init_not_internal; exact K). unfold getattr, reg_obj. cbn [o_dict].
  rewrite assoc_app, cells_none, assoc_app, cells_none; [reflexivity| |].
  - rewrite combine_snd by (symmetry; apply names_len). intro H. apply in_names_l in H. apply NF in H. apply H; exact K.
  - rewrite combine_snd by (symmetry; apply names_len). intro H. apply in_names_r in H. apply NF in H. apply H; exact K.
Qed.
Lemma ad_obj_at : nth_error (w_objs w') (List.length (w_objs w)) = Some o.
Proof. unfold w', ad_world. cbn [w_objs]. rewrite nth_error_app2, Nat.sub_diag by lia. reflexivity. Qed.
Lemma ad_cls : o_cls o = CAutoDiff.
Proof. unfold o, ad_obj. rewrite (proj1 (fin_shape F _ _ _ _ _ _ _ _)). reflexivity. Qed.
Lemma ad_dim_attr : getattr o "_dim" = Some (PNat d) /\ getattr o "_err_fn" = Some (PFn f) /\ getattr o "_autograd_mode" = Some (PMode md).
Proof. unfold o, ad_obj, fin. destruct md; repeat split; reflexivity. Qed.
Lemma ad_looks : looks w' (List.length (w_objs w)) CAutoDiff optim aux wid d.
Proof.
  constructor.
  - exists o. split; [apply ad_obj_at|]. split; [apply ad_cls|]. split; [apply ad_optim_vars|apply ad_aux_vars].
  - unfold weight. cbn [weight_at]. rewrite ad_obj_at, ad_cls. rewrite ad_init by (right; right; right; right; left; reflexivity). reflexivity.
  - unfold dim. cbn [dim_at]. rewrite ad_obj_at, ad_cls. rewrite (proj1 ad_dim_attr). reflexivity.
Qed.
Lemma ad_has : autodiff_has w' (List.length (w_objs w)) f md op.
Proof.
  exists o. split; [apply ad_obj_at|]. split; [apply ad_dim_attr|]. split; [apply ad_dim_attr|].
  unfold o, ad_obj, fin. destruct md; repeat split; reflexivity.
Qed.
Lemma ad_registered : registered w' (List.length (w_objs w)) (names w optim) (names w aux).
Proof. exists o. split; [apply ad_obj_at|]. unfold o, ad_obj. split; apply (fin_shape F). Qed.
Lemma ad_named : named w' (List.length (w_objs w))
  (match name with Some s => if String.eqb s "" then ("AutoDiffCostFunction__" ++ dec (w_fid w))%string else s
                 | None => ("AutoDiffCostFunction__" ++ dec (w_fid w))%string end).
Proof. exists o. split; [apply ad_obj_at|]. rewrite ad_init by (right; left; reflexivity). reflexivity. Qed.
Lemma ad_extends : extends w w'.
Proof. unfold extends, w', ad_world. cbn [w_vars w_wts w_objs]. split; [eexists; reflexivity|]. split; [exists []; rewrite app_nil_r; reflexivity|eexists; reflexivity]. Qed.
End Made.
Lemma ad_jac_ok : forall w optim aux f d wid name op md, exist w (optim ++ aux) -> names_free T F w (optim ++ aux) ->
  (forall s, In s (names w (optim ++ aux)) -> ~ In s internal) ->
  jac_ok (ad_world T F w optim f d wid aux name op md) (List.length (w_objs w)) = true.
Proof.
  intros w optim aux f d wid name op md E NF NI.
  assert (E1 : exist w optim) by (intros v Hv; apply E; apply in_or_app; left; exact Hv).
  assert (E2 : exist w aux) by (intros v Hv; apply E; apply in_or_app; right; exact Hv).
  unfold jac_ok. cbn [jac_ok_at]. rewrite ad_obj_at, ad_cls. rewrite (proj2 (proj2 (ad_dim_attr w optim aux f d wid name op md))).
  unfold check_tmp. rewrite ad_optim_vars, ad_aux_vars by assumption.
  pose proof (got_len w optim E1) as L1.
  destruct md.
  - change (getattr (ad_obj T F w optim f d wid aux name op DENSE) "_tmp_optim_vars") with (Some (@PVars F (tmp1 T F w optim))).
    apply (scratch_ok w _ [] optim []); [exact E1|reflexivity|cbn [List.length]; lia].
  - change (getattr (ad_obj T F w optim f d wid aux name op LOOP_BATCH) "_tmp_optim_vars_for_loop") with (Some (@PVars F (tmp2 T F w optim))).
    change (getattr (ad_obj T F w optim f d wid aux name op LOOP_BATCH) "_tmp_aux_vars_for_loop") with (Some (@PVars F (tmp3 T F w LOOP_BATCH optim aux))).
    apply andb_true_iff. split.
    + apply (scratch_ok w _ (flat_map (got T F w) optim) optim (flat_map (got T F w) aux)); [exact E1|reflexivity|]. rewrite L1. reflexivity.
    + apply (scratch_ok w _ (flat_map (got T F w) optim ++ flat_map (got T F w) optim) aux []); [exact E2| |].
      * cbn [ad_world w_vars]. unfold extra. rewrite app_nil_r, <- !app_assoc. reflexivity.
      * rewrite app_length, L1. reflexivity.
  - change (getattr (ad_obj T F w optim f d wid aux name op VMAP) "_tmp_optim_vars") with (Some (@PVars F (tmp1 T F w optim))).
    change (getattr (ad_obj T F w optim f d wid aux name op VMAP) "_tmp_aux_vars") with (Some (@PVars F (tmp3 T F w VMAP optim aux))).
    apply andb_true_iff. split.
    + apply (scratch_ok w _ [] optim (flat_map (got T F w) aux)); [exact E1|reflexivity|cbn [List.length]; lia].
    + apply (scratch_ok w _ (flat_map (got T F w) optim) aux []); [exact E2| |rewrite L1; reflexivity].
      cbn [ad_world w_vars]. unfold extra. rewrite app_nil_r. reflexivity.
Qed.
End Auto.
