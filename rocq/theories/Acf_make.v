(** What the AutoDiffCostFunction constructor does (C99). *)
From Coq Require Import List String Ascii Arith Bool Lia ListDec.
From Verif Require Import Mp_model Acf_model Acf_spec Acf_base.
Import ListNotations.
Local Open Scope string_scope.
Local Open Scope list_scope.
Local Open Scope nat_scope.

Lemma nodup_app_iff : forall A (l l' : list A), NoDup (l ++ l') <-> NoDup l /\ NoDup l' /\ (forall x, In x l -> ~ In x l').
Proof.
  induction l as [|a l IH]; intros l'; cbn [app].
  - split; [intros H; split; [constructor|split; [exact H|intros x []]]|intros [_ [H _]]; exact H].
  - rewrite !NoDup_cons_iff, IH, in_app_iff. split.
    + intros [A1 [A2 [A3 A4]]]. split; [tauto|]. split; [exact A3|]. intros x [<-|Hx]; [tauto|apply A4; exact Hx].
    + intros [[A1 A2] [A3 A4]]. split; [intros [K|K]; [exact (A1 K)|exact (A4 a (or_introl eq_refl) K)]|].
      split; [exact A2|]. split; [exact A3|]. intros x Hx. apply A4. right. exact Hx.
Qed.
Section Make.
Variables T F : Type.
Variable one : T.
Variable dflt : dtype.
Implicit Types (w : world T F) (o : cobj F).

Definition fin (f : F) (d : nat) (op : adopts) (md : mode) (tmp t1 t2 : list nat) o : cobj F :=
  let o := setattrs o [("_err_fn", PFn f); ("_dim", PNat d); ("_autograd_create_graph", PBool (a_create op));
                       ("_autograd_strict", PBool (a_strict op)); ("_autograd_vectorize", PBool (a_vec op));
                       ("_autograd_strategy", PStr (a_strategy op)); ("_tmp_optim_vars", PVars tmp); ("_tmp_aux_vars", PNone);
                       ("_tmp_optim_vars_for_loop", PNone); ("_tmp_aux_vars_for_loop", PNone)] in
  let o := setattr o "_autograd_mode" (PMode md) in
  match md with
  | LOOP_BATCH => setattrs o [("_tmp_optim_vars_for_loop", PVars t1); ("_tmp_aux_vars_for_loop", PVars t2)]
  | VMAP => setattr o "_tmp_aux_vars" (PVars t2)
  | DENSE => o
  end.
Lemma getattr_other : forall o k' x k, ~ In k internal -> In k' internal -> getattr (setattr o k' x) k = getattr o k.
Proof.
  intros o k' x k N I. unfold getattr, setattr. cbn [o_dict assoc]. destruct (String.eqb_spec k' k) as [->|D]; [contradiction|reflexivity].
Qed.
Lemma fin_skip : forall f d op md tmp t1 t2 o k, ~ In k internal -> getattr (fin f d op md tmp t1 t2 o) k = getattr o k.
Proof.
  intros f d op md tmp t1 t2 o k N. unfold fin. cbv zeta. cbn [setattrs].
  destruct md; repeat (etransitivity; [apply getattr_other; [exact N|apply mem_In; vm_compute; reflexivity]|]); reflexivity.
Qed.
Lemma fin_shape : forall f d op md tmp t1 t2 o, o_cls (fin f d op md tmp t1 t2 o) = o_cls o /\ o_optim (fin f d op md tmp t1 t2 o) = o_optim o
  /\ o_aux (fin f d op md tmp t1 t2 o) = o_aux o.
Proof. intros. unfold fin. destruct md; repeat split; reflexivity. Qed.
Lemma fin_internal : forall f d op md tmp t1 t2 o k, In k internal -> exists x, getattr (fin f d op md tmp t1 t2 o) k = Some x /\ (forall v, x <> PVar v).
Proof.
  intros f d op md tmp t1 t2 o k K.
  unfold internal in K. cbn [In] in K.
  repeat (destruct K as [<-|K]; [destruct md; eexists; (split; [reflexivity|intros v; discriminate])|]).
  destruct K.
Qed.

(** the object just after registration *)
Definition base_dict (c : ccls) (name : option string) (wid : nat) (id : nat) : list (string * val F) :=
  [("__supports_masking__", PBool false); ("_weight", PWt wid); ("_aux_vars_attr_names", PNone);
   ("_optim_vars_attr_names", PNone);
   ("name", PStr (match name with Some s => if String.eqb s "" then (ccls_name c ++ "__" ++ dec id)%string else s
                              | None => (ccls_name c ++ "__" ++ dec id)%string end)); ("_id", PNat id)].
Definition reg_obj w (optim aux : list nat) (name : option string) (wid : nat) : cobj F :=
  mkObj CAutoDiff (rev (map (cell F) (combine aux (names w aux))) ++ rev (map (cell F) (combine optim (names w optim))) ++ base_dict CAutoDiff name wid (w_fid w))
    (names w optim) (names w aux).

Definition names_free w (vs : list nat) : Prop :=
  NoDup (names w vs) /\ (forall s, In s (names w vs) -> ~ In s class_attrs /\ ~ In s init_attrs).

Lemma got_ext : forall w w' l vs, w_vars w' = w_vars w ++ l -> exist w vs -> flat_map (got T F w') vs = flat_map (got T F w) vs.
Proof.
  intros w w' l vs E. induction vs as [|v vs IH]; intros X; [reflexivity|]. cbn [flat_map].
  rewrite IH by (intros u Hu; apply X; right; exact Hu). f_equal. unfold got. rewrite E, nth_error_app1 by (apply X; left; reflexivity). reflexivity.
Qed.
Definition extra w (md : mode) (optim aux : list nat) : list (var T) :=
  flat_map (got T F w) optim ++
  match md with LOOP_BATCH => flat_map (got T F w) optim ++ flat_map (got T F w) aux | VMAP => flat_map (got T F w) aux | DENSE => [] end.
Definition tmp1 w (optim : list nat) : list nat := seq (List.length (w_vars w)) (List.length optim).
Definition tmp2 w (optim : list nat) : list nat := seq (List.length (w_vars w) + List.length optim) (List.length optim).
Definition tmp3 w (md : mode) (optim aux : list nat) : list nat :=
  seq (List.length (w_vars w) + match md with LOOP_BATCH => List.length optim + List.length optim | _ => List.length optim end) (List.length aux).
Definition ad_obj w optim f d wid aux name op md : cobj F :=
  fin f d op md (tmp1 w optim) (tmp2 w optim) (tmp3 w md optim aux) (reg_obj w optim aux name wid).
Definition ad_world w optim f d wid aux name op md : world T F :=
  mkW (w_vars w ++ extra w md optim aux) (w_wts w) (w_objs w ++ [ad_obj w optim f d wid aux name op md]) (S (w_fid w)).

Lemma hasattr_init : forall c name wid id oo aa s,
  hasattr (mkObj c (base_dict c name wid id) oo aa) s = false <-> ~ In s class_attrs /\ ~ In s init_attrs.
Proof.
  intros. unfold hasattr. rewrite orb_false_iff, !mem_notIn. cbn [o_dict]. unfold base_dict, init_attrs. cbn [map fst In].
  split; intros [A B]; (split; [exact A|]); intro K; apply B; intuition.
Qed.
Lemma rest_good : forall w optim f d wid aux name op m md, exist w (optim ++ aux) ->
  optim <> [] -> names_free w (optim ++ aux) -> resolve m = inl md ->
  make_autodiff one dflt optim f d (Some wid) aux name op m w = Ret (ad_world w optim f d wid aux name op md) (List.length (w_objs w))
  /\ List.length (extra w md optim aux) = List.length optim + match md with LOOP_BATCH => List.length optim + List.length aux | VMAP => List.length aux | DENSE => 0 end.
Proof.
  intros w optim f d wid aux name op m md E NE [ND NF] RM.
  assert (E1 : exist w optim) by (intros v Hv; apply E; apply in_or_app; left; exact Hv).
  assert (E2 : exist w aux) by (intros v Hv; apply E; apply in_or_app; right; exact Hv).
  unfold names in ND, NF. rewrite map_app in ND. rewrite map_app in NF. fold (names w optim) (names w aux) in ND, NF.
  unfold make_autodiff, bind at 1. cbn [ret]. unfold base_init, bind at 1. cbv zeta. rewrite app_nil_r.
  fold (base_dict CAutoDiff name wid (w_fid w)).
  destruct (Nat.ltb_spec (List.length optim) 1) as [L|L]; [destruct optim; [contradiction|cbn [List.length] in L; lia]|].
  unfold bind at 1. cbn [ret]. set (w1 := mkW (w_vars w) (w_wts w) (w_objs w) (S (w_fid w))).
  unfold bind at 1. rewrite (names_of_eq T F optim w1) by exact E1.
  change (names w1 optim) with (names w optim).
  set (o0 := mkObj CAutoDiff (base_dict CAutoDiff name wid (w_fid w)) [] []).
  assert (RI0 : regs_in F o0) by (intros k []).
  pose proof (reg_vars_spec F (combine optim (names w optim)) o0 true RI0) as S1.
  rewrite (combine_snd _ _ optim (names w optim)) in S1 by (symmetry; apply names_len).
  destruct (register_vars o0 (combine optim (names w optim)) true) as [o1|e].
  2:{ exfalso. apply S1. split; [apply nodup_app_iff in ND; apply ND|].
      apply Forall_forall. intros s Hs. apply hasattr_init. apply NF. apply in_or_app. left. exact Hs. }
  destruct S1 as [S1 [S2 S3]]. cbn [o0 o_cls o_dict o_optim o_aux app] in S3.
  unfold bind at 1. cbn [lift ret]. unfold bind at 1. rewrite (names_of_eq T F aux w1) by exact E2. change (names w1 aux) with (names w aux).
  assert (RI1 : regs_in F o1).
  { rewrite S3. intros k Hk. cbn [o_optim o_aux o_dict] in *. rewrite app_nil_r in Hk. rewrite map_app, map_rev, cells_keys, combine_snd by (symmetry; apply names_len).
    apply in_or_app. left. apply in_rev. rewrite rev_involutive. exact Hk. }
  pose proof (reg_vars_spec F (combine aux (names w aux)) o1 false RI1) as S4.
  rewrite (combine_snd _ _ aux (names w aux)) in S4 by (symmetry; apply names_len).
  assert (HA : forall s, hasattr o1 s = false <-> ~ In s (names w optim) /\ hasattr o0 s = false).
  { intros s. rewrite S3. unfold hasattr. cbn [o_dict o0]. rewrite map_app, map_rev, cells_keys, combine_snd by (symmetry; apply names_len).
    rewrite !orb_false_iff, !mem_notIn. split.
    - intros [A B]. split; [intro K; apply B; apply in_or_app; left; apply in_rev; rewrite rev_involutive; exact K|split; [exact A|intro K; apply B; apply in_or_app; right; exact K]].
    - intros [A [B C]]. split; [exact B|]. intro K. apply in_app_or in K. destruct K as [K|K]; [apply A; apply in_rev; exact K|exact (C K)]. }
  destruct (register_vars o1 (combine aux (names w aux)) false) as [o2|e].
  2:{ exfalso. apply S4. split; [apply nodup_app_iff in ND; apply ND|].
      apply Forall_forall. intros s Hs. apply HA. split.
      - intro K. clear - ND Hs K. induction (names w optim) as [|a l IH]; [destruct K|]. cbn [app] in ND. apply NoDup_cons_iff in ND. destruct K as [->|K].
        + apply ND. apply in_or_app. right. exact Hs.
        + apply IH; [apply ND|exact K].
      - apply hasattr_init. apply NF. apply in_or_app. right. exact Hs. }
  destruct S4 as [_ [_ S5]]. rewrite S3 in S5. cbn [o_cls o_dict o_optim o_aux app] in S5. rewrite app_nil_r in S5.
  assert (O2 : o2 = reg_obj w optim aux name wid) by (rewrite S5; unfold reg_obj; reflexivity).
  clear S1 S2 S3 S5 RI0 RI1 HA. rewrite O2. clear O2 o2 o1 o0.
  unfold bind at 1. cbn [lift ret]. unfold bind at 1.
  destruct (copy_vars_eq T F optim w1 E1) as [C1 L1]. rewrite C1. rewrite RM.
  change (flat_map (got T F w1) optim) with (flat_map (got T F w) optim) in *.
  set (w2 := set_vars w1 (w_vars w1 ++ flat_map (got T F w) optim)).
  assert (X2 : forall vs, exist w vs -> exist w2 vs).
  { intros vs X v Hv. specialize (X v Hv). unfold w2. cbn [set_vars w_vars w1]. rewrite app_length. lia. }
  assert (G2 : forall vs, exist w vs -> flat_map (got T F w2) vs = flat_map (got T F w) vs).
  { intros vs X. apply (got_ext w w2 (flat_map (got T F w) optim) vs); [reflexivity|exact X]. }
  destruct md.
  - unfold ad_world, ad_obj, extra, new_obj. split; [|rewrite app_length, L1; reflexivity].
    unfold w2. cbn [set_vars w_vars w_wts w_objs w_fid w1]. rewrite app_nil_r. reflexivity.
  - unfold bind at 1. destruct (copy_vars_eq T F optim w2 (X2 _ E1)) as [C2 L2]. rewrite C2. rewrite (G2 _ E1) in *.
    set (w3 := set_vars w2 (w_vars w2 ++ flat_map (got T F w) optim)).
    assert (G3 : flat_map (got T F w3) aux = flat_map (got T F w) aux).
    { rewrite <- (G2 aux E2). apply (got_ext w2 w3 (flat_map (got T F w) optim) aux); [reflexivity|apply X2; exact E2]. }
    assert (X3 : exist w3 aux). { intros v Hv. specialize (X2 _ E2 v Hv). unfold w3. cbn [set_vars w_vars]. rewrite app_length. lia. }
    unfold bind. destruct (copy_vars_eq T F aux w3 X3) as [C3 L3]. rewrite C3. rewrite G3 in *.
    unfold ad_world, ad_obj, extra, new_obj. split; [|rewrite !app_length, L1, L3; reflexivity].
    unfold w3, w2. cbn [set_vars w_vars w_wts w_objs w_fid w1]. rewrite !app_length, L1.
    rewrite <- !app_assoc. unfold tmp1, tmp2, tmp3. rewrite Nat.add_assoc. reflexivity.
  - unfold bind. destruct (copy_vars_eq T F aux w2 (X2 _ E2)) as [C2 L2]. rewrite C2. rewrite (G2 _ E2) in *.
    unfold ad_world, ad_obj, extra, new_obj. split; [|rewrite app_length, L1, L2; reflexivity].
    unfold w2. cbn [set_vars w_vars w_wts w_objs w_fid w1]. rewrite app_length, L1, <- app_assoc. reflexivity.
Qed.
Lemma make_not_free : forall w optim f d wid aux name op m, exist w (optim ++ aux) -> optim <> [] -> ~ names_free w (optim ++ aux) ->
  exists w', make_autodiff one dflt optim f d (Some wid) aux name op m w = Exn w' RuntimeErr.
Proof.
    intros w optim f d wid aux name op m E NE NFr.
    assert (E1 : exist w optim) by (intros v Hv; apply E; apply in_or_app; left; exact Hv).
    assert (E2 : exist w aux) by (intros v Hv; apply E; apply in_or_app; right; exact Hv).
    assert (LL : (List.length optim <? 1) = false) by (destruct optim; [contradiction|reflexivity]).
    unfold make_autodiff, bind, base_init. cbn [ret]. rewrite LL. cbv zeta. unfold ret at 1.
    set (w1 := mkW (w_vars w) (w_wts w) (w_objs w) (S (w_fid w))).
    rewrite app_nil_r. fold (base_dict CAutoDiff name wid (w_fid w)).
    set (o0 := mkObj CAutoDiff (base_dict CAutoDiff name wid (w_fid w)) [] []).
    rewrite (names_of_eq T F optim w1) by exact E1. change (names w1 optim) with (names w optim).
    assert (RI0 : regs_in F o0) by (intros k []).
    pose proof (reg_vars_spec F (combine optim (names w optim)) o0 true RI0) as S1.
    rewrite (combine_snd _ _ optim (names w optim)) in S1 by (symmetry; apply names_len).
    destruct (register_vars o0 (combine optim (names w optim)) true) as [o1|e1].
    2:{ cbn [lift]. unfold raise. destruct S1 as [-> _]. eexists. reflexivity. }
    cbn [lift ret]. destruct S1 as [S1 [S2 S3]]. cbn [o0 o_cls o_dict o_optim o_aux app] in S3.
    rewrite (names_of_eq T F aux w1) by exact E2. change (names w1 aux) with (names w aux).
    assert (RI1 : regs_in F o1).
    { rewrite S3. intros k Hk. cbn [o_optim o_aux o_dict] in *. rewrite app_nil_r in Hk. rewrite map_app, map_rev, cells_keys, combine_snd by (symmetry; apply names_len).
      apply in_or_app. left. apply in_rev. rewrite rev_involutive. exact Hk. }
    pose proof (reg_vars_spec F (combine aux (names w aux)) o1 false RI1) as S4.
    rewrite (combine_snd _ _ aux (names w aux)) in S4 by (symmetry; apply names_len).
    destruct (register_vars o1 (combine aux (names w aux)) false) as [o2|e2].
    2:{ cbn [lift]. unfold raise. destruct S4 as [-> _]. eexists. reflexivity. }
    exfalso. apply NFr. destruct S4 as [S4 [S5 _]].
    assert (HA : forall s, In s (names w aux) -> ~ In s (names w optim) /\ hasattr o0 s = false).
    { intros s Hs. rewrite Forall_forall in S5. specialize (S5 s Hs). rewrite S3 in S5. unfold hasattr in S5. cbn [o_dict] in S5.
      rewrite map_app, map_rev, cells_keys, combine_snd in S5 by (symmetry; apply names_len).
      rewrite orb_false_iff, !mem_notIn in S5. destruct S5 as [A B]. split.
      - intro K. apply B. apply in_or_app. left. apply in_rev. rewrite rev_involutive. exact K.
      - unfold hasattr. rewrite orb_false_iff, !mem_notIn. split; [exact A|]. intro K. apply B. apply in_or_app. right. exact K. }
    unfold names_free, names. rewrite map_app. fold (names w optim) (names w aux). split.
    + clear - S1 S4 HA. induction (names w optim) as [|a l IH]; [exact S4|]. apply NoDup_cons_iff in S1. cbn [app]. constructor.
      * intro K. apply in_app_or in K. destruct K as [K|K]; [apply S1; exact K|]. apply (proj1 (HA a K)). left. reflexivity.
      * apply IH; [apply S1|]. intros s Hs. destruct (HA s Hs) as [A B]. split; [intro K; apply A; right; exact K|exact B].
    + intros s Hs. apply in_app_or in Hs. destruct Hs as [Hs|Hs].
      * rewrite Forall_forall in S2. specialize (S2 s Hs). apply hasattr_init in S2. exact S2.
      * destruct (HA s Hs) as [_ B]. apply hasattr_init in B. exact B.
Qed.
Lemma make_no_mode : forall w optim f d wid aux name op m e, exist w (optim ++ aux) -> optim <> [] -> names_free w (optim ++ aux) -> resolve m = inr e ->
  e = ValueErr /\ exists w', make_autodiff one dflt optim f d (Some wid) aux name op m w = Exn w' ValueErr.
Proof.
  intros w optim f d wid aux name op m e E NE NFr RM.
  assert (LL : (List.length optim <? 1) = false) by (destruct optim; [contradiction|reflexivity]).
  assert (EV : e = ValueErr).
  { unfold resolve in RM. destruct m as [m'|s|]; [discriminate| |injection RM as <-; reflexivity].
    destruct (String.eqb (upper s) "DENSE"); [discriminate|]. destruct (String.eqb (upper s) "LOOP_BATCH"); [discriminate|].
    destruct (String.eqb (upper s) "VMAP"); [discriminate|]. injection RM as <-. reflexivity. }
  split; [exact EV|].
  (* the same constructor with mode DENSE succeeds: this one fails at resolve *)
  destruct (rest_good w optim f d wid aux name op (KMode DENSE) DENSE E NE NFr eq_refl) as [G _].
  unfold make_autodiff, bind in G |- *. cbn [ret] in G |- *. rewrite LL in G |- *. cbn [ret] in G |- *. cbv beta in G |- *.
  destruct (base_init CAutoDiff name wid [] w) as [w1 o0|]; [|discriminate G].
  destruct (names_of optim w1) as [w2 on|]; [|discriminate G].
  destruct (register_vars o0 on true) as [o1|]; [|discriminate G]. cbn [lift ret] in G |- *.
  destruct (names_of aux w2) as [w3 an|]; [|discriminate G].
  destruct (register_vars o1 an false) as [o2|]; [|discriminate G]. cbn [lift ret] in G |- *.
  destruct (mapM copy_var optim w3) as [w4 tmp|]; [|discriminate G].
  rewrite RM. unfold raise. rewrite EV. eexists. reflexivity.
Qed.
End Make.
