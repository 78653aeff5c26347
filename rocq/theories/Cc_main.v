(** C97: a copy of a standard cost function or weight is an equal, independent object. *)
From Coq Require Import Reals List String Arith Bool Lia Lra.
From Verif Require Import Mp_model Cc_model Cc_spec Cc_props Cc_copy.
Import ListNotations.
Local Open Scope string_scope.
Local Open Scope nat_scope.

(** ** the tables *)
Ltac nodup := repeat constructor; cbn; intuition discriminate.
Lemma f_tables c : f_copy_args c = f_params c /\ NoDup (map fst (f_preps c)) /\
  (forall k, In k (map fst (f_preps c)) <-> In k (f_params c)) /\
  NoDup (f_optim c ++ f_aux c)%list /\ (forall k, In k (f_optim c ++ f_aux c)%list <-> In k (f_params c)).
Proof. destruct c; (split; [reflexivity|]); (split; [nodup|]); (split; [cbn; intros; tauto|]); (split; [nodup|]); cbn; intros; tauto. Qed.
Lemma w_tables c : w_copy_args c = w_params c /\ NoDup (map fst (w_preps c)) /\
  (forall k, In k (map fst (w_preps c)) <-> In k (w_params c)) /\
  NoDup (w_aux c) /\ (forall k, In k (w_aux c) <-> In k (w_params c)).
Proof. destruct c; (split; [reflexivity|]); (split; [nodup|]); (split; [cbn; intros; tauto|]); (split; [nodup|]); cbn; intros; tauto. Qed.
Lemma copy_cls_tables c : f_params (copy_cls c) = f_params c /\ f_preps (copy_cls c) = f_preps c /\
  f_optim (copy_cls c) = f_optim c /\ f_aux (copy_cls c) = f_aux c.
Proof. destruct c; repeat split. Qed.
Lemma in_fst {A} (l : list (string * A)) k : In k (map fst l) -> exists p, In (k, p) l.
Proof. intros I. apply in_map_iff in I as ([k' p] & E & I). cbn in E. subst k'. eauto. Qed.
Lemma fst_in {A} (l : list (string * A)) k p : In (k, p) l -> In k (map fst l).
Proof. intros I. apply in_map_iff. now exists (k, p). Qed.

(** ** time *)
Lemma later_sim h h' v : later h h' -> v < List.length h -> sim (getv h v) (getv h' v).
Proof. intros (_ & S & _) L. destruct (S v L) as (A & B & C). repeat split; congruence. Qed.
Lemma sim_shape_ok p x y : sim x y -> shape_ok p x -> shape_ok p y.
Proof.
  intros S. assert (N := sim_nth1 _ _ S). destruct S as (C & L & T). unfold shape_ok. rewrite <- L, <- N, <- C.
  assert (N2 : nth 2 (t_shape (v_tensor x)) 0 = nth 2 (t_shape (v_tensor y)) 0).
  { destruct (t_shape (v_tensor x)) as [|a s], (t_shape (v_tensor y)) as [|b s']; try discriminate; auto. cbn in T. now subst. }
  rewrite N2. destruct p; auto.
  all: intros (n & E); rewrite E in T, L; destruct (t_shape (v_tensor y)) as [|b s']; try discriminate; cbn in T; subst s'; eauto.
Qed.
Lemma later_app h h' news : later h h' -> Forall (fun x => wf (v_tensor x)) news -> later h (h' ++ news)%list.
Proof.
  intros (L & S & W) F. split; [rewrite app_length; lia|]. split.
  - intros v Lv. rewrite getv_app_l by lia. now apply S.
  - intros v Lv. destruct (lt_dec v (List.length h')) as [Q|Q]; [rewrite getv_app_l by lia; now apply W|].
    rewrite getv_app_r by lia. rewrite app_length in Lv. rewrite Forall_forall in F. apply F. apply nth_In. lia.
Qed.
Lemma all_pos_spec t : (forall x, In x (t_data t) -> (0 < x)%R) -> all_pos t = true.
Proof. intros H. apply forallb_forall. intros x I. destruct (Rlt_dec 0 x) as [|N]; [reflexivity|]. destruct (N (H x I)). Qed.
Lemma NoDup_map_in {A B} (f : A -> B) l : (forall a b, In a l -> In b l -> f a = f b -> a = b) -> NoDup l -> NoDup (map f l).
Proof.
  induction l as [|a l IH]; intros J ND; cbn; constructor; inversion ND; subst.
  - intros I. apply in_map_iff in I as (b & E & I). assert (b = a) by (apply J; cbn; auto). now subst.
  - apply IH; auto. intros; apply J; cbn; auto.
Qed.
Lemma snd_map (g : string -> nat) (ps : list (string * prep)) : map snd (map (fun kp => (fst kp, g (fst kp))) ps) = map g (map fst ps).
Proof. now rewrite !map_map. Qed.
Lemma fst_map (g : string -> nat) (ps : list (string * prep)) : map fst (map (fun kp => (fst kp, g (fst kp))) ps) = map fst ps.
Proof. now rewrite !map_map. Qed.
Lemma vars_at_map (g : string -> nat) (ps : list (string * prep)) ks : (forall k, In k ks -> In k (map fst ps)) ->
  vars_at (map (fun kp => (fst kp, g (fst kp))) ps) ks = map g ks.
Proof. intros H. unfold vars_at. apply map_ext_in. intros k I. rewrite assoc_map by auto. reflexivity. Qed.
Lemma share_false l l' n : (forall v, In v l -> v < n) -> (forall v, In v l' -> n <= v) -> share l l' = false.
Proof.
  intros A B. apply Bool.not_true_iff_false. intros E. unfold share in E. apply existsb_exists in E as (v & I & E).
  apply existsb_exists in E as (v' & I' & E). apply Nat.eqb_eq in E. subst v'. specialize (A v I). specialize (B v I'). lia.
Qed.
Lemma in_vars_at attrs ks v : In v (vars_at attrs ks) -> (forall k, In k ks -> exists u, assoc attrs k = Some u) ->
  exists k, In k ks /\ assoc attrs k = Some v.
Proof.
  intros I H. unfold vars_at in I. apply in_map_iff in I as (k & E & I). destruct (H k I) as (u & A). rewrite A in E. subst. eauto.
Qed.
Lemma combine_map_in {A} (f g : string -> A) ks k : In k ks -> In (f k, g k) (combine (map f ks) (map g ks)).
Proof. induction ks as [|k0 ks IH]; cbn; [tauto|]. intros [->|I]; auto. Qed.

Section Main.
Variable chol_ok : tensor -> bool.

(** what the attributes of an accepted object satisfy at any later time *)
Definition ready (h : heap) (attrs : list (string * nat)) (ps : list (string * prep)) : Prop :=
  forall k p, In (k, p) ps -> exists v, assoc attrs k = Some v /\ v < List.length h /\ wf (v_tensor (getv h v)) /\ shape_ok p (getv h v).
Lemma ready_held h attrs ps k : ready h attrs ps -> In k (map fst ps) -> held h attrs k.
Proof. intros R I. apply in_fst in I as (p & I). destruct (R k p I) as (v & E & L & _). now exists v. Qed.
Lemma ready_app h news attrs ps : ready h attrs ps -> ready (h ++ news)%list attrs ps.
Proof.
  intros R k p I. destruct (R k p I) as (v & E & L & W & S). exists v. rewrite app_length, getv_app_l by lia. repeat split; auto; lia.
Qed.
Lemma ready_of h h1 h2 args ps l : Forall2 (prepared h h1 args) ps l -> NoDup (map fst ps) -> later h1 h2 -> ready h2 l ps.
Proof.
  intros F ND LT k p I. destruct (attrs_of _ _ _ _ _ F ND k p I) as (v & E & L & S & _). exists v.
  assert (SM := later_sim _ _ _ LT L). destruct LT as (LL & _ & W).
  repeat split; auto; try lia; [apply W; lia|]. eapply sim_shape_ok; eauto.
Qed.

(** copying the attributes and preparing the copies again *)
Lemma recreate h attrs ps (ks : list string) sn name vd b rest :
  ready h attrs ps -> (forall k, In k (map fst ps) <-> In k ks) ->
  (forall k p, In (k, p) ps -> value_ok chol_ok p (look (attr_vars h attrs) k)) ->
  let kw := combine ks (map AV (seq (List.length h) (List.length ks))) in
  let news := map (fun k => cpy (look (attr_vars h attrs) k)) ks in
  copy_attrs attrs ks h = Ret (h ++ news)%list (map AV (seq (List.length h) (List.length ks))) /\
  run_preps chol_ok sn name vd b kw ps (h ++ news ++ rest)%list
    = Ret (h ++ news ++ rest)%list (map (fun kp => (fst kp, vid kw (fst kp))) ps).
Proof.
  intros R K V kw news. split.
  - apply copy_attrs_run. intros k I. apply (ready_held _ _ ps); auto. now apply K.
  - apply run_preps_stable. intros k p I. assert (Ik : In k ks) by (apply K; eapply fst_in; eauto).
    destruct (copy_args_vid ks (List.length h) k Ik) as (E & _ & _). cbv zeta in E. fold kw in E. split; [exact E|].
    unfold kw, news. rewrite copy_args_var by auto. cbn [cpy v_tensor].
    destruct (R k p I) as (v & Ea & L & W & S). specialize (V k p I). unfold look, attr_vars in *. rewrite Ea in *.
    repeat split; auto.
Qed.
Lemma news_wf h attrs ps (ks : list string) : ready h attrs ps -> (forall k, In k ks -> In k (map fst ps)) ->
  Forall (fun x => wf (v_tensor x)) (map (fun k => cpy (look (attr_vars h attrs) k)) ks).
Proof.
  intros R K. apply Forall_forall. intros x I. apply in_map_iff in I as (k & <- & I). cbn [cpy v_tensor].
  destruct (in_fst _ _ (K k I)) as (p & I'). destruct (R k p I') as (v & E & L & W & _). unfold look, attr_vars. now rewrite E.
Qed.

(** ** weights *)
Lemma weight_ready c id name args h0 h0' w h2 : proper h0 args -> make_weight chol_ok c id name args h0 = Ret h0' w -> later h0' h2 ->
  w_cls w = c /\ ready h2 (w_attrs w) (w_preps c).
Proof.
  intros PR E LT. unfold make_weight in E. apply bind_ret in E as (h1 & l & E1 & E). injection E as <- <-.
  cbn [w_cls w_attrs]. split; auto. destruct (w_tables c) as (_ & ND & _).
  destruct (prep_ids_proper h0 (w_params c) args (w_preps c) PR ND) as [N V].
  apply preps_effect in E1 as (L & F & _); auto. eapply ready_of; eauto.
Qed.
Lemma weight_values h w : weight_valid chol_ok h w -> forall k p, In (k, p) (w_preps (w_cls w)) -> value_ok chol_ok p (look (attr_vars h (w_attrs w)) k).
Proof.
  unfold weight_valid, now. intros V k p I. destruct (w_cls w); cbn in I.
  - destruct I as [[= <- <-]|[]]. exact Logic.I.
  - destruct I as [[= <- <-]|[]]. exact V.
  - destruct V as [V1 V2]. destruct I as [[= <- <-]|[[= <- <-]|[]]]; [apply all_pos_spec; exact V1 | exact V2].
Qed.

Lemma copy_weight_run w id nn keep h : ready h (w_attrs w) (w_preps (w_cls w)) -> weight_valid chol_ok h w ->
  exists h' w', copy_weight chol_ok w id nn keep h = Ret h' w' /\
    List.length h' = List.length h + List.length (w_params (w_cls w)) /\
    w_cls w' = w_cls w /\ w_name w' = copy_name nn (w_name w) /\
    (forall v, v < List.length h -> getv h' v = getv h v) /\
    Forall (fun x => wf (v_tensor x)) (skipn (List.length h) h') /\
    (forall k, In k (w_aux (w_cls w)) -> copied h h' keep (w_attrs w) (w_attrs w') k) /\
    NoDup (map snd (w_attrs w')) /\ (forall v, In v (map snd (w_attrs w')) -> List.length h <= v < List.length h').
Proof.
  intros R V. set (c := w_cls w) in *. destruct (w_tables c) as (TC & TN & TK & TA & TI).
  destruct (recreate h (w_attrs w) (w_preps c) (w_params c) "" None 0 0 [] R TK (weight_values h w V)) as [EC EP].
  set (kw := combine _ _) in *. set (news := map _ (w_params c)) in *. rewrite app_nil_r in EP.
  set (g := vid kw) in *. set (l' := map _ (w_preps c)) in EP.
  assert (RNG : forall k, In k (w_params c) -> List.length h <= g k < List.length h + List.length (w_params c)).
  { intros k I. apply (copy_args_vid (w_params c) (List.length h) k I). }
  assert (INJ : forall a b, In a (w_params c) -> In b (w_params c) -> g a = g b -> a = b).
  { intros a b Ia Ib. apply (copy_args_inj (w_params c) (List.length h) a b Ia Ib). }
  assert (VAL : forall k, In k (w_params c) -> getv (h ++ news)%list (g k) = cpy (look (attr_vars h (w_attrs w)) k)).
  { intros k I. unfold g, kw, news. rewrite <- (copy_args_var h (fun k => cpy (look (attr_vars h (w_attrs w)) k)) (w_params c) [] k I).
    now rewrite app_nil_r. }
  assert (LN : List.length (h ++ news)%list = List.length h + List.length (w_params c)) by (unfold news; now rewrite app_length, map_length).
  assert (AT : forall k, In k (w_params c) -> assoc l' k = Some (g k)) by (intros k I; apply assoc_map; now apply TK).
  set (w' := mkWO c (copy_name nn (w_name w)) l').
  assert (HELD : forall k, In k (w_aux c) -> exists u, assoc (w_attrs w) k = Some u /\ u < List.length h).
  { intros k I. apply TI, TK in I. exact (ready_held _ _ _ _ R I). }
  assert (VA' : vars_at l' (w_aux c) = map g (w_aux c)) by (apply vars_at_map; intros k I; now apply TK, TI).
  assert (OLD : forall v, In v (vars_at (w_attrs w) (w_aux c)) -> v < List.length h).
  { intros v I. apply in_vars_at in I as (k & Ik & Ek); [|intros k Ik; destruct (HELD k Ik) as (u & E & _); eauto].
    destruct (HELD k Ik) as (u & E & L). congruence. }
  assert (NEW : forall v, In v (vars_at l' (w_aux c)) -> List.length h <= v < List.length (h ++ news)%list).
  { intros v I. rewrite VA' in I. apply in_map_iff in I as (k & <- & I). rewrite LN. apply RNG, TI, I. }
  assert (SH : share (vars_at (w_attrs w) (w_aux c)) (vars_at l' (w_aux c)) = false).
  { apply (share_false _ _ (List.length h)); [exact OLD|]. intros v I. apply NEW, I. }
  assert (NDN : NoDup (vars_at l' (w_aux c))).
  { rewrite VA'. apply NoDup_map_in; [|exact TA]. intros a b Ia Ib. apply INJ; now apply TI. }
  assert (RUN : exists h', (if keep then keep_names (vars_at (w_attrs w) (w_aux c)) (vars_at l' (w_aux c)) else ret tt) (h ++ news)%list = Ret h' tt /\
    List.length h' = List.length (h ++ news)%list /\
    (forall u, v_cls (getv h' u) = v_cls (getv (h ++ news)%list u) /\ v_tensor (getv h' u) = v_tensor (getv (h ++ news)%list u)) /\
    (forall u, u < List.length h -> getv h' u = getv h u) /\
    (forall k, In k (w_aux c) -> v_name (getv h' (g k)) = if keep then v_name (look (attr_vars h (w_attrs w)) k) else v_name (look (attr_vars h (w_attrs w)) k) ++ "_copy")).
  { destruct keep.
    - destruct (keep_names_run (vars_at (w_attrs w) (w_aux c)) (vars_at l' (w_aux c)) (h ++ news)%list NDN) as (h' & E & L & CT & O & N).
      + intros v I. apply NEW, I.
      + intros v I I'. specialize (OLD v I). specialize (NEW v I'). lia.
      + exists h'. repeat split; auto; try apply CT.
        * intros u Lu. rewrite O; [now apply getv_app_l|]. intros I. specialize (NEW u I). lia.
        * intros k I. destruct (HELD k I) as (u & Ea & Lu). rewrite VA' in N.
          assert (IN : In (u, g k) (combine (vars_at (w_attrs w) (w_aux c)) (map g (w_aux c)))).
          { unfold vars_at. assert (Q := combine_map_in (fun k => match assoc (w_attrs w) k with Some v => v | None => 0 end) g (w_aux c) k I).
            cbv beta in Q. rewrite Ea in Q. exact Q. }
          rewrite (N _ _ IN), getv_app_l by auto. unfold look, attr_vars. now rewrite Ea.
    - exists (h ++ news)%list. repeat split; auto.
      + intros u Lu. now apply getv_app_l.
      + intros k I. rewrite VAL by now apply TI. reflexivity. }
  destruct RUN as (h' & ER & LH & CT & OLDV & NM).
  exists h', w'.
  assert (RUN : copy_weight chol_ok w id nn keep h = Ret h' w').
  { unfold copy_weight. fold c. rewrite TC. unfold bind at 1. rewrite EC. unfold bind at 1, make_weight, bind at 1. fold kw. rewrite EP.
    unfold ret at 1. cbn [w_attrs]. rewrite fn_name_some. fold w'. unfold bind at 1. rewrite ER. rewrite SH. reflexivity. }
  split; [exact RUN|]. split; [congruence|]. split; [reflexivity|]. split; [reflexivity|]. split; [exact OLDV|]. split; [|split; [|split]].
  - apply Forall_forall. intros x I. apply (In_nth _ _ novar) in I as (i & Li & E). rewrite skipn_length in Li.
    assert (G : x = getv h' (List.length h + i)).
    { rewrite <- E. unfold getv. rewrite <- (firstn_skipn (List.length h) h') at 2.
      rewrite app_nth2; rewrite firstn_length; [f_equal; lia | lia]. }
    rewrite G. destruct (CT (List.length h + i)) as [_ ->]. rewrite getv_app_r by lia.
    replace (List.length h + i - List.length h) with i by lia.
    assert (W := news_wf h (w_attrs w) (w_preps c) (w_params c) R (fun k I => proj2 (TK k) I)). fold news in W.
    rewrite Forall_forall in W. apply W. apply nth_In. rewrite LH, app_length in Li. lia.
  - intros k I. assert (Ip : In k (w_params c)) by now apply TI. destruct (HELD k I) as (u & Ea & Lu).
    exists u, (g k). split; [exact Ea|]. split; [exact (AT k Ip)|]. split; [rewrite LH, LN; now apply RNG|].
    destruct (CT (g k)) as [-> ->]. rewrite VAL by auto. rewrite NM by auto. unfold look, attr_vars. rewrite Ea. repeat split; reflexivity.
  - cbn [w' w_attrs]. unfold l'. rewrite snd_map. apply NoDup_map_in; [|exact TN]. intros a b Ia Ib. apply INJ; now apply TK.
  - cbn [w' w_attrs]. unfold l'. rewrite snd_map. intros v I. apply in_map_iff in I as (k & <- & I). rewrite LH, LN. apply RNG. now apply TK.
Qed.

(** C97: copying a weight.  [w] was made by its constructor, then the program ran on to the heap [h] *)
Theorem C97_copy_weight c id name args h0 h1 w h idc nn keep :
  proper h0 args -> make_weight chol_ok c id name args h0 = Ret h1 w -> later h1 h -> weight_valid chol_ok h w ->
  exists h' w', copy_weight chol_ok w idc nn keep h = Ret h' w' /\
    w_cls w' = c /\ w_name w' = copy_name nn (w_name w) /\
    (forall v, v < List.length h -> getv h' v = getv h v) /\
    (forall k, In k (w_aux c) -> copied h h' keep (w_attrs w) (w_attrs w') k) /\
    NoDup (map snd (w_attrs w')).
Proof.
  intros PR E LT V. destruct (weight_ready _ _ _ _ _ _ _ _ PR E LT) as [<- R].
  destruct (copy_weight_run w idc nn keep h R V) as (h' & w' & A1 & _ & A2 & A3 & A4 & _ & A5 & A6 & _).
  exists h', w'. auto 10.
Qed.

(** ** cost functions *)
Lemma make_ready c id name args w h h1 f h2 : proper h args -> make chol_ok c id name args w h = Ret h1 f -> later h1 h2 ->
  let kw := combine (f_params c) args in
  f_cls f = c /\ f_weight f = w /\ ready h2 (f_attrs f) (f_preps c) /\
  pre_check c (w_cls w) (arg_vars h kw) = None /\ post_check c (attr_vars h1 (f_attrs f)) = None /\
  (forall k, In (k, PKeep) (f_preps c) -> sim (look (arg_vars h kw) k) (look (attr_vars h2 (f_attrs f)) k)) /\
  (forall k, In k (map fst (f_preps c)) -> sim (look (attr_vars h1 (f_attrs f)) k) (look (attr_vars h2 (f_attrs f)) k)).
Proof.
  intros PR E LT kw. unfold make in E. fold kw in E.
  apply bind_ret in E as (ha & [] & E1 & E). apply check_ret in E1 as [PC ->].
  apply bind_ret in E as (hb & l & E2 & E). apply bind_ret in E as (hc & [] & E3 & E). apply check_ret in E3 as [QC ->].
  injection E as <- <-. cbn [f_cls f_weight f_attrs].
  destruct (f_tables c) as (_ & ND & _). destruct (prep_ids_proper h (f_params c) args (f_preps c) PR ND) as [N V].
  fold kw in N, V. apply preps_effect in E2 as (L & F & _); auto.
  split; [reflexivity|]. split; [reflexivity|]. split; [eapply ready_of; eauto|]. split; [exact PC|]. split; [exact QC|]. split.
  - intros k I. destruct (attrs_of _ _ _ _ _ F ND k PKeep I) as (v & Ea & Lv & _ & K). destruct (K eq_refl) as [Ek Eg].
    assert (SM := later_sim _ _ _ LT Lv). unfold look at 2, attr_vars. rewrite Ea.
    unfold look, arg_vars. unfold arg_of in Ek. destruct (assoc kw k) as [a|]; [|discriminate]. rewrite Ek. now rewrite <- Eg.
  - intros k I. apply in_fst in I as (p & I). destruct (attrs_of _ _ _ _ _ F ND k p I) as (v & Ea & Lv & _).
    unfold look, attr_vars. rewrite Ea. now apply later_sim.
Qed.
Lemma heap_split (H1 H2 : heap) : List.length H1 <= List.length H2 -> (forall v, v < List.length H1 -> getv H2 v = getv H1 v) ->
  H2 = (H1 ++ skipn (List.length H1) H2)%list.
Proof.
  intros L G. rewrite <- (firstn_skipn (List.length H1) H2) at 1. f_equal.
  apply (nth_ext _ _ novar novar); [rewrite firstn_length; lia|]. intros n Ln. rewrite firstn_length in Ln.
  specialize (G n ltac:(lia)). unfold getv in G. rewrite <- G.
  rewrite <- (firstn_skipn (List.length H1) H2) at 2. rewrite app_nth1; [reflexivity|]. rewrite firstn_length. lia.
Qed.
Lemma f_values h f : still_valid chol_ok h f -> forall k p, In (k, p) (f_preps (f_cls f)) -> value_ok chol_ok p (look (attr_vars h (f_attrs f)) k).
Proof.
  unfold still_valid, now. intros [_ V] k p I.
  destruct (f_cls f); cbn in I; repeat (destruct I as [[= <- <-]|I]; [first [exact Logic.I | exact V]|]); destruct I.
Qed.
Lemma sim_cpy x y : sim x y -> sim x (cpy y).
Proof. intros (A & B & C). repeat split; auto. Qed.

Lemma copy_run c id name args w h0 h1 f h idc idw nn keep :
  proper h0 args -> make chol_ok c id name args w h0 = Ret h1 f -> later h1 h ->
  ready h (w_attrs w) (w_preps (w_cls w)) -> still_valid chol_ok h f ->
  exists h' f', copy chol_ok f idc idw nn keep h = Ret h' f' /\
    f_cls f' = copy_cls c /\ f_name f' = copy_name nn (f_name f) /\
    w_cls (f_weight f') = w_cls w /\ w_name (f_weight f') = w_name w ++ "_copy" /\
    (forall v, v < List.length h -> getv h' v = getv h v) /\
    (forall k, In k (f_optim c ++ f_aux c)%list -> copied h h' keep (f_attrs f) (f_attrs f') k) /\
    (forall k, In k (w_aux (w_cls w)) -> copied h h' false (w_attrs w) (w_attrs (f_weight f')) k) /\
    NoDup (map snd (f_attrs f') ++ map snd (w_attrs (f_weight f')))%list.
Proof.
  intros PR E LT RW SV. destruct (make_ready _ _ _ _ _ _ _ _ _ PR E LT) as (EC & EW & R & PC & QC & SK & SA). cbv zeta in *.
  assert (SV' := SV). destruct SV' as [WV FV].
  destruct (f_tables c) as (TC & TN & TK & TA & TI). destruct (copy_cls_tables c) as (CP & CR & CO & CA).
  assert (VALS := f_values h f SV). rewrite EC in VALS.
  set (ks := f_params c) in *. set (at_ := f_attrs f) in *.
  set (kw := combine ks (map AV (seq (List.length h) (List.length ks)))).
  set (news := map (fun k => cpy (look (attr_vars h at_) k)) ks).
  assert (EA : copy_attrs at_ ks h = Ret (h ++ news)%list (map AV (seq (List.length h) (List.length ks)))).
  { apply (recreate h at_ (f_preps c) ks "" None 0 0 [] R TK VALS). }
  set (H1 := (h ++ news)%list) in *.
  assert (WV1 : weight_valid chol_ok H1 w).
  { rewrite EW in WV. destruct (w_tables (w_cls w)) as (_ & _ & WK & _ & WI).
    assert (NW : forall k, In k (w_params (w_cls w)) -> now H1 (w_attrs w) k = now h (w_attrs w) k).
    { intros k I. unfold now, H1. rewrite look_app; auto. apply (ready_held _ _ _ _ RW). now apply WK. }
    unfold weight_valid in *. destruct (w_cls w); cbn [w_params] in NW; rewrite ?NW by (cbn; auto); auto. }
  destruct (copy_weight_run w idw None false H1 (ready_app _ _ _ _ RW) WV1) as (H2 & w' & ECW & LW & CW & NW & OW & WW & CPW & NDW & RNGW).
  assert (SPL : H2 = (h ++ news ++ skipn (List.length H1) H2)%list).
  { rewrite app_assoc. apply heap_split; [lia|exact OW]. }
  set (rest := skipn (List.length H1) H2) in *.
  assert (LN : List.length H1 = List.length h + List.length ks) by (unfold H1, news; now rewrite app_length, map_length).
  set (g := vid kw).
  assert (RNG : forall k, In k ks -> List.length h <= g k < List.length h + List.length ks).
  { intros k I. apply (copy_args_vid ks (List.length h) k I). }
  assert (ARG : forall k, In k ks -> arg_of kw k = AV (g k)).
  { intros k I. apply (copy_args_vid ks (List.length h) k I). }
  assert (INJ : forall a b, In a ks -> In b ks -> g a = g b -> a = b).
  { intros a b Ia Ib. apply (copy_args_inj ks (List.length h) a b Ia Ib). }
  assert (VAL : forall k, In k ks -> getv H2 (g k) = cpy (look (attr_vars h at_) k)).
  { intros k I. rewrite SPL. exact (copy_args_var h (fun k => cpy (look (attr_vars h at_) k)) ks rest k I). }
  set (l' := map (fun kp => (fst kp, g (fst kp))) (f_preps c)).
  assert (AT : forall k, In k ks -> assoc l' k = Some (g k)) by (intros k I; apply assoc_map; now apply TK).
  set (f' := mkFO (copy_cls c) (copy_name nn (f_name f)) l' w').
  assert (LA : forall k, In k ks -> look (arg_vars H2 kw) k = cpy (look (attr_vars h at_) k)).
  { intros k I. unfold look at 1, arg_vars. assert (Q := ARG k I). unfold arg_of in Q. destruct (assoc kw k); [|discriminate]. rewrite Q. now apply VAL. }
  assert (LT2 : forall k, In k ks -> look (attr_vars H2 l') k = cpy (look (attr_vars h at_) k)).
  { intros k I. unfold look at 1, attr_vars at 1. rewrite AT by auto. now apply VAL. }
  assert (PRE : pre_check (copy_cls c) (w_cls w') (arg_vars H2 kw) = None).
  { rewrite CW. destruct (match c with CGPMotion => true | _ => false end) eqn:GP.
    - destruct c; try discriminate. cbn [copy_cls].
      change (pre_check CDoubleIntegrator (w_cls w) (arg_vars H2 kw)) with (post_check CGPMotion (arg_vars H2 kw)).
      refine (post_check_sim CGPMotion _ _ _ _ QC); [|discriminate].
      intros k I. rewrite LA by now apply TK. apply sim_cpy. now apply SA.
    - replace (copy_cls c) with c by (destruct c; try reflexivity; discriminate).
      rewrite <- PC. symmetry. apply pre_check_sim. intros k I. rewrite LA by (apply TK; eapply fst_in; eauto). apply sim_cpy. now apply SK. }
  assert (POST : post_check (copy_cls c) (attr_vars H2 l') = None).
  { destruct (match c with CGPMotion => true | _ => false end) eqn:GP.
    - destruct c; try discriminate. reflexivity.
    - replace (copy_cls c) with c by (destruct c; try reflexivity; discriminate).
      refine (post_check_sim c _ _ _ _ QC).
      + intros k I. rewrite LT2 by now apply TK. apply sim_cpy. now apply SA.
      + intros ->. rewrite EC in FV. unfold now in FV. rewrite !LT2 by (cbn; auto 10). exact FV. }
  assert (MAKE : make chol_ok (copy_cls c) idc (Some (copy_name nn (f_name f))) (map AV (seq (List.length h) (List.length ks))) w' H2 = Ret H2 f').
  { unfold make. rewrite CP, CR. fold ks. fold kw. unfold bind at 1. rewrite PRE. cbn [check]. unfold ret at 1.
    rewrite fn_name_some. unfold bind at 1.
    match goal with |- context[run_preps _ ?a ?b ?d ?e _ _ _] => assert (RP := proj2 (recreate h at_ (f_preps c) ks a b d e rest R TK VALS)) end.
    cbv zeta in RP. fold kw in RP. fold news in RP. rewrite <- SPL in RP. rewrite RP. fold g. fold l'. unfold bind. rewrite POST. reflexivity. }
  set (o := vars_at at_ (f_optim c)). set (a := vars_at at_ (f_aux c)).
  set (o' := vars_at l' (f_optim c)). set (a' := vars_at l' (f_aux c)).
  assert (HELD : forall k, In k (f_optim c ++ f_aux c)%list -> exists u, assoc at_ k = Some u /\ u < List.length h).
  { intros k I. apply TI, TK in I. exact (ready_held _ _ _ _ R I). }
  assert (VO' : o' = map g (f_optim c)) by (apply vars_at_map; intros k I; apply TK, TI; apply in_or_app; now left).
  assert (VA' : a' = map g (f_aux c)) by (apply vars_at_map; intros k I; apply TK, TI; apply in_or_app; now right).
  assert (OA : (o ++ a = vars_at at_ (f_optim c ++ f_aux c))%list) by (unfold o, a, vars_at; now rewrite map_app).
  assert (OA' : (o' ++ a' = map g (f_optim c ++ f_aux c))%list) by (rewrite VO', VA'; now rewrite map_app).
  assert (OLD : forall v, In v (o ++ a)%list -> v < List.length h).
  { intros v I. rewrite OA in I. apply in_vars_at in I as (k & Ik & Ek); [|intros k Ik; destruct (HELD k Ik) as (u & Eu & _); eauto].
    destruct (HELD k Ik) as (u & Eu & L). congruence. }
  assert (LE : List.length H1 <= List.length H2) by lia.
  assert (NEW : forall v, In v (o' ++ a')%list -> List.length h <= v < List.length H1).
  { intros v I. rewrite OA' in I. apply in_map_iff in I as (k & <- & I). rewrite LN. apply RNG, TI, I. }
  assert (SHo : share o o' = false).
  { apply (share_false _ _ (List.length h)); [intros v I; apply OLD; apply in_or_app; now left | intros v I; apply NEW; apply in_or_app; now left]. }
  assert (SHa : share a a' = false).
  { apply (share_false _ _ (List.length h)); [intros v I; apply OLD; apply in_or_app; now right | intros v I; apply NEW; apply in_or_app; now right]. }
  assert (NDN : NoDup (o' ++ a')%list).
  { rewrite OA'. apply NoDup_map_in; [|exact TA]. intros x y Ix Iy. apply INJ; now apply TI. }
  assert (RUN : exists h', (if keep then let* _ := keep_names o o' in keep_names a a' else ret tt) H2 = Ret h' tt /\
    List.length h' = List.length H2 /\
    (forall u, v_cls (getv h' u) = v_cls (getv H2 u) /\ v_tensor (getv h' u) = v_tensor (getv H2 u)) /\
    (forall u, ~ (List.length h <= u < List.length H1) -> getv h' u = getv H2 u) /\
    (forall k, In k (f_optim c ++ f_aux c)%list -> v_name (getv h' (g k)) = if keep then v_name (look (attr_vars h at_) k) else v_name (look (attr_vars h at_) k) ++ "_copy")).
  { destruct keep.
    - destruct (keep_names_run (o ++ a)%list (o' ++ a')%list H2 NDN) as (h' & EK & L & CT & O & N).
      + intros v I. specialize (NEW v I). lia.
      + intros v I I'. specialize (OLD v I). specialize (NEW v I'). lia.
      + exists h'. split; [rewrite keep_names_app; [exact EK|]; unfold o; rewrite VO'; unfold vars_at; now rewrite !map_length|].
        split; [exact L|]. split; [exact CT|]. split.
        * intros u Nu. apply O. intros I. apply Nu. now apply NEW.
        * intros k I. destruct (HELD k I) as (u & Ea & Lu). rewrite OA, OA' in N.
          assert (IN : In (u, g k) (combine (vars_at at_ (f_optim c ++ f_aux c)) (map g (f_optim c ++ f_aux c)))).
          { unfold vars_at. assert (Q := combine_map_in (fun k => match assoc at_ k with Some v => v | None => 0 end) g (f_optim c ++ f_aux c)%list k I).
            cbv beta in Q. rewrite Ea in Q. exact Q. }
          rewrite (N _ _ IN). rewrite OW by lia. unfold H1. rewrite getv_app_l by auto. unfold look, attr_vars. now rewrite Ea.
    - exists H2. split; [reflexivity|]. split; [reflexivity|]. split; [intros u; split; reflexivity|]. split; [reflexivity|].
      intros k I. rewrite VAL by now apply TI. reflexivity. }
  destruct RUN as (h' & ER & LH & CT & OLDV & NM).
  exists h', f'. split; [|split; [reflexivity|split; [reflexivity|split; [exact CW|split; [exact NW|]]]]].
  { unfold copy. rewrite EC, EW, TC. fold at_. unfold bind at 1. fold ks. rewrite EA. unfold bind at 1. rewrite ECW.
    unfold bind at 1. rewrite MAKE. cbn [f_attrs f']. rewrite CO, CA. fold o a o' a'. unfold bind at 1. rewrite ER.
    rewrite SHo, SHa. reflexivity. }
  assert (OLDH : forall v, v < List.length h -> getv h' v = getv h v).
  { intros v L. rewrite OLDV by lia. rewrite OW by lia. unfold H1. now apply getv_app_l. }
  split; [exact OLDH|]. split; [|split].
  - intros k I. assert (Ip : In k ks) by now apply TI. destruct (HELD k I) as (u & Ea & Lu).
    exists u, (g k). split; [exact Ea|]. split; [exact (AT k Ip)|]. split; [specialize (RNG k Ip); lia|].
    destruct (CT (g k)) as [-> ->]. rewrite VAL by auto. rewrite NM by auto. unfold look, attr_vars. rewrite Ea. repeat split; reflexivity.
  - intros k I. destruct (CPW k I) as (v & v' & A1 & A2 & A3 & A4 & A5 & A6). exists v, v'.
    destruct (w_tables (w_cls w)) as (_ & _ & WK & _ & WI).
    destruct (ready_held _ _ _ k RW) as (u & Eu & Lu); [now apply WK, WI|]. assert (u = v) by congruence. subst u.
    cbn [f' f_weight]. split; [exact A1|]. split; [exact A2|]. split; [lia|]. rewrite (OLDV v') by lia.
    unfold H1 in A4, A5, A6. rewrite getv_app_l in A4, A5, A6 by auto. auto.
  - cbn [f' f_attrs f_weight]. unfold l'. rewrite snd_map.
    assert (ND1 : NoDup (map g (map fst (f_preps c)))) by (apply NoDup_map_in; [|exact TN]; intros x y Ix Iy; apply INJ; now apply TK).
    assert (B1 : forall v, In v (map g (map fst (f_preps c))) -> v < List.length H1).
    { intros v I. apply in_map_iff in I as (k & <- & I). apply TK in I. specialize (RNG k I). lia. }
    revert ND1 B1. generalize (map g (map fst (f_preps c))) as l. induction l as [|v l IH]; intros ND1 B1; cbn [app]; [exact NDW|].
    apply NoDup_cons_iff in ND1 as [N1 N2]. constructor; [|apply IH; [exact N2|]; intros u I; apply B1; now right].
    intros I. apply in_app_or in I as [I|I]; [contradiction|]. specialize (RNGW v I). specialize (B1 v (or_introl eq_refl)). lia.
Qed.

(** C97: copying a cost function.  The weight [w] and the cost function [f] were made by their
    constructors, then the program ran on to the heap [h] *)
Theorem C97_copy wc wid wname wargs hw hw' w c id name args h0 h1 f h idc idw nn keep :
  c <> CGPMotion ->
  proper hw wargs -> make_weight chol_ok wc wid wname wargs hw = Ret hw' w -> later hw' h ->
  proper h0 args -> make chol_ok c id name args w h0 = Ret h1 f -> later h1 h ->
  still_valid chol_ok h f ->
  exists h' f', copy chol_ok f idc idw nn keep h = Ret h' f' /\
    f_cls f' = c /\ f_name f' = copy_name nn (f_name f) /\
    w_cls (f_weight f') = wc /\ w_name (f_weight f') = w_name w ++ "_copy" /\
    (forall v, v < List.length h -> getv h' v = getv h v) /\
    (forall k, In k (f_optim c ++ f_aux c)%list -> copied h h' keep (f_attrs f) (f_attrs f') k) /\
    (forall k, In k (w_aux wc) -> copied h h' false (w_attrs w) (w_attrs (f_weight f')) k) /\
    NoDup (map snd (f_attrs f') ++ map snd (w_attrs (f_weight f')))%list.
Proof.
  intros NG PW EW LW PR E LT SV. destruct (weight_ready _ _ _ _ _ _ _ _ PW EW LW) as [<- RW].
  destruct (copy_run c id name args w h0 h1 f h idc idw nn keep PR E LT RW SV) as (h' & f' & A1 & A2 & A).
  exists h', f'. split; [exact A1|]. split; [|exact A]. rewrite A2. destruct c; try reflexivity. contradiction.
Qed.
(** the same for GPMotionModel, except that the copy is a DoubleIntegrator *)
Theorem C97_gp_copy_class wc wid wname wargs hw hw' w id name args h0 h1 f h idc idw nn keep :
  proper hw wargs -> make_weight chol_ok wc wid wname wargs hw = Ret hw' w -> later hw' h ->
  proper h0 args -> make chol_ok CGPMotion id name args w h0 = Ret h1 f -> later h1 h ->
  still_valid chol_ok h f ->
  exists h' f', copy chol_ok f idc idw nn keep h = Ret h' f' /\
    f_cls f' = CDoubleIntegrator /\ f_name f' = copy_name nn (f_name f) /\
    (forall v, v < List.length h -> getv h' v = getv h v) /\
    (forall k, In k (f_optim CGPMotion ++ f_aux CGPMotion)%list -> copied h h' keep (f_attrs f) (f_attrs f') k) /\
    (forall k, In k (w_aux wc) -> copied h h' false (w_attrs w) (w_attrs (f_weight f')) k).
Proof.
  intros PW EW LW PR E LT SV. destruct (weight_ready _ _ _ _ _ _ _ _ PW EW LW) as [<- RW].
  destruct (copy_run CGPMotion id name args w h0 h1 f h idc idw nn keep PR E LT RW SV) as (h' & f' & A1 & A2 & A3 & A4 & A5 & A6 & A7 & A8 & A9).
  exists h', f'. auto 10.
Qed.
End Main.
