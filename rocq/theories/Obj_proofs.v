From Coq Require Import List Arith Lia Bool Permutation.
Import ListNotations.
From Verif Require Import Dict Obj_model Obj_spec.

Local Notation cnt := (count_occ Nat.eq_dec).
Local Notation cntf := (count_occ fid_eq_dec).

Lemma fid_eqb_spec a b : fid_eqb a b = true <-> a = b.
Proof.
  destruct a, b; simpl; split; intros H; try discriminate;
    try (apply Nat.eqb_eq in H; now subst); try (injection H as ->; apply Nat.eqb_refl).
Qed.

Definition kind_eq_dec : forall a b : kind, {a = b} + {a <> b}.
Proof. decide equality. Defined.

Section W.
Variable w : world.
Hypothesis Hmixed : allow_mixed w = false.

Definition usage := kind -> vid -> fid -> nat.

Definition active (s : state) (v : vid) : Prop :=
  lookup v (fns_for_optim s) <> None \/ lookup v (fns_for_aux s) <> None.

Definition fmap_ok (m : dict (list fid)) (u : vid -> fid -> nat) : Prop :=
  NoDup (keys m) /\
  forall v, match lookup v m with
            | None => forall f, u v f = 0
            | Some l => l <> [] /\ forall f, cntf l f = u v f
            end.

Record J (s : state) (u : usage) : Prop := {
  J_fo : fmap_ok (fns_for_optim s) (u KOptim);
  J_fa : fmap_ok (fns_for_aux s) (u KAux);
  J_ndo : NoDup (keys (optim_vars s));
  J_nda : NoDup (keys (aux_vars s));
  J_ndall : NoDup (keys (all_vars s));
  J_o : forall n v, lookup n (optim_vars s) = Some v <->
                    v_name w v = n /\ lookup v (fns_for_optim s) <> None;
  J_a : forall n v, lookup n (aux_vars s) = Some v <->
                    v_name w v = n /\ lookup v (fns_for_aux s) <> None;
  J_all : forall n v, lookup n (all_vars s) = Some v <-> v_name w v = n /\ active s v;
  J_disj : forall v, lookup v (fns_for_optim s) <> None ->
                     lookup v (fns_for_aux s) <> None -> False;
  J_dt : forall v, active s v -> v_dtype_ok w v = true
}.

Definition uactive (u : usage) (k : kind) (v : vid) : Prop := exists f, 0 < u k v f.

(** consistency, in terms of a usage function *)
Record ucons (u : usage) : Prop := {
  uc_dt : forall k v, k <> KWeightOptim -> uactive u k v -> v_dtype_ok w v = true;
  uc_names : forall k k' v v', k <> KWeightOptim -> k' <> KWeightOptim ->
      uactive u k v -> uactive u k' v' -> v_name w v = v_name w v' -> v = v';
  uc_dual : forall v, uactive u KOptim v -> uactive u KAux v -> False
}.

Lemma fmap_active m u v : fmap_ok m u -> (lookup v m <> None <-> exists f, 0 < u v f).
Proof.
  intros [_ H]. specialize (H v). destruct (lookup v m) as [l|].
  - destruct H as [Hne Hc]. split; [intros _|congruence].
    destruct l as [|f l]; [congruence|]. exists f. rewrite <- Hc. simpl.
    destruct (fid_eq_dec f f); [lia|congruence].
  - split; [congruence|]. intros [f Hf]. rewrite H in Hf. lia.
Qed.

Lemma J_uactive s u k v : k <> KWeightOptim -> J s u ->
  (lookup v (kind_fns k s) <> None <-> uactive u k v).
Proof.
  intros Hk HJ. destruct k; try congruence; simpl.
  - exact (fmap_active _ _ v (J_fo _ _ HJ)).
  - exact (fmap_active _ _ v (J_fa _ _ HJ)).
Qed.

Lemma J_ucons s u : J s u -> ucons u.
Proof.
  intros HJ.
  assert (Hact : forall k v, k <> KWeightOptim -> uactive u k v -> active s v).
  { intros k v Hk Hu. apply (J_uactive s u k v Hk HJ) in Hu. unfold active.
    destruct k; simpl in Hu; tauto || congruence. }
  split.
  - intros k v Hk Hu. eapply J_dt; eauto.
  - intros k k' v v' Hk Hk' Hu Hu' Hn.
    assert (H1 : lookup (v_name w v) (all_vars s) = Some v) by (apply (J_all _ _ HJ); eauto).
    assert (H2 : lookup (v_name w v) (all_vars s) = Some v') by (apply (J_all _ _ HJ); eauto).
    congruence.
  - intros v H1 H2. apply (J_uactive s u KOptim v) in H1; [|congruence|exact HJ].
    apply (J_uactive s u KAux v) in H2; [|congruence|exact HJ].
    eapply J_disj; eauto.
Qed.

Lemma J_ext s u u' : (forall k v f, k <> KWeightOptim -> u k v f = u' k v f) -> J s u -> J s u'.
Proof.
  intros He HJ. destruct HJ as [F1 F2 ? ? ? ? ? ? ? ?]. split; auto.
  - destruct F1 as [N F]. split; [exact N|]. intros v. specialize (F v).
    destruct (lookup v (fns_for_optim s)).
    + destruct F as [A B]. split; auto. intros f. rewrite B. apply He; congruence.
    + intros f. rewrite <- He; [apply F|congruence].
  - destruct F2 as [N F]. split; [exact N|]. intros v. specialize (F v).
    destruct (lookup v (fns_for_aux s)).
    + destruct F as [A B]. split; auto. intros f. rewrite B. apply He; congruence.
    + intros f. rewrite <- He; [apply F|congruence].
Qed.

(** adding / removing uses *)
Definition addu (u : usage) (k : kind) (f : fid) (vars : list vid) : usage :=
  fun k' v' f' => if kind_eq_dec k' k
                  then if fid_eq_dec f' f then u k' v' f' + cnt vars v' else u k' v' f'
                  else u k' v' f'.
Definition subu (u : usage) (k : kind) (f : fid) (vars : list vid) : usage :=
  fun k' v' f' => if kind_eq_dec k' k
                  then if fid_eq_dec f' f then u k' v' f' - cnt vars v' else u k' v' f'
                  else u k' v' f'.

Lemma ucons_mono u u' : (forall k v f, u k v f <= u' k v f) -> ucons u' -> ucons u.
Proof.
  intros Hle [A B C].
  assert (Hm : forall k v, uactive u k v -> uactive u' k v).
  { intros k v [f Hf]. exists f. specialize (Hle k v f). lia. }
  split; eauto.
Qed.

Definition frame (s s' : state) : Prop :=
  cost_functions s' = cost_functions s /\ cfs_for_weights s' = cfs_for_weights s /\
  version s' = version s /\ cw_optim_vars s' = cw_optim_vars s.

Lemma frame_refl s : frame s s.
Proof. unfold frame; auto. Qed.
Lemma frame_trans a b c : frame a b -> frame b c -> frame a c.
Proof. unfold frame; intuition congruence. Qed.

Lemma cnt_single v x : cnt [v] x = if Nat.eq_dec v x then 1 else 0.
Proof. simpl. destruct (Nat.eq_dec v x); reflexivity. Qed.

Lemma cntf_app l f g : cntf (l ++ [f]) g = cntf l g + (if fid_eq_dec f g then 1 else 0).
Proof. rewrite count_occ_app. simpl. destruct (fid_eq_dec f g); lia. Qed.

(** the map after appending [f] to the (possibly new) entry of [v] *)
Lemma fmap_add m u v f l :
  fmap_ok m u -> (lookup v m = Some l \/ (lookup v m = None /\ l = [])) ->
  fmap_ok (set v (l ++ [f]) m)
    (fun v' f' => if fid_eq_dec f' f then u v' f' + cnt [v] v' else u v' f').
Proof.
  intros [Hn Hm] Hl. split; [now apply NoDup_keys_set|].
  intros v'. rewrite lookup_set. destruct (v' =? v) eqn:E.
  - apply Nat.eqb_eq in E; subst v'. split.
    + destruct l; simpl; congruence.
    + intros g. rewrite cntf_app. specialize (Hm v). rewrite cnt_single.
      destruct (Nat.eq_dec v v) as [_|]; [|congruence].
      destruct Hl as [Hl|[Hl ->]]; rewrite Hl in Hm.
      * destruct Hm as [_ Hm]. rewrite Hm.
        destruct (fid_eq_dec f g); destruct (fid_eq_dec g f); try congruence; lia.
      * rewrite Hm. simpl.
        destruct (fid_eq_dec f g); destruct (fid_eq_dec g f); try congruence; lia.
  - apply Nat.eqb_neq in E. specialize (Hm v').
    assert (Hc : cnt [v] v' = 0) by (rewrite cnt_single; destruct (Nat.eq_dec v v'); congruence).
    rewrite Hc. destruct (lookup v' m).
    + destruct Hm as [A B]. split; [exact A|]. intros g. rewrite B.
      destruct (fid_eq_dec g f); lia.
    + intros g. rewrite Hm. destruct (fid_eq_dec g f); lia.
Qed.

Lemma fmap_ext m u u' : (forall v f, u v f = u' v f) -> fmap_ok m u -> fmap_ok m u'.
Proof.
  intros He [N F]. split; [exact N|]. intros v. specialize (F v).
  destruct (lookup v m).
  - destruct F as [A B]. split; [exact A|]. intros f. now rewrite B, He.
  - intros f. now rewrite <- He.
Qed.

(** One variable: the call succeeds exactly when the result stays consistent. *)
Lemma add_var_ok k f s v u :
  k <> KWeightOptim -> J s u -> ucons (addu u k f [v]) ->
  exists s', add_var w k f s v = Ok s' /\ J s' (addu u k f [v]) /\ frame s s'.
Proof.
  intros Hk HJ HC.
  assert (Hself : forall k', k' = k -> uactive (addu u k f [v]) k' v).
  { intros k' ->. exists f. unfold addu. destruct (kind_eq_dec k k); [|congruence].
    destruct (fid_eq_dec f f); [|congruence]. rewrite cnt_single.
    destruct (Nat.eq_dec v v); [lia|congruence]. }
  assert (Hmono : forall k' v', uactive u k' v' -> uactive (addu u k f [v]) k' v').
  { intros k' v' [g Hg]. exists g. unfold addu.
    destruct (kind_eq_dec k' k); [|exact Hg]. destruct (fid_eq_dec g f); lia. }
  assert (Hdt : v_dtype_ok w v = true) by (eapply uc_dt; eauto).
  assert (Huniq : forall v', active s v' -> v_name w v' = v_name w v -> v' = v).
  { intros v' [Ha|Ha] Hn.
    - apply (J_uactive s u KOptim v') in Ha; [|congruence|exact HJ].
      apply (uc_names _ HC KOptim k); auto; congruence.
    - apply (J_uactive s u KAux v') in Ha; [|congruence|exact HJ].
      apply (uc_names _ HC KAux k); auto; congruence. }
  destruct HJ as [F1 F2 N1 N2 N3 O A L D T].
  unfold add_var. rewrite Hdt. simpl negb. cbv iota.
  destruct k; try congruence.
  - (* optim *)
    assert (Haux : lookup v (fns_for_aux s) = None).
    { destruct (lookup v (fns_for_aux s)) eqn:E; [|reflexivity]. exfalso.
      apply (uc_dual _ HC v); [now apply Hself|]. apply Hmono.
      apply (fmap_active _ _ v F2). congruence. }
    destruct (lookup (v_name w v) (all_vars s)) as [v'|] eqn:Eall.
    + assert (v' = v) by (apply L in Eall as [E1 E2]; apply Huniq; auto). subst v'.
      rewrite Nat.eqb_refl. cbn [bind]. rewrite Hmixed. cbn [andb].
      simpl kind_fns. simpl kind_vars.
      assert (Hact : lookup v (fns_for_optim s) <> None).
      { apply L in Eall as [_ [E|E]]; congruence. }
      destruct (lookup v (fns_for_optim s)) as [l|] eqn:El; [|congruence].
      eexists; split; [reflexivity|]. split; [|unfold frame; simpl; auto].
      assert (Hkey : forall x, lookup x (set v (l ++ [f]) (fns_for_optim s)) <> None <->
                               lookup x (fns_for_optim s) <> None).
      { intros x. rewrite lookup_set. destruct (x =? v) eqn:E; [|tauto].
        apply Nat.eqb_eq in E; subst x. rewrite El. split; congruence. }
      assert (Ho : lookup (v_name w v) (optim_vars s) = Some v) by (apply O; split; congruence).
      split; simpl; unfold active; simpl.
      * eapply fmap_ext; [|apply fmap_add; eauto]. intros x g. unfold addu. simpl. reflexivity.
      * eapply fmap_ext; [|exact F2]. reflexivity.
      * now apply NoDup_keys_set.
      * exact N2.
      * exact N3.
      * intros n x. rewrite Hkey. rewrite set_same by exact Ho. apply O.
      * exact A.
      * intros n x. rewrite Hkey. apply L.
      * intros x. rewrite Hkey. apply D.
      * intros x. rewrite Hkey. apply T.
    + assert (Hna : ~ active s v).
      { intros Hact. assert (lookup (v_name w v) (all_vars s) = Some v) by (apply L; auto).
        congruence. }
      assert (El : lookup v (fns_for_optim s) = None).
      { destruct (lookup v (fns_for_optim s)) eqn:E; [|reflexivity].
        exfalso. apply Hna. left. congruence. }
      simpl. unfold has. rewrite El. cbn [bind]. rewrite Hmixed. cbn [andb].
      simpl. rewrite lookup_set_eq. simpl.
      eexists; split; [reflexivity|]. split; [|unfold frame; simpl; auto].
      assert (Hss : forall x, lookup x (set v [f] (set v [] (fns_for_optim s))) =
                              lookup x (set v ([] ++ [f]) (fns_for_optim s))).
      { intros x. rewrite !lookup_set. destruct (x =? v); reflexivity. }
      assert (Hkey : forall x, lookup x (set v [f] (set v [] (fns_for_optim s))) <> None <->
                               x = v \/ lookup x (fns_for_optim s) <> None).
      { intros x. rewrite Hss, lookup_set. destruct (x =? v) eqn:E.
        - apply Nat.eqb_eq in E; subst x. split; [auto|congruence].
        - apply Nat.eqb_neq in E. tauto. }
      split; simpl; unfold active; simpl.
      * assert (Hf : fmap_ok (set v ([] ++ [f]) (fns_for_optim s))
                      (addu u KOptim f [v] KOptim)).
        { eapply fmap_ext; [|apply fmap_add; eauto]. intros x g. unfold addu; simpl; reflexivity. }
        destruct Hf as [_ Hf]. split.
        -- apply NoDup_keys_set, NoDup_keys_set, F1.
        -- intros x. rewrite Hss. apply Hf.
      * eapply fmap_ext; [|exact F2]. reflexivity.
      * now apply NoDup_keys_set.
      * exact N2.
      * now apply NoDup_keys_set.
      * intros n x. rewrite Hkey, lookup_set. destruct (n =? v_name w v) eqn:E.
        -- apply Nat.eqb_eq in E; subst n. split.
           ++ intros H; injection H as <-. auto.
           ++ intros [H1 [H2|H2]]; [congruence|]. f_equal. symmetry. apply Huniq; auto. now left.
        -- apply Nat.eqb_neq in E. rewrite O. split; [tauto|].
           intros [H1 [H2|H2]]; [subst; congruence|tauto].
      * exact A.
      * intros n x. rewrite Hkey, lookup_set. destruct (n =? v_name w v) eqn:E.
        -- apply Nat.eqb_eq in E; subst n. split.
           ++ intros H; injection H as <-. auto.
           ++ intros [H1 H2]. f_equal. destruct H2 as [[H2|H2]|H2].
              ** congruence.
              ** symmetry. apply Huniq; [now left|auto].
              ** symmetry. apply Huniq; [now right|auto].
        -- apply Nat.eqb_neq in E. rewrite L. unfold active. split; [tauto|].
           intros [H1 [[H2|H2]|H2]]; [subst; congruence|tauto|tauto].
      * intros x. rewrite Hkey. intros [->|H1] H2; [congruence|]. eapply D; eauto.
      * intros x. rewrite Hkey. intros [[->|H1]|H1]; [exact Hdt| |];
          apply T; unfold active; auto.
  - (* aux *)
    assert (Haux : lookup v (fns_for_optim s) = None).
    { destruct (lookup v (fns_for_optim s)) eqn:E; [|reflexivity]. exfalso.
      apply (uc_dual _ HC v); [|now apply Hself]. apply Hmono.
      apply (fmap_active _ _ v F1). congruence. }
    destruct (lookup (v_name w v) (all_vars s)) as [v'|] eqn:Eall.
    + assert (v' = v) by (apply L in Eall as [E1 E2]; apply Huniq; auto). subst v'.
      rewrite Nat.eqb_refl. cbn [bind]. rewrite Hmixed. cbn [andb].
      simpl kind_fns. simpl kind_vars.
      assert (Hact : lookup v (fns_for_aux s) <> None).
      { apply L in Eall as [_ [E|E]]; congruence. }
      destruct (lookup v (fns_for_aux s)) as [l|] eqn:El; [|congruence].
      eexists; split; [reflexivity|]. split; [|unfold frame; simpl; auto].
      assert (Hkey : forall x, lookup x (set v (l ++ [f]) (fns_for_aux s)) <> None <->
                               lookup x (fns_for_aux s) <> None).
      { intros x. rewrite lookup_set. destruct (x =? v) eqn:E; [|tauto].
        apply Nat.eqb_eq in E; subst x. rewrite El. split; congruence. }
      assert (Ho : lookup (v_name w v) (aux_vars s) = Some v) by (apply A; split; congruence).
      split; simpl; unfold active; simpl.
      * eapply fmap_ext; [|exact F1]. reflexivity.
      * eapply fmap_ext; [|apply fmap_add; eauto]. intros x g. unfold addu. simpl. reflexivity.
      * exact N1.
      * now apply NoDup_keys_set.
      * exact N3.
      * exact O.
      * intros n x. rewrite Hkey. rewrite set_same by exact Ho. apply A.
      * intros n x. rewrite Hkey. apply L.
      * intros x. rewrite Hkey. apply D.
      * intros x. rewrite Hkey. apply T.
    + assert (Hna : ~ active s v).
      { intros Hact. assert (lookup (v_name w v) (all_vars s) = Some v) by (apply L; auto).
        congruence. }
      assert (El : lookup v (fns_for_aux s) = None).
      { destruct (lookup v (fns_for_aux s)) eqn:E; [|reflexivity].
        exfalso. apply Hna. right. congruence. }
      simpl. unfold has. rewrite El. cbn [bind]. rewrite Hmixed. cbn [andb].
      simpl. rewrite lookup_set_eq. simpl.
      eexists; split; [reflexivity|]. split; [|unfold frame; simpl; auto].
      assert (Hss : forall x, lookup x (set v [f] (set v [] (fns_for_aux s))) =
                              lookup x (set v ([] ++ [f]) (fns_for_aux s))).
      { intros x. rewrite !lookup_set. destruct (x =? v); reflexivity. }
      assert (Hkey : forall x, lookup x (set v [f] (set v [] (fns_for_aux s))) <> None <->
                               x = v \/ lookup x (fns_for_aux s) <> None).
      { intros x. rewrite Hss, lookup_set. destruct (x =? v) eqn:E.
        - apply Nat.eqb_eq in E; subst x. split; [auto|congruence].
        - apply Nat.eqb_neq in E. tauto. }
      split; simpl; unfold active; simpl.
      * eapply fmap_ext; [|exact F1]. reflexivity.
      * assert (Hf : fmap_ok (set v ([] ++ [f]) (fns_for_aux s))
                      (addu u KAux f [v] KAux)).
        { eapply fmap_ext; [|apply fmap_add; eauto]. intros x g. unfold addu; simpl; reflexivity. }
        destruct Hf as [_ Hf]. split.
        -- apply NoDup_keys_set, NoDup_keys_set, F2.
        -- intros x. rewrite Hss. apply Hf.
      * exact N1.
      * now apply NoDup_keys_set.
      * now apply NoDup_keys_set.
      * exact O.
      * intros n x. rewrite Hkey, lookup_set. destruct (n =? v_name w v) eqn:E.
        -- apply Nat.eqb_eq in E; subst n. split.
           ++ intros H; injection H as <-. auto.
           ++ intros [H1 [H2|H2]]; [congruence|]. f_equal. symmetry. apply Huniq; auto. now right.
        -- apply Nat.eqb_neq in E. rewrite A. split; [tauto|].
           intros [H1 [H2|H2]]; [subst; congruence|tauto].
      * intros n x. rewrite Hkey, lookup_set. destruct (n =? v_name w v) eqn:E.
        -- apply Nat.eqb_eq in E; subst n. split.
           ++ intros H; injection H as <-. auto.
           ++ intros [H1 H2]. f_equal. destruct H2 as [H2|[H2|H2]].
              ** symmetry. apply Huniq; [now left|auto].
              ** congruence.
              ** symmetry. apply Huniq; [now right|auto].
        -- apply Nat.eqb_neq in E. rewrite L. unfold active. split; [tauto|].
           intros [H1 [H2|[H2|H2]]]; [tauto|subst; congruence|tauto].
      * intros x. rewrite Hkey. intros H2 [->|H1]; [congruence|]. eapply D; eauto.
      * intros x. rewrite Hkey. intros [H1|[->|H1]]; [|exact Hdt|];
          apply T; unfold active; auto.
Qed.

Lemma add_var_ok_inv k f s v u :
  k <> KWeightOptim -> J s u -> ok (add_var w k f s v) = true -> ucons (addu u k f [v]).
Proof.
  intros Hk HJ Hok.
  assert (Hu : forall k' v', uactive (addu u k f [v]) k' v' ->
                 uactive u k' v' \/ (k' = k /\ v' = v)).
  { intros k' v' [g Hg]. unfold addu in Hg. destruct (kind_eq_dec k' k) as [->|].
    - destruct (fid_eq_dec g f) as [->|].
      + rewrite cnt_single in Hg. destruct (Nat.eq_dec v v') as [->|]; [auto|].
        left. exists f. lia.
      + left. now exists g.
    - left. now exists g. }
  pose proof (J_ucons _ _ HJ) as [C1 C2 C3].
  unfold add_var in Hok.
  destruct (v_dtype_ok w v) eqn:Hdt; [|discriminate]. simpl negb in Hok. cbv iota in Hok.
  assert (Hname : forall v', active s v' -> v_name w v' = v_name w v -> v' = v).
  { intros v' Ha Hn. destruct (Nat.eq_dec v' v) as [|Hne]; [assumption|exfalso].
    assert (Hl : lookup (v_name w v) (all_vars s) = Some v') by (apply (J_all _ _ HJ); auto).
    rewrite Hl in Hok. apply Nat.eqb_neq in Hne. rewrite Nat.eqb_sym, Hne in Hok. discriminate. }
  assert (Hact : forall k' v', k' <> KWeightOptim -> uactive u k' v' -> active s v').
  { intros k' v' Hk' Ha. apply (J_uactive s u k' v' Hk' HJ) in Ha. unfold active.
    destruct k'; simpl in Ha; try congruence; tauto. }
  assert (Hother : forall k', k' <> k -> k' <> KWeightOptim -> uactive u k' v -> False).
  { intros k' Hne Hk' Ha.
    pose proof (Hact _ _ Hk' Ha) as Hav.
    assert (Hl : lookup (v_name w v) (all_vars s) = Some v) by (apply (J_all _ _ HJ); auto).
    rewrite Hl, Nat.eqb_refl in Hok. cbn [bind] in Hok. rewrite Hmixed in Hok. cbn [andb] in Hok.
    apply (J_uactive s u k' v Hk' HJ) in Ha.
    destruct k, k'; try congruence; simpl in Hok, Ha.
    - destruct (lookup v (fns_for_optim s)) eqn:E; [|discriminate].
      eapply (J_disj _ _ HJ v); congruence.
    - destruct (lookup v (fns_for_aux s)) eqn:E; [|discriminate].
      eapply (J_disj _ _ HJ v); congruence. }
  split.
  - intros k' v' Hk' Ha. apply Hu in Ha as [Ha|[-> ->]]; eauto.
  - intros k1 k2 v1 v2 H1 H2 Ha1 Ha2 Hn.
    apply Hu in Ha1 as [Ha1|[-> ->]]; apply Hu in Ha2 as [Ha2|[-> ->]]; eauto.
    symmetry. eauto.
  - intros v' Ha1 Ha2.
    apply Hu in Ha1 as [Ha1|[E1 E1']]; apply Hu in Ha2 as [Ha2|[E2 E2']]; subst; eauto.
    + eapply Hother; [|..|exact Ha1]; congruence.
    + eapply Hother; [|..|exact Ha2]; congruence.
    + congruence.
Qed.

Lemma addu_cons u k f v vars k' v' f' :
  addu (addu u k f [v]) k f vars k' v' f' = addu u k f (v :: vars) k' v' f'.
Proof.
  unfold addu. destruct (kind_eq_dec k' k); [|reflexivity].
  destruct (fid_eq_dec f' f); [|reflexivity]. simpl.
  destruct (Nat.eq_dec v v'); lia.
Qed.

Lemma addu_le u k f vars k' v' f' : u k' v' f' <= addu u k f vars k' v' f'.
Proof. unfold addu. destruct (kind_eq_dec k' k), (fid_eq_dec f' f); lia. Qed.

Lemma ucons_ext u u' : (forall k v f, u k v f = u' k v f) -> ucons u -> ucons u'.
Proof. intros He. apply ucons_mono. intros k v f. now rewrite He. Qed.

Lemma add_vars_ok k f vars : forall s u,
  k <> KWeightOptim -> J s u -> ucons (addu u k f vars) ->
  exists s', add_function_variables w k f vars s = Ok s' /\ J s' (addu u k f vars) /\ frame s s'.
Proof.
  unfold add_function_variables.
  induction vars as [|v vars IH]; intros s u Hk HJ HC; simpl.
  - exists s. split; [reflexivity|]. split; [|apply frame_refl].
    eapply J_ext; [|exact HJ]. intros. unfold addu.
    destruct (kind_eq_dec k0 k), (fid_eq_dec f0 f); simpl; lia.
  - assert (HC1 : ucons (addu u k f [v])).
    { eapply ucons_mono; [|exact HC]. intros. rewrite <- (addu_cons u k f v vars). apply addu_le. }
    destruct (add_var_ok k f s v u Hk HJ HC1) as (s1 & E1 & HJ1 & HF1).
    rewrite E1. simpl.
    destruct (IH s1 (addu u k f [v]) Hk HJ1) as (s2 & E2 & HJ2 & HF2).
    { eapply ucons_ext; [|exact HC]. intros. symmetry. apply addu_cons. }
    exists s2. split; [exact E2|]. split; [|eapply frame_trans; eauto].
    eapply J_ext; [|exact HJ2]. intros. apply addu_cons.
Qed.

Lemma add_vars_ok_inv k f vars : forall s u,
  k <> KWeightOptim -> J s u -> ok (add_function_variables w k f vars s) = true ->
  ucons (addu u k f vars).
Proof.
  unfold add_function_variables.
  induction vars as [|v vars IH]; intros s u Hk HJ Hok; simpl in Hok.
  - eapply ucons_ext; [|eapply J_ucons; eauto]. intros. unfold addu.
    destruct (kind_eq_dec k0 k), (fid_eq_dec f0 f); simpl; lia.
  - assert (Hok1 : ok (add_var w k f s v) = true).
    { destruct (add_var w k f s v); [reflexivity|discriminate]. }
    pose proof (add_var_ok_inv k f s v u Hk HJ Hok1) as HC1.
    destruct (add_var_ok k f s v u Hk HJ HC1) as (s1 & E1 & HJ1 & _).
    rewrite E1 in Hok. simpl in Hok.
    eapply ucons_ext; [|eapply IH; eauto]. intros. apply addu_cons.
Qed.

(** ---- erasing ---- *)
Lemma remove_first_spec {A} (eqb : A -> A -> bool) (dec : forall a b : A, {a = b} + {a <> b})
  (Heqb : forall a b, eqb a b = true <-> a = b) x l :
  0 < count_occ dec l x ->
  exists l', remove_first eqb x l = Some l' /\
    forall y, count_occ dec l' y = count_occ dec l y - (if dec y x then 1 else 0).
Proof.
  induction l as [|y l IH]; simpl; intros Hc; [lia|].
  destruct (eqb x y) eqn:E.
  - apply Heqb in E. subst y. exists l. split; [reflexivity|].
    intros z. destruct (dec x z); destruct (dec z x); try congruence; lia.
  - assert (Hne : x <> y) by (intros ->; rewrite (proj2 (Heqb y y) eq_refl) in E; discriminate).
    destruct (dec y x); [congruence|].
    destruct (IH Hc) as (l' & -> & Hl'). eexists; split; [reflexivity|].
    intros z. simpl. rewrite Hl'. destruct (dec y z) as [->|]; [|reflexivity].
    destruct (dec z x); [congruence|lia].
Qed.

Lemma cntf_nil_iff l : (forall f, cntf l f = 0) <-> l = [].
Proof.
  split; [|intros ->; reflexivity]. destruct l as [|f l]; [reflexivity|].
  intros H. specialize (H f). simpl in H. destruct (fid_eq_dec f f); [lia|congruence].
Qed.

Lemma fmap_sub_some m u v f l l' :
  fmap_ok m u -> lookup v m = Some l -> l' <> [] ->
  (forall g, cntf l' g = cntf l g - (if fid_eq_dec g f then 1 else 0)) ->
  fmap_ok (set v l' m) (fun v' f' => if fid_eq_dec f' f then u v' f' - cnt [v] v' else u v' f').
Proof.
  intros [Hn Hm] Hl Hne Hc. split; [now apply NoDup_keys_set|].
  intros x. rewrite lookup_set. pose proof (Hm x) as Hx. destruct (x =? v) eqn:E.
  - apply Nat.eqb_eq in E; subst x. rewrite Hl in Hx. destruct Hx as [_ Hx].
    split; [exact Hne|]. intros g. rewrite Hc, Hx, cnt_single.
    destruct (Nat.eq_dec v v); [|congruence]. destruct (fid_eq_dec g f); lia.
  - apply Nat.eqb_neq in E.
    assert (H0 : cnt [v] x = 0) by (rewrite cnt_single; destruct (Nat.eq_dec v x); congruence).
    rewrite H0. destruct (lookup x m).
    + destruct Hx as [A B]. split; [exact A|]. intros g. rewrite B. destruct (fid_eq_dec g f); lia.
    + intros g. rewrite Hx. destruct (fid_eq_dec g f); lia.
Qed.

Lemma fmap_sub_none m u v f l l0 :
  fmap_ok m u -> lookup v m = Some l ->
  (forall g, 0 = cntf l g - (if fid_eq_dec g f then 1 else 0)) ->
  fmap_ok (del v (set v l0 m))
    (fun v' f' => if fid_eq_dec f' f then u v' f' - cnt [v] v' else u v' f').
Proof.
  intros [Hn Hm] Hl Hc.
  assert (Hn' : NoDup (keys (set v l0 m))) by now apply NoDup_keys_set.
  split; [now apply NoDup_keys_del|].
  intros x. rewrite lookup_del by exact Hn'. pose proof (Hm x) as Hx. destruct (x =? v) eqn:E.
  - apply Nat.eqb_eq in E; subst x. rewrite Hl in Hx. destruct Hx as [_ Hx].
    intros g. rewrite cnt_single. specialize (Hc g). rewrite Hx in Hc.
    destruct (Nat.eq_dec v v); [|congruence]. destruct (fid_eq_dec g f); lia.
  - rewrite lookup_set, E. apply Nat.eqb_neq in E.
    assert (H0 : cnt [v] x = 0) by (rewrite cnt_single; destruct (Nat.eq_dec v x); congruence).
    rewrite H0. destruct (lookup x m).
    + destruct Hx as [A B]. split; [exact A|]. intros g. rewrite B. destruct (fid_eq_dec g f); lia.
    + intros g. rewrite Hx. destruct (fid_eq_dec g f); lia.
Qed.

Lemma erase_var_ok k f s v u :
  k <> KWeightOptim -> J s u -> 0 < u k v f ->
  exists s', erase_var w k f s v = Ok s' /\ J s' (subu u k f [v]) /\ frame s s'.
Proof.
  intros Hk HJ Hu.
  assert (Hact : lookup v (kind_fns k s) <> None)
    by (apply (J_uactive s u k v Hk HJ); now exists f).
  assert (Hcount : forall l, lookup v (kind_fns k s) = Some l -> forall g, cntf l g = u k v g).
  { intros l Hl g. destruct HJ as [[_ F1] [_ F2] ? ? ? ? ? ? ? ?].
    specialize (F1 v). specialize (F2 v).
    destruct k; try congruence; simpl in Hl; rewrite Hl in *; [apply F1|apply F2]. }
  unfold erase_var. destruct (lookup v (kind_fns k s)) as [l|] eqn:El; [|congruence].
  specialize (Hcount l eq_refl).
  destruct (remove_first_spec fid_eqb fid_eq_dec fid_eqb_spec f l) as (l' & E & Hl').
  { now rewrite Hcount. }
  rewrite E.
  pose proof HJ as HJ0. destruct HJ as [F1 F2 N1 N2 N3 O A L D T].
  destruct l' as [|f0 l'].
  - (* last use: the variable goes away *)
    destruct k; try congruence; simpl in El |- *.
    + assert (Ho : lookup (v_name w v) (optim_vars s) = Some v) by (apply O; split; congruence).
      assert (Ha : lookup (v_name w v) (all_vars s) = Some v)
        by (apply L; split; [reflexivity|left; congruence]).
      unfold has. rewrite Ha. simpl. rewrite Ho. simpl.
      eexists; split; [reflexivity|]. split; [|unfold frame; simpl; auto].
      assert (Hkey : forall x, lookup x (del v (set v [] (fns_for_optim s))) =
                 if x =? v then None else lookup x (fns_for_optim s)).
      { intros x. rewrite lookup_del by apply NoDup_keys_set, F1.
        destruct (x =? v) eqn:Ex; [reflexivity|]. rewrite lookup_set, Ex. reflexivity. }
      assert (Hvaux : lookup v (fns_for_aux s) = None).
      { destruct (lookup v (fns_for_aux s)) eqn:Ev; [|reflexivity].
        exfalso. eapply (D v); congruence. }
      assert (Huniq : forall x, active s x -> v_name w x = v_name w v -> x = v).
      { intros x Hx Hn. assert (lookup (v_name w v) (all_vars s) = Some x) by (apply L; auto).
        congruence. }
      split; simpl; unfold active; simpl.
      * eapply fmap_ext; [|eapply fmap_sub_none; eauto; exact Hl'].
        intros x g. unfold subu. simpl. reflexivity.
      * eapply fmap_ext; [|exact F2]. reflexivity.
      * now apply NoDup_keys_del.
      * exact N2.
      * now apply NoDup_keys_del.
      * intros n x. rewrite Hkey, lookup_del by exact N1.
        destruct (n =? v_name w v) eqn:En.
        -- apply Nat.eqb_eq in En; subst n. split; [discriminate|]. intros [H1 H2].
           destruct (x =? v) eqn:Ex; [congruence|]. apply Nat.eqb_neq in Ex.
           exfalso. apply Ex. apply Huniq; [now left|exact H1].
        -- apply Nat.eqb_neq in En. rewrite O. destruct (x =? v) eqn:Ex; [|tauto].
           apply Nat.eqb_eq in Ex; subst x. split; [|tauto]. intros [H1 _]; congruence.
      * exact A.
      * intros n x. rewrite Hkey, lookup_del by exact N3.
        destruct (n =? v_name w v) eqn:En.
        -- apply Nat.eqb_eq in En; subst n. split; [discriminate|]. intros [H1 H2].
           exfalso. destruct (x =? v) eqn:Ex.
           ++ apply Nat.eqb_eq in Ex; subst x. tauto.
           ++ apply Nat.eqb_neq in Ex. apply Ex. apply Huniq; auto.
        -- apply Nat.eqb_neq in En. rewrite L. unfold active.
           destruct (x =? v) eqn:Ex; [|tauto].
           apply Nat.eqb_eq in Ex; subst x. split; intros [H1 _]; congruence.
      * intros x. rewrite Hkey. destruct (x =? v); [congruence|apply D].
      * intros x. rewrite Hkey. destruct (x =? v); [|apply T].
        intros [H|H]; [congruence|]. apply T. now right.
    + assert (Ho : lookup (v_name w v) (aux_vars s) = Some v) by (apply A; split; congruence).
      assert (Ha : lookup (v_name w v) (all_vars s) = Some v)
        by (apply L; split; [reflexivity|right; congruence]).
      unfold has. rewrite Ha. simpl. rewrite Ho. simpl.
      eexists; split; [reflexivity|]. split; [|unfold frame; simpl; auto].
      assert (Hkey : forall x, lookup x (del v (set v [] (fns_for_aux s))) =
                 if x =? v then None else lookup x (fns_for_aux s)).
      { intros x. rewrite lookup_del by apply NoDup_keys_set, F2.
        destruct (x =? v) eqn:Ex; [reflexivity|]. rewrite lookup_set, Ex. reflexivity. }
      assert (Hvaux : lookup v (fns_for_optim s) = None).
      { destruct (lookup v (fns_for_optim s)) eqn:Ev; [|reflexivity].
        exfalso. eapply (D v); congruence. }
      assert (Huniq : forall x, active s x -> v_name w x = v_name w v -> x = v).
      { intros x Hx Hn. assert (lookup (v_name w v) (all_vars s) = Some x) by (apply L; auto).
        congruence. }
      split; simpl; unfold active; simpl.
      * eapply fmap_ext; [|exact F1]. reflexivity.
      * eapply fmap_ext; [|eapply fmap_sub_none; eauto; exact Hl'].
        intros x g. unfold subu. simpl. reflexivity.
      * exact N1.
      * now apply NoDup_keys_del.
      * now apply NoDup_keys_del.
      * exact O.
      * intros n x. rewrite Hkey, lookup_del by exact N2.
        destruct (n =? v_name w v) eqn:En.
        -- apply Nat.eqb_eq in En; subst n. split; [discriminate|]. intros [H1 H2].
           destruct (x =? v) eqn:Ex; [congruence|]. apply Nat.eqb_neq in Ex.
           exfalso. apply Ex. apply Huniq; [now right|exact H1].
        -- apply Nat.eqb_neq in En. rewrite A. destruct (x =? v) eqn:Ex; [|tauto].
           apply Nat.eqb_eq in Ex; subst x. split; [|tauto]. intros [H1 _]; congruence.
      * intros n x. rewrite Hkey, lookup_del by exact N3.
        destruct (n =? v_name w v) eqn:En.
        -- apply Nat.eqb_eq in En; subst n. split; [discriminate|]. intros [H1 H2].
           exfalso. destruct (x =? v) eqn:Ex.
           ++ apply Nat.eqb_eq in Ex; subst x. tauto.
           ++ apply Nat.eqb_neq in Ex. apply Ex. apply Huniq; auto.
        -- apply Nat.eqb_neq in En. rewrite L. unfold active.
           destruct (x =? v) eqn:Ex; [|tauto].
           apply Nat.eqb_eq in Ex; subst x. split; intros [H1 _]; congruence.
      * intros x. rewrite Hkey. destruct (x =? v); [congruence|apply D].
      * intros x. rewrite Hkey. destruct (x =? v); [|apply T].
        intros [H|H]; [|congruence]. apply T. now left.
  - (* other uses remain *)
    eexists; split; [reflexivity|]. split; [|destruct k; unfold frame; simpl; auto].
    assert (Hkey : forall x, lookup x (set v (f0 :: l') (kind_fns k s)) <> None <->
                             lookup x (kind_fns k s) <> None).
    { intros x. rewrite lookup_set. destruct (x =? v) eqn:Ex; [|tauto].
      apply Nat.eqb_eq in Ex; subst x. rewrite El. split; congruence. }
    destruct k; try congruence; simpl in *.
    + split; simpl; unfold active; simpl; auto.
      * eapply fmap_ext; [|eapply fmap_sub_some with (l := l); eauto; congruence].
        intros x g. unfold subu. simpl. reflexivity.
      * intros n x. rewrite Hkey. apply O.
      * intros n x. rewrite Hkey. apply L.
      * intros x. rewrite Hkey. apply D.
      * intros x. rewrite Hkey. apply T.
    + split; simpl; unfold active; simpl; auto.
      * eapply fmap_ext; [|eapply fmap_sub_some with (l := l); eauto; congruence].
        intros x g. unfold subu. simpl. reflexivity.
      * intros n x. rewrite Hkey. apply A.
      * intros n x. rewrite Hkey. apply L.
      * intros x. rewrite Hkey. apply D.
      * intros x. rewrite Hkey. apply T.
Qed.

Lemma subu_cons u k f v vars k' v' f' :
  subu (subu u k f [v]) k f vars k' v' f' = subu u k f (v :: vars) k' v' f'.
Proof.
  unfold subu. destruct (kind_eq_dec k' k); [|reflexivity].
  destruct (fid_eq_dec f' f); [|reflexivity]. simpl.
  destruct (Nat.eq_dec v v'); lia.
Qed.

Lemma erase_vars_ok k f vars : forall s u,
  k <> KWeightOptim -> J s u -> (forall v, cnt vars v <= u k v f) ->
  exists s', erase_function_variables w k f vars s = Ok s' /\ J s' (subu u k f vars) /\ frame s s'.
Proof.
  unfold erase_function_variables.
  induction vars as [|v vars IH]; intros s u Hk HJ Hc; simpl.
  - exists s. split; [reflexivity|]. split; [|apply frame_refl].
    eapply J_ext; [|exact HJ]. intros. unfold subu.
    destruct (kind_eq_dec k0 k), (fid_eq_dec f0 f); simpl; lia.
  - destruct (erase_var_ok k f s v u Hk HJ) as (s1 & E1 & HJ1 & HF1).
    { specialize (Hc v). simpl in Hc. destruct (Nat.eq_dec v v); [lia|congruence]. }
    rewrite E1. simpl.
    destruct (IH s1 (subu u k f [v]) Hk HJ1) as (s2 & E2 & HJ2 & HF2).
    { intros x. unfold subu. destruct (kind_eq_dec k k); [|congruence].
      destruct (fid_eq_dec f f); [|congruence]. specialize (Hc x). simpl in Hc |- *.
      destruct (Nat.eq_dec v x); lia. }
    exists s2. split; [exact E2|]. split; [|eapply frame_trans; eauto].
    eapply J_ext; [|exact HJ2]. intros. apply subu_cons.
Qed.

(** ---- the registry invariant ---- *)
Definition uses (cs : list cid) : usage := fun k v f =>
  match k with
  | KOptim => times_optim w cs v f
  | KAux => times_aux w cs v f
  | KWeightOptim => 0
  end.

Definition weights_ok (m : dict (list cid)) (cs : list cid) : Prop :=
  NoDup (keys m) /\
  forall x, match lookup x m with
            | None => forall c, In c cs -> c_weight w c <> x
            | Some l => l <> [] /\
                forall c, cnt l c = if Nat.eq_dec (c_weight w c) x then cnt cs c else 0
            end.

Record Inv (s : state) (cs : list cid) : Prop := {
  I_J : J s (uses cs);
  I_nd : NoDup cs;
  I_cf : cost_functions s = map (fun c => (c_name w c, c)) cs;
  I_names : NoDup (map (c_name w) cs);
  I_w : weights_ok (cfs_for_weights s) cs;
  I_wo : forall c, In c cs -> w_optim w (c_weight w c) = [];
  I_cw : cw_optim_vars s = []
}.

Lemma cf_keys cs : keys (map (fun c => (c_name w c, c)) cs) = map (c_name w) cs.
Proof. unfold keys. rewrite map_map. apply map_ext. reflexivity. Qed.

Lemma cf_lookup_some cs n c :
  NoDup (map (c_name w) cs) ->
  (lookup n (map (fun c => (c_name w c, c)) cs) = Some c <-> In c cs /\ c_name w c = n).
Proof.
  intros Hnd. split.
  - intros H. apply lookup_Some_In in H. apply in_map_iff in H as (c' & E & Hin).
    injection E as <- <-. auto.
  - intros [Hin <-]. apply In_lookup; [now rewrite cf_keys|].
    apply in_map_iff. eauto.
Qed.

Lemma cf_lookup_none cs n :
  lookup n (map (fun c => (c_name w c, c)) cs) = None <-> ~ In n (map (c_name w) cs).
Proof. rewrite lookup_None_keys, cf_keys. tauto. Qed.

Lemma cnt_app_single cs c x : cnt (cs ++ [c]) x = cnt cs x + (if Nat.eq_dec c x then 1 else 0).
Proof. rewrite count_occ_app. simpl. destruct (Nat.eq_dec c x); lia. Qed.

Lemma existsb_app_single {A} (p : A -> bool) l x : existsb p (l ++ [x]) = existsb p l || p x.
Proof. rewrite existsb_app. simpl. now rewrite orb_false_r. Qed.

(** [uses (cs ++ [c])] from [uses cs], mirroring [add] *)
Definition add_weight_uses (cs : list cid) (c : cid) (u : usage) : usage :=
  if existsb (fun c' => c_weight w c' =? c_weight w c) cs then u
  else addu u KAux (CW (c_weight w c)) (w_aux w (c_weight w c)).

Lemma uses_snoc cs c k v f :
  ~ In c cs ->
  add_weight_uses cs c (addu (addu (uses cs) KOptim (CF c) (c_optim w c)) KAux (CF c) (c_aux w c))
    k v f = uses (cs ++ [c]) k v f.
Proof.
  intros Hnin.
  assert (H0 : cnt cs c = 0) by now apply count_occ_not_In.
  unfold add_weight_uses, addu, uses, times_optim, times_aux.
  destruct f as [c'|x].
  - assert (Hc : cnt (cs ++ [c]) c' = cnt cs c' + (if Nat.eq_dec c c' then 1 else 0))
      by apply cnt_app_single.
    destruct (Nat.eq_dec c' c) as [->|Hne].
    + assert (Hc1 : cnt (cs ++ [c]) c = 1)
        by (rewrite Hc, H0; destruct (Nat.eq_dec c c); [reflexivity|congruence]).
      destruct (existsb _ cs); destruct k; simpl;
        repeat match goal with |- context [fid_eq_dec ?a ?b] =>
          destruct (fid_eq_dec a b); try congruence end;
        rewrite ?Hc1, ?H0; lia.
    + assert (Hc1 : cnt (cs ++ [c]) c' = cnt cs c')
        by (rewrite Hc; destruct (Nat.eq_dec c c'); [congruence|lia]).
      destruct (existsb _ cs); destruct k; simpl;
        repeat match goal with |- context [fid_eq_dec ?a ?b] =>
          destruct (fid_eq_dec a b); try congruence end;
        rewrite ?Hc1; lia.
  - rewrite existsb_app_single.
    destruct (existsb (fun c' => c_weight w c' =? c_weight w c) cs) eqn:Ee; destruct k; simpl;
      try reflexivity; try (destruct (fid_eq_dec (CW x) (CF c)); [congruence|]); try reflexivity.
    + (* weight already there *)
      destruct (c_weight w c =? x) eqn:Ex.
      * apply Nat.eqb_eq in Ex; subst x. rewrite Ee. reflexivity.
      * now rewrite orb_false_r.
    + destruct (fid_eq_dec (CW x) (CW (c_weight w c))) as [E|E].
      * injection E as ->. rewrite Ee, Nat.eqb_refl. simpl. lia.
      * destruct (c_weight w c =? x) eqn:Ex; [apply Nat.eqb_eq in Ex; congruence|].
        now rewrite orb_false_r.
Qed.

Lemma weights_has m cs x : weights_ok m cs ->
  has x m = existsb (fun c => c_weight w c =? x) cs.
Proof.
  intros [_ H]. specialize (H x). unfold has. destruct (lookup x m) as [l|].
  - destruct H as [Hne Hc]. symmetry. apply existsb_exists.
    destruct l as [|c l]; [congruence|]. specialize (Hc c). simpl in Hc.
    destruct (Nat.eq_dec c c); [|congruence].
    destruct (Nat.eq_dec (c_weight w c) x) as [E|]; [|lia].
    exists c. split; [|now apply Nat.eqb_eq].
    apply (count_occ_In Nat.eq_dec). lia.
  - symmetry. apply not_true_iff_false. intros He. apply existsb_exists in He as (c & Hin & E).
    apply Nat.eqb_eq in E. eapply H; eauto.
Qed.

Lemma J_frameish s s' u :
  optim_vars s' = optim_vars s -> aux_vars s' = aux_vars s -> all_vars s' = all_vars s ->
  fns_for_optim s' = fns_for_optim s -> fns_for_aux s' = fns_for_aux s -> J s u -> J s' u.
Proof.
  intros E1 E2 E3 E4 E5 [F1 F2 N1 N2 N3 O A L D T].
  split; unfold active in *; rewrite ?E1, ?E2, ?E3, ?E4, ?E5; assumption.
Qed.

Lemma weights_snoc m cs c :
  weights_ok m cs -> ~ In c cs ->
  exists l, lookup (c_weight w c) (if has (c_weight w c) m then m else set (c_weight w c) [] m)
            = Some l /\
  weights_ok (set (c_weight w c) (l ++ [c])
     (if has (c_weight w c) m then m else set (c_weight w c) [] m)) (cs ++ [c]).
Proof.
  intros [Hn Hm] Hnin.
  assert (H0 : cnt cs c = 0) by now apply count_occ_not_In.
  assert (Hl : exists l, lookup (c_weight w c)
       (if has (c_weight w c) m then m else set (c_weight w c) [] m) = Some l /\
       forall c', cnt l c' = if Nat.eq_dec (c_weight w c') (c_weight w c) then cnt cs c' else 0).
  { unfold has. pose proof (Hm (c_weight w c)) as H. destruct (lookup (c_weight w c) m) as [l|] eqn:El.
    - exists l. rewrite El. split; [reflexivity|apply H].
    - exists []. rewrite lookup_set_eq. split; [reflexivity|]. intros c'. simpl.
      destruct (Nat.eq_dec (c_weight w c') (c_weight w c)); [|reflexivity].
      symmetry. apply count_occ_not_In. intros Hin. eapply H; eauto. }
  destruct Hl as (l & El & Hl). exists l. split; [exact El|]. split.
  - apply NoDup_keys_set. destruct (has (c_weight w c) m); [exact Hn|now apply NoDup_keys_set].
  - intros x. rewrite lookup_set. destruct (x =? c_weight w c) eqn:Ex.
    + apply Nat.eqb_eq in Ex; subst x. split; [destruct l; simpl; congruence|].
      intros c'. rewrite !cnt_app_single, Hl.
      destruct (Nat.eq_dec (c_weight w c') (c_weight w c)); [reflexivity|].
      destruct (Nat.eq_dec c c'); [subst; congruence|reflexivity].
    + apply Nat.eqb_neq in Ex.
      assert (El2 : lookup x (if has (c_weight w c) m then m else set (c_weight w c) [] m)
                    = lookup x m).
      { destruct (has (c_weight w c) m); [reflexivity|]. now apply lookup_set_ne. }
      rewrite El2. specialize (Hm x). destruct (lookup x m) as [l'|].
      * destruct Hm as [A B]. split; [exact A|]. intros c'. rewrite B, cnt_app_single.
        destruct (Nat.eq_dec (c_weight w c') x); [|reflexivity].
        destruct (Nat.eq_dec c c'); [subst; congruence|lia].
      * intros c' Hin. apply in_app_iff in Hin as [Hin|[->|[]]]; [now apply Hm|congruence].
Qed.

Lemma any_in_false vars d : any_in w vars d = false <-> forall v, In v vars -> lookup (v_name w v) d = None.
Proof.
  unfold any_in. split.
  - intros H v Hin. apply has_false. destruct (has (v_name w v) d) eqn:E; [|reflexivity].
    assert (existsb (fun v => has (v_name w v) d) vars = true) by (apply existsb_exists; eauto).
    congruence.
  - intros H. apply not_true_iff_false. intros He. apply existsb_exists in He as (v & Hin & E).
    apply has_true in E. apply E, H, Hin.
Qed.

Lemma uses_active_optim cs v : uactive (uses cs) KOptim v <-> used_optim w cs v.
Proof.
  unfold uactive, used_optim, uses, times_optim. split.
  - intros [[c|x] Hf]; [|lia]. exists c.
    split; apply (count_occ_In Nat.eq_dec); nia.
  - intros (c & H1 & H2). exists (CF c).
    apply (count_occ_In Nat.eq_dec) in H1. apply (count_occ_In Nat.eq_dec) in H2. nia.
Qed.

Lemma uses_active_aux cs v : uactive (uses cs) KAux v <-> used_aux w cs v.
Proof.
  unfold uactive, used_aux, uses, times_aux. split.
  - intros [[c|x] Hf].
    + exists c. split; [|left]; apply (count_occ_In Nat.eq_dec); nia.
    + destruct (existsb _ cs) eqn:E; [|lia]. apply existsb_exists in E as (c & Hin & Ex).
      apply Nat.eqb_eq in Ex; subst x. exists c. split; [exact Hin|right].
      now apply (count_occ_In Nat.eq_dec).
  - intros (c & H1 & [H2|H2]).
    + exists (CF c). apply (count_occ_In Nat.eq_dec) in H1. apply (count_occ_In Nat.eq_dec) in H2. nia.
    + exists (CW (c_weight w c)).
      assert (E : existsb (fun c' => c_weight w c' =? c_weight w c) cs = true).
      { apply existsb_exists. exists c. split; [exact H1|apply Nat.eqb_refl]. }
      rewrite E. now apply (count_occ_In Nat.eq_dec) in H2.
Qed.

Lemma ucons_consistent cs :
  ucons (uses cs) <->
  (forall v, used w cs v -> v_dtype_ok w v = true) /\
  (forall v v', used w cs v -> used w cs v' -> v_name w v = v_name w v' -> v = v') /\
  (forall v, used_optim w cs v -> used_aux w cs v -> False).
Proof.
  unfold used. split.
  - intros [A B C]. split; [|split].
    + intros v [H|H]; [apply (A KOptim)|apply (A KAux)]; try congruence;
        [now apply uses_active_optim|now apply uses_active_aux].
    + intros v v' [H|H] [H'|H'];
        [apply (B KOptim KOptim)|apply (B KOptim KAux)|apply (B KAux KOptim)|apply (B KAux KAux)];
        try congruence; (now apply uses_active_optim) || (now apply uses_active_aux).
    + intros v H1 H2. apply (C v); [now apply uses_active_optim|now apply uses_active_aux].
  - intros (A & B & C).
    assert (Hu : forall k v, k <> KWeightOptim -> uactive (uses cs) k v ->
                   used_optim w cs v \/ used_aux w cs v).
    { intros k v Hk H. destruct k; try congruence; [left; now apply uses_active_optim|
        right; now apply uses_active_aux]. }
    split; eauto. intros v H1 H2. apply (C v); [now apply uses_active_optim|now apply uses_active_aux].
Qed.

Lemma Inv_consistent s cs : Inv s cs -> consistent w cs.
Proof.
  intros [HJ _ _ Hn _ Hw _]. apply J_ucons, ucons_consistent in HJ as (A & B & C).
  split; assumption.
Qed.

(** Main lemma for [add]. *)
Lemma add_fresh_ok s cs c :
  Inv s cs -> ~ In c cs -> consistent w (cs ++ [c]) ->
  exists s', add w c s = Ok s' /\ Inv s' (cs ++ [c]) /\ version s' = S (version s).
Proof.
  intros HI Hnin HC. destruct HI as [HJ Hnd Hcf Hnm Hw Hwo Hcw].
  assert (HU : ucons (uses (cs ++ [c]))).
  { apply ucons_consistent. destruct HC; auto. }
  assert (Hfresh : lookup (c_name w c) (cost_functions s) = None).
  { rewrite Hcf. apply cf_lookup_none. pose proof (con_cf_names _ _ HC) as H.
    rewrite map_app in H. simpl in H. apply NoDup_remove_2 in H. now rewrite app_nil_r in H. }
  unfold add. rewrite Hfresh. cbn [bind].
  set (s1 := bump_version (with_cost_functions (set (c_name w c) c (cost_functions s)) s)).
  assert (HJ1 : J s1 (uses cs)) by (eapply J_frameish; [..|exact HJ]; reflexivity).
  set (u2 := addu (uses cs) KOptim (CF c) (c_optim w c)).
  set (u3 := addu u2 KAux (CF c) (c_aux w c)).
  assert (HU3 : ucons u3).
  { eapply ucons_mono; [|exact HU]. intros k v f. rewrite <- uses_snoc by exact Hnin.
    unfold add_weight_uses. destruct (existsb _ cs); [apply le_n|apply addu_le]. }
  assert (HU2 : ucons u2).
  { eapply ucons_mono; [|exact HU3]. intros. apply addu_le. }
  destruct (add_vars_ok KOptim (CF c) (c_optim w c) s1 (uses cs)) as (s2 & E2 & HJ2 & HF2);
    [congruence|exact HJ1|exact HU2|].
  rewrite E2. cbn [bind].
  destruct (add_vars_ok KAux (CF c) (c_aux w c) s2 u2) as (s3 & E3 & HJ3 & HF3);
    [congruence|exact HJ2|exact HU3|].
  rewrite E3. cbn [bind].
  assert (HF : frame s1 s3) by (eapply frame_trans; eauto).
  destruct HF as (G1 & G2 & G3 & G4).
  assert (Hwok : w_optim w (c_weight w c) = []).
  { apply (con_weights _ _ HC). apply in_app_iff. simpl; auto. }
  assert (Ehas : has (c_weight w c) (cfs_for_weights s3) =
                 existsb (fun c' => c_weight w c' =? c_weight w c) cs).
  { rewrite G2. simpl. now apply weights_has. }
  set (u7 := add_weight_uses cs c u3).
  assert (Hstep : exists s7,
    (if has (c_weight w c) (cfs_for_weights s3) then Ok s3 else
       bind (add_function_variables w KWeightOptim (CW (c_weight w c)) (w_optim w (c_weight w c)) s3)
       (fun s4 => bind (add_function_variables w KAux (CW (c_weight w c)) (w_aux w (c_weight w c)) s4)
       (fun s5 => 
         if 0 <? length (w_optim w (c_weight w c))
         then Raise RuntimeError (with_cfs_for_weights (set (c_weight w c) [] (cfs_for_weights s5)) s5)
         else Ok (with_cfs_for_weights (set (c_weight w c) [] (cfs_for_weights s5)) s5)))) = Ok s7 /\
    J s7 u7 /\ cost_functions s7 = cost_functions s3 /\ version s7 = version s3 /\
    cw_optim_vars s7 = cw_optim_vars s3 /\
    cfs_for_weights s7 = if has (c_weight w c) (cfs_for_weights s)
                         then cfs_for_weights s else set (c_weight w c) [] (cfs_for_weights s)).
  { rewrite G2. simpl. rewrite G2 in Ehas. simpl in Ehas.
    unfold u7, add_weight_uses. rewrite <- Ehas.
    destruct (has (c_weight w c) (cfs_for_weights s)) eqn:Eh.
    - exists s3. repeat (split; [auto; exact HJ3|]). rewrite G2. reflexivity.
    - rewrite Hwok. simpl.
      destruct (add_vars_ok KAux (CW (c_weight w c)) (w_aux w (c_weight w c)) s3 u3)
        as (s5 & E5 & HJ5 & H1 & H2 & H3 & H4); [congruence|exact HJ3| |].
      { eapply ucons_ext; [|exact HU]. intros. rewrite <- uses_snoc by exact Hnin.
        unfold add_weight_uses. rewrite <- Ehas. reflexivity. }
      rewrite E5. simpl. eexists; split; [reflexivity|]. split.
      { eapply J_frameish; [..|exact HJ5]; reflexivity. }
      simpl. rewrite H1, H2, H3, H4, G2. auto. }
  destruct Hstep as (s7 & -> & HJ7 & K1 & K2 & K3 & K4). cbn [bind].
  destruct (weights_snoc (cfs_for_weights s) cs c Hw Hnin) as (l & El & Hl).
  rewrite K4, El.
  rewrite Hmixed.
  set (s8 := with_cfs_for_weights _ s7).
  assert (HJ8 : J s8 (uses (cs ++ [c]))).
  { eapply J_frameish; [..|eapply J_ext; [|exact HJ7]]; try reflexivity.
    intros k v f _. unfold u7, u3, u2. apply uses_snoc. exact Hnin. }
  assert (Huo : forall v, In v (c_optim w c) -> lookup v (fns_for_optim s8) <> None).
  { intros v Hin. apply (J_uactive s8 (uses (cs ++ [c])) KOptim v); [congruence|exact HJ8|].
    apply uses_active_optim. exists c. rewrite in_app_iff; simpl; auto. }
  assert (Hua : forall v, In v (c_aux w c ++ w_aux w (c_weight w c)) -> lookup v (fns_for_aux s8) <> None).
  { intros v Hin. apply (J_uactive s8 (uses (cs ++ [c])) KAux v); [congruence|exact HJ8|].
    apply uses_active_aux. exists c. rewrite in_app_iff in Hin |- *; simpl; auto. }
  assert (HC1 : any_in w (c_optim w c ++ w_optim w (c_weight w c)) (aux_vars s8) = false).
  { rewrite Hwok, app_nil_r. apply any_in_false. intros v Hin.
    destruct (lookup (v_name w v) (aux_vars s8)) as [v'|] eqn:Ea; [|reflexivity]. exfalso.
    apply (J_a _ _ HJ8) in Ea as [En Ea].
    assert (v' = v).
    { assert (A1 : lookup (v_name w v) (all_vars s8) = Some v')
        by (apply (J_all _ _ HJ8); split; [exact En|now right]).
      assert (A2 : lookup (v_name w v) (all_vars s8) = Some v)
        by (apply (J_all _ _ HJ8); split; [reflexivity|left; now apply Huo]).
      congruence. }
    subst v'. eapply (J_disj _ _ HJ8 v); auto. }
  assert (HC2 : any_in w (c_aux w c ++ w_aux w (c_weight w c)) (optim_vars s8) = false).
  { apply any_in_false. intros v Hin.
    destruct (lookup (v_name w v) (optim_vars s8)) as [v'|] eqn:Ea; [|reflexivity]. exfalso.
    apply (J_o _ _ HJ8) in Ea as [En Ea].
    assert (v' = v).
    { assert (A1 : lookup (v_name w v) (all_vars s8) = Some v')
        by (apply (J_all _ _ HJ8); split; [exact En|now left]).
      assert (A2 : lookup (v_name w v) (all_vars s8) = Some v)
        by (apply (J_all _ _ HJ8); split; [reflexivity|right; now apply Hua]).
      congruence. }
    subst v'. eapply (J_disj _ _ HJ8 v); auto. }
  rewrite HC1, HC2. exists s8. split; [reflexivity|]. split.
  - split.
    + exact HJ8.
    + apply NoDup_Add with (a := c) (l := cs); [|now split].
      rewrite <- (app_nil_r cs) at 1. apply Add_app.
    + simpl. rewrite K1, G1. simpl. rewrite set_absent by exact Hfresh.
      rewrite Hcf, map_app. reflexivity.
    + apply (con_cf_names _ _ HC).
    + simpl. exact Hl.
    + intros c' Hin. apply (con_weights _ _ HC). exact Hin.
    + simpl. rewrite K3, G4. simpl. exact Hcw.
  - simpl. rewrite K2, G3. reflexivity.
Qed.

Lemma ok_bind {S} (r : outcome S) k : ok (bind r k) = true -> ok r = true.
Proof. destruct r; simpl; congruence. Qed.

Lemma add_fresh_ok_inv s cs c :
  Inv s cs -> ~ In c cs -> ok (add w c s) = true -> consistent w (cs ++ [c]).
Proof.
  intros HI Hnin Hok. destruct HI as [HJ Hnd Hcf Hnm Hw Hwo Hcw].
  unfold add in Hok.
  destruct (lookup (c_name w c) (cost_functions s)) as [c'|] eqn:Hfresh.
  { destruct (c =? c') eqn:E; [|discriminate]. apply Nat.eqb_eq in E; subst c'.
    rewrite Hcf in Hfresh. apply cf_lookup_some in Hfresh as [H _]; [contradiction|exact Hnm]. }
  cbn [bind] in Hok.
  set (s1 := bump_version (with_cost_functions (set (c_name w c) c (cost_functions s)) s)) in *.
  assert (HJ1 : J s1 (uses cs)) by (eapply J_frameish; [..|exact HJ]; reflexivity).
  set (u2 := addu (uses cs) KOptim (CF c) (c_optim w c)).
  set (u3 := addu u2 KAux (CF c) (c_aux w c)).
  assert (HU2 : ucons u2).
  { apply ok_bind in Hok. eapply add_vars_ok_inv; [|exact HJ1|exact Hok]. congruence. }
  destruct (add_vars_ok KOptim (CF c) (c_optim w c) s1 (uses cs)) as (s2 & E2 & HJ2 & HF2);
    [congruence|exact HJ1|exact HU2|].
  rewrite E2 in Hok. cbn [bind] in Hok.
  assert (HU3 : ucons u3).
  { apply ok_bind in Hok. eapply add_vars_ok_inv; [|exact HJ2|exact Hok]. congruence. }
  destruct (add_vars_ok KAux (CF c) (c_aux w c) s2 u2) as (s3 & E3 & HJ3 & HF3);
    [congruence|exact HJ2|exact HU3|].
  rewrite E3 in Hok. cbn [bind] in Hok.
  assert (HF : frame s1 s3) by (eapply frame_trans; eauto).
  destruct HF as (G1 & G2 & G3 & G4).
  assert (Ehas : has (c_weight w c) (cfs_for_weights s3) =
                 existsb (fun c' => c_weight w c' =? c_weight w c) cs).
  { rewrite G2. simpl. now apply weights_has. }
  apply ok_bind in Hok.
  assert (Hboth : w_optim w (c_weight w c) = [] /\ ucons (add_weight_uses cs c u3)).
  { unfold add_weight_uses. rewrite <- Ehas.
    destruct (has (c_weight w c) (cfs_for_weights s3)) eqn:Eh.
    - split; [|exact HU3]. symmetry in Ehas. apply existsb_exists in Ehas as (c' & Hin & Ew).
      apply Nat.eqb_eq in Ew. rewrite <- Ew. auto.
    - destruct (w_optim w (c_weight w c)) as [|x xs] eqn:Ewo.
      + split; [reflexivity|]. simpl in Hok. apply ok_bind in Hok.
        eapply add_vars_ok_inv; [|exact HJ3|exact Hok]. congruence.
      + exfalso.
        destruct (add_function_variables w KWeightOptim _ _ _) as [s4|]; [|discriminate].
        cbn [bind] in Hok.
        destruct (add_function_variables w KAux _ _ _) as [s5|]; [|discriminate].
        cbn [bind] in Hok. simpl in Hok. discriminate. }
  destruct Hboth as [Hwok HU].
  assert (HU' : ucons (uses (cs ++ [c]))).
  { eapply ucons_ext; [|exact HU]. intros. unfold u3, u2. now apply uses_snoc. }
  apply ucons_consistent in HU' as (A & B & C).
  split; auto.
  - intros c' Hin. apply in_app_iff in Hin as [Hin|[<-|[]]]; auto.
  - rewrite map_app. simpl. apply NoDup_Add with (a := c_name w c) (l := map (c_name w) cs).
    + rewrite <- (app_nil_r (map (c_name w) cs)) at 1. apply Add_app.
    + split; [exact Hnm|]. rewrite Hcf in Hfresh. now apply cf_lookup_none.
Qed.

(** Main lemma for [erase]. *)
Lemma filter_none cs n : ~ In n (map (c_name w) cs) ->
  filter (fun c => negb (c_name w c =? n)) cs = cs.
Proof.
  induction cs as [|c cs IH]; simpl; intros H; [reflexivity|].
  destruct (c_name w c =? n) eqn:E.
  - apply Nat.eqb_eq in E. tauto.
  - simpl. rewrite IH; tauto.
Qed.

Lemma NoDup_map_filter cs p : NoDup (map (c_name w) cs) -> NoDup (map (c_name w) (filter p cs)).
Proof.
  induction cs as [|y ys IH]; simpl; intros Hnm; [constructor|].
  inversion Hnm as [|? ? A B]; subst. destruct (p y); simpl; auto.
  constructor; auto. intros H. apply A. apply in_map_iff in H as (z & E & Hz).
  apply filter_In in Hz as [Hz _]. rewrite <- E. now apply in_map.
Qed.

Lemma del_map cs n : NoDup (map (c_name w) cs) ->
  del n (map (fun c => (c_name w c, c)) cs) =
  map (fun c => (c_name w c, c)) (filter (fun c => negb (c_name w c =? n)) cs).
Proof.
  induction cs as [|c cs IH]; simpl; intros Hnd; [reflexivity|].
  inversion Hnd as [|? ? Hn Hr]; subst.
  rewrite Nat.eqb_sym. destruct (c_name w c =? n) eqn:E; simpl.
  - apply Nat.eqb_eq in E. subst n. now rewrite filter_none.
  - now rewrite IH.
Qed.

Lemma cnt_filter cs c n : NoDup cs -> NoDup (map (c_name w) cs) -> In c cs -> c_name w c = n ->
  forall x, cnt (filter (fun c => negb (c_name w c =? n)) cs) x =
            cnt cs x - (if Nat.eq_dec x c then 1 else 0).
Proof.
  intros Hnd Hnm Hin Hc x.
  assert (Hiff : In x (filter (fun c => negb (c_name w c =? n)) cs) <-> In x cs /\ x <> c).
  { rewrite filter_In, negb_true_iff, Nat.eqb_neq. split; intros [A B]; split; auto.
    - intros ->. congruence.
    - intros E. apply B.
      clear B Hnd. revert Hin A. induction cs as [|y ys IH]; simpl; [tauto|].
      inversion Hnm as [|? ? H1 H2]; subst.
      intros [->|Hin] [->|A]; auto.
      + exfalso. apply H1. rewrite <- E. now apply in_map.
      + exfalso. apply H1. rewrite E. now apply in_map. }
  assert (Hf : NoDup (filter (fun c => negb (c_name w c =? n)) cs)) by now apply NoDup_filter.
  pose proof (proj1 (NoDup_count_occ Nat.eq_dec cs) Hnd x) as Hle.
  pose proof (proj1 (NoDup_count_occ Nat.eq_dec _) Hf x) as Hle'.
  destruct (in_dec Nat.eq_dec x (filter (fun c => negb (c_name w c =? n)) cs)) as [Hi|Hi].
  - pose proof (proj1 (count_occ_In Nat.eq_dec _ _) Hi). apply Hiff in Hi as [Hi Hx].
    apply (count_occ_In Nat.eq_dec) in Hi. destruct (Nat.eq_dec x c); [congruence|lia].
  - rewrite (proj1 (count_occ_not_In Nat.eq_dec _ _) Hi).
    destruct (Nat.eq_dec x c); [lia|].
    assert (~ In x cs) by tauto. rewrite (proj1 (count_occ_not_In Nat.eq_dec _ _) H). lia.
Qed.

Lemma existsb_filter_weight cs c n x : NoDup cs -> NoDup (map (c_name w) cs) -> In c cs -> c_name w c = n ->
  existsb (fun c' => c_weight w c' =? x) (filter (fun c => negb (c_name w c =? n)) cs) = true <->
  exists c', In c' cs /\ c' <> c /\ c_weight w c' = x.
Proof.
  intros Hnd Hnm Hin Hc. rewrite existsb_exists.
  pose proof (cnt_filter cs c n Hnd Hnm Hin Hc) as HF.
  assert (Hiff : forall y, In y (filter (fun c => negb (c_name w c =? n)) cs) <-> In y cs /\ y <> c).
  { intros y. rewrite (count_occ_In Nat.eq_dec), HF, (count_occ_In Nat.eq_dec).
    pose proof (proj1 (NoDup_count_occ Nat.eq_dec cs) Hnd y).
    destruct (Nat.eq_dec y c); split; intros; try lia; try (split; [lia|assumption]). }
  split.
  - intros (y & H1 & H2). apply Hiff in H1 as [H1 H3]. apply Nat.eqb_eq in H2. eauto.
  - intros (y & H1 & H2 & H3). exists y. split; [now apply Hiff|now apply Nat.eqb_eq].
Qed.

Lemma erase_ok s cs n :
  Inv s cs -> exists s', erase w n s = Ok s' /\
    Inv s' (filter (fun c => negb (c_name w c =? n)) cs) /\ version s' = S (version s).
Proof.
  intros HI. pose proof HI as HI0. destruct HI as [HJ Hnd Hcf Hnm Hw Hwo Hcw].
  unfold erase. simpl. destruct (lookup n (cost_functions s)) as [c|] eqn:Ec.
  2:{ eexists; split; [reflexivity|]. split; [|reflexivity].
      rewrite Hcf in Ec. apply cf_lookup_none in Ec. rewrite filter_none by exact Ec.
      split; simpl; auto. eapply J_frameish; [..|exact HJ]; reflexivity. }
  rewrite Hcf in Ec. apply cf_lookup_some in Ec as [Hin Hn]; [|exact Hnm].
  set (cs' := filter (fun c => negb (c_name w c =? n)) cs).
  pose proof (cnt_filter cs c n Hnd Hnm Hin Hn) as HF. fold cs' in HF.
  assert (Hc1 : cnt cs c = 1).
  { pose proof (proj1 (NoDup_count_occ Nat.eq_dec cs) Hnd c).
    apply (count_occ_In Nat.eq_dec) in Hin. lia. }
  assert (HJ0 : J (bump_version s) (uses cs)) by (eapply J_frameish; [..|exact HJ]; reflexivity).
  destruct (erase_vars_ok KOptim (CF c) (c_optim w c) (bump_version s) (uses cs))
    as (s1 & E1 & HJ1 & HF1); [congruence|exact HJ0| |].
  { intros v. simpl. rewrite Hc1. lia. }
  rewrite E1. cbn [bind].
  set (u1 := subu (uses cs) KOptim (CF c) (c_optim w c)) in *.
  destruct (erase_vars_ok KAux (CF c) (c_aux w c) s1 u1)
    as (s2 & E2 & HJ2 & HF2); [congruence|exact HJ1| |].
  { intros v. unfold u1, subu. simpl. rewrite Hc1. lia. }
  rewrite E2. cbn [bind].
  set (u2 := subu u1 KAux (CF c) (c_aux w c)) in *.
  assert (HFr : frame (bump_version s) s2) by (eapply frame_trans; eauto).
  destruct HFr as (G1 & G2 & G3 & G4). simpl in G1, G2, G3, G4.
  rewrite G2.
  pose proof (proj2 Hw (c_weight w c)) as Hwl.
  destruct (lookup (c_weight w c) (cfs_for_weights s)) as [l|] eqn:El.
  2:{ exfalso. eapply Hwl; eauto. }
  destruct Hwl as [Hlne Hlc].
  destruct (remove_first_spec Nat.eqb Nat.eq_dec Nat.eqb_eq c l) as (l' & Er & Hl').
  { rewrite Hlc. destruct (Nat.eq_dec _ _); [lia|congruence]. }
  rewrite Er.
  set (s3 := with_cfs_for_weights (set (c_weight w c) l' (cfs_for_weights s)) s2).
  assert (HJ3 : J s3 u2) by (eapply J_frameish; [..|exact HJ2]; reflexivity).
  assert (Hl'c : forall y, cnt l' y = if Nat.eq_dec (c_weight w y) (c_weight w c) then cnt cs' y else 0).
  { intros y. rewrite Hl', Hlc, HF. destruct (Nat.eq_dec (c_weight w y) (c_weight w c)); [reflexivity|].
    destruct (Nat.eq_dec y c); [subst; congruence|lia]. }
  pose proof (existsb_filter_weight cs c n (c_weight w c) Hnd Hnm Hin Hn) as Hex. fold cs' in Hex.
  assert (Hws : forall x, x <> c_weight w c ->
     match lookup x (cfs_for_weights s) with
     | None => forall y, In y cs' -> c_weight w y <> x
     | Some l0 => l0 <> [] /\ forall y, cnt l0 y = if Nat.eq_dec (c_weight w y) x then cnt cs' y else 0
     end).
  { intros x Hx. pose proof (proj2 Hw x) as H. destruct (lookup x (cfs_for_weights s)).
    - destruct H as [A B]. split; [exact A|]. intros y. rewrite B, HF.
      destruct (Nat.eq_dec (c_weight w y) x); [|reflexivity].
      destruct (Nat.eq_dec y c); [subst; congruence|lia].
    - intros y Hy. apply H. unfold cs' in Hy. apply filter_In in Hy. tauto. }
  destruct l' as [|c0 l'].
  - (* weight erased too *)
    simpl length. cbn [Nat.eqb]. rewrite (Hwo c Hin). simpl erase_function_variables at 1.
    assert (Hno : existsb (fun c' => c_weight w c' =? c_weight w c) cs' = false).
    { apply not_true_iff_false. intros He. apply existsb_exists in He as (y & Hy & Ey).
      apply Nat.eqb_eq in Ey. apply (count_occ_In Nat.eq_dec) in Hy. specialize (Hl'c y).
      simpl in Hl'c. destruct (Nat.eq_dec (c_weight w y) (c_weight w c)); [lia|congruence]. }
    assert (Hyes : existsb (fun c' => c_weight w c' =? c_weight w c) cs = true).
    { apply existsb_exists. exists c. split; [exact Hin|apply Nat.eqb_refl]. }
    unfold erase_function_variables at 1. cbn [for_each bind].
    destruct (erase_vars_ok KAux (CW (c_weight w c)) (w_aux w (c_weight w c)) s3 u2)
      as (s5 & E5 & HJ5 & F1 & F2 & F3 & F4); [congruence|exact HJ3| |].
    { intros v. unfold u2, u1, subu. simpl. rewrite Hyes. lia. }
    rewrite E5. cbn [bind]. eexists; split; [reflexivity|]. split.
    + split; simpl.
      * eapply J_frameish; [..|eapply J_ext; [|exact HJ5]]; try reflexivity.
        intros k v f Hk. unfold u2, u1, subu, uses, times_optim, times_aux.
        destruct f as [c'|x].
        -- destruct k; try congruence; simpl.
           ++ rewrite HF. destruct (Nat.eq_dec c' c) as [->|Hne];
              repeat match goal with |- context [fid_eq_dec ?a ?b] =>
                destruct (fid_eq_dec a b); try congruence end; rewrite ?Hc1, ?Nat.sub_0_r; lia.
           ++ rewrite HF. destruct (Nat.eq_dec c' c) as [->|Hne];
              repeat match goal with |- context [fid_eq_dec ?a ?b] =>
                destruct (fid_eq_dec a b); try congruence end; rewrite ?Hc1, ?Nat.sub_0_r; lia.
        -- destruct k; try congruence; simpl.
           ++ destruct (fid_eq_dec (CW x) (CF c)); [congruence|]. reflexivity.
           ++ destruct (fid_eq_dec (CW x) (CF c)); [congruence|].
              destruct (fid_eq_dec (CW x) (CW (c_weight w c))) as [E|E].
              ** injection E as ->. rewrite Hyes, Hno. lia.
              ** destruct (existsb (fun c' => c_weight w c' =? x) cs) eqn:Ex;
                   destruct (existsb (fun c' => c_weight w c' =? x) cs') eqn:Ex'; try reflexivity.
                 --- exfalso. apply existsb_exists in Ex as (y & Hy & Ey). apply Nat.eqb_eq in Ey.
                     assert (In y cs').
                     { apply (count_occ_In Nat.eq_dec). rewrite HF. apply (count_occ_In Nat.eq_dec) in Hy.
                       destruct (Nat.eq_dec y c); [subst; congruence|lia]. }
                     assert (existsb (fun c' => c_weight w c' =? x) cs' = true)
                       by (apply existsb_exists; exists y; split; [assumption|now apply Nat.eqb_eq]).
                     congruence.
                 --- exfalso. apply existsb_exists in Ex' as (y & Hy & Ey).
                     assert (existsb (fun c' => c_weight w c' =? x) cs = true).
                     { apply existsb_exists; exists y. split; [|assumption].
                       unfold cs' in Hy. apply filter_In in Hy. tauto. }
                     congruence.
      * now apply NoDup_filter.
      * rewrite F1. simpl. rewrite G1, Hcf. now apply del_map.
      * now apply NoDup_map_filter.
      * rewrite F2. simpl.
        assert (Hnd2 : NoDup (keys (set (c_weight w c) [] (cfs_for_weights s))))
          by apply NoDup_keys_set, Hw.
        split; [now apply NoDup_keys_del|].
        intros x. rewrite lookup_del by exact Hnd2. rewrite lookup_set.
        destruct (x =? c_weight w c) eqn:Ex.
        -- apply Nat.eqb_eq in Ex; subst x. intros y Hy Ey.
           assert (existsb (fun c' => c_weight w c' =? c_weight w c) cs' = true)
             by (apply existsb_exists; exists y; split; [assumption|now apply Nat.eqb_eq]).
           congruence.
        -- apply Nat.eqb_neq in Ex. now apply Hws.
      * intros y Hy. apply Hwo. unfold cs' in Hy. apply filter_In in Hy. tauto.
      * rewrite F4. simpl. now rewrite G4.
    + simpl. rewrite F3. simpl. exact G3.
  - (* weight still used *)
    simpl length. cbn [Nat.eqb bind]. eexists; split; [reflexivity|]. split; [|simpl; exact G3].
    assert (Hother : exists c', In c' cs /\ c' <> c /\ c_weight w c' = c_weight w c).
    { specialize (Hl'c c0). simpl in Hl'c. destruct (Nat.eq_dec c0 c0); [|congruence].
      destruct (Nat.eq_dec (c_weight w c0) (c_weight w c)) as [E|]; [|lia].
      assert (Hpos : 0 < cnt cs' c0) by lia. rewrite HF in Hpos.
      exists c0. split; [apply (count_occ_In Nat.eq_dec); lia|].
      split; [|exact E]. intros ->. destruct (Nat.eq_dec c c); [lia|congruence]. }
    assert (HexT : forall x, existsb (fun c' => c_weight w c' =? x) cs' =
                             existsb (fun c' => c_weight w c' =? x) cs).
    { intros x. destruct (existsb (fun c' => c_weight w c' =? x) cs) eqn:Ex.
      - apply (existsb_filter_weight cs c n x Hnd Hnm Hin Hn).
        apply existsb_exists in Ex as (y & Hy & Ey). apply Nat.eqb_eq in Ey.
        destruct (Nat.eq_dec y c) as [->|Hne].
        + destruct Hother as (z & Hz1 & Hz2 & Hz3). exists z. split; [exact Hz1|]. split; congruence.
        + eauto.
      - apply not_true_iff_false. intros He.
        apply (existsb_filter_weight cs c n x Hnd Hnm Hin Hn) in He as (y & Hy & _ & Ey).
        assert (existsb (fun c' => c_weight w c' =? x) cs = true)
          by (apply existsb_exists; exists y; split; [assumption|now apply Nat.eqb_eq]).
        congruence. }
    split; simpl.
    + eapply J_frameish; [..|eapply J_ext; [|exact HJ3]]; try reflexivity.
      intros k v f Hk. unfold u2, u1, subu, uses, times_optim, times_aux.
      destruct f as [c'|x].
      * destruct k; try congruence; simpl; rewrite HF;
          (destruct (fid_eq_dec (CF c') (CF c)) as [E|E];
           [injection E as ->; destruct (Nat.eq_dec c c); [|congruence]; rewrite Hc1; simpl; lia
           |destruct (Nat.eq_dec c' c); [congruence|]; now rewrite Nat.sub_0_r]).
      * destruct k; try congruence; simpl;
          (destruct (fid_eq_dec (CW x) (CF c)); [congruence|]); [reflexivity|].
        now rewrite HexT.
    + now apply NoDup_filter.
    + rewrite G1, Hcf. now apply del_map.
    + now apply NoDup_map_filter.
    + split; [apply NoDup_keys_set, Hw|]. intros x. rewrite lookup_set.
      destruct (x =? c_weight w c) eqn:Ex.
      * apply Nat.eqb_eq in Ex; subst x. split; [congruence|]. exact Hl'c.
      * apply Nat.eqb_neq in Ex. now apply Hws.
    + intros y Hy. apply Hwo. unfold cs' in Hy. apply filter_In in Hy. tauto.
    + now rewrite G4.
Qed.

Lemma Inv_init : Inv init [].
Proof.
  assert (HF : forall u : vid -> fid -> nat, (forall v f, u v f = 0) -> fmap_ok [] u).
  { intros u Hu. split; [constructor|]. intros v; simpl. intros f; apply Hu. }
  split; try (simpl; auto; constructor; fail).
  - split; simpl; unfold active; simpl; try constructor.
    + constructor.
    + intros v f. unfold uses, times_optim. now destruct f.
    + constructor.
    + intros v f. unfold uses, times_aux. now destruct f.
    + discriminate.
    + intros [_ H]; congruence.
    + discriminate.
    + intros [_ H]; congruence.
    + discriminate.
    + intros [_ [H|H]]; congruence.
    + congruence.
    + intros v [H|H]; congruence.
  - split; [constructor|]. simpl. tauto.
  - simpl; tauto.
Qed.

Lemma run_Inv ops : forall s cs,
  Inv s cs -> all_ok w ops s = true -> fresh_from w cs ops ->
  Inv (run w ops s) (fold_left (spec_step w) ops cs).
Proof.
  induction ops as [|o ops IH]; intros s cs HI Hok Hfr; simpl in *; [exact HI|].
  apply andb_true_iff in Hok as [Hok1 Hok2]. destruct Hfr as [Hf1 Hf2].
  apply IH; auto. destruct o as [c|n]; simpl in *.
  - pose proof (add_fresh_ok_inv s cs c HI Hf1 Hok1) as HC.
    destruct (add_fresh_ok s cs c HI Hf1 HC) as (s' & E & HI' & _). rewrite E. exact HI'.
  - destruct (erase_ok s cs n HI) as (s' & E & HI' & _). rewrite E. exact HI'.
Qed.
End W.
