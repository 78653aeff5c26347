(** Histories that may re-add cost functions or raise; version counter. *)
From Coq Require Import List Arith Lia Bool.
Import ListNotations.
From Verif Require Import Dict Obj_model Obj_spec Obj_proofs.

Local Notation cnt := (count_occ Nat.eq_dec).

(** ---------- version counter: every world, every state ---------- *)
Section V.
Variable w : world.

Lemma add_var_version k f s v : version (final (add_var w k f s v)) = version s.
Proof.
  unfold add_var. destruct (v_dtype_ok w v); simpl; [|reflexivity].
  destruct (lookup (v_name w v) (all_vars s)) as [v'|] eqn:E.
  - destruct (v =? v'); simpl; [|reflexivity].
    destruct (allow_mixed w && _); destruct k; simpl;
      match goal with |- context [match ?x with _ => _ end] => destruct x end; reflexivity.
  - destruct (has v _); simpl; [destruct k; reflexivity|].
    destruct (allow_mixed w && _); destruct k; simpl;
      match goal with |- context [match ?x with _ => _ end] => destruct x end; reflexivity.
Qed.

Lemma for_each_version {A} (body : state -> A -> outcome state) l :
  (forall s x, version (final (body s x)) = version s) ->
  forall s, version (final (for_each body l s)) = version s.
Proof.
  intros Hb. induction l as [|x l IH]; intros s; simpl; [reflexivity|].
  specialize (Hb s x). destruct (body s x) as [s'|e s']; simpl in *; [|exact Hb].
  now rewrite IH.
Qed.

Lemma erase_var_version k f s v : version (final (erase_var w k f s v)) = version s.
Proof.
  unfold erase_var. destruct (lookup v _); simpl; [|reflexivity].
  destruct (remove_first _ _ _) as [l'|]; simpl; [|reflexivity].
  destruct l'; [|destruct k; reflexivity].
  destruct (has (v_name w v) _); simpl; [|destruct k; reflexivity].
  destruct (has (v_name w v) _); simpl; destruct k; reflexivity.
Qed.

Lemma addf_version k f vars s : version (final (add_function_variables w k f vars s)) = version s.
Proof. apply for_each_version. intros. apply add_var_version. Qed.
Lemma erasef_version k f vars s : version (final (erase_function_variables w k f vars s)) = version s.
Proof. apply for_each_version. intros. apply erase_var_version. Qed.

Lemma add_version c s :
  (exists c', lookup (c_name w c) (cost_functions s) = Some c' /\ c' <> c /\
     add w c s = Raise ValueError s)
  \/ version (final (add w c s)) = S (version s).
Proof.
  unfold add.
  destruct (lookup (c_name w c) (cost_functions s)) as [c'|].
  - destruct (c =? c') eqn:Ecc.
    2:{ left. exists c'. split; [reflexivity|]. split; [|reflexivity].
        apply Nat.eqb_neq in Ecc. congruence. }
    right. cbn [bind].
    set (s1 := bump_version s).
    change (S (version s)) with (version s1). clearbody s1.
    pose proof (addf_version KOptim (CF c) (c_optim w c) s1) as H2.
    destruct (add_function_variables w KOptim (CF c) (c_optim w c) s1) as [s2|e2 s2];
      simpl in H2; cbn [bind]; [|exact H2].
    pose proof (addf_version KAux (CF c) (c_aux w c) s2) as H3.
    destruct (add_function_variables w KAux (CF c) (c_aux w c) s2) as [s3|e3 s3];
      simpl in H3; cbn [bind]; [|simpl; congruence].
    destruct (has _ _); cbn [bind].
    + destruct (lookup _ (cfs_for_weights s3)); [|simpl; congruence].
      destruct (allow_mixed w); [simpl; congruence|].
      destruct (any_in _ _ _); [simpl; congruence|].
      destruct (any_in _ _ _); simpl; congruence.
    + pose proof (addf_version KWeightOptim (CW (c_weight w c)) (w_optim w (c_weight w c)) s3) as H4.
      destruct (add_function_variables w KWeightOptim _ _ s3) as [s4|e4 s4];
        simpl in H4; cbn [bind]; [|simpl; congruence].
      pose proof (addf_version KAux (CW (c_weight w c)) (w_aux w (c_weight w c)) s4) as H5.
      destruct (add_function_variables w KAux _ _ s4) as [s5|e5 s5];
        simpl in H5; cbn [bind]; [|simpl; congruence].
      destruct (0 <? _); cbn [bind]; [simpl; congruence|].
      destruct (lookup _ _); [|simpl; congruence].
      destruct (allow_mixed w); [simpl; congruence|].
      destruct (any_in _ _ _); [simpl; congruence|].
      destruct (any_in _ _ _); simpl; congruence.
  - right. cbn [bind].
    set (s1 := bump_version (with_cost_functions (set (c_name w c) c (cost_functions s)) s)).
    change (S (version s)) with (version s1). clearbody s1.
    pose proof (addf_version KOptim (CF c) (c_optim w c) s1) as H2.
    destruct (add_function_variables w KOptim (CF c) (c_optim w c) s1) as [s2|e2 s2];
      simpl in H2; cbn [bind]; [|exact H2].
    pose proof (addf_version KAux (CF c) (c_aux w c) s2) as H3.
    destruct (add_function_variables w KAux (CF c) (c_aux w c) s2) as [s3|e3 s3];
      simpl in H3; cbn [bind]; [|simpl; congruence].
    destruct (has _ _); cbn [bind].
    + destruct (lookup _ (cfs_for_weights s3)); [|simpl; congruence].
      destruct (allow_mixed w); [simpl; congruence|].
      destruct (any_in _ _ _); [simpl; congruence|].
      destruct (any_in _ _ _); simpl; congruence.
    + pose proof (addf_version KWeightOptim (CW (c_weight w c)) (w_optim w (c_weight w c)) s3) as H4.
      destruct (add_function_variables w KWeightOptim _ _ s3) as [s4|e4 s4];
        simpl in H4; cbn [bind]; [|simpl; congruence].
      pose proof (addf_version KAux (CW (c_weight w c)) (w_aux w (c_weight w c)) s4) as H5.
      destruct (add_function_variables w KAux _ _ s4) as [s5|e5 s5];
        simpl in H5; cbn [bind]; [|simpl; congruence].
      destruct (0 <? _); cbn [bind]; [simpl; congruence|].
      destruct (lookup _ _); [|simpl; congruence].
      destruct (allow_mixed w); [simpl; congruence|].
      destruct (any_in _ _ _); [simpl; congruence|].
      destruct (any_in _ _ _); simpl; congruence.
Qed.

Lemma erase_version n s : version (final (erase w n s)) = S (version s).
Proof.
  unfold erase. simpl. destruct (lookup n (cost_functions s)) as [c|]; [|reflexivity].
  set (s0 := bump_version s). change (S (version s)) with (version s0). clearbody s0.
  pose proof (erasef_version KOptim (CF c) (c_optim w c) s0) as H1.
  destruct (erase_function_variables w KOptim _ _ s0) as [s1|e1 s1];
    simpl in H1; cbn [bind]; [|exact H1].
  pose proof (erasef_version KAux (CF c) (c_aux w c) s1) as H2.
  destruct (erase_function_variables w KAux _ _ s1) as [s2|e2 s2];
    simpl in H2; cbn [bind]; [|simpl; congruence].
  destruct (lookup _ _) as [l|]; [|simpl; congruence].
  destruct (remove_first _ _ _) as [l'|]; [|simpl; congruence].
  destruct (length l' =? 0); cbn [bind]; [|simpl; congruence].
  set (s3 := with_cfs_for_weights _ s2).
  assert (H3 : version s3 = version s2) by reflexivity. clearbody s3.
  pose proof (erasef_version KWeightOptim (CW (c_weight w c)) (w_optim w (c_weight w c)) s3) as H4.
  destruct (erase_function_variables w KWeightOptim _ _ s3) as [s4|e4 s4];
    simpl in H4; cbn [bind]; [|simpl; congruence].
  pose proof (erasef_version KAux (CW (c_weight w c)) (w_aux w (c_weight w c)) s4) as H5.
  destruct (erase_function_variables w KAux _ _ s4) as [s5|e5 s5];
    simpl in H5; cbn [bind]; simpl; congruence.
Qed.

Lemma step_version o s :
  final (step w o s) = s \/ version (final (step w o s)) = S (version s).
Proof.
  destruct o as [c|n]; simpl.
  - destruct (add_version c s) as [(c' & _ & _ & H)|H]; auto. left. now rewrite H.
  - right. apply erase_version.
Qed.

Lemma run_version_le ops : forall s, version s <= version (run w ops s).
Proof.
  induction ops as [|o ops IH]; intros s; simpl; [lia|].
  specialize (IH (final (step w o s))). destruct (step_version o s) as [H|H]; rewrite H in *; lia.
Qed.

Lemma run_version_eq ops : forall s, version (run w ops s) = version s -> run w ops s = s.
Proof.
  induction ops as [|o ops IH]; intros s H; simpl in *; [reflexivity|].
  destruct (step_version o s) as [E|E].
  - rewrite E in *. auto.
  - pose proof (run_version_le ops (final (step w o s))). lia.
Qed.
End V.

(** ---------- non-raising histories that may re-add ---------- *)
Section R.
Variable w : world.
Hypothesis Hmixed : allow_mixed w = false.

Definition Inv3 (s : state) : Prop :=
  exists u, J w s u /\ cw_optim_vars s = [] /\
    forall x, has x (cfs_for_weights s) = true -> w_optim w x = [].

Lemma erase_var_ok_inv k f s v u :
  k <> KWeightOptim -> J w s u -> ok (erase_var w k f s v) = true -> 0 < u k v f.
Proof.
  intros Hk HJ Hok. unfold erase_var in Hok.
  destruct (lookup v (kind_fns k s)) as [l|] eqn:El; [|discriminate].
  destruct (remove_first fid_eqb f l) as [l'|] eqn:Er; [|discriminate].
  assert (Hin : In f l).
  { clear -Er. revert l' Er. induction l as [|g l IH]; simpl; intros l' Er; [discriminate|].
    destruct (fid_eqb f g) eqn:E; [apply fid_eqb_spec in E; auto|].
    destruct (remove_first fid_eqb f l) eqn:E2; [|discriminate]. right. eapply IH; eauto. }
  apply (count_occ_In fid_eq_dec) in Hin.
  destruct HJ as [[_ F1] [_ F2] ? ? ? ? ? ? ? ?]. specialize (F1 v). specialize (F2 v).
  destruct k; try congruence; simpl in El; rewrite El in *; destruct F1, F2 || idtac.
  - destruct F1 as [_ F1]. rewrite F1 in Hin. exact Hin.
  - destruct F2 as [_ F2]. rewrite F2 in Hin. exact Hin.
Qed.

Lemma erase_vars_J k f vars : forall s u,
  k <> KWeightOptim -> J w s u -> ok (erase_function_variables w k f vars s) = true ->
  exists s' u', erase_function_variables w k f vars s = Ok s' /\ J w s' u' /\ frame s s'.
Proof.
  unfold erase_function_variables.
  induction vars as [|v vars IH]; intros s u Hk HJ Hok; simpl in *.
  - exists s, u. split; [reflexivity|]. split; [exact HJ|apply frame_refl].
  - assert (Hok1 : ok (erase_var w k f s v) = true) by (destruct (erase_var w k f s v); auto).
    pose proof (erase_var_ok_inv k f s v u Hk HJ Hok1) as Hpos.
    destruct (erase_var_ok w k f s v u Hk HJ Hpos) as (s1 & E1 & HJ1 & HF1).
    rewrite E1 in *. simpl in *.
    destruct (IH s1 _ Hk HJ1 Hok) as (s2 & u2 & E2 & HJ2 & HF2).
    exists s2, u2. split; [exact E2|]. split; [exact HJ2|]. eapply frame_trans; eauto.
Qed.

Lemma add_vars_J k f vars s u :
  k <> KWeightOptim -> J w s u -> ok (add_function_variables w k f vars s) = true ->
  exists s', add_function_variables w k f vars s = Ok s' /\ J w s' (addu u k f vars) /\ frame s s'.
Proof.
  intros Hk HJ Hok. apply add_vars_ok; auto. eapply add_vars_ok_inv; eauto.
Qed.

Lemma add_Inv3 s c : Inv3 s -> ok (add w c s) = true -> Inv3 (final (add w c s)).
Proof.
  intros (u & HJ & Hcw & Hwo) Hok. unfold add in *.
  assert (Hpre : exists s0, (match lookup (c_name w c) (cost_functions s) with
     | Some c' => if c =? c' then Ok s else Raise ValueError s
     | None => Ok (with_cost_functions (set (c_name w c) c (cost_functions s)) s)
     end) = Ok s0 /\ J w s0 u /\ cw_optim_vars s0 = [] /\ cfs_for_weights s0 = cfs_for_weights s).
  { destruct (lookup (c_name w c) (cost_functions s)) as [c'|].
    - destruct (c =? c'); [|discriminate]. eauto.
    - eexists; split; [reflexivity|]. split; [|auto].
      eapply J_frameish; [..|exact HJ]; reflexivity. }
  destruct Hpre as (s0 & E0 & HJ0 & Hcw0 & Ew0). rewrite E0 in *. cbn [bind] in *.
  set (s1 := bump_version s0) in *.
  assert (HJ1 : J w s1 u) by (eapply J_frameish; [..|exact HJ0]; reflexivity).
  destruct (add_vars_J KOptim (CF c) (c_optim w c) s1 u) as (s2 & E2 & HJ2 & A1 & A2 & A3 & A4);
    [congruence|exact HJ1|now apply ok_bind in Hok|].
  rewrite E2 in *. cbn [bind] in *.
  destruct (add_vars_J KAux (CF c) (c_aux w c) s2 (addu u KOptim (CF c) (c_optim w c)))
    as (s3 & E3 & HJ3 & B1 & B2 & B3 & B4);
    [congruence|exact HJ2|now apply ok_bind in Hok|].
  rewrite E3 in *. cbn [bind] in *.
  assert (Hw3 : forall x, has x (cfs_for_weights s3) = true -> w_optim w x = []).
  { intros x. rewrite B2, A2. simpl. rewrite Ew0. apply Hwo. }
  assert (Hcw3 : cw_optim_vars s3 = []) by (rewrite B4, A4; exact Hcw0).
  assert (Hmid : forall s7 u7 l, J w s7 u7 -> cw_optim_vars s7 = [] ->
     (forall x, has x (cfs_for_weights s7) = true -> w_optim w x = []) ->
     w_optim w (c_weight w c) = [] ->
     Inv3 (with_cfs_for_weights (set (c_weight w c) (l ++ [c]) (cfs_for_weights s7)) s7)).
  { intros s7 u7 l HJ7 Hc7 Hw7 Hwo7.
    exists u7. split; [eapply J_frameish; [..|exact HJ7]; reflexivity|]. split; [exact Hc7|].
    intros x. unfold has. simpl. rewrite lookup_set.
    destruct (x =? c_weight w c) eqn:E; [apply Nat.eqb_eq in E; now subst|apply Hw7]. }
  destruct (has (c_weight w c) (cfs_for_weights s3)) eqn:Eh; cbn [bind] in *.
  - destruct (lookup (c_weight w c) (cfs_for_weights s3)) as [l|]; [|discriminate].
    pose proof (Hmid s3 _ l HJ3 Hcw3 Hw3 (Hw3 _ Eh)) as HM.
    destruct (allow_mixed w); [exact HM|].
    destruct (any_in _ _ _); [exact HM|]. destruct (any_in _ _ _); exact HM.
  - destruct (w_optim w (c_weight w c)) as [|x xs] eqn:Ewo.
    + unfold add_function_variables at 1. unfold add_function_variables at 1 in Hok.
      cbn [for_each bind] in *.
      destruct (add_vars_J KAux (CW (c_weight w c)) (w_aux w (c_weight w c)) s3
                 (addu (addu u KOptim (CF c) (c_optim w c)) KAux (CF c) (c_aux w c)))
        as (s5 & E5 & HJ5 & C1 & C2 & C3 & C4); [congruence|exact HJ3| |].
      { now apply ok_bind, ok_bind in Hok. }
      rewrite E5 in *. cbn [bind] in *. change (0 <? length (@nil vid)) with false in *.
      cbn [bind] in *.
      set (s6 := with_cfs_for_weights (set (c_weight w c) [] (cfs_for_weights s5)) s5) in *.
      destruct (lookup (c_weight w c) (cfs_for_weights s6)) as [l|]; [|discriminate].
      assert (HM : Inv3 (with_cfs_for_weights (set (c_weight w c) (l ++ [c]) (cfs_for_weights s6)) s6)).
      { eapply Hmid; auto.
        * eapply J_frameish; [..|exact HJ5]; reflexivity.
        * simpl. congruence.
        * intros x. unfold has, s6. simpl. rewrite lookup_set.
          destruct (x =? c_weight w c) eqn:E; [apply Nat.eqb_eq in E; now subst|].
          rewrite C2. apply Hw3. }
      destruct (allow_mixed w); [exact HM|].
      destruct (any_in _ _ _); [exact HM|]. destruct (any_in _ _ _); exact HM.
    + exfalso.
      destruct (add_function_variables w KWeightOptim _ _ _) as [s4|]; [|discriminate].
      cbn [bind] in Hok.
      destruct (add_function_variables w KAux _ _ _) as [s5|]; [|discriminate].
      cbn [bind] in Hok. simpl in Hok. discriminate.
Qed.

Lemma erase_Inv3 s n : Inv3 s -> ok (erase w n s) = true -> Inv3 (final (erase w n s)).
Proof.
  intros (u & HJ & Hcw & Hwo) Hok. unfold erase in *. simpl in *.
  assert (HJ0 : J w (bump_version s) u) by (eapply J_frameish; [..|exact HJ]; reflexivity).
  destruct (lookup n (cost_functions s)) as [c|].
  2:{ simpl. exists u. auto. }
  destruct (erase_vars_J KOptim (CF c) (c_optim w c) (bump_version s) u)
    as (s1 & u1 & E1 & HJ1 & A1 & A2 & A3 & A4); [congruence|exact HJ0|now apply ok_bind in Hok|].
  rewrite E1 in *. cbn [bind] in *.
  destruct (erase_vars_J KAux (CF c) (c_aux w c) s1 u1)
    as (s2 & u2 & E2 & HJ2 & B1 & B2 & B3 & B4); [congruence|exact HJ1|now apply ok_bind in Hok|].
  rewrite E2 in *. cbn [bind] in *.
  destruct (lookup (c_weight w c) (cfs_for_weights s2)) as [l|] eqn:El; [|discriminate].
  destruct (remove_first Nat.eqb c l) as [l'|]; [|discriminate].
  assert (Hw2 : forall x, has x (cfs_for_weights s2) = true -> w_optim w x = []).
  { intros x. rewrite B2, A2. apply Hwo. }
  assert (Hwc : w_optim w (c_weight w c) = []).
  { apply Hw2. unfold has. now rewrite El. }
  set (s3 := with_cfs_for_weights (set (c_weight w c) l' (cfs_for_weights s2)) s2) in *.
  assert (HJ3 : J w s3 u2) by (eapply J_frameish; [..|exact HJ2]; reflexivity).
  assert (Hw3 : forall x, has x (cfs_for_weights s3) = true -> w_optim w x = []).
  { intros x. unfold s3, has. simpl. rewrite lookup_set.
    destruct (x =? c_weight w c) eqn:E; [apply Nat.eqb_eq in E; now subst|apply Hw2]. }
  assert (Hc3 : cw_optim_vars s3 = []) by (simpl; rewrite B4, A4; exact Hcw).
  destruct (length l' =? 0); cbn [bind] in *.
  - rewrite Hwc in *. unfold erase_function_variables at 1. unfold erase_function_variables at 1 in Hok.
    cbn [for_each bind] in *.
    destruct (erase_vars_J KAux (CW (c_weight w c)) (w_aux w (c_weight w c)) s3 u2)
      as (s5 & u5 & E5 & HJ5 & C1 & C2 & C3 & C4); [congruence|exact HJ3|now apply ok_bind, ok_bind in Hok|].
    rewrite E5 in *. cbn [bind] in *. simpl. exists u5. split.
    + eapply J_frameish; [..|exact HJ5]; reflexivity.
    + split; [simpl; congruence|]. simpl. intros x Hx. apply Hw3. rewrite <- C2.
      unfold has in *. destruct (Nat.eq_dec x (c_weight w c)) as [->|Hne].
      * rewrite C2. simpl. now rewrite lookup_set_eq.
      * rewrite lookup_del_ne in Hx by exact Hne. exact Hx.
  - simpl. exists u2. split; [eapply J_frameish; [..|exact HJ3]; reflexivity|]. auto.
Qed.

Lemma Inv3_init : Inv3 init.
Proof.
  exists (uses w []). pose proof (Inv_init w) as [H _ _ _ _ _ _].
  split; [exact H|]. split; [reflexivity|]. intros x; discriminate.
Qed.

Lemma run_Inv3 ops : forall s, Inv3 s -> all_ok w ops s = true -> Inv3 (run w ops s).
Proof.
  induction ops as [|o ops IH]; intros s HI Hok; simpl in *; [exact HI|].
  apply andb_true_iff in Hok as [H1 H2]. apply IH; [|exact H2].
  destruct o; simpl in *; [now apply add_Inv3|now apply erase_Inv3].
Qed.

(** re-adding a present cost function *)
Lemma add_vars_noop k f vars : forall s u s',
  k <> KWeightOptim -> J w s u ->
  (forall v, In v vars -> lookup v (kind_fns k s) <> None) ->
  add_function_variables w k f vars s = Ok s' ->
  optim_vars s' = optim_vars s /\ aux_vars s' = aux_vars s /\ all_vars s' = all_vars s.
Proof.
  unfold add_function_variables.
  induction vars as [|v vars IH]; intros s u s' Hk HJ Hin E; simpl in E.
  - injection E as <-. auto.
  - assert (Hok1 : ok (add_var w k f s v) = true) by (destruct (add_var w k f s v); auto; discriminate).
    pose proof (add_var_ok_inv w Hmixed k f s v u Hk HJ Hok1) as HC.
    destruct (add_var_ok w Hmixed k f s v u Hk HJ HC) as (s1 & E1 & HJ1 & _).
    rewrite E1 in E. simpl in E.
    assert (Hs1 : optim_vars s1 = optim_vars s /\ aux_vars s1 = aux_vars s /\ all_vars s1 = all_vars s).
    { assert (Hv : lookup v (kind_fns k s) <> None) by (apply Hin; simpl; auto).
      assert (Hall : lookup (v_name w v) (all_vars s) = Some v).
      { apply (J_all _ _ _ HJ). split; [reflexivity|]. unfold active.
        destruct k; simpl in Hv; try congruence; auto. }
      unfold add_var in E1. destruct (v_dtype_ok w v); [|discriminate]. simpl in E1.
      rewrite Hall, Nat.eqb_refl in E1. cbn [bind] in E1. rewrite Hmixed in E1. cbn [andb] in E1.
      destruct k; try congruence; simpl in *.
      - assert (Ho : lookup (v_name w v) (optim_vars s) = Some v) by (apply (J_o _ _ _ HJ); auto).
        destruct (lookup v (fns_for_optim s)); [|discriminate]. injection E1 as <-. simpl.
        now rewrite set_same.
      - assert (Ho : lookup (v_name w v) (aux_vars s) = Some v) by (apply (J_a _ _ _ HJ); auto).
        destruct (lookup v (fns_for_aux s)); [|discriminate]. injection E1 as <-. simpl.
        now rewrite set_same. }
    destruct Hs1 as (X1 & X2 & X3).
    destruct (IH s1 _ s' Hk HJ1) as (Y1 & Y2 & Y3); [|exact E|repeat split; congruence].
    intros x Hx. apply (J_uactive w s1 _ k x Hk HJ1).
    assert (Hx' : uactive u k x) by (apply (J_uactive w s u k x Hk HJ); apply Hin; simpl; auto).
    destruct Hx' as [g Hg]. exists g. eapply Nat.lt_le_trans; [exact Hg|apply addu_le].
Qed.

Lemma readd_ok s cs c :
  Inv w s cs -> In c cs ->
  exists s', add w c s = Ok s' /\ cost_functions s' = cost_functions s /\
    optim_vars s' = optim_vars s /\ aux_vars s' = aux_vars s /\
    all_vars s' = all_vars s /\ version s' = S (version s).
Proof.
  intros HI Hin. pose proof (Inv_consistent w s cs HI) as HC.
  destruct HI as [HJ Hnd Hcf Hnm Hw Hwo Hcw].
  assert (Hl : lookup (c_name w c) (cost_functions s) = Some c)
    by (rewrite Hcf; apply cf_lookup_some; auto).
  unfold add. rewrite Hl, Nat.eqb_refl. cbn [bind].
  set (s1 := bump_version s).
  assert (HJ1 : J w s1 (uses w cs)) by (eapply J_frameish; [..|exact HJ]; reflexivity).
  assert (Hgrow : forall u k vars, ucons w u -> k <> KWeightOptim ->
     (forall v, In v vars -> uactive u k v) -> forall f, ucons w (addu u k f vars)).
  { intros u k vars [A B C] Hk Hv f.
    assert (Hm : forall k' v', uactive (addu u k f vars) k' v' -> uactive u k' v').
    { intros k' v' [g Hg]. unfold addu in Hg. destruct (kind_eq_dec k' k) as [->|]; [|now exists g].
      destruct (fid_eq_dec g f); [|now exists g].
      destruct (cnt vars v') eqn:Ec; [exists g; lia|].
      apply Hv. apply (count_occ_In Nat.eq_dec). lia. }
    split; eauto. }
  assert (HU : ucons w (uses w cs)) by (eapply J_ucons; eauto).
  assert (Hao : forall v, In v (c_optim w c) -> uactive (uses w cs) KOptim v)
    by (intros v Hv; apply uses_active_optim; exists c; auto).
  assert (Haa : forall v, In v (c_aux w c) -> uactive (uses w cs) KAux v)
    by (intros v Hv; apply uses_active_aux; exists c; auto).
  pose proof (Hgrow _ KOptim _ HU ltac:(congruence) Hao (CF c)) as HU2.
  destruct (add_vars_ok w Hmixed KOptim (CF c) (c_optim w c) s1 (uses w cs))
    as (s2 & E2 & HJ2 & F1 & F2 & F3 & F4); [congruence|exact HJ1|exact HU2|].
  pose proof (add_vars_noop KOptim (CF c) (c_optim w c) s1 _ s2 ltac:(congruence) HJ1) as N2.
  destruct N2 as (N21 & N22 & N23).
  { intros v Hv. apply (J_uactive w s1 _ KOptim v ltac:(congruence) HJ1). auto. }
  { exact E2. }
  rewrite E2. cbn [bind].
  set (u2 := addu (uses w cs) KOptim (CF c) (c_optim w c)) in *.
  assert (Haa2 : forall v, In v (c_aux w c) -> uactive u2 KAux v).
  { intros v Hv. destruct (Haa v Hv) as [g Hg]. exists g. unfold u2.
    pose proof (addu_le (uses w cs) KOptim (CF c) (c_optim w c) KAux v g). lia. }
  pose proof (Hgrow _ KAux _ HU2 ltac:(congruence) Haa2 (CF c)) as HU3.
  destruct (add_vars_ok w Hmixed KAux (CF c) (c_aux w c) s2 u2)
    as (s3 & E3 & HJ3 & G1 & G2 & G3 & G4); [congruence|exact HJ2|exact HU3|].
  pose proof (add_vars_noop KAux (CF c) (c_aux w c) s2 _ s3 ltac:(congruence) HJ2) as N3.
  destruct N3 as (N31 & N32 & N33).
  { intros v Hv. apply (J_uactive w s2 _ KAux v ltac:(congruence) HJ2). auto. }
  { exact E3. }
  rewrite E3. cbn [bind].
  assert (Eh : has (c_weight w c) (cfs_for_weights s3) = true).
  { rewrite G2, F2. simpl. rewrite (weights_has w _ cs _ Hw). apply existsb_exists.
    exists c. split; [exact Hin|apply Nat.eqb_refl]. }
  rewrite Eh. cbn [bind].
  destruct (lookup (c_weight w c) (cfs_for_weights s3)) as [l|] eqn:El;
    [|unfold has in Eh; rewrite El in Eh; discriminate].
  rewrite Hmixed. simpl aux_vars. simpl optim_vars.
  assert (C1 : any_in w (c_optim w c ++ w_optim w (c_weight w c)) (aux_vars s3) = false).
  { rewrite (Hwo c Hin), app_nil_r. apply any_in_false. intros v Hv.
    destruct (lookup (v_name w v) (aux_vars s3)) as [v'|] eqn:Ea; [|reflexivity]. exfalso.
    rewrite N32, N22 in Ea. simpl in Ea.
    apply (J_a _ _ _ HJ) in Ea as [En Ea].
    assert (used_aux w cs v').
    { apply uses_active_aux. apply (J_uactive w s _ KAux v' ltac:(congruence) HJ). exact Ea. }
    assert (v' = v).
    { apply (con_names _ _ HC); [right; assumption|left; exists c; auto|assumption]. }
    subst. apply (con_dual _ _ HC v); [exists c; auto|assumption]. }
  assert (C2 : any_in w (c_aux w c ++ w_aux w (c_weight w c)) (optim_vars s3) = false).
  { apply any_in_false. intros v Hv.
    destruct (lookup (v_name w v) (optim_vars s3)) as [v'|] eqn:Ea; [|reflexivity]. exfalso.
    rewrite N31, N21 in Ea. simpl in Ea.
    apply (J_o _ _ _ HJ) in Ea as [En Ea].
    assert (used_optim w cs v').
    { apply uses_active_optim. apply (J_uactive w s _ KOptim v' ltac:(congruence) HJ). exact Ea. }
    assert (Hu : used_aux w cs v) by (apply in_app_iff in Hv; exists c; auto).
    assert (v' = v).
    { apply (con_names _ _ HC); [left; assumption|right; assumption|assumption]. }
    subst. apply (con_dual _ _ HC v); assumption. }
  rewrite C1, C2. eexists; split; [reflexivity|]. simpl.
  repeat split; try congruence.
  - rewrite G1, F1. reflexivity.
  - rewrite N31, N21. reflexivity.
  - rewrite N32, N22. reflexivity.
  - rewrite N33, N23. reflexivity.
  - rewrite G3, F3. reflexivity.
Qed.
End R.

Lemma add_ok_has_weight w c s :
  ok (add w c s) = true -> has (c_weight w c) (cfs_for_weights (final (add w c s))) = true.
Proof.
  unfold add. intros H.
  match type of H with ok (bind ?r _) = true => destruct r as [s0|e0 s0]; [|discriminate] end.
  cbn [bind] in *.
  match type of H with ok (bind ?r _) = true => destruct r as [s2|e2 s2]; [|discriminate] end.
  cbn [bind] in *.
  match type of H with ok (bind ?r _) = true => destruct r as [s3|e3 s3]; [|discriminate] end.
  cbn [bind] in *.
  match type of H with ok (bind ?r _) = true => destruct r as [s7|e7 s7]; [|discriminate] end.
  cbn [bind] in *.
  destruct (lookup (c_weight w c) (cfs_for_weights s7)) as [l|]; [|discriminate].
  assert (HH : has (c_weight w c) (cfs_for_weights
    (with_cfs_for_weights (set (c_weight w c) (l ++ [c]) (cfs_for_weights s7)) s7)) = true)
    by (simpl; unfold has; now rewrite lookup_set_eq).
  destruct (allow_mixed w); [exact HH|].
  destruct (any_in _ _ _); [discriminate|]. destruct (any_in _ _ _); [discriminate|exact HH].
Qed.
