(** C25: factorization contexts of the CUDA LU solver are never silently reused. *)
From Coq Require Import List Arith Bool ZArith Lia.
From Verif Require Import LU_model.
Import ListNotations.
Local Open Scope nat_scope.

(** ---- specification ---- *)
(** Histories start with a new solver object (with or without auto_reset). *)
Definition reachable (s : lu) : Prop := exists auto l, s = run (fresh auto) l.
(** The number of solves of [l] before the set of contexts is replaced. *)
Fixpoint same_set_solves (s : lu) (l : list op) : nat :=
  match l with
  | [] => 0
  | o :: t => if list_eq_dec Nat.eq_dec (ctxs (step s o)) (ctxs s)
              then (match o with OSolve _ _ _ => 1 | _ => 0 end) + same_set_solves (step s o) t
              else 0
  end.
(** no solve of [l] raises *)
Fixpoint no_raise (s : lu) (l : list op) : Prop :=
  match l with
  | [] => True
  | o :: t => match o with OSolve ob ab ok => snd (solve ob ab ok s) <> Raise | _ => True end /\ no_raise (step s o) t
  end.

(** ---- invariant ---- *)
Record inv (s : lu) : Prop := {
  i_lt : forall c, In c (ctxs s) -> c < nalloc s;
  i_nd : NoDup (ctxs s);
  i_k : match snd (rctx s) with Some k => length (ctxs s) = k /\ (k <> 0 -> (0 <= last s < Z.of_nat k)%Z) | None => ctxs s = [] end;
  i_tape : forall i id fid, nth_error (tape s) i = Some (id, fid) ->
     id < nalloc s /\ fid <= c_fid (heap s id) /\ (c_fid (heap s id) = fid -> c_content (heap s id) = Some i)
}.
Lemma inv_fresh a : inv (fresh a).
Proof. constructor; cbn; try tauto; [constructor|intros [|i] ? ?; discriminate]. Qed.
Lemma reset_cases b k s : reset b k s = s \/
  (exists b' k', reset b k s = mkLU (fun j => if (nalloc s <=? j) && (j <? nalloc s + k') then mkC b' 0 None else heap s j) (nalloc s + k')
            (seq (nalloc s) k') (Z.of_nat k' - 1) (Some b', Some k') (auto_reset s) (tape s)
            /\ k' = fill k (snd (rctx s)) 1).
Proof. unfold reset. destruct (match rctx s with (Some b', Some k') => _ | _ => false end); [now left|right; eauto]. Qed.
Lemma old_heap s k' b' j : j < nalloc s -> (fun j => if (nalloc s <=? j) && (j <? nalloc s + k') then mkC b' 0 None else heap s j) j = heap s j.
Proof. intros H. cbv beta. destruct (Nat.leb_spec (nalloc s) j); [lia|reflexivity]. Qed.
Lemma inv_reset b k s : inv s -> inv (reset b k s).
Proof.
  intros I. destruct (reset_cases b k s) as [->|(b' & k' & -> & _)]; [exact I|]. constructor; cbn [ctxs nalloc rctx last snd heap tape].
  - intros c Hc. apply in_seq in Hc. lia.
  - apply seq_NoDup.
  - rewrite seq_length. split; [reflexivity|lia].
  - intros i id fid H. destruct (i_tape s I i id fid H) as (H1 & H2). rewrite !old_heap by exact H1. split; [lia|exact H2].
Qed.
(** the state that a solve uses *)
Definition prepared (ob : nat) (s0 : lu) : option lu :=
  if auto_reset s0 then match ctxs s0 with [] => None | c0 :: _ => Some (if c_batch (heap s0 c0) =? ob then s0 else reset (Some ob) None s0) end else Some s0.
Lemma prepared_cases ob s0 s : prepared ob s0 = Some s -> s = s0 \/ s = reset (Some ob) None s0.
Proof.
  unfold prepared. destruct (auto_reset s0); [destruct (ctxs s0) as [|c t]; [discriminate|]; destruct (c_batch _ =? ob)|]; intros H; injection H as <-; auto.
Qed.
(** what a solve does, by cases *)
Inductive solved (ab : nat) (ok : bool) (s : lu) : lu * result -> Prop :=
| S_stuck : (snd (rctx s) = None \/ snd (rctx s) = Some 0) -> solved ab ok s (s, Raise)
| S_batch k l : snd (rctx s) = Some k -> k <> 0 -> l = ((last s + 1) mod Z.of_nat k)%Z ->
    solved ab ok s (mkLU (heap s) (nalloc s) (ctxs s) l (rctx s) (auto_reset s) (tape s), Raise)
| S_fail k l id : snd (rctx s) = Some k -> k <> 0 -> l = ((last s + 1) mod Z.of_nat k)%Z -> id = nth (Z.to_nat l) (ctxs s) 0 ->
    solved ab ok s (mkLU (set_obj (heap s) id (mkC (c_batch (heap s id)) (S (c_fid (heap s id))) None)) (nalloc s) (ctxs s) l (rctx s) (auto_reset s) (tape s), Raise)
| S_ok k l id : snd (rctx s) = Some k -> k <> 0 -> l = ((last s + 1) mod Z.of_nat k)%Z -> id = nth (Z.to_nat l) (ctxs s) 0 ->
    solved ab ok s (mkLU (set_obj (heap s) id (mkC (c_batch (heap s id)) (S (c_fid (heap s id))) (Some (length (tape s))))) (nalloc s) (ctxs s) l (rctx s) (auto_reset s)
              (tape s ++ [(id, S (c_fid (heap s id)))]), Ok (length (tape s))).
Lemma solve_cases ob ab ok s0 : match prepared ob s0 with None => solve ob ab ok s0 = (s0, Raise) | Some s => solved ab ok s (solve ob ab ok s0) end.
Proof.
  unfold solve. fold (prepared ob s0). destruct (prepared ob s0) as [s|]; [|reflexivity].
  destruct (snd (rctx s)) as [[|k]|] eqn:E; [constructor; auto| |constructor; auto].
  cbv zeta. destruct (negb _); [eapply S_batch; eauto|]. destruct ok; [eapply S_ok; eauto|eapply S_fail; eauto].
Qed.
Lemma pos_lt k l s : inv s -> snd (rctx s) = Some k -> k <> 0 -> l = ((last s + 1) mod Z.of_nat k)%Z -> Z.to_nat l < length (ctxs s) /\ (0 <= l < Z.of_nat k)%Z.
Proof.
  intros I E Hk ->. pose proof (i_k s I) as H. rewrite E in H. destruct H as [-> _].
  pose proof (Z.mod_pos_bound (last s + 1) (Z.of_nat k) ltac:(lia)). split; [lia|assumption].
Qed.
Lemma inv_solved ab ok s r : inv s -> solved ab ok s r -> inv (fst r).
Proof.
  intros I H. destruct H as [H|k l E Hk El|k l id E Hk El Eid|k l id E Hk El Eid]; cbn [fst]; [exact I| | |];
    destruct (pos_lt k l s I E Hk El) as [Hl Hl']; pose proof (i_k s I) as HK; rewrite E in HK; destruct HK as [HK1 HK2];
    constructor; cbn [ctxs nalloc rctx last heap tape]; try (exact (i_lt s I)); try (exact (i_nd s I)); try (rewrite E; auto; fail); try exact (i_tape s I).
  - intros i id' fid H. destruct (i_tape s I i id' fid H) as (H1 & H2 & H3). unfold set_obj. destruct (Nat.eqb_spec id' id) as [->|N]; [|auto].
    cbn [c_fid c_content]. split; [exact H1|split; [lia|intros; lia]].
  - intros i id' fid H. destruct (Nat.lt_ge_cases i (length (tape s))) as [L|L].
    + rewrite nth_error_app1 in H by exact L. destruct (i_tape s I i id' fid H) as (H1 & H2 & H3). unfold set_obj. destruct (Nat.eqb_spec id' id) as [->|N]; [|auto].
      cbn [c_fid c_content]. split; [exact H1|split; [lia|intros; lia]].
    + rewrite nth_error_app2 in H by exact L. destruct (i - length (tape s)) as [|d] eqn:D; [|destruct d; discriminate].
      cbn in H. injection H as <- <-. unfold set_obj. rewrite Nat.eqb_refl. cbn [c_fid c_content].
      split; [apply (i_lt s I); rewrite Eid; now apply nth_In|split; [lia|intros _; f_equal; lia]].
Qed.
Lemma inv_prepared ob s0 s : inv s0 -> prepared ob s0 = Some s -> inv s.
Proof. intros I H. destruct (prepared_cases _ _ _ H) as [->| ->]; [exact I|now apply inv_reset]. Qed.
Lemma inv_step s o : inv s -> inv (step s o).
Proof.
  intros I. destruct o as [b k|ob ab ok]; cbn [step]; [now apply inv_reset|].
  pose proof (solve_cases ob ab ok s) as C. destruct (prepared ob s) as [s1|] eqn:P; [|rewrite C; exact I].
  eapply inv_solved; [|exact C]. eapply inv_prepared; eauto.
Qed.
Lemma inv_run l : forall s, inv s -> inv (run s l).
Proof. induction l as [|o t IH]; intros s I; [exact I|]. cbn. apply IH. now apply inv_step. Qed.
Lemma inv_reachable s : reachable s -> inv s.
Proof. intros (a & l & ->). apply inv_run, inv_fresh. Qed.

(** ---- the factor counters ---- *)
Lemma nalloc_step s o : nalloc s <= nalloc (step s o).
Proof.
  assert (R : forall b k s, nalloc s <= nalloc (reset b k s)). { intros b k s1. destruct (reset_cases b k s1) as [->|(b' & k' & -> & _)]; cbn; lia. }
  destruct o as [b k|ob ab ok]; cbn [step]; [apply R|].
  pose proof (solve_cases ob ab ok s) as C. destruct (prepared ob s) as [s1|] eqn:P; [|rewrite C; cbn; lia].
  assert (nalloc s <= nalloc s1) by (destruct (prepared_cases _ _ _ P) as [->| ->]; [lia|apply R]).
  destruct C; cbn; assumption.
Qed.
Lemma reset_heap b k s id : id < nalloc s -> heap (reset b k s) id = heap s id.
Proof. intros H. destruct (reset_cases b k s) as [->|(b' & k' & -> & _)]; [reflexivity|]. cbn [heap]. now apply old_heap. Qed.
Lemma reset_ctxs b k s : (reset b k s = s) \/ (forall id, In id (ctxs (reset b k s)) -> nalloc s <= id).
Proof. destruct (reset_cases b k s) as [->|(b' & k' & -> & _)]; [now left|right]. cbn [ctxs]. intros id H. apply in_seq in H. lia. Qed.
Lemma fid_mono s o id : inv s -> id < nalloc s -> c_fid (heap s id) <= c_fid (heap (step s o) id).
Proof.
  intros I H. destruct o as [b k|ob ab ok]; cbn [step]; [now rewrite reset_heap|].
  pose proof (solve_cases ob ab ok s) as C. destruct (prepared ob s) as [s1|] eqn:P; [|rewrite C; cbn; lia].
  assert (E : heap s1 id = heap s id) by (destruct (prepared_cases _ _ _ P) as [->| ->]; [reflexivity|now apply reset_heap]).
  rewrite <- E. destruct C; cbn [fst heap]; try lia; unfold set_obj; destruct (Nat.eqb_spec id id0) as [->|]; cbn; lia.
Qed.
Lemma fid_mono_run l : forall s id, inv s -> id < nalloc s -> c_fid (heap s id) <= c_fid (heap (run s l) id).
Proof.
  induction l as [|o t IH]; intros s id I H; [cbn; lia|]. cbn. pose proof (fid_mono s o id I H). pose proof (nalloc_step s o).
  pose proof (IH (step s o) id (inv_step s o I) ltac:(lia)). unfold run in *. lia.
Qed.
(** a context object that is no longer in the set is never touched again *)
Lemma frozen_step s o id : inv s -> id < nalloc s -> ~ In id (ctxs s) -> heap (step s o) id = heap s id /\ ~ In id (ctxs (step s o)).
Proof.
  intros I H N.
  assert (R : forall b k, heap (reset b k s) id = heap s id /\ ~ In id (ctxs (reset b k s))).
  { intros b k. split; [now apply reset_heap|]. destruct (reset_ctxs b k s) as [->|R]; [exact N|]. intros Hi. specialize (R id Hi). lia. }
  destruct o as [b k|ob ab ok]; cbn [step]; [apply R|].
  pose proof (solve_cases ob ab ok s) as C. destruct (prepared ob s) as [s1|] eqn:P; [|rewrite C; auto].
  assert (E : heap s1 id = heap s id /\ ~ In id (ctxs s1)) by (destruct (prepared_cases _ _ _ P) as [->| ->]; [auto|apply R]). destruct E as [<- N1].
  pose proof (inv_prepared _ _ _ I P) as I1.
  destruct C as [C|k l E Hk El|k l id0 E Hk El Eid|k l id0 E Hk El Eid]; cbn [fst heap ctxs]; auto;
    (split; [|exact N1]; unfold set_obj; destruct (Nat.eqb_spec id id0) as [->|]; [|reflexivity]; exfalso; apply N1; rewrite Eid; apply nth_In;
     now apply (pos_lt k l s1 I1 E Hk El)).
Qed.
Lemma frozen_run l : forall s id, inv s -> id < nalloc s -> ~ In id (ctxs s) -> heap (run s l) id = heap s id.
Proof.
  induction l as [|o t IH]; intros s id I H N; [reflexivity|]. cbn. destruct (frozen_step s o id I H N) as [E N']. rewrite <- E.
  apply IH; auto; [now apply inv_step|]. pose proof (nalloc_step s o). lia.
Qed.
Lemma tape_grows s o i e : nth_error (tape s) i = Some e -> nth_error (tape (step s o)) i = Some e.
Proof.
  assert (R : forall b k s, tape (reset b k s) = tape s). { intros b k s1. destruct (reset_cases b k s1) as [->|(b' & k' & -> & _)]; reflexivity. }
  intros H. destruct o as [b k|ob ab ok]; cbn [step]; [now rewrite R|].
  pose proof (solve_cases ob ab ok s) as C. destruct (prepared ob s) as [s1|] eqn:P; [|now rewrite C].
  assert (E : tape s1 = tape s) by (destruct (prepared_cases _ _ _ P) as [->| ->]; auto). rewrite <- E in H.
  destruct C; cbn [fst tape]; auto. rewrite nth_error_app1; [exact H|]. apply nth_error_Some. congruence.
Qed.
Lemma tape_grows_run l : forall s i e, nth_error (tape s) i = Some e -> nth_error (tape (run s l)) i = Some e.
Proof. induction l as [|o t IH]; intros s i e H; [exact H|]. cbn. apply IH. now apply tape_grows. Qed.

(** ---- the ring ---- *)
Section Ring.
Variables (C : list nat) (K : nat) (p0 : Z) (id f : nat).
Hypothesis HK : 0 < K.
Hypothesis Hp : (0 <= p0 < Z.of_nat K)%Z.
Hypothesis Hid : id = nth (Z.to_nat p0) C 0.
(** [j] solves have used the set since the solve at position [p0] *)
Definition at_ring (s : lu) (j : nat) : Prop :=
  inv s /\ ctxs s = C /\ length C = K /\ last s = ((p0 + Z.of_nat j) mod Z.of_nat K)%Z.
Lemma ring_rctx s j : at_ring s j -> snd (rctx s) = Some K.
Proof.
  intros (I & E & L & _). pose proof (i_k s I) as H. destruct (snd (rctx s)) as [k|]; [destruct H as [H _]; congruence|].
  rewrite E in H. rewrite H in L. cbn in L. lia.
Qed.
Lemma ring_id_lt s j : at_ring s j -> id < nalloc s.
Proof. intros (I & E & L & _). apply (i_lt s I). rewrite E, Hid. apply nth_In. lia. Qed.
Lemma ring_next s j : at_ring s j -> ((last s + 1) mod Z.of_nat K)%Z = ((p0 + Z.of_nat (S j)) mod Z.of_nat K)%Z.
Proof. intros (_ & _ & _ & ->). rewrite Zplus_mod_idemp_l. f_equal. lia. Qed.
(** the solve after [j] others is at the same place iff [K] divides [S j] *)
Lemma ring_hit j : Z.to_nat ((p0 + Z.of_nat j) mod Z.of_nat K) = Z.to_nat p0 -> 0 < j -> K <= j.
Proof.
  intros H Hj. destruct (Nat.lt_ge_cases j K) as [L|L]; [|exact L]. exfalso.
  pose proof (Z.mod_pos_bound (p0 + Z.of_nat j) (Z.of_nat K) ltac:(lia)).
  assert (E : ((p0 + Z.of_nat j) mod Z.of_nat K = p0)%Z) by lia.
  destruct (Z.lt_ge_cases (p0 + Z.of_nat j) (Z.of_nat K)) as [L1|L1].
  - rewrite Z.mod_small in E by lia. lia.
  - replace (p0 + Z.of_nat j)%Z with ((p0 + Z.of_nat j - Z.of_nat K) + 1 * Z.of_nat K)%Z in E by ring.
    rewrite Z.mod_add, Z.mod_small in E by lia. lia.
Qed.
Lemma ring_step s j o : at_ring s j -> ctxs (step s o) = ctxs s ->
  exists a, a = (match o with OSolve _ _ _ => 1 | _ => 0 end) /\
  (at_ring (step s o) (j + a) \/ step s o = s) /\
  (c_fid (heap (step s o) id) = c_fid (heap s id) \/ (a = 1 /\ Z.to_nat ((p0 + Z.of_nat (S j)) mod Z.of_nat K) = Z.to_nat p0)) /\
  (match o with OSolve ob ab ok => snd (solve ob ab ok s) <> Raise | _ => True end -> at_ring (step s o) (j + a) /\
     (a = 1 -> Z.to_nat ((p0 + Z.of_nat (S j)) mod Z.of_nat K) = Z.to_nat p0 -> c_fid (heap (step s o) id) = S (c_fid (heap s id)))).
Proof.
  intros AR ES. pose proof AR as (I & E & L & HL). pose proof (ring_rctx s j AR) as RK. pose proof (ring_next s j AR) as RN.
  pose proof (ring_id_lt s j AR) as Hlt.
  assert (Cne : C <> []) by (intros ->; cbn in L; lia).
  assert (R : forall b k, ctxs (reset b k s) = ctxs s -> reset b k s = s).
  { intros b k H. destruct (reset_ctxs b k s) as [|R]; [assumption|]. exfalso. rewrite H in R. rewrite E in R.
    assert (Hin : In id C) by (rewrite Hid; apply nth_In; lia). specialize (R id Hin). lia. }
  destruct o as [b k|ob ab ok]; cbn [step] in *.
  - exists 0. split; [reflexivity|]. rewrite (R b k ES). rewrite Nat.add_0_r. split; [now left|]. split; [now left|]. intros _. split; [exact AR|discriminate].
  - exists 1. split; [reflexivity|].
    pose proof (solve_cases ob ab ok s) as SC. destruct (prepared ob s) as [s1|] eqn:P.
    2:{ rewrite SC. cbn [fst snd]. split; [now right|]. split; [now left|]. congruence. }
    assert (s1 = s).
    { destruct (prepared_cases _ _ _ P) as [->|E1]; [reflexivity|]. rewrite E1. apply R. rewrite <- E1.
      destruct SC; cbn [fst ctxs] in ES; exact ES. }
    subst s1. assert (IS : inv (fst (solve ob ab ok s))) by (eapply inv_solved; eauto).
    assert (ARS : forall h t, inv (mkLU h (nalloc s) (ctxs s) ((last s + 1) mod Z.of_nat K)%Z (rctx s) (auto_reset s) t) ->
       at_ring (mkLU h (nalloc s) (ctxs s) ((last s + 1) mod Z.of_nat K)%Z (rctx s) (auto_reset s) t) (j + 1)).
    { intros h t I'. split; [exact I'|]. cbn [ctxs last]. split; [exact E|split; [exact L|]]. rewrite RN. do 2 f_equal. lia. }
    assert (NTH : forall l id0, l = ((last s + 1) mod Z.of_nat K)%Z -> id0 = nth (Z.to_nat l) (ctxs s) 0 ->
       (id0 = id <-> Z.to_nat ((p0 + Z.of_nat (S j)) mod Z.of_nat K) = Z.to_nat p0)).
    { intros l id0 -> ->. rewrite RN, E, Hid. split; intros H.
      - pose proof (i_nd s I) as ND. rewrite E in ND. pose proof (Z.mod_pos_bound (p0 + Z.of_nat (S j)) (Z.of_nat K) ltac:(lia)).
        eapply NoDup_nth; [exact ND| | |exact H]; lia.
      - now rewrite H. }
    destruct SC as [SC|k l E0 Hk El|k l id0 E0 Hk El Eid|k l id0 E0 Hk El Eid]; cbn [fst snd heap] in *.
    + split; [now right|]. split; [now left|]. congruence.
    + rewrite RK in E0. injection E0 as <-. subst l. split; [left; now apply ARS|]. split; [now left|]. congruence.
    + rewrite RK in E0. injection E0 as <-. pose proof (NTH l id0 El Eid) as NT. subst l. split; [left; now apply ARS|]. split; [|congruence].
      unfold set_obj. destruct (Nat.eqb_spec id id0) as [<-|N]; [right; tauto|now left].
    + rewrite RK in E0. injection E0 as <-. pose proof (NTH l id0 El Eid) as NT. subst l. split; [left; now apply ARS|]. split.
      * unfold set_obj. destruct (Nat.eqb_spec id id0) as [<-|N]; [right; tauto|now left].
      * intros _. split; [now apply ARS|]. intros _ H. apply NT in H. rewrite H. unfold set_obj. rewrite Nat.eqb_refl. reflexivity.
Qed.
Lemma left_set s j o : at_ring s j -> ctxs (step s o) <> ctxs s -> ~ In id (ctxs (step s o)) /\ c_fid (heap (step s o) id) = c_fid (heap s id).
Proof.
  intros AR NE. pose proof AR as (I & E & L & HL). pose proof (ring_id_lt s j AR) as Hlt.
  assert (R : forall b k, ctxs (reset b k s) <> ctxs s -> ~ In id (ctxs (reset b k s))).
  { intros b k H Hin. destruct (reset_ctxs b k s) as [R|R]; [congruence|]. specialize (R id Hin). lia. }
  destruct o as [b k|ob ab ok]; cbn [step] in *; [split; [now apply R|now rewrite reset_heap]|].
  pose proof (solve_cases ob ab ok s) as SC. destruct (prepared ob s) as [s1|] eqn:P; [|rewrite SC in NE; cbn in NE; congruence].
  pose proof (inv_prepared _ _ _ I P) as I1.
  destruct (prepared_cases _ _ _ P) as [->|E1]; [destruct SC; cbn [fst ctxs] in NE; congruence|].
  assert (EC : ctxs (fst (solve ob ab ok s)) = ctxs s1) by (destruct SC; reflexivity). rewrite EC in *.
  assert (N1 : ~ In id (ctxs s1)) by (rewrite E1 in *; now apply R). split; [exact N1|].
  assert (E2 : heap s1 id = heap s id) by (rewrite E1; now apply reset_heap). rewrite <- E2.
  destruct SC as [SC|k l E0 Hk El|k l id0 E0 Hk El Eid|k l id0 E0 Hk El Eid]; cbn [fst heap]; try reflexivity;
    (unfold set_obj; destruct (Nat.eqb_spec id id0) as [->|]; [|reflexivity]; exfalso; apply N1; rewrite Eid; apply nth_In;
     now apply (pos_lt k l s1 I1 E0 Hk El)).
Qed.
Lemma ring_safe l : forall s j, at_ring s j -> c_fid (heap s id) = f -> j + same_set_solves s l < K -> c_fid (heap (run s l) id) = f.
Proof.
  induction l as [|o t IH]; intros s j AR Hf Hj; [exact Hf|]. cbn [run fold_left same_set_solves] in *. fold (run (step s o) t).
  destruct (list_eq_dec Nat.eq_dec (ctxs (step s o)) (ctxs s)) as [ES|NE].
  - destruct (ring_step s j o AR ES) as (a & Ha & H1 & H2 & _). rewrite <- Ha in Hj.
    assert (Hf' : c_fid (heap (step s o) id) = f).
    { destruct H2 as [->|[-> H2]]; [exact Hf|]. apply ring_hit in H2; lia. }
    destruct H1 as [H1|H1]; [apply (IH _ (j + a)); auto; lia|]. apply (IH _ j); [now rewrite H1|exact Hf'|lia].
  - destruct (left_set s j o AR NE) as [N E]. rewrite frozen_run; [congruence|apply inv_step; apply AR| |exact N].
    pose proof (ring_id_lt s j AR). pose proof (nalloc_step s o). lia.
Qed.
Lemma ring_overwritten l : forall s j, at_ring s j -> f <= c_fid (heap s id) -> (K <= j -> f < c_fid (heap s id)) -> no_raise s l ->
  K <= j + same_set_solves s l -> f < c_fid (heap (run s l) id).
Proof.
  induction l as [|o t IH]; intros s j AR Hf Hover NR Hj; [cbn in *; apply Hover; lia|]. cbn [run fold_left same_set_solves no_raise] in *. fold (run (step s o) t).
  destruct NR as [NR NRt]. pose proof (ring_id_lt s j AR) as Hlt.
  destruct (list_eq_dec Nat.eq_dec (ctxs (step s o)) (ctxs s)) as [ES|NE].
  - destruct (ring_step s j o AR ES) as (a & Ha & _ & _ & H3). destruct (H3 NR) as [AR' HH]. rewrite <- Ha in Hj.
    pose proof (fid_mono s o id (proj1 AR) Hlt) as MO.
    apply (IH _ (j + a)); auto; [lia| |lia]. intros HKj. destruct (Nat.le_gt_cases K j) as [L|L]; [specialize (Hover L); lia|].
    assert (a = 1 /\ S j = K) as [Ea Ej] by (destruct o; lia). specialize (HH Ea).
    assert (HP : Z.to_nat ((p0 + Z.of_nat (S j)) mod Z.of_nat K) = Z.to_nat p0).
    { rewrite Ej. f_equal. rewrite <- (Z.mul_1_l (Z.of_nat K)) at 1. rewrite Z.mod_add, Z.mod_small by lia. reflexivity. }
    specialize (HH HP). lia.
  - rewrite Nat.add_0_r in Hj. specialize (Hover Hj). destruct (left_set s j o AR NE) as [N E]. rewrite frozen_run; [lia|apply inv_step; apply AR| |exact N].
    pose proof (nalloc_step s o). lia.
Qed.
End Ring.

(** ---- theorems ---- *)

(** Whatever happened to the solver, the backward of a solve either raises or uses the factorization
    of that very solve. *)
Theorem C25_never_silently_wrong : forall s i, reachable s -> i < length (tape s) ->
  backward s i = BRaise \/ backward s i = BUse (Some i).
Proof.
  intros s i HR Hi. pose proof (inv_reachable s HR) as I. unfold backward.
  destruct (nth_error (tape s) i) as [[id fid]|] eqn:E; [|apply nth_error_None in E; lia].
  rewrite (nth_error_nth _ _ _ E). destruct (i_tape s I i id fid E) as (_ & _ & H).
  destruct (Nat.eqb_spec (c_fid (heap s id)) fid) as [F|F]; [right|now left]. now rewrite (H F).
Qed.

Lemma solve_entry s ob ab ok s1 i : inv s -> solve ob ab ok s = (s1, Ok i) ->
  exists id f p0, nth_error (tape s1) i = Some (id, f) /\ c_fid (heap s1 id) = f /\ (0 <= p0 < Z.of_nat (length (ctxs s1)))%Z /\
    id = nth (Z.to_nat p0) (ctxs s1) 0 /\ 0 < length (ctxs s1) /\ at_ring (ctxs s1) (length (ctxs s1)) p0 s1 0.
Proof.
  intros I H. pose proof (inv_step s (OSolve ob ab ok) I) as I1. cbn [step] in I1. rewrite H in I1. cbn [fst] in I1.
  pose proof (solve_cases ob ab ok s) as C. rewrite H in C. destruct (prepared ob s) as [s0|] eqn:P; [|discriminate].
  pose proof (inv_prepared _ _ _ I P) as I0. inversion C as [ | | |k l id E Hk El Eid]. subst s1 i.
  destruct (pos_lt k l s0 I0 E Hk El) as [Hl Hl']. pose proof (i_k s0 I0) as HK. rewrite E in HK. destruct HK as [HK _].
  exists id, (S (c_fid (heap s0 id))), l. cbn [tape heap ctxs]. rewrite nth_error_app2, Nat.sub_diag by lia.
  split; [reflexivity|]. split; [unfold set_obj; rewrite Nat.eqb_refl; reflexivity|]. rewrite HK. split; [exact Hl'|]. split; [exact Eid|]. split; [lia|].
  split; [exact I1|]. cbn [ctxs last]. split; [reflexivity|]. split; [exact HK|]. rewrite Z.add_0_r, Z.mod_small by lia. reflexivity.
Qed.
Lemma backward_entry s i id f : nth_error (tape s) i = Some (id, f) -> backward s i = if c_fid (heap s id) =? f then BUse (c_content (heap s id)) else BRaise.
Proof. intros H. unfold backward. now rewrite (nth_error_nth _ _ _ H). Qed.
Lemma reachable_step s o : reachable s -> reachable (step s o).
Proof. intros (a & l & ->). exists a, (l ++ [o]). unfold run. now rewrite fold_left_app. Qed.
Lemma reachable_run l : forall s, reachable s -> reachable (run s l).
Proof. induction l as [|o t IH]; intros s H; [exact H|]. cbn. apply IH. now apply reachable_step. Qed.

(** The backward of a solve works as long as fewer than K (the number of contexts) later solves used
    the same set of contexts, whatever else happened. *)
Theorem C25_fewer_than_K_safe : forall s ob ab ok s1 i l, reachable s -> solve ob ab ok s = (s1, Ok i) ->
  same_set_solves s1 l < length (ctxs s1) -> backward (run s1 l) i = BUse (Some i).
Proof.
  intros s ob ab ok s1 i l HR HS HL. pose proof (inv_reachable s HR) as I.
  assert (R1 : reachable s1) by (replace s1 with (step s (OSolve ob ab ok)); [now apply reachable_step|cbn [step]; now rewrite HS]).
  destruct (solve_entry s ob ab ok s1 i I HS) as (id & f & p0 & ET & EF & Hp & Hid & HK & AR).
  pose proof (tape_grows_run l s1 i _ ET) as ET'. pose proof (ring_safe (ctxs s1) (length (ctxs s1)) p0 id f HK Hp Hid l s1 0 AR EF HL) as F.
  assert (Hi : i < length (tape (run s1 l))) by (apply nth_error_Some; congruence).
  destruct (C25_never_silently_wrong (run s1 l) i (reachable_run l s1 R1) Hi) as [B|B]; [|exact B].
  rewrite (backward_entry _ _ _ _ ET'), F, Nat.eqb_refl in B. discriminate.
Qed.

(** It raises exactly when K or more later solves used the same set of contexts (if no solve raises). *)
Theorem C25_raises_exactly : forall s ob ab ok s1 i l, reachable s -> solve ob ab ok s = (s1, Ok i) -> no_raise s1 l ->
  (backward (run s1 l) i = BRaise <-> length (ctxs s1) <= same_set_solves s1 l).
Proof.
  intros s ob ab ok s1 i l HR HS NR. split.
  - intros B. destruct (Nat.le_gt_cases (length (ctxs s1)) (same_set_solves s1 l)) as [L|L]; [exact L|].
    rewrite (C25_fewer_than_K_safe s ob ab ok s1 i l HR HS L) in B. discriminate.
  - intros L. pose proof (inv_reachable s HR) as I.
    destruct (solve_entry s ob ab ok s1 i I HS) as (id & f & p0 & ET & EF & Hp & Hid & HK & AR).
    assert (F : f < c_fid (heap (run s1 l) id)) by (apply (ring_overwritten (ctxs s1) (length (ctxs s1)) p0 id f HK Hp Hid l s1 0 AR); auto; lia).
    rewrite (backward_entry _ _ _ _ (tape_grows_run l s1 i _ ET)). destruct (Nat.eqb_spec (c_fid (heap (run s1 l) id)) f); [lia|reflexivity].
Qed.

(** ---- one optimize() call ---- *)
Lemma reset_K b k s : exists b' , rctx (reset b (Some k) s) = (Some b', Some k).
Proof.
  unfold reset. cbn [fill]. destruct (rctx s) as [[b'|] [k'|]] eqn:E; cbn [fst snd fill]; try (eexists; reflexivity).
  destruct (_ && _) eqn:H; [|eexists; reflexivity]. apply andb_true_iff in H as [_ H]. apply Nat.eqb_eq in H. subst k'. exists b'. exact E.
Qed.
Lemma solve_keeps_K ob ab ok s k : snd (rctx s) = Some k -> snd (rctx (step s (OSolve ob ab ok))) = Some k.
Proof.
  intros H. cbn [step]. pose proof (solve_cases ob ab ok s) as C. destruct (prepared ob s) as [s1|] eqn:P; [|rewrite C; exact H].
  assert (E : snd (rctx s1) = Some k).
  { destruct (prepared_cases _ _ _ P) as [->| ->]; [exact H|]. destruct (reset_cases (Some ob) None s) as [->|(b' & k' & -> & Ek)]; [exact H|].
    cbn [rctx snd]. rewrite H in Ek. cbn in Ek. congruence. }
  destruct C; exact E.
Qed.
(** only solves *)
Definition is_solve (o : op) : Prop := match o with OSolve _ _ _ => True | _ => False end.
Lemma same_set_le l : forall s, same_set_solves s l <= length l.
Proof.
  induction l as [|o t IH]; intros s; [cbn; lia|]. cbn [same_set_solves length]. specialize (IH (step s o)).
  destruct (list_eq_dec _ _ _); [destruct o; lia|lia].
Qed.
Lemma solve_tape ob ab ok s : (exists s1, solve ob ab ok s = (s1, Ok (length (tape s))) /\ length (tape s1) = S (length (tape s))) \/ length (tape (step s (OSolve ob ab ok))) = length (tape s).
Proof.
  cbn [step]. pose proof (solve_cases ob ab ok s) as C. destruct (prepared ob s) as [s1|] eqn:P; [|right; now rewrite C].
  assert (E : tape s1 = tape s). { destruct (prepared_cases _ _ _ P) as [->| ->]; [reflexivity|]. destruct (reset_cases (Some ob) None s) as [->|(b' & k' & -> & _)]; reflexivity. }
  rewrite <- E. destruct C; cbn [fst tape]; auto. left. eexists. split; [reflexivity|]. cbn [tape]. rewrite app_length. cbn. lia.
Qed.
Lemma at_most_K_solves l : forall s K, reachable s -> snd (rctx s) = Some K -> Forall is_solve l -> length l <= K ->
  forall i, length (tape s) <= i < length (tape (run s l)) -> backward (run s l) i = BUse (Some i).
Proof.
  induction l as [|o t IH]; intros s K HR HK HF HL i Hi; [cbn in Hi; lia|]. inversion HF as [|? ? Ho Ht]. subst. destruct o as [|ob ab ok]; [destruct Ho|].
  change (run s (OSolve ob ab ok :: t)) with (run (step s (OSolve ob ab ok)) t) in *. cbn [length] in HL.
  pose proof (reachable_step s (OSolve ob ab ok) HR) as HR1. pose proof (solve_keeps_K ob ab ok s K HK) as HK1.
  destruct (Nat.lt_ge_cases i (length (tape (step s (OSolve ob ab ok))))) as [L|L].
  2:{ apply (IH _ K HR1 HK1 Ht); lia. }
  destruct (solve_tape ob ab ok s) as [(s1 & ES & ET)|ET]; [|lia].
  assert (E1 : step s (OSolve ob ab ok) = s1) by (cbn [step]; now rewrite ES). rewrite E1 in *. assert (i = length (tape s)) as -> by lia.
  apply (C25_fewer_than_K_safe s ob ab ok s1 (length (tape s)) t HR ES). pose proof (same_set_le t s1).
  pose proof (i_k s1 (inv_reachable s1 HR1)) as H1. rewrite HK1 in H1. destruct H1 as [-> _]. lia.
Qed.

From Coq Require Import QArith.
From Verif Require NL_model NL_proofs NL_props.
Local Open Scope nat_scope.
Section Optimize.
Context {X D Z0 : Type}.
Variable n : nat.
Variable errf : X -> NL_model.ext.
Variable retr : X -> D -> X.
Variable compute_delta gn_solve : Z0 -> (nat -> X) -> Z0 * option (nat -> D).
Variable complete : Z0 -> (nat -> X) -> (nat -> D) -> (nat -> NL_model.ext) -> (nat -> NL_model.ext) -> Z0 * option (nat -> bool).
Variable scale : D -> D.
Variable abs_tol rel_tol : Q.
(** the LU solver inside the state of the optimizer: one solve per step computation *)
Variable lu_of : Z0 -> lu.
Hypothesis one_solve : forall z x, exists ob ab ok, lu_of (fst (compute_delta z x)) = fst (solve ob ab ok (lu_of z)).
Hypothesis one_solve_gn : forall z x, exists ob ab ok, lu_of (fst (gn_solve z x)) = fst (solve ob ab ok (lu_of z)).
Hypothesis complete_keeps : forall z x d e p, lu_of (fst (complete z x d e p)) = lu_of z.
Notation body := (NL_model.body n errf retr compute_delta gn_solve complete scale abs_tol rel_tol).
Notation loop := (NL_model.loop n errf retr compute_delta gn_solve complete scale abs_tol rel_tol).
Notation lst := (@NL_model.lstate X Z0).
Definition ctl_state (c : @NL_model.control X Z0) : lst := match c with NL_model.Next s => s | NL_model.Stop o => NL_proofs.stopped o end.

Lemma step_lu z x d pe conv fu fg : lu_of (fst (fst (fst (NL_model.step n errf retr complete z x d pe conv fu fg)))) = lu_of z /\
   (fg = true -> snd (NL_model.step n errf retr complete z x d pe conv fu fg) = false).
Proof.
  unfold NL_model.step. cbv zeta.
  match goal with |- context [if fg then _ else complete z x d ?e pe] => pose proof (complete_keeps z x d e pe) as CK; destruct fg; [|destruct (complete z x d e pe) as [z' rej]] end.
  - cbn. auto.
  - split; [|discriminate]. cbn [fst] in CK. destruct rej as [m|]; [|exact CK]. destruct (NL_model.all_b n m); exact CK.
Qed.
Lemma body_ops g li st (s : lst) : exists ops, Forall is_solve ops /\ lu_of (NL_model.l_z (ctl_state (body g li st s))) = run (lu_of (NL_model.l_z s)) ops /\
  length ops <= (if li then 2 else 1) /\ NL_model.l_solves (ctl_state (body g li st s)) = S (NL_model.l_solves s) /\
  (li = true -> forall s', body g li st s = NL_model.Next s' -> NL_model.l_it s' = S (NL_model.l_it s)).
Proof.
  unfold NL_model.body.
  set (r := if li then match gn_solve (NL_model.l_z s) (NL_model.l_x s) with
             | (z, Some d) => (z, Some d)
             | (z, None) => if st then (z, None) else compute_delta z (NL_model.l_x s)
             end
           else compute_delta (NL_model.l_z s) (NL_model.l_x s)).
  assert (HR : exists ops, Forall is_solve ops /\ lu_of (fst r) = run (lu_of (NL_model.l_z s)) ops /\ length ops <= (if li then 2 else 1)); [unfold r; clear r|clearbody r; destruct r as [z [d|]]].
  { destruct li.
    - destruct (one_solve_gn (NL_model.l_z s) (NL_model.l_x s)) as (ob & ab & ok & E).
      destruct (gn_solve (NL_model.l_z s) (NL_model.l_x s)) as [z [d|]]; cbn [fst] in E.
      + exists [OSolve ob ab ok]. split; [repeat constructor|]. split; [exact E|cbn; lia].
      + destruct st; [exists [OSolve ob ab ok]; split; [repeat constructor|]; split; [exact E|cbn; lia]|].
        destruct (one_solve z (NL_model.l_x s)) as (ob' & ab' & ok' & E'). exists [OSolve ob ab ok; OSolve ob' ab' ok'].
        split; [repeat constructor|]. split; [|cbn; lia]. rewrite E', E. reflexivity.
    - destruct (one_solve (NL_model.l_z s) (NL_model.l_x s)) as (ob & ab & ok & E). exists [OSolve ob ab ok]. split; [repeat constructor|]. split; [exact E|cbn; lia]. }
  - destruct HR as (ops & F & E & L). cbn [fst] in E. exists ops. split; [exact F|].
    match goal with |- context [NL_model.step n errf retr complete z ?x ?d' ?pe ?cv ?fu ?fg] => pose proof (step_lu z x d' pe cv fu fg) as [S1 S2]; destruct (NL_model.step n errf retr complete z x d' pe cv fu fg) as [[[z' x'] err] ar] end.
    cbn [fst snd] in S1, S2. cbv zeta.
    destruct (ar && _) eqn:EA; cbn [ctl_state NL_model.l_z NL_model.l_solves].
    + split; [congruence|]. split; [exact L|]. split; [reflexivity|]. intros ->. rewrite S2 in EA by reflexivity. discriminate.
    + destruct (NL_model.all_b n _); cbn [ctl_state NL_proofs.stopped NL_model.l_z NL_model.l_solves]; (split; [congruence|]; split; [exact L|]; split; [reflexivity|]); intros _ s' H; [discriminate|injection H as <-; reflexivity].
  - destruct HR as (ops & F & E & L). cbn [fst] in E. exists ops. split; [exact F|]. destruct g; cbn; (split; [exact E|]; split; [exact L|]; split; [reflexivity|]; discriminate).
Qed.
Lemma loop_ops num g li st : forall fuel (s : lst) o, loop fuel num g li st s = Some o ->
  exists ops, Forall is_solve ops /\ lu_of (NL_model.l_z (NL_proofs.stopped o)) = run (lu_of (NL_model.l_z s)) ops /\
    length ops + (if li then 2 else 1) * NL_model.l_solves s <= (if li then 2 else 1) * NL_model.l_solves (NL_proofs.stopped o) /\
    (li = true -> length ops <= 2 * (num - NL_model.l_it s)).
Proof.
  induction fuel as [|k IH]; intros s o H; cbn [NL_model.loop] in H.
  - destruct (Nat.ltb_spec (NL_model.l_it s) num); [discriminate|]. injection H as <-. exists []. cbn. repeat split; auto; destruct li; lia.
  - destruct (Nat.ltb_spec (NL_model.l_it s) num) as [Hlt|Hge].
    2:{ injection H as <-. exists []. cbn. repeat split; auto; destruct li; lia. }
    destruct (body_ops g li st s) as (ops & F & E & L & Sv & It). destruct (body g li st s) as [s'|o'].
    + destruct (IH s' o H) as (ops' & F' & E' & L' & It'). cbn [ctl_state] in *. exists (ops ++ ops'). split; [now apply Forall_app|].
      split; [unfold run in *; rewrite fold_left_app; congruence|]. rewrite app_length. split; [destruct li; lia|].
      intros ->. specialize (It eq_refl s' eq_refl). specialize (It' eq_refl). lia.
    + cbn [ctl_state] in *. assert (EO : NL_model.l_z (NL_proofs.stopped o) = NL_model.l_z (NL_proofs.stopped o') /\ NL_model.l_solves (NL_proofs.stopped o) = NL_model.l_solves (NL_proofs.stopped o')).
      { destruct o'; injection H as <-; split; reflexivity. }
      destruct EO as [-> ->]. exists ops. split; [exact F|]. split; [exact E|]. split; [destruct li; lia|intros ->; lia].
Qed.
Lemma loop_ops_bound num g li st z x fuel o : 3 * num <= fuel -> loop fuel num g li st (NL_model.loop_init z x (NL_model.init_info errf x)) = Some o ->
  exists ops, Forall is_solve ops /\ lu_of (NL_model.l_z (NL_proofs.stopped o)) = run (lu_of z) ops /\ length ops <= num * 3.
Proof.
  intros Hf H. destruct (loop_ops num g li st fuel _ o H) as (ops & F & E & L & It). exists ops. split; [exact F|]. split; [exact E|].
  cbn [NL_model.loop_init NL_model.l_solves NL_model.l_it] in *. destruct li; [specialize (It eq_refl); lia|].
  destruct (NL_props.C15_loop_terminates n errf retr compute_delta gn_solve complete scale abs_tol rel_tol num g false st z x) as (o' & H' & B & _).
  rewrite (H' fuel Hf) in H. injection H as ->. lia.
Qed.

(** With the number of contexts chosen by the optimizer's reset, after the loop with gradients every
    solve of that loop can be differentiated; [s]: any earlier history of the solver, [z]: the state at
    the start of the loop, reached from the reset by solves without gradients (the implicit and
    truncated modes; none in the unroll mode). *)
Theorem C25_optimize_backward_works : forall s bnum batch before z x fuel g li st o, reachable s ->
  Forall is_solve before -> lu_of z = run (nlls_reset None bnum batch s) before -> 3 * bnum <= fuel ->
  loop fuel bnum g li st (NL_model.loop_init z x (NL_model.init_info errf x)) = Some o ->
  let final := lu_of (NL_model.l_z (NL_proofs.stopped o)) in
  forall i, length (tape (lu_of z)) <= i < length (tape final) -> backward final i = BUse (Some i).
Proof.
  intros s bnum batch before z x fuel g li st o HR HB Hz Hf H final i Hi.
  destruct (loop_ops_bound bnum g li st z x fuel o Hf H) as (ops & F & E & L). unfold final in *. rewrite E in *.
  assert (HR0 : reachable (nlls_reset None bnum batch s)) by (apply (reachable_step s (OReset batch (Some (bnum * 3)))); exact HR).
  assert (HK0 : snd (rctx (nlls_reset None bnum batch s)) = Some (bnum * 3)).
  { unfold nlls_reset. destruct (reset_K batch (bnum * 3) s) as (b' & ->). reflexivity. }
  assert (HK : forall l t, Forall is_solve l -> snd (rctx t) = Some (bnum * 3) -> snd (rctx (run t l)) = Some (bnum * 3)).
  { induction l as [|[|ob ab ok] l IH]; intros t HF Ht; inversion HF as [|? ? Ho Ht']; [exact Ht|destruct Ho|].
    apply (IH (step t (OSolve ob ab ok)) Ht'). now apply solve_keeps_K. }
  apply (at_most_K_solves ops (lu_of z) (bnum * 3)); auto; rewrite Hz; [now apply reachable_run|now apply HK].
Qed.
(** Both loops of the implicit and truncated modes. *)
Theorem C25_two_loops_backward_works : forall s bnum nnum batch z0 x0 g li st o1 o2, reachable s ->
  lu_of z0 = nlls_reset None bnum batch s ->
  loop (3 * nnum) nnum false false st (NL_model.loop_init z0 x0 (NL_model.init_info errf x0)) = Some o1 ->
  let z1 := NL_model.l_z (NL_proofs.stopped o1) in let x1 := NL_model.l_x (NL_proofs.stopped o1) in
  loop (3 * bnum) bnum g li st (NL_model.loop_init z1 x1 (NL_model.init_info errf x1)) = Some o2 ->
  let final := lu_of (NL_model.l_z (NL_proofs.stopped o2)) in
  forall i, length (tape (lu_of z1)) <= i < length (tape final) -> backward final i = BUse (Some i).
Proof.
  intros s bnum nnum batch z0 x0 g li st o1 o2 HR Hz H1 z1 x1 H2 final i Hi.
  destruct (loop_ops_bound nnum false false st z0 x0 (3 * nnum) o1 (le_n _) H1) as (before & F & E & _).
  unfold final. eapply (C25_optimize_backward_works s bnum batch before z1 x1 (3 * bnum)); eauto. unfold z1. rewrite E, Hz. reflexivity.
Qed.
End Optimize.

(** The truncated mode with backward_num_iterations = 0 chooses 0 contexts: every later solve raises. *)
Theorem C25_zero_contexts_refuted : forall s batch ob ab ok, reachable s -> snd (solve ob ab ok (nlls_reset None 0 batch s)) = Raise.
Proof.
  intros s batch ob ab ok HR. pose proof (solve_cases ob ab ok (nlls_reset None 0 batch s)) as C.
  destruct (prepared ob (nlls_reset None 0 batch s)) as [s1|] eqn:P; [|now rewrite C].
  assert (HK0 : snd (rctx (nlls_reset None 0 batch s)) = Some 0).
  { unfold nlls_reset. destruct (reset_K batch 0 s) as (b' & E). cbn in *. now rewrite E. }
  assert (HK : snd (rctx s1) = Some 0).
  { destruct (prepared_cases _ _ _ P) as [->| ->]; [exact HK0|]. destruct (reset_cases (Some ob) None (nlls_reset None 0 batch s)) as [->|(b' & k' & -> & Ek)]; [exact HK0|].
    cbn [rctx snd]. rewrite HK0 in Ek. cbn in Ek. congruence. }
  destruct C as [C|k l E Hk El|k l id E Hk El Eid|k l id E Hk El Eid]; try reflexivity. congruence.
Qed.

(** A concrete history: 2 contexts, three solves; the first solve's backward raises, the other two work. *)
Lemma C25_example : let s := run (fresh true) [OReset (Some 4) (Some 2); OSolve 4 4 true; OSolve 4 4 true; OSolve 4 4 true] in
  backward s 0 = BRaise /\ backward s 1 = BUse (Some 1) /\ backward s 2 = BUse (Some 2) /\
  (* the same after a batch size change: a new set of contexts *)
  let s' := run s [OSolve 3 3 true; OSolve 3 3 true] in backward s' 1 = BUse (Some 1) /\ backward s' 3 = BUse (Some 3).
Proof. vm_compute. repeat split. Qed.
