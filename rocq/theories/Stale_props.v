(** C13: vectorized Jacobians are never stale. *)
From Coq Require Import List Arith Bool Lia.
Import ListNotations.
From Verif Require Import Stale_model.

Section P.
Context {T R : Type}.
Variable all_vars optim : list nat.
Variable run : (nat -> T) -> option R.
Variable accepts : nat -> T -> T -> bool.
Variable resolves : (nat -> T) -> bool.
(** the cost functions read only variables registered in the objective (C01) *)
Hypothesis run_reads_registered : forall s s' : nat -> T,
  (forall n, In n all_vars -> s n = s' n) -> run s = run s'.

Notation state := (@state T R).
Notation step := (step all_vars optim run accepts resolves).
Notation run_ops := (run_ops all_vars optim run accepts resolves).
Notation query := (query all_vars run).
Notation refresh := (refresh all_vars run).
Notation counts := (@counts T R all_vars).
Notation var_updates := (@var_updates T R all_vars accepts).
Notation var_update := (@var_update T R accepts).

(** ---- specification ---- *)
(** [v[...] = x] and [to()] change tensors without counting an update *)
Definition silent (o : @op T) : bool := match o with OSetItem _ _ | OTo _ => true | _ => false end.

(** what a query returns, without the gradient flag *)
Definition jacobians_served (g : bool) (s : state) : option R := option_map fst (snd (query g s)).

(** ---- invariants ---- *)
Definition Mono (s : state) := lastc s = [] \/ Forall2 le (lastc s) (counts s).
Definition Gr (s : state) := forall r g, cache s = Some (r, g) -> last_grad s = g.
Definition Fresh (s : state) := vectorized s = true -> counts s = lastc s ->
  cache s = None \/ exists r g, cache s = Some (r, g) /\ run (tens s) = Some r.

Lemma list_eqb_spec a b : reflect (a = b) (list_eqb a b).
Proof. unfold list_eqb. destruct (list_eq_dec Nat.eq_dec a b); now constructor. Qed.

Lemma Forall2_le_refl l : Forall2 le l l.
Proof. induction l; constructor; auto. Qed.

Lemma Forall2_map_le (f g : nat -> nat) l : (forall n, f n <= g n) -> Forall2 le (map f l) (map g l).
Proof. intros H. induction l; simpl; constructor; auto. Qed.

Lemma Forall2_le_trans a b c : Forall2 le a b -> Forall2 le b c -> Forall2 le a c.
Proof.
  intros H. revert c. induction H; intros c H2; inversion H2; subst; constructor; [lia|auto].
Qed.

Lemma sum_le a b : Forall2 le a b -> list_sum a <= list_sum b.
Proof. induction 1; simpl; lia. Qed.

Lemma sum_map_lt (f g : nat -> nat) l n : (forall m, f m <= g m) -> In n l -> f n < g n ->
  list_sum (map f l) < list_sum (map g l).
Proof.
  intros H. induction l as [|a l IH]; simpl; [easy|]. intros [->|Hin] Hlt.
  - pose proof (sum_le _ _ (Forall2_map_le f g l H)). lia.
  - specialize (IH Hin Hlt). specialize (H a). lia.
Qed.

Lemma in_existsb n : existsb (Nat.eqb n) all_vars = true <-> In n all_vars.
Proof.
  rewrite existsb_exists. split; [intros (x & H & E); apply Nat.eqb_eq in E; now subst|].
  intros H. exists n. split; [exact H|apply Nat.eqb_refl].
Qed.

(** one accepted update *)
Lemma var_update_inv n t s s' : var_update n t s = Some s' ->
  vectorized s' = vectorized s /\ lastc s' = lastc s /\ last_grad s' = last_grad s /\ cache s' = cache s /\
  tens s' = supd (tens s) n t /\ cnt s' = supd (cnt s) n (S (cnt s n)).
Proof. unfold var_update. destruct (accepts n (tens s n) t); [|discriminate]. intros H. injection H as <-. repeat split. Qed.

Lemma var_update_mono n t s s' : var_update n t s = Some s' -> Forall2 le (counts s) (counts s').
Proof.
  intros H. apply var_update_inv in H as (_ & _ & _ & _ & _ & Hc). unfold counts, Stale_model.counts.
  apply Forall2_map_le. intros m. rewrite Hc. unfold supd. destruct (Nat.eqb_spec m n); subst; lia.
Qed.

Lemma var_update_bump n t s s' : In n all_vars -> var_update n t s = Some s' ->
  list_sum (counts s) < list_sum (counts s').
Proof.
  intros Hin H. apply var_update_inv in H as (_ & _ & _ & _ & _ & Hc). unfold counts, Stale_model.counts.
  apply sum_map_lt with (n := n); [|exact Hin|]; rewrite ?Hc; unfold supd.
  - intros m. destruct (Nat.eqb_spec m n); subst; lia.
  - rewrite Nat.eqb_refl. lia.
Qed.

Lemma mono_extend s s' : lastc s' = lastc s -> Forall2 le (counts s) (counts s') -> Mono s -> Mono s'.
Proof. intros Hl Hc [H|H]; [left; congruence|right; rewrite Hl; eapply Forall2_le_trans; eauto]. Qed.

(** after a counted update of a registered variable the recorded counts differ from the current ones *)
Lemma bump_differs s s' : Mono s -> lastc s' = lastc s -> list_sum (counts s) < list_sum (counts s') ->
  counts s' <> lastc s'.
Proof.
  intros HM Hl Hlt E. rewrite Hl in E. destruct HM as [H|H].
  - rewrite H in E. rewrite E in Hlt. simpl in Hlt. lia.
  - apply sum_le in H. rewrite E in Hlt. lia.
Qed.

Definition Inv (s : state) := Mono s /\ Gr s.

Lemma var_update_Inv n t s s' : var_update n t s = Some s' -> Inv s -> Inv s'.
Proof.
  intros H [HM HG]. pose proof (var_update_mono _ _ _ _ H) as Hm.
  apply var_update_inv in H as (_ & Hl & Hg & Hc & _ & _). split.
  - eapply mono_extend; eauto.
  - intros r g. rewrite Hc, Hg. apply HG.
Qed.

Lemma var_update_Fresh n t s s' : var_update n t s = Some s' -> Mono s -> Fresh s -> Fresh s'.
Proof.
  intros H HM HF. pose proof H as H0. apply var_update_inv in H as (Hv & Hl & _ & Hc & Ht & Hn).
  intros Ev Ec. destruct (in_dec Nat.eq_dec n all_vars) as [Hin|Hout].
  - exfalso. apply (bump_differs s s' HM Hl); [|exact Ec]. eapply var_update_bump; eauto.
  - rewrite Hc. assert (Ecs : counts s' = counts s).
    { unfold counts, Stale_model.counts. apply map_ext_in. intros m Hm. rewrite Hn. unfold supd.
      destruct (Nat.eqb_spec m n); [subst; contradiction|reflexivity]. }
    destruct HF as [HF|(r & g & A & B)]; [congruence|congruence|now left|]. right. exists r, g.
    split; [exact A|]. rewrite <- B. apply run_reads_registered. intros m Hm. rewrite Ht. unfold supd.
    destruct (Nat.eqb_spec m n); [subst; contradiction|reflexivity].
Qed.

Lemma var_updates_Inv kvs : forall s, Inv s -> Inv (fst (var_updates kvs s)).
Proof.
  induction kvs as [|[n f] kvs IH]; intros s HI; simpl; [exact HI|].
  destruct (existsb (Nat.eqb n) all_vars); [|auto].
  destruct (Stale_model.var_update accepts n (f (tens s n)) s) as [s'|] eqn:Eu; [|exact HI].
  apply IH. eapply var_update_Inv; eauto.
Qed.

Lemma var_updates_Fresh kvs : forall s, Inv s -> Fresh s -> Fresh (fst (var_updates kvs s)).
Proof.
  induction kvs as [|[n f] kvs IH]; intros s HI HF; simpl; [exact HF|].
  destruct (existsb (Nat.eqb n) all_vars); [|auto].
  destruct (Stale_model.var_update accepts n (f (tens s n)) s) as [s'|] eqn:Eu; [|exact HF].
  apply IH; [eapply var_update_Inv; eauto|]. destruct HI. eapply var_update_Fresh; eauto.
Qed.

Lemma var_updates_same kvs : forall s,
  lastc (fst (var_updates kvs s)) = lastc s /\ vectorized (fst (var_updates kvs s)) = vectorized s /\
  Forall2 le (counts s) (counts (fst (var_updates kvs s))).
Proof.
  induction kvs as [|[n f] kvs IH]; intros s; simpl; [repeat split; apply Forall2_le_refl|].
  destruct (existsb (Nat.eqb n) all_vars); [|auto].
  destruct (Stale_model.var_update accepts n (f (tens s n)) s) as [s'|] eqn:Eu; [|repeat split; apply Forall2_le_refl].
  destruct (IH s') as (A & B & C). pose proof (var_update_mono _ _ _ _ Eu) as Hm.
  apply var_update_inv in Eu as (D & F & _). repeat split; [congruence|congruence|].
  eapply Forall2_le_trans; eauto.
Qed.

Lemma var_updates_bump kvs : forall s n f, In n all_vars -> In (n, f) kvs -> snd (var_updates kvs s) = true ->
  list_sum (counts s) < list_sum (counts (fst (var_updates kvs s))).
Proof.
  induction kvs as [|[m h] kvs IH]; intros s n f Hn Hin; simpl; [easy|].
  destruct Hin as [E|Hin].
  - injection E as -> ->. apply in_existsb in Hn as Hn'. rewrite Hn'.
    destruct (Stale_model.var_update accepts n (f (tens s n)) s) as [s'|] eqn:Eu; [|discriminate].
    intros _. destruct (var_updates_same kvs s') as (_ & _ & C).
    apply sum_le in C. pose proof (var_update_bump _ _ _ _ Hn Eu). lia.
  - destruct (existsb (Nat.eqb m) all_vars).
    + destruct (Stale_model.var_update accepts m (h (tens s m)) s) as [s'|] eqn:Eu; [|discriminate].
      intros Hok. pose proof (sum_le _ _ (var_update_mono _ _ _ _ Eu)). specialize (IH s' n f Hn Hin Hok). lia.
    + intros Hok. exact (IH s n f Hn Hin Hok).
Qed.

Lemma refresh_spec g s : let s' := fst (refresh g s) in
  tens s' = tens s /\ cnt s' = cnt s /\ vectorized s' = vectorized s /\
  (Inv s -> Inv s') /\ (Fresh s -> snd (refresh g s) = true -> Fresh s') /\
  (vectorized s = true -> counts s <> lastc s -> snd (refresh g s) = true -> Fresh s').
Proof.
  unfold refresh, Stale_model.refresh. destruct (vectorized s) eqn:Ev; [|simpl; intuition congruence].
  unfold needs_update. destruct (list_eqb_spec (Stale_model.counts all_vars s) (lastc s)) as [Ec|Ec]; cbn [negb orb].
  - destruct (g && negb (last_grad s)) eqn:Eg.
    + destruct (run (tens s)) as [r|] eqn:Er; cbv zeta; cbn [fst snd tens cnt vectorized];
        refine (conj eq_refl (conj eq_refl (conj Ev (conj _ (conj _ _))))).
      * intros [HM HG]. split; [exact HM|]. intros r0 g0. simpl. congruence.
      * intros _ _ _ _. right. exists r, g. split; [reflexivity|exact Er].
      * intros _ H. contradiction.
      * auto.
      * discriminate.
      * discriminate.
    + cbv zeta; cbn [fst snd]; refine (conj eq_refl (conj eq_refl (conj Ev (conj _ (conj _ _))))); auto.
      intros _ H. contradiction.
  - cbn [tens cnt vectorized]. destruct (run (tens s)) as [r|] eqn:Er; cbv zeta; cbn [fst snd tens cnt vectorized];
        refine (conj eq_refl (conj eq_refl (conj Ev (conj _ (conj _ _))))).
    + intros _. split; [right; simpl; apply Forall2_le_refl|]. intros r0 g0. simpl. congruence.
    + intros _ _ _ _. right. exists r, g. split; [reflexivity|exact Er].
    + intros _ _ _ _ _. right. exists r, g. split; [reflexivity|exact Er].
    + intros [_ HG]. split; [right; simpl; apply Forall2_le_refl|]. exact HG.
    + discriminate.
    + discriminate.
Qed.

Lemma obj_update_spec kvs vec g s : let x := obj_update all_vars run accepts resolves kvs vec g s in
  (Inv s -> Inv (fst x)) /\ (Inv s -> Fresh s -> snd x = true -> Fresh (fst x)).
Proof.
  unfold obj_update.
  pose proof (var_updates_Inv kvs s) as HI. pose proof (var_updates_Fresh kvs s) as HF.
  destruct (Stale_model.var_updates all_vars accepts kvs s) as [s1 ok]. cbn [fst snd] in *.
  destruct ok; [|cbn [fst snd]; split; [auto|discriminate]].
  destruct (resolves (tens s1)); [|cbn [fst snd]; split; [auto|discriminate]].
  destruct vec; [|cbn [fst snd]; auto].
  destruct (refresh_spec g s1) as (_ & _ & _ & A & B & _). split; auto.
Qed.

Lemma step_Inv o s : Inv s -> Inv (fst (step o s)).
Proof.
  intros HI. destruct o as [n f|kvs g|kvs also g|kvs g|g| | |n f|f]; simpl.
  - destruct (Stale_model.var_update accepts n (f (tens s n)) s) as [s'|] eqn:Eu; [|exact HI].
    eapply var_update_Inv; eauto.
  - now apply obj_update_spec.
  - unfold obj_error. pose proof (proj1 (obj_update_spec kvs also g s) HI) as H1.
    destruct (obj_update all_vars run accepts resolves kvs also g s) as [s1 [|]]; [|exact H1].
    destruct (run (tens s1)); [|exact H1]. destruct also; [exact H1|].
    now apply (obj_update_spec _ false g s1).
  - pose proof (var_updates_Inv kvs s HI) as H1.
    destruct (Stale_model.var_updates all_vars accepts kvs s) as [s1 [|]]; [|exact H1].
    now apply (refresh_spec g s1).
  - unfold query, Stale_model.query. pose proof (refresh_spec g s) as (_ & _ & _ & A & _).
    destruct (Stale_model.refresh all_vars run g s) as [s1 ok]. simpl. auto.
  - destruct HI as [[H|H] _]; split; [left|intros ? ?; discriminate|right|intros ? ?; discriminate]; exact H.
  - destruct HI as [[H|H] _]; split; [left|intros ? ?; discriminate|right|intros ? ?; discriminate]; exact H.
  - exact HI.
  - exact HI.
Qed.

Lemma step_Fresh o s : silent o = false -> Inv s -> Fresh s -> snd (step o s) = true -> Fresh (fst (step o s)).
Proof.
  intros Hs HI HF. destruct o as [n f|kvs g|kvs also g|kvs g|g| | |n f|f]; simpl; try discriminate.
  - destruct (Stale_model.var_update accepts n (f (tens s n)) s) as [s'|] eqn:Eu; [|discriminate].
    intros _. destruct HI. eapply var_update_Fresh; eauto.
  - intros Hok. now apply obj_update_spec.
  - unfold obj_error. pose proof (obj_update_spec kvs also g s) as [H0 H1]. specialize (H0 HI). specialize (H1 HI HF).
    destruct (obj_update all_vars run accepts resolves kvs also g s) as [s1 [|]]; [|discriminate].
    destruct (run (tens s1)); [|discriminate]. destruct also; [auto|].
    apply (obj_update_spec _ false g s1); auto.
  - pose proof (var_updates_Inv kvs s HI) as H1. pose proof (var_updates_Fresh kvs s HI HF) as H2.
    destruct (Stale_model.var_updates all_vars accepts kvs s) as [s1 [|]]; [|discriminate].
    intros Hok. destruct (refresh_spec g s1) as (_ & _ & _ & _ & HH & _). now apply HH.
  - unfold query, Stale_model.query. pose proof (refresh_spec g s) as (_ & _ & _ & _ & A & _).
    destruct (Stale_model.refresh all_vars run g s) as [s1 [|]]; simpl; [|discriminate]. intros _. auto.
  - intros _ _ _. now left.
Qed.

Lemma run_ops_Inv ops : forall s, Inv s -> Inv (fst (run_ops ops s)).
Proof.
  induction ops as [|o ops IH]; intros s HI; simpl; [exact HI|].
  pose proof (step_Inv o s HI) as H. destruct (Stale_model.step all_vars optim run accepts resolves o s) as [s1 ok].
  specialize (IH s1 H). destruct (Stale_model.run_ops all_vars optim run accepts resolves ops s1). exact IH.
Qed.

Lemma run_ops_Fresh ops : forall s, Inv s -> Fresh s -> (forall o, In o ops -> silent o = false) ->
  snd (run_ops ops s) = true -> Fresh (fst (run_ops ops s)).
Proof.
  induction ops as [|o ops IH]; intros s HI HF Hs; simpl; [auto|].
  pose proof (step_Inv o s HI) as H. pose proof (step_Fresh o s (Hs o (or_introl eq_refl)) HI HF) as H1.
  destruct (Stale_model.step all_vars optim run accepts resolves o s) as [s1 ok]. cbn [fst snd] in *.
  specialize (IH s1 H). destruct (Stale_model.run_ops all_vars optim run accepts resolves ops s1) as [s2 ok2].
  cbn [fst snd] in *. intros Hok. apply andb_true_iff in Hok as [-> ->]. apply IH; auto. intros o2 Ho2. apply Hs. now right.
Qed.

Lemma init_Inv t : Inv (init t).
Proof. split; [now left|intros r g; discriminate]. Qed.
Lemma init_Fresh t : Fresh (init t).
Proof. intros H. discriminate H. Qed.

Lemma fresh_query g s : Inv s -> Fresh s -> jacobians_served g s = run (tens s).
Proof.
  intros HI HF. unfold jacobians_served, query, Stale_model.query.
  unfold refresh, Stale_model.refresh. destruct (vectorized s) eqn:Ev.
  2:{ simpl. unfold served. rewrite Ev. destruct (run (tens s)); reflexivity. }
  unfold needs_update. destruct (list_eqb_spec (Stale_model.counts all_vars s) (lastc s)) as [Ec|Ec]; cbn [negb orb].
  - destruct (g && negb (last_grad s)) eqn:Eg.
    + destruct (run (tens s)) as [r|] eqn:Er; [|reflexivity]. simpl. unfold served. simpl. now rewrite Ev.
    + simpl. unfold served. rewrite Ev. destruct (HF Ev Ec) as [->|(r & g' & -> & Hr)].
      * destruct (run (tens s)); reflexivity.
      * simpl. now rewrite Hr.
  - cbn [tens]. destruct (run (tens s)) as [r|] eqn:Er; [|reflexivity]. simpl. unfold served. simpl. now rewrite Ev.
Qed.

(** C13, part 1. After every history of calls none of which raises and none of which is an item
    assignment or to(), reading the Jacobians gives what evaluating the cost functions on the current
    tensors gives (vectorization on or off), and changes no tensor. Missing: silent changes and
    raising calls, refuted below. *)
Theorem C13_never_stale_partial : forall t ops s g,
  run_ops ops (init t) = (s, true) -> (forall o, In o ops -> silent o = false) ->
  jacobians_served g s = run (tens s) /\ tens (fst (query g s)) = tens s.
Proof.
  intros t ops s g Hr Hs. split.
  - apply fresh_query.
    + pose proof (run_ops_Inv ops (init t) (init_Inv t)) as H. now rewrite Hr in H.
    + pose proof (run_ops_Fresh ops (init t) (init_Inv t) (init_Fresh t) Hs) as H. rewrite Hr in H. now apply H.
  - unfold query, Stale_model.query. pose proof (refresh_spec g s) as (A & _).
    destruct (Stale_model.refresh all_vars run g s). exact A.
Qed.

(** C13, part 2. After ANY history (silent changes, raising calls), an Objective.update() that names at
    least one registered variable and returns makes everything fresh again, and it stays so as long
    as no later call is silent or raises. *)
Theorem C13_update_makes_fresh : forall t ops1 kvs g0 n f ops2 s1 s2 s3 ok g,
  run_ops ops1 (init t) = (s1, ok) ->
  In n all_vars -> In (n, f) kvs -> step (OUpdate kvs g0) s1 = (s2, true) ->
  run_ops ops2 s2 = (s3, true) -> (forall o, In o ops2 -> silent o = false) ->
  jacobians_served g s3 = run (tens s3).
Proof.
  intros t ops1 kvs g0 n f ops2 s1 s2 s3 ok g H1 Hn Hin H2 H3 Hs.
  assert (I1 : Inv s1). { pose proof (run_ops_Inv ops1 (init t) (init_Inv t)) as H. now rewrite H1 in H. }
  assert (I2 : Inv s2). { pose proof (step_Inv (OUpdate kvs g0) s1 I1) as H. now rewrite H2 in H. }
  assert (F2 : Fresh s2).
  { simpl in H2. unfold obj_update in H2.
    pose proof (var_updates_bump kvs s1 n f Hn Hin) as Hb.
    pose proof (var_updates_same kvs s1) as (A & B & _).
    destruct (Stale_model.var_updates all_vars accepts kvs s1) as [s' [|]]; [|discriminate].
    destruct (resolves (tens s')); [|discriminate]. cbn [fst snd] in *.
    pose proof (refresh_spec g0 s') as (_ & _ & Hv & _ & _ & Hf). rewrite H2 in Hv, Hf. cbn [fst snd] in *.
    destruct (vectorized s') eqn:Ev.
    - apply Hf; [reflexivity| |reflexivity]. destruct I1 as [HM _].
      apply (bump_differs s1 s' HM A). now apply Hb.
    - intros H. congruence. }
  apply fresh_query.
  - pose proof (run_ops_Inv ops2 s2 I2) as H. now rewrite H3 in H.
  - pose proof (run_ops_Fresh ops2 s2 I2 F2 Hs) as H. rewrite H3 in H. now apply H.
Qed.

(** C13, part 3. After ANY history, Jacobians read with gradients enabled were computed with gradients
    enabled (no detached cache from a no_grad block is served). *)
Theorem C13_gradients_kept : forall t ops s ok r g,
  run_ops ops (init t) = (s, ok) -> snd (query true s) = Some (r, g) -> g = true.
Proof.
  intros t ops s ok r g Hr.
  assert (I : Inv s). { pose proof (run_ops_Inv ops (init t) (init_Inv t)) as H. now rewrite Hr in H. }
  unfold query, Stale_model.query, Stale_model.refresh.
  destruct (vectorized s) eqn:Ev.
  2:{ simpl. unfold served. rewrite Ev. destruct (run (tens s)); [|discriminate]. congruence. }
  unfold needs_update. destruct (list_eqb_spec (Stale_model.counts all_vars s) (lastc s)) as [Ec|Ec]; cbn [negb orb andb].
  - destruct (last_grad s) eqn:El; cbn [negb].
    + simpl. unfold served. rewrite Ev. destruct (cache s) as [[r0 g0]|] eqn:Ca.
      * intros H. injection H as -> ->. destruct I as [_ HG]. rewrite (HG _ _ Ca) in El. exact El.
      * destruct (run (tens s)); [|discriminate]. congruence.
    + destruct (run (tens s)) as [x|] eqn:Er; [|discriminate]. simpl. unfold served. simpl. rewrite Ev. congruence.
  - cbn [tens]. destruct (run (tens s)) as [x|] eqn:Er; [|discriminate]. simpl. unfold served. simpl. rewrite Ev. congruence.
Qed.
End P.

(** ---- witnesses: one variable, tensors are numbers, one cost function returning its square, which
    raises on 5 ---- *)
Definition w_run (s : nat -> nat) : option nat := if s 0 =? 5 then None else Some (s 0 * s 0).
Definition w_ops := run_ops [0] [0] w_run (fun _ _ _ => true) (fun _ => true).
Definition w_served := jacobians_served [0] w_run.

Lemma w_reads : forall s s' : nat -> nat, (forall n, In n [0] -> s n = s' n) -> w_run s = w_run s'.
Proof. intros s s' H. unfold w_run. now rewrite (H 0 (or_introl eq_refl)). Qed.

Example C13_nonvacuous :
  let ops := [OEnable; OQuery false; OUpdate [(0, fun _ => 3)] false; OError [(0, fun _ => 7)] false true; OQuery true;
              ORetract [(0, fun x => x + 1)] true] in
  snd (w_ops ops (init (fun _ => 1))) = true /\ (forall o, In o ops -> silent o = false) /\
  w_served true (fst (w_ops ops (init (fun _ => 1)))) = Some 16.
Proof.
  split; [reflexivity|]. split; [|reflexivity].
  simpl. intuition (subst; reflexivity).
Qed.

(** item assignment: the served Jacobians are those of the old tensor *)
Theorem C13_item_assignment_refuted : exists ops s, w_ops ops (init (fun _ => 1)) = (s, true) /\
  ops = [OEnable; OQuery false; OSetItem 0 (fun _ => 3)] /\
  w_served false s = Some 1 /\ w_run (tens s) = Some 9.
Proof. eexists; eexists. repeat split; reflexivity. Qed.

(** to(): the served Jacobians keep the old dtype (tensor values stand for dtype here) *)
Theorem C13_to_refuted : exists ops s, w_ops ops (init (fun _ => 1)) = (s, true) /\
  ops = [OEnable; OQuery false; OTo (fun x => x + 1)] /\
  w_served false s = Some 1 /\ w_run (tens s) = Some 4.
Proof. eexists; eexists. repeat split; reflexivity. Qed.

(** a vectorization run that raises (a cost function raises, or memory runs out) marks the cache as
    up to date: after the caller caught the exception, the Jacobians of the old tensors are served *)
Theorem C13_raising_run_refuted : exists ops s ok, w_ops ops (init (fun _ => 1)) = (s, ok) /\
  ops = [OEnable; OQuery false; OUpdate [(0, fun _ => 5)] false] /\
  w_served false s = Some 1 /\ w_run (tens s) = None.
Proof. eexists; eexists; eexists. repeat split; reflexivity. Qed.
