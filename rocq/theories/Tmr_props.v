From Coq Require Import ZArith List Bool String Lia.
Import ListNotations.
From Verif Require Import Tmr_model Tmr_spec.
Open Scope Z_scope.

Definition keys (s : list (string * list Z)) := map fst s.
Lemma append_of s k v k' : stats_of (stats_append s k v) k' = if String.eqb k' k then (stats_of s k' ++ [v])%list else stats_of s k'.
Proof.
  induction s as [|[k1 l] s IH]; cbn [stats_append stats_of].
  - destruct (String.eqb_spec k' k); reflexivity.
  - destruct (String.eqb_spec k k1) as [->|N]; cbn [stats_of].
    + destruct (String.eqb_spec k' k1); reflexivity.
    + rewrite IH. destruct (String.eqb_spec k' k1) as [->|N']; [|reflexivity].
      destruct (String.eqb_spec k1 k); [congruence|reflexivity].
Qed.
Lemma append_keys s k v k' : In k' (keys (stats_append s k v)) <-> k' = k \/ In k' (keys s).
Proof.
  induction s as [|[k1 l] s IH]; cbn [stats_append keys map fst In]; [intuition|].
  destruct (String.eqb_spec k k1) as [->|N]; cbn [map fst In]; [intuition|].
  change (map fst (stats_append s k v)) with (keys (stats_append s k v)). rewrite IH. intuition.
Qed.
Lemma append_nodup s k v : NoDup (keys s) -> NoDup (keys (stats_append s k v)).
Proof.
  induction s as [|[k1 l] s IH]; cbn [stats_append keys map fst]; intro H; [repeat constructor; intros []|].
  destruct (String.eqb_spec k k1) as [->|N]; cbn [map fst]; [exact H|]. inversion H; subst.
  constructor; [|apply IH; assumption]. intro K. apply append_keys in K. destruct K; [congruence|contradiction].
Qed.

(** the state the timer is in after a sequence of measurements *)
Definition after (l : list (option string * Z)) (s : list (string * list Z)) :=
  fold_left (fun s p => match fst p with Some c => stats_append s c (snd p) | None => s end) l s.
Lemma run_regions : forall rs t, t_deact t = false ->
  exists t', timer_run (flat_map calls_of rs) t = Some t' /\ t_deact t' = false
    /\ t_stats t' = after (measured (t_active t) rs) (t_stats t)
    /\ t_elapsed t' = last (map snd (measured (t_active t) rs)) (t_elapsed t).
Proof.
  assert (L : forall (x d : Z) l, last (x :: l) d = last l x).
  { intros x d l. revert x d. induction l as [|y l IH]; intros x d; [reflexivity|]. change (last (x :: y :: l) d) with (last (y :: l) d). rewrite !IH. reflexivity. }
  induction rs as [|r rs IH]; intros t D.
  - exists t. auto.
  - destruct t as [a e s c dd st]. cbn in D. subst dd.
    destruct r as [k d t0 t1|k d t0 t1|k t0|b]; cbn [flat_map calls_of app timer_run timer_step measured t_active].
    + destruct a, d; cbn.
      * destruct (IH (mkTimer true e s k false st) eq_refl) as (t' & K). exists t'. exact K.
      * destruct (IH (mkTimer true (t1 - t0) (match k with Some c => stats_append s c (t1 - t0) | None => s end) k false (Some t0)) eq_refl) as (t' & K1 & K2 & K3 & K4).
        exists t'. split; [exact K1|]. split; [exact K2|]. cbn in K3, K4. split; [rewrite K3; destruct k; reflexivity|]. rewrite K4. symmetry. apply L.
      * destruct (IH (mkTimer false e s k false st) eq_refl) as (t' & K). exists t'. exact K.
      * destruct (IH (mkTimer false e s k false st) eq_refl) as (t' & K). exists t'. exact K.
    + destruct a, d; cbn.
      * destruct (IH (mkTimer true e s c false st) eq_refl) as (t' & K). exists t'. exact K.
      * destruct (IH (mkTimer true (t1 - t0) (match k with Some c => stats_append s c (t1 - t0) | None => s end) k false (Some t0)) eq_refl) as (t' & K1 & K2 & K3 & K4).
        exists t'. split; [exact K1|]. split; [exact K2|]. cbn in K3, K4. split; [rewrite K3; destruct k; reflexivity|]. rewrite K4. symmetry. apply L.
      * destruct (IH (mkTimer false e s c false st) eq_refl) as (t' & K). exists t'. exact K.
      * destruct (IH (mkTimer false e s c false st) eq_refl) as (t' & K). exists t'. exact K.
    + destruct a; cbn.
      * destruct (IH (mkTimer true e s k false (Some t0)) eq_refl) as (t' & K). exists t'. exact K.
      * destruct (IH (mkTimer false e s c false st) eq_refl) as (t' & K). exists t'. exact K.
    + destruct (IH (mkTimer b e s c false st) eq_refl) as (t' & K). exists t'. exact K.
Qed.
Lemma after_of : forall l s k, stats_of (after l s) k = (stats_of s k ++ durations_for k l)%list.
Proof.
  induction l as [|[c v] l IH]; intros s k; unfold after, durations_for; cbn [fold_left filter fst snd map]; [now rewrite app_nil_r|].
  change (fold_left _ l ?x) with (after l x). rewrite IH. unfold durations_for. destruct c as [c|]; [|reflexivity].
  rewrite append_of. destruct (String.eqb k c); [|reflexivity]. cbn [map snd]. now rewrite <- app_assoc.
Qed.
Lemma after_keys : forall l s, NoDup (keys s) -> NoDup (keys (after l s)) /\
  forall k, In k (keys (after l s)) <-> In k (keys s) \/ durations_for k l <> [].
Proof.
  induction l as [|[c v] l IH]; intros s N; unfold after, durations_for; cbn [fold_left filter fst snd map].
  - split; [exact N|]. intro k. split; [auto|]. intros [H|H]; [exact H|now contradiction H].
  - change (fold_left _ l ?x) with (after l x). destruct c as [c|].
    + destruct (IH _ (append_nodup s c v N)) as [A B]. split; [exact A|]. intro k. rewrite B, append_keys. unfold durations_for.
      destruct (String.eqb_spec k c) as [->|D]; cbn [map]; [split; intros _; [right; discriminate|left; left; reflexivity]|tauto].
    + apply (IH s N).
Qed.

(** Regions one after the other: [stats()[k]] is the list of the durations measured under the name [k], in
    order; there is a key for exactly the names measured, once; [elapsed_time] is the last measurement;
    nothing raises. For every program and every clock. *)
Theorem C91_sequential : forall active rs, exists t,
  timer_run (flat_map calls_of rs) (timer_init active) = Some t /\
  (forall k, stats_of (t_stats t) k = durations_for k (measured active rs)) /\
  NoDup (map fst (t_stats t)) /\
  (forall k, In k (map fst (t_stats t)) <-> durations_for k (measured active rs) <> []) /\
  t_elapsed t = last (map snd (measured active rs)) 0.
Proof.
  intros a rs. destruct (run_regions rs (timer_init a) eq_refl) as (t & A & _ & B & C). cbn [timer_init t_active t_stats t_elapsed] in B, C.
  exists t. split; [exact A|]. destruct (after_keys (measured a rs) [] (NoDup_nil _)) as [N K]. rewrite B.
  split; [intro k; rewrite after_of; reflexivity|]. split; [exact N|]. split; [|exact C].
  intro k. rewrite (K k). cbn [keys map In]. tauto.
Qed.
(** An inactive timer records nothing, whatever calls are made, nested or not, in any order. *)
Theorem C91_inactive : forall cs, Forall (fun c => c <> SetActive true) cs ->
  exists t, timer_run cs (timer_init false) = Some t /\ t_stats t = [] /\ t_elapsed t = 0.
Proof.
  intros cs H. assert (G : forall t, t_active t = false -> exists t', timer_run cs t = Some t' /\ t_stats t' = t_stats t /\ t_elapsed t' = t_elapsed t).
  { induction cs as [|c cs IH]; intros t A; [exists t; auto|]. pose proof (Forall_inv H) as Hc. specialize (IH (Forall_inv_tail H)).
    destruct t as [a e s k d st]. cbn in A. subst a. destruct c as [c' d' n|n|c' d'|n|n|b]; cbn.
    6: { destruct b; [congruence|]. exact (IH (mkTimer false e s k d st) eq_refl). }
    - exact (IH (mkTimer false e s k d' st) eq_refl).
    - exact (IH (mkTimer false e s k false st) eq_refl).
    - exact (IH (mkTimer false e s c' d' st) eq_refl).
    - exact (IH (mkTimer false e s k d st) eq_refl).
    - exact (IH (mkTimer false e s k false st) eq_refl). }
  exact (G (timer_init false) eq_refl).
Qed.
(** A deactivated start/end pair may be nested in a measured region without disturbing it. *)
Theorem C91_nested_deactivated : forall t k c t0 t1 t2 t3, t_active t = true -> t_deact t = false ->
  exists t', timer_run [Call (Some k) false; Enter t0; Start c true t1; End t2; Exit t3] t = Some t' /\
    t_stats t' = stats_append (t_stats t) k (t3 - t0) /\ t_elapsed t' = t3 - t0 /\ t_deact t' = false.
Proof. intros [a e s c0 d st] k c t0 t1 t2 t3 A D. cbn in A, D. subst a d. eexists. cbn. repeat split. Qed.

(** Refuted: nested measured regions. The outer one is lost, and the inner name gets a second entry that
    runs from the inner start to the outer end; for every clock and every pair of names. *)
Theorem C91_nested_refuted : forall a b t0 t1 t2 t3, a <> b -> exists t,
  timer_run [Call (Some a) false; Enter t0; Call (Some b) false; Enter t1; Exit t2; Exit t3] (timer_init true) = Some t /\
  stats_of (t_stats t) a = [] /\ stats_of (t_stats t) b = [t2 - t1; t3 - t1] /\ t_elapsed t = t3 - t1.
Proof.
  intros a b t0 t1 t2 t3 N. eexists. split; [cbn; rewrite String.eqb_refl; reflexivity|]. cbn. rewrite String.eqb_refl.
  destruct (String.eqb_spec a b); [congruence|]. auto.
Qed.
(** Refuted: a nested block with [deactivate=True] renames the region around it. *)
Theorem C91_nested_block_deactivated_refuted : forall a b t0 t1 t2 t3, a <> b -> exists t,
  timer_run [Call (Some a) false; Enter t0; Call (Some b) true; Enter t1; Exit t2; Exit t3] (timer_init true) = Some t /\
  stats_of (t_stats t) a = [] /\ stats_of (t_stats t) b = [t3 - t0].
Proof.
  intros a b t0 t1 t2 t3 N. eexists. split; [cbn; reflexivity|]. cbn. rewrite String.eqb_refl.
  destruct (String.eqb_spec a b); [congruence|]. auto.
Qed.
(** Refuted: a deactivated start that is never ended drops the next start/end measurement, because
    [start] does not clear the flag; the timer is active and the dropped pair was not deactivated. *)
Theorem C91_unfinished_deactivated_refuted : forall c k t0 t1 t2, exists t,
  timer_run [Start c true t0; Start (Some k) false t1; End t2] (timer_init true) = Some t /\ t_stats t = [] /\ t_elapsed t = 0.
Proof. intros. eexists. cbn. auto. Qed.
(** Refuted: [with timer:] after a named region is recorded again under that name. *)
Theorem C91_bare_reuses_name_refuted : forall k t0 t1 t2 t3, exists t,
  timer_run [Call (Some k) false; Enter t0; Exit t1; Enter t2; Exit t3] (timer_init true) = Some t /\
  stats_of (t_stats t) k = [t1 - t0; t3 - t2].
Proof. intros. eexists. split; [cbn; rewrite String.eqb_refl; reflexivity|]. cbn. rewrite String.eqb_refl. reflexivity. Qed.
(** Refuted: activating the timer inside a region. The first time it raises at the end of the region;
    later it records the time since the start of an earlier region. *)
Theorem C91_activate_inside_refuted : forall k k' t0 t1 t2 t3,
  timer_run [Call (Some k) false; Enter t0; SetActive true; Exit t1] (timer_init false) = None /\
  (k <> k' -> exists t, timer_run [Call (Some k) false; Enter t0; Exit t1; SetActive false;
               Call (Some k') false; Enter t2; SetActive true; Exit t3] (timer_init true) = Some t /\
    stats_of (t_stats t) k' = [t3 - t0]).
Proof.
  intros. split; [reflexivity|]. intro N. eexists. split; [cbn; reflexivity|]. cbn.
  destruct (String.eqb_spec k' k); [congruence|]. cbn. destruct (String.eqb_spec k' k); [congruence|]. now rewrite String.eqb_refl.
Qed.
(** Refuted: [end()] before any start raises, and a second [end()] adds a second entry for one start. *)
Theorem C91_end_refuted : forall k t0 t1 t2,
  timer_run [End t1] (timer_init true) = None /\
  exists t, timer_run [Start (Some k) false t0; End t1; End t2] (timer_init true) = Some t /\ stats_of (t_stats t) k = [t1 - t0; t2 - t0].
Proof. intros. split; [reflexivity|]. eexists. split; [cbn; rewrite String.eqb_refl; reflexivity|]. cbn. rewrite String.eqb_refl. reflexivity. Qed.
Open Scope string_scope.
Example C91_example :
  match timer_run (flat_map calls_of [Block (Some "f") false 10 25; Pair (Some "g") false 30 31; Pair (Some "g") true 40 50;
     Switch false; Block (Some "f") false 60 70; Switch true; Unfinished (Some "h") 80; Block (Some "f") false 90 99; Pair None false 100 104]) (timer_init true) with
  | Some t => t_stats t = [("f", [15; 9]); ("g", [1])] /\ t_elapsed t = 4
  | None => False end.
Proof. vm_compute. auto. Qed.
