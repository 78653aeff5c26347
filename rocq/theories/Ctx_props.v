(* C39: what the context managers promise. *)
From Verif Require Import Ctx_model.
Require Import List Bool Arith Lia.
Import ListNotations.

(* ---- specification-side notions, on programs only ---- *)

(* some exception may leave p *)
Fixpoint escapes (p : prog) : bool :=
  match p with
  | Raise => true
  | Seq p q => escapes p || escapes q
  | TryExcept p q => escapes p && escapes q
  | With _ p => escapes p
  | _ => false
  end.
(* the manager restores in __exit__, whatever happens *)
Definition class_based (m : cm) : bool :=
  match m with SetCheck _ _ _ | EnableCheck _ _ | NoCheck _ _ | SilenceWarnings => false | _ => true end.
(* no exception leaves a block of a generator-based manager *)
Fixpoint no_escape (p : prog) : bool :=
  match p with
  | Seq p q | TryExcept p q => no_escape p && no_escape q
  | With m p => (class_based m || negb (escapes p)) && no_escape p
  | _ => true
  end.
Definition object_of (m : cm) : option nat :=
  match m with EnableLieChecks o | EnableTangent o | NoTangent o => Some o | _ => None end.
(* a manager object is not entered again while one of its blocks is still open; managers that act
   in their constructor are only built by a with statement *)
Fixpoint disciplined (busy : list nat) (p : prog) : bool :=
  match p with
  | Seq p q | TryExcept p q => disciplined busy p && disciplined busy q
  | With m p => match object_of m with
                | None => disciplined busy p
                | Some o => negb (existsb (Nat.eqb o) busy) && disciplined (o :: busy) p
                end
  | ConstructTangent _ | ConstructEuclidean => false
  | _ => true
  end.
Fixpoint all_class (p : prog) : bool :=
  match p with
  | Seq p q | TryExcept p q => all_class p && all_class q
  | With m p => class_based m && all_class p
  | _ => true
  end.
(* the settings a block asks for *)
Definition requested (m : cm) (b : settings) : settings :=
  match m with
  | SetCheck mode silent siw => mkSet (mkChk mode silent siw) (s_lie b) (s_tan b) (s_euc b)
  | EnableCheck silent siw => mkSet (mkChk true silent siw) (s_lie b) (s_tan b) (s_euc b)
  | NoCheck silent siw => mkSet (mkChk false silent siw) (s_lie b) (s_tan b) (s_euc b)
  | SilenceWarnings => mkSet (mkChk (c_check (s_chk b)) (c_silent (s_chk b)) true) (s_lie b) (s_tan b) (s_euc b)
  | EnableLieChecks _ => mkSet (s_chk b) true (s_tan b) (s_euc b)
  | SetTangent mode => mkSet (s_chk b) (s_lie b) mode (s_euc b)
  | EnableTangent _ => mkSet (s_chk b) (s_lie b) true (s_euc b)
  | NoTangent _ => mkSet (s_chk b) (s_lie b) false (s_euc b)
  | AsEuclidean => mkSet (s_chk b) (s_lie b) (s_tan b) true
  end.
(* what a program is expected to observe, and whether an exception leaves it: a reading of the
   documentation, with the settings scoped like a lexical environment *)
Fixpoint meaning (b : settings) (p : prog) : list settings * bool :=
  match p with
  | Skip => ([], false) | Observe => ([b], false) | Raise => ([], true)
  | Seq p q => let (l, e) := meaning b p in
      if e then (l, true) else let (l2, e2) := meaning b q in (l ++ l2, e2)
  | TryExcept p q => let (l, e) := meaning b p in
      if e then let (l2, e2) := meaning b q in (l ++ l2, e2) else (l, false)
  | With m p => meaning (requested m b) p
  | ConstructTangent _ | ConstructEuclidean => ([], false)
  end.

(* ---- proofs ---- *)

Lemma steps_add : forall n m t s, steps (n + m) t s = let (t1, s1) := steps n t s in steps m t1 s1.
Proof.
  induction n; intros; simpl; auto. destruct (step1 t s) as [[t1 s1]|] eqn:E; auto.
  destruct m; simpl; auto. rewrite E. auto.
Qed.

Ltac crush_tls := repeat match goal with s : tls |- _ => destruct s as [[[? ? ?]|] [?|] [?|] [?|]] end; simpl; auto.

Lemma enter_settings : forall m s h fs s1 h1, enter m s h = (fs, s1, h1) -> settings_of s1 = requested m (settings_of s).
Proof. intros m s h fs s1 h1; destruct m; destruct s as [[[]|] [|] [|] [|]]; simpl; intro E; injection E as <- <- <-; reflexivity. Qed.

Definition dchk (o : option chk) := match o with Some c => c | None => mkChk true false false end.
Definition dbool (o : option bool) := match o with Some c => c | None => false end.
Lemma settings_eq : forall s, settings_of s = mkSet (dchk (t_chk s)) (dbool (t_lie s)) (dbool (t_tan s)) (dbool (t_euc s)).
Proof. intros [[[]|] [|] [|] [|]]; reflexivity. Qed.
Lemma chk_get_eq : forall s, chk_get s = (dchk (t_chk s), mkTls (Some (dchk (t_chk s))) (t_lie s) (t_tan s) (t_euc s)).
Proof. intros [[[]|] [|] [|] [|]]; reflexivity. Qed.
Lemma lie_get_eq : forall s, lie_get s = (dbool (t_lie s), mkTls (t_chk s) (Some (dbool (t_lie s))) (t_tan s) (t_euc s)).
Proof. intros [[[]|] [|] [|] [|]]; reflexivity. Qed.
Lemma tan_get_eq : forall s, tan_get s = (dbool (t_tan s), mkTls (t_chk s) (t_lie s) (Some (dbool (t_tan s))) (t_euc s)).
Proof. intros [[[]|] [|] [|] [|]]; reflexivity. Qed.
Lemma euc_get_eq : forall s, euc_get s = (dbool (t_euc s), mkTls (t_chk s) (t_lie s) (t_tan s) (Some (dbool (t_euc s)))).
Proof. intros [[[]|] [|] [|] [|]]; reflexivity. Qed.

Definition busy_ok (busy : list nat) (h h1 : nat -> bool) := forall o, In o busy -> h1 o = h o.

Lemma in_busy : forall o l, existsb (Nat.eqb o) l = false -> ~ In o l.
Proof.
  intros o l E Hi. assert (existsb (Nat.eqb o) l = true); [|congruence].
  apply existsb_exists. exists o. split; auto. apply Nat.eqb_refl.
Qed.

Definition ctl_of (e : bool) := if e then Exc else Ret.

(* the frames of one manager, popped in the given mode, restore the settings *)
Lemma leave_frames : forall m s h fs s1 h1 h2 K lg s2 (e : bool),
  enter m s h = (fs, s1, h1) -> settings_of s2 = settings_of s1 ->
  (forall o, object_of m = Some o -> h2 o = h1 o) ->
  (class_based m = true \/ e = false) ->
  exists n s3, steps n (mkTh (ctl_of e) (fs ++ K) h2 lg) s2 = (mkTh (ctl_of e) K h2 lg, s3)
    /\ settings_of s3 = settings_of s.
Proof.
  intros m s h fs s1 h1 h2 K lg s2 e E Hs Ho Hc.
  pose proof (enter_settings _ _ _ _ _ _ E) as Hr. rewrite Hr in Hs. clear Hr.
  rewrite !settings_eq in *.
  destruct m; simpl in E, Ho, Hs, Hc; rewrite ?chk_get_eq, ?lie_get_eq, ?tan_get_eq, ?euc_get_eq in E;
  injection E as <- <- <-; injection Hs as H1 H2 H3 H4;
  try (destruct Hc as [Hc| ->]; [discriminate|]).
  - exists 1. eexists. split; [reflexivity|]. rewrite settings_eq. simpl. congruence.
  - exists 2. eexists. split; [reflexivity|]. rewrite settings_eq. simpl. congruence.
  - exists 2. eexists. split; [reflexivity|]. rewrite settings_eq. simpl. congruence.
  - exists 1. eexists. split; [reflexivity|]. rewrite settings_eq. simpl. destruct (dchk (t_chk s)). simpl. congruence.
  - assert (P : h2 obj = dbool (t_lie s)) by (rewrite Ho; auto; unfold put; rewrite Nat.eqb_refl; auto).
    exists 1, (lie_set (dbool (t_lie s)) s2). split; [destruct e; simpl; rewrite P; reflexivity|].
    rewrite settings_eq. simpl. congruence.
  - exists 1, (tan_set (dbool (t_tan s)) s2). split; [destruct e; reflexivity|]. rewrite settings_eq. simpl. congruence.
  - assert (P : h2 obj = dbool (t_tan s)) by (rewrite Ho; auto; unfold put; rewrite Nat.eqb_refl; auto).
    exists 1, (tan_set (dbool (t_tan s)) s2). split; [destruct e; simpl; rewrite P; reflexivity|].
    rewrite settings_eq. simpl. congruence.
  - assert (P : h2 obj = dbool (t_tan s)) by (rewrite Ho; auto; unfold put; rewrite Nat.eqb_refl; auto).
    exists 1, (tan_set (dbool (t_tan s)) s2). split; [destruct e; simpl; rewrite P; reflexivity|].
    rewrite settings_eq. simpl. congruence.
  - exists 1, (euc_set (dbool (t_euc s)) s2). split; [destruct e; reflexivity|]. rewrite settings_eq. simpl. congruence.
Qed.

Lemma observe_settings : forall s, settings_of (snd (euc_get (snd (tan_get (snd (lie_get (snd (chk_get s)))))))) = settings_of s.
Proof. intros; crush_tls. Qed.

Lemma meaning_escapes : forall p b, snd (meaning b p) = true -> escapes p = true.
Proof.
  induction p; simpl; intros b H; try discriminate; auto.
  - destruct (meaning b p1) as [l e] eqn:E1. destruct e.
    + rewrite (IHp1 b); auto. rewrite E1; auto.
    + destruct (meaning b p2) as [l2 e2] eqn:E2. simpl in H. rewrite (IHp2 b). apply orb_true_r. rewrite E2; auto.
  - destruct (meaning b p1) as [l e] eqn:E1. destruct e; [|discriminate].
    destruct (meaning b p2) as [l2 e2] eqn:E2. simpl in H.
    rewrite (IHp1 b), (IHp2 b); auto; [rewrite E2|rewrite E1]; auto.
  - eauto.
Qed.

Lemma enter_step : forall m s h fs s1 h1 p K lg, enter m s h = (fs, s1, h1) ->
  steps 1 (mkTh (Run (With m p)) K h lg) s = (mkTh (Run p) (fs ++ K) h1 lg, s1).
Proof. intros. unfold steps, step1. cbn [th_ctl th_stack th_prev th_log]. rewrite H. reflexivity. Qed.

(* The machine follows the lexical reading. *)
Theorem run_scoped : forall p busy s h K lg,
  disciplined busy p = true -> no_escape p = true ->
  exists n s1 h1,
    steps n (mkTh (Run p) K h lg) s
      = (mkTh (ctl_of (snd (meaning (settings_of s) p))) K h1 (lg ++ fst (meaning (settings_of s) p)), s1)
    /\ settings_of s1 = settings_of s /\ busy_ok busy h h1.
Proof.
  induction p; intros busy s h K lg D N; simpl in D, N.
  - exists 1, s, h. simpl. rewrite app_nil_r. repeat split; red; auto.
  - exists 1. eexists. exists h. simpl. split; [reflexivity|]. split; [apply observe_settings | red; auto].
  - exists 1, s, h. simpl. rewrite app_nil_r. repeat split; red; auto.
  - apply andb_prop in D as [D1 D2]. apply andb_prop in N as [N1 N2].
    destruct (IHp1 busy s h (FSeq p2 :: K) lg D1 N1) as (n1 & s1 & h1 & E1 & S1 & B1).
    simpl meaning. destruct (meaning (settings_of s) p1) as [l e] eqn:M1. simpl in E1.
    destruct e; simpl in E1.
    + exists (1 + (n1 + 1)), s1, h1. rewrite steps_add. simpl steps at 1. cbv iota beta.
      rewrite steps_add, E1. simpl. auto.
    + destruct (IHp2 busy s1 h1 K (lg ++ l) D2 N2) as (n2 & s2 & h2 & E2 & S2 & B2).
      rewrite S1 in E2. destruct (meaning (settings_of s) p2) as [l2 e2] eqn:M2. simpl in E2.
      exists (1 + (n1 + (1 + n2))), s2, h2. rewrite steps_add. simpl steps at 1. cbv iota beta.
      rewrite steps_add, E1. rewrite steps_add. simpl steps at 1. cbv iota beta. rewrite E2. simpl.
      rewrite app_assoc. split; [reflexivity|]. split; [congruence|]. red; intros. rewrite B2; auto.
  - apply andb_prop in D as [D1 D2]. apply andb_prop in N as [N1 N2].
    destruct (IHp1 busy s h (FTry p2 :: K) lg D1 N1) as (n1 & s1 & h1 & E1 & S1 & B1).
    simpl meaning. destruct (meaning (settings_of s) p1) as [l e] eqn:M1. simpl in E1.
    destruct e; simpl in E1.
    + destruct (IHp2 busy s1 h1 K (lg ++ l) D2 N2) as (n2 & s2 & h2 & E2 & S2 & B2).
      rewrite S1 in E2. destruct (meaning (settings_of s) p2) as [l2 e2] eqn:M2. simpl in E2.
      exists (1 + (n1 + (1 + n2))), s2, h2. rewrite steps_add. simpl steps at 1. cbv iota beta.
      rewrite steps_add, E1. rewrite steps_add. simpl steps at 1. cbv iota beta. rewrite E2. simpl.
      rewrite app_assoc. split; [reflexivity|]. split; [congruence|]. red; intros. rewrite B2; auto.
    + exists (1 + (n1 + 1)), s1, h1. rewrite steps_add. simpl steps at 1. cbv iota beta.
      rewrite steps_add, E1. simpl. auto.
  - apply andb_prop in N as [N1 N2].
    destruct (enter m s h) as [[fs s1] h1] eqn:E.
    pose proof (enter_settings _ _ _ _ _ _ E) as Hset.
    assert (Hd : exists busy', disciplined busy' p = true /\ (forall o, In o busy -> In o busy')
                 /\ (forall o, object_of m = Some o -> In o busy') /\ (forall o, In o busy -> h1 o = h o)).
    { destruct (object_of m) as [o|] eqn:Eo.
      - apply andb_prop in D as [Db Dp]. apply negb_true_iff in Db. apply in_busy in Db.
        exists (o :: busy). split; [exact Dp|]. split; [intros; right; auto|]. split; [intros o0 Ho0; injection Ho0 as <-; left; auto|].
        intros o0 Hi. assert (o0 <> o) by congruence.
        assert (Nat.eqb o0 o = false) by (apply Nat.eqb_neq; auto).
        destruct m; simpl in Eo; try discriminate; injection Eo as <-; simpl in E;
          [destruct (lie_get s)|destruct (tan_get s)|destruct (tan_get s)]; injection E as <- <- <-; unfold put; rewrite H0; auto.
      - exists busy. split; [exact D|]. split; [auto|]. split; [discriminate|].
        intros o0 Hi. destruct m; simpl in Eo; try discriminate; simpl in E;
          try destruct (chk_get s); try destruct (tan_get s); try destruct (euc_get s); injection E as <- <- <-; auto. }
    destruct Hd as (busy' & Dp & Hb1 & Hb2 & Hb3).
    destruct (IHp busy' s1 h1 (fs ++ K) lg Dp N2) as (n1 & s2 & h2 & E1 & S1 & B1).
    simpl meaning. rewrite <- Hset.
    set (M := meaning (settings_of s1) p) in *.
    assert (Hc : class_based m = true \/ snd M = false).
    { apply orb_prop in N1 as [N1|N1]; auto. right. destruct (snd M) eqn:EM; auto.
      apply meaning_escapes in EM. rewrite EM in N1. discriminate. }
    destruct (leave_frames m s h fs s1 h1 h2 K (lg ++ fst M) s2 (snd M) E S1) as (n2 & s3 & E2 & S3); auto.
    exists (1 + (n1 + n2)), s3, h2. rewrite steps_add, (enter_step _ _ _ _ _ _ _ _ _ E). cbv iota beta.
    rewrite steps_add, E1. rewrite E2. split; [reflexivity|]. split; auto.
    red; intros. rewrite B1; auto.
  - discriminate.
  - discriminate.
Qed.

(* C39, for every nesting of contexts: if no exception leaves a block of a generator-based manager
   (no_lie_group_check, enable_lie_group_check, set_lie_group_check_enabled,
   silence_internal_warnings), the program finishes, at the end all settings are those in force at
   the start, and everything it observed on the way is what the lexical nesting says. *)
Theorem C39_restored_partial : forall p s h,
  disciplined [] p = true -> no_escape p = true ->
  exists n t1 s1, steps n (start p h) s = (t1, s1) /\ finished t1
    /\ settings_of s1 = settings_of s
    /\ th_log t1 = fst (meaning (settings_of s) p)
    /\ th_ctl t1 = (if snd (meaning (settings_of s) p) then Exc else Ret).
Proof.
  intros p s h D N. destruct (run_scoped p [] s h [] [] D N) as (n & s1 & h1 & E & S1 & _).
  exists n. eexists; eexists. split; [exact E|]. simpl. repeat split; auto.
  destruct (snd (meaning (settings_of s) p)); simpl; auto.
Qed.

(* With class-based managers only, exceptions may fly anywhere. *)
Lemma all_class_no_escape : forall p, all_class p = true -> no_escape p = true.
Proof.
  induction p; simpl; intro H; auto; try (apply andb_prop in H as [A B]; rewrite ?IHp1, ?IHp2, ?IHp; auto).
  rewrite A. auto.
Qed.
Theorem C39_class_managers : forall p s h,
  disciplined [] p = true -> all_class p = true ->
  exists n t1 s1, steps n (start p h) s = (t1, s1) /\ finished t1 /\ settings_of s1 = settings_of s.
Proof.
  intros p s h D A. destruct (C39_restored_partial p s h D (all_class_no_escape _ A)) as (n & t1 & s1 & H1 & H2 & H3 & _).
  exists n, t1, s1; auto.
Qed.

(* The full statement of C39 is false: an exception that leaves a block of a generator-based manager
   leaves the settings of the block in force; in particular one raised inside Optimizer.optimize. *)
Theorem C39_exception_keeps_settings : forall m p s h K lg,
  class_based m = false -> disciplined [] p = true -> no_escape p = true ->
  snd (meaning (requested m (settings_of s)) p) = true ->
  exists n s1 h1 lg1, steps n (mkTh (Run (With m p)) K h lg) s = (mkTh Exc K h1 lg1, s1)
    /\ settings_of s1 = requested m (settings_of s).
Proof.
  intros m p s h K lg C D N Me.
  destruct (enter m s h) as [[fs s1] h1] eqn:E.
  pose proof (enter_settings _ _ _ _ _ _ E) as Hset. rewrite <- Hset in *.
  destruct (run_scoped p [] s1 h1 (fs ++ K) lg D N) as (n1 & s2 & h2 & E1 & S1 & B1).
  rewrite Me in E1. simpl in E1.
  assert (exists k, steps k (mkTh Exc (fs ++ K) h2 (lg ++ fst (meaning (settings_of s1) p))) s2
      = (mkTh Exc K h2 (lg ++ fst (meaning (settings_of s1) p)), s2)) as [k Ek].
  { destruct m; simpl in C; try discriminate; simpl in E; destruct (chk_get s); injection E as <- <- <-;
      [exists 1|exists 2|exists 2|exists 1]; reflexivity. }
  exists (1 + (n1 + k)), s2, h2. eexists. rewrite steps_add, (enter_step _ _ _ _ _ _ _ _ _ E). cbv iota beta.
  rewrite steps_add, E1, Ek. split; [reflexivity|congruence].
Qed.

Theorem C39_exception_refuted : exists p s h n t1 s1,
  disciplined [] p = true /\ steps n (start p h) s = (t1, s1) /\ finished t1 /\ th_ctl t1 = Ret
  /\ c_check (s_chk (settings_of s)) = true /\ c_check (s_chk (settings_of s1)) = false.
Proof.
  exists (TryExcept (With (NoCheck true false) Raise) Skip), (mkTls None None None None), (fun _ => false), 8.
  eexists; eexists. split; [reflexivity|]. split; [reflexivity|]. simpl. unfold finished; simpl. auto 8.
Qed.
(* optimizer.py 52: `with silence_internal_warnings(): return self._optimize_impl(...)`; a raising
   optimization leaves the warnings silenced *)
Theorem C39_optimize_refuted : exists s h n t1 s1,
  steps n (start (TryExcept (With SilenceWarnings Raise) Skip) h) s = (t1, s1) /\ finished t1
  /\ c_siw (s_chk (settings_of s)) = false /\ c_siw (s_chk (settings_of s1)) = true.
Proof.
  exists (mkTls None None None None), (fun _ => false), 8.
  eexists; eexists. split; [reflexivity|]. simpl. unfold finished; simpl. auto 8.
Qed.
(* entering one enable_checks object again while it is active loses the outer setting *)
Theorem C39_reentrant_refuted : exists s h n t1 s1,
  steps n (start (With (EnableLieChecks 0) (With (EnableLieChecks 0) Skip)) h) s = (t1, s1) /\ finished t1
  /\ s_lie (settings_of s) = false /\ s_lie (settings_of s1) = true.
Proof.
  exists (mkTls None None None None), (fun _ => false), 8.
  eexists; eexists. split; [reflexivity|]. simpl. unfold finished; simpl. auto 8.
Qed.

(* Threads: whatever the interleaving, each thread sees exactly what it would see alone. *)
Lemma step_alone : forall k t w, 
  w_th (wstep k w) t = (if Nat.eqb t k then fst (steps 1 (w_th w t) (w_tls w t)) else w_th w t)
  /\ w_tls (wstep k w) t = (if Nat.eqb t k then snd (steps 1 (w_th w t) (w_tls w t)) else w_tls w t).
Proof.
  intros k t w. unfold wstep. destruct (Nat.eqb t k) eqn:E.
  - apply Nat.eqb_eq in E; subst. simpl. destruct (step1 (w_th w k) (w_tls w k)) as [[t1 s1]|]; simpl; auto.
    unfold upd. rewrite Nat.eqb_refl. auto.
  - destruct (step1 (w_th w k) (w_tls w k)) as [[t1 s1]|]; simpl; auto. unfold upd. rewrite E. auto.
Qed.
Theorem C39_thread_isolation : forall l w t,
  let n := count_occ Nat.eq_dec l t in
  (w_th (schedule l w) t, w_tls (schedule l w) t) = steps n (w_th w t) (w_tls w t).
Proof.
  induction l as [|k l IH]; intros w t; simpl; auto.
  rewrite IH. destruct (step_alone k t w) as [-> ->].
  destruct (Nat.eq_dec k t) as [->|Hn].
  - rewrite Nat.eqb_refl. change (S (count_occ Nat.eq_dec l t)) with (1 + count_occ Nat.eq_dec l t).
    rewrite steps_add. destruct (steps 1 (w_th w t) (w_tls w t)); auto.
  - replace (Nat.eqb t k) with false; auto. symmetry. apply Nat.eqb_neq. auto.
Qed.

(* Once finished, more steps change nothing. *)
Lemma finished_steps : forall n t s, finished t -> steps n t s = (t, s).
Proof. intros [|n] t s [H1 H2]; simpl; auto. unfold step1. rewrite H1. destruct H2 as [-> | ->]; auto. Qed.
Lemma steps_enough : forall a b t s t1 s1, steps a t s = (t1, s1) -> finished t1 -> a <= b -> steps b t s = (t1, s1).
Proof.
  intros a b t s t1 s1 E F L. replace b with (a + (b - a)) by lia. rewrite steps_add, E. apply finished_steps; auto.
Qed.
(* Together: in any interleaving in which a thread gets enough turns, it finishes with the settings
   it started with, whatever the other threads do. *)
Theorem C39_threads : forall p h s, disciplined [] p = true -> no_escape p = true ->
  exists n, forall l w t, w_th w t = start p h -> w_tls w t = s -> n <= count_occ Nat.eq_dec l t ->
    let w1 := schedule l w in
    finished (w_th w1 t) /\ settings_of (w_tls w1 t) = settings_of s
    /\ th_log (w_th w1 t) = fst (meaning (settings_of s) p).
Proof.
  intros p h s D N. destruct (C39_restored_partial p s h D N) as (n & t1 & s1 & E & F & S & L & _).
  exists n. intros l w t Hw Hs Hn w1. pose proof (C39_thread_isolation l w t) as I. cbv zeta in I.
  rewrite Hw, Hs in I. rewrite (steps_enough _ _ _ _ _ _ E F Hn) in I. fold w1 in I.
  injection I as I1 I2. rewrite I1, I2. auto.
Qed.

(* A non-trivial program that meets the hypotheses. *)
Definition demo : prog :=
  Seq Observe (Seq
   (With (NoCheck true false)
      (Seq (TryExcept (With (EnableLieChecks 3) (Seq Observe Raise)) (With SilenceWarnings Observe))
           (With (SetTangent true) (With (NoTangent 4) Observe))))
   Observe).
Example ctx_case : disciplined [] demo = true /\ no_escape demo = true /\
  let d := mkSet (mkChk true false false) false false false in
  fst (meaning d demo) = [d; mkSet (mkChk false true false) true false false;
     mkSet (mkChk false true true) false false false; mkSet (mkChk false true false) false false false; d].
Proof. repeat split. Qed.
