(** C81: what verify_jacobians reports, and what it leaves behind. *)
From Coq Require Import Reals List Lia Lra Bool.
From Verif Require Import Geo_spec Geo3_spec Geo4_spec SE2_model SO3_model SE3_model Rand_model Rand_props Ver_model.
Import ListNotations.
Local Open Scope R_scope.

(** ---- specification ---- *)
Definition vars (cf : CF) : list nat := map fst (cf_optim cf ++ cf_aux cf).
(** error() and jacobians() read only the cost function's own variables *)
Definition local (cf : CF) := forall st st', (forall v, In v (vars cf) -> st v = st' v) -> cf_eval cf st = cf_eval cf st'.
Definition same (st st' : nat -> list tval) := forall v, st v = st' v.
Definition close (tol : R) (x : option R * option R) := exists a b, x = (Some a, Some b) /\ Rabs (a - b) <= tol.
Definition far (tol : R) (x : option R * option R) := exists a b, x = (Some a, Some b) /\ tol < Rabs (a - b).
Definition has_nan (x : option R * option R) := fst x = None \/ snd x = None.
(** the round finds nothing wrong: per variable, all entries close, or a nan *)
Definition accepted (tol : R) (cf : CF) (st : nat -> list tval) :=
  exists js, cf_eval cf st = inr js /\ Forall (fun j => Forall (close tol) j \/ Exists has_nan j) js.
(** the numbers a round takes, and the values it gives the variables *)
Definition width (cf : CF) : nat := fold_right (fun v n => (draws (snd v) + n)%nat) 0%nat (cf_optim cf ++ cf_aux cf).
Definition sampled (cf : CF) (s : nat -> R) (p : nat) (st : nat -> list tval) := fst (fill_all (cf_optim cf ++ cf_aux cf) s p st).

(** ---- lemmas ---- *)
Definition wsum (vs : list (nat * kind)) : nat := fold_right (fun v n => (draws (snd v) + n)%nat) 0%nat vs.
Lemma fill_pos : forall vs s p st, snd (fill_all vs s p st) = (p + wsum vs)%nat.
Proof. induction vs as [|[v k] vs IH]; intros; cbn [fill_all wsum fold_right snd]; [lia|]. rewrite IH. cbn [wsum]. unfold wsum. lia. Qed.
Lemma fill_other : forall vs s p st v, ~ In v (map fst vs) -> fst (fill_all vs s p st) v = st v.
Proof.
  induction vs as [|[w k] vs IH]; intros s p st v N; cbn [fill_all]; [reflexivity|]. cbn [map fst In] in N.
  rewrite IH by tauto. unfold set_var. destruct (Nat.eqb_spec v w); [exfalso; apply N; left; congruence|reflexivity].
Qed.
Lemma fill_agree : forall vs s p st st' v, In v (map fst vs) \/ st v = st' v -> fst (fill_all vs s p st) v = fst (fill_all vs s p st') v.
Proof.
  induction vs as [|[w k] vs IH]; intros s p st st' v H; cbn [fill_all]; [cbn in H; destruct H; [contradiction|exact H]|].
  apply IH. unfold set_var. destruct (Nat.eqb_spec v w) as [->|N]; [right; reflexivity|].
  destruct H as [H|H]; [|right; exact H]. cbn [map fst In] in H. destruct H as [H|H]; [congruence|left; exact H].
Qed.
Lemma fill_value : forall vs s p st v, In v (map fst vs) ->
  exists k q, In (v, k) vs /\ fst (fill_all vs s p st) v = [rand_fill k (fun i => s (q + i)%nat)].
Proof.
  induction vs as [|[w k] vs IH]; intros s p st v H; [destruct H|]. cbn [fill_all].
  destruct (in_dec Nat.eq_dec v (map fst vs)) as [I|I].
  - destruct (IH s (p + draws k)%nat (set_var st w [rand_fill k (fun i => s (p + i)%nat)]) v I) as (k' & q & Hk & E).
    exists k', q. split; [right; exact Hk|exact E].
  - rewrite fill_other by exact I. cbn [map fst In] in H. destruct H as [->|H]; [|contradiction].
    exists k, p. split; [left; reflexivity|]. unfold set_var. rewrite Nat.eqb_refl. reflexivity.
Qed.

Lemma abs_max_spec l : match abs_max l with
  | Some m => 0 <= m /\ Forall (close m) l /\ (l = [] /\ m = 0 \/ exists a b, In (Some a, Some b) l /\ m = Rabs (a - b))
  | None => Exists has_nan l end.
Proof.
  induction l as [|[[a|] [b|]] l IH]; cbn [abs_max].
  - split; [lra|]. split; [constructor|]. left. split; reflexivity.
  - destruct (abs_max l) as [m|].
    + destruct IH as (P & F & W). pose proof (Rmax_l (Rabs (a - b)) m). pose proof (Rmax_r (Rabs (a - b)) m).
      split; [lra|]. split.
      * constructor; [exists a, b; split; [reflexivity|assumption]|].
        eapply Forall_impl; [|exact F]. intros x (a' & b' & E & L). exists a', b'. split; [exact E|lra].
      * right. destruct (Rmax_case_strong (Rabs (a - b)) m (fun z => z = Rabs (a - b) /\ m <= Rabs (a - b) \/ z = m /\ Rabs (a - b) <= m)) as [[-> ?]|[-> ?]];
          [intros; left; split; [reflexivity|assumption]|intros; right; split; [reflexivity|assumption]|exists a, b; split; [left; reflexivity|reflexivity]|].
        destruct W as [[-> ->]|(a' & b' & I & E)].
        { exists a, b. split; [left; reflexivity|]. pose proof (Rabs_pos (a - b)). lra. }
        { exists a', b'. split; [right; exact I|exact E]. }
    + apply Exists_cons_tl. exact IH.
  - apply Exists_cons_hd. right; reflexivity.
  - apply Exists_cons_hd. left; reflexivity.
  - apply Exists_cons_hd. left; reflexivity.
Qed.
Lemma too_far_spec tol l : 0 <= tol -> too_far tol l = false <-> (Forall (close tol) l \/ Exists has_nan l).
Proof.
  intros T. unfold too_far. pose proof (abs_max_spec l) as H. destruct (abs_max l) as [m|].
  - destruct H as (P & F & W). unfold lt_b. destruct (Rlt_dec tol m) as [L|L].
    + split; [discriminate|]. intros [C|N].
      * exfalso. destruct W as [[-> ->]|(a & b & I & E)]; [lra|]. rewrite Forall_forall in C. destruct (C _ I) as (a' & b' & E' & L').
        injection E' as <- <-. lra.
      * exfalso. apply Exists_exists in N. destruct N as (x & I & N). rewrite Forall_forall in F. destruct (F x I) as (a & b & -> & _).
        destruct N; discriminate.
    + split; [|reflexivity]. intros _. left. eapply Forall_impl; [|exact F]. intros x (a & b & E & L'). exists a, b. split; [exact E|lra].
  - split; [|reflexivity]. intros _. right. exact H.
Qed.
Lemma existsb_false {A} (f : A -> bool) l : existsb f l = false <-> Forall (fun x => f x = false) l.
Proof.
  split.
  - intros H. apply Forall_forall. intros x I. destruct (f x) eqn:E; [|reflexivity].
    assert (existsb f l = true) by (apply existsb_exists; exists x; tauto). congruence.
  - intros H. destruct (existsb f l) eqn:E; [|reflexivity]. apply existsb_exists in E. destruct E as (x & I & E).
    rewrite Forall_forall in H. rewrite H in E by exact I. discriminate.
Qed.
Lemma once_ok tol cf s st p : 0 <= tol ->
  check_once tol cf s st p = (sampled cf s p st, (p + width cf)%nat, snd (check_once tol cf s st p))
  /\ (snd (check_once tol cf s st p) = None <-> accepted tol cf (sampled cf s p st)).
Proof.
  intros T. unfold check_once, sampled, accepted. pose proof (fill_pos (cf_optim cf ++ cf_aux cf) s p st) as P.
  destruct (fill_all (cf_optim cf ++ cf_aux cf) s p st) as [st' p']. cbn [fst snd] in *. change (wsum (cf_optim cf ++ cf_aux cf)) with (width cf) in P. subst p'.
  destruct (cf_eval cf st') as [e|js].
  - split; [reflexivity|]. split; [discriminate|]. intros (js & E & _). discriminate.
  - split; [reflexivity|]. cbn [snd]. split.
    + destruct (existsb (too_far tol) js) eqn:E; [discriminate|]. intros _. exists js. split; [reflexivity|].
      apply existsb_false in E. eapply Forall_impl; [|exact E]. intros x. apply too_far_spec, T.
    + intros (js' & E & F). injection E as <-. assert (X : existsb (too_far tol) js = false).
      { apply existsb_false. eapply Forall_impl; [|exact F]. intros x. apply too_far_spec, T. }
      rewrite X. reflexivity.
Qed.
Lemma accepted_local tol cf st st' : local cf -> (forall v, In v (vars cf) -> st v = st' v) -> accepted tol cf st <-> accepted tol cf st'.
Proof. intros L H. unfold accepted. rewrite (L st st' H). reflexivity. Qed.
Lemma sampled_agree cf s p st st' v : In v (vars cf) \/ st v = st' v -> sampled cf s p st v = sampled cf s p st' v.
Proof. apply fill_agree. Qed.

(** rounds: they pass iff every sample is accepted; outside the variables of the
    cost function nothing changes; after a failure every variable of it holds a
    random value of batch size 1 *)
Definition filled (cf : CF) (s : nat -> R) (st : nat -> list tval) :=
  forall v, In v (vars cf) -> exists k q, In (v, k) (cf_optim cf ++ cf_aux cf) /\ st v = [rand_fill k (fun i => s (q + i)%nat)].
Lemma rounds_spec tol cf s : 0 <= tol -> local cf -> forall n st p st' p' r, check_rounds n tol cf s st p = (st', p', r) ->
  (forall v, ~ In v (vars cf) -> st' v = st v)
  /\ (r = None <-> forall k, (k < n)%nat -> accepted tol cf (sampled cf s (p + k * width cf) st))
  /\ (r = None -> p' = (p + n * width cf)%nat)
  /\ (forall e, r = Some e -> filled cf s st').
Proof.
  intros T L. induction n as [|n IH]; intros st p st' p' r E; cbn [check_rounds] in E.
  - injection E as <- <- <-. split; [reflexivity|]. split; [split; [intros _ k K; lia|reflexivity]|]. split; [intros; lia|discriminate].
  - destruct (once_ok tol cf s st p T) as [Eq Iff]. rewrite Eq in E. destruct (snd (check_once tol cf s st p)) as [e|].
    + injection E as <- <- <-. split; [intros v N; apply fill_other; exact N|]. split; [|split; [discriminate|]].
      * split; [discriminate|]. intros H. apply Iff. specialize (H 0%nat ltac:(lia)). rewrite Nat.mul_0_l, Nat.add_0_r in H. exact H.
      * intros _ _ v I. apply fill_value. exact I.
    + destruct (IH _ _ _ _ _ E) as (A & B & C & D).
      split; [intros v N; rewrite A by exact N; apply fill_other; exact N|]. split; [|split; [|exact D]].
      * rewrite B. split.
        { intros H k K. destruct k as [|k]; [rewrite Nat.mul_0_l, Nat.add_0_r; apply Iff; reflexivity|].
          specialize (H k ltac:(lia)). eapply accepted_local; [exact L| |exact H]. intros v I.
          replace (p + S k * width cf)%nat with (p + width cf + k * width cf)%nat by lia. apply sampled_agree. left; exact I. }
        { intros H k K. specialize (H (S k) ltac:(lia)). eapply accepted_local; [exact L| |exact H]. intros v I.
          replace (p + S k * width cf)%nat with (p + width cf + k * width cf)%nat by lia. apply sampled_agree. left; exact I. }
      * intros R. rewrite (C R). lia.
Qed.
Lemma restore_spec : forall vs old st v, restore vs old st v = if in_dec Nat.eq_dec v (map fst vs) then old v else st v.
Proof.
  intros vs old. unfold restore. induction vs as [|[w k] vs IH]; intros st v; cbn [fold_left map fst]; [reflexivity|].
  rewrite IH. destruct (in_dec Nat.eq_dec v (map fst vs)) as [I|I].
  - destruct (in_dec Nat.eq_dec v (w :: map fst vs)) as [J|J]; [reflexivity|exfalso; apply J; right; exact I].
  - unfold set_var. destruct (Nat.eqb_spec v w) as [->|N].
    + destruct (in_dec Nat.eq_dec w (w :: map fst vs)) as [J|J]; [reflexivity|exfalso; apply J; left; reflexivity].
    + destruct (in_dec Nat.eq_dec v (w :: map fst vs)) as [J|J]; [|reflexivity]. destruct J as [J|J]; [congruence|contradiction].
Qed.

(** check_jacobians: it returns iff each of the [n] samples is accepted (the
    samples depend on the random numbers only, not on the values the variables
    have); then the variables have their values back.  If it raises, nothing is
    restored: each variable of the cost function holds a random value *)
Theorem C81_check : forall n tol cf s st p st' p' r, 0 <= tol -> local cf ->
  check_jacobians n tol cf s st p = (st', p', r) ->
  (r = None <-> forall k, (k < n)%nat -> accepted tol cf (sampled cf s (p + k * width cf) st))
  /\ (r = None -> same st' st)
  /\ (forall e, r = Some e -> filled cf s st')
  /\ (forall v, ~ In v (vars cf) -> st' v = st v).
Proof.
  intros n tol cf s st p st' p' r T L E. unfold check_jacobians in E.
  destruct (check_rounds n tol cf s st p) as [[st1 p1] r1] eqn:R. destruct (rounds_spec tol cf s T L n st p st1 p1 r1 R) as (A & B & C & D).
  destruct r1 as [e|]; injection E as <- <- <-.
  - split; [exact B|]. split; [discriminate|]. split; [exact D|exact A].
  - assert (S : same (restore (cf_optim cf) st (restore (cf_aux cf) st st1)) st).
    { intros v. rewrite !restore_spec. destruct (in_dec _ _ _) as [I|I]; [reflexivity|]. destruct (in_dec _ _ _) as [J|J]; [reflexivity|].
      apply A. unfold vars. rewrite map_app, in_app_iff. tauto. }
    split; [exact B|]. split; [intros _; exact S|]. split; [discriminate|]. intros v N. apply S.
Qed.

(** verify_jacobians prints success iff every cost function is accepted at all of
    its samples, and then every variable has its value back *)
Fixpoint offset (n : nat) (cfs : list CF) (i : nat) : nat :=
  match cfs, i with cf :: cfs, S i => (n * width cf + offset n cfs i)%nat | _, _ => 0%nat end.
Theorem C81_success : forall n tol cfs s st p st' failed r, 0 <= tol -> Forall local cfs ->
  verify n tol cfs s st p = (st', failed, r) ->
  ((failed = [] /\ r = false) <->
     forall i cf k, nth_error cfs i = Some cf -> (k < n)%nat ->
       accepted tol cf (sampled cf s (p + offset n cfs i + k * width cf) st))
  /\ (failed = [] /\ r = false -> same st' st).
Proof.
  intros n tol cfs s st p st' failed r T. revert st p st' failed r.
  induction cfs as [|cf cfs IH]; intros st p st' failed r L E; cbn [verify] in E.
  - injection E as <- <- <-. split; [split; [intros _ i cf k H; destruct i; discriminate|split; reflexivity]|intros _ v; reflexivity].
  - inversion L as [|? ? L1 L2]; subst. destruct (check_jacobians n tol cf s st p) as [[st1 p1] r1] eqn:C.
    destruct (C81_check n tol cf s st p st1 p1 r1 T L1 C) as (A & B & D & F).
    assert (NO : r1 <> None -> ~ (forall i c k, nth_error (cf :: cfs) i = Some c -> (k < n)%nat ->
       accepted tol c (sampled c s (p + offset n (cf :: cfs) i + k * width c) st))).
    { intros R H. apply R. apply A. intros k K. specialize (H 0%nat cf k eq_refl K). cbn [offset] in H. rewrite Nat.add_0_r in H. exact H. }
    destruct r1 as [[|]|].
    + destruct (verify n tol cfs s st1 p1) as [[st2 f2] r2]. injection E as <- <- <-.
      split; [|intros [X _]; discriminate]. split; [intros [X _]; discriminate|]. intros H. exfalso. apply NO; [discriminate|exact H].
    + injection E as <- <- <-. split; [|intros [_ X]; discriminate]. split; [intros [_ X]; discriminate|]. intros H. exfalso. apply NO; [discriminate|exact H].
    + destruct (IH st1 p1 st' failed r L2 E) as [I J]. specialize (B eq_refl).
      assert (P1 : p1 = (p + n * width cf)%nat).
      { unfold check_jacobians in C. destruct (check_rounds n tol cf s st p) as [[a b] [e|]] eqn:R; [discriminate|]. injection C as _ <-.
        apply (rounds_spec tol cf s T L1 n st p a b None R). reflexivity. }
      split.
      * rewrite I. split.
        { intros H i c k N K. destruct i as [|i].
          - cbn [nth_error] in N. injection N as <-. cbn [offset]. rewrite Nat.add_0_r. apply A; [reflexivity|exact K].
          - cbn [nth_error] in N. specialize (H i c k N K). cbn [offset]. subst p1. rewrite Forall_forall in L2.
            eapply accepted_local; [apply L2; eapply nth_error_In; exact N| |exact H]. intros v Iv.
            rewrite Nat.add_assoc. apply sampled_agree. left; exact Iv. }
        { intros H i c k N K. specialize (H (S i) c k N K). cbn [offset] in H. subst p1. rewrite Forall_forall in L2.
          eapply accepted_local; [apply L2; eapply nth_error_In; exact N| |exact H]. intros v Iv.
          rewrite Nat.add_assoc. apply sampled_agree. left; exact Iv. }
      * intros R v. rewrite (J R v). apply B.
Qed.

(** whatever the random numbers: a cost function one of whose Jacobian entries is
    always off by more than tol is named; one whose entries are always within tol
    is not (names are unique in an objective) *)
Definition samples (cf : CF) (st : nat -> list tval) := exists s p st0, in01 s /\ st = sampled cf s p st0.
Lemma in01_any (s : nat -> R) p : in01 s -> in01 (fun i => s (p + i)%nat).
Proof. intros H i. apply H. Qed.
Theorem C81_named : forall n tol cfs s st p st' failed r, 0 <= tol -> Forall local cfs -> in01 s -> (0 < n)%nat ->
  (forall cf st, In cf cfs -> samples cf st -> cf_eval cf st <> inl OtherErr) ->
  verify n tol cfs s st p = (st', failed, r) ->
  r = false
  /\ (forall cf, In cf cfs ->
       (forall st, samples cf st -> exists js j, cf_eval cf st = inr js /\ In j js /\ ~ Exists has_nan j /\ Exists (far tol) j) ->
       In (cf_name cf) failed)
  /\ (forall name, (forall cf, In cf cfs -> cf_name cf = name ->
         forall st, samples cf st -> exists js, cf_eval cf st = inr js /\ Forall (Forall (close tol)) js) ->
       ~ In name failed).
Proof.
  intros n tol cfs s st p st' failed r T L I01 N. revert st p st' failed r L.
  induction cfs as [|cf cfs IH]; intros st p st' failed r L NE E; cbn [verify] in E.
  - injection E as <- <- <-. split; [reflexivity|]. split; [intros cf []|intros name _ []].
  - inversion L as [|? ? L1 L2]; subst. destruct (check_jacobians n tol cf s st p) as [[st1 p1] r1] eqn:C.
    destruct (C81_check n tol cf s st p st1 p1 r1 T L1 C) as (A & _ & _ & _).
    assert (NO : r1 <> Some OtherErr).
    { intros ->. clear A. unfold check_jacobians in C. destruct (check_rounds n tol cf s st p) as [[a b] [e|]] eqn:R; [|discriminate].
      injection C as _ _ ->. clear E N IH. revert st p R. induction n as [|m IHm]; intros st p R; cbn [check_rounds] in R; [discriminate|].
      destruct (check_once tol cf s st p) as [[x y] [e|]] eqn:O; [|exact (IHm _ _ R)].
      injection R as _ _ ->. unfold check_once in O. destruct (fill_all (cf_optim cf ++ cf_aux cf) s p st) as [z w] eqn:Fz.
      assert (S : samples cf z) by (exists s, p, st; split; [exact I01|unfold sampled; rewrite Fz; reflexivity]).
      destruct (cf_eval cf z) as [e|js] eqn:Ez; [|destruct (existsb _ _); discriminate]. injection O as _ _ ->.
      exact (NE cf z (or_introl eq_refl) S Ez). }
    assert (NE' : forall c x, In c cfs -> samples c x -> cf_eval c x <> inl OtherErr) by (intros c x Ic; apply NE; right; exact Ic).
    assert (SAMP : forall q, samples cf (sampled cf s q st)) by (intros q; exists s, q, st; split; [exact I01|reflexivity]).
    assert (FAR : (forall x, samples cf x -> exists js j, cf_eval cf x = inr js /\ In j js /\ ~ Exists has_nan j /\ Exists (far tol) j) -> r1 <> None).
    { intros H R. destruct (proj1 A R 0%nat N) as (js' & E' & F). destruct (H _ (SAMP (p + 0 * width cf)%nat)) as (js & j & Ej & Ij & Nn & Fr).
      rewrite E' in Ej. injection Ej as ->. rewrite Forall_forall in F. destruct (F j Ij) as [Cl|Ha]; [|contradiction].
      apply Exists_exists in Fr. destruct Fr as (x & Ix & a & b & -> & Fx). rewrite Forall_forall in Cl.
      destruct (Cl _ Ix) as (a' & b' & Ex & Lx). injection Ex as <- <-. lra. }
    assert (CLO : (forall x, samples cf x -> exists js, cf_eval cf x = inr js /\ Forall (Forall (close tol)) js) -> r1 = None).
    { intros H. apply A. intros k K. destruct (H _ (SAMP (p + k * width cf)%nat)) as (js & Ej & Fj). exists js. split; [exact Ej|].
      eapply Forall_impl; [|exact Fj]. intros j Hj. left; exact Hj. }
    destruct r1 as [[|]|]; [|congruence|].
    + destruct (verify n tol cfs s st1 p1) as [[st2 f2] r2] eqn:V. injection E as <- <- <-.
      destruct (IH _ _ _ _ _ L2 NE' V) as (R & In1 & In2). split; [exact R|]. split.
      * intros c [->|Ic] H; [left; reflexivity|right; apply In1; assumption].
      * intros name H [Ev|Iv].
        { specialize (CLO (H cf (or_introl eq_refl) Ev)). discriminate. }
        { revert Iv. apply In2. intros c Ic. apply H. right; exact Ic. }
    + destruct (IH _ _ _ _ _ L2 NE' E) as (R & In1 & In2). split; [exact R|]. split.
      * intros c [->|Ic] H; [exfalso; exact (FAR H eq_refl)|apply In1; assumption].
      * intros name H. apply In2. intros c Ic. apply H. right; exact Ic.
Qed.
