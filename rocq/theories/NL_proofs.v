(** Invariants of the optimization loop. *)
From Coq Require Import List Arith Bool ZArith QArith Qabs Lia.
Import ListNotations.
From Verif Require Import NL_model.

Lemma Qltb_irrefl q : Qltb q q = false.
Proof. unfold Qltb. assert (H : Qle_bool q q = true) by (apply Qle_bool_iff; apply Qle_refl). now rewrite H. Qed.

Lemma Qltb_spec a b : Qltb a b = true <-> (a < b)%Q.
Proof.
  unfold Qltb. rewrite negb_true_iff. split.
  - intros H. apply Qnot_le_lt. intros L. apply Qle_bool_iff in L. congruence.
  - intros H. destruct (Qle_bool b a) eqn:E; [|reflexivity]. apply Qle_bool_iff in E.
    exfalso. apply (Qlt_not_le _ _ H E).
Qed.

Section P.
Context {X D Z0 : Type}.
Variable n : nat.
Variable errf : X -> ext.
Variable retr : X -> D -> X.
Variable compute_delta : Z0 -> (nat -> X) -> Z0 * option (nat -> D).
Variable gn_solve : Z0 -> (nat -> X) -> Z0 * option (nat -> D).
Variable complete : Z0 -> (nat -> X) -> (nat -> D) -> (nat -> ext) -> (nat -> ext) -> Z0 * option (nat -> bool).
Variable scale : D -> D.
Variable abs_tol rel_tol : Q.

Notation lstate := (@lstate X Z0).
Notation outcome := (@outcome X Z0).
Notation step := (step n errf retr complete).
Notation body := (body n errf retr compute_delta gn_solve complete scale abs_tol rel_tol).
Notation loop := (loop n errf retr compute_delta gn_solve complete scale abs_tol rel_tol).
Notation check := (check_convergence n abs_tol rel_tol).

(** [s'] is reached from [s] by executions of the loop body (while the loop condition holds); the
    last one may stop the loop. *)
Definition stopped (o : outcome) : lstate := match o with Finished s | Failed s | Raised s => s end.
Inductive reaches (num : nat) (g li st : bool) : lstate -> lstate -> Prop :=
| r_refl s : reaches num g li st s s
| r_next s s1 s2 : (l_it s < num)%nat -> body g li st s = Next s1 -> reaches num g li st s1 s2 -> reaches num g li st s s2
| r_stop s o : (l_it s < num)%nat -> body g li st s = Stop o -> reaches num g li st s (stopped o).

Definition finish_outcome (o : outcome) : outcome :=
  match o with Finished s => Finished (finish_state s) | o => o end.

Lemma step_spec z x delta prev conv fu fg z' x' err ar :
  (forall i, (i < n)%nat -> prev i = errf (x i)) ->
  step z x delta prev conv fu fg = (z', x', err, ar) ->
  (ar = true -> x' = x /\ err = prev) /\
  (forall i, (i < n)%nat -> err i = errf (x' i)) /\
  (forall i, conv i = true -> fu = false -> x' i = x i).
Proof.
  intros Hp. unfold step, NL_model.step.
  destruct (if fg then (z, None)
            else complete z x delta (fun i => errf (if conv i && negb fu then x i else retr (x i) (delta i))) prev) as [z1 [m|]].
  - destruct (all_b n m) eqn:Ea.
    + intros H. injection H as <- <- <- <-. repeat split; auto.
    + intros H. injection H as <- <- <- <-. repeat split; try discriminate.
      * intros i Hi. destruct (any_b n m) eqn:Ey; [reflexivity|].
        assert (Hm : m i = false).
        { destruct (m i) eqn:Em; [|reflexivity]. rewrite <- Ey. symmetry. unfold any_b. apply existsb_exists.
          exists i. split; [apply in_seq; lia|exact Em]. }
        now rewrite Hm.
      * intros i Hc Hf. rewrite Hc, Hf. simpl. now destruct (m i).
  - intros H. injection H as <- <- <- <-. repeat split; try discriminate.
    intros i Hc Hf. rewrite Hc, Hf. reflexivity.
Qed.

(** What one execution of the body does. *)
Inductive body_rel (g li : bool) (s : lstate) : @control X Z0 -> Prop :=
| br_fail z : body_rel g li s
    (Stop (let s' := mkL z (l_x s) (l_it s) (l_attempts s) (l_conv s)
                  (if g then l_info s else with_status (l_info s) (fun _ => FAIL))
                  (l_iters_done s) (S (l_solves s)) (l_recorded s) in
           if g then Raised s' else Failed s'))
| br_retry z : (S (l_attempts s) < 3)%nat ->
    body_rel g li s (Next (mkL z (l_x s) (l_it s) (S (l_attempts s)) (l_conv s) (l_info s) (l_iters_done s) (S (l_solves s)) (l_recorded s)))
| br_record z x' err c :
    (forall i, (i < n)%nat -> err i = errf (x' i)) ->
    (forall i, l_conv s i = true -> li = false -> x' i = l_x s i) ->
    (let f1 := update_info n abs_tol rel_tol (l_info s) (l_it s) err (l_conv s) x' in
     let conv' := check err (i_last_err (l_info s)) in
     let f2 := with_status f1 (fun i => if conv' i then CONVERGED else i_status f1 i) in
     c = if all_b n conv'
         then Stop (Finished (mkL z x' (l_it s) 0 conv' f2 (l_iters_done s) (S (l_solves s)) (S (l_recorded s))))
         else Next (mkL z x' (S (l_it s)) 0 conv' (with_last_err f2 err) (S (l_iters_done s)) (S (l_solves s)) (S (l_recorded s)))) ->
    body_rel g li s c.

Lemma body_inv g li st s : (forall i, (i < n)%nat -> i_last_err (l_info s) i = errf (l_x s i)) ->
  body_rel g li s (body g li st s).
Proof.
  intros Hl. unfold body, NL_model.body.
  set (r := if li then _ else _). destruct r as [z [d|]].
  2:{ apply br_fail. }
  set (d' := if li then d else fun i => scale (d i)).
  destruct (step z (l_x s) d' (i_last_err (l_info s)) (l_conv s) li li) as [[[z' x'] err] ar] eqn:Es.
  apply step_spec in Es as (H1 & H2 & H3); [|exact Hl].
  destruct ar.
  - destruct (H1 eq_refl) as [-> ->]. cbn [andb].
    unfold max_all_reject_attempts. destruct (Nat.ltb_spec (S (l_attempts s)) 3) as [Hlt|Hge].
    + now apply br_retry.
    + eapply br_record; [exact H2|exact H3|reflexivity].
  - cbn [andb]. eapply br_record; [exact H2|exact H3|reflexivity].
Qed.

(** ---- the invariant ---- *)
Definition flagged (f : @info X) (c i : nat) : bool := check (i_err_hist f c) (i_err_hist f (c - 1)) i.

Definition no_nan_upto (f : @info X) (k i : nat) : Prop := forall c, (c <= k)%nat -> i_err_hist f c i <> NaN.

(** facts about the info after [k] recorded iterations, the last one leaving variables [x] *)
Record recorded_ok (k : nat) (x : nat -> X) (f : @info X) : Prop := {
  ro_hist : forall c i, (c <= k)%nat -> (i < n)%nat -> exists xi, i_state_hist f c i = Some xi /\ i_err_hist f c i = errf xi;
  ro_fresh : forall c, (k < c)%nat -> i_state_hist f c = (fun _ => None) /\ i_err_hist f c = (fun _ => PInf);
  ro_cur : forall i, i_state_hist f k i = Some (x i);
  ro_best : forall i, (i < n)%nat -> no_nan_upto f k i ->
     (forall c, (c <= k)%nat -> elt (i_err_hist f c i) (i_best_err f i) = false) /\
     exists c, (c <= k)%nat /\ i_err_hist f c i = i_best_err f i /\ i_state_hist f c i = Some (i_best_sol f i) /\
       i_best_iter f i = Nat.pred c /\ (forall c', (c' < c)%nat -> elt (i_best_err f i) (i_err_hist f c' i) = true)
}.

Record inv (num : nat) (s : lstate) : Prop := {
  iv_it : l_iters_done s = l_it s /\ l_recorded s = l_it s /\ (l_it s <= num)%nat;
  iv_att : (l_attempts s < 3)%nat /\ (l_it s = num -> l_attempts s = 0%nat);
  iv_solves : (l_solves s <= 3 * l_it s + l_attempts s)%nat;
  iv_last : forall i, (i < n)%nat -> i_last_err (l_info s) i = errf (l_x s i);
  iv_lasth : i_last_err (l_info s) = i_err_hist (l_info s) (l_it s);
  iv_rec : recorded_ok (l_it s) (l_x s) (l_info s);
  iv_status : forall i, (i < n)%nat -> i_status (l_info s) i = START \/ i_status (l_info s) i = CONVERGED;
  iv_flag_status : forall i, (i < n)%nat -> i_status (l_info s) i = START ->
     forall c, (1 <= c <= l_it s)%nat -> flagged (l_info s) c i = false;
  iv_status_flag : forall i, (i < n)%nat -> i_status (l_info s) i = CONVERGED ->
     exists c, (1 <= c <= l_it s)%nat /\ flagged (l_info s) c i = true
}.

Lemma recorded_ok_init x : recorded_ok 0 x (init_info errf x).
Proof.
  constructor.
  - intros c i Hc Hi. assert (c = 0)%nat by lia. subst c. exists (x i). split; reflexivity.
  - intros c Hc. unfold init_info, setcol. cbn [i_state_hist i_err_hist].
    destruct (Nat.eqb_spec c 0); [lia|]. split; reflexivity.
  - reflexivity.
  - intros i Hi Hn. split.
    + intros c Hc. assert (c = 0)%nat by lia. subst c. simpl.
      change (elt (errf (x i)) (errf (x i)) = false). destruct (errf (x i)); simpl; auto using Qltb_irrefl.
    + exists 0%nat. simpl. repeat split; auto. intros c' Hc'. lia.
Qed.

Lemma inv_init num z x : inv num (loop_init z x (init_info errf x)).
Proof.
  constructor; simpl; try lia; auto.
  - apply recorded_ok_init.
  - intros. discriminate.
Qed.

Lemma setcol_eq {A} (h : nat -> A) c x : setcol h c x c = x.
Proof. unfold setcol. now rewrite Nat.eqb_refl. Qed.
Lemma setcol_ne {A} (h : nat -> A) c x k : k <> c -> setcol h c x k = h k.
Proof. intros H. unfold setcol. now destruct (Nat.eqb_spec k c). Qed.

Lemma elt_trans_le a b c : elt a b = true -> elt c b = false -> b <> NaN -> c <> NaN -> elt a c = true.
Proof.
  destruct a as [x| |], b as [y| |], c as [w| |]; simpl; try congruence; auto.
  intros H1 H2 _ _. apply Qltb_spec in H1. apply Qltb_spec. unfold Qltb in H2.
  apply negb_false_iff, Qle_bool_iff in H2. eapply Qlt_le_trans; eauto.
Qed.

Lemma elt_chain a b c : elt c b = true -> elt a b = false -> elt a c = false.
Proof.
  destruct a as [x| |], b as [y| |], c as [w| |]; simpl; try congruence; auto.
  intros H1 H2. apply Qltb_spec in H1. unfold Qltb in *. apply negb_false_iff, Qle_bool_iff in H2.
  apply negb_false_iff, Qle_bool_iff. apply Qlt_le_weak. eapply Qlt_le_trans; eauto.
Qed.

Lemma elt_irrefl a : elt a a = false.
Proof. destruct a; simpl; auto using Qltb_irrefl. Qed.

(** recording one more iteration *)
Lemma recorded_ok_update k x f x' err conv :
  recorded_ok k x f -> (forall i, (i < n)%nat -> err i = errf (x' i)) ->
  recorded_ok (S k) x' (update_info n abs_tol rel_tol f k err conv x').
Proof.
  intros [H1 H2 H3 H4] He. constructor; unfold update_info; cbn [i_state_hist i_err_hist i_best_err i_best_sol i_best_iter].
  - intros c i Hc Hi. destruct (Nat.eq_dec c (S k)) as [->|Hne].
    + rewrite !setcol_eq. exists (x' i). split; [reflexivity|auto].
    + rewrite !setcol_ne by exact Hne. apply H1; lia.
  - intros c Hc. rewrite !setcol_ne by lia. apply H2. lia.
  - intros i. now rewrite setcol_eq.
  - intros i Hi Hn.
    assert (Hn' : no_nan_upto f k i).
    { intros c Hc E. apply (Hn c); [lia|]. cbn [i_err_hist]. rewrite setcol_ne by lia. exact E. }
    assert (Hnk : err i <> NaN). { pose proof (Hn (S k) (le_n _)) as E. cbn [i_err_hist] in E. now rewrite setcol_eq in E. }
    destruct (H4 i Hi Hn') as (A & c0 & B1 & B2 & B3 & B4 & B5).
    assert (Hbn : i_best_err f i <> NaN) by (rewrite <- B2; now apply Hn').
    assert (Emin : emin (i_best_err f i) (err i) = if elt (err i) (i_best_err f i) then err i else i_best_err f i).
    { destruct (i_best_err f i), (err i); try congruence; reflexivity. }
    rewrite Emin. destruct (elt (err i) (i_best_err f i)) eqn:Eg.
    + split.
      * intros c Hc. destruct (Nat.eq_dec c (S k)) as [->|Hne].
        -- rewrite setcol_eq. apply elt_irrefl.
        -- rewrite setcol_ne by exact Hne. eapply elt_chain; [exact Eg|]. apply A. lia.
      * exists (S k). rewrite !setcol_eq. repeat split; auto.
        intros c' Hc'. rewrite setcol_ne by lia. eapply elt_trans_le; [exact Eg| |exact Hbn|apply Hn'; lia].
        apply A. lia.
    + split.
      * intros c Hc. destruct (Nat.eq_dec c (S k)) as [->|Hne].
        -- now rewrite setcol_eq.
        -- rewrite setcol_ne by exact Hne. apply A. lia.
      * exists c0. rewrite !setcol_ne by lia. repeat split; auto; try lia.
        intros c' Hc'. rewrite setcol_ne by lia. apply B5. exact Hc'.
Qed.

Lemma recorded_ok_ext k x f g : recorded_ok k x f ->
  i_err_hist g = i_err_hist f -> i_state_hist g = i_state_hist f -> i_best_err g = i_best_err f ->
  i_best_sol g = i_best_sol f -> i_best_iter g = i_best_iter f -> recorded_ok k x g.
Proof.
  intros [H1 H2 H3 H4] E1 E2 E3 E4 E5. constructor.
  - intros c i. rewrite E1, E2. apply H1.
  - intros c. rewrite E1, E2. apply H2.
  - intros i. rewrite E2. apply H3.
  - intros i Hi Hn. rewrite E1, E2, E3, E4, E5. apply H4; [exact Hi|]. intros c Hc. rewrite <- E1. now apply Hn.
Qed.

(** the info after one recorded iteration, whether or not the loop goes on *)
Definition next_info (s : lstate) (err : nat -> ext) (x' : nat -> X) : @info X :=
  let f1 := update_info n abs_tol rel_tol (l_info s) (l_it s) err (l_conv s) x' in
  with_status f1 (fun i => if check err (i_last_err (l_info s)) i then CONVERGED else i_status f1 i).

Lemma next_info_status s err x' i :
  i_status (next_info s err x') i = if check err (i_last_err (l_info s)) i then CONVERGED else i_status (l_info s) i.
Proof. unfold next_info. cbn [i_status with_status update_info]. now destruct (check err (i_last_err (l_info s)) i). Qed.

Lemma next_info_rec num s err x' : inv num s -> (forall i, (i < n)%nat -> err i = errf (x' i)) ->
  recorded_ok (S (l_it s)) x' (next_info s err x').
Proof.
  intros HI He. eapply recorded_ok_ext; [eapply (recorded_ok_update _ _ _ _ _ (l_conv s)); [apply (iv_rec _ _ HI)|exact He]|..]; reflexivity.
Qed.

Lemma next_info_flag num s err x' : inv num s ->
  (forall c i, (1 <= c <= l_it s)%nat -> flagged (next_info s err x') c i = flagged (l_info s) c i) /\
  (forall i, flagged (next_info s err x') (S (l_it s)) i = check err (i_last_err (l_info s)) i).
Proof.
  intros HI. unfold flagged, next_info. cbn [i_err_hist with_status update_info]. split.
  - intros c i Hc. now rewrite !setcol_ne by lia.
  - intros i. rewrite setcol_eq, setcol_ne by lia. replace (S (l_it s) - 1)%nat with (l_it s) by lia.
    now rewrite <- (iv_lasth _ _ HI).
Qed.

Lemma next_info_inv num s err x' : inv num s -> (forall i, (i < n)%nat -> err i = errf (x' i)) ->
  let f := next_info s err x' in
  (forall i, (i < n)%nat -> i_status f i = START \/ i_status f i = CONVERGED) /\
  (forall i, (i < n)%nat -> i_status f i = START -> forall c, (1 <= c <= S (l_it s))%nat -> flagged f c i = false) /\
  (forall i, (i < n)%nat -> i_status f i = CONVERGED -> exists c, (1 <= c <= S (l_it s))%nat /\ flagged f c i = true).
Proof.
  intros HI He f. destruct (next_info_flag num s err x' HI) as [F1 F2].
  split; [|split].
  - intros i Hi. unfold f. rewrite next_info_status. destruct (check err _ i); [now right|]. now apply (iv_status _ _ HI).
  - intros i Hi Hs c Hc. unfold f in *. rewrite next_info_status in Hs.
    destruct (check err (i_last_err (l_info s)) i) eqn:Ec; [discriminate|].
    destruct (Nat.eq_dec c (S (l_it s))) as [->|Hne]; [now rewrite F2|].
    rewrite F1 by lia. apply (iv_flag_status _ _ HI); auto. lia.
  - intros i Hi Hs. unfold f in *. rewrite next_info_status in Hs.
    destruct (check err (i_last_err (l_info s)) i) eqn:Ec.
    + exists (S (l_it s)). split; [lia|]. now rewrite F2.
    + destruct (iv_status_flag _ _ HI i Hi Hs) as (c & Hc & Hf). exists c. split; [lia|]. rewrite F1 by lia. exact Hf.
Qed.

Lemma body_next_inv num g li st s s' : inv num s -> (l_it s < num)%nat -> body g li st s = Next s' ->
  inv num s' /\ ((3 * l_it s' + l_attempts s') > (3 * l_it s + l_attempts s))%nat.
Proof.
  intros HI Hlt Hb. pose proof (body_inv g li st s (iv_last _ _ HI)) as HB. rewrite Hb in HB.
  inversion HB as [z Hz | z Hr Hz | z x' err c He Hfr Hc].
  - subst s'. destruct HI as [I1 I2 I3 I4 I5 I6 I7 I8 I9]. split; [constructor; simpl; try assumption; lia|simpl; lia].
  - subst c. cbv zeta in Hc. destruct (all_b n (check err (i_last_err (l_info s)))); [discriminate|]. injection Hc as ->.
    pose proof (next_info_inv num s err x' HI He) as (N1 & N2 & N3).
    pose proof (next_info_rec num s err x' HI He) as NR.
    destruct HI as [I1 I2 I3 I4 I5 I6 I7 I8 I9]. split.
    + constructor; cbn [l_iters_done l_it l_recorded l_attempts l_solves l_info l_x i_last_err with_last_err]; try lia.
      * exact He.
      * simpl. now rewrite setcol_eq.
      * eapply recorded_ok_ext; [exact NR|..]; reflexivity.
      * exact N1.
      * exact N2.
      * exact N3.
    + simpl. lia.
Qed.

(** facts at the end of a loop, before the START elements are turned into MAX_ITERATIONS *)
Record fin (num : nat) (failed : bool) (s : lstate) : Prop := {
  fn_done : (l_iters_done s <= num)%nat;
  fn_rec : (l_recorded s <= num)%nat /\ (l_recorded s = l_iters_done s \/
            (l_recorded s = S (l_iters_done s) /\ failed = false /\ forall i, (i < n)%nat -> l_conv s i = true));
  fn_solves : (l_solves s <= 3 * num)%nat;
  fn_ok : recorded_ok (l_recorded s) (l_x s) (l_info s);
  fn_status : if failed then True else
     (forall i, (i < n)%nat -> i_status (l_info s) i = START \/ i_status (l_info s) i = CONVERGED) /\
     (forall i, (i < n)%nat -> i_status (l_info s) i = START -> l_recorded s = num) /\
     (forall i, (i < n)%nat -> i_status (l_info s) i = START -> forall c, (1 <= c <= l_recorded s)%nat -> flagged (l_info s) c i = false) /\
     (forall i, (i < n)%nat -> i_status (l_info s) i = CONVERGED -> exists c, (1 <= c <= l_recorded s)%nat /\ flagged (l_info s) c i = true)
}.

Definition is_failed (o : outcome) : bool := match o with Finished _ => false | _ => true end.

Lemma all_b_true m : all_b n m = true -> forall i, (i < n)%nat -> m i = true.
Proof. intros H i Hi. unfold all_b in H. rewrite forallb_forall in H. apply H. apply in_seq. lia. Qed.

Lemma body_stop_fin num g li st s o : inv num s -> (l_it s < num)%nat -> body g li st s = Stop o ->
  fin num (is_failed o) (stopped o).
Proof.
  intros HI Hlt Hb. pose proof (body_inv g li st s (iv_last _ _ HI)) as HB. rewrite Hb in HB.
  inversion HB as [z Hz | z Hr Hz | z x' err c He Hfr Hc].
  - cbv zeta in Hz. destruct HI as [I1 I2 I3 I4 I5 I6 I7 I8 I9]. destruct g; subst o;
      (constructor; cbn [is_failed stopped l_iters_done l_recorded l_solves l_info l_x]; try lia; auto; try (split; [lia|left; lia]);
       replace (l_recorded s) with (l_it s) by lia; eapply recorded_ok_ext; [exact I6|..]; reflexivity).
  - subst c. cbv zeta in Hc. destruct (all_b n (check err (i_last_err (l_info s)))) eqn:Ea; [|discriminate]. injection Hc as ->.
    pose proof (next_info_inv num s err x' HI He) as (N1 & N2 & N3).
    pose proof (next_info_rec num s err x' HI He) as NR.
    pose proof (all_b_true _ Ea) as Hall.
    destruct HI as [I1 I2 I3 I4 I5 I6 I7 I8 I9].
    constructor; cbn [is_failed stopped l_iters_done l_recorded l_solves l_info l_x l_conv].
    + lia.
    + split; [lia|]. right. repeat split; [lia|]. exact Hall.
    + lia.
    + replace (S (l_recorded s)) with (S (l_it s)) by lia. exact NR.
    + replace (l_recorded s) with (l_it s) by lia. split; [exact N1|]. split; [|split; [exact N2|exact N3]].
      intros i Hi Hs. exfalso. change (i_status (next_info s err x') i = START) in Hs.
      rewrite next_info_status, (Hall i Hi) in Hs. discriminate.
Qed.

Lemma inv_fin num s : inv num s -> ~ (l_it s < num)%nat -> fin num false s.
Proof.
  intros [I1 I2 I3 I4 I5 I6 I7 I8 I9] Hge. constructor.
  - lia.
  - split; [lia|left; lia].
  - assert (H : l_it s = num) by lia. rewrite <- H. destruct I2 as [_ I2]. specialize (I2 H). lia.
  - replace (l_recorded s) with (l_it s) by lia. exact I6.
  - replace (l_recorded s) with (l_it s) by lia. repeat split; auto. intros. lia.
Qed.

Definition kind_ok (g : bool) (o : outcome) : Prop :=
  match o with
  | Finished _ => True
  | Failed s => g = false /\ forall i, i_status (l_info s) i = FAIL
  | Raised _ => g = true
  end.

Lemma body_stop_kind num g li st s o : inv num s -> body g li st s = Stop o -> kind_ok g o.
Proof.
  intros HI Hb. pose proof (body_inv g li st s (iv_last _ _ HI)) as HB. rewrite Hb in HB.
  inversion HB as [z Hz | z Hr Hz | z x' err c He Hfr Hc].
  - cbv zeta in Hz. destruct g; subst o; simpl; auto.
  - subst c. cbv zeta in Hc. destruct (all_b n (check err (i_last_err (l_info s)))); [|discriminate]. injection Hc as ->. exact I.
Qed.

(** every run of the loop ends, within [3 * (num - it) - attempts] executions of the body *)
Lemma loop_ends num g li st : forall fuel s, inv num s ->
  (3 * num <= 3 * l_it s + l_attempts s + fuel)%nat ->
  exists o, loop fuel num g li st s = Some (finish_outcome o) /\ fin num (is_failed o) (stopped o) /\
    reaches num g li st s (stopped o) /\ kind_ok g o.
Proof.
  induction fuel as [|k IH]; intros s HI Hf; simpl.
  - destruct (Nat.ltb_spec (l_it s) num) as [Hlt|Hge].
    + exfalso. destruct HI. lia.
    + exists (Finished s). split; [reflexivity|]. split; [apply inv_fin; [exact HI|simpl; lia]|]. split; [constructor|exact I].
  - destruct (Nat.ltb_spec (l_it s) num) as [Hlt|Hge].
    + destruct (body g li st s) as [s'|o] eqn:Eb.
      * destruct (body_next_inv num g li st s s' HI Hlt Eb) as [HI' Hm].
        destruct (IH s' HI') as (o & E1 & E2 & E3 & E4); [lia|]. exists o. split; [exact E1|]. split; [exact E2|].
        split; [|exact E4]. eapply r_next; eauto.
      * exists o. pose proof (body_stop_fin num g li st s o HI Hlt Eb) as Hfin.
        split; [destruct o; reflexivity|]. split; [exact Hfin|]. split; [now apply r_stop|]. eapply body_stop_kind; eauto.
    + exists (Finished s). split; [reflexivity|]. split; [apply inv_fin; [exact HI|simpl; lia]|]. split; [constructor|exact I].
Qed.

(** ---- converged elements are frozen ---- *)
Section Frozen.
Hypothesis Htol : (0 < abs_tol)%Q.

Definition conv_inv (s : lstate) : Prop :=
  forall i, (i < n)%nat -> i_status (l_info s) i = CONVERGED ->
    l_conv s i = true /\ exists q, i_last_err (l_info s) i = Fin q.

Lemma check_same err last i q : err i = Fin q -> last i = Fin q -> check err last i = true.
Proof.
  intros E1 E2. unfold check_convergence. destruct (elt (emean n err) (Fin abs_tol)); [reflexivity|].
  rewrite E1, E2. cbn [eabsdiff elt]. apply orb_true_iff. left. apply Qltb_spec.
  setoid_replace (q - q)%Q with 0%Q by ring. exact Htol.
Qed.

Lemma check_fin err last i : check err last i = true ->
  elt (emean n err) (Fin abs_tol) = false -> exists q, err i = Fin q.
Proof.
  unfold check_convergence. intros H E. rewrite E in H. destruct (err i) as [q| |] eqn:Ei; [eauto| |].
  - destruct (last i) as [p| |]; simpl in H; discriminate.
  - destruct (last i) as [p| |]; simpl in H; discriminate.
Qed.

Lemma conv_inv_init z x : conv_inv (loop_init z x (init_info errf x)).
Proof. intros i Hi H. discriminate H. Qed.

Lemma all_b_const_true m : (forall i, m i = true) -> all_b n m = true.
Proof. intros H. unfold all_b. apply forallb_forall. auto. Qed.

(** one execution of the body keeps converged elements *)
Lemma body_frozen num g st s s' : inv num s -> conv_inv s ->
  (body g false st s = Next s' \/ exists o, body g false st s = Stop o /\ s' = stopped o) ->
  (forall i, (i < n)%nat -> i_status (l_info s) i = CONVERGED ->
     l_x s' i = l_x s i /\ (i_status (l_info s') i = CONVERGED \/ i_status (l_info s') i = FAIL)) /\
  (body g false st s = Next s' -> conv_inv s').
Proof.
  intros HI HC Hb. pose proof (body_inv g false st s (iv_last _ _ HI)) as HB.
  inversion HB as [z Hz | z Hr Hz | z x' err c He Hfr Hc].
  - cbv zeta in Hz. destruct Hb as [Hb|(o & Hb & ->)]; [rewrite Hb in Hz; destruct g; discriminate|].
    rewrite Hb in Hz. split; [|congruence]. intros i Hi Hs. destruct g; injection Hz as <-; simpl; auto.
  - destruct Hb as [Hb|(o & Hb & ->)]; [|congruence]. rewrite Hb in Hz. injection Hz as <-.
    split; [|intros _; exact HC]. intros i Hi Hs. simpl. auto.
  - cbv zeta in Hc. rewrite Hc in Hb, HB. clear HB. subst c.
    assert (Hkeep : forall i, (i < n)%nat -> i_status (l_info s) i = CONVERGED -> x' i = l_x s i /\ check err (i_last_err (l_info s)) i = true).
    { intros i Hi Hs. destruct (HC i Hi Hs) as (Hcv & q & Hq). pose proof (Hfr i Hcv eq_refl) as Hx. split; [exact Hx|].
      apply check_same with (q := q); [|exact Hq]. rewrite He, Hx by exact Hi. now rewrite <- (iv_last _ _ HI i Hi). }
    destruct (all_b n (check err (i_last_err (l_info s)))) eqn:Ea.
    + destruct Hb as [Hb|(o & Hb & ->)]; [congruence|]. split; [|congruence].
      assert (Ho : o = Finished (mkL z x' (l_it s) 0 (check err (i_last_err (l_info s))) (next_info s err x') (l_iters_done s) (S (l_solves s)) (S (l_recorded s)))) by (unfold next_info; congruence).
      subst o. intros i Hi Hs. cbn [stopped l_x l_info]. destruct (Hkeep i Hi Hs) as [Hx Hck]. split; [exact Hx|].
      left. rewrite next_info_status. now rewrite Hck.
    + destruct Hb as [Hb|(o & Hb & ->)]; [|congruence].
      assert (Ho : s' = mkL z x' (S (l_it s)) 0 (check err (i_last_err (l_info s))) (with_last_err (next_info s err x') err) (S (l_iters_done s)) (S (l_solves s)) (S (l_recorded s))) by (unfold next_info; congruence).
      clear Hb Hc. subst s'. cbn [l_x l_info]. split.
      * intros i Hi Hs. destruct (Hkeep i Hi Hs) as [Hx Hck]. split; [exact Hx|].
        left. change (i_status (next_info s err x') i = CONVERGED). rewrite next_info_status. now rewrite Hck.
      * intros _ i Hi Hs. cbn [l_info l_conv with_last_err i_last_err i_status] in *.
        change (i_status (next_info s err x') i = CONVERGED) in Hs. rewrite next_info_status in Hs.
        assert (Hck : check err (i_last_err (l_info s)) i = true).
        { destruct (check err (i_last_err (l_info s)) i) eqn:Eck; [reflexivity|]. now rewrite <- Eck; apply Hkeep. }
        split; [exact Hck|]. apply check_fin with (last := i_last_err (l_info s)); [exact Hck|].
        destruct (elt (emean n err) (Fin abs_tol)) eqn:Em; [|reflexivity].
        rewrite all_b_const_true in Ea; [discriminate|]. intros j. unfold check_convergence. now rewrite Em.
Qed.

Lemma reaches_frozen num g st s s' : reaches num g false st s s' -> inv num s -> conv_inv s ->
  forall i, (i < n)%nat -> i_status (l_info s) i = CONVERGED ->
    l_x s' i = l_x s i /\ (i_status (l_info s') i = CONVERGED \/ i_status (l_info s') i = FAIL).
Proof.
  induction 1 as [s|s s1 s2 Hlt Hb Hr IH|s o Hlt Hb]; intros HI HC i Hi Hs.
  - auto.
  - destruct (body_frozen num g st s s1 HI HC (or_introl Hb)) as [F1 F2].
    destruct (F1 i Hi Hs) as [Hx [Hs1|Hs1]].
    + destruct (body_next_inv num g false st s s1 HI Hlt Hb) as [HI1 _].
      destruct (IH HI1 (F2 Hb) i Hi Hs1) as [Hx2 Hs2]. split; [congruence|exact Hs2].
    + exfalso. destruct (body_next_inv num g false st s s1 HI Hlt Hb) as [HI1 _].
      destruct (iv_status _ _ HI1 i Hi); congruence.
  - apply (body_frozen num g st s (stopped o) HI HC); eauto.
Qed.
End Frozen.
End P.
