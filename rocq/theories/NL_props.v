(** C15-C20, C43: the optimization loop and its bookkeeping. *)
From Coq Require Import List Arith Bool ZArith QArith Qabs Lia.
Import ListNotations.
From Verif Require Import NL_model NL_proofs.

Section P.
Context {X D Z0 : Type}.
Variable n : nat.
Variable errf : X -> ext.
Variable retr : X -> D -> X.
Variable compute_delta : Z0 -> (nat -> X) -> Z0 * option (nat -> D).
Variable gn_solve : Z0 -> (nat -> X) -> Z0 * option (nat -> D).
Variable complete : Z0 -> (nat -> X) -> (nat -> D) -> (nat -> ext) -> (nat -> ext) -> Z0 * option (nat -> bool).
Variable scale : D -> D.
Variable abs_tol rel_tol : Q.

Notation lstate := (@lstate X Z0).
Notation body := (body n errf retr compute_delta gn_solve complete scale abs_tol rel_tol).
Notation loop := (loop n errf retr compute_delta gn_solve complete scale abs_tol rel_tol).
Notation check := (check_convergence n abs_tol rel_tol).
Notation optimize_unroll := (optimize_unroll n errf retr compute_delta gn_solve complete scale abs_tol rel_tol).
Notation optimize_two_loops := (optimize_two_loops n errf retr compute_delta gn_solve complete scale abs_tol rel_tol).
Notation reaches := (reaches n errf retr compute_delta gn_solve complete scale abs_tol rel_tol).
Notation inv := (inv n errf abs_tol rel_tol).
Notation fin := (fin n errf abs_tol rel_tol).
Notation flagged := (flagged n abs_tol rel_tol).
Notation next_info := (next_info n abs_tol rel_tol).

Lemma loop_fuel_mono num g li st : forall k1 k2 s o, loop k1 num g li st s = Some o -> (k1 <= k2)%nat ->
  loop k2 num g li st s = Some o.
Proof.
  induction k1 as [|k1 IH]; intros k2 s o H Hle; simpl in H.
  - destruct (l_it s <? num)%nat eqn:E; [discriminate|]. destruct k2; simpl; now rewrite E.
  - destruct k2 as [|k2]; [lia|]. simpl. destruct (l_it s <? num)%nat eqn:E; [|exact H].
    destruct (body g li st s) as [s'|[s'|s'|s']]; auto. apply IH; [exact H|lia].
Qed.

(** C15. Whatever the linear solver, the retraction, the error and the accept/reject decisions are:
    the loop ends after at most [3 * num] step computations, [iters_done] and the number of recorded
    iterations are at most [num], and columns of the history beyond [num] are never written. *)
Theorem C15_loop_terminates : forall num g li st z x,
  exists o, (forall fuel, (3 * num <= fuel)%nat -> loop fuel num g li st (loop_init z x (init_info errf x)) = Some o) /\
    (l_solves (stopped o) <= 3 * num)%nat /\ (l_iters_done (stopped o) <= num)%nat /\ (l_recorded (stopped o) <= num)%nat /\
    (forall c, (num < c)%nat -> i_state_hist (l_info (stopped o)) c = fun _ => None).
Proof.
  intros num g li st z x.
  destruct (loop_ends n errf retr compute_delta gn_solve complete scale abs_tol rel_tol num g li st (3 * num)
              _ (inv_init n errf abs_tol rel_tol num z x)) as (o & E & F & _ & _).
  { simpl. lia. }
  exists (finish_outcome o). split.
  { intros fuel Hf. eapply loop_fuel_mono; [exact E|exact Hf]. }
  destruct F as [F1 F2 F3 F4 F5].
  assert (Hc : forall c, (num < c)%nat -> i_state_hist (l_info (stopped o)) c = fun _ => None).
  { intros c Hc. apply (ro_fresh _ _ _ _ _ F4). lia. }
  destruct o; simpl in *; repeat split; auto; lia.
Qed.

(** With gradients disabled the call never raises, whatever the solver does. *)
Theorem C15_no_grad_never_raises : forall max_iter st z x, optimize_unroll max_iter false st z x <> None.
Proof.
  intros m st z x. unfold optimize_unroll, NL_model.optimize_unroll.
  destruct (loop_ends n errf retr compute_delta gn_solve complete scale abs_tol rel_tol m false false st (3 * m)
              _ (inv_init n errf abs_tol rel_tol m z x)) as (o & -> & _ & _ & K); [simpl; lia|].
  destruct o as [s|s|s]; simpl in *; discriminate.
Qed.

(** ---- C16, C17 ---- *)
Definition first_flagged (f : @info X) (i c : nat) : Prop :=
  (1 <= c)%nat /\ flagged f c i = true /\ forall c', (1 <= c' < c)%nat -> flagged f c' i = false.

Section Tol.
Hypothesis Htol : (0 < abs_tol)%Q.

Definition citer_inv (it : nat) (f : @info X) : Prop := forall i, (i < n)%nat ->
  (i_status f i = START -> i_converged_iter f i = Z.of_nat it) /\
  (i_status f i = CONVERGED -> exists c, (c <= it)%nat /\ i_converged_iter f i = Z.of_nat c /\ first_flagged f i c /\
     forall c', (c <= c' <= it)%nat -> i_state_hist f c' i = i_state_hist f c i).
Definition conv_status (s : lstate) : Prop := forall i, (i < n)%nat -> l_conv s i = true -> i_status (l_info s) i = CONVERGED.

Lemma next_citer num s err x' : inv num s -> (forall i, l_conv s i = true -> x' i = l_x s i) -> conv_inv n s -> conv_status s -> citer_inv (l_it s) (l_info s) ->
  citer_inv (S (l_it s)) (next_info s err x').
Proof.
  intros HI Hfz HC HS HK i Hi. destruct (HK i Hi) as [K1 K2].
  destruct (next_info_flag n errf abs_tol rel_tol num s err x' HI) as [F1 F2].
  assert (Eci : i_converged_iter (next_info s err x') i = (i_converged_iter (l_info s) i + (1 - (if l_conv s i then 1 else 0)))%Z) by reflexivity.
  rewrite (next_info_status n abs_tol rel_tol s err x' i), Eci.
  destruct (iv_status _ _ _ _ _ _ HI i Hi) as [Es|Es].
  - assert (Hcv : l_conv s i = false). { destruct (l_conv s i) eqn:Ec; [|reflexivity]. rewrite (HS i Hi Ec) in Es. discriminate. }
    rewrite Hcv, (K1 Es). split; [intros _; lia|].
    destruct (check err (i_last_err (l_info s)) i) eqn:Eck; [|congruence]. intros _.
    exists (S (l_it s)). split; [lia|]. split; [lia|]. split.
    { split; [lia|]. split; [now rewrite F2|].
      intros c' Hc'. rewrite F1 by lia. apply (iv_flag_status _ _ _ _ _ _ HI i Hi Es). lia. }
    intros c' Hc'. now replace c' with (S (l_it s)) by lia.
  - destruct (HC i Hi Es) as [Hcv _]. rewrite Hcv. split.
    { rewrite Es. destruct (check err (i_last_err (l_info s)) i); discriminate. }
    intros _. destruct (K2 Es) as (c & C1 & C2 & (C3 & C4 & C5) & C6). exists c. split; [lia|]. split; [lia|]. split.
    { split; [exact C3|]. split; [rewrite F1 by lia; exact C4|]. intros c' Hc'. rewrite F1 by lia. now apply C5. }
    intros c' Hc'. unfold next_info, NL_proofs.next_info. cbn [i_state_hist with_status update_info].
    rewrite (setcol_ne _ _ _ c) by lia. destruct (Nat.eq_dec c' (S (l_it s))) as [->|Hne].
    + rewrite setcol_eq, (Hfz i Hcv), <- (C6 (l_it s)) by lia. symmetry. apply (ro_cur _ _ _ _ _ (iv_rec _ _ _ _ _ _ HI)).
    + rewrite setcol_ne by exact Hne. apply C6. lia.
Qed.

(** everything about the state in which a loop without implicit step ends *)
Lemma reaches_citer num g st s s' : reaches num g false st s s' ->
  inv num s -> conv_inv n s -> conv_status s -> citer_inv (l_it s) (l_info s) ->
  (forall i, (i < n)%nat -> i_status (l_info s') i <> FAIL) -> l_recorded s' = l_recorded s' ->
  citer_inv (l_recorded s') (l_info s').
Proof.
  induction 1 as [s|s s1 s2 Hlt Hb Hr IH|s o Hlt Hb]; intros HI HC HS HK Hnf _.
  - destruct (iv_it _ _ _ _ _ _ HI) as (_ & -> & _). exact HK.
  - apply IH; auto.
    + eapply body_next_inv; eauto.
    + eapply (body_frozen n errf retr compute_delta gn_solve complete scale abs_tol rel_tol Htol); eauto.
    + pose proof (body_inv n errf retr compute_delta gn_solve complete scale abs_tol rel_tol g false st s (iv_last _ _ _ _ _ _ HI)) as HB.
      rewrite Hb in HB. inversion HB as [z Hz | z Hr' Hz | z x' err c He Hfr Hc].
      * subst s1. exact HS.
      * subst c. cbv zeta in Hc. destruct (all_b n (check err (i_last_err (l_info s)))); [discriminate|]. injection Hc as ->.
        intros i Hi Hcv. cbn [l_conv l_info] in *. change (i_status (next_info s err x') i = CONVERGED).
        rewrite (next_info_status n abs_tol rel_tol s err x' i). now rewrite Hcv.
    + pose proof (body_inv n errf retr compute_delta gn_solve complete scale abs_tol rel_tol g false st s (iv_last _ _ _ _ _ _ HI)) as HB.
      rewrite Hb in HB. inversion HB as [z Hz | z Hr' Hz | z x' err c He Hfr Hc].
      * subst s1. exact HK.
      * subst c. cbv zeta in Hc. destruct (all_b n (check err (i_last_err (l_info s)))); [discriminate|]. injection Hc as ->.
        exact (next_citer num s err x' HI (fun i Hc0 => Hfr i Hc0 eq_refl) HC HS HK).
  - pose proof (body_inv n errf retr compute_delta gn_solve complete scale abs_tol rel_tol g false st s (iv_last _ _ _ _ _ _ HI)) as HB.
    rewrite Hb in HB. inversion HB as [z Hz | z Hr' Hz | z x' err c He Hfr Hc].
    + cbv zeta in Hz. destruct g; subst o; simpl in *.
      * destruct (iv_it _ _ _ _ _ _ HI) as (_ & -> & _). exact HK.
      * intros i Hi. exfalso. now apply (Hnf i Hi).
    + subst c. cbv zeta in Hc. destruct (all_b n (check err (i_last_err (l_info s)))); [|discriminate]. injection Hc as ->.
      cbn [stopped l_recorded l_info]. destruct (iv_it _ _ _ _ _ _ HI) as (_ & -> & _).
      exact (next_citer num s err x' HI (fun i Hc0 => Hfr i Hc0 eq_refl) HC HS HK).
Qed.

(** C16. [flagged f c i] is the convergence test of the code applied to columns [c] and [c-1] of the
    recorded error history. Unless the solver failed (then all elements are FAIL), every element is either
    MAX_ITERATIONS, with converged_iter -1 and never flagged, or CONVERGED, with converged_iter the first
    column at which it was flagged. *)
Theorem C16_status_meaningful : forall max_iter g st z x f x',
  optimize_unroll max_iter g st z x = Some (f, x') ->
  (forall i, (i < n)%nat -> i_status f i = FAIL) \/
  (forall i, (i < n)%nat ->
     (i_status f i = MAX_ITERATIONS /\ i_converged_iter f i = (-1)%Z /\
        forall c, (1 <= c <= max_iter)%nat -> flagged f c i = false) \/
     (i_status f i = CONVERGED /\ exists c, (c <= max_iter)%nat /\ i_converged_iter f i = Z.of_nat c /\ first_flagged f i c)).
Proof.
  intros m g st z x f x'. unfold optimize_unroll, NL_model.optimize_unroll.
  destruct (loop_ends n errf retr compute_delta gn_solve complete scale abs_tol rel_tol m g false st (3 * m)
              _ (inv_init n errf abs_tol rel_tol m z x)) as (o & -> & F & R & K); [simpl; lia|].
  destruct o as [s|s|s]; cbn [finish_outcome outcome_state]; [| |discriminate]; intros H; injection H as <- <-.
  - right. cbn [is_failed stopped] in *. destruct F as [F1 F2 F3 F4 (S1 & S2 & S3 & S4)].
    assert (HK : citer_inv (l_recorded s) (l_info s)).
    { apply (reaches_citer m g st _ _ R).
      - apply inv_init.
      - apply conv_inv_init.
      - intros i Hi Hc. discriminate Hc.
      - intros i Hi. split; [reflexivity|discriminate].
      - intros i Hi E. destruct (S1 i Hi); congruence.
      - reflexivity. }
    intros i Hi. destruct (HK i Hi) as [K1 K2].
    unfold finish_state, finish, with_status, with_converged_iter. cbn [l_info i_status i_converged_iter].
    destruct (S1 i Hi) as [E|E]; rewrite E; cbn [status_eqb].
    + left. repeat split; auto. intros c Hc. apply (S3 i Hi E). rewrite (S2 i Hi E). lia.
    + right. split; [reflexivity|]. destruct (K2 E) as (c & C1 & C2 & C3 & C4). exists c. split; [lia|]. split; [exact C2|exact C3].
  - left. intros i Hi. cbn [with_converged_iter i_status]. apply K.
Qed.

(** the loop is at [s'] after some executions of the body, and goes on *)
Inductive runs_to (num : nat) (g st : bool) : lstate -> lstate -> Prop :=
| rt_refl s : runs_to num g st s s
| rt_next s s1 s2 : (l_it s < num)%nat -> body g false st s = Next s1 -> runs_to num g st s1 s2 -> runs_to num g st s s2.

(** C17. In a loop without implicit step: an element whose status is CONVERGED at some point keeps
    its variables and its status (unless the solver fails) for the rest of the loop. *)
Theorem C17_converged_frozen : forall num g st z x s1 s2,
  runs_to num g st (loop_init z x (init_info errf x)) s1 -> reaches num g false st s1 s2 ->
  forall i, (i < n)%nat -> i_status (l_info s1) i = CONVERGED ->
    l_x s2 i = l_x s1 i /\ (i_status (l_info s2) i = CONVERGED \/ i_status (l_info s2) i = FAIL).
Proof.
  intros num g st z x s1 s2 H1 H2.
  assert (HH : inv num s1 /\ conv_inv n s1).
  { revert H1. generalize (inv_init n errf abs_tol rel_tol num z x). generalize (conv_inv_init n errf z x).
    generalize (loop_init z x (init_info errf x)). intros s0 C0 I0 H1.
    induction H1 as [s|s s' s'' Hlt Hb Hr IH]; [auto|]. apply IH; auto.
    - eapply (body_frozen n errf retr compute_delta gn_solve complete scale abs_tol rel_tol Htol); eauto.
    - eapply body_next_inv; eauto. }
  destruct HH as [HI HC]. intros i Hi Hs.
  exact (reaches_frozen n errf retr compute_delta gn_solve complete scale abs_tol rel_tol Htol num g st s1 s2 H2 HI HC i Hi Hs).
Qed.

(** C17 in terms of the returned state history: from the column at which an element was first
    flagged on, its recorded state does not change, and the returned variables are that state. *)
Theorem C17_history_constant : forall max_iter g st z x f x',
  optimize_unroll max_iter g st z x = Some (f, x') ->
  forall i c, (i < n)%nat -> i_status f i = CONVERGED -> first_flagged f i c ->
    (forall c' y, (c <= c')%nat -> i_state_hist f c' i = Some y -> i_state_hist f c i = Some y) /\
    i_state_hist f c i = Some (x' i).
Proof.
  intros m g st z x f x'. unfold optimize_unroll, NL_model.optimize_unroll.
  destruct (loop_ends n errf retr compute_delta gn_solve complete scale abs_tol rel_tol m g false st (3 * m)
              _ (inv_init n errf abs_tol rel_tol m z x)) as (o & -> & F & R & K); [simpl; lia|].
  destruct o as [s|s|s]; cbn [finish_outcome outcome_state]; [| |discriminate]; intros H; injection H as <- <-; intros i c Hi Hst Hff.
  2:{ destruct K as [_ K]. cbn [with_converged_iter i_status] in Hst. rewrite K in Hst. discriminate. }
  cbn [is_failed stopped] in *. destruct F as [F1 F2 F3 F4 (S1 & S2 & S3 & S4)].
  assert (HK : citer_inv (l_recorded s) (l_info s)).
  { apply (reaches_citer m g st _ _ R).
    - apply inv_init.
    - apply conv_inv_init.
    - intros j Hj Hc. discriminate Hc.
    - intros j Hj. split; [reflexivity|discriminate].
    - intros j Hj E. destruct (S1 j Hj); congruence.
    - reflexivity. }
  unfold finish_state, finish, with_status, with_converged_iter in *. cbn [l_info i_status i_converged_iter i_state_hist l_x] in *.
  assert (E : i_status (l_info s) i = CONVERGED). { destruct (S1 i Hi) as [E|E]; [|exact E]. rewrite E in Hst. discriminate. }
  destruct (HK i Hi) as [_ K2]. destruct (K2 E) as (c0 & C1 & C2 & (C3 & C4 & C5) & C6).
  destruct Hff as (D1 & D2 & D3).
  assert (c0 = c).
  { destruct (Nat.lt_trichotomy c0 c) as [L|[L|L]]; [|exact L|].
    - exfalso. specialize (D3 c0). unfold flagged, NL_proofs.flagged in *. cbn [i_err_hist] in *. rewrite D3 in C4 by lia. discriminate.
    - exfalso. specialize (C5 c). unfold flagged, NL_proofs.flagged in *. cbn [i_err_hist] in *. rewrite C5 in D2 by lia. discriminate. }
  subst c0. split.
  - intros c' y Hle Hy. rewrite <- Hy. destruct (Nat.le_gt_cases c' (l_recorded s)) as [L|L].
    + symmetry. apply C6. lia.
    + destruct (ro_fresh _ _ _ _ _ F4 c' L) as [Hn _]. rewrite Hn in Hy. discriminate.
  - rewrite <- (C6 (l_recorded s)) by lia. apply (ro_cur _ _ _ _ _ F4).
Qed.
End Tol.

(** ---- C18 ---- *)
(** what "best so far" means, for element [i] after [k] recorded iterations: no recorded error is
    smaller than best_err, and best_solution is the recorded state of the first column attaining it *)
Definition best_of_columns (f : @info X) (k i c : nat) : Prop :=
  (forall c', (c' <= k)%nat -> elt (i_err_hist f c' i) (i_best_err f i) = false) /\
  (c <= k)%nat /\ i_err_hist f c i = i_best_err f i /\ i_state_hist f c i = Some (i_best_sol f i) /\
  (forall c', (c' < c)%nat -> elt (i_best_err f i) (i_err_hist f c' i) = true).

(** the histories hold the visited iterates: columns 0..k are written, each error is the error of the
    state in the same column, and the last one is the current value of the variables *)
Definition columns_visited (f : @info X) (k : nat) (x : nat -> X) : Prop :=
  (forall c i, (c <= k)%nat -> (i < n)%nat -> exists xi, i_state_hist f c i = Some xi /\ i_err_hist f c i = errf xi) /\
  (forall c, (k < c)%nat -> i_state_hist f c = (fun _ => None) /\ i_err_hist f c = (fun _ => PInf)) /\
  (forall i, i_state_hist f k i = Some (x i)).

Lemma ro_columns k x f : recorded_ok n errf k x f -> columns_visited f k x.
Proof. intros [H1 H2 H3 H4]. repeat split; try apply H2; auto. Qed.

Lemma ro_best_of k x f i : recorded_ok n errf k x f -> (i < n)%nat ->
  (forall c, (c <= k)%nat -> i_err_hist f c i <> NaN) ->
  exists c, best_of_columns f k i c /\ i_best_iter f i = Nat.pred c.
Proof.
  intros [H1 H2 H3 H4] Hi Hn. destruct (H4 i Hi Hn) as (A & c & B1 & B2 & B3 & B4 & B5).
  exists c. repeat split; auto.
Qed.

(** C18. After [optimize], for some number [k <= max_iter] of recorded iterations the histories hold
    the visited iterates and, for every element without nan errors, best_err and best_solution are the
    best of them. best_iter is the column minus one, 0 for the initial state. *)
Theorem C18_best_solution_partial : forall max_iter g st z x f x',
  optimize_unroll max_iter g st z x = Some (f, x') ->
  exists k, (k <= max_iter)%nat /\ columns_visited f k x' /\
    forall i, (i < n)%nat -> (forall c, (c <= k)%nat -> i_err_hist f c i <> NaN) ->
      exists c, best_of_columns f k i c /\ i_best_iter f i = Nat.pred c.
Proof.
  intros m g st z x f x'. unfold optimize_unroll, NL_model.optimize_unroll.
  destruct (loop_ends n errf retr compute_delta gn_solve complete scale abs_tol rel_tol m g false st (3 * m)
              _ (inv_init n errf abs_tol rel_tol m z x)) as (o & -> & F & R & K); [simpl; lia|].
  assert (HR : recorded_ok n errf (l_recorded (stopped o)) (l_x (stopped o)) (l_info (stopped o))) by apply F.
  assert (Hle : (l_recorded (stopped o) <= m)%nat) by apply F.
  destruct o as [s|s|s]; cbn [finish_outcome outcome_state stopped] in *; [| |discriminate];
    intros H; injection H as <- <-; exists (l_recorded s); (split; [exact Hle|]).
  - split; [exact (ro_columns _ _ _ HR)|]. intros i Hi Hn. exact (ro_best_of _ _ _ i HR Hi Hn).
  - split; [exact (ro_columns _ _ _ HR)|]. intros i Hi Hn. exact (ro_best_of _ _ _ i HR Hi Hn).
Qed.

(** ---- C19 ---- *)
Definition loop_result (num : nat) (g li st : bool) (z : Z0) (x : nat -> X) : option lstate :=
  match loop (3 * num) num g li st (loop_init z x (init_info errf x)) with
  | Some o => outcome_state o
  | None => None
  end.

Lemma loop_result_ok num g li st z x s : loop_result num g li st z x = Some s ->
  (l_iters_done s <= num)%nat /\ (l_recorded s = l_iters_done s \/ l_recorded s = S (l_iters_done s)) /\
  recorded_ok n errf (l_recorded s) (l_x s) (l_info s) /\
  ((forall i, (i < n)%nat -> i_status (l_info s) i = FAIL) \/
   (forall i, (i < n)%nat -> i_status (l_info s) i = MAX_ITERATIONS \/ i_status (l_info s) i = CONVERGED)).
Proof.
  unfold loop_result.
  destruct (loop_ends n errf retr compute_delta gn_solve complete scale abs_tol rel_tol num g li st (3 * num)
              _ (inv_init n errf abs_tol rel_tol num z x)) as (o & -> & F & R & K); [simpl; lia|].
  destruct F as [F1 F2 F3 F4 F5].
  destruct o as [s0|s0|s0]; cbn [finish_outcome outcome_state stopped is_failed] in *; [| |discriminate]; intros H; injection H as <-.
  - split; [exact F1|]. split; [|split; [unfold finish_state, finish; cbn [l_info l_recorded l_x]; eapply recorded_ok_ext; [exact F4|..]; reflexivity|]].
    + destruct F2 as [_ [E|[E _]]]; [left|right]; exact E.
    + right. intros i Hi. destruct F5 as (S1 & _). unfold finish_state, finish. cbn [l_info with_status i_status].
      destruct (S1 i Hi) as [->| ->]; [now left|now right].
  - split; [exact F1|]. split; [|split; [exact F4|]].
    + destruct F2 as [_ [E|[E _]]]; [left|right]; exact E.
    + left. intros i Hi. apply K.
Qed.

(** equal as numbers (the rationals are not normalized) *)
Definition same_err (a b : ext) : Prop := a <> NaN /\ b <> NaN /\ elt a b = false /\ elt b a = false.

(** C19. Let [s1], [s2] be the ends of the loop without and with gradients. The merged best_err and
    best_solution are the best over the columns recorded by both loops (elements without nan). The
    merged error history holds the first [iters_done s1 + 1] columns of the first loop followed by the
    [iters_done s2] columns of the second. Missing: a loop that stops by convergence records one column
    more than iters_done, so that column is dropped or overwritten, and best_iter and last_err are
    those of the first loop (refuted below). *)
Theorem C19_merged_info_partial : forall bnum nnum implicit g st z x f x',
  optimize_two_loops bnum nnum implicit g st z x = Some (f, x') ->
  exists s1 s2, loop_result nnum false false st z x = Some s1 /\
    loop_result bnum g implicit st (l_z s1) (l_x s1) = Some s2 /\ l_x s2 = x' /\
    columns_visited (l_info s1) (l_recorded s1) (l_x s1) /\ columns_visited (l_info s2) (l_recorded s2) (l_x s2) /\
    (forall c, (c <= l_iters_done s1)%nat -> i_err_hist f c = i_err_hist (l_info s1) c /\ i_state_hist f c = i_state_hist (l_info s1) c) /\
    (forall c, (1 <= c <= l_iters_done s2)%nat ->
       i_err_hist f (l_iters_done s1 + c) = i_err_hist (l_info s2) c /\ i_state_hist f (l_iters_done s1 + c) = i_state_hist (l_info s2) c) /\
    (forall i, (i < n)%nat ->
       (forall c, (c <= l_recorded s1)%nat -> i_err_hist (l_info s1) c i <> NaN) ->
       (forall c, (c <= l_recorded s2)%nat -> i_err_hist (l_info s2) c i <> NaN) ->
       (forall c, (c <= l_recorded s1)%nat -> elt (i_err_hist (l_info s1) c i) (i_best_err f i) = false) /\
       (forall c, (c <= l_recorded s2)%nat -> elt (i_err_hist (l_info s2) c i) (i_best_err f i) = false) /\
       ((exists c, (c <= l_recorded s1)%nat /\ same_err (i_err_hist (l_info s1) c i) (i_best_err f i) /\ i_state_hist (l_info s1) c i = Some (i_best_sol f i)) \/
        (exists c, (c <= l_recorded s2)%nat /\ same_err (i_err_hist (l_info s2) c i) (i_best_err f i) /\ i_state_hist (l_info s2) c i = Some (i_best_sol f i)))).
Proof.
  intros bnum nnum implicit g st z x f x' H. unfold optimize_two_loops, NL_model.optimize_two_loops in H.
  destruct (loop (3 * nnum) nnum false false st (loop_init z x (init_info errf x))) as [o1|] eqn:E1; [|discriminate].
  destruct (outcome_state o1) as [s1|] eqn:O1; [|discriminate].
  destruct (loop (3 * bnum) bnum g implicit st (loop_init (l_z s1) (l_x s1) (init_info errf (l_x s1)))) as [o2|] eqn:E2; [|discriminate].
  destruct (outcome_state o2) as [s2|] eqn:O2; [|discriminate].
  assert (R1 : loop_result nnum false false st z x = Some s1) by (unfold loop_result; now rewrite E1).
  assert (R2 : loop_result bnum g implicit st (l_z s1) (l_x s1) = Some s2) by (unfold loop_result; now rewrite E2).
  destruct (loop_result_ok _ _ _ _ _ _ _ R1) as (A1 & A2 & A3 & A4).
  destruct (loop_result_ok _ _ _ _ _ _ _ R2) as (B1 & B2 & B3 & B4).
  unfold merge_infos in H. destruct (all_b n _); [|discriminate]. injection H as <- <-.
  exists s1, s2. split; [exact R1|]. split; [exact R2|]. split; [reflexivity|].
  split; [now apply ro_columns|]. split; [now apply ro_columns|].
  cbn [i_err_hist i_state_hist i_best_err i_best_sol]. split; [|split].
  - intros c Hc. assert (E : (l_iters_done s1 <? c)%nat = false) by (apply Nat.ltb_ge; lia). rewrite E. cbn [andb]. auto.
  - intros c Hc.
    assert (E : (l_iters_done s1 <? l_iters_done s1 + c)%nat = true) by (apply Nat.ltb_lt; lia).
    assert (E' : (l_iters_done s1 + c <=? l_iters_done s1 + l_iters_done s2)%nat = true) by (apply Nat.leb_le; lia).
    rewrite E, E'. cbn [andb]. replace (l_iters_done s1 + c - l_iters_done s1)%nat with c by lia. auto.
  - intros i Hi N1 N2.
    destruct (ro_best_of _ _ _ i A3 Hi N1) as (c1 & (P1 & P2 & P3 & P4 & P5) & _).
    destruct (ro_best_of _ _ _ i B3 Hi N2) as (c2 & (Q1 & Q2 & Q3 & Q4 & Q5) & _).
    assert (M1 : i_best_err (l_info s1) i <> NaN) by (rewrite <- P3; auto).
    assert (M2 : i_best_err (l_info s2) i <> NaN) by (rewrite <- Q3; auto).
    set (b1 := i_best_err (l_info s1) i) in *. set (b2 := i_best_err (l_info s2) i) in *.
    assert (Em : emin b1 b2 = if elt b2 b1 then b2 else b1) by (destruct b1, b2; try congruence; reflexivity).
    assert (Le1 : elt b1 (emin b1 b2) = false /\ elt b2 (emin b1 b2) = false).
    { rewrite Em. destruct (elt b2 b1) eqn:E; split; auto using elt_irrefl.
      eapply elt_chain; [exact E|]. apply elt_irrefl. }
    assert (Hmin : forall e, e <> NaN -> elt e b1 = false -> elt e b2 = false -> elt e (emin b1 b2) = false).
    { intros e He G1 G2. rewrite Em. destruct (elt b2 b1); auto. }
    assert (Ngt : forall e, e <> NaN -> elt e b1 = false -> elt e (emin b1 b2) = false).
    { intros e He G1. rewrite Em. destruct (elt b2 b1) eqn:E; [|exact G1]. eapply elt_chain; eauto. }
    assert (Ngt2 : forall e, e <> NaN -> elt e b2 = false -> elt e (emin b1 b2) = false).
    { intros e He G1. rewrite Em. destruct (elt b2 b1) eqn:E; [exact G1|].
      destruct (elt e b1) eqn:E3; [|reflexivity]. rewrite <- G1. symmetry. eapply elt_trans_le; eauto. }
    split; [intros c Hc; apply Ngt; auto|]. split; [intros c Hc; apply Ngt2; auto|].
    assert (Hnn : emin b1 b2 <> NaN) by (rewrite Em; destruct (elt b2 b1); assumption).
    destruct (elt b1 b2) eqn:E12.
    + left. exists c1. split; [exact P2|]. split; [|exact P4]. rewrite P3.
      assert (E21 : elt b2 b1 = false).
      { destruct (elt b2 b1) eqn:E21; [|reflexivity]. pose proof (elt_chain b1 b1 b2 E21 (elt_irrefl b1)). congruence. }
      split; [exact M1|]. split; [exact Hnn|]. split; [apply Le1|]. rewrite Em, E21. apply elt_irrefl.
    + right. exists c2. split; [exact Q2|]. split; [|exact Q4]. rewrite Q3.
      split; [exact M2|]. split; [exact Hnn|]. split; [apply Le1|]. rewrite Em.
      destruct (elt b2 b1); [apply elt_irrefl|exact E12].
Qed.
End P.

(** ---- C20 ---- *)
(** For a maximum of at least one iteration and a non-negative number of backward iterations: the two
    counts are non-negative and add up to the maximum; unroll and DLM run everything with gradients,
    implicit exactly one iteration, truncated the smaller of the two numbers; only truncated without a
    number is rejected. *)
Theorem C20_iteration_split : forall m bnum max_iter,
  (1 <= max_iter)%Z -> (forall k, bnum = Some k -> (0 <= k)%Z) ->
  match split_backward_iters m bnum max_iter with
  | None => m = TRUNCATED /\ bnum = None
  | Some (g, ng) => (0 <= g)%Z /\ (0 <= ng)%Z /\ (g + ng = max_iter)%Z /\
      match m with
      | UNROLL | DLM => g = max_iter
      | IMPLICIT => g = 1%Z
      | TRUNCATED => exists k, bnum = Some k /\ g = Z.min k max_iter
      end
  end.
Proof.
  intros m bnum mi H1 Hk. destruct m; cbn [split_backward_iters]; try (repeat split; lia).
  destruct bnum as [k|]; [|auto]. specialize (Hk k eq_refl). repeat split; try lia. now exists k.
Qed.
Example C20_example : split_backward_iters TRUNCATED (Some 5%Z) 20%Z = Some (5%Z, 15%Z) /\
  split_backward_iters TRUNCATED (Some 50%Z) 20%Z = Some (20%Z, 0%Z).
Proof. split; reflexivity. Qed.

(** Outside these bounds it fails: with max_iterations = 0 the implicit mode still takes a step (one
    more than the maximum), and a negative backward_num_iterations is accepted and makes the loop
    without gradients longer than the maximum. *)
Theorem C20_budget_exceeded_refuted :
  (exists g ng, split_backward_iters IMPLICIT None 0%Z = Some (g, ng) /\ (g > 0)%Z) /\
  (exists g ng, split_backward_iters TRUNCATED (Some (-1)%Z) 20%Z = Some (g, ng) /\ (ng > 20)%Z).
Proof. split; eexists; eexists; split; try reflexivity; lia. Qed.

(** ---- witnesses ---- *)
(** one variable of one dof per batch element, additive retraction *)
Definition w_retr (x d : Q) : Q := Qred (x + d).
Definition w_delta (d : nat -> Q) : unit -> (nat -> Q) -> unit * option (nat -> Q) := fun _ _ => (tt, Some d).
Definition w_accept : unit -> (nat -> Q) -> (nat -> Q) -> (nat -> ext) -> (nat -> ext) -> unit * option (nat -> bool) :=
  fun _ _ _ _ _ => (tt, None).
(** steps given by a table, indexed by a counter kept in the optimizer state *)
Definition w_table (t : nat -> nat -> Q) : nat -> (nat -> Q) -> nat * option (nat -> Q) := fun k _ => (S k, Some (t k)).
Definition w_accept_n : nat -> (nat -> Q) -> (nat -> Q) -> (nat -> ext) -> (nat -> ext) -> nat * option (nat -> bool) :=
  fun k _ _ _ _ => (k, None).
Definition w_reject (r : nat -> bool) : nat -> (nat -> Q) -> (nat -> Q) -> (nat -> ext) -> (nat -> ext) -> nat * option (nat -> bool) :=
  fun k _ _ _ _ => (k, Some r).

Section W.
Local Open Scope Q_scope.
(** error: the value itself *)
Definition w_err (x : Q) : ext := Fin x.

(** what is observed of a result *)
Definition obs {A} (o : info (X := Q) -> (nat -> Q) -> A) (r : option (info (X := Q) * (nat -> Q))) : option A :=
  match r with Some (f, x) => Some (o f x) | None => None end.
Lemma obs_some {A} (o : info -> (nat -> Q) -> A) r v : obs o r = Some v -> exists f x, r = Some (f, x) /\ o f x = v.
Proof. destruct r as [[f x]|]; simpl; [|discriminate]. intros H. injection H as <-. eauto. Qed.

(** non-vacuity of C16-C18: two elements, five iterations; element 0 stops moving and is flagged
    converged at column 3 while element 1 keeps going to the last iteration *)
Definition w_run := optimize_unroll 2 w_err w_retr
  (w_table (fun k i => match i with O => if (k <? 2)%nat then -1 else 0 | _ => -2 end))
  (w_table (fun _ _ => 0)) w_accept_n (fun d => d) (1#100) (1#100) 5 false false 0%nat
  (fun i => match i with O => 16 | _ => 30 end).
Example C16_C17_C18_example : exists f x', w_run = Some (f, x') /\
  (map (i_status f) (seq 0 2), map (i_converged_iter f) (seq 0 2), map (i_best_iter f) (seq 0 2),
   map (fun c => i_err_hist f c 0%nat) (seq 0 6), map (fun c => i_err_hist f c 1%nat) (seq 0 6),
   map (i_best_err f) (seq 0 2), map (i_best_sol f) (seq 0 2)) =
  ([CONVERGED; MAX_ITERATIONS], [3%Z; (-1)%Z], [1%nat; 4%nat],
   map Fin [16; 15; 14; 14; 14; 14], map Fin [30; 28; 26; 24; 22; 20], map Fin [14; 20], [14; 20]).
Proof. apply (obs_some (fun f _ => _)). vm_compute. reflexivity. Qed.

(** best_iter cannot tell the initial state from the first iterate: in the first run the best
    solution is the initial state, in the second the state after the first iteration; best_iter is 0
    in both. *)
Theorem C18_best_iter_ambiguous_refuted :
  let run := fun d : Q => optimize_unroll 1 w_err w_retr (w_delta (fun _ => d)) (w_delta (fun _ => 0)) w_accept
              (fun d => d) (1#100) (1#100) 1 false false tt (fun _ => 16) in
  (exists f x, run 1 = Some (f, x) /\
     (i_best_iter f 0%nat, i_best_sol f 0%nat, map (fun c => i_state_hist f c 0%nat) (seq 0 2)) = (0%nat, 16, [Some 16; Some 17])) /\
  (exists f x, run (-1) = Some (f, x) /\
     (i_best_iter f 0%nat, i_best_sol f 0%nat, map (fun c => i_state_hist f c 0%nat) (seq 0 2)) = (0%nat, 15, [Some 16; Some 15])).
Proof. split; apply (obs_some (fun f _ => _)); vm_compute; reflexivity. Qed.

(** One nan error spoils the rest: the errors are 4, nan, 0 and the best solution stays the initial
    one, with best_err = nan. *)
Theorem C18_nan_refuted : exists f x',
  optimize_unroll 1 (fun x => if Qeq_bool x 1 then NaN else Fin (Qred (x * x))) w_retr
    (w_delta (fun _ => -1)) (w_delta (fun _ => 0)) w_accept (fun d => d)
    (1#100) (1#100) 2 false false tt (fun _ => 2) = Some (f, x') /\
  (map (fun c => i_err_hist f c 0%nat) (seq 0 3), i_best_err f 0%nat, i_best_sol f 0%nat) = ([Fin 4; NaN; Fin 0], NaN, 2).
Proof. apply (obs_some (fun f _ => _)). vm_compute. reflexivity. Qed.

(** The merged history does not hold the visited iterates: both loops converge in their first
    iteration; the iterates are 16, 15, 14, but the error 14 is in no column (15 stays in column 1), and
    last_err is 16. *)
Theorem C19_concatenation_refuted : exists f x',
  optimize_two_loops 1 w_err w_retr (w_delta (fun _ => -1)) (w_delta (fun _ => 0)) w_accept (fun d => d)
    (1#100) (1#4) 3 3 false true false tt (fun _ => 16) = Some (f, x') /\
  (x' 0%nat, i_best_err f 0%nat, i_last_err f 0%nat, map (fun c => i_err_hist f c 0%nat) (seq 0 7)) =
  (14, Fin 14, Fin 16, [Fin 16; Fin 15; PInf; PInf; PInf; PInf; PInf]).
Proof. apply (obs_some (fun f x' => _)). vm_compute. reflexivity. Qed.

(** best_iter after a merge is that of the loop without gradients, although the best solution comes
    from the other: errors 16, 15, 14, 13; the best is in column 3 and best_iter is 1. *)
Theorem C19_best_iter_refuted : exists f x',
  optimize_two_loops 1 w_err w_retr (w_delta (fun _ => -1)) (w_delta (fun _ => 0)) w_accept (fun d => d)
    (1#100) (1#100) 1 2 false true false tt (fun _ => 16) = Some (f, x') /\
  (map (fun c => i_err_hist f c 0%nat) (seq 0 4), i_best_err f 0%nat, i_best_iter f 0%nat, i_last_err f 0%nat) =
  (map Fin [16; 15; 14; 13], Fin 13, 1%nat, Fin 14).
Proof. apply (obs_some (fun f _ => _)). vm_compute. reflexivity. Qed.

(** With abs_err_tolerance = 0 a converged element may be unfrozen: element 0 reaches error 0 and is
    flagged by the relative test; in the next iteration 0/0 is not below the tolerance, so it is not
    flagged any more and the step after that moves it, while its status stays CONVERGED. *)
Theorem C17_zero_tolerance_refuted : exists f x',
  optimize_unroll 2 w_err (fun _ d => d)
    (w_table (fun k i => match i with
       | O => match k with O => 0 | _ => 5 end
       | _ => match k with O => 3 | 1%nat => 9 | _ => 27 end end))
    (w_table (fun _ _ => 0)) w_accept_n (fun d => d) 0 2 3 false false 0%nat (fun _ => 1) = Some (f, x') /\
  (i_status f 0%nat, map (fun c => i_state_hist f c 0%nat) (seq 0 4)) = (CONVERGED, map Some [1; 0; 0; 5]).
Proof. apply (obs_some (fun f _ => _)). vm_compute. reflexivity. Qed.

(** C43. An element whose every step was rejected (its variables never changed) is reported
    CONVERGED, because the error it keeps equals the previous one: in a batch where another element's
    step is accepted (after one iteration, and it is frozen from then on), or when all steps are
    rejected three times. *)
Theorem C43_converged_means_step_applied_refuted :
  (exists f x',
     optimize_unroll 2 w_err w_retr (w_table (fun _ _ => -2)) (w_table (fun _ _ => 0))
       (w_reject (fun i => (i =? 0)%nat)) (fun d => d) (1#100) (1#100) 3 false false 0%nat (fun _ => 16) = Some (f, x') /\
     (map (i_status f) (seq 0 2), i_converged_iter f 0%nat, map (fun c => i_state_hist f c 0%nat) (seq 0 4)) =
     ([CONVERGED; MAX_ITERATIONS], 1%Z, map Some [16; 16; 16; 16])) /\
  (exists f x',
     optimize_unroll 1 w_err w_retr (w_table (fun _ _ => -2)) (w_table (fun _ _ => 0))
       (w_reject (fun _ => true)) (fun d => d) (1#100) (1#100) 3 false false 0%nat (fun _ => 16) = Some (f, x') /\
     (i_status f 0%nat, i_converged_iter f 0%nat, x' 0%nat) = (CONVERGED, 1%Z, 16)).
Proof. split; apply (obs_some (fun f x' => _)); vm_compute; reflexivity. Qed.
End W.
