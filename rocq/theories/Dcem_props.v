(** C70: what DCEM.optimize reports. *)
From Coq Require Import List Arith Bool ZArith QArith Qabs Lia.
From Verif Require Import NL_model NL_proofs NL_props Dcem_model.
Import ListNotations.
Local Open Scope nat_scope.

Section P.
Context {X Z0 : Type}.
Variable n : nat.
Variable errf : X -> ext.
Variable cem : Z0 -> (nat -> X) -> Z0 * option (nat -> X).
Variable abs_tol rel_tol : Q.
Notation flagged := (flagged n abs_tol rel_tol).
Notation dcem_loop := (dcem_loop n errf cem abs_tol rel_tol).
Notation dcem_optimize := (dcem_optimize n errf cem abs_tol rel_tol).

(** the number of iterations 1..k that element [i] entered without being flagged at the iteration before *)
Definition unflagged_iterations (f : @info X) (i k : nat) : nat :=
  length (filter (fun c => negb ((1 <=? c) && flagged f c i)) (seq 0 k)).

Record dinv (it : nat) (x : nat -> X) (conv : nat -> bool) (f : @info X) : Prop := {
  d_rec : recorded_ok n errf it x f;
  d_last : i_last_err f = i_err_hist f it;
  d_conv : forall i, conv i = (1 <=? it) && flagged f it i;
  d_status : forall i, i < n -> (i_status f i = START /\ forall c, 1 <= c <= it -> flagged f c i = false)
                             \/ (i_status f i = CONVERGED /\ exists c, 1 <= c <= it /\ flagged f c i = true);
  d_iter : forall i, i_converged_iter f i = Z.of_nat (unflagged_iterations f i it) }.

Lemma flagged_old (f g : @info X) it c i : (forall k, k <= it -> i_err_hist g k = i_err_hist f k) -> c <= it -> flagged g c i = flagged f c i.
Proof. intros H Hc. unfold NL_proofs.flagged. rewrite !H by lia. reflexivity. Qed.
Lemma unflagged_old (f g : @info X) it i : (forall k, k <= it -> i_err_hist g k = i_err_hist f k) -> unflagged_iterations g i it = unflagged_iterations f i it.
Proof.
  intros H. unfold unflagged_iterations. f_equal. apply filter_ext_in. intros c Hc. apply in_seq in Hc. f_equal. f_equal. apply (flagged_old f g it); [exact H|lia].
Qed.
(** one iteration *)
Lemma dstep it x conv f x' : dinv it x conv f -> let err := fun i => errf (x' i) in
  let f1 := update_info n abs_tol rel_tol f it err conv x' in
  let conv' := check_convergence n abs_tol rel_tol err (i_last_err f1) in
  let f2 := with_status f1 (fun i => if conv' i then CONVERGED else i_status f1 i) in
  dinv (S it) x' conv' (with_last_err f2 err) /\ (forall i, conv' i = flagged f2 (S it) i).
Proof.
  intros [R L C S I] err f1 conv' f2.
  assert (Old : forall k, k <= it -> i_err_hist (with_last_err f2 err) k = i_err_hist f k).
  { intros k Hk. cbn. unfold setcol. destruct (Nat.eqb_spec k (Datatypes.S it)); [lia|reflexivity]. }
  assert (Fl : forall i, conv' i = flagged (with_last_err f2 err) (Datatypes.S it) i).
  { intros i. unfold NL_proofs.flagged. cbn [Nat.sub]. rewrite Nat.sub_0_r, (Old it) by lia. unfold conv', f1. cbn. unfold setcol. rewrite Nat.eqb_refl, L. reflexivity. }
  split; [|intros i; rewrite Fl; reflexivity]. split.
  - eapply recorded_ok_ext; [eapply (recorded_ok_update n errf abs_tol rel_tol it x f x' err conv R); reflexivity|reflexivity..].
  - cbn. unfold setcol. now rewrite Nat.eqb_refl.
  - intros i. rewrite Fl. reflexivity.
  - intros i Hi. replace (i_status (with_last_err f2 err) i) with (if conv' i then CONVERGED else i_status f i).
    + destruct (conv' i) eqn:E.
      * right. split; [reflexivity|]. exists (Datatypes.S it). split; [lia|]. now rewrite <- Fl.
      * destruct (S i Hi) as [[S1 S2]|[S1 (c & Hc & S2)]].
        -- left. split; [exact S1|]. intros c Hc. destruct (Nat.eq_dec c (Datatypes.S it)) as [->|]; [now rewrite <- Fl|].
           rewrite (flagged_old f _ it c i Old) by lia. apply S2. lia.
        -- right. split; [exact S1|]. exists c. split; [lia|]. rewrite (flagged_old f _ it c i Old) by lia. exact S2.
    + cbn. fold err. unfold conv', f1. cbn. now destruct (check_convergence n abs_tol rel_tol err (i_last_err f) i).
  - intros i. cbn [with_last_err i_converged_iter f2 with_status f1 update_info]. unfold unflagged_iterations. rewrite seq_S, filter_app, app_length. cbn [Nat.add filter].
    fold (unflagged_iterations (with_last_err f2 err) i it). rewrite (unflagged_old f _ it i Old), (flagged_old f _ it it i Old) by lia. rewrite I, C.
    destruct ((1 <=? it) && flagged f it i); cbn [negb length]; lia.
Qed.
(** what is returned after [k] iterations *)
Definition report (max_iter k : nat) (f : @info X) (i : nat) : Prop :=
  (i_status f i = CONVERGED /\ (exists c, 1 <= c <= k /\ flagged f c i = true) /\ i_converged_iter f i = Z.of_nat (unflagged_iterations f i k))
  \/ (i_status f i = MAX_ITERATIONS /\ (forall c, 1 <= c <= k -> flagged f c i = false) /\ k = max_iter).
Lemma dloop max_iter : forall todo it z x conv f k z' x' g, it + todo = max_iter -> dinv it x conv f ->
  dcem_loop todo it z x conv f = Some (k, z', x', g) ->
  it <= k <= max_iter /\ recorded_ok n errf k x' g /\ forall i, i < n -> report max_iter k g i.
Proof.
  induction todo as [|todo IH]; intros it z x conv f k z' x' g E D; cbn [Dcem_model.dcem_loop].
  - intros H. injection H as <- <- <- <-. split; [lia|]. split.
    + eapply recorded_ok_ext; [exact (d_rec _ _ _ _ D)|reflexivity..].
    + intros i Hi. unfold report. cbn [finish with_status i_status i_converged_iter].
      assert (Fg : forall c, flagged (finish f) c i = flagged f c i) by reflexivity.
      assert (U : unflagged_iterations (finish f) i it = unflagged_iterations f i it) by reflexivity.
      destruct (d_status _ _ _ _ D i Hi) as [[-> S]|[-> S]]; cbn [status_eqb].
      * right. split; [reflexivity|]. split; [exact S|lia].
      * left. split; [reflexivity|]. split; [exact S|]. rewrite U. apply (d_iter _ _ _ _ D).
  - destruct (cem z x) as [z1 [x1|]]; [|discriminate]. destruct (dstep it x conv f x1 D) as [D1 F1]. cbv zeta in D1, F1 |- *.
    set (err := fun i => errf (x1 i)) in *. set (f1 := update_info n abs_tol rel_tol f it err conv x1) in *.
    set (conv' := check_convergence n abs_tol rel_tol err (i_last_err f1)) in *.
    set (f2 := with_status f1 (fun i => if conv' i then CONVERGED else i_status f1 i)) in *.
    destruct (all_b n conv') eqn:Ea.
    + intros H. injection H as <- <- <- <-. split; [lia|]. split.
      * eapply recorded_ok_ext; [exact (d_rec _ _ _ _ D1)|reflexivity..].
      * intros i Hi. unfold all_b in Ea. rewrite forallb_forall in Ea. assert (Ci : conv' i = true) by (apply Ea, in_seq; lia).
        left. cbn [finish with_status i_status]. unfold f2 at 1 2. cbn [with_status i_status]. rewrite Ci. cbn [status_eqb].
        split; [reflexivity|]. split; [exists (S it); split; [lia|]; change (flagged f2 (S it) i = true); rewrite <- F1; exact Ci|].
        apply (d_iter _ _ _ _ D1).
    + intros H. destruct (IH (S it) _ _ _ _ k z' x' g ltac:(lia) D1 H) as (A & B & C). split; [lia|split; assumption].
Qed.
(** C70. DCEM.optimize ends after at most max_iterations iterations.  The histories hold the visited means; every element is reported
    CONVERGED iff it was flagged at some iteration, otherwise MAX_ITERATIONS after exactly max_iterations iterations with
    converged_iter = -1; best_err and best_solution are the best of the means visited (for elements without nan errors). *)
Theorem C70_dcem_report_partial : forall mode max_iter z x f x', dcem_optimize mode max_iter z x = Some (f, x') ->
  exists k, k <= max_iter /\ columns_visited n errf f k x'
    /\ (forall i, i < n ->
         (i_status f i = CONVERGED /\ (exists c, 1 <= c <= k /\ flagged f c i = true) /\ i_converged_iter f i = Z.of_nat (unflagged_iterations f i k) /\ (1 <= i_converged_iter f i)%Z)
         \/ (i_status f i = MAX_ITERATIONS /\ (forall c, 1 <= c <= k -> flagged f c i = false) /\ k = max_iter /\ i_converged_iter f i = (-1)%Z))
    /\ (forall i, i < n -> (forall c, c <= k -> i_err_hist f c i <> NaN) -> exists c, best_of_columns f k i c /\ i_best_iter f i = Nat.pred c).
Proof.
  intros mode max_iter z x f x' H.
  assert (H' : match dcem_loop max_iter 0 z x (fun _ => false) (init_info errf x) with
               | None => None
               | Some (_, _, x', f) => Some (with_converged_iter f (fun i => if status_eqb (i_status f i) MAX_ITERATIONS then (-1)%Z else i_converged_iter f i), x')
               end = Some (f, x')) by (destruct mode; try discriminate H; exact H). clear H.
  destruct (dcem_loop max_iter 0 z x (fun _ => false) (init_info errf x)) as [[[[k z'] x1] g]|] eqn:E; [|discriminate].
  injection H' as <- <-.
  destruct (dloop max_iter max_iter 0 z x (fun _ => false) (init_info errf x) k z' x1 g) as (A & B & C); [lia| |exact E|].
  { split; [apply recorded_ok_init|reflexivity|reflexivity| |reflexivity]. intros i _. left. split; [reflexivity|]. intros; lia. }
  assert (B' : recorded_ok n errf k x1 (with_converged_iter g (fun i => if status_eqb (i_status g i) MAX_ITERATIONS then (-1)%Z else i_converged_iter g i)))
    by (eapply recorded_ok_ext; [exact B|reflexivity..]).
  exists k. split; [lia|]. split; [now apply ro_columns|]. split.
  - intros i Hi. cbn [with_converged_iter i_status i_converged_iter].
    destruct (C i Hi) as [(S1 & S2 & S3)|(S1 & S2 & S3)].
    + left. rewrite S1. cbn [status_eqb]. split; [reflexivity|]. split; [exact S2|]. split; [exact S3|].
      rewrite S3. destruct S2 as (c & Hc & _). unfold unflagged_iterations. destruct k as [|k]; [lia|]. cbn. lia.
    + right. rewrite S1. cbn [status_eqb]. repeat split; assumption.
  - intros i Hi Hnan. now apply (ro_best_of n errf k x1).
Qed.
(** implicit and truncated backward modes are refused *)
Theorem C70_dcem_modes : forall max_iter z x, dcem_optimize IMPLICIT max_iter z x = None /\ dcem_optimize TRUNCATED max_iter z x = None
  /\ dcem_optimize DLM max_iter z x = dcem_optimize UNROLL max_iter z x.
Proof. repeat split. Qed.
End P.

(** An element that was flagged converged goes on moving: batch of two, [X] = nat read as error; element 0 keeps the error 10 in the
    first iteration (flagged), then drops to 5 (not flagged), and is reported CONVERGED with converged_iter 1. *)
Definition cem_example (z : nat) (x : nat -> nat) : nat * option (nat -> nat) :=
  (S z, Some (fun i => match i with O => if (z =? 0)%nat then 10 else 5 | _ => 100 - 10 * z end)).
Definition errf_example (x : nat) : ext := Fin (inject_Z (Z.of_nat x)).
Theorem C70_converged_moves_refuted : exists f x',
  dcem_optimize 2 errf_example cem_example (1 # 1000000) (1 # 10000) UNROLL 2 0 (fun i => if (i =? 0)%nat then 10 else 200) = Some (f, x')
  /\ i_status f 0 = CONVERGED /\ i_converged_iter f 0 = 1%Z /\ i_state_hist f 1 0 = Some 10 /\ i_state_hist f 2 0 = Some 5
  /\ flagged 2 (1 # 1000000) (1 # 10000) f 2 0 = false.
Proof. eexists; eexists. split; [reflexivity|]. repeat split. Qed.
(** A failing iteration raises even without gradients, where the least squares optimizers return the best solution seen. *)
Theorem C70_dcem_raises_refuted : exists (X : Type) errf (cem : unit -> (nat -> X) -> unit * option (nat -> X)) x,
  dcem_optimize 1 errf cem (1 # 1000000) (1 # 10000) UNROLL 2 tt x = None.
Proof. exists nat, errf_example, (fun _ _ => (tt, None)), (fun _ => 0). reflexivity. Qed.
