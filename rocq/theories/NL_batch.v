(** C44: what one batch element gets does not depend on the others, for steps computed and accepted
    per element (Gauss-Newton, non-adaptive Levenberg-Marquardt). *)
From Coq Require Import List Arith Bool ZArith QArith Qabs Lia.
Import ListNotations.
From Verif Require Import NL_model NL_proofs NL_props.

Section P.
Context {X D Z0 : Type}.
Variable n : nat.
Variable errf : X -> ext.
Variable retr : X -> D -> X.
Variable compute_delta : Z0 -> (nat -> X) -> Z0 * option (nat -> D).
Variable gn_solve : Z0 -> (nat -> X) -> Z0 * option (nat -> D).
Variable complete : Z0 -> (nat -> X) -> (nat -> D) -> (nat -> ext) -> (nat -> ext) -> Z0 * option (nat -> bool).
Variable scale : D -> D.
Variable abs_tol rel_tol : Q.
(** the step of one element, computed from its own variables *)
Variable own_step : X -> D.
Hypothesis own : forall z x z' d, compute_delta z x = (z', Some d) -> forall i, d i = own_step (x i).
(** no step is rejected *)
Hypothesis accepts : forall z x d e p, snd (complete z x d e p) = None.

Notation lstate := (@lstate X Z0).
Notation body := (body n errf retr compute_delta gn_solve complete scale abs_tol rel_tol).
Notation check := (check_convergence n abs_tol rel_tol).
Notation optimize_unroll := (optimize_unroll n errf retr compute_delta gn_solve complete scale abs_tol rel_tol).
Notation reaches := (reaches n errf retr compute_delta gn_solve complete scale abs_tol rel_tol).
Notation inv := (inv n errf abs_tol rel_tol).
Notation flagged := (flagged n abs_tol rel_tol).
Notation next_info := (next_info n abs_tol rel_tol).

(** one iteration of an element alone *)
Definition alone (y : X) : X := retr y (scale (own_step y)).

(** column [c+1] is [alone] of column [c], unless the element was flagged converged at column [c] *)
Definition follows (f : @info X) (k : nat) : Prop := forall c i, (c < k)%nat -> (i < n)%nat ->
  exists y, i_state_hist f c i = Some y /\
    i_state_hist f (S c) i = Some (if (1 <=? c)%nat && flagged f c i then y else alone y).

Definition conv_flag (s : lstate) : Prop := forall i, (i < n)%nat ->
  l_conv s i = (1 <=? l_it s)%nat && flagged (l_info s) (l_it s) i.

Lemma body_alone g st s c : body g false st s = c ->
  (exists z, c = Stop (let s' := mkL z (l_x s) (l_it s) (l_attempts s) (l_conv s)
                  (if g then l_info s else with_status (l_info s) (fun _ => FAIL))
                  (l_iters_done s) (S (l_solves s)) (l_recorded s) in
           if g then Raised s' else Failed s')) \/
  exists z, let x' := fun i => if l_conv s i then l_x s i else alone (l_x s i) in
    let err := fun i => errf (x' i) in
    let conv' := check err (i_last_err (l_info s)) in
    exists x2, (forall i, x2 i = x' i) /\ exists e2, (forall i, e2 i = err i) /\
    let conv2 := check e2 (i_last_err (l_info s)) in
    c = if all_b n conv2
        then Stop (Finished (mkL z x2 (l_it s) 0 conv2 (next_info s e2 x2) (l_iters_done s) (S (l_solves s)) (S (l_recorded s))))
        else Next (mkL z x2 (S (l_it s)) 0 conv2 (with_last_err (next_info s e2 x2) e2) (S (l_iters_done s)) (S (l_solves s)) (S (l_recorded s))).
Proof.
  intros <-. unfold body, NL_model.body.
  destruct (compute_delta (l_z s) (l_x s)) as [z [d|]] eqn:Ed; [|left; eauto].
  right. pose proof (own _ _ _ _ Ed) as Ho.
  unfold NL_model.step. cbn [negb]. cbn iota.
  set (xr := fun i => if l_conv s i && true then l_x s i else retr (l_x s i) (scale (d i))).
  match goal with |- context[complete z (l_x s) ?dd ?e ?p] => destruct (complete z (l_x s) dd e p) as [z' rej] eqn:Ec;
     pose proof (accepts z (l_x s) dd e p) as Ha end.
  rewrite Ec in Ha. cbn [snd] in Ha. subst rej. cbn [andb].
  exists z'. cbv zeta. exists xr. split.
  { intros i. unfold xr. rewrite andb_true_r, Ho. reflexivity. }
  exists (fun i => errf (xr i)). split.
  { intros i. unfold xr. rewrite andb_true_r, Ho. reflexivity. }
  reflexivity.
Qed.

Lemma next_follows num s e2 x2 : inv num s -> conv_flag s -> follows (l_info s) (l_it s) ->
  (forall i, x2 i = if l_conv s i then l_x s i else alone (l_x s i)) ->
  follows (next_info s e2 x2) (S (l_it s)).
Proof.
  intros HI HC HF Hx c i Hc Hi.
  destruct (next_info_flag n errf abs_tol rel_tol num s e2 x2 HI) as [F1 F2].
  assert (Hh : forall c', (c' <= l_it s)%nat -> i_state_hist (next_info s e2 x2) c' = i_state_hist (l_info s) c').
  { intros c' Hc'. unfold next_info, NL_proofs.next_info. cbn [i_state_hist with_status update_info]. now rewrite setcol_ne by lia. }
  assert (Hl : i_state_hist (next_info s e2 x2) (S (l_it s)) i = Some (x2 i)).
  { unfold next_info, NL_proofs.next_info. cbn [i_state_hist with_status update_info]. now rewrite setcol_eq. }
  assert (Hfl : (1 <=? c)%nat && flagged (next_info s e2 x2) c i = (1 <=? c)%nat && flagged (l_info s) c i).
  { destruct (Nat.leb_spec 1 c) as [L|L]; [|reflexivity]. cbn [andb]. apply F1. lia. }
  rewrite Hfl. destruct (Nat.eq_dec c (l_it s)) as [->|Hne].
  - exists (l_x s i). rewrite Hh by lia. split; [apply (ro_cur _ _ _ _ _ (iv_rec _ _ _ _ _ _ HI))|].
    rewrite Hl, Hx. now rewrite <- (HC i Hi).
  - rewrite !Hh by lia. apply HF; [lia|exact Hi].
Qed.

Lemma follows_ext f f' k : i_state_hist f' = i_state_hist f -> i_err_hist f' = i_err_hist f -> follows f k -> follows f' k.
Proof.
  intros E1 E2 H c i Hc Hi. destruct (H c i Hc Hi) as (y & Y1 & Y2). exists y. rewrite E1.
  unfold flagged, NL_proofs.flagged in *. rewrite E2. auto.
Qed.

Lemma reaches_follows num g st s s' : reaches num g false st s s' -> inv num s -> conv_flag s ->
  follows (l_info s) (l_it s) -> follows (l_info s') (l_recorded s').
Proof.
  induction 1 as [s|s s1 s2 Hlt Hb Hr IH|s o Hlt Hb]; intros HI HC HF.
  - destruct (iv_it _ _ _ _ _ _ HI) as (_ & -> & _). exact HF.
  - destruct (body_next_inv n errf retr compute_delta gn_solve complete scale abs_tol rel_tol num g false st s s1 HI Hlt Hb) as [HI1 _].
    destruct (body_alone g st s _ Hb) as [(z & E)|(z & x2 & Hx & e2 & He & E)]; try cbv zeta in E.
    { destruct g; discriminate. }
    destruct (all_b n _) in E; [discriminate|]. injection E as ->. apply IH; [exact HI1| |].
    + intros i Hi. cbn [l_conv l_it l_info].
      change (check e2 (i_last_err (l_info s)) i = (1 <=? S (l_it s))%nat && flagged (next_info s e2 x2) (S (l_it s)) i).
      destruct (next_info_flag n errf abs_tol rel_tol num s e2 x2 HI) as [_ F2]. rewrite F2. reflexivity.
    + cbn [l_it l_info]. apply (follows_ext (next_info s e2 x2)); [reflexivity..|].
      eapply next_follows; eauto.
  - destruct (iv_it _ _ _ _ _ _ HI) as (_ & Er & _).
    destruct (body_alone g st s _ Hb) as [(z & E)|(z & x2 & Hx & e2 & He & E)]; try cbv zeta in E.
    + destruct g; injection E as ->; cbn [stopped l_info l_recorded]; rewrite Er; [exact HF|].
      apply (follows_ext (l_info s)); [reflexivity..|exact HF].
    + destruct (all_b n _) in E; [|discriminate]. injection E as ->. cbn [stopped l_info l_recorded]. rewrite Er.
      eapply next_follows; eauto.
Qed.

(** C44. In the returned state history every element follows its own sequence of iterates, the one it
    has when optimized alone, and stands still after a column at which it is flagged converged; the
    other elements enter only through the convergence test. *)
Theorem C44_batch_independence_partial : forall max_iter g st z x f x',
  optimize_unroll max_iter g st z x = Some (f, x') ->
  exists k, (k <= max_iter)%nat /\
    (forall i, (i < n)%nat -> i_state_hist f 0 i = Some (x i) /\ i_state_hist f k i = Some (x' i)) /\
    (forall c i, (c < k)%nat -> (i < n)%nat -> exists y, i_state_hist f c i = Some y /\
       i_state_hist f (S c) i = Some (if (1 <=? c)%nat && flagged f c i then y else alone y)).
Proof.
  intros m g st z x f x'. unfold optimize_unroll, NL_model.optimize_unroll.
  destruct (loop_ends n errf retr compute_delta gn_solve complete scale abs_tol rel_tol m g false st (3 * m)
              _ (inv_init n errf abs_tol rel_tol m z x)) as (o & -> & F & R & K); [simpl; lia|].
  assert (HF : follows (l_info (stopped o)) (l_recorded (stopped o))).
  { apply (reaches_follows m g st _ _ R); [apply inv_init| |].
    - intros i Hi. reflexivity.
    - intros c i Hc Hi. simpl in Hc. lia. }
  assert (HR : recorded_ok n errf (l_recorded (stopped o)) (l_x (stopped o)) (l_info (stopped o))) by apply F.
  assert (Hle : (l_recorded (stopped o) <= m)%nat) by apply F.
  assert (H0 : forall i, i_state_hist (l_info (stopped o)) 0 i = Some (x i)).
  { assert (G : forall s s', reaches m g false st s s' -> inv m s ->
       forall i, i_state_hist (l_info s') 0 i = i_state_hist (l_info s) 0 i).
    { induction 1 as [s|s s1 s2 Hlt Hb Hr IH|s o' Hlt Hb]; intros HI i; [reflexivity| |].
      - destruct (body_next_inv n errf retr compute_delta gn_solve complete scale abs_tol rel_tol m g false st s s1 HI Hlt Hb) as [HI1 _].
        rewrite IH by exact HI1.
        destruct (body_alone g st s _ Hb) as [(z' & E)|(z' & x2 & Hx & e2 & He & E)]; cbv zeta in E; [destruct g; discriminate|].
        destruct (all_b n _) in E; [discriminate|]. injection E as ->. reflexivity.
      - destruct (body_alone g st s _ Hb) as [(z' & E)|(z' & x2 & Hx & e2 & He & E)]; try cbv zeta in E.
        + destruct g; injection E as ->; reflexivity.
        + destruct (all_b n _) in E; [|discriminate]. injection E as ->. reflexivity. }
    intros i. rewrite (G _ _ R (inv_init n errf abs_tol rel_tol m z x)). reflexivity. }
  destruct o as [s|s|s]; cbn [finish_outcome outcome_state stopped] in *; [| |discriminate];
    intros H; injection H as <- <-; exists (l_recorded s); (split; [exact Hle|]).
  - split; [|exact HF]. intros i Hi. split; [apply H0|]. apply (ro_cur _ _ _ _ _ HR).
  - split; [|exact HF]. intros i Hi. split; [apply H0|]. apply (ro_cur _ _ _ _ _ HR).
Qed.
End P.

Section W.
Local Open Scope Q_scope.
Definition w_own (y : Q) : Q := if Qeq_bool y (7#2) then -2 else -1.
Definition w_each : unit -> (nat -> Q) -> unit * option (nat -> Q) := fun z x => (z, Some (fun i => w_own (x i))).
Definition w_run44 (n : nat) (x : nat -> Q) :=
  optimize_unroll n w_err w_retr w_each w_each w_accept (fun d => d) 1 0 2 false false tt x.

(** C44 fails because of the test on the mean error (tolerance 1): the first element, alone, goes
    7/2, 3/2, 1/2; next to an element that reaches error 0 it is stopped at 3/2 as converged. *)
Theorem C44_batch_independence_refuted :
  (exists f x, w_run44 2 (fun i => match i with O => 7#2 | _ => 1 end) = Some (f, x) /\
     (i_status f 0%nat, i_converged_iter f 0%nat, x 0%nat) = (CONVERGED, 1%Z, 3#2)) /\
  (exists f x, w_run44 1 (fun _ => 7#2) = Some (f, x) /\
     map (fun c => i_err_hist f c 0%nat) (seq 0 3) = map Fin [7#2; 3#2; 1#2]).
Proof. split; apply (obs_some (fun f x => _)); vm_compute; reflexivity. Qed.

End W.

(** the hypotheses of [C44_batch_independence_partial] hold for this run *)
Example C44_example :
  (forall z x z' d, w_each z x = (z', Some d) -> forall i, d i = w_own (x i)) /\ (forall z x d e p, snd (w_accept z x d e p) = None).
Proof. split; [|reflexivity]. intros z x z' d H i. unfold w_each in H. now injection H as _ <-. Qed.
