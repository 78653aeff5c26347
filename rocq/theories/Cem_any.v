(** DCEM's soft elite for any number of samples. *)
From Coq Require Import Reals List Arith Bool Lra Lia Permutation Sorted.
From Verif Require Import RSum Adj_props Adj_diff Lml_model Lml_spec Lml_props Lml_fwd Lml_rec Cem_props.
Import ListNotations.
Local Open Scope R_scope.

(** As C69_soft_elite_partial, without the bound on the number of samples. *)
Theorem C69_soft_elite_any_size : forall lb ub n_iter branch n_sample n_elite temp (normalize : bool) lml_eps order X fX s k,
  (2 <= n_elite < n_sample)%nat -> INR n_elite <= exp 7 -> INR (n_sample - n_elite) < exp (7 * (INR k + 1)) ->
  0 < temp -> (k + 1 <= n_iter)%nat -> (3 <= branch)%nat -> 0 < lml_eps < 7 ->
  (if normalize then s = temp * sqrt (2 * (INR n_sample - 1)) else spread n_sample (fun i => - fX i * temp) s) ->
  s + 14 <= lml_eps * INR (branch - 1) ^ (n_iter - 1 - k) ->
  exists mu sigma p, cem_step lb ub n_iter branch n_sample n_elite (Some temp) normalize lml_eps order X fX = Some (mu, sigma)
    /\ prefers n_sample fX p
    /\ forall j B, (forall i, (i < n_sample)%nat -> Rabs (X i j) <= B) ->
         Rabs (mu j - rsum n_sample (fun i => p i * X i j)) <= lml_eps / 8 * (INR n_sample / INR n_elite) * B.
Proof.
  intros lb ub n_iter branch n ne temp nrm le order X fX s k Hne H1 H2 Ht Hi Hb Hle Hs W.
  set (sc := if nrm then normalized n fX else fX). set (x := fun i => - sc i * temp).
  assert (Sp : spread n x s).
  { unfold x, sc. destruct nrm; [|exact Hs]. subst s. intros i j Hi' Hj. pose proof (normalized_spread n fX ltac:(lia) j i Hj Hi'). nra. }
  destruct (C68_lml_forward_any_size n_iter branch ne n le x s k) as (out & y & E & ST & D & _ & _); try assumption; try lia.
  destruct (soft_top_shift ne n x y ltac:(lia) ST) as (nu & Enu & Y). assert (P : 0 < INR ne) by (apply lt_0_INR; lia).
  exists (cem_mu n ne out X), (cem_sigma n ne out 0 X), (fun i => y i / INR ne). split; [|split].
  - unfold cem_step, cem_weights. destruct (Nat.eqb_spec ne 1) as [|_]; [lia|]. fold sc. fold x. now rewrite E.
  - split; [|split].
    + intros i Hi'. apply Rdiv_lt_0_compat; [|exact P]. rewrite (Y i Hi'). apply sig_01.
    + unfold Rdiv. rewrite rsum_scal_r. destruct ST as [[_ S] _]. rewrite S. apply Rinv_r. lra.
    + intros i k' Hi' Hk L. unfold Rdiv. apply Rmult_lt_compat_r; [now apply Rinv_0_lt_compat|]. rewrite (Y i Hi'), (Y k' Hk). apply sig_incr.
      pose proof (score_order n fX nrm i k' L) as L'. fold sc in L'. unfold x. nra.
  - intros j B HB. unfold cem_mu.
    replace (rsum n (fun i => out i * X i j) / INR ne - rsum n (fun i => y i / INR ne * X i j)) with (rsum n (fun i => (out i - y i) * X i j) / INR ne).
    + unfold Rdiv. rewrite Rabs_mult, (Rabs_right (/ INR ne)) by (left; now apply Rinv_0_lt_compat).
      replace (le * / 8 * (INR n * / INR ne) * B) with (INR n * (le * / 8 * B) * / INR ne) by ring. apply Rmult_le_compat_r; [left; now apply Rinv_0_lt_compat|].
      eapply Rle_trans; [apply rsum_abs|]. rewrite <- rsum_const. apply rsum_le. intros i Hi'. rewrite Rabs_mult.
      apply Rmult_le_compat; try apply Rabs_pos; [now apply D|now apply HB].
    + rewrite (rsum_ext n (fun i => y i / INR ne * X i j) (fun i => y i * X i j * / INR ne)) by (intros; unfold Rdiv; ring). rewrite rsum_scal_r.
      rewrite (rsum_ext n (fun i => (out i - y i) * X i j) (fun i => out i * X i j - y i * X i j)) by (intros; ring). rewrite rsum_minus. unfold Rdiv. ring.
Qed.
(** 5 of 5000 samples at the default 100 iterations and 10 branches *)
Lemma C69_any_size_example : INR 5 <= exp 7 /\ INR (5000 - 5) < exp (7 * (INR 1 + 1)) /\ 1 * sqrt (2 * (INR 5000 - 1)) + 14 <= / 1000 * INR (10 - 1) ^ (100 - 1 - 1).
Proof.
  pose proof (exp_ineq1 7 ltac:(lra)) as E7. rewrite !INR_IZR_INZ. replace (IZR (Z.of_nat 5)) with 5 by (apply f_equal; reflexivity).
  replace (IZR (Z.of_nat (5000 - 5))) with 4995 by (apply f_equal; reflexivity). replace (IZR (Z.of_nat 5000)) with 5000 by (apply f_equal; reflexivity).
  replace (IZR (Z.of_nat 1)) with 1 by reflexivity. replace (IZR (Z.of_nat (10 - 1))) with 9 by (apply f_equal; reflexivity). split; [lra|]. split.
  - replace (7 * (1 + 1)) with (7 + 7) by ring. rewrite exp_plus. assert (E : 72 <= exp 7).
    { replace 7 with (1 + 1 + 1 + 1 + 1 + 1 + 1) by ring. rewrite !exp_plus. pose proof (exp_ineq1_le 1).
      assert (4 <= exp 1 * exp 1) by nra. assert (8 <= exp 1 * exp 1 * exp 1) by nra. assert (16 <= exp 1 * exp 1 * exp 1 * exp 1) by nra.
      assert (32 <= exp 1 * exp 1 * exp 1 * exp 1 * exp 1) by nra. assert (64 <= exp 1 * exp 1 * exp 1 * exp 1 * exp 1 * exp 1) by nra. nra. }
    nra.
  - assert (sqrt (2 * (5000 - 1)) <= 100) by (rewrite <- (sqrt_square 100) by lra; apply sqrt_le_1_alt; lra).
    replace (100 - 1 - 1)%nat with (10 + 88)%nat by reflexivity. rewrite pow_add. assert (1 <= 9 ^ 88) by (apply pow_R1_Rle; lra).
    assert (114000 <= 9 ^ 10) by (cbn [pow]; lra). nra.
Qed.
