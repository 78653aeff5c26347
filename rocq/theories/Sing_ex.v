(** Routines that meet the hypotheses of C74 and C75: an exact singularity test and a sound solver that fails only on singular matrices. *)
From Coq Require Import Reals List Arith Bool Lra Lia Classical.
From Verif Require Import RSum Adj_props Adj_diff Bwd_model Bwd_spec Bwd_props Lin_model Emb2_spec Chol Mg_inv Desc_model Sing_model Sing_props.
Import ListNotations.
Local Open Scope R_scope.

Definition gram_of (n : nat) (M : nat -> nat -> R) : nat -> nat -> R := fun i j => rsum n (fun k => M k i * M k j).
Lemma gram_quad n M x : quad n (gram_of n M) x = dot n (mv n M x) (mv n M x).
Proof.
  rewrite <- dot_tmv. unfold quad, dot, gram_of. apply rsum_ext. intros i _. rewrite <- gram_mv, <- rsum_scal. apply rsum_ext. intros. ring.
Qed.
Definition test_alg (n : nat) (M : mat) : bool := match chol_alg n (gram_of n M) with Some _ => false | None => true end.
Lemma gram_of_sym n M : symmetric n (gram_of n M).
Proof. intros i j _ _. apply rsum_ext. intros. ring. Qed.
Lemma test_alg_exact : exact_test test_alg.
Proof.
  intros n M. unfold test_alg. split.
  - destruct (chol_alg n (gram_of n M)) eqn:E; [discriminate|]. intros _. apply NNPP. intros NS.
    destruct (cholesky_exists n (gram_of n M) (gram_of_sym n M)) as (L & E'); [|congruence].
    intros x Hx. rewrite gram_quad. destruct (Rle_lt_or_eq_dec _ _ (dot_nonneg n (mv n M x))) as [P|Z]; [exact P|]. exfalso. apply NS. exists x. split; [exact Hx|].
    intros c Hc. now apply (dot_zero n).
  - intros (v & Hv & K). destruct (chol_alg n (gram_of n M)) as [L|] eqn:E; [|reflexivity]. exfalso. apply chol_alg_sound in E.
    pose proof (is_cholesky_pd n _ L E v Hv) as P.
    rewrite (quad_ext n _ (gram_of n M)) in P. 2: { intros i j Hi Hj. unfold lower_sym. destruct (Nat.leb j i); [reflexivity|now apply gram_of_sym]. }
    rewrite gram_quad in P. assert (dot n (mv n M v) (mv n M v) = 0) by (apply rsum_0; intros c Hc; rewrite (K c Hc); ring). lra.
Qed.
Definition solve_alg (n : nat) (M : mat) (b : vec) : option vec := match inv_alg n M with Some N => Some (mv n N b) | None => None end.
Lemma solve_alg_sound : sound solve_alg.
Proof.
  intros n M b x. unfold solve_alg. destruct (inv_alg n M) as [N|] eqn:E; [|discriminate]. intros H. injection H as <-. apply (proj1 (inv_alg_inverts n M)) in E.
  intros c Hc. exact (matvec_inverse n M N b E c Hc).
Qed.
(** two elements, the second one singular *)
Definition two_by_two : mat := fun i j => match i, j with 0%nat, 0%nat => 2 | 1%nat, 1%nat => 1 | 0%nat, 1%nat => 1 | 1%nat, 0%nat => 1 | _, _ => 0 end.
Lemma two_by_two_inverse : Mg_spec.inverse_of 2 two_by_two (fun i j => match i, j with 0%nat, 0%nat => 1 | 1%nat, 1%nat => 2 | 0%nat, 1%nat => -1 | 1%nat, 0%nat => -1 | _, _ => 0 end).
Proof. intros i j Hi Hj; destruct i as [|[|i]], j as [|[|j]]; try lia; split; cbn; ring. Qed.
Lemma C75_example : forall (b1 b2 : vec), exists out x1 x2,
  dense_solve test_alg solve_alg true Float32 Float32 2 NoDamping true (/ 100) [b1; b2] [two_by_two; deficient] = Some out /\ out = [x1; x2] /\
  solves 2 two_by_two x1 b1 /\ (forall c, x2 c = 0).
Proof.
  intros b1 b2.
  assert (N1 : ~ singular 2 two_by_two).
  { intros (v & (i & Hi & Hv) & K). pose proof (K 0%nat ltac:(lia)) as K0. pose proof (K 1%nat ltac:(lia)) as K1. unfold mv in K0, K1. cbn in K0, K1.
    assert (v 0%nat = 0) by lra. assert (v 1%nat = 0) by lra. destruct i as [|[|i]]; [auto|auto|lia]. }
  assert (T1 : test_alg 2 two_by_two = false) by (destruct (test_alg 2 two_by_two) eqn:T; [exfalso; now apply N1, test_alg_exact|reflexivity]).
  assert (T2 : test_alg 2 deficient = true).
  { apply test_alg_exact. exists (fun i => match i with O => 0 | _ => 1 end). split; [exists 1%nat; split; [lia|lra]|]. intros [|[|c]] Hc; [unfold mv; cbn; ring|unfold mv; cbn; ring|lia]. }
  pose proof (C75_check_singular test_alg solve_alg Float32 2 NoDamping true (/ 100) [b1; b2] [two_by_two; deficient] eq_refl (or_introl eq_refl)) as H.
  destruct (dense_solve _ _ _ _ _ _ _ _ _ _ _) as [out|].
  - destruct H as [L H]. destruct out as [|x1 [|x2 [|? ?]]]; try discriminate. exists [x1; x2], x1, x2. split; [reflexivity|]. split; [reflexivity|].
    destruct (H 0%nat two_by_two b1 eq_refl eq_refl) as (y1 & E1 & S1). destruct (H 1%nat deficient b2 eq_refl eq_refl) as (y2 & E2 & S2).
    rewrite T1 in S1. rewrite T2 in S2. cbn [nth_error] in E1, E2. injection E1 as <-. injection E2 as <-. split; [exact (solve_alg_sound _ _ _ _ S1)|exact S2].
  - exfalso. destruct H as ([|[|k]] & M & b & HM & _ & Lu & Sv).
    + injection HM as <-. cbn [system_of] in Sv. unfold solve_alg in Sv. destruct (inv_alg 2 two_by_two) eqn:E; [discriminate|].
      apply (proj2 (inv_alg_inverts 2%nat two_by_two)) in E; [exact E|]. eexists. exact two_by_two_inverse.
    + injection HM as <-. rewrite T2 in Lu. discriminate.
    + destruct k; discriminate.
Qed.
