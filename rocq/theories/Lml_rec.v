(** The search of LML recovers from an initial lower end that is too high (nx - N large). *)
From Coq Require Import Reals List Arith Bool Lra Lia.
From Verif Require Import RSum Adj_props Adj_diff Lml_model Lml_spec Lml_props Lml_fwd.
Import ListNotations.
Local Open Scope R_scope.

Lemma lower_end N nx x c : (0 < N < nx)%nat -> INR (nx - N) < exp c ->
  excess N nx x (- nth (N - 1) (sort_desc (entries_of nx x)) 0 - c) < 0.
Proof.
  intros HN H2. set (L := sort_desc (entries_of nx x)). destruct (sorted_facts nx x) as (Len & S & O & _). fold L in Len, S, O.
  pose proof (exp_pos c) as P7.
  assert (s7 : sigmoid (- c) = / (1 + exp c)) by (unfold sigmoid; f_equal; f_equal; f_equal; ring).
  assert (Q : 0 < / (1 + exp c)) by (apply Rinv_0_lt_compat; lra).
  assert (Q1 : / (1 + exp c) * (1 + exp c) = 1) by (apply Rinv_l; lra). set (q := / (1 + exp c)) in *.
  unfold excess. rewrite (S (fun v => sigmoid (v + (- nth (N - 1) L 0 - c)))).
  replace nx with ((N - 1) + (nx - N + 1))%nat at 1 by lia. rewrite rsum_app.
  assert (A : rsum (N - 1) (fun i => sigmoid (nth i L 0 + (- nth (N - 1) L 0 - c))) <= INR N - 1).
  { replace (INR N - 1) with (INR (N - 1) * 1) by (rewrite minus_INR by lia; cbn [INR]; ring). rewrite <- rsum_const. apply rsum_le. intros i Hi.
    pose proof (sig_01 (nth i L 0 + (- nth (N - 1) L 0 - c))). lra. }
  assert (B : rsum (nx - N + 1) (fun i => sigmoid (nth (N - 1 + i) L 0 + (- nth (N - 1) L 0 - c))) <= (INR (nx - N) + 1) * q).
  { replace (INR (nx - N) + 1) with (INR (nx - N + 1)) by (rewrite plus_INR; cbn [INR]; ring). rewrite <- rsum_const. apply rsum_le. intros i Hi.
    cbv beta. rewrite <- s7. apply sig_le. pose proof (O (N - 1)%nat (N - 1 + i)%nat ltac:(lia) ltac:(lia)). lra. }
  assert ((INR (nx - N) + 1) * q < 1) by nra. lra.
Qed.
Lemma upper_end N nx x : (0 < N < nx)%nat -> INR N <= exp 7 ->
  0 <= excess N nx x (- nth N (sort_desc (entries_of nx x)) 0 + 7).
Proof.
  intros HN H1. set (L := sort_desc (entries_of nx x)). destruct (sorted_facts nx x) as (Len & S & O & _). fold L in Len, S, O.
  pose proof (exp_pos 7) as P7.
  assert (s7 : sigmoid (-7) = / (1 + exp 7)) by (unfold sigmoid; f_equal; f_equal; f_equal; ring).
  assert (s7p : sigmoid 7 = 1 - / (1 + exp 7)) by (rewrite <- s7; replace (-7) with (- (7)) by ring; rewrite sig_opp; ring).
  assert (Q : 0 < / (1 + exp 7)) by (apply Rinv_0_lt_compat; lra).
  assert (Q1 : / (1 + exp 7) * (1 + exp 7) = 1) by (apply Rinv_l; lra). set (q := / (1 + exp 7)) in *.
  unfold excess. rewrite (S (fun v => sigmoid (v + (- nth N L 0 + 7)))).
  replace nx with ((N + 1) + (nx - N - 1))%nat at 1 by lia. rewrite rsum_app.
  assert (A : (INR N + 1) * (1 - q) <= rsum (N + 1) (fun i => sigmoid (nth i L 0 + (- nth N L 0 + 7)))).
  { replace (INR N + 1) with (INR (N + 1)) by (rewrite plus_INR; cbn [INR]; ring). rewrite <- rsum_const. apply rsum_le. intros i Hi.
    rewrite <- s7p. apply sig_le. pose proof (O i N ltac:(lia) ltac:(lia)). lra. }
  assert (B : 0 <= rsum (nx - N - 1) (fun i => sigmoid (nth (N + 1 + i) L 0 + (- nth N L 0 + 7)))) by (apply rsum_nonneg; intros; left; apply sig_01).
  nra.
Qed.
(** no iterate is negative: the interval moves down *)
Lemma iter_recover branch N nx x lo hi : (2 <= branch)%nat -> lo <= hi -> 0 <= excess N nx x lo ->
  exists hi', lml_iter branch N nx x lo hi = Some (lo - 7, hi') /\ hi' - (lo - 7) = (hi - lo) / INR (branch - 1) + 7 /\ 0 <= excess N nx x hi'.
Proof.
  intros Hb Hw Hl. unfold lml_iter. cbv zeta.
  set (nus := fun k => (hi - lo) * (INR k / INR (branch - 1)) + lo).
  assert (B1 : 0 < INR (branch - 1)) by (apply lt_0_INR; lia).
  assert (M : forall k, lo <= nus k).
  { intros k. unfold nus. assert (0 <= INR k / INR (branch - 1)) by (apply Rmult_le_pos; [apply pos_INR|left; now apply Rinv_0_lt_compat]). nra. }
  assert (P : forall k, 0 <= excess N nx x (nus k)) by (intros k; pose proof (excess_le N nx x _ _ (M k)); lra).
  change (filter (fun k : nat => below (excess N nx x ((hi - lo) * (INR k / INR (branch - 1)) + lo)) 0) (seq 0 branch)) with (filter (fun k : nat => below (excess N nx x (nus k)) 0) (seq 0 branch)).
  replace (filter (fun k : nat => below (excess N nx x (nus k)) 0) (seq 0 branch)) with (@nil nat).
  2: { symmetry. generalize (seq 0 branch). induction l as [|a l IH]; cbn [filter]; [reflexivity|].
       replace (below (excess N nx x (nus a)) 0) with false by (symmetry; apply below_false, P). exact IH. }
  cbn [length]. exists (nus 1%nat). split; [|split; [unfold nus; cbn [INR]; field; lra|apply P]].
  f_equal. f_equal. unfold nus; cbn [INR]; unfold Rdiv; ring.
Qed.
Lemma loop_recover branch N nx eps x W : (3 <= branch)%nat -> (0 < nx)%nat -> 0 < eps -> eps < 7 -> 14 <= W -> forall k n lo hi r0,
  excess N nx x (lo - 7 * INR k) < 0 -> 0 <= excess N nx x hi -> 7 <= hi - lo -> hi - lo <= W -> W <= eps * INR (branch - 1) ^ n ->
  exists lo' r, lml_loop (k + S n) branch N nx eps x lo hi r0 = Some (lo', r) /\ r <= eps /\ excess N nx x lo' < 0 /\ 0 <= excess N nx x (lo' + r).
Proof.
  intros Hb Hn He He7 HW. assert (B2 : 2 <= INR (branch - 1)) by (change 2 with (INR 2); apply le_INR; lia).
  induction k as [|k IH]; intros n lo hi r0 Hl Hh W7 WW Wn.
  - cbn [INR] in Hl. rewrite Rmult_0_r, Rminus_0_r in Hl. cbn [Nat.add]. apply loop_bracket; try assumption; [lia|lra].
  - destruct (Rlt_le_dec (excess N nx x lo) 0) as [Neg|Pos].
    + replace (S k + S n)%nat with (S (n + S k)) by lia. apply loop_bracket; try assumption; [lia|].
      rewrite pow_add. assert (1 <= INR (branch - 1) ^ S k) by (apply pow_R1_Rle; lra).
      assert (0 < INR (branch - 1) ^ n) by (apply pow_lt; lra).
      assert (INR (branch - 1) ^ n * 1 <= INR (branch - 1) ^ n * INR (branch - 1) ^ S k) by (apply Rmult_le_compat_l; lra). nra.
    + cbn [Nat.add lml_loop]. replace (below eps (hi - lo)) with true by (symmetry; apply below_true; lra).
      destruct (iter_recover branch N nx x lo hi) as (hi' & -> & D & Hh'); [lia|lra|exact Pos|].
      assert (Q : 0 <= (hi - lo) / INR (branch - 1) <= W / 2).
      { split; [apply Rmult_le_pos; [lra|left; apply Rinv_0_lt_compat; lra]|]. apply (Rmult_le_reg_r (INR (branch - 1))); [lra|].
        unfold Rdiv at 1. rewrite Rmult_assoc, Rinv_l by lra. nra. }
      apply IH; try assumption; [|lra|lra].
      replace (lo - 7 - 7 * INR k) with (lo - 7 * INR (S k)) by (rewrite S_INR; ring). exact Hl.
Qed.
(** With branch >= 3 (the code's choices are 10 and 100) and eps < 7 no bound on the number of scores is needed: [k] steps down by 7
    are taken when exp (7 k) <= nx - N < exp (7 (k + 1)). *)
Theorem C68_lml_forward_any_size : forall n_iter branch N nx eps x s k, (0 < N < nx)%nat -> INR N <= exp 7 ->
  INR (nx - N) < exp (7 * (INR k + 1)) -> (k + 1 <= n_iter)%nat -> (3 <= branch)%nat -> 0 < eps < 7 -> spread nx x s ->
  s + 14 <= eps * INR (branch - 1) ^ (n_iter - 1 - k) ->
  exists out y, lml_forward n_iter branch N nx eps x = Some out /\ soft_top N nx x y
    /\ (forall i, (i < nx)%nat -> Rabs (out i - y i) <= eps / 8 /\ 0 < out i < 1)
    /\ Rabs (rsum nx out - INR N) <= INR nx * (eps / 8)
    /\ (forall i j, (i < nx)%nat -> (j < nx)%nat -> x i < x j -> out i < out j).
Proof.
  intros n_iter branch N nx eps x s k HN H1 H2 Hi Hb [He He7] Hs W. unfold lml_forward. destruct (Nat.leb_spec nx N) as [|_]; [lia|].
  pose proof (lower_end N nx x _ HN H2) as Hl. pose proof (upper_end N nx x HN H1) as Hh.
  destruct (sorted_facts nx x) as (_ & _ & O & K). cbv zeta in *.
  set (L := sort_desc (entries_of nx x)) in *. replace n_iter with (k + S (n_iter - 1 - k))%nat by lia.
  destruct (K N ltac:(lia)) as (a & Ha & Ea), (K (N - 1)%nat ltac:(lia)) as (b & Hb' & Eb). pose proof (Hs b a Hb' Ha) as Sp.
  pose proof (Hs a a Ha Ha) as S0.
  pose proof (O (N - 1)%nat N ltac:(lia) ltac:(lia)) as Od.
  destruct (loop_recover branch N nx eps x (s + 14) Hb ltac:(lia) He He7 ltac:(lra) k (n_iter - 1 - k)%nat (- nth (N - 1) L 0 - 7) (- nth N L 0 + 7) 0) as (lo & r & -> & Hr & Ll & Lh).
  { replace (- nth (N - 1) L 0 - 7 - 7 * INR k) with (- nth (N - 1) L 0 - 7 * (INR k + 1)) by ring. exact Hl. }
  { exact Hh. } { lra. } { lra. } { exact W. }
  destruct (excess_root N nx x lo (lo + r) ltac:(lia) Ll Lh) as (nu & Hnu & E).
  exists (fun i => sigmoid (x i + (lo + r / 2))), (fun i => sigmoid (x i + nu)). split; [reflexivity|]. split; [now apply root_soft_top|].
  assert (D : forall i, Rabs (sigmoid (x i + (lo + r / 2)) - sigmoid (x i + nu)) <= eps / 8).
  { intros i. pose proof (sig_lip (x i + (lo + r / 2)) (x i + nu)) as Lp. replace (x i + (lo + r / 2) - (x i + nu)) with (lo + r / 2 - nu) in Lp by ring.
    assert (Rabs (lo + r / 2 - nu) <= eps / 2) by (apply Rabs_le; lra). lra. }
  split; [|split].
  - intros i _. split; [apply D|apply sig_01].
  - assert (Sy : rsum nx (fun i => sigmoid (x i + nu)) = INR N) by (unfold excess in E; lra). rewrite <- Sy, <- rsum_minus.
    eapply Rle_trans; [apply rsum_abs|]. rewrite <- rsum_const. apply rsum_le. intros i _. apply D.
  - intros i j _ _ Hx. apply sig_incr. lra.
Qed.
(** one selected of 2189 equal scores (nx - N is beyond exp 7): one recovery step *)
Lemma C68_any_size_example : exists out y, lml_forward 10 10 1 2189 (/ 10000) (fun _ => 0) = Some out /\ soft_top 1 2189 (fun _ => 0) y
  /\ (forall i, (i < 2189)%nat -> Rabs (out i - y i) <= / 10000 / 8 /\ 0 < out i < 1)
  /\ Rabs (rsum 2189 out - INR 1) <= INR 2189 * (/ 10000 / 8)
  /\ (forall i j, (i < 2189)%nat -> (j < 2189)%nat -> 0 < 0 -> out i < out j).
Proof.
  apply (C68_lml_forward_any_size 10 10 1 2189 (/ 10000) (fun _ => 0) 0 1); try lia.
  - cbn [INR]. pose proof (exp_ineq1 7). lra.
  - replace (7 * (INR 1 + 1)) with (7 + 7) by (cbn [INR]; ring). rewrite exp_plus. replace 7 with (6 + 1) by ring. rewrite exp_plus.
    replace 6 with (3 + 3) by ring. rewrite exp_plus. replace 3 with (2 + 1) by ring. rewrite exp_plus.
    pose proof (exp_ineq1 1 ltac:(lra)) as E1. pose proof (exp_ineq1 2 ltac:(lra)) as E2.
    rewrite INR_IZR_INZ. assert (IZR (Z.of_nat (2189 - 1)) = 2188) as -> by (apply f_equal; reflexivity).
    assert (A : 6 < exp 2 * exp 1) by nra. assert (B : 36 < (exp 2 * exp 1) * (exp 2 * exp 1)) by nra.
    assert (C : 72 < (exp 2 * exp 1) * (exp 2 * exp 1) * exp 1) by nra. nra.
  - lra.
  - intros i j _ _. lra.
  - replace (INR (10 - 1)) with 9 by (cbn; ring). replace (10 - 1 - 1)%nat with 8%nat by lia. lra.
Qed.
