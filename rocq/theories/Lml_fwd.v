From Coq Require Import Reals List Arith Bool Lra Lia Permutation Sorted.
From Verif Require Import RSum Adj_props Adj_diff Lml_model Lml_spec Lml_props.
Import ListNotations.
Local Open Scope R_scope.

(** ** sorting *)
Lemma insert_perm a l : Permutation (insert_desc a l) (a :: l).
Proof.
  induction l as [|b l IH]; cbn [insert_desc]; [reflexivity|]. destruct (below a b); [|reflexivity].
  rewrite IH. apply perm_swap.
Qed.
Lemma sort_perm l : Permutation (sort_desc l) l.
Proof. induction l as [|a l IH]; cbn [sort_desc fold_right]; [reflexivity|]. fold (sort_desc l). rewrite insert_perm, IH. reflexivity. Qed.
Lemma insert_sorted a l : StronglySorted (fun a b => b <= a) l -> StronglySorted (fun a b => b <= a) (insert_desc a l).
Proof.
  induction l as [|b l IH]; cbn [insert_desc]; intros H; [constructor; [constructor|constructor]|].
  inversion H as [|? ? Hs Hf]; subst. unfold below. destruct (Rlt_dec a b) as [L|L].
  - constructor; [now apply IH|]. rewrite insert_perm. constructor; [lra|exact Hf].
  - constructor; [exact H|]. constructor; [lra|]. eapply Forall_impl; [|exact Hf]. cbv beta. intros; lra.
Qed.
Lemma sort_sorted l : StronglySorted (fun a b => b <= a) (sort_desc l).
Proof. induction l as [|a l IH]; cbn [sort_desc fold_right]; [constructor|]. now apply insert_sorted. Qed.
Lemma sorted_nth l : StronglySorted (fun a b => b <= a) l -> forall i j, (i <= j)%nat -> (j < length l)%nat -> nth j l 0 <= nth i l 0.
Proof.
  induction 1 as [|a l Hs IH Hf]; cbn [length]; intros i j L Hj; [lia|]. destruct j as [|j]; [destruct i; [lra|lia]|].
  destruct i as [|i]; cbn [nth].
  - rewrite Forall_forall in Hf. apply Hf, nth_In. lia.
  - apply IH; lia.
Qed.
Definition lsum (g : R -> R) (l : list R) : R := fold_right (fun a s => g a + s) 0 l.
Lemma lsum_perm g l l' : Permutation l l' -> lsum g l = lsum g l'.
Proof. induction 1; cbn [lsum fold_right] in *; unfold lsum in *; lra. Qed.
Lemma lsum_rsum g l : lsum g l = rsum (length l) (fun i => g (nth i l 0)).
Proof.
  induction l as [|a l IH]; [reflexivity|]. cbn [lsum fold_right length]. fold (lsum g l). rewrite IH.
  change (S (length l)) with (1 + length l)%nat. rewrite rsum_app. cbn [rsum nth Nat.add]. ring.
Qed.
Lemma sorted_facts nx x : let L := sort_desc (entries_of nx x) in
  length L = nx /\ (forall g, rsum nx (fun i => g (x i)) = rsum nx (fun i => g (nth i L 0)))
  /\ (forall i j, (i <= j)%nat -> (j < nx)%nat -> nth j L 0 <= nth i L 0)
  /\ (forall i, (i < nx)%nat -> exists k, (k < nx)%nat /\ nth i L 0 = x k).
Proof.
  intros L. assert (P : Permutation L (entries_of nx x)) by apply sort_perm.
  assert (Len : length L = nx) by (rewrite P; unfold entries_of; now rewrite map_length, seq_length).
  assert (En : length (entries_of nx x) = nx) by (unfold entries_of; now rewrite map_length, seq_length).
  split; [exact Len|]. split; [|split].
  - intros g. pose proof (lsum_perm g _ _ P) as E. rewrite !lsum_rsum, Len, En in E. rewrite E. apply rsum_ext. intros i Hi.
    f_equal. unfold entries_of. rewrite (nth_indep _ 0 (x 0%nat)) by (rewrite map_length, seq_length; lia). rewrite map_nth, seq_nth by lia. reflexivity.
  - intros i j Hij Hj. apply sorted_nth; [apply sort_sorted|lia|]. fold L. lia.
  - intros i Hi. assert (I : In (nth i L 0) (entries_of nx x)) by (rewrite <- P; apply nth_In; lia).
    unfold entries_of in I. apply in_map_iff in I. destruct I as (k & E & Hk). apply in_seq in Hk. exists k. split; [lia|now symmetry].
Qed.
Lemma initial_bracket N nx x : (0 < N < nx)%nat -> INR N <= exp 7 -> INR (nx - N) < exp 7 ->
  let L := sort_desc (entries_of nx x) in
  excess N nx x (- nth (N - 1) L 0 - 7) < 0 /\ 0 <= excess N nx x (- nth N L 0 + 7).
Proof.
  intros HN H1 H2 L. destruct (sorted_facts nx x) as (Len & S & O & _). fold L in Len, S, O.
  assert (E7 : exp 7 * exp (- 7) = 1) by (rewrite <- exp_plus, Rplus_opp_r; apply exp_0).
  pose proof (exp_pos 7) as P7.
  assert (s7 : sigmoid (-7) = / (1 + exp 7)) by (unfold sigmoid; f_equal; f_equal; f_equal; ring).
  assert (s7p : sigmoid 7 = 1 - / (1 + exp 7)) by (rewrite <- s7; replace (-7) with (- (7)) by ring; rewrite sig_opp; ring).
  assert (Q : 0 < / (1 + exp 7)) by (apply Rinv_0_lt_compat; lra).
  assert (Q1 : / (1 + exp 7) * (1 + exp 7) = 1) by (apply Rinv_l; lra). set (q := / (1 + exp 7)) in *. split.
  - unfold excess. rewrite (S (fun v => sigmoid (v + (- nth (N - 1) L 0 - 7)))).
    replace nx with ((N - 1) + (nx - N + 1))%nat at 1 by lia. rewrite rsum_app.
    assert (A : rsum (N - 1) (fun i => sigmoid (nth i L 0 + (- nth (N - 1) L 0 - 7))) <= INR N - 1).
    { replace (INR N - 1) with (INR (N - 1) * 1) by (rewrite minus_INR by lia; cbn [INR]; ring). rewrite <- rsum_const. apply rsum_le. intros i Hi.
      pose proof (sig_01 (nth i L 0 + (- nth (N - 1) L 0 - 7))). lra. }
    assert (B : rsum (nx - N + 1) (fun i => sigmoid (nth (N - 1 + i) L 0 + (- nth (N - 1) L 0 - 7))) <= (INR (nx - N) + 1) * q).
    { replace (INR (nx - N) + 1) with (INR (nx - N + 1)) by (rewrite plus_INR; cbn [INR]; ring). rewrite <- rsum_const. apply rsum_le. intros i Hi.
      cbv beta. rewrite <- s7. apply sig_le. pose proof (O (N - 1)%nat (N - 1 + i)%nat ltac:(lia) ltac:(lia)). lra. }
    assert ((INR (nx - N) + 1) * q < 1) by nra. lra.
  - unfold excess. rewrite (S (fun v => sigmoid (v + (- nth N L 0 + 7)))).
    replace nx with ((N + 1) + (nx - N - 1))%nat at 1 by lia. rewrite rsum_app.
    assert (A : (INR N + 1) * (1 - q) <= rsum (N + 1) (fun i => sigmoid (nth i L 0 + (- nth N L 0 + 7)))).
    { replace (INR N + 1) with (INR (N + 1)) by (rewrite plus_INR; cbn [INR]; ring). rewrite <- rsum_const. apply rsum_le. intros i Hi.
      rewrite <- s7p. apply sig_le. pose proof (O i N ltac:(lia) ltac:(lia)). lra. }
    assert (B : 0 <= rsum (nx - N - 1) (fun i => sigmoid (nth (N + 1 + i) L 0 + (- nth N L 0 + 7)))) by (apply rsum_nonneg; intros; left; apply sig_01).
    nra.
Qed.

(** ** the search *)
Lemma filter_prefix (p : nat -> bool) : (forall a b, (a <= b)%nat -> p b = true -> p a = true) -> forall n,
  let m := length (filter p (seq 0 n)) in (m <= n)%nat /\ (forall k, (k < m)%nat -> p k = true) /\ (forall k, (m <= k < n)%nat -> p k = false).
Proof.
  intros H. induction n as [|n IH]; [cbn; repeat split; intros; lia|]. rewrite seq_S, filter_app, app_length. cbn [Nat.add filter].
  destruct IH as (I1 & I2 & I3). set (m := length (filter p (seq 0 n))) in *. destruct (p n) eqn:E; cbn [length].
  - assert (m = n). { destruct (Nat.eq_dec m n) as [|Hne]; [assumption|]. specialize (I3 m ltac:(lia)). rewrite (H m n ltac:(lia) E) in I3. discriminate. }
    cbv zeta. split; [lia|]. split; intros k Hk; [apply (H k n); [lia|exact E]|lia].
  - cbv zeta. rewrite Nat.add_0_r. split; [lia|]. split; intros k Hk; [now apply I2|]. destruct (Nat.eq_dec k n) as [->|]; [exact E|apply I3; lia].
Qed.
Lemma below_true a b : below a b = true <-> a < b.
Proof. unfold below. destruct (Rlt_dec a b); split; intros; [assumption|reflexivity|discriminate|lra]. Qed.
Lemma below_false a b : below a b = false <-> b <= a.
Proof. unfold below. destruct (Rlt_dec a b); split; intros; [discriminate|lra|lra|reflexivity]. Qed.
Lemma iter_bracket branch N nx x lo hi : (2 <= branch)%nat -> (0 < nx)%nat -> excess N nx x lo < 0 -> 0 <= excess N nx x hi ->
  exists lo' hi', lml_iter branch N nx x lo hi = Some (lo', hi') /\ hi' - lo' = (hi - lo) / INR (branch - 1)
    /\ excess N nx x lo' < 0 /\ 0 <= excess N nx x hi'.
Proof.
  intros Hb Hn Hl Hh. unfold lml_iter.
  assert (Lt : lo < hi). { destruct (Rlt_le_dec lo hi) as [|H]; [assumption|]. apply (excess_le N nx x hi lo) in H. lra. }
  set (nus := fun k => (hi - lo) * (INR k / INR (branch - 1)) + lo).
  assert (B1 : 0 < INR (branch - 1)) by (apply lt_0_INR; lia).
  assert (M : forall a b, (a <= b)%nat -> nus a <= nus b).
  { intros a b Hab. unfold nus. apply Rplus_le_compat_r, Rmult_le_compat_l; [lra|]. unfold Rdiv. apply Rmult_le_compat_r; [left; now apply Rinv_0_lt_compat|]. now apply le_INR. }
  destruct (filter_prefix (fun k => below (excess N nx x (nus k)) 0)) with (n := branch) as (I1 & I2 & I3).
  { intros a b Hab. rewrite !below_true. intros H. pose proof (excess_le N nx x _ _ (M a b Hab)). lra. }
  change (fun k => (hi - lo) * (INR k / INR (branch - 1)) + lo) with nus. cbv zeta.
  change (filter (fun k : nat => below (excess N nx x ((hi - lo) * (INR k / INR (branch - 1)) + lo)) 0) (seq 0 branch)) with (filter (fun k : nat => below (excess N nx x (nus k)) 0) (seq 0 branch)).
  set (m := length (filter (fun k : nat => below (excess N nx x (nus k)) 0) (seq 0 branch))) in *. clearbody m.
  assert (N0 : nus 0%nat = lo) by (unfold nus; cbn [INR]; unfold Rdiv; ring).
  assert (N1 : nus (branch - 1)%nat = hi) by (unfold nus; field; lra).
  destruct m as [|m].
  - exfalso. specialize (I3 0%nat ltac:(lia)). apply below_false in I3. rewrite N0 in I3. lra.
  - destruct (Nat.ltb_spec (S m) branch) as [H|H].
    + exists (nus m), (nus (S m)). split; [reflexivity|]. split; [unfold nus; rewrite S_INR; field; lra|]. split.
      * apply below_true, I2. lia.
      * apply below_false, I3. lia.
    + exfalso. specialize (I2 (branch - 1)%nat ltac:(lia)). apply below_true in I2. rewrite N1 in I2. lra.
Qed.
Lemma loop_bracket branch N nx eps x : (2 <= branch)%nat -> (0 < nx)%nat -> 0 < eps -> forall n lo hi r0,
  excess N nx x lo < 0 -> 0 <= excess N nx x hi -> hi - lo <= eps * INR (branch - 1) ^ n ->
  exists lo' r, lml_loop (S n) branch N nx eps x lo hi r0 = Some (lo', r) /\ r <= eps /\ excess N nx x lo' < 0 /\ 0 <= excess N nx x (lo' + r).
Proof.
  intros Hb Hn He. assert (B1 : 0 < INR (branch - 1)) by (apply lt_0_INR; lia).
  induction n as [|n IH]; intros lo hi r0 Hl Hh W; cbn [lml_loop].
  - cbn [pow] in W. destruct (below eps (hi - lo)) eqn:E; [apply below_true in E; lra|].
    exists lo, (hi - lo). split; [reflexivity|]. split; [lra|]. split; [exact Hl|]. now replace (lo + (hi - lo)) with hi by ring.
  - destruct (below eps (hi - lo)) eqn:E.
    + destruct (iter_bracket branch N nx x lo hi Hb Hn Hl Hh) as (lo' & hi' & -> & W' & Hl' & Hh'). apply (IH lo' hi' (hi - lo)); [exact Hl'|exact Hh'|].
      rewrite W'. apply (Rmult_le_reg_r (INR (branch - 1))); [exact B1|]. unfold Rdiv. rewrite Rmult_assoc, Rinv_l by lra. cbn [pow] in W. nra.
    + apply below_false in E. exists lo, (hi - lo). split; [reflexivity|]. split; [lra|]. split; [exact Hl|]. now replace (lo + (hi - lo)) with hi by ring.
Qed.
(** LML returns the soft selection of the N largest scores up to eps / 8 in every entry, provided N and nx - N do not exceed
    exp 7 (about 1096) and enough iterations are allowed. *)
Theorem C68_lml_forward_partial : forall n_iter branch N nx eps x s, (0 < N < nx)%nat -> INR N <= exp 7 -> INR (nx - N) < exp 7 ->
  (1 <= n_iter)%nat -> (2 <= branch)%nat -> 0 < eps -> spread nx x s -> s + 14 <= eps * INR (branch - 1) ^ (n_iter - 1) ->
  exists out y, lml_forward n_iter branch N nx eps x = Some out /\ soft_top N nx x y
    /\ (forall i, (i < nx)%nat -> Rabs (out i - y i) <= eps / 8 /\ 0 < out i < 1)
    /\ Rabs (rsum nx out - INR N) <= INR nx * (eps / 8)
    /\ (forall i j, (i < nx)%nat -> (j < nx)%nat -> x i < x j -> out i < out j).
Proof.
  intros n_iter branch N nx eps x s HN H1 H2 Hi Hb He Hs W. unfold lml_forward. destruct (Nat.leb_spec nx N) as [|_]; [lia|].
  destruct (initial_bracket N nx x HN H1 H2) as [Hl Hh]. destruct (sorted_facts nx x) as (_ & _ & _ & K). cbv zeta in *.
  set (L := sort_desc (entries_of nx x)) in *. destruct n_iter as [|n]; [lia|]. rewrite Nat.sub_succ, Nat.sub_0_r in W.
  destruct (loop_bracket branch N nx eps x Hb ltac:(lia) He n _ _ 0 Hl Hh) as (lo & r & -> & Hr & Ll & Lh).
  { destruct (K N ltac:(lia)) as (a & Ha & Ea), (K (N - 1)%nat ltac:(lia)) as (b & Hb' & Eb). pose proof (Hs b a Hb' Ha). rewrite Ea, Eb. lra. }
  destruct (excess_root N nx x lo (lo + r) ltac:(lia) Ll Lh) as (nu & Hnu & E).
  exists (fun i => sigmoid (x i + (lo + r / 2))), (fun i => sigmoid (x i + nu)). split; [reflexivity|]. split; [now apply root_soft_top|].
  assert (D : forall i, Rabs (sigmoid (x i + (lo + r / 2)) - sigmoid (x i + nu)) <= eps / 8).
  { intros i. pose proof (sig_lip (x i + (lo + r / 2)) (x i + nu)) as Lp. replace (x i + (lo + r / 2) - (x i + nu)) with (lo + r / 2 - nu) in Lp by ring.
    assert (Rabs (lo + r / 2 - nu) <= eps / 2) by (apply Rabs_le; lra). lra. }
  split; [|split].
  - intros i _. split; [apply D|apply sig_01].
  - assert (Sy : rsum nx (fun i => sigmoid (x i + nu)) = INR N) by (unfold excess in E; lra). rewrite <- Sy, <- rsum_minus.
    eapply Rle_trans; [apply rsum_abs|]. rewrite <- rsum_const. apply rsum_le. intros i _. apply D.
  - intros i j _ _ Hx. apply sig_incr. lra.
Qed.
(** With nx <= N every entry is 1 - 1e-5. *)
Theorem C68_lml_all : forall n_iter branch N nx eps x, (nx <= N)%nat ->
  exists out, lml_forward n_iter branch N nx eps x = Some out /\ forall i, out i = 1 - / 10 ^ 5.
Proof. intros n_iter branch N nx eps x H. unfold lml_forward. destruct (Nat.leb_spec nx N); [|lia]. eexists. split; [reflexivity|]. intros i. cbv beta. lra. Qed.
(** For N > exp 7 the search leaves its bracket: equal scores, one more than N, make the lookup of the upper end fail. *)
Lemma sorted_const nx c i : (i < nx)%nat -> nth i (sort_desc (entries_of nx (fun _ => c))) 0 = c.
Proof. intros H. destruct (sorted_facts nx (fun _ => c)) as (_ & _ & _ & K). destruct (K i H) as (k & _ & E). exact E. Qed.
Lemma filter_all {A} (p : A -> bool) l : (forall a, In a l -> p a = true) -> filter p l = l.
Proof. induction l as [|a l IH]; cbn [filter]; intros H; [reflexivity|]. rewrite (H a (or_introl eq_refl)), IH; [reflexivity|]. intros b Hb. apply H. now right. Qed.
Theorem C68_lml_large_refuted : forall n_iter branch N eps c, exp 7 < INR N -> (1 <= n_iter)%nat -> (1 <= branch)%nat -> eps < 14 ->
  lml_forward n_iter branch N (N + 1) eps (fun _ => c) = None.
Proof.
  intros n_iter branch N eps c HN Hi Hb He. unfold lml_forward. destruct (Nat.leb_spec (N + 1) N) as [|_]; [lia|].
  assert (P : 0 < exp 7) by apply exp_pos. assert (N1 : (0 < N)%nat) by (destruct N; [cbn [INR] in HN; lra|lia]).
  rewrite !sorted_const by lia. cbv zeta. destruct n_iter as [|n]; [lia|]. cbn [lml_loop].
  replace (- c + 7 - (- c - 7)) with 14 by ring. replace (below eps 14) with true by (symmetry; now apply below_true).
  enough (lml_iter branch N (N + 1) (fun _ => c) (- c - 7) (- c + 7) = None) as -> by reflexivity.
  unfold lml_iter. cbv zeta. rewrite filter_all.
  - rewrite seq_length. destruct branch as [|b]; [lia|]. now rewrite Nat.ltb_irrefl.
  - intros k Hk. apply in_seq in Hk. apply below_true. unfold excess. rewrite rsum_const.
    assert (F : INR k / INR (branch - 1) <= 1).
    { destruct (Nat.eq_dec branch 1) as [->|Hne]; [replace k with 0%nat by lia; cbn [INR]; unfold Rdiv; rewrite Rmult_0_l; lra|].
      assert (0 < INR (branch - 1)) by (apply lt_0_INR; lia). apply (Rmult_le_reg_r (INR (branch - 1))); [assumption|].
      unfold Rdiv. rewrite Rmult_assoc, Rinv_l by lra. rewrite Rmult_1_l, Rmult_1_r. apply le_INR. lia. }
    assert (sigmoid (c + ((- c + 7 - (- c - 7)) * (INR k / INR (branch - 1)) + (- c - 7))) <= sigmoid 7) by (apply sig_le; nra).
    assert (s7 : sigmoid 7 = 1 - / (1 + exp 7)).
    { replace (/ (1 + exp 7)) with (sigmoid (-7)) by (unfold sigmoid; f_equal; f_equal; f_equal; ring). replace (-7) with (- (7)) by ring. rewrite sig_opp. ring. }
    assert (Q1 : / (1 + exp 7) * (1 + exp 7) = 1) by (apply Rinv_l; lra). assert (Q : 0 < / (1 + exp 7)) by (apply Rinv_0_lt_compat; lra).
    rewrite plus_INR. cbn [INR]. assert (0 <= INR N) by apply pos_INR. rewrite s7 in H. nra.
Qed.
(** such N exist: 2188 is one *)
Lemma C68_lml_large_example : exp 7 < INR 2188.
Proof.
  replace 7 with (1 + 1 + 1 + 1 + 1 + 1 + 1) by ring. rewrite !exp_plus. pose proof exp_le_3. pose proof (exp_pos 1).
  assert (E2 : exp 1 * exp 1 <= 9) by nra. assert (E4 : exp 1 * exp 1 * exp 1 * exp 1 <= 81) by nra.
  assert (0 <= exp 1 * exp 1 * exp 1) by (repeat apply Rmult_le_pos; lra). assert (exp 1 * exp 1 * exp 1 <= 27) by nra.
  assert (exp 1 * exp 1 * exp 1 * exp 1 * exp 1 * exp 1 * exp 1 <= 2187) by nra.
  rewrite INR_IZR_INZ. assert (IZR (Z.of_nat 2188) = 2188) as -> by (apply f_equal; reflexivity). lra.
Qed.
