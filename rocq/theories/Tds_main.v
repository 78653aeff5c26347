(** C96: limits, the train/validation split and the batches. *)
From Coq Require Import Reals List Arith Bool ZArith Lia Lra Permutation Sorting.Sorted.
From Verif Require Import Mp_model Tds_model Tds_props.
Import ListNotations.
Local Open Scope list_scope.

Section M.
Variable A : Type.
Notation row := (row A).
Implicit Types file : list row.

(** when nothing can be wrong: no episode of a single row *)
Theorem C96_load_ok : forall file L max_episodes split, L <> 0 -> 0 < max_episodes ->
  (forall e, In e (map fst file) -> List.length (rows_of A file e) <> 1) ->
  (exists e, In e (map fst file) /\ L <= List.length (rows_of A file e)) ->
  exists data, load A file L max_episodes split = Ok data.
Proof.
  intros file L mx split HL HM H1 [e0 [He0 Le0]]. unfold load.
  assert (G : forall eps data, (forall e, In e eps -> In e (map fst file)) ->
     (data <> [] \/ exists e, In e eps /\ L <= List.length (rows_of A file e)) ->
     exists d, load_loop A file L mx split eps data = Ok d /\ d <> []).
  { induction eps as [|e r IH]; intros data Hin Hne.
    - exists data. split; [reflexivity|]. destruct Hne as [|[e [[] _]]]; easy.
    - cbn [load_loop]. destruct (Nat.leb_spec mx (List.length data)).
      + exists data. split; [reflexivity|]. destruct data; [cbn in *; lia|discriminate].
      + destruct (Nat.eqb_spec (List.length (rows_of A file e)) 1) as [X|_]; [exfalso; apply (H1 e); [apply Hin; now left|easy]|].
        destruct (Nat.ltb_spec (List.length (rows_of A file e)) L) as [W|W].
        * apply IH; [intros; apply Hin; now right|]. destruct Hne as [|[e' [[<-|K] K']]]; [now left|lia|right; eauto].
        * assert (S : exists ts, (if split then splits A (rows_of A file e) L else Ok [firstn L (rows_of A file e)]) = Ok ts /\ ts <> []).
          { destruct split; [rewrite splits_ok by easy|]; eexists; (split; [reflexivity|]); [|discriminate].
            assert (1 <= List.length (rows_of A file e) / L) by (apply Nat.div_le_lower_bound; lia).
            destruct (List.length (rows_of A file e) / L); [lia|discriminate]. }
          destruct S as [ts [-> NE]]. cbn [rbind]. apply IH; [intros; apply Hin; now right|].
          left. destruct data; [exact NE|discriminate]. }
  destruct (G (unique (map fst file)) []) as [d [-> NE]].
  - intros e. apply in_unique.
  - right. exists e0. split; [now apply in_unique|easy].
  - cbn [rbind]. destruct d; [contradiction|eauto].
Qed.
(** an episode of a single row is not skipped but stops everything, whatever
    the other episodes are *)
Lemma single_row_loop file L mx split : forall e r data, List.length data < mx -> List.length (rows_of A file e) = 1 ->
  load_loop A file L mx split (e :: r) data = Err TypeErr.
Proof.
  intros e r data H1 H2. cbn [load_loop]. destruct (Nat.leb_spec mx (List.length data)); [lia|]. rewrite H2. reflexivity.
Qed.
Theorem C96_single_row_refuted : forall file L max_episodes split e, 0 < max_episodes ->
  (forall e', In e' (map fst file) -> e <= e') -> List.length (rows_of A file e) = 1 ->
  load A file L max_episodes split = Err TypeErr.
Proof.
  intros file L mx split e HM Hmin H1. unfold load.
  assert (He : In e (map fst file)).
  { destruct (rows_of A file e) as [|r l] eqn:E; [discriminate|].
    assert (X : In r (rows_of A file e)) by (rewrite E; now left). unfold rows_of in X. apply filter_In in X as [X1 X2].
    apply Nat.eqb_eq in X2. subst e. now apply List.in_map. }
  destruct (unique (map fst file)) as [|a u] eqn:E; [apply in_unique in He; rewrite E in He; contradiction|].
  assert (a = e).
  { pose proof (unique_sorted (map fst file)) as S. rewrite E in S. inversion S; subst.
    assert (Ha : In a (map fst file)) by (apply in_unique; rewrite E; now left).
    apply in_unique in He. rewrite E in He. destruct He as [|He]; [easy|].
    rewrite Forall_forall in H3. specialize (H3 _ He). specialize (Hmin _ Ha). lia. }
  subst a. rewrite single_row_loop; [reflexivity|cbn; lia|easy].
Qed.

(** ** train and validation *)
Lemma gather_seq {B} (l : list B) : forall pre, gather (pre ++ l) (seq (List.length pre) (List.length l)) = l.
Proof.
  induction l as [|x l IH]; intros pre; [reflexivity|]. cbn [List.length seq gather flat_map].
  unfold gather in *. cbn [flat_map]. rewrite nth_error_app2, Nat.sub_diag by lia. cbn [nth_error app]. f_equal.
  replace (S (List.length pre)) with (List.length (pre ++ [x])) by (rewrite app_length; cbn; lia).
  replace (pre ++ x :: l) with ((pre ++ [x]) ++ l) by (now rewrite <- app_assoc). apply IH.
Qed.
Lemma gather_app {B} (l : list B) a b : gather l (a ++ b) = gather l a ++ gather l b.
Proof. apply flat_map_app. Qed.
Lemma gather_perm {B} (l : list B) a b : Permutation a b -> Permutation (gather l a) (gather l b).
Proof.
  unfold gather. induction 1; cbn; auto.
  - now apply Permutation_app_head.
  - rewrite !app_assoc. apply Permutation_app_tail. apply Permutation_app_comm.
  - eauto using Permutation_trans.
Qed.
Lemma gather_length {B} (l : list B) a : (forall i, In i a -> i < List.length l) -> List.length (gather l a) = List.length a.
Proof.
  unfold gather. induction a as [|i a IH]; intros H; [reflexivity|]. cbn. rewrite app_length, IH by (intros; apply H; now right).
  destruct (nth_error l i) eqn:E; [reflexivity|]. apply nth_error_None in E. specialize (H i (or_introl eq_refl)). lia.
Qed.
Definition shuffle (n : nat) (order : list nat) : Prop := Permutation order (seq 0 n).
Lemma shuffle_len n o : shuffle n o -> List.length o = n.
Proof. intros P. apply Permutation_length in P. now rewrite seq_length in P. Qed.
Lemma shuffle_lt n o : shuffle n o -> forall i, In i o -> i < n.
Proof. intros P i H. apply (Permutation_in i P) in H. apply in_seq in H. lia. Qed.

(** training and validation data are a partition of the data *)
Theorem C96_partition : forall file L batch max_episodes max_steps split order ratio data dt dv da,
  load A file L max_episodes split = Ok data -> shuffle (List.length data) order ->
  make A file L batch max_episodes max_steps split Train order ratio = Ok dt ->
  make A file L batch max_episodes max_steps split Val order ratio = Ok dv ->
  make A file L batch max_episodes max_steps split All order ratio = Ok da ->
  ds_items A da = data /\ Permutation (ds_items A dv ++ ds_items A dt) data
  /\ List.length (ds_items A dv) = Nat.min (List.length data) (stop_of (List.length data) ratio)
  /\ List.length (ds_items A dt) = List.length data - stop_of (List.length data) ratio.
Proof.
  intros file L bs mx ms split order ratio data dt dv da E P. unfold make. rewrite E. cbn [rbind].
  destruct (Nat.min bs mx =? 0); [discriminate|]. intros T V K. injection T as <-. injection V as <-. injection K as <-. cbn [ds_items].
  split; [exact (gather_seq data [])|]. unfold indices. split.
  - rewrite <- gather_app, firstn_skipn. eapply Permutation_trans; [apply gather_perm; exact P|].
    change (Permutation (gather ([] ++ data) (seq (List.length (@nil (list row))) (List.length data))) data). now rewrite gather_seq.
  - split; rewrite gather_length.
    + rewrite firstn_length, (shuffle_len _ _ P). lia.
    + intros i Hi. apply (shuffle_lt _ _ P). rewrite <- (firstn_skipn (stop_of (List.length data) ratio) order). apply in_or_app. now left.
    + rewrite skipn_length, (shuffle_len _ _ P). reflexivity.
    + intros i Hi. apply (shuffle_lt _ _ P). rewrite <- (firstn_skipn (stop_of (List.length data) ratio) order). apply in_or_app. now right.
Qed.
(** the size of the validation set: the least integer not below n val_ratio,
    and at least 2 *)
Lemma ceil_spec x : (x <= IZR (ceil x) < x + 1)%R.
Proof.
  unfold ceil. rewrite opp_IZR. pose proof (base_Int_part (- x)) as [H1 H2]. lra.
Qed.
Theorem C96_validation_size : forall n ratio,
  2 <= stop_of n ratio /\ (INR n * ratio <= INR (stop_of n ratio))%R
  /\ (stop_of n ratio = 2 \/ (INR (stop_of n ratio) < INR n * ratio + 1)%R)
  /\ ((0 <= ratio <= 1)%R -> stop_of n ratio <= Nat.max n 2).
Proof.
  intros n ratio. pose proof (ceil_spec (INR n * ratio)) as [C1 C2]. unfold stop_of. set (z := ceil (INR n * ratio)) in *.
  assert (E : INR (Z.to_nat (Z.max z 2)) = IZR (Z.max z 2)) by (rewrite INR_IZR_INZ, Z2Nat.id; [reflexivity|lia]).
  assert (M : (IZR z <= IZR (Z.max z 2))%R) by (apply IZR_le; lia).
  split; [lia|]. split; [rewrite E; lra|]. split.
  - destruct (Z.le_gt_cases z 2); [left; rewrite Z.max_r by lia; reflexivity|right; rewrite E, Z.max_l by lia; lra].
  - intros H. assert (Hz : (z <= Z.of_nat n)%Z).
    { apply Z.lt_succ_r. apply lt_IZR. rewrite succ_IZR, <- INR_IZR_INZ. pose proof (pos_INR n) as Pn.
      assert ((INR n * ratio <= INR n)%R) by nra. lra. }
    lia.
Qed.
(** nothing is left for training unless there are more than two episodes *)
Theorem C96_small_training : forall n (order : list nat) ratio, shuffle n order ->
  (indices Train n order ratio = [] <-> n <= stop_of n ratio) /\ (n <= 2 -> indices Train n order ratio = []).
Proof.
  intros n order ratio P. pose proof (shuffle_len _ _ P) as L. cbn [indices].
  assert (G : skipn (stop_of n ratio) order = [] <-> n <= stop_of n ratio).
  { split; intros H; [|apply skipn_all2; lia].
    assert (X : List.length (skipn (stop_of n ratio) order) = 0) by (now rewrite H). rewrite skipn_length in X. lia. }
  split; [exact G|]. intros H. apply G. destruct (C96_validation_size n ratio) as [S _]. lia.
Qed.

(** ** batches *)
Lemma num_batches_spec (d : dataset A) : ds_batch A d <> 0 ->
  num_batches A d = Z.of_nat ((List.length (ds_items A d) + (ds_batch A d - 1)) / ds_batch A d).
Proof.
  intros H. unfold num_batches. set (n := List.length (ds_items A d)). set (m := ds_batch A d) in *.
  rewrite Nat2Z.inj_div. replace (Z.of_nat (n + (m - 1))) with (Z.of_nat n - 1 + 1 * Z.of_nat m)%Z by lia.
  rewrite Z.div_add by lia. lia.
Qed.
Lemma slice_nat {B} (l : list B) a b : slice l (Z.of_nat a) (Z.of_nat b) = firstn (Nat.min b (List.length l) - Nat.min a (List.length l)) (skipn (Nat.min a (List.length l)) l).
Proof.
  unfold slice, clip. destruct (Z.ltb_spec (Z.of_nat a) 0); [lia|]. destruct (Z.ltb_spec (Z.of_nat b) 0); [lia|].
  replace (Z.to_nat (Z.min (Z.of_nat (List.length l)) (Z.max 0 (Z.of_nat a)))) with (Nat.min a (List.length l)) by lia.
  replace (Z.to_nat (Z.min (Z.of_nat (List.length l)) (Z.max 0 (Z.of_nat b)))) with (Nat.min b (List.length l)) by lia.
  reflexivity.
Qed.
Lemma batch_eq (d : dataset A) i : ds_batch A d <> 0 -> (Z.of_nat i < num_batches A d)%Z ->
  get_batch A d (Z.of_nat i) = Ok (map (firstn (ds_steps A d)) (firstn (ds_batch A d) (skipn (i * ds_batch A d) (ds_items A d)))).
Proof.
  intros H Hi. unfold get_batch. destruct (Z.ltb_spec (Z.of_nat i) (num_batches A d)); [|lia].
  rewrite num_batches_spec in Hi by easy. apply Nat2Z.inj_lt in Hi.
  set (n := List.length (ds_items A d)) in *. set (m := ds_batch A d) in *.
  assert (Q : i * m < n).
  { assert (m * (i + 1) <= n + (m - 1)); [|nia].
    eapply Nat.le_trans; [|apply (Nat.mul_div_le (n + (m - 1)) m H)]. apply Nat.mul_le_mono_l. lia. }
  replace (Z.of_nat i * Z.of_nat m)%Z with (Z.of_nat (i * m)) by lia.
  replace (Z.min (Z.of_nat (i * m) + Z.of_nat m) (Z.of_nat n)) with (Z.of_nat (Nat.min (i * m + m) n)) by lia.
  rewrite slice_nat. fold n. f_equal. f_equal.
  rewrite (Nat.min_l (i * m) n) by lia. rewrite (Nat.min_l (Nat.min (i * m + m) n) n) by lia.
  destruct (le_lt_dec (i * m + m) n).
  - rewrite Nat.min_l by lia. f_equal. lia.
  - rewrite Nat.min_r by lia. rewrite !firstn_all2; [reflexivity| |]; rewrite skipn_length; fold n; lia.
Qed.
Lemma concat_batches {B} (l : list B) m q : m <> 0 -> List.length l <= q * m ->
  List.concat (map (fun i => firstn m (skipn (i * m) l)) (seq 0 q)) = l.
Proof.
  intros Hm. revert l. induction q as [|q IH]; intros l H.
  - destruct l; [reflexivity|cbn in H; lia].
  - cbn [seq map List.concat]. cbn [Nat.mul skipn].
    replace (map (fun i => firstn m (skipn (i * m) l)) (seq 1 q)) with (map (fun i => firstn m (skipn (i * m) (skipn m l))) (seq 0 q)).
    + rewrite IH; [apply firstn_skipn|]. rewrite skipn_length. cbn in H. lia.
    + rewrite <- seq_shift, map_map. apply map_ext. intros i. f_equal. cbn [Nat.mul].
      clear. revert l. generalize (i * m) as a. induction m; intros a l; [reflexivity|]. destruct l; [now rewrite !skipn_nil|]. cbn. apply IHm.
Qed.
(** the batches 0, 1, ... are the whole dataset, in order, cut to the number of
    steps; all but the last are full and none is empty *)
Theorem C96_batches : forall d, ds_batch A d <> 0 ->
  exists bs, num_batches A d = Z.of_nat (List.length bs)
  /\ (forall i, i < List.length bs -> exists b, nth_error bs i = Some b /\ get_batch A d (Z.of_nat i) = Ok b)
  /\ List.concat bs = map (firstn (ds_steps A d)) (ds_items A d)
  /\ (forall i b, nth_error bs i = Some b -> 0 < List.length b <= ds_batch A d /\ (i + 1 < List.length bs -> List.length b = ds_batch A d)).
Proof.
  intros d H. set (n := List.length (ds_items A d)). set (m := ds_batch A d) in *.
  set (q := (n + (m - 1)) / m).
  set (bs := map (fun i => map (firstn (ds_steps A d)) (firstn m (skipn (i * m) (ds_items A d)))) (seq 0 q)).
  assert (Lb : List.length bs = q) by (unfold bs; now rewrite map_length, seq_length).
  assert (NB : num_batches A d = Z.of_nat q) by (rewrite num_batches_spec by easy; reflexivity).
  assert (Nth : forall i, i < q -> nth_error bs i = Some (map (firstn (ds_steps A d)) (firstn m (skipn (i * m) (ds_items A d))))).
  { intros i Hi. unfold bs. erewrite map_nth_error; [reflexivity|].
    rewrite nth_error_nth' with (d := 0) by (now rewrite seq_length). rewrite seq_nth by easy. reflexivity. }
  assert (Q : forall i, i < q -> i * m < n).
  { intros i Hi. assert (m * (i + 1) <= n + (m - 1)); [|nia].
    eapply Nat.le_trans; [|apply (Nat.mul_div_le (n + (m - 1)) m H)]. apply Nat.mul_le_mono_l. unfold q in Hi. lia. }
  exists bs. rewrite Lb. split; [exact NB|]. split; [|split].
  - intros i Hi. eexists. split; [now apply Nth|]. apply batch_eq; [easy|]. rewrite NB. lia.
  - unfold bs. rewrite <- (map_map (fun i => firstn m (skipn (i * m) (ds_items A d))) (map (firstn (ds_steps A d)))), <- concat_map. f_equal.
    apply concat_batches; [easy|]. fold n. unfold q.
    pose proof (Nat.mod_upper_bound (n + (m - 1)) m H). pose proof (Nat.div_mod (n + (m - 1)) m H). nia.
  - intros i b Hb. assert (Hi : i < q) by (rewrite <- Lb; apply nth_error_Some; congruence).
    rewrite Nth in Hb by easy. injection Hb as <-. rewrite map_length, firstn_length, skipn_length. fold n.
    specialize (Q i Hi) as Qi. split; [lia|]. intros L. specialize (Q (i + 1) L). lia.
Qed.
Theorem C96_too_large : forall d i, (num_batches A d <= i)%Z -> get_batch A d i = Err AssertErr.
Proof. intros d i H. unfold get_batch. destruct (Z.ltb_spec i (num_batches A d)); [lia|reflexivity]. Qed.
(** a negative index is not refused: -1 gives an empty batch *)
Theorem C96_negative_batch_refuted : forall d, ds_batch A d <> 0 -> get_batch A d (-1) = Ok [].
Proof.
  intros d H. unfold get_batch.
  assert (N : (-1 < num_batches A d)%Z) by (rewrite num_batches_spec by easy; lia).
  destruct (Z.ltb_spec (-1) (num_batches A d)); [|lia]. f_equal.
  replace (Z.min (-1 * Z.of_nat (ds_batch A d) + Z.of_nat (ds_batch A d)) (Z.of_nat (List.length (ds_items A d)))) with 0%Z by lia.
  unfold slice. replace (clip (List.length (ds_items A d)) 0) with 0 by (unfold clip; cbn; lia). reflexivity.
Qed.
(** the number of time steps *)
Theorem C96_steps : forall file L batch max_episodes max_steps split m order ratio d i b, L <> 0 ->
  make A file L batch max_episodes max_steps split m order ratio = Ok d -> get_batch A d i = Ok b ->
  forall e, In e b -> List.length e = Nat.min max_steps L.
Proof.
  intros file L bs mx ms split m order ratio d i b HL E G e He. unfold make in E.
  destruct (load A file L mx split) as [data|] eqn:Ld; [|discriminate]. cbn [rbind] in E.
  destruct (Nat.min bs mx =? 0); [discriminate|]. injection E as <-. unfold get_batch in G. cbn [ds_items ds_batch ds_steps] in G.
  destruct (Z.ltb _ _); [|discriminate]. injection G as <-. apply in_map_iff in He as [x [<- Hx]].
  assert (X : In x data).
  { unfold slice in Hx.
    match type of Hx with In x (firstn ?p (skipn ?q ?l)) =>
      assert (Y : In x l) by (rewrite <- (firstn_skipn q l); apply in_or_app; right; rewrite <- (firstn_skipn p (skipn q l)); apply in_or_app; now left) end.
    unfold gather in Y. apply in_flat_map in Y as [j [_ Y]]. destruct (nth_error data j) eqn:Ej; [|contradiction].
    destruct Y as [<-|[]]. now apply nth_error_In in Ej. }
  rewrite firstn_length. destruct (C96_items A file L mx split data HL Ld x X) as [-> _]. lia.
Qed.
End M.

(** with split_episodes there may be more items than max_episodes *)
Theorem C96_max_split_refuted : forall L, 2 <= L -> exists (file : list (nat * nat)) data,
  load nat file L 1 true = Ok data /\ List.length data = 2.
Proof.
  intros L HL. set (file := map (fun k => (0, k)) (seq 0 (2 * L))).
  assert (R0 : rows_of nat file 0 = file).
  { unfold file, rows_of. generalize (seq 0 (2 * L)). induction l; [reflexivity|]. cbn. now rewrite IHl. }
  assert (LF : @List.length (row nat) file = 2 * L) by (unfold file, row; now rewrite map_length, seq_length).
  assert (U : unique (map fst file) = [0]).
  { assert (S : forall e, In e (unique (map fst file)) -> e = 0).
    { intros e He. apply (proj1 (in_unique _ _)) in He. unfold file in He. rewrite map_map in He. apply in_map_iff in He as [x [<- _]]. reflexivity. }
    assert (I0 : In 0 (unique (map fst file))).
    { apply in_unique. unfold file. rewrite map_map. apply in_map_iff. exists 0. split; [reflexivity|apply in_seq; lia]. }
    pose proof (unique_sorted (map fst file)) as So. destruct (unique (map fst file)) as [|a [|b l]].
    - contradiction.
    - now rewrite (S a (or_introl eq_refl)).
    - inversion So; subst. apply Forall_inv in H2. pose proof (S a (or_introl eq_refl)). pose proof (S b (or_intror (or_introl eq_refl))). lia. }
  exists file. clearbody file. eexists. unfold load. rewrite U. cbn [load_loop List.length Nat.leb]. rewrite R0, LF.
  destruct (Nat.eqb_spec (2 * L) 1); [lia|]. destruct (Nat.ltb_spec (2 * L) L); [lia|].
  rewrite splits_ok by lia. rewrite LF. replace (2 * L / L) with 2 by (rewrite Nat.div_mul; lia). cbn [seq map rbind load_loop app].
  split; reflexivity.
Qed.
(** a concrete file: an episode of 5 rows, a short one and one of 4 rows *)
Definition file_example : list (nat * nat) := [(3,0);(3,1);(3,2);(3,3);(3,4);(5,5);(5,6);(4,7);(4,8);(4,9);(4,10)].
Example load_example : load nat file_example 4 10 false = Ok [[(3,0);(3,1);(3,2);(3,3)]; [(4,7);(4,8);(4,9);(4,10)]].
Proof. reflexivity. Qed.
Example load_example_split : load nat file_example 2 10 true
  = Ok [[(3,0);(3,1)]; [(3,2);(3,3)]; [(4,7);(4,8)]; [(4,9);(4,10)]; [(5,5);(5,6)]].
Proof. reflexivity. Qed.
Example batch_example : get_batch nat (mkDS nat [[(0,1);(0,2)];[(1,3);(1,4)];[(2,5);(2,6)]] 2 1) 1 = Ok [[(2,5)]].
Proof. reflexivity. Qed.
