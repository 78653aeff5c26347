(** C95: windows and names of the tactile pose estimator. *)
From Coq Require Import Reals List String Ascii Arith Bool Lia Lra FinFun.
From Verif Require Import Geo_spec SE2_model Mp_model Mp_spec Mp_props Mp_main Tac_model Tac_spec.
Import ListNotations.
Local Open Scope list_scope.

(** ** names *)
Lemma digit_nosep : ~ digit "_".
Proof. unfold digit. cbn. intros H. repeat (destruct H as [H|H]; [discriminate|]). exact H. Qed.
Lemma split_sep s1 : forall s2 t1 t2, all_digits s1 -> all_digits s2 ->
  (s1 ++ String "_" t1)%string = (s2 ++ String "_" t2)%string -> s1 = s2 /\ t1 = t2.
Proof.
  induction s1 as [|a s1 IH]; intros [|b s2] t1 t2 D1 D2 E; cbn [append] in E.
  - injection E as E. auto.
  - injection E as E1 E2. subst b. destruct D2 as [D _]. destruct (digit_nosep D).
  - injection E as E1 E2. subst a. destruct D1 as [D _]. destruct (digit_nosep D).
  - injection E as E1 E2. subst b. destruct D1 as [_ D1]. destruct D2 as [_ D2].
    destruct (IH s2 t1 t2 D1 D2 E2) as [-> ->]. auto.
Qed.
Lemma idx2_inj p j i j' i' : idx2 p j i = idx2 p j' i' -> j = j' /\ i = i'.
Proof.
  unfold idx2. intros E. apply append_inj in E. apply append_inj in E. cbn [append] in E.
  destruct (split_sep _ _ _ _ (dec_digits j) (dec_digits j') E) as [A B].
  split; now apply dec_inj.
Qed.

(** ** windows *)
Definition offs (mn mx st i : nat) : list nat :=
  map (fun k => mn + k * st) (seq 0 ((Nat.min i mx - mn + (st - 1)) / st)).
Definition pure_cells (N mn mx st : nat) : list (nat * nat) :=
  flat_map (fun i => map (fun o => (i, o)) (offs mn mx st i)) (seq mn (N - mn)).
Lemma offsets_ok mn mx st i : st <> 0 -> offsets mn mx st i = Ok (offs mn mx st i).
Proof. intros H. unfold offsets, py_range. destruct (st =? 0) eqn:E; [apply Nat.eqb_eq in E; contradiction|reflexivity]. Qed.
Lemma rmap_ok {A B} (f : A -> res B) g l : (forall x, In x l -> f x = Ok (g x)) -> rmap f l = Ok (map g l).
Proof.
  induction l as [|a l IH]; intros H; [reflexivity|]. cbn. rewrite (H a) by (now left). cbn [rbind].
  rewrite IH by (intros; apply H; now right). reflexivity.
Qed.
Lemma cells_ok N mn mx st : st <> 0 -> cells N mn mx st = Ok (pure_cells N mn mx st).
Proof.
  intros H. unfold cells.
  rewrite (rmap_ok _ (fun i => map (fun o => (i, o)) (offs mn mx st i))).
  - cbn [rbind]. unfold pure_cells. now rewrite flat_map_concat_map.
  - intros i _. now rewrite offsets_ok.
Qed.
Lemma cells_step0 N mn mx : cells N mn mx 0 = if mn <? N then Err ValueErr else Ok [].
Proof.
  unfold cells. destruct (Nat.ltb_spec mn N).
  - replace (N - mn) with (S (N - mn - 1)) by lia. reflexivity.
  - replace (N - mn) with 0 by lia. reflexivity.
Qed.
Lemma in_offs mn mx st i o : st <> 0 ->
  In o (offs mn mx st i) <-> exists k, o = mn + k * st /\ o < mx /\ o < i.
Proof.
  intros H. unfold offs. rewrite in_map_iff. split.
  - intros [k [<- K]]. exists k. apply in_seq in K. destruct K as [_ K]. cbn in K.
    assert (k * st < Nat.min i mx - mn).
    { assert (st * (k + 1) <= Nat.min i mx - mn + (st - 1)); [|nia].
      eapply Nat.le_trans; [|apply (Nat.mul_div_le _ st H)]. apply Nat.mul_le_mono_l. lia. }
    split; [reflexivity|]. lia.
  - intros [k [-> [A B]]]. exists k. split; [reflexivity|]. apply in_seq. cbn. split; [lia|].
    apply Nat.lt_le_trans with (k + 1); [lia|]. apply Nat.div_le_lower_bound; [easy|]. nia.
Qed.
Lemma offs_NoDup mn mx st i : st <> 0 -> NoDup (offs mn mx st i).
Proof.
  intros H. unfold offs. apply FinFun.Injective_map_NoDup; [|apply seq_NoDup].
  intros a b E. nia.
Qed.
Lemma offs_small mn mx st i : st <> 0 -> i <= mn -> offs mn mx st i = [].
Proof.
  intros H L. destruct (offs mn mx st i) as [|o r] eqn:E; [reflexivity|].
  assert (K : In o (offs mn mx st i)) by (rewrite E; now left).
  apply in_offs in K; [|easy]. destruct K as [k [-> [_ B]]]. lia.
Qed.
Lemma in_cells N mn mx st i o : st <> 0 -> In (i, o) (pure_cells N mn mx st) <-> i < N /\ In o (offs mn mx st i).
Proof.
  intros H. unfold pure_cells. rewrite in_flat_map. split.
  - intros [i' [A B]]. apply in_map_iff in B as [o' [B C]]. injection B as -> ->. apply in_seq in A. split; [lia|easy].
  - intros [A B]. exists i. split; [|apply in_map_iff; eauto]. apply in_seq.
    pose proof B as B'. apply in_offs in B' as [k [-> [_ L]]]; [|easy]. lia.
Qed.
Lemma cells_NoDup N mn mx st : st <> 0 -> NoDup (pure_cells N mn mx st).
Proof.
  intros H. apply NoDup_flat_map; [apply seq_NoDup| |].
  - intros i _. apply FinFun.Injective_map_NoDup; [intros a b E; congruence|now apply offs_NoDup].
  - intros i j x _ _ A B. apply in_map_iff in A as [? [<- _]]. apply in_map_iff in B as [? [B _]]. congruence.
Qed.
Definition pair_of (p : nat * nat) : nat * nat := (fst p - snd p, fst p).
Lemma pairs_NoDup N mn mx st : st <> 0 -> NoDup (map pair_of (pure_cells N mn mx st)).
Proof.
  intros H. pose proof (cells_NoDup N mn mx st H) as ND.
  assert (K : forall p, In p (pure_cells N mn mx st) -> snd p < fst p).
  { intros [i o] Hp. apply in_cells in Hp as [_ Hp]; [|easy]. apply in_offs in Hp as [k [_ [_ L]]]; easy. }
  revert ND K. generalize (pure_cells N mn mx st). intros l. induction l as [|[i o] l IH]; intros ND K; [constructor|].
  inversion ND; subst. cbn. constructor.
  - intros X. apply in_map_iff in X as [[i' o'] [E X]]. unfold pair_of in E. cbn in E. injection E as E1 E2. subst i'.
    pose proof (K _ (or_introl eq_refl)) as K1. pose proof (K _ (or_intror X)) as K2. cbn in K1, K2.
    assert (o = o') by lia. subst. contradiction.
  - apply IH; [easy|]. intros p Hp. apply K. now right.
Qed.
Lemma in_pairs c j i : q_step c <> 0 ->
  In (j, i) (map pair_of (pure_cells (q_N c) (q_min c) (q_max c) (q_step c))) <-> is_pair c j i.
Proof.
  intros H. rewrite in_map_iff. unfold is_pair. split.
  - intros [[i' o] [E K]]. unfold pair_of in E. cbn in E. injection E as <- <-.
    apply in_cells in K as [A K]; [|easy]. apply in_offs in K as [k [-> [B C]]]; [|easy].
    split; [lia|]. split; [easy|]. exists k. lia.
  - intros [A [B [k [E L]]]]. exists (i, q_min c + k * q_step c). split; [unfold pair_of; cbn; f_equal; lia|].
    apply in_cells; [easy|]. split; [easy|]. apply in_offs; [easy|]. exists k. lia.
Qed.
(** there is no pair when the episode or the window is too short *)
Lemma no_cells c : q_step c <> 0 ->
  pure_cells (q_N c) (q_min c) (q_max c) (q_step c) = [] <-> q_N c <= q_min c + 1 \/ q_max c <= q_min c.
Proof.
  intros H. split.
  - intros E. destruct (le_lt_dec (q_N c) (q_min c + 1)) as [|A]; [now left|].
    destruct (le_lt_dec (q_max c) (q_min c)) as [|B]; [now right|]. exfalso.
    assert (K : In (q_min c + 1, q_min c) (pure_cells (q_N c) (q_min c) (q_max c) (q_step c))).
    { apply in_cells; [easy|]. split; [easy|]. apply in_offs; [easy|]. exists 0. lia. }
    rewrite E in K. exact K.
  - intros D. destruct (pure_cells _ _ _ _) as [|[i o] r] eqn:E; [reflexivity|]. exfalso.
    assert (K : In (i, o) (pure_cells (q_N c) (q_min c) (q_max c) (q_step c))) by (rewrite E; now left).
    apply in_cells in K as [A K]; [|easy]. apply in_offs in K as [k [-> [B C]]]; [|easy]. nia.
Qed.
