(** C103: SO2.vee and SE2.vee accept exactly the matrices that are hats, up to a tolerance. *)
From Coq Require Import List Arith QArith Qabs Bool Lia Lqa.
From Verif Require Import Hv_model.
Import ListNotations.
Local Open Scope Q_scope.

(** ** Specification *)
(** [a] is zero, up to 1e-10 *)
Definition zeroish (a : Q) : Prop := Qabs a < 1 # 10000000000.
(** [a] is minus [b], up to 1e-8 plus 1e-5 of [b] *)
Definition opposite (a b : Q) : Prop := Qabs (a + b) <= (1 # 100000000) + (1 # 100000) * Qabs b.

(** The 2x2 matrix [m] is the hat [[0,-w],[w,0]] of [w]. *)
Definition so2_alg (m : nat -> nat -> Q) (w : Q) : Prop :=
  zeroish (m 0%nat 0%nat) /\ opposite (m 0%nat 1%nat) w /\ m 1%nat 0%nat = w /\ zeroish (m 1%nat 1%nat).
(** The 3x3 matrix [m] is the hat [[0,-w,x],[w,0,y],[*,*,0]] of [(x,y,w)], but for two entries. *)
Definition se2_alg (m : nat -> nat -> Q) (v : Q * Q * Q) : Prop :=
  let '(x, y, w) := v in
  zeroish (m 0 0)%nat /\ opposite (m 0 1)%nat w /\ m 0%nat 2%nat = x /\
  m 1%nat 0%nat = w /\ zeroish (m 1 1)%nat /\ m 1%nat 2%nat = y /\ zeroish (m 2 2)%nat.

(** ** Lemmas *)
Lemma Qlt_bool_iff : forall a b, Qlt_bool a b = true <-> a < b.
Proof.
  intros. unfold Qlt_bool. rewrite negb_true_iff. split; intros H.
  - apply Qnot_le_lt. intros K. apply Qle_bool_iff in K. congruence.
  - destruct (Qle_bool b a) eqn:E; auto. apply Qle_bool_iff in E. lra.
Qed.
Lemma Qmax_lt : forall a b e, Qmax_ a b < e <-> a < e /\ b < e.
Proof.
  intros. unfold Qmax_. destruct (Qle_bool a b) eqn:E.
  - apply Qle_bool_iff in E. split; [intros; split; lra | tauto].
  - assert (~ a <= b) by (intros K; apply Qle_bool_iff in K; congruence). split; [intros; split; lra | tauto].
Qed.
Lemma abs_max_none : forall l, abs_max l = None -> l = [].
Proof. destruct l; simpl; auto. destruct (abs_max l); discriminate. Qed.
Lemma abs_max_lt : forall l m e, abs_max l = Some m -> (m < e <-> forall a, In a l -> Qabs a < e).
Proof.
  induction l as [|a l IH]; simpl; intros m e H; [discriminate|].
  destruct (abs_max l) as [k|] eqn:K; injection H as <-.
  - rewrite Qmax_lt, (IH k e eq_refl). split.
    + intros [H1 H2] b [->|I]; auto.
    + intros H; split; auto.
  - apply abs_max_none in K. subst l. split; [intros H b [->|[]]; auto | intros H; auto].
Qed.
Lemma in_col : forall t i j a, In a (col t i j) <-> exists b, (b < batch t)%nat /\ a = ent t b i j.
Proof.
  intros. unfold col. rewrite in_map_iff. split.
  - intros [b [<- H]]. apply in_seq in H. exists b. split; [lia|auto].
  - intros [b [H ->]]. exists b. split; auto. apply in_seq. lia.
Qed.
Lemma small_iff : forall t i, small t i = Some true <->
  (0 < batch t)%nat /\ forall b, (b < batch t)%nat -> zeroish (ent t b i i).
Proof.
  intros. unfold small. destruct (abs_max (col t i i)) as [m|] eqn:E.
  - assert (B : (0 < batch t)%nat).
    { destruct (batch t) eqn:B; [|lia]. unfold col in E. rewrite B in E. discriminate. }
    split.
    + intros H. injection H as H. apply Qlt_bool_iff in H.
      split; auto. intros b Hb. unfold zeroish.
      apply (proj1 (abs_max_lt _ _ _ E) H). apply in_col. eauto.
    + intros [_ H]. f_equal. apply Qlt_bool_iff. apply (proj2 (abs_max_lt _ _ _ E)).
      intros a I. apply in_col in I. destruct I as [b [Hb ->]]. apply (H b Hb).
  - apply abs_max_none in E. split; [discriminate|]. intros [B _]. unfold col in E.
    destruct (batch t); [lia|discriminate].
Qed.
Lemma allclose_iff : forall t, allclose (combine (col t 0 1) (map Qopp (col t 1 0))) = true <->
  forall b, (b < batch t)%nat -> opposite (ent t b 0%nat 1%nat) (ent t b 1%nat 0%nat).
Proof.
  intros t. unfold allclose, col. rewrite map_map.
  assert (C : forall l, combine (map (fun b => ent t b 0%nat 1%nat) l) (map (fun b => - ent t b 1%nat 0%nat) l)
    = map (fun b => (ent t b 0%nat 1%nat, - ent t b 1%nat 0%nat)) l).
  { induction l; simpl; congruence. }
  rewrite C, forallb_forall. split.
  - intros H b Hb. assert (I : In b (seq 0 (batch t))) by (apply in_seq; lia).
    specialize (H _ (in_map (fun b => (ent t b 0%nat 1%nat, - ent t b 1%nat 0%nat)) _ _ I)).
    cbn [fst snd] in H. apply Qle_bool_iff in H. unfold opposite.
    rewrite Qabs_opp in H. setoid_replace (ent t b 0%nat 1%nat + ent t b 1%nat 0%nat)
      with (ent t b 0%nat 1%nat - - ent t b 1%nat 0%nat) by ring. exact H.
  - intros H p I. apply in_map_iff in I. destruct I as [b [<- I]]. apply in_seq in I.
    cbn [fst snd]. apply Qle_bool_iff. specialize (H b ltac:(lia)). unfold opposite in H.
    rewrite Qabs_opp. setoid_replace (ent t b 0%nat 1%nat - - ent t b 1%nat 0%nat)
      with (ent t b 0%nat 1%nat + ent t b 1%nat 0%nat) by ring. exact H.
Qed.
Lemma square3_iff : forall t n, square3 t n = true <-> dims t = [batch t; n; n].
Proof.
  intros. unfold square3, batch. destruct (dims t) as [|b [|r [|c [|? ?]]]]; try (split; discriminate).
  rewrite andb_true_iff, !Nat.eqb_eq. split; [intros [-> ->]; auto | intros H; injection H; auto].
Qed.
Lemma map_seq_iff : forall {A} (f : nat -> A) n r d, map f (seq 0 n) = r <->
  n = length r /\ forall b, (b < n)%nat -> f b = nth b r d.
Proof.
  intros. split.
  - intros <-. rewrite map_length, seq_length. split; auto. intros b Hb.
    rewrite (nth_indep _ d (f 0%nat)) by (rewrite map_length, seq_length; auto).
    rewrite map_nth, seq_nth; auto.
  - intros [-> H]. apply (nth_ext _ _ d d).
    + rewrite map_length, seq_length. auto.
    + intros b Hb. rewrite map_length, seq_length in Hb. rewrite <- H by auto.
      rewrite (nth_indep _ d (f 0%nat)) by (rewrite map_length, seq_length; auto).
      rewrite map_nth, seq_nth; auto.
Qed.

(** ** SO2 *)
(** With checks on, vee returns exactly for a non-empty batch of hats, up to the tolerance, and gives back
    the numbers they are the hats of. *)
Theorem C103_so2 : forall s t r,
  snd (so2_vee (mkCtx true s) t) = Some r <->
  dims t = [length r; 2; 2]%nat /\ r <> [] /\
  forall b, (b < length r)%nat -> so2_alg (ent t b) (nth b r 0).
Proof.
  intros s t r. unfold so2_vee, so2_hat_check. cbn [enabled].
  pose proof (small_iff t 0) as S0. pose proof (small_iff t 1) as S1.
  pose proof (allclose_iff t) as AC. pose proof (square3_iff t 2) as SQ.
  split.
  - destruct (small t 0) as [[|]|]; destruct (small t 1) as [[|]|]; cbn [snd]; rewrite ?andb_false_r; cbn [andb];
      try discriminate.
    destruct (square3 t 2); cbn [andb]; [|discriminate].
    destruct (allclose _); cbn [andb]; [|discriminate]. intros H.
    injection H as H. unfold col in H. apply (map_seq_iff _ _ _ 0) in H. destruct H as [B H].
    destruct SQ as [SQ _]. specialize (SQ eq_refl). destruct S0 as [S0 _]. specialize (S0 eq_refl).
    destruct S1 as [S1 _]. specialize (S1 eq_refl). destruct AC as [AC _]. specialize (AC eq_refl).
    rewrite SQ, B. split; auto. split.
    + intros ->. simpl in B. lia.
    + rewrite <- B. intros b Hb. repeat split.
      * apply S0; auto.
      * rewrite <- H by auto. apply AC; auto.
      * apply H; auto.
      * apply S1; auto.
  - intros [D [NR H]].
    assert (B : batch t = length r) by (unfold batch; rewrite D; auto).
    assert (P : (0 < length r)%nat) by (destruct r; [congruence|simpl; lia]).
    rewrite <- B in H.
    assert (A0 : small t 0 = Some true) by (apply S0; split; [lia|]; intros b Hb; apply (H b Hb)).
    assert (A1 : small t 1 = Some true) by (apply S1; split; [lia|]; intros b Hb; apply (H b Hb)).
    assert (A2 : square3 t 2 = true) by (apply SQ; rewrite B; auto).
    assert (A3 : allclose (combine (col t 0 1) (map Qopp (col t 1 0))) = true).
    { apply AC. intros b Hb. destruct (H b Hb) as (_ & O & E & _). rewrite E. exact O. }
    rewrite A0, A1, A2, A3. cbn [andb snd]. f_equal. unfold col. apply (map_seq_iff _ _ _ 0). split; auto.
    intros b Hb. apply (H b Hb).
Qed.

(** With checks off only the sizes are looked at. *)
Theorem C103_so2_unchecked : forall s t r,
  snd (so2_vee (mkCtx false s) t) = Some r <->
  dims t = [length r; 2; 2]%nat /\ forall b, (b < length r)%nat -> ent t b 1%nat 0%nat = nth b r 0.
Proof.
  intros s t r. unfold so2_vee, so2_hat_check. cbn [enabled silent].
  pose proof (square3_iff t 2) as SQ. split.
  - destruct (square3 t 2); cbn [snd]; [|discriminate]. intros H. injection H as H.
    unfold col in H. apply (map_seq_iff _ _ _ 0) in H. destruct H as [B H].
    destruct SQ as [SQ _]. rewrite (SQ eq_refl), <- B. auto.
  - intros [D H]. assert (B : batch t = length r) by (unfold batch; rewrite D; auto).
    assert (A : square3 t 2 = true) by (apply SQ; rewrite B; auto). rewrite A. cbn [snd]. f_equal.
    unfold col. apply (map_seq_iff _ _ _ 0). split; auto. intros b Hb. apply H. lia.
Qed.

(** It warns exactly when checks are off and warnings are not silenced. *)
Theorem C103_so2_warns : forall c t, fst (so2_vee c t) = true <-> enabled c = false /\ silent c = false.
Proof.
  intros [e s] t. unfold so2_vee, so2_hat_check. cbn [enabled silent]. destruct e.
  - destruct (small t 0) as [?|]; destruct (small t 1) as [?|]; cbn [fst]; intuition discriminate.
  - cbn [fst]. destruct s; cbn; intuition discriminate.
Qed.

Lemma zeroish_0 : zeroish 0. Proof. reflexivity. Qed.
Lemma opposite_opp : forall w, opposite (- w) w.
Proof.
  intros w. unfold opposite. setoid_replace (- w + w) with 0 by ring.
  pose proof (Qabs_nonneg w) as P. rewrite Qabs_pos by lra. lra.
Qed.

(** vee undoes hat, in every context. *)
Theorem C103_so2_inverse : forall c v, v <> [] -> snd (so2_vee c (so2_hat v)) = Some v.
Proof.
  intros [[|] s] v NV.
  - apply C103_so2. split; [reflexivity|]. split; auto. intros b Hb. repeat split.
    apply opposite_opp.
  - apply C103_so2_unchecked. split; reflexivity.
Qed.

(** ** SE2 *)
Theorem C103_se2 : forall t r,
  se2_vee t = Some r <->
  dims t = [length r; 3; 3]%nat /\ r <> [] /\
  forall b, (b < length r)%nat -> se2_alg (ent t b) (nth b r (0, 0, 0)).
Proof.
  intros t r. unfold se2_vee.
  pose proof (small_iff t 0) as S0. pose proof (small_iff t 1) as S1. pose proof (small_iff t 2) as S2.
  pose proof (allclose_iff t) as AC. pose proof (square3_iff t 3) as SQ.
  split.
  - destruct (small t 0) as [[|]|]; destruct (small t 1) as [[|]|]; destruct (small t 2) as [[|]|];
      rewrite ?andb_false_r; cbn [andb]; try discriminate.
    destruct (square3 t 3); cbn [andb]; [|discriminate].
    destruct (allclose _); cbn [andb]; [|discriminate]. intros H.
    apply (f_equal (fun o => match o with Some k => k | None => [] end)) in H.
    apply (map_seq_iff _ _ _ (0, 0, 0)) in H. destruct H as [B H].
    destruct SQ as [SQ _]. specialize (SQ eq_refl). destruct S0 as [S0 _]. specialize (S0 eq_refl).
    destruct S1 as [S1 _]. specialize (S1 eq_refl). destruct S2 as [S2 _]. specialize (S2 eq_refl).
    destruct AC as [AC _]. specialize (AC eq_refl).
    rewrite SQ, B. split; auto. split.
    + intros ->. simpl in B. lia.
    + rewrite <- B. intros b Hb. rewrite <- H by auto. repeat split.
      * apply S0; auto.
      * apply AC; auto.
      * apply S1; auto.
      * apply S2; auto.
  - intros [D [NR H]].
    assert (B : batch t = length r) by (unfold batch; rewrite D; auto).
    assert (P : (0 < length r)%nat) by (destruct r; [congruence|simpl; lia]).
    rewrite <- B in H.
    assert (K : forall b, (b < batch t)%nat -> zeroish (ent t b 0 0)%nat /\ zeroish (ent t b 1 1)%nat /\
      zeroish (ent t b 2 2)%nat /\ opposite (ent t b 0 1)%nat (ent t b 1 0)%nat /\
      (ent t b 0 2, ent t b 1 2, ent t b 1 0)%nat = nth b r (0, 0, 0)).
    { intros b Hb. specialize (H b Hb). destruct (nth b r (0,0,0)) as [[x y] w].
      destruct H as (H1 & H2 & H3 & H4 & H5 & H6 & H7). subst. auto 10. }
    assert (A0 : small t 0 = Some true) by (apply S0; split; [lia|]; intros b Hb; apply (K b Hb)).
    assert (A1 : small t 1 = Some true) by (apply S1; split; [lia|]; intros b Hb; apply (K b Hb)).
    assert (A4 : small t 2 = Some true) by (apply S2; split; [lia|]; intros b Hb; apply (K b Hb)).
    assert (A2 : square3 t 3 = true) by (apply SQ; rewrite B; auto).
    assert (A3 : allclose (combine (col t 0 1) (map Qopp (col t 1 0))) = true)
      by (apply AC; intros b Hb; apply (K b Hb)).
    rewrite A0, A1, A2, A3, A4. cbn [andb]. f_equal. apply (map_seq_iff _ _ _ (0,0,0)). split; auto.
    intros b Hb. apply (K b Hb).
Qed.

Theorem C103_se2_inverse : forall v, v <> [] -> se2_vee (se2_hat v) = Some v.
Proof.
  intros v NV. apply C103_se2. split; [reflexivity|]. split; auto.
  intros b Hb. cbn [se2_hat ent]. destruct (nth b v (0,0,0)) as [[x y] w]. repeat split. apply opposite_opp.
Qed.

(** ** Refuted parts *)
(** An empty batch is refused while checks are on, although it is a batch of hats. *)
Theorem C103_empty_refuted : forall s,
  snd (so2_vee (mkCtx true s) (so2_hat [])) = None /\ snd (so2_vee (mkCtx false s) (so2_hat [])) = Some [] /\
  se2_vee (se2_hat []) = None.
Proof. intros; repeat split. Qed.

(** SE2.vee does not look at the first two entries of the last row: a matrix as far as one likes from
    any hat is accepted. *)
Theorem C103_se2_last_row_refuted : forall k : Q, exists t r,
  se2_vee t = Some r /\ ent t 0%nat 2%nat 0%nat = k /\ ent t 0%nat 2%nat 1%nat = k /\
  ent (se2_hat r) 0%nat 2%nat 0%nat = 0 /\ ent (se2_hat r) 0%nat 2%nat 1%nat = 0.
Proof.
  intros k.
  exists (mkTen [1; 3; 3]%nat (fun b i j => match i, j with S (S O), O => k | S (S O), S O => k | _, _ => 0 end)), [(0,0,0)].
  split; [|repeat split]. apply C103_se2. split; [reflexivity|]. split; [discriminate|].
  intros [|b] Hb; [|simpl in Hb; lia]. repeat split. unfold opposite; cbn; discriminate.
Qed.

(** Nor does SE2.vee ask whether checks are off: a matrix that is no hat is refused in every context, where
    SO2.vee takes one with checks off. *)
Theorem C103_se2_context_refuted :
  exists t2 t3, ent t2 0%nat 0%nat 0%nat = 1 /\ ent t3 0%nat 0%nat 0%nat = 1 /\
  dims t2 = [1; 2; 2]%nat /\ dims t3 = [1; 3; 3]%nat /\
  snd (so2_vee (mkCtx true true) t2) = None /\ snd (so2_vee (mkCtx false true) t2) = Some [0] /\
  se2_vee t3 = None.
Proof.
  exists (mkTen [1; 2; 2]%nat (fun b i j => match i, j with O, O => 1 | _, _ => 0 end)),
         (mkTen [1; 3; 3]%nat (fun b i j => match i, j with O, O => 1 | _, _ => 0 end)).
  repeat split.
Qed.

(** The skew-symmetry is tested relative to the size: the two off-diagonal entries of an accepted matrix may
    differ by any amount. *)
Theorem C103_relative_refuted : forall k : Q, 0 < k -> exists t r,
  snd (so2_vee (mkCtx true true) t) = Some r /\ ent t 0%nat 0%nat 1%nat + ent t 0%nat 1%nat 0%nat == k.
Proof.
  intros k Hk.
  exists (mkTen [1; 2; 2]%nat (fun b i j => match i, j with O, S O => - (99999 * k) | S O, O => 100000 * k | _, _ => 0 end)),
         [100000 * k].
  split.
  - apply C103_so2. split; [reflexivity|]. split; [discriminate|].
    intros [|b] Hb; [|simpl in Hb; lia]. repeat split. unfold opposite. cbn [ent nth].
    setoid_replace (- (99999 * k) + 100000 * k) with k by ring.
    rewrite !Qabs_pos by lra. lra.
  - cbn [ent]. ring.
Qed.

(** Examples: a batch of two, and a matrix that is not skew-symmetric. *)
Example C103_example :
  snd (so2_vee (mkCtx true false) (so2_hat [3#2; -7#1])) = Some [3#2; -7#1] /\
  so2_vee (mkCtx true false) (mkTen [1; 2; 2]%nat (fun _ i j => match i, j with O, S O => 1 | S O, O => 1 | _, _ => 0 end))
    = (false, None) /\
  so2_vee (mkCtx false false) (mkTen [1; 3; 3]%nat (fun _ _ _ => 0)) = (true, None).
Proof. repeat split. Qed.
