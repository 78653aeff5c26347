(** C103, SO3: what SO3.vee accepts and returns. *)
From Coq Require Import List Arith QArith Qabs Bool Lia Lqa.
From Verif Require Import Hv_model Hv_props Hvt_model.
Import ListNotations.
Local Open Scope Q_scope.

(** ** Specification *)
(** skew-symmetric, every entry up to [eps] *)
Definition skew (eps : Q) (m : nat -> nat -> Q) : Prop :=
  forall i j, (i < 3)%nat -> (j < 3)%nat -> Qabs (m i j + m j i) <= eps.
(** the three numbers read off the antisymmetric part *)
Definition axis (m : nat -> nat -> Q) : Q * Q * Q :=
  ((1#2) * (m 2%nat 1%nat - m 1%nat 2%nat), (1#2) * (m 0%nat 2%nat - m 2%nat 0%nat),
   (1#2) * (m 1%nat 0%nat - m 0%nat 1%nat)).
Definition eq3 (v w : Q * Q * Q) : Prop :=
  let '(a, b, c) := v in let '(x, y, z) := w in a == x /\ b == y /\ c == z.

(** ** Lemmas *)
Lemma in_sym : forall t a, In a (sym_entries t) <->
  exists b i j, (b < batch t)%nat /\ (i < 3)%nat /\ (j < 3)%nat /\ a = ent t b j i + ent t b i j.
Proof.
  intros. unfold sym_entries. rewrite in_flat_map. split.
  - intros [b [Hb H]]. apply in_flat_map in H. destruct H as [i [Hi H]]. apply in_map_iff in H.
    destruct H as [j [<- Hj]]. apply in_seq in Hb. apply in_seq in Hi. apply in_seq in Hj.
    exists b, i, j. repeat split; lia.
  - intros (b & i & j & Hb & Hi & Hj & ->). exists b. split; [apply in_seq; lia|].
    apply in_flat_map. exists i. split; [apply in_seq; lia|]. apply in_map_iff. exists j.
    split; auto. apply in_seq; lia.
Qed.
Lemma Qlt_bool_false : forall a b, negb (Qlt_bool a b) = true <-> b <= a.
Proof.
  intros. unfold Qlt_bool. rewrite negb_involutive. apply Qle_bool_iff.
Qed.
Lemma Qmax_le : forall a b e, Qmax_ a b <= e <-> a <= e /\ b <= e.
Proof.
  intros. unfold Qmax_. destruct (Qle_bool a b) eqn:E.
  - apply Qle_bool_iff in E. split; [intros; split; lra | tauto].
  - assert (~ a <= b) by (intros K; apply Qle_bool_iff in K; congruence). split; [intros; split; lra | tauto].
Qed.
Lemma abs_max_le : forall l m e, abs_max l = Some m -> (m <= e <-> forall a, In a l -> Qabs a <= e).
Proof.
  induction l as [|a l IH]; simpl; intros m e H; [discriminate|].
  destruct (abs_max l) as [k|] eqn:K; injection H as <-.
  - rewrite Qmax_le, (IH k e eq_refl). split.
    + intros [H1 H2] b [->|I]; auto.
    + intros H; split; auto.
  - apply abs_max_none in K. subst l. split; [intros H b [->|[]]; auto | intros H; auto].
Qed.
Lemma check_iff : forall lie eps t, check_hat_tensor lie eps t = true <->
  (lie = true -> (0 < batch t)%nat /\ forall b, (b < batch t)%nat -> skew eps (ent t b)).
Proof.
  intros lie eps t. unfold check_hat_tensor. destruct lie; [|split; auto; discriminate].
  destruct (abs_max (sym_entries t)) as [m|] eqn:E.
  - assert (B : (0 < batch t)%nat).
    { destruct (batch t) eqn:B; [|lia]. unfold sym_entries in E. rewrite B in E. discriminate. }
    rewrite Qlt_bool_false, (abs_max_le _ _ _ E). split.
    + intros H _. split; auto. intros b Hb i j Hi Hj. apply H. apply in_sym. exists b, j, i. auto.
    + intros H a I. apply in_sym in I. destruct I as (b & i & j & Hb & Hi & Hj & ->).
      destruct (H eq_refl) as [_ K]. apply (K b Hb j i); auto.
  - apply abs_max_none in E. split; [discriminate|]. intros H. destruct (H eq_refl) as [B _].
    exfalso.
    assert (I : In (ent t 0%nat 0%nat 0%nat + ent t 0%nat 0%nat 0%nat) (sym_entries t))
      by (apply in_sym; exists 0%nat, 0%nat, 0%nat; repeat split; lia).
    rewrite E in I. destruct I.
Qed.

(** ** Theorems *)
(** vee returns exactly for a batch of 3x3 matrices which, when torchlie's checks are enabled, is not empty and
    skew-symmetric up to the tolerance; the setting of theseus makes no difference. *)
Theorem C103_so3 : forall c lie eps t r,
  snd (so3_vee c lie eps t) = Some r <->
  dims t = [length r; 3; 3]%nat /\
  (lie = true -> r <> [] /\ forall b, (b < length r)%nat -> skew eps (ent t b)) /\
  forall b, (b < length r)%nat -> nth b r (0, 0, 0) = axis (ent t b).
Proof.
  intros c lie eps t r. pose proof (square3_iff t 3) as SQ. pose proof (check_iff lie eps t) as CK.
  assert (E : snd (so3_vee c lie eps t) = if square3 t 3 then vee_impl lie eps t else None).
  { unfold so3_vee, vee_impl. destruct (square3 t 3); cbn [negb]; auto. destruct (enabled c); cbn [snd]; auto.
    destruct (check_hat_tensor lie eps t); auto. }
  rewrite E. unfold vee_impl. split.
  - destruct (square3 t 3); [|discriminate]. destruct (check_hat_tensor lie eps t); [|discriminate].
    intros H. apply (f_equal (fun o => match o with Some k => k | None => [] end)) in H.
    apply (map_seq_iff _ _ _ (0, 0, 0)) in H. destruct H as [B H].
    destruct SQ as [SQ _]. specialize (SQ eq_refl). destruct CK as [CK _]. specialize (CK eq_refl).
    rewrite SQ, <- B. split; auto. split.
    + intros L. destruct (CK L) as [P K]. split; auto. intros ->. simpl in B. lia.
    + intros b Hb. symmetry. apply H. auto.
  - intros [D [S H]].
    assert (B : batch t = length r) by (unfold batch; rewrite D; auto).
    assert (A : square3 t 3 = true) by (apply SQ; rewrite B; auto).
    assert (C : check_hat_tensor lie eps t = true).
    { apply CK. intros L. destruct (S L) as [NR K]. rewrite B. split; auto.
      destruct r; [congruence|simpl; lia]. }
    rewrite A, C. f_equal. apply (map_seq_iff _ _ _ (0,0,0)). split; auto.
    intros b Hb. symmetry. apply H. lia.
Qed.

(** With torchlie's checks the result is right: the hat of it is the argument, every entry up to half the
    tolerance. *)
Theorem C103_so3_hat : forall c eps t r, snd (so3_vee c true eps t) = Some r ->
  forall b i j, (b < length r)%nat -> (i < 3)%nat -> (j < 3)%nat ->
  Qabs (ent t b i j - ent (so3_hat r) b i j) <= (1#2) * eps.
Proof.
  intros c eps t r H b i j Hb Hi Hj. apply C103_so3 in H. destruct H as (_ & S & H).
  destruct (S eq_refl) as [_ K]. specialize (K b Hb i j Hi Hj). specialize (H b Hb).
  cbn [so3_hat ent]. rewrite H. unfold axis.
  apply Qabs_Qle_condition in K. apply Qabs_Qle_condition.
  destruct i as [|[|[|i]]]; [| | |lia]; (destruct j as [|[|[|j]]]; [| | |lia]); cbv beta iota; lra.
Qed.

(** It warns exactly for a tensor of the right sizes when checks of theseus are off and not silenced. *)
Theorem C103_so3_warns : forall c lie eps t, fst (so3_vee c lie eps t) = true <->
  dims t = [batch t; 3; 3]%nat /\ enabled c = false /\ silent c = false.
Proof.
  intros [e s] lie eps t. unfold so3_vee. rewrite <- (square3_iff t 3). destruct (square3 t 3); cbn.
  - destruct e, s; cbn; intuition discriminate.
  - intuition discriminate.
Qed.

(** vee undoes hat. *)
Theorem C103_so3_inverse : forall c lie eps v, 0 <= eps -> v <> [] ->
  exists r, snd (so3_vee c lie eps (so3_hat v)) = Some r /\ Forall2 eq3 r v.
Proof.
  intros c lie eps v He NV.
  exists (map (fun b => axis (ent (so3_hat v) b)) (seq 0 (length v))). 
  assert (L : length (map (fun b => axis (ent (so3_hat v) b)) (seq 0 (length v))) = length v)
    by (rewrite map_length, seq_length; auto).
  split.
  - apply C103_so3. rewrite L. split; [reflexivity|]. split.
    + intros _. split.
      * destruct v; [congruence|]. simpl. discriminate.
      * intros b Hb i j Hi Hj. cbn [so3_hat ent]. destruct (nth b v (0,0,0)) as [[x y] z].
        apply Qabs_Qle_condition.
        destruct i as [|[|[|i]]]; [| | |lia]; (destruct j as [|[|[|j]]]; [| | |lia]); cbv beta iota; split; lra.
    + intros b Hb. rewrite (nth_indep _ (0,0,0) (axis (ent (so3_hat v) 0%nat))) by lia.
      rewrite (map_nth (fun b => axis (ent (so3_hat v) b))), seq_nth by auto. reflexivity.
  - assert (G : forall pre w, v = pre ++ w ->
      Forall2 eq3 (map (fun b => axis (ent (so3_hat v) b)) (seq (length pre) (length w))) w).
    { intros pre w; revert pre; induction w as [|a w IH]; intros pre E; cbn [length seq map]; constructor.
      - cbn [so3_hat ent]. rewrite E, app_nth2, Nat.sub_diag by lia. cbn [nth].
        destruct a as [[x y] z]. unfold axis, eq3. repeat split; ring.
      - specialize (IH (pre ++ [a])). rewrite app_length in IH. cbn [length] in IH.
        rewrite Nat.add_1_r in IH. apply IH. rewrite <- app_assoc. exact E. }
    apply (G [] v eq_refl).
Qed.

(** Refuted: enabling the checks of theseus checks nothing in SO3.vee while torchlie's own checks are off, as
    they are by default: every batch of 3x3 matrices is accepted, silently. *)
Theorem C103_so3_checks_refuted : forall s eps t n, dims t = [n; 3; 3]%nat ->
  fst (so3_vee (mkCtx true s) false eps t) = false /\
  exists r, snd (so3_vee (mkCtx true s) false eps t) = Some r.
Proof.
  intros s eps t n D. unfold so3_vee, square3. rewrite D. cbn. split; eauto.
Qed.

Example C103_so3_example :
  snd (so3_vee (mkCtx true false) true (1#2000000) (mkTen [1;3;3]%nat (fun _ _ _ => 1))) = None /\
  snd (so3_vee (mkCtx true false) false (1#2000000) (mkTen [1;3;3]%nat (fun _ _ _ => 1))) <> None /\
  snd (so3_vee (mkCtx true false) true (1#2000000) (so3_hat [(1,2,3)])) <> None.
Proof. repeat split; discriminate. Qed.
