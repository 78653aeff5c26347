(** Finite sums of rationals. *)
From Coq Require Import List Arith QArith Qabs Qfield Lia Lqa Setoid Morphisms.

Fixpoint qsum (n : nat) (f : nat -> Q) : Q :=
  match n with O => 0 | S k => qsum k f + f k end.

Lemma qsum_ext n f g : (forall i, (i < n)%nat -> f i == g i) -> qsum n f == qsum n g.
Proof.
  induction n as [|n IH]; simpl; intros H; [reflexivity|]. rewrite IH, H by (intros; try apply H; lia). reflexivity.
Qed.
Lemma qsum_plus n f g : qsum n (fun i => f i + g i) == qsum n f + qsum n g.
Proof. induction n as [|n IH]; simpl; [ring|]. rewrite IH. ring. Qed.
Lemma qsum_scal n c f : qsum n (fun i => c * f i) == c * qsum n f.
Proof. induction n as [|n IH]; simpl; [ring|]. rewrite IH. ring. Qed.
Lemma qsum_0 n f : (forall i, (i < n)%nat -> f i == 0) -> qsum n f == 0.
Proof. induction n as [|n IH]; simpl; intros H; [reflexivity|]. rewrite IH, H by (intros; try apply H; lia). ring. Qed.
Lemma qsum_nonneg n f : (forall i, (i < n)%nat -> 0 <= f i) -> 0 <= qsum n f.
Proof.
  induction n as [|n IH]; simpl; intros H; [apply Qle_refl|].
  pose proof (IH (fun i Hi => H i (Nat.lt_lt_succ_r _ _ Hi))). pose proof (H n (Nat.lt_succ_diag_r n)). lra.
Qed.
Lemma qsum_exch m n f : qsum m (fun i => qsum n (fun j => f i j)) == qsum n (fun j => qsum m (fun i => f i j)).
Proof.
  induction m as [|m IH]; simpl.
  - symmetry. apply qsum_0. reflexivity.
  - rewrite IH. symmetry. apply qsum_plus.
Qed.
Lemma qsum_zero_each n f : (forall i, (i < n)%nat -> 0 <= f i) -> qsum n f == 0 -> forall i, (i < n)%nat -> f i == 0.
Proof.
  induction n as [|n IH]; simpl; intros H E i Hi; [lia|].
  assert (H1 : forall i, (i < n)%nat -> 0 <= f i) by (intros; apply H; lia).
  pose proof (qsum_nonneg n f H1). pose proof (H n (Nat.lt_succ_diag_r n)).
  destruct (Nat.eq_dec i n) as [->|Hne]; [lra|]. apply IH; [exact H1|lra|lia].
Qed.
Lemma sq_nonneg (q : Q) : 0 <= q * q.
Proof. nra. Qed.
Lemma sq_zero (q : Q) : q * q == 0 -> q == 0.
Proof. intros H. destruct (Qmult_integral _ _ H); assumption. Qed.

(** vectors and matrices: functions, read below the dimensions *)
Definition qdot (n : nat) (u v : nat -> Q) : Q := qsum n (fun i => u i * v i).
Definition qmv (n : nat) (A : nat -> nat -> Q) (v : nat -> Q) : nat -> Q := fun r => qsum n (fun c => A r c * v c).
Definition qtmv (m : nat) (A : nat -> nat -> Q) (b : nat -> Q) : nat -> Q := fun c => qsum m (fun r => A r c * b r).

(** <A^T b, v> = <b, A v> *)
Lemma qdot_tmv m n A b v : qdot n v (qtmv m A b) == qdot m (qmv n A v) b.
Proof.
  unfold qdot, qtmv, qmv.
  rewrite (qsum_ext n _ (fun c => qsum m (fun r => v c * (A r c * b r)))).
  2:{ intros i _. symmetry. apply qsum_scal. }
  rewrite qsum_exch. apply qsum_ext. intros r _.
  rewrite (qsum_ext n _ (fun c => b r * (A r c * v c))) by (intros; ring).
  rewrite qsum_scal. ring.
Qed.
Lemma qdot_ext n u u' v v' : (forall i, (i < n)%nat -> u i == u' i) -> (forall i, (i < n)%nat -> v i == v' i) -> qdot n u v == qdot n u' v'.
Proof. intros H1 H2. apply qsum_ext. intros i Hi. now rewrite H1, H2 by exact Hi. Qed.
Lemma qdot_nonneg n u : 0 <= qdot n u u.
Proof. apply qsum_nonneg. intros. apply sq_nonneg. Qed.
Lemma qdot_zero n u : qdot n u u == 0 -> forall i, (i < n)%nat -> u i == 0.
Proof. intros H i Hi. apply sq_zero. now apply (qsum_zero_each n (fun i => u i * u i) (fun i _ => sq_nonneg (u i))). Qed.
