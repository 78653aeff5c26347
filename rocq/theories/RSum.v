(** Finite sums of real numbers, vectors and matrices as functions read below their dimensions. *)
From Coq Require Import List Arith Reals Lra Lia.
Local Open Scope R_scope.

Fixpoint rsum (n : nat) (f : nat -> R) : R :=
  match n with O => 0 | S k => rsum k f + f k end.

Lemma rsum_ext n f g : (forall i, (i < n)%nat -> f i = g i) -> rsum n f = rsum n g.
Proof. induction n as [|n IH]; simpl; intros H; [reflexivity|]. rewrite IH, H by (intros; try apply H; lia). reflexivity. Qed.
Lemma rsum_plus n f g : rsum n (fun i => f i + g i) = rsum n f + rsum n g.
Proof. induction n as [|n IH]; simpl; [ring|]. rewrite IH. ring. Qed.
Lemma rsum_minus n f g : rsum n (fun i => f i - g i) = rsum n f - rsum n g.
Proof. induction n as [|n IH]; simpl; [ring|]. rewrite IH. ring. Qed.
Lemma rsum_opp n f : rsum n (fun i => - f i) = - rsum n f.
Proof. induction n as [|n IH]; simpl; [ring|]. rewrite IH. ring. Qed.
Lemma rsum_scal n c f : rsum n (fun i => c * f i) = c * rsum n f.
Proof. induction n as [|n IH]; simpl; [ring|]. rewrite IH. ring. Qed.
Lemma rsum_scal_r n c f : rsum n (fun i => f i * c) = rsum n f * c.
Proof. induction n as [|n IH]; simpl; [ring|]. rewrite IH. ring. Qed.
Lemma rsum_0 n f : (forall i, (i < n)%nat -> f i = 0) -> rsum n f = 0.
Proof. induction n as [|n IH]; simpl; intros H; [reflexivity|]. rewrite IH, H by (intros; try apply H; lia). ring. Qed.
Lemma rsum_nonneg n f : (forall i, (i < n)%nat -> 0 <= f i) -> 0 <= rsum n f.
Proof.
  induction n as [|n IH]; simpl; intros H; [lra|].
  pose proof (IH (fun i Hi => H i (Nat.lt_lt_succ_r _ _ Hi))). pose proof (H n (Nat.lt_succ_diag_r n)). lra.
Qed.
Lemma rsum_le n f g : (forall i, (i < n)%nat -> f i <= g i) -> rsum n f <= rsum n g.
Proof.
  intros H. assert (0 <= rsum n (fun i => g i - f i)) by (apply rsum_nonneg; intros i Hi; specialize (H i Hi); lra).
  rewrite rsum_minus in H0. lra.
Qed.
Lemma rsum_exch m n f : rsum m (fun i => rsum n (fun j => f i j)) = rsum n (fun j => rsum m (fun i => f i j)).
Proof.
  induction m as [|m IH]; simpl.
  - symmetry. apply rsum_0. reflexivity.
  - rewrite IH. symmetry. apply rsum_plus.
Qed.
Lemma rsum_zero_each n f : (forall i, (i < n)%nat -> 0 <= f i) -> rsum n f = 0 -> forall i, (i < n)%nat -> f i = 0.
Proof.
  induction n as [|n IH]; simpl; intros H E i Hi; [lia|].
  assert (H1 : forall i, (i < n)%nat -> 0 <= f i) by (intros; apply H; lia).
  pose proof (rsum_nonneg n f H1). pose proof (H n (Nat.lt_succ_diag_r n)).
  destruct (Nat.eq_dec i n) as [->|Hne]; [lra|]. apply IH; [exact H1|lra|lia].
Qed.
(** sum with one index singled out *)
Lemma rsum_delta n k f : rsum n (fun i => if Nat.eqb i k then f i else 0) = if Nat.ltb k n then f k else 0.
Proof.
  induction n as [|n IH]; cbn [rsum]; [destruct (Nat.ltb_spec k 0); [lia|reflexivity]|]. rewrite IH.
  destruct (Nat.eqb_spec n k) as [->|Hne].
  - destruct (Nat.ltb_spec k k); [lia|]. destruct (Nat.ltb_spec k (S k)); [|lia]. ring.
  - destruct (Nat.ltb_spec k n), (Nat.ltb_spec k (S n)); try lia; ring.
Qed.
Lemma rsum_app a b f : rsum (a + b) f = rsum a f + rsum b (fun i => f (a + i)%nat).
Proof.
  induction b as [|b IH]; [rewrite Nat.add_0_r; simpl; ring|].
  rewrite Nat.add_succ_r. cbn [rsum]. rewrite IH. ring.
Qed.
Lemma rsum_const n c : rsum n (fun _ => c) = INR n * c.
Proof. induction n as [|n IH]; [simpl; ring|]. cbn [rsum]. rewrite IH, S_INR. ring. Qed.

Definition dot (n : nat) (u v : nat -> R) : R := rsum n (fun i => u i * v i).
Definition mv (n : nat) (A : nat -> nat -> R) (v : nat -> R) : nat -> R := fun r => rsum n (fun c => A r c * v c).
Definition tmv (m : nat) (A : nat -> nat -> R) (b : nat -> R) : nat -> R := fun c => rsum m (fun r => A r c * b r).

Lemma dot_comm n u v : dot n u v = dot n v u.
Proof. apply rsum_ext. intros. ring. Qed.
Lemma dot_ext n u u' v v' : (forall i, (i < n)%nat -> u i = u' i) -> (forall i, (i < n)%nat -> v i = v' i) -> dot n u v = dot n u' v'.
Proof. intros H1 H2. apply rsum_ext. intros i Hi. now rewrite H1, H2 by exact Hi. Qed.
Lemma dot_nonneg n u : 0 <= dot n u u.
Proof. apply rsum_nonneg. intros. nra. Qed.
Lemma dot_zero n u : dot n u u = 0 -> forall i, (i < n)%nat -> u i = 0.
Proof.
  intros H i Hi. assert (E : u i * u i = 0).
  { apply (rsum_zero_each n (fun i => u i * u i)); [intros; nra|exact H|exact Hi]. }
  destruct (Rmult_integral _ _ E); assumption.
Qed.
Lemma dot_plus_r n u v w : dot n u (fun i => v i + w i) = dot n u v + dot n u w.
Proof. unfold dot. rewrite <- rsum_plus. apply rsum_ext. intros. ring. Qed.
Lemma dot_plus_l n u v w : dot n (fun i => v i + w i) u = dot n v u + dot n w u.
Proof. unfold dot. rewrite <- rsum_plus. apply rsum_ext. intros. ring. Qed.
Lemma dot_scal_r n c u v : dot n u (fun i => c * v i) = c * dot n u v.
Proof. unfold dot. rewrite <- rsum_scal. apply rsum_ext. intros. ring. Qed.
Lemma dot_scal_l n c u v : dot n (fun i => c * u i) v = c * dot n u v.
Proof. unfold dot. rewrite <- rsum_scal. apply rsum_ext. intros. ring. Qed.
Lemma dot_sub_r n u v w : dot n u (fun i => v i - w i) = dot n u v - dot n u w.
Proof. unfold dot. rewrite <- rsum_minus. apply rsum_ext. intros. ring. Qed.
Lemma dot_sub_l n u v w : dot n (fun i => v i - w i) u = dot n v u - dot n w u.
Proof. unfold dot. rewrite <- rsum_minus. apply rsum_ext. intros. ring. Qed.
Lemma dot_opp_l n u v : dot n (fun i => - u i) v = - dot n u v.
Proof. unfold dot. rewrite <- rsum_opp. apply rsum_ext. intros. ring. Qed.
Lemma dot_opp_r n u v : dot n u (fun i => - v i) = - dot n u v.
Proof. unfold dot. rewrite <- rsum_opp. apply rsum_ext. intros. ring. Qed.
(** <A^T b, v> = <b, A v> *)
Lemma dot_tmv m n A b v : dot n v (tmv m A b) = dot m (mv n A v) b.
Proof.
  unfold dot, tmv, mv.
  rewrite (rsum_ext n _ (fun c => rsum m (fun r => v c * (A r c * b r)))).
  2:{ intros i _. symmetry. apply rsum_scal. }
  rewrite rsum_exch. apply rsum_ext. intros r _.
  rewrite (rsum_ext n _ (fun c => (A r c * v c) * b r)) by (intros; ring).
  apply rsum_scal_r.
Qed.
Lemma mv_plus n A u v r : mv n A (fun i => u i + v i) r = mv n A u r + mv n A v r.
Proof. unfold mv. rewrite <- rsum_plus. apply rsum_ext. intros. ring. Qed.
Lemma mv_scal n A c u r : mv n A (fun i => c * u i) r = c * mv n A u r.
Proof. unfold mv. rewrite <- rsum_scal. apply rsum_ext. intros. ring. Qed.
(** Cauchy-Schwarz *)
Lemma dot_cs n u v : dot n u v * dot n u v <= dot n u u * dot n v v.
Proof.
  pose proof (dot_nonneg n u) as Hu. pose proof (dot_nonneg n v) as Hv.
  destruct (Req_dec (dot n v v) 0) as [E|E].
  - assert (Hz : dot n u v = 0).
    { unfold dot. apply rsum_0. intros i Hi. rewrite (dot_zero n v E i Hi). ring. }
    rewrite Hz, E. lra.
  - pose proof (dot_nonneg n (fun i => dot n v v * u i - dot n u v * v i)) as H.
    rewrite dot_sub_l, !dot_sub_r, !dot_scal_l, !dot_scal_r, (dot_comm n v u) in H.
    assert (0 < dot n v v) by lra.
    assert (0 <= dot n v v * (dot n u u * dot n v v - dot n u v * dot n u v)) by nra.
    assert (0 <= dot n u u * dot n v v - dot n u v * dot n u v).
    { apply Rmult_le_reg_l with (dot n v v); lra. }
    lra.
Qed.
