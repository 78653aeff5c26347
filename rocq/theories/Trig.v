(** Elementary facts on sine, cosine and angles used for the planar and spatial
    rotations.  No code of /repo is modelled here. *)
From Coq Require Import Reals Lra Psatz.
From Coquelicot Require Import Coquelicot.
Local Open Scope R_scope.

Lemma nonneg_from_derivative : forall f f' : R -> R,
  (forall x, derivable_pt_lim f x (f' x)) -> (forall x, 0 <= x -> 0 <= f' x) ->
  f 0 = 0 -> forall x, 0 <= x -> 0 <= f x.
Proof.
  intros f f' D P Z x Hx. destruct (Req_dec x 0) as [->|N]; [lra|].
  assert (L : 0 < x) by lra.
  destruct (MVT_cor2 f f' 0 x L (fun c _ => D c)) as [c [Hc Hr]].
  rewrite Z in Hc. specialize (P c ltac:(lra)). nra.
Qed.

Ltac der := intro x0; apply is_derive_Reals; auto_derive; [exact I|].

Lemma sin_le_x : forall x, 0 <= x -> sin x <= x.
Proof.
  intros x Hx. cut (0 <= x - sin x); [lra|]. revert x Hx.
  apply (nonneg_from_derivative (fun x => x - sin x) (fun x => 1 - cos x)).
  - der. ring.
  - intros x _. pose proof (COS_bound x). lra.
  - rewrite sin_0. ring.
Qed.
Lemma cos_ge_2 : forall x, 0 <= x -> 1 - x ^ 2 / 2 <= cos x.
Proof.
  intros x Hx. cut (0 <= cos x - 1 + x ^ 2 / 2); [lra|]. revert x Hx.
  apply (nonneg_from_derivative (fun x => cos x - 1 + x ^ 2 / 2) (fun x => x - sin x)).
  - der. field.
  - intros x Hx. pose proof (sin_le_x x Hx). lra.
  - rewrite cos_0. field.
Qed.
Lemma sin_ge_3 : forall x, 0 <= x -> x - x ^ 3 / 6 <= sin x.
Proof.
  intros x Hx. cut (0 <= sin x - x + x ^ 3 / 6); [lra|]. revert x Hx.
  apply (nonneg_from_derivative (fun x => sin x - x + x ^ 3 / 6) (fun x => cos x - 1 + x ^ 2 / 2)).
  - der. field.
  - intros x Hx. pose proof (cos_ge_2 x Hx). lra.
  - rewrite sin_0. field.
Qed.
Lemma cos_le_4 : forall x, 0 <= x -> cos x <= 1 - x ^ 2 / 2 + x ^ 4 / 24.
Proof.
  intros x Hx. cut (0 <= 1 - x ^ 2 / 2 + x ^ 4 / 24 - cos x); [lra|]. revert x Hx.
  apply (nonneg_from_derivative (fun x => 1 - x ^ 2 / 2 + x ^ 4 / 24 - cos x) (fun x => sin x - x + x ^ 3 / 6)).
  - der. field.
  - intros x Hx. pose proof (sin_ge_3 x Hx). lra.
  - rewrite cos_0. field.
Qed.
Lemma sin_le_5 : forall x, 0 <= x -> sin x <= x - x ^ 3 / 6 + x ^ 5 / 120.
Proof.
  intros x Hx. cut (0 <= x - x ^ 3 / 6 + x ^ 5 / 120 - sin x); [lra|]. revert x Hx.
  apply (nonneg_from_derivative (fun x => x - x ^ 3 / 6 + x ^ 5 / 120 - sin x) (fun x => 1 - x ^ 2 / 2 + x ^ 4 / 24 - cos x)).
  - der. field.
  - intros x Hx. pose proof (cos_le_4 x Hx). lra.
  - rewrite sin_0. field.
Qed.
Lemma cos_ge_6 : forall x, 0 <= x -> 1 - x ^ 2 / 2 + x ^ 4 / 24 - x ^ 6 / 720 <= cos x.
Proof.
  intros x Hx. cut (0 <= cos x - (1 - x ^ 2 / 2 + x ^ 4 / 24 - x ^ 6 / 720)); [lra|]. revert x Hx.
  apply (nonneg_from_derivative (fun x => cos x - (1 - x ^ 2 / 2 + x ^ 4 / 24 - x ^ 6 / 720)) (fun x => x - x ^ 3 / 6 + x ^ 5 / 120 - sin x)).
  - der. field.
  - intros x Hx. pose proof (sin_le_5 x Hx). lra.
  - rewrite cos_0. field.
Qed.
Lemma sin_ge_7 : forall x, 0 <= x -> x - x ^ 3 / 6 + x ^ 5 / 120 - x ^ 7 / 5040 <= sin x.
Proof.
  intros x Hx. cut (0 <= sin x - (x - x ^ 3 / 6 + x ^ 5 / 120 - x ^ 7 / 5040)); [lra|]. revert x Hx.
  apply (nonneg_from_derivative (fun x => sin x - (x - x ^ 3 / 6 + x ^ 5 / 120 - x ^ 7 / 5040)) (fun x => cos x - (1 - x ^ 2 / 2 + x ^ 4 / 24 - x ^ 6 / 720))).
  - der. field.
  - intros x Hx. pose proof (cos_ge_6 x Hx). lra.
  - rewrite sin_0. field.
Qed.

Lemma sin2cos2 : forall x, sin x * sin x + cos x * cos x = 1.
Proof. intro x. pose proof (sin2_cos2 x) as H. unfold Rsqr in H. exact H. Qed.

(** two angles in (-pi, pi] with the same cosine and sine are equal *)
Lemma angle_unique : forall a b, - PI < a <= PI -> - PI < b <= PI ->
  cos a = cos b -> sin a = sin b -> a = b.
Proof.
  intros a b Ha Hb Hc Hs.
  assert (C : cos (a - b) = 1).
  { rewrite cos_minus, Hc, Hs. pose proof (sin2cos2 b). lra. }
  (* 1 - cos d = 2 sin^2 (d/2) *)
  set (h := (a - b) / 2).
  assert (S : sin h = 0).
  { assert (E : a - b = 2 * h) by (unfold h; field). rewrite E, cos_2a_sin in C. nra. }
  assert (Hh : - PI < h < PI) by (unfold h; lra).
  destruct (Rtotal_order h 0) as [L|[E|G]].
  - pose proof (sin_gt_0 (- h) ltac:(lra) ltac:(lra)). rewrite sin_neg in H. lra.
  - unfold h in E. lra.
  - pose proof (sin_gt_0 h ltac:(lra) ltac:(lra)). lra.
Qed.

Lemma sin_nonzero : forall x, 0 < Rabs x < PI -> sin x <> 0.
Proof.
  intros x [H0 H1]. destruct (Rle_dec 0 x) as [P|P].
  - rewrite Rabs_pos_eq in * by lra. pose proof (sin_gt_0 x H0 H1). lra.
  - rewrite Rabs_left in * by lra.
    pose proof (sin_gt_0 (- x) ltac:(lra) ltac:(lra)). rewrite sin_neg in H. lra.
Qed.
Lemma cos_lt_1 : forall x, 0 < Rabs x < 2 * PI -> cos x < 1.
Proof.
  intros x Hx. replace x with (2 * (x / 2)) by field. rewrite cos_2a_sin.
  assert (S : sin (x / 2) <> 0).
  { apply sin_nonzero. unfold Rdiv. rewrite Rabs_mult, (Rabs_pos_eq (/ 2)) by lra. lra. }
  assert (0 < sin (x/2) * sin (x/2)) by nra. lra.
Qed.
Lemma cos_le_8 : forall x, 0 <= x -> cos x <= 1 - x ^ 2 / 2 + x ^ 4 / 24 - x ^ 6 / 720 + x ^ 8 / 40320.
Proof.
  intros x Hx. cut (0 <= 1 - x ^ 2 / 2 + x ^ 4 / 24 - x ^ 6 / 720 + x ^ 8 / 40320 - cos x); [lra|]. revert x Hx.
  apply (nonneg_from_derivative (fun x => 1 - x ^ 2 / 2 + x ^ 4 / 24 - x ^ 6 / 720 + x ^ 8 / 40320 - cos x) (fun x => sin x - (x - x ^ 3 / 6 + x ^ 5 / 120 - x ^ 7 / 5040))).
  - der. field.
  - intros x Hx. pose proof (sin_ge_7 x Hx). lra.
  - rewrite cos_0. field.
Qed.
