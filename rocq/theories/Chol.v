(** The Cholesky factorization over the reals: an algorithm, when it succeeds,
    and that its result is the factor. *)
From Coq Require Import Reals List Lia Lra Arith.
From Verif Require Import RSum Emb2_spec.
Local Open Scope R_scope.

Lemma rsum_S_first n f : rsum (S n) f = f 0%nat + rsum n (fun i => f (S i)).
Proof. change (S n) with (1 + n)%nat. rewrite rsum_app. simpl. ring. Qed.

(** Schur complements of the first row, the lower triangle only *)
Fixpoint chol_alg (n : nat) (A : nat -> nat -> R) : option (nat -> nat -> R) :=
  match n with
  | O => Some (fun _ _ => 0)
  | S m =>
    if Rlt_dec 0 (A 0%nat 0%nat) then
      let l := sqrt (A 0%nat 0%nat) in
      let w i := A (S i) 0%nat / l in
      match chol_alg m (fun i j => A (S i) (S j) - w i * w j) with
      | Some L => Some (fun i j => match i, j with
                                   | O, O => l | O, S _ => 0 | S i, O => w i | S i, S j => L i j end)
      | None => None
      end
    else None
  end.

Lemma chol_alg_sound n : forall A L, chol_alg n A = Some L -> is_cholesky n A L.
Proof.
  induction n as [|n IH]; intros A L E.
  - repeat split; intros; lia.
  - cbn [chol_alg] in E. destruct (Rlt_dec 0 (A 0%nat 0%nat)) as [H|H]; [|discriminate].
    set (l := sqrt (A 0%nat 0%nat)) in *.
    destruct (chol_alg n _) as [L'|] eqn:E'; [|discriminate].
    injection E as <-. destruct (IH _ _ E') as (Hu & Hd & Hm). clear E'.
    assert (Hl : 0 < l) by (apply sqrt_lt_R0; exact H).
    assert (Hll : l * l = A 0%nat 0%nat) by (apply sqrt_sqrt; lra).
    split; [|split].
    + intros [|i] [|j] Hij; try lia; [reflexivity|]. apply Hu. lia.
    + intros [|i] Hi; [exact Hl|]. apply Hd. lia.
    + intros i j Hij. rewrite rsum_S_first. destruct i as [|i], j as [|j]; try lia.
      * rewrite rsum_0 by (intros; ring). lra.
      * rewrite rsum_0 by (intros; ring). field_simplify; [reflexivity|lra].
      * rewrite (Hm i j) by lia. field. lra.
Qed.

(** factors determine the Schur complement *)
Lemma chol_alg_complete n : forall A L, is_cholesky n A L -> exists L', chol_alg n A = Some L'.
Proof.
  induction n as [|n IH]; intros A L (Hu & Hd & Hm); [eexists; reflexivity|].
  cbn [chol_alg]. pose proof (Hd 0%nat ltac:(lia)) as H0.
  assert (H00 : A 0%nat 0%nat = L 0%nat 0%nat * L 0%nat 0%nat).
  { rewrite <- (Hm 0%nat 0%nat) by lia. rewrite rsum_S_first.
    rewrite rsum_0; [ring|]. intros i Hi. rewrite (Hu 0%nat (S i)) by lia. ring. }
  destruct (Rlt_dec 0 (A 0%nat 0%nat)) as [H|H]; [|rewrite H00 in H; nra].
  assert (Hs : sqrt (A 0%nat 0%nat) = L 0%nat 0%nat) by (rewrite H00; apply sqrt_square; lra).
  assert (Hw : forall i, (i < n)%nat -> A (S i) 0%nat / sqrt (A 0%nat 0%nat) = L (S i) 0%nat).
  { intros i Hi. rewrite Hs. rewrite <- (Hm (S i) 0%nat) by lia. rewrite rsum_S_first.
    rewrite rsum_0; [field; lra|]. intros k Hk. rewrite (Hu 0%nat (S k)) by lia. ring. }
  edestruct (IH (fun i j => A (S i) (S j) - A (S i) 0%nat / sqrt (A 0%nat 0%nat) * (A (S j) 0%nat / sqrt (A 0%nat 0%nat))) (fun i j => L (S i) (S j))) as (L' & ->); [|eexists; reflexivity].
  split; [|split].
  - intros i j Hij. apply Hu. lia.
  - intros i Hi. apply Hd. lia.
  - intros i j Hij. rewrite !Hw by lia. rewrite <- (Hm (S i) (S j)) by lia. rewrite rsum_S_first. ring.
Qed.

Lemma chol_alg_factorizes : factorizes chol_alg.
Proof.
  intros n A. destruct (chol_alg n A) as [L|] eqn:E; [apply chol_alg_sound, E|].
  intros L HL. destruct (chol_alg_complete _ _ _ HL) as (L' & E'). congruence.
Qed.

(** the lower triangle decides *)
Lemma is_cholesky_lower n A B L : (forall i j, (j <= i < n)%nat -> A i j = B i j) -> is_cholesky n A L -> is_cholesky n B L.
Proof. intros H (Hu & Hd & Hm). split; [exact Hu|split; [exact Hd|]]. intros i j Hij. rewrite <- H by exact Hij. apply Hm. exact Hij. Qed.

Lemma is_cholesky_full n A L : symmetric n A -> is_cholesky n A L ->
  forall i j, (i < n)%nat -> (j < n)%nat -> rsum n (fun k => L i k * L j k) = A i j.
Proof.
  intros Hs (Hu & Hd & Hm) i j Hi Hj. destruct (le_lt_dec j i) as [H|H]; [apply Hm; lia|].
  rewrite (Hs i j Hi Hj), <- (Hm j i) by lia. apply rsum_ext. intros. ring.
Qed.

Lemma quad_ext n A B x : (forall i j, (i < n)%nat -> (j < n)%nat -> A i j = B i j) -> quad n A x = quad n B x.
Proof. intros H. apply rsum_ext. intros i Hi. apply rsum_ext. intros j Hj. rewrite H by assumption. ring. Qed.

(** x^T (L L^T) x = |L^T x|^2 *)
Lemma quad_square n L x :
  quad n (fun i j => rsum n (fun k => L i k * L j k)) x
  = rsum n (fun k => rsum n (fun i => x i * L i k) * rsum n (fun i => x i * L i k)).
Proof.
  unfold quad.
  transitivity (rsum n (fun i => rsum n (fun k => x i * L i k * rsum n (fun j => x j * L j k)))).
  - apply rsum_ext. intros i _.
    transitivity (rsum n (fun j => rsum n (fun k => x i * L i k * (x j * L j k)))).
    + apply rsum_ext. intros j _. rewrite <- rsum_scal, <- rsum_scal_r. apply rsum_ext. intros. ring.
    + rewrite rsum_exch. apply rsum_ext. intros k _. apply rsum_scal.
  - rewrite rsum_exch. apply rsum_ext. intros k _. rewrite <- rsum_scal_r. reflexivity.
Qed.

(** back substitution: L^T x = 0 only for x = 0 *)
Lemma lower_kernel n L x : (forall i j, (i < j < n)%nat -> L i j = 0) -> (forall i, (i < n)%nat -> 0 < L i i) ->
  (forall k, (k < n)%nat -> rsum n (fun i => x i * L i k) = 0) -> forall i, (i < n)%nat -> x i = 0.
Proof.
  intros Hu Hd Hz.
  assert (H : forall m i, (n - m <= i < n)%nat -> x i = 0).
  { induction m as [|m IH]; intros i Hi; [lia|].
    destruct (le_lt_dec (n - m) i) as [|Hlt]; [apply IH; lia|].
    assert (Ei : i = (n - S m)%nat) by lia.
    pose proof (Hz i ltac:(lia)) as Z.
    replace n with (i + (1 + (n - i - 1)))%nat in Z by lia. rewrite rsum_app, rsum_app in Z.
    rewrite (rsum_0 i) in Z by (intros k Hk; rewrite Hu by lia; ring).
    rewrite (rsum_0 (n - i - 1)) in Z by (intros k Hk; rewrite IH by lia; ring).
    simpl in Z. rewrite Nat.add_0_r in Z. pose proof (Hd i ltac:(lia)). nra. }
  intros i Hi. apply (H n). lia.
Qed.

Lemma is_cholesky_pd n A L : is_cholesky n A L -> positive_definite n (lower_sym A).
Proof.
  intros HL x (i & Hi & Hx).
  assert (Hs : symmetric n (lower_sym A)).
  { intros a b _ _. unfold lower_sym. destruct (Nat.leb_spec b a), (Nat.leb_spec a b); try reflexivity; try lia.
    replace b with a by lia. reflexivity. }
  assert (HL' : is_cholesky n (lower_sym A) L).
  { apply (is_cholesky_lower n A); [|exact HL]. intros a b Hab. unfold lower_sym. destruct (Nat.leb_spec b a); [reflexivity|lia]. }
  rewrite (quad_ext n _ (fun i j => rsum n (fun k => L i k * L j k))) by (intros; symmetry; apply is_cholesky_full; assumption).
  rewrite quad_square.
  match goal with |- 0 < ?S => destruct (Rle_lt_or_eq_dec 0 S) as [H|H]; [|exact H|] end.
  - apply rsum_nonneg. intros. nra.
  - exfalso. apply Hx. destruct HL as (Hu & Hd & _). apply (lower_kernel n L x Hu Hd); [|exact Hi].
    intros k Hk.
    assert (Z : rsum n (fun i => x i * L i k) * rsum n (fun i => x i * L i k) = 0).
    { apply (rsum_zero_each n (fun k => rsum n (fun i => x i * L i k) * rsum n (fun i => x i * L i k))); [|symmetry; exact H|exact Hk].
      intros. nra. }
    nra.
Qed.

Lemma quad_S n A x : quad (S n) A x =
  x 0%nat * A 0%nat 0%nat * x 0%nat + x 0%nat * rsum n (fun j => A 0%nat (S j) * x (S j))
  + x 0%nat * rsum n (fun i => A (S i) 0%nat * x (S i))
  + quad n (fun i j => A (S i) (S j)) (fun i => x (S i)).
Proof.
  unfold quad. rewrite rsum_S_first, rsum_S_first, <- !rsum_scal.
  rewrite (rsum_ext n (fun i => rsum (S n) (fun j => x (S i) * A (S i) j * x j))
             (fun i => x 0%nat * (A (S i) 0%nat * x (S i)) + rsum n (fun j => x (S i) * A (S i) (S j) * x (S j)))).
  - rewrite rsum_plus. rewrite (rsum_ext n (fun i => x 0%nat * A 0%nat (S i) * x (S i)) (fun i => x 0%nat * (A 0%nat (S i) * x (S i)))) by (intros; ring). ring.
  - intros i _. rewrite rsum_S_first. ring.
Qed.

Lemma quad_minus_outer n A w x : quad n (fun i j => A i j - w i * w j) x = quad n A x - rsum n (fun i => w i * x i) * rsum n (fun i => w i * x i).
Proof.
  unfold quad. rewrite <- rsum_scal_r, <- rsum_minus. apply rsum_ext. intros i _.
  rewrite <- rsum_scal, <- rsum_minus. apply rsum_ext. intros. ring.
Qed.

Lemma cholesky_exists n : forall A, symmetric n A -> positive_definite n A -> exists L, chol_alg n A = Some L.
Proof.
  induction n as [|n IH]; intros A Hs Hp; [eexists; reflexivity|]. cbn [chol_alg].
  assert (H0 : 0 < A 0%nat 0%nat).
  { pose proof (Hp (fun i => if Nat.eqb i 0 then 1 else 0)) as H. rewrite quad_S in H. simpl in H.
    unfold quad in H. rewrite !rsum_0 in H by (intros; try apply rsum_0; intros; ring).
    assert (Hex : exists i, (i < S n)%nat /\ (if Nat.eqb i 0 then 1 else 0) <> 0) by (exists 0%nat; split; [lia|simpl; lra]).
    specialize (H Hex). lra. }
  destruct (Rlt_dec 0 (A 0%nat 0%nat)) as [H|]; [|contradiction].
  set (l := sqrt (A 0%nat 0%nat)) in *.
  assert (Hl : 0 < l) by (apply sqrt_lt_R0; exact H).
  assert (Hll : l * l = A 0%nat 0%nat) by (apply sqrt_sqrt; lra). clearbody l.
  edestruct (IH (fun i j => A (S i) (S j) - A (S i) 0%nat / l * (A (S j) 0%nat / l))) as (L' & ->); [| |eexists; reflexivity].
  - intros i j Hi Hj. rewrite (Hs (S i) (S j)) by lia. ring.
  - intros x (i & Hi & Hx).
    rewrite quad_minus_outer with (A := fun i j => A (S i) (S j)) (w := fun i => A (S i) 0%nat / l).
    set (s := rsum n (fun i => A (S i) 0%nat / l * x i)).
    pose proof (Hp (fun k => match k with O => - s / l | S k => x k end)) as Hq.
    assert (Hex : exists k, (k < S n)%nat /\ match k with O => - s / l | S k => x k end <> 0) by (exists (S i); split; [lia|exact Hx]).
    specialize (Hq Hex). rewrite quad_S in Hq. cbv beta iota in Hq.
    assert (E1 : rsum n (fun i => A (S i) 0%nat * x i) = l * s).
    { unfold s. rewrite <- rsum_scal. apply rsum_ext. intros. field. lra. }
    assert (E2 : rsum n (fun j => A 0%nat (S j) * x j) = l * s).
    { rewrite <- E1. apply rsum_ext. intros j Hj. rewrite (Hs 0%nat (S j)) by lia. reflexivity. }
    rewrite E1, E2, <- Hll in Hq.
    replace (- s / l * (l * l) * (- s / l) + - s / l * (l * s) + - s / l * (l * s)) with (- (s * s)) in Hq by (field; lra).
    change (quad n (fun i j => A (S i) (S j)) (fun k => x k)) with (quad n (fun i j => A (S i) (S j)) x) in Hq.
    lra.
Qed.

Lemma positive_definite_cholesky n A : symmetric n A -> positive_definite n A -> exists L, is_cholesky n A L.
Proof. intros Hs Hp. destruct (cholesky_exists n A Hs Hp) as (L & E). exists L. apply chol_alg_sound, E. Qed.
