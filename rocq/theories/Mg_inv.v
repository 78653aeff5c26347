(** Matrix algebra for Mg_props.v, and a routine that does what torch.inverse
    is assumed to do (so that the assumption can be met). *)
From Coq Require Import Reals List Arith Lia Lra.
From Verif Require Import RSum Lin_model Chol Mg_model Mg_spec.
Local Open Scope R_scope.

Lemma bmm_assoc n A B C i j : bmm n (bmm n A B) C i j = bmm n A (bmm n B C) i j.
Proof.
  unfold bmm. transitivity (rsum n (fun k => rsum n (fun l => A i l * B l k * C k j))).
  - apply rsum_ext. intros k _. now rewrite rsum_scal_r.
  - rewrite rsum_exch. apply rsum_ext. intros l _. rewrite <- rsum_scal. apply rsum_ext. intros. ring.
Qed.
Lemma bmm_ext n A A' B B' : same_mat n A A' -> same_mat n B B' -> same_mat n (bmm n A B) (bmm n A' B').
Proof. intros HA HB i j Hi Hj. apply rsum_ext. intros k Hk. now rewrite HA, HB. Qed.
Lemma same_refl n A : same_mat n A A. Proof. now intros i j. Qed.
Lemma same_sym n A B : same_mat n A B -> same_mat n B A. Proof. intros H i j Hi Hj. symmetry. now apply H. Qed.
Lemma same_trans n A B C : same_mat n A B -> same_mat n B C -> same_mat n A C.
Proof. intros H K i j Hi Hj. rewrite H, K; auto. Qed.
Definition eye_ : nat -> nat -> R := fun i j => if (i =? j)%nat then 1 else 0.
Lemma bmm_eye_l n A i j : (i < n)%nat -> bmm n eye_ A i j = A i j.
Proof.
  intro Hi. unfold bmm, eye_. rewrite (rsum_ext n _ (fun k => if (k =? i)%nat then A k j else 0)).
  - rewrite rsum_delta. destruct (Nat.ltb_spec i n); [reflexivity|lia].
  - intros k _. rewrite (Nat.eqb_sym k i). destruct (Nat.eqb_spec i k); ring.
Qed.
Lemma bmm_eye_r n A i j : (j < n)%nat -> bmm n A eye_ i j = A i j.
Proof.
  intro Hj. unfold bmm, eye_. rewrite (rsum_ext n _ (fun k => if (k =? j)%nat then A i k else 0)).
  - rewrite rsum_delta. destruct (Nat.ltb_spec j n); [reflexivity|lia].
  - intros k _. destruct (Nat.eqb_spec k j); ring.
Qed.
Lemma bmm_transpose n A B i j : transpose (bmm n A B) i j = bmm n (transpose B) (transpose A) i j.
Proof. unfold transpose, bmm. apply rsum_ext. intros. ring. Qed.
Lemma inverse_bmm n A B : inverse_of n A B <-> same_mat n (bmm n A B) eye_ /\ same_mat n (bmm n B A) eye_.
Proof. split; [intro H; split; intros i j Hi Hj; apply H; assumption|]. intros [H K] i j Hi Hj. split; [now apply H|now apply K]. Qed.
Lemma inverse_sym n A B : inverse_of n A B -> inverse_of n B A.
Proof. intros H i j Hi Hj. destruct (H i j Hi Hj). split; assumption. Qed.
Lemma inverse_transpose n A B : inverse_of n A B -> inverse_of n (transpose A) (transpose B).
Proof.
  rewrite !inverse_bmm. intros [H K].
  assert (E : forall i j, eye_ i j = eye_ j i) by (intros; unfold eye_; now rewrite Nat.eqb_sym).
  split; intros i j Hi Hj; rewrite <- bmm_transpose; unfold transpose; rewrite E; [apply K|apply H]; assumption.
Qed.
Lemma inverse_ext n A A' B : same_mat n A A' -> inverse_of n A B -> inverse_of n A' B.
Proof.
  rewrite !inverse_bmm. intros S [H K]. split; [eapply same_trans; [|exact H]|eapply same_trans; [|exact K]]; apply bmm_ext; try apply same_refl; now apply same_sym.
Qed.
(** J^T P J with an inverse J of K, then with K *)
Lemma conj_back n J K P : inverse_of n J K -> same_mat n (bmm n (bmm n (transpose K) (bmm n (bmm n (transpose J) P) J)) K) P.
Proof.
  intro H. pose proof (inverse_transpose _ _ _ H) as T. apply inverse_bmm in H. apply inverse_bmm in T.
  destruct H as [HJ HK], T as [TJ TK].
  intros i j Hi Hj. rewrite !bmm_assoc. 
  assert (S1 : same_mat n (bmm n (transpose K) (bmm n (bmm n (bmm n (transpose J) P) J) K)) (bmm n (transpose K) (bmm n (transpose J) P))).
  { apply bmm_ext; [apply same_refl|]. intros a b Ha Hb. rewrite bmm_assoc.
    rewrite (bmm_ext n _ _ _ _ (same_refl n _) HJ a b Ha Hb). now apply bmm_eye_r. }
  rewrite (S1 i j Hi Hj). rewrite <- bmm_assoc. rewrite (bmm_ext n _ _ _ _ TK (same_refl n _) i j Hi Hj). now apply bmm_eye_l.
Qed.

Lemma matvec_bmm n A B x i : matvec n (bmm n A B) x i = matvec n A (matvec n B x) i.
Proof.
  unfold matvec, bmm. transitivity (rsum n (fun k => rsum n (fun l => A i l * B l k * x k))).
  - apply rsum_ext. intros k _. now rewrite rsum_scal_r.
  - rewrite rsum_exch. apply rsum_ext. intros l _. rewrite <- rsum_scal. apply rsum_ext. intros. ring.
Qed.
Lemma quad_dot n P x : quad n P x = dot n x (matvec n P x).
Proof. unfold quad, dot, matvec. apply rsum_ext. intros i _. rewrite <- rsum_scal. apply rsum_ext. intros. ring. Qed.
Lemma dot_transpose n A x y : dot n x (matvec n (transpose A) y) = dot n (matvec n A x) y.
Proof.
  unfold dot, matvec, transpose. transitivity (rsum n (fun i => rsum n (fun k => x i * (A k i * y k)))).
  - apply rsum_ext. intros i _. now rewrite rsum_scal.
  - rewrite rsum_exch. apply rsum_ext. intros k _. rewrite <- rsum_scal_r. apply rsum_ext. intros. ring.
Qed.
(** x^T (J^T P J) x = (J x)^T P (J x) *)
Lemma quad_conj n J P x : quad n (bmm n (bmm n (transpose J) P) J) x = quad n P (matvec n J x).
Proof.
  rewrite !quad_dot. transitivity (dot n x (matvec n (transpose J) (matvec n P (matvec n J x)))).
  - apply dot_ext; [reflexivity|]. intros i Hi. rewrite matvec_bmm, matvec_bmm. reflexivity.
  - apply dot_transpose.
Qed.
Lemma quad_same n P Q x y : same_mat n P Q -> same_vec n x y -> quad n P x = quad n Q y.
Proof. intros H K. apply rsum_ext. intros i Hi. apply rsum_ext. intros j Hj. now rewrite H, !K. Qed.
Lemma conj_symmetric n J P : symmetric n P -> symmetric n (bmm n (bmm n (transpose J) P) J).
Proof.
  intros S i j Hi Hj. change (bmm n (bmm n (transpose J) P) J j i) with (transpose (bmm n (bmm n (transpose J) P) J) i j).
  rewrite bmm_transpose, bmm_assoc. apply bmm_ext with (n := n); try assumption; [apply same_refl|].
  intros a b Ha Hb. rewrite bmm_transpose. apply rsum_ext. intros k Hk. unfold transpose. rewrite (S a k) by assumption. ring.
Qed.
Lemma matvec_inverse n J K x : inverse_of n J K -> same_vec n (matvec n J (matvec n K x)) x.
Proof.
  intros H i Hi. rewrite <- matvec_bmm. apply inverse_bmm in H. unfold matvec.
  rewrite (rsum_ext n _ (fun k => if (k =? i)%nat then x k else 0)).
  - rewrite rsum_delta. destruct (Nat.ltb_spec i n); [reflexivity|lia].
  - intros k Hk. rewrite (proj1 H i k Hi Hk). unfold eye_. rewrite (Nat.eqb_sym k i). destruct (i =? k)%nat; ring.
Qed.

(** ** a routine *)
(** the inverse of a symmetric positive definite matrix, by Schur complements *)
Fixpoint spd_inv (n : nat) (A : nat -> nat -> R) : nat -> nat -> R :=
  match n with
  | O => fun _ _ => 0
  | S m => let a := A 0%nat 0%nat in
      let u i := A (S i) 0%nat / a in
      let B := spd_inv m (fun i j => A (S i) (S j) - A (S i) 0%nat * A (S j) 0%nat / a) in
      let w i := rsum m (fun k => B i k * u k) in
      fun i j => match i, j with
        | O, O => / a + rsum m (fun k => u k * w k)
        | O, S j => - w j
        | S i, O => - w i
        | S i, S j => B i j
        end
  end.
Lemma rsum_S' n f : rsum (S n) f = f 0%nat + rsum n (fun i => f (S i)).
Proof. apply rsum_S_first. Qed.
Lemma spd_inv_sym n : forall A i j, spd_inv n A i j = spd_inv n A j i.
Proof. induction n as [|n IH]; intros A i j; [reflexivity|]. cbn [spd_inv]. destruct i, j; try reflexivity. apply IH. Qed.
Lemma chol_schur n A L : chol_alg (S n) A = Some L -> 0 < A 0%nat 0%nat
  /\ exists L', chol_alg n (fun i j => A (S i) (S j) - A (S i) 0%nat * A (S j) 0%nat / A 0%nat 0%nat) = Some L'.
Proof.
  cbn [chol_alg]. destruct (Rlt_dec 0 (A 0%nat 0%nat)) as [H|H]; [|discriminate]. intro E. split; [exact H|].
  match type of E with context [chol_alg n ?S] => set (S0 := S) in *; destruct (chol_alg n S0) as [L0|] eqn:EL; [|discriminate] end.
  assert (EX : forall n0 (X Y : nat -> nat -> R), (forall i j, X i j = Y i j) -> forall Z, chol_alg n0 X = Some Z -> exists Z', chol_alg n0 Y = Some Z').
  { intros n0 X Y HE Z HZ. apply chol_alg_sound in HZ. apply (chol_alg_complete n0 Y Z).
    eapply is_cholesky_lower; [|exact HZ]. intros. apply HE. }
  eapply EX; [|exact EL]. intros i j. unfold S0. cbv beta zeta.
  replace (A (S i) 0%nat * A (S j) 0%nat / A 0%nat 0%nat) with (A (S i) 0%nat * A (S j) 0%nat / (sqrt (A 0%nat 0%nat) * sqrt (A 0%nat 0%nat))) by (rewrite sqrt_sqrt by lra; reflexivity).
  pose proof (sqrt_lt_R0 _ H). field. lra.
Qed.
Lemma spd_inv_right n : forall A, Mg_spec.symmetric n A -> (exists L, chol_alg n A = Some L) -> same_mat n (bmm n A (spd_inv n A)) eye_.
Proof.
  induction n as [|n IH]; intros A Hs (L & E) i j Hi Hj; [lia|].
  destruct (chol_schur n A L E) as (H0 & HL).
  set (a := A 0%nat 0%nat) in *.
  set (Sc := fun i j => A (S i) (S j) - A (S i) 0%nat * A (S j) 0%nat / a) in *.
  assert (HS : Mg_spec.symmetric n Sc).
  { intros p q Hp Hq. unfold Sc. rewrite (Hs (S p) (S q)) by lia. field. lra. }
  specialize (IH Sc HS HL).
  unfold bmm. rewrite rsum_S'. cbn [spd_inv]. fold a. fold Sc.
  set (B := spd_inv n Sc) in *. set (u := fun i => A (S i) 0%nat / a). set (w := fun i => rsum n (fun k => B i k * u k)).
  assert (W : forall p, (p < n)%nat -> rsum n (fun k => Sc p k * w k) = u p).
  { intros p Hp. transitivity (rsum n (fun l => bmm n Sc B p l * u l)).
    - unfold bmm, w. transitivity (rsum n (fun k => rsum n (fun l => Sc p k * (B k l * u l)))).
      + apply rsum_ext. intros k _. now rewrite rsum_scal.
      + rewrite rsum_exch. apply rsum_ext. intros l _. rewrite <- rsum_scal_r. apply rsum_ext. intros. ring.
    - rewrite (rsum_ext n _ (fun l => if (l =? p)%nat then u l else 0)).
      + rewrite rsum_delta. destruct (Nat.ltb_spec p n); [reflexivity|lia].
      + intros l Hl. rewrite (IH p l Hp Hl). unfold eye_. rewrite (Nat.eqb_sym l p). destruct (p =? l)%nat; ring. }
  assert (Asc : forall p k, A (S p) (S k) = Sc p k + a * u p * u k) by (intros; unfold Sc, u; field; lra).
  assert (A0 : forall k, (k < n)%nat -> A 0%nat (S k) = a * u k) by (intros k Hk; rewrite (Hs 0%nat (S k)) by lia; unfold u; field; lra).
  assert (AS : forall p, A (S p) 0%nat = a * u p) by (intros; unfold u; field; lra).
  destruct i as [|i], j as [|j].
  - change (a * (/ a + rsum n (fun k => u k * w k)) + rsum n (fun i => A 0%nat (S i) * - w i) = 1).
    rewrite (rsum_ext n (fun i => A 0%nat (S i) * - w i) (fun k => (- a) * (u k * w k))) by (intros k Hk; rewrite A0 by lia; ring).
    rewrite rsum_scal. field. lra.
  - change (a * - w j + rsum n (fun i => A 0%nat (S i) * B i j) = 0).
    rewrite (rsum_ext n _ (fun k => a * (B j k * u k))) by (intros k Hk; rewrite A0 by lia; unfold B; rewrite (spd_inv_sym n Sc k j); ring).
    rewrite rsum_scal. fold (w j). ring.
  - change (A (S i) 0%nat * (/ a + rsum n (fun k => u k * w k)) + rsum n (fun k => A (S i) (S k) * - w k) = 0).
    rewrite AS. rewrite (rsum_ext n (fun k => A (S i) (S k) * - w k) (fun k => (-1) * (Sc i k * w k) + (- (a * u i)) * (u k * w k))).
    2: { intros k Hk. rewrite Asc. ring. }
    rewrite rsum_plus, !rsum_scal, W by lia. field. lra.
  - change (A (S i) 0%nat * - w j + rsum n (fun k => A (S i) (S k) * B k j) = if (i =? j)%nat then 1 else 0).
    rewrite AS. rewrite (rsum_ext n _ (fun k => Sc i k * B k j + (a * u i) * (B j k * u k))).
    2: { intros k Hk. rewrite Asc. unfold B. rewrite (spd_inv_sym n Sc j k). ring. }
    rewrite rsum_plus, rsum_scal. fold (w j).
    pose proof (IH i j ltac:(lia) ltac:(lia)) as G. unfold bmm in G. rewrite G. unfold eye_. destruct (i =? j)%nat; ring.
Qed.

Definition inv_alg (n : nat) (A : nat -> nat -> R) : option (nat -> nat -> R) :=
  match chol_alg n (bmm n (transpose A) A), chol_alg n (bmm n A (transpose A)) with
  | Some _, Some _ => Some (bmm n (spd_inv n (bmm n (transpose A) A)) (transpose A))
  | _, _ => None
  end.
Lemma gram_sym n A : Mg_spec.symmetric n (bmm n (transpose A) A).
Proof. intros i j Hi Hj. unfold bmm, transpose. apply rsum_ext. intros. ring. Qed.
Lemma gram_sym' n A : Mg_spec.symmetric n (bmm n A (transpose A)).
Proof. intros i j Hi Hj. unfold bmm, transpose. apply rsum_ext. intros. ring. Qed.
Lemma gram_pd n A B : inverse_of n A B -> exists L, chol_alg n (bmm n (transpose A) A) = Some L.
Proof.
  intro H. apply cholesky_exists; [exact (gram_sym n A)|]. intros x (i & Hi & Hx).
  change (0 < quad n (bmm n (transpose A) A) x). rewrite quad_dot.
  replace (dot n x (matvec n (bmm n (transpose A) A) x)) with (dot n (matvec n A x) (matvec n A x)).
  2: { rewrite <- dot_transpose. apply dot_ext; [reflexivity|]. intros k _. now rewrite matvec_bmm. }
  destruct (Rle_lt_or_eq_dec _ _ (dot_nonneg n (matvec n A x))) as [P|Z]; [exact P|]. symmetry in Z. exfalso. apply Hx.
  rewrite <- (matvec_inverse n B A x (inverse_sym _ _ _ H) i Hi). apply rsum_0. intros k Hk. rewrite (dot_zero n _ Z k Hk). ring.
Qed.
Lemma inv_alg_inverts : inverts inv_alg.
Proof.
  intros n A. unfold inv_alg. split.
  - intros B E. destruct (chol_alg n (bmm n (transpose A) A)) as [L1|] eqn:E1; [|discriminate].
    destruct (chol_alg n (bmm n A (transpose A))) as [L2|] eqn:E2; [|discriminate]. injection E as <-.
    set (S1 := spd_inv n (bmm n (transpose A) A)). set (S2 := spd_inv n (bmm n A (transpose A))).
    pose proof (spd_inv_right n _ (gram_sym n A) (ex_intro _ L1 E1)) as R1. pose proof (spd_inv_right n _ (gram_sym' n A) (ex_intro _ L2 E2)) as R2.
    fold S1 in R1. fold S2 in R2.
    assert (EY : forall i j, eye_ i j = eye_ j i) by (intros; unfold eye_; now rewrite Nat.eqb_sym).
    assert (LI : same_mat n (bmm n (bmm n S1 (transpose A)) A) eye_).
    { intros i j Hi Hj. rewrite bmm_assoc. rewrite EY, <- (R1 j i Hj Hi). unfold bmm at 1 3. apply rsum_ext. intros k Hk.
      unfold S1. rewrite (spd_inv_sym n _ i k). rewrite (gram_sym n A k j) by assumption. ring. }
    assert (RI : same_mat n (bmm n A (bmm n (transpose A) S2)) eye_).
    { intros i j Hi Hj. rewrite <- bmm_assoc. now apply R2. }
    assert (SE : same_mat n (bmm n S1 (transpose A)) (bmm n (transpose A) S2)).
    { intros i j Hi Hj. rewrite <- (bmm_eye_r n _ i j Hj). rewrite <- (bmm_ext n _ _ _ _ (same_refl n _) RI i j Hi Hj).
      rewrite <- bmm_assoc. rewrite (bmm_ext n _ _ _ _ LI (same_refl n _) i j Hi Hj). now apply bmm_eye_l. }
    apply inverse_bmm. split; [|exact LI].
    eapply same_trans; [apply bmm_ext; [apply same_refl|exact SE]|exact RI].
  - intros (B & H). destruct (gram_pd n A B H) as (L1 & ->).
    destruct (gram_pd n (transpose A) (transpose B) (inverse_transpose _ _ _ H)) as (L2 & E2).
    change (bmm n (transpose (transpose A)) (transpose A)) with (bmm n A (transpose A)) in E2. rewrite E2. discriminate.
Qed.
