(** C61: the Gaussian-process cost weight of the motion models. *)
From Coq Require Import Reals List Lia Lra Arith Bool.
From Verif Require Import RSum SE2_model Emb2_spec Emb2_model Chol.
Local Open Scope R_scope.

Lemma rsum_2n n f : rsum (2 * n) f = rsum n f + rsum n (fun i => f (n + i)%nat).
Proof. replace (2 * n)%nat with (n + n)%nat by lia. apply rsum_app. Qed.

Ltac ltb_all := repeat match goal with
  | |- context [Nat.ltb ?a ?b] => destruct (Nat.ltb_spec a b); try (exfalso; lia) end.

Lemma gp_matrix_sym n dt Q : symmetric n Q -> symmetric (2 * n) (gp_matrix n dt Q).
Proof. intros Hs i j Hi Hj. unfold gp_matrix. ltb_all; rewrite (Hs _ _) by lia; reflexivity. Qed.

Lemma quad_2n n A p v :
  quad (2 * n) A (stack n p v)
  = bilin n A p p + bilin n (fun i j => A i (n + j)%nat) p v + bilin n (fun i j => A (n + i)%nat j) v p
    + bilin n (fun i j => A (n + i)%nat (n + j)%nat) v v.
Proof.
  unfold quad, bilin. rewrite rsum_2n.
  rewrite (rsum_ext n (fun i => rsum (2 * n) (fun j => stack n p v i * A i j * stack n p v j))
    (fun i => rsum n (fun j => p i * A i j * p j) + rsum n (fun j => p i * A i (n + j)%nat * v j))).
  - rewrite (rsum_ext n (fun i => rsum (2 * n) (fun j => stack n p v (n + i) * A (n + i)%nat j * stack n p v j))
      (fun i => rsum n (fun j => v i * A (n + i)%nat j * p j) + rsum n (fun j => v i * A (n + i)%nat (n + j)%nat * v j))).
    + rewrite !rsum_plus. ring.
    + intros i Hi. rewrite rsum_2n. f_equal; apply rsum_ext; intros j Hj; unfold stack; ltb_all;
        rewrite ?(Nat.add_comm n i), ?(Nat.add_comm n j), ?Nat.add_sub; reflexivity.
  - intros i Hi. rewrite rsum_2n. f_equal; apply rsum_ext; intros j Hj; unfold stack; ltb_all;
      rewrite ?(Nat.add_comm n j), ?Nat.add_sub; reflexivity.
Qed.

Lemma bilin_scal n c Q (B : nat -> nat -> R) u w :
  (forall i j, (i < n)%nat -> (j < n)%nat -> B i j = c * Q i j) -> bilin n B u w = c * bilin n Q u w.
Proof.
  intros H. unfold bilin. rewrite <- rsum_scal. apply rsum_ext. intros i Hi. rewrite <- rsum_scal. apply rsum_ext. intros j Hj.
  rewrite (H i j) by assumption. ring.
Qed.

Lemma bilin_sym n Q u w : symmetric n Q -> bilin n Q u w = bilin n Q w u.
Proof.
  intros Hs. unfold bilin. rewrite rsum_exch. apply rsum_ext. intros i Hi. apply rsum_ext. intros j Hj.
  rewrite (Hs j i) by assumption. ring.
Qed.

Lemma quad_gp n dt Q p v : 0 < dt -> symmetric n Q ->
  quad (2 * n) (gp_matrix n dt Q) (stack n p v)
  = 12 / dt ^ 3 * bilin n Q p p - 12 / dt ^ 2 * bilin n Q p v + 4 / dt * bilin n Q v v.
Proof.
  intros Hdt Hs. rewrite quad_2n.
  rewrite (bilin_scal n (12 / dt ^ 3) Q) by (intros; unfold gp_matrix; ltb_all; field; lra).
  rewrite (bilin_scal n (- 6 / dt ^ 2) Q (fun i j => gp_matrix n dt Q i (n + j)%nat))
    by (intros i j Hi Hj; unfold gp_matrix; ltb_all; rewrite (Nat.add_comm n j), Nat.add_sub; field; lra).
  rewrite (bilin_scal n (- 6 / dt ^ 2) Q (fun i j => gp_matrix n dt Q (n + i)%nat j))
    by (intros i j Hi Hj; unfold gp_matrix; ltb_all; rewrite (Nat.add_comm n i), Nat.add_sub; field; lra).
  rewrite (bilin_scal n (4 / dt) Q (fun i j => gp_matrix n dt Q (n + i)%nat (n + j)%nat))
    by (intros i j Hi Hj; unfold gp_matrix; ltb_all; rewrite (Nat.add_comm n i), (Nat.add_comm n j), !Nat.add_sub; field; lra).
  rewrite (bilin_sym n Q v p Hs). field. lra.
Qed.

Lemma bilin_shift n Q p v c : symmetric n Q ->
  bilin n Q (fun i => p i - c * v i) (fun i => p i - c * v i) = bilin n Q p p - 2 * c * bilin n Q p v + c * c * bilin n Q v v.
Proof.
  intros Hs.
  assert (E : bilin n Q (fun i => p i - c * v i) (fun i => p i - c * v i)
    = bilin n Q p p - c * bilin n Q p v - c * bilin n Q v p + c * c * bilin n Q v v).
  { unfold bilin. rewrite <- !rsum_scal, <- !rsum_minus, <- rsum_plus. apply rsum_ext. intros i Hi.
    rewrite <- !rsum_scal, <- !rsum_minus, <- rsum_plus. apply rsum_ext. intros j Hj. ring. }
  rewrite E, (bilin_sym n Q v p Hs). ring.
Qed.

Lemma bilin_nonneg n Q x : positive_definite n Q -> 0 <= bilin n Q x x.
Proof.
  intros Hp.
  assert (H : (exists i, (i < n)%nat /\ x i <> 0) \/ forall i, (i < n)%nat -> x i = 0).
  { clear Hp. induction n as [|n IH]; [right; intros; lia|].
    destruct IH as [(i & Hi & H)|H]; [left; exists i; split; [lia|exact H]|].
    destruct (Req_dec (x n) 0) as [E|E]; [|left; exists n; split; [lia|exact E]].
    right. intros i Hi. destruct (Nat.eq_dec i n) as [->|]; [exact E|]. apply H. lia. }
  destruct H as [H|H]; [left; exact (Hp x H)|]. right. symmetry. unfold bilin.
  apply rsum_0. intros i Hi. apply rsum_0. intros j Hj. rewrite (H i Hi). ring.
Qed.

Lemma stack_eta n x i : (i < 2 * n)%nat -> stack n x (fun j => x (n + j)%nat) i = x i.
Proof. intros H. unfold stack. ltb_all; [reflexivity|]. f_equal. lia. Qed.

Lemma gp_matrix_pd n dt Q : 0 < dt -> symmetric n Q -> positive_definite n Q -> positive_definite (2 * n) (gp_matrix n dt Q).
Proof.
  intros Hdt Hs Hp x (i & Hi & Hx).
  assert (E : quad (2 * n) (gp_matrix n dt Q) x = quad (2 * n) (gp_matrix n dt Q) (stack n x (fun j => x (n + j)%nat))).
  { unfold quad. apply rsum_ext. intros a Ha. apply rsum_ext. intros b Hb. rewrite !stack_eta by assumption. reflexivity. }
  rewrite E, quad_gp by assumption.
  set (v := fun j => x (n + j)%nat). set (p := x).
  pose proof (bilin_shift n Q p v (dt / 2) Hs) as B.
  assert (E2 : 12 / dt ^ 3 * bilin n Q p p - 12 / dt ^ 2 * bilin n Q p v + 4 / dt * bilin n Q v v
    = 12 / dt ^ 3 * bilin n Q (fun i => p i - dt / 2 * v i) (fun i => p i - dt / 2 * v i) + / dt * bilin n Q v v)
    by (rewrite B; field; lra).
  rewrite E2. clear E E2 B.
  assert (H3 : 0 < 12 / dt ^ 3) by (apply Rdiv_lt_0_compat; [lra|apply pow_lt; exact Hdt]).
  assert (H1 : 0 < / dt) by (apply Rinv_0_lt_compat; exact Hdt).
  pose proof (bilin_nonneg n Q (fun i => p i - dt / 2 * v i) Hp) as N1.
  pose proof (bilin_nonneg n Q v Hp) as N2.
  destruct (le_lt_dec n i) as [Hni|Hni].
  - assert (P : 0 < bilin n Q v v).
    { apply (Hp v). exists (i - n)%nat. split; [lia|]. unfold v. replace (n + (i - n))%nat with i by lia. exact Hx. }
    nra.
  - destruct (Req_dec (v i) 0) as [Ev|Ev].
    + assert (P : 0 < bilin n Q (fun i => p i - dt / 2 * v i) (fun i => p i - dt / 2 * v i)).
      { apply (Hp (fun i => p i - dt / 2 * v i)). exists i. split; [exact Hni|]. rewrite Ev. unfold p. lra. }
      nra.
    + assert (P : 0 < bilin n Q v v) by (apply (Hp v); exists i; split; assumption). nra.
Qed.

Section GP.
Variable chol : nat -> (nat -> nat -> R) -> option (nat -> nat -> R).
Hypothesis chol_ok : factorizes chol.

(** the constructor accepts exactly the positive time steps and the matrices
    whose lower triangle belongs to a positive definite matrix *)
Theorem C61_gp_accepts_iff : forall n dt Q,
  gp_accepts n chol dt Q = true <-> 0 < dt /\ positive_definite n (lower_sym Q).
Proof.
  intros n dt Q. unfold gp_accepts. rewrite andb_true_iff. pose proof (chol_ok n Q) as H.
  assert (Ht : lt_b 0 dt = true <-> 0 < dt).
  { unfold lt_b. destruct (Rlt_dec 0 dt); split; intros; try reflexivity; try lra; discriminate. }
  rewrite Ht. split; intros (Hd & H2); (split; [exact Hd|]).
  - destruct (chol n Q) as [L|]; [|discriminate]. exact (is_cholesky_pd n Q L H).
  - destruct (chol n Q) as [L|]; [reflexivity|]. exfalso.
    assert (Hs : symmetric n (lower_sym Q)).
    { intros a b _ _. unfold lower_sym. destruct (Nat.leb_spec b a), (Nat.leb_spec a b); try reflexivity; try lia.
      replace b with a by lia. reflexivity. }
    destruct (positive_definite_cholesky n _ Hs H2) as (L & HL). apply (H L).
    apply (is_cholesky_lower n (lower_sym Q)); [|exact HL].
    intros i j Hij. unfold lower_sym. destruct (Nat.leb_spec j i); [reflexivity|lia].
Qed.

(** for a symmetric matrix that the constructor accepts the weight exists, is upper triangular, and its square is
    the inverse of the covariance of the motion model *)
Theorem C61_gp_weight : forall n dt Q Qc,
  gp_accepts n chol dt Q = true -> symmetric n Q -> is_inverse n Q Qc ->
  exists W, gp_weight n chol dt Q = Some W
  /\ (forall i j, (j < i < 2 * n)%nat -> W i j = 0) /\ (forall i, (i < 2 * n)%nat -> 0 < W i i)
  /\ is_inverse (2 * n) (fun i j => rsum (2 * n) (fun k => W k i * W k j)) (gp_cov n dt Qc).
Proof.
  intros n dt Q Qc Ha Hs Hinv. apply C61_gp_accepts_iff in Ha. destruct Ha as (Hdt & Hp).
  assert (Hp' : positive_definite n Q).
  { intros x Hx. rewrite (quad_ext n Q (lower_sym Q)); [apply Hp; exact Hx|].
    intros i j Hi Hj. unfold lower_sym. destruct (Nat.leb j i); [reflexivity|apply Hs; assumption]. }
  assert (Hs2 := gp_matrix_sym n dt Q Hs). assert (Hp2 := gp_matrix_pd n dt Q Hdt Hs Hp').
  assert (Hst : symmetric (2 * n) (fun i j => gp_matrix n dt Q j i)) by (intros i j Hi Hj; apply Hs2; assumption).
  assert (Hpt : positive_definite (2 * n) (fun i j => gp_matrix n dt Q j i)).
  { intros x Hx. rewrite (quad_ext (2 * n) _ (gp_matrix n dt Q)) by (intros; apply Hs2; assumption). apply Hp2. exact Hx. }
  unfold gp_weight. pose proof (chol_ok (2 * n)%nat (fun i j => gp_matrix n dt Q j i)) as H.
  destruct (chol (2 * n)%nat (fun i j => gp_matrix n dt Q j i)) as [L|].
  2:{ exfalso. destruct (positive_definite_cholesky _ _ Hst Hpt) as (L & HL). exact (H L HL). }
  eexists. split; [reflexivity|]. cbv beta. pose proof (is_cholesky_full _ _ _ Hst H) as Hfull.
  destruct H as (Hu & Hd & _).
  split; [|split].
  - intros i j Hij. apply Hu. lia.
  - exact Hd.
  - intros i j Hi Hj.
    rewrite (rsum_ext (2 * n) _ (fun k => gp_matrix n dt Q i k * gp_cov n dt Qc k j)).
    2:{ intros k Hk. f_equal. rewrite Hfull by assumption. apply Hs2; assumption. }
    clear Hfull Hu Hd L Hst Hpt Hp2. rewrite rsum_2n.
    destruct (le_lt_dec n i) as [Hni|Hni], (le_lt_dec n j) as [Hnj|Hnj].
    + rewrite (rsum_ext n (fun k => gp_matrix n dt Q i k * gp_cov n dt Qc k j)
        (fun k => (- 6 * (/ dt ^ 2) * (dt ^ 2 / 2)) * (Q (i - n)%nat k * Qc k (j - n)%nat))).
      2:{ intros k Hk. unfold gp_matrix, gp_cov. ltb_all. ring. }
      rewrite (rsum_ext n (fun k => gp_matrix n dt Q i (n + k)%nat * gp_cov n dt Qc (n + k)%nat j)
        (fun k => (4 * / dt * dt) * (Q (i - n)%nat k * Qc k (j - n)%nat))).
      2:{ intros k Hk. unfold gp_matrix, gp_cov. ltb_all. rewrite (Nat.add_comm n k), Nat.add_sub. ring. }
      rewrite !rsum_scal, Hinv by lia.
      destruct (Nat.eqb_spec (i - n) (j - n)), (Nat.eqb_spec i j); try lia; field; lra.
    + rewrite (rsum_ext n (fun k => gp_matrix n dt Q i k * gp_cov n dt Qc k j)
        (fun k => (- 6 * (/ dt ^ 2) * (dt ^ 3 / 3)) * (Q (i - n)%nat k * Qc k j))).
      2:{ intros k Hk. unfold gp_matrix, gp_cov. ltb_all. ring. }
      rewrite (rsum_ext n (fun k => gp_matrix n dt Q i (n + k)%nat * gp_cov n dt Qc (n + k)%nat j)
        (fun k => (4 * / dt * (dt ^ 2 / 2)) * (Q (i - n)%nat k * Qc k j))).
      2:{ intros k Hk. unfold gp_matrix, gp_cov. ltb_all. rewrite (Nat.add_comm n k), Nat.add_sub. ring. }
      rewrite !rsum_scal, Hinv by lia.
      destruct (Nat.eqb_spec (i - n) j), (Nat.eqb_spec i j); try lia; field; lra.
    + rewrite (rsum_ext n (fun k => gp_matrix n dt Q i k * gp_cov n dt Qc k j)
        (fun k => (12 * (/ dt ^ 3) * (dt ^ 2 / 2)) * (Q i k * Qc k (j - n)%nat))).
      2:{ intros k Hk. unfold gp_matrix, gp_cov. ltb_all. ring. }
      rewrite (rsum_ext n (fun k => gp_matrix n dt Q i (n + k)%nat * gp_cov n dt Qc (n + k)%nat j)
        (fun k => (- 6 * (/ dt ^ 2) * dt) * (Q i k * Qc k (j - n)%nat))).
      2:{ intros k Hk. unfold gp_matrix, gp_cov. ltb_all. rewrite (Nat.add_comm n k), Nat.add_sub. ring. }
      rewrite !rsum_scal, Hinv by lia.
      destruct (Nat.eqb_spec i (j - n)), (Nat.eqb_spec i j); try lia; field; lra.
    + rewrite (rsum_ext n (fun k => gp_matrix n dt Q i k * gp_cov n dt Qc k j)
        (fun k => (12 * (/ dt ^ 3) * (dt ^ 3 / 3)) * (Q i k * Qc k j))).
      2:{ intros k Hk. unfold gp_matrix, gp_cov. ltb_all. ring. }
      rewrite (rsum_ext n (fun k => gp_matrix n dt Q i (n + k)%nat * gp_cov n dt Qc (n + k)%nat j)
        (fun k => (- 6 * (/ dt ^ 2) * (dt ^ 2 / 2)) * (Q i k * Qc k j))).
      2:{ intros k Hk. unfold gp_matrix, gp_cov. ltb_all. rewrite (Nat.add_comm n k), Nat.add_sub. ring. }
      rewrite !rsum_scal, Hinv by lia.
      destruct (Nat.eqb_spec i j); field; lra.
Qed.

(** the squared length of a weighted error is the cost of the white-noise-acceleration prior, and the weighted
    Jacobians produce the same normal equations as the inverse covariance *)
Theorem C61_gp_weighted_cost : forall n dt Q W,
  symmetric n Q -> 0 < dt -> gp_weight n chol dt Q = Some W ->
  (forall p v, let we := gp_weight_error n W (stack n p v) in
     dot (2 * n) we we = 12 / dt ^ 3 * bilin n Q p p - 12 / dt ^ 2 * bilin n Q p v + 4 / dt * bilin n Q v v)
  /\ (forall (J : nat -> nat -> R) e k l, let wJ := gp_weight_jac n W J in
     rsum (2 * n) (fun i => wJ i k * wJ i l)
       = rsum (2 * n) (fun i => rsum (2 * n) (fun j => J i k * gp_matrix n dt Q i j * J j l))
     /\ rsum (2 * n) (fun i => wJ i k * gp_weight_error n W e i)
       = rsum (2 * n) (fun i => rsum (2 * n) (fun j => J i k * gp_matrix n dt Q i j * e j))).
Proof.
  intros n dt Q W Hs Hdt E. unfold gp_weight in E.
  pose proof (chol_ok (2 * n)%nat (fun i j => gp_matrix n dt Q j i)) as H.
  destruct (chol (2 * n)%nat (fun i j => gp_matrix n dt Q j i)) as [L|]; [|discriminate].
  assert (EW : W = fun i j => L j i) by (injection E; auto). clear E. subst W.
  assert (Hs2 := gp_matrix_sym n dt Q Hs).
  assert (Hst : symmetric (2 * n) (fun i j => gp_matrix n dt Q j i)) by (intros i j Hi Hj; apply Hs2; assumption).
  assert (Hfull : forall i j, (i < 2 * n)%nat -> (j < 2 * n)%nat -> rsum (2 * n) (fun k => L i k * L j k) = gp_matrix n dt Q i j).
  { intros i j Hi Hj. rewrite (is_cholesky_full _ _ _ Hst H i j Hi Hj). apply Hs2; assumption. }
  assert (Hg : forall u w, rsum (2 * n) (fun k => rsum (2 * n) (fun j => L j k * u j) * rsum (2 * n) (fun j => L j k * w j))
    = rsum (2 * n) (fun i => rsum (2 * n) (fun j => u i * gp_matrix n dt Q i j * w j))).
  { intros u w.
    transitivity (rsum (2 * n) (fun k => rsum (2 * n) (fun i => rsum (2 * n) (fun j => u i * (L i k * L j k) * w j)))).
    { apply rsum_ext. intros k _. rewrite <- rsum_scal_r. apply rsum_ext. intros i _. rewrite <- rsum_scal. apply rsum_ext. intros; ring. }
    rewrite rsum_exch. apply rsum_ext. intros i Hi. rewrite rsum_exch. apply rsum_ext. intros j Hj.
    rewrite rsum_scal_r, rsum_scal, Hfull by assumption. reflexivity. }
  split.
  - intros p v we. rewrite <- quad_gp by assumption. unfold quad. rewrite <- Hg. reflexivity.
  - intros J e k l wJ. unfold wJ, gp_weight_jac, gp_weight_error. split; [apply (Hg (fun i => J i k) (fun i => J i l))|apply (Hg (fun i => J i k) e)].
Qed.

(** the constructor accepts this matrix, and the weight cannot be computed *)
Theorem C61_gp_asymmetric_refuted : let Q := fun i j => match i, j with O, O => 1 | 1%nat, 1%nat => 1 | O, 1%nat => 5 | _, _ => 0 end in
  gp_accepts 2 chol 1 Q = true /\ gp_weight 2 chol 1 Q = None.
Proof.
  intros Q. split.
  - apply C61_gp_accepts_iff. split; [lra|]. intros x (i & Hi & Hx).
    assert (E : quad 2 (lower_sym Q) x = x 0%nat * x 0%nat + x 1%nat * x 1%nat).
    { unfold quad, lower_sym. simpl. ring. }
    rewrite E. destruct i as [|[|i]]; [| |lia]; nra.
  - unfold gp_weight. pose proof (chol_ok (2 * 2)%nat (fun i j => gp_matrix 2 1 Q j i)) as H.
    destruct (chol (2 * 2)%nat (fun i j => gp_matrix 2 1 Q j i)) as [L|]; [|reflexivity]. exfalso.
    pose proof (is_cholesky_pd _ _ _ H (fun i => match i with O => 1 | 1%nat => -1 | _ => 0 end)) as P.
    assert (Hex : exists i, (i < 2 * 2)%nat /\ match i with O => 1 | 1%nat => -1 | _ => 0 end <> 0) by (exists 0%nat; split; [lia|lra]).
    specialize (P Hex). unfold quad, lower_sym, gp_matrix in P. simpl in P. lra.
Qed.
End GP.

(** a factorization routine as assumed exists, and with it the hypotheses are
    met by Qc_inv = [[2, 1], [1, 1]] and dt = 1/10 *)
Example C61_case : factorizes chol_alg
  /\ let Q := fun i j => match i, j with O, O => 2 | O, 1%nat => 1 | 1%nat, O => 1 | 1%nat, 1%nat => 1 | _, _ => 0 end in
     let Qc := fun i j => match i, j with O, O => 1 | O, 1%nat => -1 | 1%nat, O => -1 | 1%nat, 1%nat => 2 | _, _ => 0 end in
     gp_accepts 2 chol_alg (1 / 10) Q = true /\ symmetric 2 Q /\ is_inverse 2 Q Qc.
Proof.
  split; [exact chol_alg_factorizes|]. intros Q Qc. split; [|split].
  - apply C61_gp_accepts_iff; [exact chol_alg_factorizes|]. split; [lra|]. intros x (i & Hi & Hx).
    assert (E : quad 2 (lower_sym Q) x = (x 0%nat + x 1%nat) * (x 0%nat + x 1%nat) + x 0%nat * x 0%nat).
    { unfold quad, lower_sym. simpl. ring. }
    rewrite E. pose proof (Rle_0_sqr (x 0%nat + x 1%nat)) as N. unfold Rsqr in N.
    destruct (Req_dec (x 0%nat) 0) as [E0|E0].
    + rewrite E0. destruct i as [|[|i]]; [lra| |lia]. pose proof (Rsqr_pos_lt _ Hx) as P. unfold Rsqr in P. lra.
    + pose proof (Rsqr_pos_lt _ E0) as P. unfold Rsqr in P. lra.
  - intros [|[|i]] [|[|j]] Hi Hj; try lia; reflexivity.
  - intros [|[|i]] [|[|j]] Hi Hj; try lia; simpl; ring.
Qed.
