(** C29: the backward function of the sparse solves returns the exact derivative. *)
From Coq Require Import List Arith Bool Reals Lra Lia Permutation.
From Verif Require Import RSum Csr_spec Csr_model Csr_props Damp_model Damp_props.
Import ListNotations.
Local Open Scope R_scope.

(** ---- specification ---- *)
(** [solves n M x y]: M x = y *)
Definition solves (n : nat) (M : nat -> nat -> R) (x y : nat -> R) : Prop :=
  forall c, (c < n)%nat -> mv n M x c = y c.
(** the normal matrix of the forward solve: A^T A with [alpha * diag + beta] added to the diagonal *)
Definition normal (m : nat) (A : nat -> nat -> R) (alpha beta : R) (c c' : nat) : R :=
  gram m A c c' + if Nat.eqb c c' then alpha * gram m A c c' + beta else 0.
(** damping_alpha_beta[0] of batch element [i] *)
Definition alpha_of (alphas : option (nat -> R)) (i : nat) : R := match alphas with Some al => al i | None => 0 end.
Definition nonnegative (B : nat) (alphas : option (nat -> R)) : Prop :=
  match alphas with Some al => forall j, (j < B)%nat -> 0 <= al j | None => True end.
(** every component below [n] of a curve of vectors has the given derivative at 0 *)
Definition has_derivative (n : nat) (v : R -> nat -> R) (v' : nat -> R) : Prop :=
  forall k, (k < n)%nat -> derivable_pt_lim (fun t => v t k) 0 (v' k).
(** [P t] for all t near 0 *)
Definition near0 (P : R -> Prop) : Prop := exists d, 0 < d /\ forall t, Rabs t < d -> P t.

(** ---- derivatives ---- *)
Lemma der_ext_loc f g l : near0 (fun t => f t = g t) -> derivable_pt_lim f 0 l -> derivable_pt_lim g 0 l.
Proof.
  intros (d & Hd & E) H eps He. destruct (H eps He) as [de Hde].
  assert (Hm : 0 < Rmin de d) by (apply Rmin_pos; [apply cond_pos|exact Hd]).
  exists (mkposreal _ Hm). intros h Hh Hl. cbn in Hl.
  rewrite <- (E (0 + h)), <- (E 0).
  - apply Hde; auto. eapply Rlt_le_trans; [exact Hl|apply Rmin_l].
  - rewrite Rabs_R0. exact Hd.
  - rewrite Rplus_0_l. eapply Rlt_le_trans; [exact Hl|apply Rmin_r].
Qed.
Lemma der_const c : derivable_pt_lim (fun _ => c) 0 0.
Proof. apply derivable_pt_lim_const. Qed.
Lemma der_plus f g a b : derivable_pt_lim f 0 a -> derivable_pt_lim g 0 b -> derivable_pt_lim (fun t => f t + g t) 0 (a + b).
Proof. apply derivable_pt_lim_plus. Qed.
Lemma der_minus f g a b : derivable_pt_lim f 0 a -> derivable_pt_lim g 0 b -> derivable_pt_lim (fun t => f t - g t) 0 (a - b).
Proof. apply derivable_pt_lim_minus. Qed.
Lemma der_mult f g a b : derivable_pt_lim f 0 a -> derivable_pt_lim g 0 b -> derivable_pt_lim (fun t => f t * g t) 0 (a * g 0 + f 0 * b).
Proof. apply derivable_pt_lim_mult. Qed.
Lemma der_eq f a b : derivable_pt_lim f 0 a -> a = b -> derivable_pt_lim f 0 b.
Proof. now intros H <-. Qed.
Lemma der_rsum n (f : nat -> R -> R) d : (forall i, (i < n)%nat -> derivable_pt_lim (f i) 0 (d i)) ->
  derivable_pt_lim (fun t => rsum n (fun i => f i t)) 0 (rsum n d).
Proof.
  induction n as [|n IH]; intros H; cbn [rsum]; [apply der_const|].
  apply der_plus; [apply IH; intros; apply H; lia|apply H; lia].
Qed.

(** ---- algebra ---- *)
Lemma gram_mv m n A A' x c : rsum n (fun c' => rsum m (fun r => A' r c * A r c') * x c') = tmv m A' (mv n A x) c.
Proof.
  unfold tmv, mv. rewrite (rsum_ext n _ (fun c' => rsum m (fun r => A' r c * A r c' * x c'))) by (intros; symmetry; apply rsum_scal_r).
  rewrite rsum_exch. apply rsum_ext. intros r _. rewrite <- rsum_scal. apply rsum_ext. intros; ring.
Qed.
Lemma adjoint_alg m n (A A' M : nat -> nat -> R) b b' x' H g w :
  (forall c c', M c c' = M c' c) -> solves n M H g ->
  (forall c, (c < n)%nat -> mv n M x' c = (tmv m A' b c + tmv m A b' c) - w c) ->
  dot n g x' = dot m (mv n A' H) b + dot m (mv n A H) b' - dot n H w.
Proof.
  intros S HH HX.
  assert (E : dot n g x' = dot n H (mv n M x')).
  { transitivity (rsum n (fun c => rsum n (fun c' => M c c' * H c' * x' c))).
    - unfold dot. apply rsum_ext. intros c Hc. rewrite <- (HH c Hc). unfold mv. rewrite rsum_scal_r. reflexivity.
    - rewrite rsum_exch. unfold dot, mv. apply rsum_ext. intros c _. rewrite <- rsum_scal. apply rsum_ext. intros c' _. rewrite (S c' c). ring. }
  rewrite E. rewrite (dot_ext n H H _ (fun c => (tmv m A' b c + tmv m A b' c) - w c)) by auto.
  rewrite dot_sub_r, dot_plus_r, !dot_tmv. reflexivity.
Qed.
Lemma normal_sym m A alpha beta c c' : normal m A alpha beta c c' = normal m A alpha beta c' c.
Proof.
  unfold normal, gram. rewrite (rsum_ext m (fun q => A q c * A q c') (fun q => A q c' * A q c)) by (intros; ring).
  rewrite (Nat.eqb_sym c c'). destruct (Nat.eqb_spec c' c) as [->|]; ring.
Qed.

Section One.
Variables (m n : nat) (rp ci : list nat).
Hypothesis W : csr_wf m n rp ci.
Notation E := (csr_entry rp ci).

Lemma entry_der val dval : has_derivative (length ci) val dval -> forall r c, (r < m)%nat ->
  derivable_pt_lim (fun t => E (val t) r c) 0 (E dval r c).
Proof.
  intros H r c Hr.
  assert (X : forall v, E v r c = rsum (row_len rp r) (fun k => if Nat.eqb c (col ci (row_start rp r + k)) then v (row_start rp r + k)%nat else 0)) by (intros; apply entry_eq).
  rewrite X. apply (der_ext_loc (fun t => rsum (row_len rp r) (fun k => (if Nat.eqb c (col ci (row_start rp r + k)) then val t (row_start rp r + k)%nat else 0)))).
  - exists 1. split; [lra|]. intros t _. now rewrite X.
  - apply (der_rsum (row_len rp r) (fun k t => if Nat.eqb c (col ci (row_start rp r + k)) then val t (row_start rp r + k)%nat else 0)).
    intros k Hk. destruct (Nat.eqb c (col ci (row_start rp r + k))); [|apply der_const].
    apply H. exact (in_range m n rp ci W r k Hr Hk).
Qed.
Lemma gram_der val dval c c' : has_derivative (length ci) val dval ->
  derivable_pt_lim (fun t => gram m (E (val t)) c c') 0 (rsum m (fun r => E dval r c * E (val 0) r c' + E (val 0) r c * E dval r c')).
Proof.
  intros H. apply (der_rsum m (fun r t => E (val t) r c * E (val t) r c')). intros r Hr.
  apply (der_mult (fun t => E (val t) r c) (fun t => E (val t) r c')); now apply entry_der.
Qed.
Lemma tmv_der val dval b b' c : has_derivative (length ci) val dval -> has_derivative m b b' ->
  derivable_pt_lim (fun t => tmv m (E (val t)) (b t) c) 0 (tmv m (E dval) (b 0) c + tmv m (E (val 0)) b' c).
Proof.
  intros H Hb. unfold tmv. rewrite <- rsum_plus. apply (der_rsum m (fun r t => E (val t) r c * b t r)). intros r Hr.
  apply (der_mult (fun t => E (val t) r c) (fun t => b t r)); [now apply entry_der|now apply Hb].
Qed.
Lemma normal_der val dval alpha beta c c' : has_derivative (length ci) val dval ->
  derivable_pt_lim (fun t => normal m (E (val t)) alpha beta c c') 0
    (rsum m (fun r => E dval r c * E (val 0) r c' + E (val 0) r c * E dval r c') +
     if Nat.eqb c c' then alpha * rsum m (fun r => E dval r c * E (val 0) r c' + E (val 0) r c * E dval r c') else 0).
Proof.
  intros H. unfold normal. apply (der_plus (fun t => gram m (E (val t)) c c') (fun t => if Nat.eqb c c' then alpha * gram m (E (val t)) c c' + beta else 0)).
  - now apply gram_der.
  - destruct (Nat.eqb c c'); [|apply der_const].
    eapply der_eq; [apply (der_plus (fun t => alpha * gram m (E (val t)) c c') (fun _ => beta)); [apply (der_mult (fun _ => alpha)); [apply der_const|exact (gram_der val dval c c' H)]|apply der_const]|]. cbv beta. ring.
Qed.

(** the linearized normal equations *)
Lemma lin_eq val dval b b' x x' alpha beta :
  has_derivative (length ci) val dval -> has_derivative m b b' -> has_derivative n x x' ->
  near0 (fun t => solves n (normal m (E (val t)) alpha beta) (x t) (tmv m (E (val t)) (b t))) ->
  forall c, (c < n)%nat ->
  mv n (normal m (E (val 0)) alpha beta) x' c =
    (tmv m (E dval) (b 0) c + tmv m (E (val 0)) b' c) -
    ((tmv m (E dval) (mv n (E (val 0)) (x 0)) c + tmv m (E (val 0)) (mv n (E dval) (x 0)) c) +
     alpha * 2 * rsum m (fun r => E (val 0) r c * E dval r c) * x 0 c).
Proof.
  intros Hv Hb Hx (d & Hd & Hs) c Hc.
  assert (D1 : derivable_pt_lim (fun t => mv n (normal m (E (val t)) alpha beta) (x t) c) 0 (tmv m (E dval) (b 0) c + tmv m (E (val 0)) b' c)).
  { apply (der_ext_loc (fun t => tmv m (E (val t)) (b t) c)); [|now apply tmv_der]. exists d. split; [exact Hd|]. intros t Ht. symmetry. now apply Hs. }
  assert (D2 : derivable_pt_lim (fun t => mv n (normal m (E (val t)) alpha beta) (x t) c) 0
     (rsum n (fun c' => (rsum m (fun r => E dval r c * E (val 0) r c' + E (val 0) r c * E dval r c') +
        if Nat.eqb c c' then alpha * rsum m (fun r => E dval r c * E (val 0) r c' + E (val 0) r c * E dval r c') else 0) * x 0 c' +
        normal m (E (val 0)) alpha beta c c' * x' c'))).
  { apply (der_rsum n (fun c' t => normal m (E (val t)) alpha beta c c' * x t c')). intros c' Hc'.
    apply (der_mult (fun t => normal m (E (val t)) alpha beta c c') (fun t => x t c')); [now apply normal_der|now apply Hx]. }
  pose proof (uniqueness_limite _ _ _ _ D1 D2) as U.
  rewrite rsum_plus in U. change (rsum n (fun c' => normal m (E (val 0)) alpha beta c c' * x' c')) with (mv n (normal m (E (val 0)) alpha beta) x' c) in U.
  rewrite (rsum_ext n _ (fun c' => (rsum m (fun r => E dval r c * E (val 0) r c') * x 0 c' + rsum m (fun r => E (val 0) r c * E dval r c') * x 0 c') +
     (if Nat.eqb c' c then alpha * rsum m (fun r => E dval r c * E (val 0) r c' + E (val 0) r c * E dval r c') * x 0 c' else 0))) in U.
  2:{ intros c' _. rewrite rsum_plus, (Nat.eqb_sym c' c). destruct (Nat.eqb c c'); ring. }
  rewrite rsum_plus, rsum_plus, !gram_mv, (rsum_delta n c (fun c' => alpha * rsum m (fun r => E dval r c * E (val 0) r c' + E (val 0) r c * E dval r c') * x 0 c')) in U.
  destruct (Nat.ltb_spec c n) as [_|]; [|lia].
  replace (rsum m (fun r => E dval r c * E (val 0) r c + E (val 0) r c * E dval r c)) with (2 * rsum m (fun r => E (val 0) r c * E dval r c)) in U.
  - lra.
  - rewrite <- rsum_scal. apply rsum_ext. intros; ring.
Qed.

(** sums over the places of A *)
Lemma places_dot (w : nat -> nat -> R) dval :
  rsum m (fun r => rsum (row_len rp r) (fun j => w r (col ci (row_start rp r + j)) * dval (row_start rp r + j)%nat)) =
  rsum m (fun r => rsum n (fun c => E dval r c * w r c)).
Proof.
  apply rsum_ext. intros r Hr. rewrite (entry_sum_cols m n rp ci W dval (w r) r Hr). apply rsum_ext. intros; ring.
Qed.
Lemma entry_at val r j : (r < m)%nat -> (j < row_len rp r)%nat -> E val r (col ci (row_start rp r + j)) = val (row_start rp r + j)%nat.
Proof.
  intros Hr Hj. rewrite entry_eq. rewrite (rsum_ext _ _ (fun k => if Nat.eqb k j then val (row_start rp r + k)%nat else 0)).
  - rewrite (rsum_delta _ j (fun k => val (row_start rp r + k)%nat)). destruct (Nat.ltb_spec j (row_len rp r)); [reflexivity|lia].
  - intros k Hk. destruct (Nat.eqb_spec (col ci (row_start rp r + j)) (col ci (row_start rp r + k))) as [Eq|Ne], (Nat.eqb_spec k j) as [Eq'|Ne']; try reflexivity; exfalso.
    + apply Ne'. symmetry. apply (cols_inj m n rp ci W r); auto.
    + subst. congruence.
Qed.
Lemma A_grad_places (val b x b_Ax H AH : nat -> R) B i alphas detach g :
  compute_A_grad rp ci val B i b x b_Ax H AH alphas detach = Some g ->
  forall r j, (r < m)%nat -> (j < row_len rp r)%nat ->
  let c := col ci (row_start rp r + j) in
  g (row_start rp r + j)%nat =
    (if detach then b r * H c else b_Ax r * H c - AH r * x c) -
    match alphas with Some al => if any_positive B al then E val r c * (al i * 2 * H c * x c) else 0 | None => 0 end.
Proof.
  intros HG r j Hr Hj c. unfold c.
  pose proof (put_range_rows m n rp ci W (fun r j => let c := col ci (row_start rp r + j) in if detach then b r * H c else b_Ax r * H c - AH r * x c) m (le_n m) r j Hr Hj) as P.
  unfold compute_A_grad in HG. rewrite (nrows_m m n rp ci W) in HG. rewrite (entry_at val r j Hr Hj).
  destruct alphas as [al|]; [destruct (any_positive B al); [destruct detach; [discriminate|]|]|]; injection HG as <-; cbv beta zeta in *; rewrite P; ring.
Qed.
End One.

(** Without detached Hessian: for every batch element [i], every curve of values A(t), right hand
    sides b(t) and solutions x(t) of the damped normal equations, the derivative of <g, x(t)> is
    <A_grad, A'> + <b_grad, b'>. The damping [alphas i] (0 if there is none), [beta] is constant. The correction for
    multiplicative damping is skipped by the code when no element of the batch has positive alpha, so
    negative alphas are excluded. *)
Theorem C29_solve_backward : forall m n rp ci, csr_wf m n rp ci ->
  forall B i (alphas : option (nat -> R)) beta, (i < B)%nat -> nonnegative B alphas ->
  forall val dval b b' x x' g H,
  has_derivative (length ci) val dval -> has_derivative m b b' -> has_derivative n x x' ->
  let A := fun t => csr_entry rp ci (val t) in
  near0 (fun t => solves n (normal m (A t) (alpha_of alphas i) beta) (x t) (tmv m (A t) (b t))) ->
  solves n (normal m (A 0) (alpha_of alphas i) beta) H g ->
  exists A_grad b_grad, solve_backward rp ci (val 0) B i (b 0) (x 0) H alphas false = Some (A_grad, b_grad) /\
    derivable_pt_lim (fun t => dot n g (x t)) 0 (dot (length ci) A_grad dval + dot m b_grad b').
Proof.
  intros m n rp ci W B i alphas beta Hi Hal val dval b b' x x' g H Hv Hb Hx A Hs HH.
  assert (EX : exists A_grad, compute_A_grad rp ci (val 0) B i (b 0) (x 0) (fun r => b 0 r - mat_vec rp ci (val 0) (x 0) r) H (mat_vec rp ci (val 0) H) alphas false = Some A_grad).
  { unfold compute_A_grad. destruct alphas as [al|]; [destruct (any_positive B al)|]; eexists; reflexivity. }
  destruct EX as [A_grad EX]. exists A_grad, (mat_vec rp ci (val 0) H). unfold solve_backward. rewrite EX. split; [reflexivity|].
  assert (AL : forall al, alphas = Some al -> any_positive B al = false -> alpha_of alphas i = 0).
  { intros al -> F. cbn. destruct (Req_EM_T (al i) 0) as [|N]; [assumption|]. exfalso.
    assert (T : any_positive B al = true). { unfold any_positive. apply existsb_exists. exists i. split; [apply in_seq; lia|].
      destruct (Rlt_dec 0 (al i)) as [|N']; [reflexivity|]. specialize (Hal i Hi). lra. }
    congruence. }
  eapply der_eq; [apply (der_rsum n (fun c t => g c * x t c) (fun c => g c * x' c)); intros c Hc; eapply der_eq; [apply (der_mult (fun _ => g c)); [apply der_const|now apply Hx]|cbv beta; ring]|].
  change (rsum n (fun c => g c * x' c)) with (dot n g x').
  rewrite (adjoint_alg m n (A 0) (csr_entry rp ci dval) _ (b 0) b' x' H g _ (normal_sym m (A 0) (alpha_of alphas i) beta) HH
             (lin_eq m n rp ci W val dval b b' x x' (alpha_of alphas i) beta Hv Hb Hx Hs)).
  change (csr_entry rp ci (val 0)) with (A 0).
  assert (D1 : dot m (mat_vec rp ci (val 0) H) b' = dot m (mv n (A 0) H) b').
  { apply dot_ext; [|reflexivity]. intros r Hr. unfold A. now rewrite (proj1 (C30_forward_products m n rp ci (val 0) H W) r Hr). }
  rewrite D1. unfold dot at 4. rewrite (rows_partition m n rp ci W).
  rewrite (rsum_ext m _ (fun r => rsum (row_len rp r) (fun j => ((b 0 r - mv n (A 0) (x 0) r) * H (col ci (row_start rp r + j)) - mv n (A 0) H r * x 0 (col ci (row_start rp r + j)) -
      A 0 r (col ci (row_start rp r + j)) * (alpha_of alphas i * 2 * H (col ci (row_start rp r + j)) * x 0 (col ci (row_start rp r + j)))) * dval (row_start rp r + j)%nat))).
  2:{ intros r Hr. apply rsum_ext. intros j Hj. f_equal. rewrite (A_grad_places m n rp ci W _ _ _ _ _ _ _ _ _ _ _ EX r j Hr Hj). cbv zeta.
      unfold A. rewrite (proj1 (C30_forward_products m n rp ci (val 0) H W) r Hr), (proj1 (C30_forward_products m n rp ci (val 0) (x 0) W) r Hr).
      destruct alphas as [al|]; [destruct (any_positive B al) eqn:AP; [reflexivity|rewrite (AL al eq_refl AP)]|cbn [alpha_of]]; ring. }
  rewrite (places_dot m n rp ci W (fun r c => (b 0 r - mv n (A 0) (x 0) r) * H c - mv n (A 0) H r * x 0 c - A 0 r c * (alpha_of alphas i * 2 * H c * x 0 c)) dval).
  rewrite dot_plus_r, dot_plus_r, !dot_tmv.
  rewrite (rsum_ext m _ (fun r => ((mv n (csr_entry rp ci dval) H r * b 0 r - mv n (csr_entry rp ci dval) H r * mv n (A 0) (x 0) r) - mv n (A 0) H r * mv n (csr_entry rp ci dval) (x 0) r) -
      rsum n (fun c => alpha_of alphas i * 2 * (A 0 r c * csr_entry rp ci dval r c) * (H c * x 0 c)))).
  2:{ intros r Hr. unfold mv. rewrite (rsum_ext n _ (fun c => ((b 0 r - mv n (A 0) (x 0) r) * (csr_entry rp ci dval r c * H c) - mv n (A 0) H r * (csr_entry rp ci dval r c * x 0 c)) -
         alpha_of alphas i * 2 * (A 0 r c * csr_entry rp ci dval r c) * (H c * x 0 c))) by (intros; unfold mv; ring).
      rewrite rsum_minus, rsum_minus, !rsum_scal. unfold mv. ring. }
  rewrite !rsum_minus, rsum_exch. unfold dot.
  rewrite (rsum_ext n (fun c => H c * (alpha_of alphas i * 2 * rsum m (fun r => A 0 r c * csr_entry rp ci dval r c) * x 0 c))
      (fun c => rsum m (fun r => alpha_of alphas i * 2 * (A 0 r c * csr_entry rp ci dval r c) * (H c * x 0 c)))).
  2:{ intros c _. rewrite rsum_scal_r. rewrite rsum_scal. unfold A. ring. }
  ring.
Qed.

(** With detached Hessian: the derivative with the matrix of the normal equations held constant. *)
Theorem C29_solve_backward_detached : forall m n rp ci, csr_wf m n rp ci ->
  forall B i (alphas : option (nat -> R)) beta, (i < B)%nat ->
  match alphas with Some al => forall j, (j < B)%nat -> al j <= 0 | None => True end ->
  forall val dval b b' x x' g H,
  has_derivative (length ci) val dval -> has_derivative m b b' -> has_derivative n x x' ->
  let A := fun t => csr_entry rp ci (val t) in
  near0 (fun t => solves n (normal m (A 0) (alpha_of alphas i) beta) (x t) (tmv m (A t) (b t))) ->
  solves n (normal m (A 0) (alpha_of alphas i) beta) H g ->
  exists A_grad b_grad, solve_backward rp ci (val 0) B i (b 0) (x 0) H alphas true = Some (A_grad, b_grad) /\
    derivable_pt_lim (fun t => dot n g (x t)) 0 (dot (length ci) A_grad dval + dot m b_grad b').
Proof.
  intros m n rp ci W B i alphas beta Hi Hal val dval b b' x x' g H Hv Hb Hx A Hs HH.
  assert (AP : forall al, alphas = Some al -> any_positive B al = false).
  { intros al ->. destruct (any_positive B al) eqn:F; [|reflexivity]. exfalso. unfold any_positive in F. apply existsb_exists in F.
    destruct F as (j & Hj & F). apply in_seq in Hj. specialize (Hal j ltac:(lia)). destruct (Rlt_dec 0 (al j)); [lra|discriminate]. }
  assert (EX : exists A_grad, compute_A_grad rp ci (val 0) B i (b 0) (x 0) (fun r => b 0 r - mat_vec rp ci (val 0) (x 0) r) H (mat_vec rp ci (val 0) H) alphas true = Some A_grad).
  { unfold compute_A_grad. destruct alphas as [al|]; [rewrite (AP al eq_refl)|]; eexists; reflexivity. }
  destruct EX as [A_grad EX]. exists A_grad, (mat_vec rp ci (val 0) H). unfold solve_backward. rewrite EX. split; [reflexivity|].
  eapply der_eq; [apply (der_rsum n (fun c t => g c * x t c) (fun c => g c * x' c)); intros c Hc; eapply der_eq; [apply (der_mult (fun _ => g c)); [apply der_const|now apply Hx]|cbv beta; ring]|].
  change (rsum n (fun c => g c * x' c)) with (dot n g x').
  assert (LE : forall c, (c < n)%nat -> mv n (normal m (A 0) (alpha_of alphas i) beta) x' c = (tmv m (csr_entry rp ci dval) (b 0) c + tmv m (A 0) b' c) - 0).
  { intros c Hc. destruct Hs as (d & Hd & Hs). rewrite Rminus_0_r.
    apply (uniqueness_limite (fun t => mv n (normal m (A 0) (alpha_of alphas i) beta) (x t) c) 0).
    - apply (der_rsum n (fun c' t => normal m (A 0) (alpha_of alphas i) beta c c' * x t c')). intros c' Hc'.
      eapply der_eq; [apply (der_mult (fun _ => normal m (A 0) (alpha_of alphas i) beta c c')); [apply der_const|now apply Hx]|cbv beta; ring].
    - apply (der_ext_loc (fun t => tmv m (A t) (b t) c)); [exists d; split; [exact Hd|]; intros t Ht; symmetry; now apply Hs|].
      exact (tmv_der m n rp ci W val dval b b' c Hv Hb). }
  rewrite (adjoint_alg m n (A 0) (csr_entry rp ci dval) _ (b 0) b' x' H g (fun _ => 0) (normal_sym m (A 0) (alpha_of alphas i) beta) HH LE).
  assert (D1 : dot m (mat_vec rp ci (val 0) H) b' = dot m (mv n (A 0) H) b').
  { apply dot_ext; [|reflexivity]. intros r Hr. unfold A. now rewrite (proj1 (C30_forward_products m n rp ci (val 0) H W) r Hr). }
  rewrite D1. replace (dot n H (fun _ => 0)) with 0 by (symmetry; apply rsum_0; intros; ring).
  assert (D2 : dot (length ci) A_grad dval = dot m (mv n (csr_entry rp ci dval) H) (b 0)).
  { unfold dot. rewrite (rows_partition m n rp ci W).
    rewrite (rsum_ext m _ (fun r => rsum (row_len rp r) (fun j => (b 0 r * H (col ci (row_start rp r + j))) * dval (row_start rp r + j)%nat))).
    - rewrite (places_dot m n rp ci W (fun r c => b 0 r * H c) dval). apply rsum_ext. intros r Hr. unfold mv. rewrite <- rsum_scal_r. apply rsum_ext. intros; ring.
    - intros r Hr. apply rsum_ext. intros j Hj. f_equal. rewrite (A_grad_places m n rp ci W _ _ _ _ _ _ _ _ _ _ _ EX r j Hr Hj). cbv zeta.
      destruct alphas as [al|]; [rewrite (AP al eq_refl)|]; ring. }
  rewrite D2. ring.
Qed.

(** With a detached Hessian and a positive multiplicative damping the backward raises. *)
Theorem C29_detached_with_damping_raises : forall rp ci val B i al b x H,
  (exists j, (j < B)%nat /\ 0 < al j) -> solve_backward rp ci val B i b x H (Some al) true = None.
Proof.
  intros rp ci val B i al b x H (j & Hj & Hp). unfold solve_backward, compute_A_grad.
  assert (T : any_positive B al = true). { unfold any_positive. apply existsb_exists. exists j. split; [apply in_seq; lia|]. destruct (Rlt_dec 0 (al j)); [reflexivity|contradiction]. }
  now rewrite T.
Qed.

(** With negative multiplicative damping (accepted by the code) the gradient is wrong: A = 1 + t,
    b = 1, alpha = -1/2; the solution is 2/A, its derivative -2, the code's gradient -6. *)
Theorem C29_negative_damping_refuted : exists val dval b x x' g H A_grad b_grad,
  csr_wf 1 1 [0; 1]%nat [0%nat] /\ has_derivative 1 val dval /\ has_derivative 1 x x' /\
  near0 (fun t => solves 1 (normal 1 (csr_entry [0; 1]%nat [0%nat] (val t)) (-1/2) 0) (x t) (tmv 1 (csr_entry [0; 1]%nat [0%nat] (val t)) b)) /\
  solves 1 (normal 1 (csr_entry [0; 1]%nat [0%nat] (val 0)) (-1/2) 0) H g /\
  solve_backward [0; 1]%nat [0%nat] (val 0) 1 0 b (x 0) H (Some (fun _ => -1/2)) false = Some (A_grad, b_grad) /\
  dot 1 g x' = -2 /\ dot 1 A_grad dval = -6.
Proof.
  exists (fun t _ => 1 + t), (fun _ => 1), (fun _ => 1), (fun t _ => 2 / (1 + t)), (fun _ => -2), (fun _ => 1), (fun _ => 2).
  assert (AP : any_positive 1 (fun _ => -1/2) = false). { unfold any_positive. cbn. destruct (Rlt_dec 0 (-1/2)); [lra|reflexivity]. }
  unfold solve_backward, compute_A_grad. rewrite AP. eexists _, _.
  split; [apply wf_by_compute; reflexivity|].
  split; [intros k _; eapply der_eq; [apply (der_plus (fun _ => 1) (fun t => t)); [apply der_const|apply derivable_pt_lim_id]|lra]|].
  split; [intros k _|].
  - eapply der_eq; [apply (derivable_pt_lim_div (fun _ => 2) (fun t => 1 + t)); [apply der_const|apply (der_plus (fun _ => 1) (fun t => t)); [apply der_const|apply derivable_pt_lim_id]|lra]|].
    unfold Rsqr. field.
  - split; [exists 1; split; [lra|]; intros t Ht c Hc; apply Rabs_def2 in Ht; replace c with 0%nat by lia; unfold mv, normal, gram, tmv, csr_entry; cbn; field; lra|].
    split; [intros c Hc; replace c with 0%nat by lia; unfold mv, normal, gram, csr_entry; cbn; field|].
    split; [reflexivity|]. split; [unfold dot; cbn; lra|]. unfold dot, mat_vec, put_range. cbn. field.
Qed.
