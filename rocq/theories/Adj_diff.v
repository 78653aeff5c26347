(** C29, continued: if the matrix of the normal equations is invertible, the solution is
    differentiable, so that the theorems of Adj_props.v apply to every differentiable (A(t), b(t)). *)
From Coq Require Import List Arith Bool Reals Lra Lia.
From Verif Require Import RSum Csr_spec Csr_model Csr_props Damp_model Damp_props Adj_props.
Import ListNotations.
Local Open Scope R_scope.

(** N M = I *)
Definition left_inverse (n : nat) (N M : nat -> nat -> R) : Prop :=
  forall c c', (c < n)%nat -> (c' < n)%nat -> rsum n (fun k => N c k * M k c') = if Nat.eqb c c' then 1 else 0.

(** ---- limits at 0 ---- *)
Definition lim0 (f : R -> R) (l : R) : Prop := forall e, 0 < e -> exists d, 0 < d /\ forall h, h <> 0 -> Rabs h < d -> Rabs (f h - l) < e.
Lemma lim_ext f g l : near0 (fun h => h <> 0 -> f h = g h) -> lim0 f l -> lim0 g l.
Proof.
  intros (d0 & H0 & E) H e He. destruct (H e He) as (d & Hd & Hl). exists (Rmin d0 d). split; [now apply Rmin_pos|].
  intros h Hh Hb. rewrite <- E; [apply Hl|..]; auto; eapply Rlt_le_trans; try exact Hb; [apply Rmin_r|apply Rmin_l].
Qed.
Lemma lim_const c : lim0 (fun _ => c) c.
Proof. intros e He. exists 1. split; [lra|]. intros. rewrite Rminus_eq_0, Rabs_R0. exact He. Qed.
Lemma lim_plus f g a b : lim0 f a -> lim0 g b -> lim0 (fun h => f h + g h) (a + b).
Proof.
  intros Hf Hg e He. destruct (Hf (e/2)) as (d1 & H1 & L1); [lra|]. destruct (Hg (e/2)) as (d2 & H2 & L2); [lra|].
  exists (Rmin d1 d2). split; [now apply Rmin_pos|]. intros h Hh Hb.
  specialize (L1 h Hh (Rlt_le_trans _ _ _ Hb (Rmin_l _ _))). specialize (L2 h Hh (Rlt_le_trans _ _ _ Hb (Rmin_r _ _))).
  replace (f h + g h - (a + b)) with ((f h - a) + (g h - b)) by ring. eapply Rle_lt_trans; [apply Rabs_triang|]. lra.
Qed.
Lemma lim_zero_bounded f g K : lim0 f 0 -> near0 (fun h => h <> 0 -> Rabs (g h) <= K) -> lim0 (fun h => f h * g h) 0.
Proof.
  intros Hf (d0 & H0 & HB) e He.
  assert (HK : 0 < Rabs K + 1) by (pose proof (Rabs_pos K); lra).
  destruct (Hf (e / (Rabs K + 1))) as (d & Hd & L); [now apply Rdiv_lt_0_compat|].
  exists (Rmin d0 d). split; [now apply Rmin_pos|]. intros h Hh Hb. rewrite Rminus_0_r, Rabs_mult.
  specialize (HB h (Rlt_le_trans _ _ _ Hb (Rmin_l _ _)) Hh). specialize (L h Hh (Rlt_le_trans _ _ _ Hb (Rmin_r _ _))). rewrite Rminus_0_r in L.
  apply Rle_lt_trans with (Rabs (f h) * (Rabs K + 1)).
  - apply Rmult_le_compat_l; [apply Rabs_pos|]. pose proof (Rle_abs K). lra.
  - replace e with (e / (Rabs K + 1) * (Rabs K + 1)) by (field; lra). now apply Rmult_lt_compat_r.
Qed.
Lemma lim_bounded f l : lim0 f l -> near0 (fun h => h <> 0 -> Rabs (f h) <= Rabs l + 1).
Proof.
  intros H. destruct (H 1 Rlt_0_1) as (d & Hd & L). exists d. split; [exact Hd|]. intros h Hb Hh. specialize (L h Hh Hb).
  replace (f h) with ((f h - l) + l) by ring. eapply Rle_trans; [apply Rabs_triang|]. lra.
Qed.
Lemma lim_scal c f l : lim0 f l -> lim0 (fun h => c * f h) (c * l).
Proof.
  intros H e He. assert (HK : 0 < Rabs c + 1) by (pose proof (Rabs_pos c); lra).
  destruct (H (e / (Rabs c + 1))) as (d & Hd & L); [now apply Rdiv_lt_0_compat|]. exists d. split; [exact Hd|]. intros h Hh Hb. specialize (L h Hh Hb).
  replace (c * f h - c * l) with (c * (f h - l)) by ring. rewrite Rabs_mult.
  apply Rle_lt_trans with ((Rabs c + 1) * Rabs (f h - l)); [apply Rmult_le_compat_r; [apply Rabs_pos|lra]|].
  replace e with ((Rabs c + 1) * (e / (Rabs c + 1))) by (field; lra). now apply Rmult_lt_compat_l.
Qed.
Lemma lim_mult f g a b : lim0 f a -> lim0 g b -> lim0 (fun h => f h * g h) (a * b).
Proof.
  intros Hf Hg. apply (lim_ext (fun h => (f h + - a) * g h + a * g h)); [exists 1; split; [lra|intros; ring]|].
  replace (a * b) with (0 + a * b) by ring. apply lim_plus; [|now apply lim_scal].
  apply (lim_zero_bounded (fun h => f h + - a) g (Rabs b + 1)); [|now apply lim_bounded].
  replace 0 with (a + - a) by ring. apply lim_plus; [exact Hf|apply lim_const].
Qed.
Lemma lim_rsum n (f : nat -> R -> R) l : (forall i, (i < n)%nat -> lim0 (f i) (l i)) -> lim0 (fun h => rsum n (fun i => f i h)) (rsum n l).
Proof. induction n as [|n IH]; intros H; cbn [rsum]; [apply lim_const|]. apply lim_plus; [apply IH; intros; apply H; lia|apply H; lia]. Qed.
Lemma lim_abs f : lim0 f 0 -> lim0 (fun h => Rabs (f h)) 0.
Proof. intros H e He. destruct (H e He) as (d & Hd & L). exists d. split; [exact Hd|]. intros h Hh Hb. specialize (L h Hh Hb). rewrite Rminus_0_r in *. now rewrite Rabs_Rabsolu. Qed.
Lemma lim_id : lim0 (fun h => h) 0.
Proof. intros e He. exists e. split; [exact He|]. intros h _ H. now rewrite Rminus_0_r. Qed.

Definition quot (f : R -> R) (h : R) : R := (f h - f 0) / h.
Lemma der_quot f l : derivable_pt_lim f 0 l <-> lim0 (quot f) l.
Proof.
  split; intros H e He.
  - destruct (H e He) as [d Hd]. exists d. split; [apply cond_pos|]. intros h Hh Hb. unfold quot. specialize (Hd h Hh Hb). now rewrite Rplus_0_l in Hd.
  - destruct (H e He) as (d & Hd & L). exists (mkposreal d Hd). intros h Hh Hb. cbn in Hb. specialize (L h Hh Hb). unfold quot in L. now rewrite Rplus_0_l.
Qed.
Lemma der_increment f l : derivable_pt_lim f 0 l -> lim0 (fun h => f h - f 0) 0.
Proof.
  intros H. apply der_quot in H. apply (lim_ext (fun h => quot f h * h)).
  - exists 1. split; [lra|]. intros h _ Hh. unfold quot. now field.
  - replace 0 with (l * 0) by ring. apply lim_mult; [exact H|apply lim_id].
Qed.

Lemma rsum_abs n f : Rabs (rsum n f) <= rsum n (fun i => Rabs (f i)).
Proof. induction n as [|n IH]; cbn [rsum]; [rewrite Rabs_R0; lra|]. eapply Rle_trans; [apply Rabs_triang|]. lra. Qed.
Lemma rsum_term n f i : (forall j, (j < n)%nat -> 0 <= f j) -> (i < n)%nat -> f i <= rsum n f.
Proof.
  induction n as [|n IH]; intros H Hi; [lia|]. cbn [rsum]. destruct (Nat.eq_dec i n) as [->|].
  - pose proof (rsum_nonneg n f ltac:(intros; apply H; lia)). lra.
  - pose proof (IH ltac:(intros; apply H; lia) ltac:(lia)). pose proof (H n ltac:(lia)). lra.
Qed.

(** x(h) - x(0) = N (r(h) - r(0) - (M(h) - M(0)) x(h)) *)
Lemma increment n (M : R -> nat -> nat -> R) N x r h : left_inverse n N (M 0) -> solves n (M 0) (x 0) (r 0) -> solves n (M h) (x h) (r h) ->
  forall c, (c < n)%nat -> x h c - x 0 c = rsum n (fun k => N c k * ((r h k - r 0 k) - rsum n (fun j => (M h k j - M 0 k j) * x h j))).
Proof.
  intros HN H0 Hh c Hc.
  rewrite (rsum_ext n _ (fun k => rsum n (fun j => N c k * M 0 k j * (x h j - x 0 j)))).
  - rewrite rsum_exch. rewrite (rsum_ext n _ (fun j => if Nat.eqb j c then x h j - x 0 j else 0)).
    + rewrite (rsum_delta n c (fun j => x h j - x 0 j)). destruct (Nat.ltb_spec c n); [reflexivity|lia].
    + intros j Hj. rewrite rsum_scal_r, (HN c j Hc Hj), (Nat.eqb_sym c j). destruct (Nat.eqb j c); ring.
  - intros k Hk. rewrite <- (Hh k Hk), <- (H0 k Hk). unfold mv.
    rewrite (rsum_ext n (fun j => N c k * M 0 k j * (x h j - x 0 j)) (fun j => N c k * (M 0 k j * x h j - M 0 k j * x 0 j))) by (intros; ring).
    rewrite rsum_scal, rsum_minus. f_equal.
    rewrite (rsum_ext n (fun j => (M h k j - M 0 k j) * x h j) (fun j => M h k j * x h j - M 0 k j * x h j)) by (intros; ring).
    rewrite rsum_minus. ring.
Qed.

Theorem solution_differentiable n (M : R -> nat -> nat -> R) (M' : nat -> nat -> R) (x r : R -> nat -> R) r' N :
  (forall k j, (k < n)%nat -> (j < n)%nat -> derivable_pt_lim (fun t => M t k j) 0 (M' k j)) ->
  has_derivative n r r' -> left_inverse n N (M 0) -> near0 (fun t => solves n (M t) (x t) (r t)) ->
  has_derivative n x (fun c => rsum n (fun k => N c k * (r' k - rsum n (fun j => M' k j * x 0 j)))).
Proof.
  intros HM Hr HN (d & Hd & HS).
  assert (H0 : solves n (M 0) (x 0) (r 0)) by (apply HS; rewrite Rabs_R0; exact Hd).
  set (e := fun h => rsum n (fun c => rsum n (fun k => Rabs (N c k) * Rabs (r h k - r 0 k)))).
  set (eta := fun h => rsum n (fun c => rsum n (fun k => Rabs (N c k) * rsum n (fun j => Rabs (M h k j - M 0 k j))))).
  set (s := fun h => rsum n (fun c => Rabs (x h c))).
  assert (Le : lim0 e 0).
  { replace 0 with (rsum n (fun c => rsum n (fun k => Rabs (N c k) * 0))) by (apply rsum_0; intros; apply rsum_0; intros; ring).
    apply (lim_rsum n (fun c h => rsum n (fun k => Rabs (N c k) * Rabs (r h k - r 0 k)))). intros c Hc.
    apply (lim_rsum n (fun k h => Rabs (N c k) * Rabs (r h k - r 0 k))). intros k Hk. apply lim_scal. apply (lim_abs (fun h => r h k - r 0 k)).
    apply (der_increment (fun h => r h k) (r' k)). now apply Hr. }
  assert (Leta : lim0 eta 0).
  { replace 0 with (rsum n (fun c => rsum n (fun k => Rabs (N c k) * rsum n (fun j => 0)))) by (apply rsum_0; intros; apply rsum_0; intros; rewrite rsum_0 by reflexivity; ring).
    apply (lim_rsum n (fun c h => rsum n (fun k => Rabs (N c k) * rsum n (fun j => Rabs (M h k j - M 0 k j))))). intros c Hc.
    apply (lim_rsum n (fun k h => Rabs (N c k) * rsum n (fun j => Rabs (M h k j - M 0 k j)))). intros k Hk. apply lim_scal.
    apply (lim_rsum n (fun j h => Rabs (M h k j - M 0 k j))). intros j Hj. apply (lim_abs (fun h => M h k j - M 0 k j)).
    apply (der_increment (fun h => M h k j) (M' k j)). now apply HM. }
  (* the solutions are bounded near 0 *)
  assert (BD : near0 (fun h => h <> 0 -> s h <= 2 * (s 0 + 1))).
  { destruct (Le 1 Rlt_0_1) as (d1 & H1 & L1). destruct (Leta (1/2) ltac:(lra)) as (d2 & H2 & L2).
    exists (Rmin d (Rmin d1 d2)). split; [repeat apply Rmin_pos; assumption|]. intros h Hb Hh.
    assert (B1 : Rabs h < d) by (eapply Rlt_le_trans; [exact Hb|apply Rmin_l]).
    assert (B2 : Rabs h < d1) by (eapply Rlt_le_trans; [exact Hb|eapply Rle_trans; [apply Rmin_r|apply Rmin_l]]).
    assert (B3 : Rabs h < d2) by (eapply Rlt_le_trans; [exact Hb|eapply Rle_trans; [apply Rmin_r|apply Rmin_r]]).
    specialize (L1 h Hh B2). specialize (L2 h Hh B3). rewrite Rminus_0_r in L1, L2. apply Rabs_def2 in L1. apply Rabs_def2 in L2.
    assert (S0 : 0 <= s h) by (apply rsum_nonneg; intros; apply Rabs_pos).
    assert (K : s h <= s 0 + (e h + eta h * s h)).
    { unfold s at 1 2, e, eta. rewrite <- rsum_scal_r, <- !rsum_plus. apply rsum_le. intros c Hc.
      pose proof (increment n M N x r h HN H0 (HS h B1) c Hc) as I.
      replace (x h c) with (x 0 c + (x h c - x 0 c)) by ring. eapply Rle_trans; [apply Rabs_triang|]. apply Rplus_le_compat_l. rewrite I.
      eapply Rle_trans; [apply rsum_abs|]. rewrite <- rsum_scal_r, <- rsum_plus. apply rsum_le. intros k Hk. rewrite Rabs_mult.
      rewrite Rmult_assoc, <- Rmult_plus_distr_l. apply Rmult_le_compat_l; [apply Rabs_pos|].
      unfold Rminus at 1. eapply Rle_trans; [apply Rabs_triang|]. rewrite Rabs_Ropp. apply Rplus_le_compat_l.
      eapply Rle_trans; [apply rsum_abs|]. rewrite <- rsum_scal_r. apply rsum_le. intros j Hj. rewrite Rabs_mult.
      apply Rmult_le_compat_l; [apply Rabs_pos|]. unfold s. apply (rsum_term n (fun c0 => Rabs (x h c0))); [intros; apply Rabs_pos|exact Hj]. }
    nra. }
  (* the solutions are continuous at 0 *)
  assert (BX : forall j, (j < n)%nat -> near0 (fun h => h <> 0 -> Rabs (x h j) <= 2 * (s 0 + 1))).
  { intros j Hj. destruct BD as (db & Hdb & BD). exists db. split; [exact Hdb|]. intros h Hb Hh. eapply Rle_trans; [|exact (BD h Hb Hh)].
    unfold s. apply (rsum_term n (fun c => Rabs (x h c))); [intros; apply Rabs_pos|exact Hj]. }
  assert (CX : forall c, (c < n)%nat -> lim0 (fun h => x h c) (x 0 c)).
  { intros c Hc. apply (lim_ext (fun h => x 0 c + rsum n (fun k => N c k * ((r h k - r 0 k) + -1 * rsum n (fun j => (M h k j - M 0 k j) * x h j))))).
    - exists d. split; [exact Hd|]. intros h Hb _. pose proof (increment n M N x r h HN H0 (HS h Hb) c Hc) as I.
      rewrite (rsum_ext n _ (fun k => N c k * (r h k - r 0 k - rsum n (fun j => (M h k j - M 0 k j) * x h j)))) by (intros; ring). lra.
    - replace (x 0 c) with (x 0 c + rsum n (fun k => N c k * (0 + -1 * rsum n (fun j => 0)))) at 1
        by (rewrite (rsum_0 n (fun k => N c k * _)); [ring|intros; rewrite rsum_0 by reflexivity; ring]).
      apply lim_plus; [apply lim_const|]. apply (lim_rsum n (fun k h => N c k * ((r h k - r 0 k) + -1 * rsum n (fun j => (M h k j - M 0 k j) * x h j)))). intros k Hk.
      apply lim_scal. apply lim_plus; [apply (der_increment (fun h => r h k) (r' k)); now apply Hr|]. apply lim_scal.
      apply (lim_rsum n (fun j h => (M h k j - M 0 k j) * x h j)). intros j Hj.
      apply (lim_zero_bounded (fun h => M h k j - M 0 k j) (fun h => x h j) (2 * (s 0 + 1))); [apply (der_increment (fun h => M h k j) (M' k j)); now apply HM|now apply BX]. }
  intros c Hc. apply der_quot.
  apply (lim_ext (fun h => rsum n (fun k => N c k * (quot (fun t => r t k) h + -1 * rsum n (fun j => quot (fun t => M t k j) h * x h j))))).
  - exists d. split; [exact Hd|]. intros h Hb Hh. unfold quot at 3. rewrite (increment n M N x r h HN H0 (HS h Hb) c Hc).
    unfold Rdiv. rewrite <- rsum_scal_r. apply rsum_ext. intros k Hk.
    rewrite (rsum_ext n (fun j => quot (fun t => M t k j) h * x h j) (fun j => (M h k j - M 0 k j) * x h j * / h)) by (intros; unfold quot, Rdiv; ring).
    rewrite rsum_scal_r. unfold quot, Rdiv. ring.
  - rewrite (rsum_ext n (fun k => N c k * (r' k - rsum n (fun j => M' k j * x 0 j))) (fun k => N c k * (r' k + -1 * rsum n (fun j => M' k j * x 0 j)))) by (intros; ring).
    apply (lim_rsum n (fun k h => N c k * (quot (fun t => r t k) h + -1 * rsum n (fun j => quot (fun t => M t k j) h * x h j)))). intros k Hk.
    apply lim_scal. apply lim_plus; [apply der_quot; now apply Hr|]. apply lim_scal.
    apply (lim_rsum n (fun j h => quot (fun t => M t k j) h * x h j)). intros j Hj. apply lim_mult; [apply der_quot; now apply HM|now apply CX].
Qed.

(** C29 without assuming that the solution is differentiable: the normal matrix is invertible. *)
Theorem C29_solve_backward_invertible : forall m n rp ci, csr_wf m n rp ci ->
  forall B i (alphas : option (nat -> R)) beta, (i < B)%nat -> nonnegative B alphas ->
  forall val dval b b' x g H N,
  has_derivative (length ci) val dval -> has_derivative m b b' ->
  let A := fun t => csr_entry rp ci (val t) in
  let M := fun t => normal m (A t) (alpha_of alphas i) beta in
  left_inverse n N (M 0) -> near0 (fun t => solves n (M t) (x t) (tmv m (A t) (b t))) -> solves n (M 0) H g ->
  exists A_grad b_grad, solve_backward rp ci (val 0) B i (b 0) (x 0) H alphas false = Some (A_grad, b_grad) /\
    derivable_pt_lim (fun t => dot n g (x t)) 0 (dot (length ci) A_grad dval + dot m b_grad b').
Proof.
  intros m n rp ci W B i alphas beta Hi Hal val dval b b' x g H N Hv Hb A M HN HS HH.
  pose proof (solution_differentiable n M _ x (fun t => tmv m (A t) (b t)) _ N
    (fun k j _ _ => normal_der m n rp ci W val dval (alpha_of alphas i) beta k j Hv)
    (fun k _ => tmv_der m n rp ci W val dval b b' k Hv Hb) HN HS) as Hx.
  exact (C29_solve_backward m n rp ci W B i alphas beta Hi Hal val dval b b' x _ g H Hv Hb Hx HS HH).
Qed.

(** A concrete case: A = (1+t, 2)^T, b = (1, 1), alpha = 1, beta = 1. *)
Lemma C29_example :
  let rp := [0; 1; 2]%nat in let ci := [0; 0]%nat in
  let val := fun (t : R) k => if Nat.eqb k 0 then 1 + t else 2 in
  let A := fun t => csr_entry rp ci (val t) in
  let M := fun t => normal 2 (A t) 1 1 in
  let b := fun (_ : R) (_ : nat) => 1 in
  let x := fun (t : R) (_ : nat) => (3 + t) / (2 * (1 + t) * (1 + t) + 9) in
  csr_wf 2 1 rp ci /\ nonnegative 1 (Some (fun _ => 1)) /\ has_derivative 2 val (fun k => if Nat.eqb k 0 then 1 else 0) /\ has_derivative 2 b (fun _ => 0) /\
  left_inverse 1 (fun _ _ => / 11) (M 0) /\ near0 (fun t => solves 1 (M t) (x t) (tmv 2 (A t) (b t))) /\ solves 1 (M 0) (fun _ => 1) (fun _ => 11).
Proof.
  intros rp ci val A M b x.
  assert (EM : forall t, M t 0%nat 0%nat = 2 * ((1 + t) * (1 + t)) + 9). { intros t. unfold M, normal, gram, A, csr_entry. cbn. ring. }
  split; [apply wf_by_compute; reflexivity|]. split; [intros j _; lra|].
  split; [|split; [|split; [|split]]].
  - intros k Hk. unfold val. destruct (Nat.eqb k 0); [|apply der_const].
    eapply der_eq; [apply (der_plus (fun _ => 1) (fun t => t)); [apply der_const|apply derivable_pt_lim_id]|lra].
  - intros k _. exact (der_const 1).
  - intros c c' Hc Hc'. replace c with 0%nat by lia. replace c' with 0%nat by lia. cbn [rsum Nat.eqb]. rewrite EM. field.
  - exists 1. split; [lra|]. intros t _ c Hc. replace c with 0%nat by lia. unfold mv. cbn [rsum]. rewrite EM. unfold tmv, A, csr_entry, val, b, x. cbn. field. nra.
  - intros c Hc. replace c with 0%nat by lia. unfold mv. cbn [rsum]. rewrite EM. ring.
Qed.

Theorem C29_solve_backward_detached_invertible : forall m n rp ci, csr_wf m n rp ci ->
  forall B i (alphas : option (nat -> R)) beta, (i < B)%nat ->
  match alphas with Some al => forall j, (j < B)%nat -> al j <= 0 | None => True end ->
  forall val dval b b' x g H N,
  has_derivative (length ci) val dval -> has_derivative m b b' ->
  let A := fun t => csr_entry rp ci (val t) in
  let M0 := normal m (A 0) (alpha_of alphas i) beta in
  left_inverse n N M0 -> near0 (fun t => solves n M0 (x t) (tmv m (A t) (b t))) -> solves n M0 H g ->
  exists A_grad b_grad, solve_backward rp ci (val 0) B i (b 0) (x 0) H alphas true = Some (A_grad, b_grad) /\
    derivable_pt_lim (fun t => dot n g (x t)) 0 (dot (length ci) A_grad dval + dot m b_grad b').
Proof.
  intros m n rp ci W B i alphas beta Hi Hal val dval b b' x g H N Hv Hb A M0 HN HS HH.
  pose proof (solution_differentiable n (fun _ => M0) (fun _ _ => 0) x (fun t => tmv m (A t) (b t)) _ N
    (fun k j _ _ => der_const (M0 k j)) (fun k _ => tmv_der m n rp ci W val dval b b' k Hv Hb) HN HS) as Hx.
  exact (C29_solve_backward_detached m n rp ci W B i alphas beta Hi Hal val dval b b' x _ g H Hv Hb Hx HS HH).
Qed.
