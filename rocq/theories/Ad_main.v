(** C71: the Jacobians of AutoDiffCostFunction are the derivatives of its error along the retraction. *)
From Coq Require Import List Arith Reals Lia Lra.
From Coquelicot Require Import Derive.
Import ListNotations.
From Verif Require Import RSum Adj_props Ad_model Ad_spec Ad_props.
Local Open Scope R_scope.

Lemma Forall2_len {A B} (P : A -> B -> Prop) la lb : Forall2 P la lb -> length la = length lb.
Proof. induction 1; cbn; auto. Qed.

(** ---- chain rule ---- *)
Lemma near_and' (P Q : R -> Prop) : near0 P -> near0 Q -> near0 (fun t => P t /\ Q t).
Proof.
  intros (d & Hd & H) (e & He & K). exists (Rmin d e). split; [now apply Rmin_pos|]. intros t Ht.
  split; [apply H|apply K]; eapply Rlt_le_trans; try exact Ht; [apply Rmin_l|apply Rmin_r].
Qed.
Lemma near_all n (P : nat -> R -> Prop) : (forall j, (j < n)%nat -> near0 (P j)) -> near0 (fun t => forall j, (j < n)%nat -> P j t).
Proof.
  induction n as [|n IH]; intro H; [exists 1; split; [lra|intros; lia]|].
  destruct (near_and' _ _ (IH (fun j Hj => H j (Nat.lt_lt_succ_r _ _ Hj))) (H n (Nat.lt_succ_diag_r n))) as (d & Hd & K).
  exists d. split; [exact Hd|]. intros t Ht j Hj. destruct (K t Ht) as [K1 K2]. destruct (Nat.eq_dec j n) as [->|Hne]; [exact K2|apply K1; lia].
Qed.
Lemma der_linear_bound f l : derivable_pt_lim f 0 l -> near0 (fun t => Rabs (f t - f 0) <= (Rabs l + 1) * Rabs t).
Proof.
  intro H. destruct (H 1 Rlt_0_1) as [d Hd]. exists d. split; [apply cond_pos|]. intros t Ht.
  destruct (Req_dec t 0) as [->|Hz]; [rewrite Rminus_diag_eq, Rabs_R0 by reflexivity; lra|].
  specialize (Hd t Hz Ht). rewrite Rplus_0_l in Hd.
  replace (f t - f 0) with (((f t - f 0) / t - l + l) * t) by (field; exact Hz). rewrite Rabs_mult.
  apply Rmult_le_compat_r; [apply Rabs_pos|]. eapply Rle_trans; [apply Rabs_triang|]. lra.
Qed.
Lemma der_small phi : phi 0 = 0 -> (forall e, 0 < e -> near0 (fun t => Rabs (phi t) <= e * Rabs t)) -> derivable_pt_lim phi 0 0.
Proof.
  intros H0 H e He. destruct (H (e / 2)) as (d & Hd & K); [lra|]. exists (mkposreal d Hd). intros t Hz Ht. cbn in Ht.
  rewrite Rplus_0_l, H0, !Rminus_0_r. unfold Rdiv. rewrite Rabs_mult, Rabs_inv.
  assert (0 < Rabs t) by now apply Rabs_pos_lt. specialize (K t Ht).
  apply Rle_lt_trans with (e / 2); [|lra]. apply Rmult_le_reg_r with (Rabs t); [assumption|]. rewrite Rmult_assoc, Rinv_l by lra. lra.
Qed.

Lemma chain (E : list row -> list row -> row) os aus k i (D : nat -> R) (c : R -> row) (vel : nat -> R) :
  let x := nth k os [] in
  (k < length os)%nat ->
  (forall eps, 0 < eps -> exists d, 0 < d /\ forall r, length r = length x -> (forall j, Rabs (nth j r 0 - nth j x 0) < d) ->
    Rabs (nth i (E (modify k (fun _ => r) os) aus) 0 - nth i (E os aus) 0 - rsum (length x) (fun j => D j * (nth j r 0 - nth j x 0)))
    <= eps * rsum (length x) (fun j => Rabs (nth j r 0 - nth j x 0))) ->
  c 0 = x -> (forall t, length (c t) = length x) -> (forall j, (j < length x)%nat -> derivable_pt_lim (fun t => nth j (c t) 0) 0 (vel j)) ->
  derivable_pt_lim (fun t => nth i (E (modify k (fun _ => c t) os) aus) 0) 0 (rsum (length x) (fun j => D j * vel j)).
Proof.
  intros x Hk HD H0 Hl Hv. set (n := length x). set (f := fun t => nth i (E (modify k (fun _ => c t) os) aus) 0).
  assert (Hmod : modify k (fun _ => x) os = os).
  { clear - Hk. revert k Hk x. induction os as [|y l IH]; intros [|k] Hk; cbn in *; try lia; [reflexivity|]. f_equal. apply IH. lia. }
  assert (F0 : f 0 = nth i (E os aus) 0) by (unfold f; rewrite H0, Hmod; reflexivity).
  set (L := fun t => rsum n (fun j => D j * (nth j (c t) 0 - nth j x 0))).
  assert (DL : derivable_pt_lim L 0 (rsum n (fun j => D j * vel j))).
  { apply der_rsum. intros j Hj. apply der_eq with (D j * (vel j - 0)); [|ring].
    apply derivable_pt_lim_scal with (f := fun t => nth j (c t) 0 - nth j x 0). apply derivable_pt_lim_minus; [now apply Hv|apply derivable_pt_lim_const]. }
  assert (Dphi : derivable_pt_lim (fun t => f t - f 0 - L t) 0 0).
  { apply der_small.
    - unfold L. rewrite H0, rsum_0; [ring|]. intros. ring.
    - intros e He. set (C := rsum n (fun j => Rabs (vel j) + 1)). assert (HC : 0 <= C) by (apply rsum_nonneg; intros; pose proof (Rabs_pos (vel i0)); lra).
      destruct (HD (e / (C + 1))) as (d & Hd & K); [apply Rdiv_lt_0_compat; lra|].
      assert (N1 : near0 (fun t => forall j, (j < n)%nat -> Rabs (nth j (c t) 0 - nth j x 0) <= (Rabs (vel j) + 1) * Rabs t)).
      { apply near_all. intros j Hj. destruct (der_linear_bound _ _ (Hv j Hj)) as (d1 & Hd1 & K1). exists d1. split; [exact Hd1|]. intros t Ht. specialize (K1 t Ht). cbv beta in K1. rewrite H0 in K1. exact K1. }
      assert (N2 : near0 (fun t => (C + 1) * Rabs t < d)).
      { exists (d / (C + 1)). split; [apply Rdiv_lt_0_compat; lra|]. intros t Ht. apply Rmult_lt_reg_r with (/ (C + 1)); [apply Rinv_0_lt_compat; lra|].
        replace ((C + 1) * Rabs t * / (C + 1)) with (Rabs t) by (field; lra). exact Ht. }
      destruct (near_and' _ _ N1 N2) as (d2 & Hd2 & K2). exists d2. split; [exact Hd2|]. intros t Ht. destruct (K2 t Ht) as [K3 K4].
      assert (S1 : rsum n (fun j => Rabs (nth j (c t) 0 - nth j x 0)) <= C * Rabs t).
      { unfold C. rewrite <- rsum_scal_r. apply rsum_le. exact K3. }
      rewrite F0. eapply Rle_trans; [apply K; [apply Hl|]|].
      + intro j. destruct (Nat.lt_ge_cases j n) as [Hj|Hj].
        * eapply Rle_lt_trans; [apply (K3 j Hj)|]. eapply Rle_lt_trans; [|exact K4]. apply Rmult_le_compat_r; [apply Rabs_pos|].
          apply Rplus_le_compat_r. unfold C. clear - Hj. induction n as [|m IH]; [lia|]. cbn. destruct (Nat.eq_dec j m) as [->|Hne].
          -- assert (0 <= rsum m (fun j => Rabs (vel j) + 1)) by (apply rsum_nonneg; intros; pose proof (Rabs_pos (vel i)); lra). lra.
          -- assert (Rabs (vel j) <= rsum m (fun j => Rabs (vel j) + 1)) by (apply IH; lia). pose proof (Rabs_pos (vel m)). lra.
        * rewrite !nth_overflow by (try rewrite Hl; exact Hj). rewrite Rminus_diag_eq, Rabs_R0 by reflexivity. exact Hd.
      + fold n. eapply Rle_trans; [apply Rmult_le_compat_l; [apply Rlt_le, Rdiv_lt_0_compat; lra|exact S1]|].
        rewrite <- Rmult_assoc. apply Rmult_le_compat_r; [apply Rabs_pos|]. apply Rmult_le_reg_r with (C + 1); [lra|].
        replace (e / (C + 1) * C * (C + 1)) with (e * C) by (field; lra). nra. }
  apply der_ext_loc with (fun t => f t - f 0 - L t + L t + f 0); [exists 1; split; [lra|intros; unfold f; ring]|].
  apply der_eq with (0 + rsum n (fun j => D j * vel j) + 0); [|ring].
  repeat apply derivable_pt_lim_plus; [exact Dphi|exact DL|apply derivable_pt_lim_const].
Qed.

Lemma modify_const {A} k (f : A -> A) l d : (k < length l)%nat -> modify k f l = modify k (fun _ => f (nth k l d)) l.
Proof. intro H. now apply (modify_ext_nth _ _ _ _ d). Qed.

(** the Euclidean gradient that autograd returns, paired with the velocities of a retraction, is the derivative along it *)
Lemma partial_chain (E : list row -> list row -> row) dim os aus k i (c : R -> row) (vel : nat -> R) :
  (k < length os)%nat -> (i < dim)%nat -> differentiable E dim os aus ->
  c 0 = nth k os [] -> (forall t, length (c t) = length (nth k os [])) ->
  (forall j, (j < length (nth k os []))%nat -> derivable_pt_lim (fun t => nth j (c t) 0) 0 (vel j)) ->
  derivable_pt_lim (fun t => nth i (E (modify k (fun _ => c t) os) aus) 0) 0
    (rsum (length (nth k os [])) (fun j => partial E os aus k i j * vel j)).
Proof.
  intros Hk Hi HE H0 Hl Hv. destruct (HE k i Hk Hi) as (D & HD). cbv zeta in HD.
  apply der_eq with (rsum (length (nth k os [])) (fun j => D j * vel j)); [now apply chain|].
  apply rsum_ext. intros j Hj. f_equal. unfold partial. symmetry. apply is_derive_unique, is_derive_Reals.
  eapply der_ext_loc with (fun t => nth i (E (modify k (fun _ => modify j (Rplus t) (nth k os [])) os) aus) 0).
  { exists 1. split; [lra|]. intros t _. f_equal. f_equal. symmetry. apply (modify_const k (modify j (Rplus t)) os []). exact Hk. }
  apply der_eq with (rsum (length (nth k os [])) (fun j' => D j' * (if (j' =? j)%nat then 1 else 0))).
  - apply chain; trivial.
    + clear - Hj. revert j Hj. generalize (nth k os []). intro l. induction l as [|y l IH]; intros [|j] Hj; cbn in *; try lia; [now rewrite Rplus_0_l|]. f_equal. apply IH. lia.
    + intro t. apply length_modify.
    + intros j' Hj'. eapply der_ext_loc with (fun t => if (j' =? j)%nat then t + nth j' (nth k os []) 0 else nth j' (nth k os []) 0).
      { exists 1. split; [lra|]. intros t _. rewrite nth_modify by exact Hj. reflexivity. }
      destruct (j' =? j)%nat; [|apply derivable_pt_lim_const]. apply der_eq with (1 + 0); [|ring].
      apply derivable_pt_lim_plus; [apply derivable_pt_lim_id|apply derivable_pt_lim_const].
  - rewrite (rsum_ext _ _ (fun j' => if (j' =? j)%nat then D j' else 0)); [|intros; destruct (i0 =? j)%nat; ring].
    rewrite rsum_delta. destruct (Nat.ltb_spec j (length (nth k os []))); [reflexivity|lia].
Qed.

(** ---- from Euclidean Jacobians to the tangent space ---- *)
Lemma map_combine_seq {A B C} (f : A * B -> C) (la : list A) (lb : list B) da db n : length la = n -> length lb = n ->
  map f (combine la lb) = map (fun b => f (nth b la da, nth b lb db)) (seq 0 n).
Proof.
  intros <- Hl. revert lb Hl. induction la as [|a la IH]; intros [|b lb] Hl; cbn in *; try lia; trivial. f_equal.
  rewrite IH by lia. rewrite <- seq_shift, map_map. reflexivity.
Qed.
Lemma project_rows v n dim (f : nat -> nat -> row) : (1 <= n)%nat -> length (v_rows v) = n \/ length (v_rows v) = 1%nat ->
  project v (map (fun b => map (fun i => f b i) (seq 0 dim)) (seq 0 n)) =
  Some (map (fun b => map (fun i => match v_project v with None => f b i | Some p => p (brow b (v_rows v)) (f b i) end) (seq 0 dim)) (seq 0 n)).
Proof.
  intros Hn L. unfold project. destruct (v_project v) as [p|]; [|reflexivity]. rewrite map_length, seq_length.
  destruct (Nat.eqb_spec (length (v_rows v)) n) as [E1|E1].
  - f_equal. rewrite (map_combine_seq _ _ _ [] [] n) by (trivial; now rewrite map_length, seq_length). apply map_ext_in. intros b Hb. apply in_seq in Hb.
    cbn [fst snd]. rewrite nth_map_seq by lia. rewrite map_map. apply map_ext. intro i. f_equal. unfold brow. rewrite E1.
    destruct (Nat.eqb_spec n 1); [f_equal; lia|reflexivity].
  - destruct L as [E2|E2]; [congruence|]. rewrite E2. cbn [Nat.eqb]. f_equal. rewrite map_map. apply map_ext. intro b. rewrite map_map. apply map_ext. intro i.
    unfold brow. now rewrite E2.
Qed.

Section Main.
Variables (err_fn : list tensor -> list tensor -> option tensor) (E : list row -> list row -> row) (dim : nat) (ms : list manifold) (wa : list nat).
Variables (optim aux : list var) (n : nat).
Let os := map v_rows optim.
Let aus := map v_rows aux.
(** the error function acts row by row, the tensors broadcast to a batch of n >= 1 rows *)
Hypothesis RW : rowwise err_fn E (map m_width ms) wa dim.
Hypothesis Wo : wide (map m_width ms) os.
Hypothesis Wa : wide wa aus.
Hypothesis B : broadcast (os ++ aus) n.
Hypothesis Hn : (1 <= n)%nat.
Hypothesis Ho : optim <> [].
(** the error is differentiable at every row of the batch, and project() is the chain rule of each variable's retraction *)
Hypothesis DE : forall b, (b < n)%nat -> differentiable E dim (map (brow b) os) (map (brow b) aus).
Hypothesis PR : forall k m v b, nth_error ms k = Some m -> nth_error optim k = Some v -> (b < n)%nat -> projects m v (brow b (v_rows v)).

Lemma len_ms : length ms = length optim.
Proof. pose proof (Forall2_len _ _ _ Wo) as H. unfold os in H. now rewrite !map_length in H. Qed.
Lemma raw_exact : exists js,
  sequence (map (fun vj => project (fst vj) (snd vj)) (combine optim (raw E (map m_width ms) dim os aus n))) = Some js /\
  exact_jacobians E dim ms os aus n js.
Proof.
  set (dv := mkVar [] None).
  set (out := fun k b i => match v_project (nth k optim dv) with
     | None => map (fun j => partial E (map (brow b) os) (map (brow b) aus) k i j) (seq 0 (nth k (map m_width ms) 0%nat))
     | Some p => p (brow b (v_rows (nth k optim dv))) (map (fun j => partial E (map (brow b) os) (map (brow b) aus) k i j) (seq 0 (nth k (map m_width ms) 0%nat))) end).
  exists (map (fun k => map (fun b => map (out k b) (seq 0 dim)) (seq 0 n)) (seq 0 (length optim))). split.
  - assert (Lr : length (raw E (map m_width ms) dim os aus n) = length optim) by (unfold raw, os; now rewrite !map_length, seq_length).
    rewrite (map_combine_seq _ _ _ dv [] (length optim)) by trivial. apply sequence_map. intros k Hk. apply in_seq in Hk. cbn [fst snd].
    unfold raw. replace (length os) with (length optim) by (unfold os; now rewrite map_length). rewrite nth_map_seq by lia.
    rewrite project_rows; [reflexivity|exact Hn|]. apply B, in_or_app. left. unfold os. apply in_map, nth_In. lia.
  - split; [unfold os; now rewrite !map_length, seq_length|]. intros k m Hm.
    assert (Hk : (k < length optim)%nat) by (rewrite <- len_ms; apply nth_error_Some; congruence).
    rewrite nth_map_seq by exact Hk. rewrite map_length, seq_length. split; [reflexivity|]. intros b Hb. rewrite nth_map_seq by exact Hb.
    rewrite map_length, seq_length. split; [reflexivity|]. intros i Hi. rewrite nth_map_seq by exact Hi.
    assert (Hv : nth_error optim k = Some (nth k optim dv)) by (now apply nth_error_nth').
    destruct (PR k m _ b Hm Hv Hb) as (vel & P). unfold out.
    assert (Hw : nth k (map m_width ms) 0%nat = m_width m). { rewrite (nth_indep _ 0%nat (m_width m)) by (rewrite map_length, len_ms; exact Hk). rewrite map_nth. f_equal. now apply nth_error_nth. }
    rewrite Hw. set (g := map (fun j => partial E (map (brow b) os) (map (brow b) aus) k i j) (seq 0 (m_width m))) in *.
    assert (Lg : length g = m_width m) by (unfold g; now rewrite map_length, seq_length).
    assert (Hnth : nth k (map (brow b) os) [] = brow b (v_rows (nth k optim dv))).
    { unfold os. rewrite map_map. rewrite (nth_indep _ [] (brow b (v_rows dv))) by (rewrite map_length; exact Hk). rewrite (map_nth (fun x => brow b (v_rows x))). reflexivity. }
    assert (Lx : length (brow b (v_rows (nth k optim dv))) = m_width m).
    { rewrite <- Hnth, <- Hw. apply (Forall2_nth (fun w r => length r = w)); [|unfold os; now rewrite !map_length]. apply (wide_rows _ _ n); trivial. intros t Ht. apply B, in_or_app. now left. }
    destruct P as [P0 P]. cbv zeta in P0, P. split; [exact (P0 g Lg)|].
    { intros l Hl. destruct (P l Hl) as (P1 & P2 & P3 & P4). rewrite (P4 g Lg).
      rewrite (rsum_ext _ _ (fun j => partial E (map (brow b) os) (map (brow b) aus) k i j * vel l j)) by (intros j Hj; unfold g; now rewrite nth_map_seq by exact Hj).
      rewrite <- Lx, <- Hnth. eapply der_ext_loc with (fun t => nth i (E (modify k (fun _ => m_retract m (nth k (map (brow b) os) []) l t) (map (brow b) os)) (map (brow b) aus)) 0).
      { exists 1. split; [lra|]. intros t _. f_equal. f_equal. symmetry. apply (modify_const k (fun x => m_retract m x l t)). unfold os. now rewrite !map_length. }
      apply (partial_chain E dim); trivial.
      * unfold os. now rewrite !map_length.
      * now apply DE.
      * now rewrite Hnth.
      * intro t. rewrite Hnth, Lx. apply P2.
      * intros j Hj. rewrite Hnth in *. rewrite Lx in Hj. now apply P3. }
Qed.

Lemma error_rows : compute_error err_fn dim os aus = Some (map (fun b => E (map (brow b) os) (map (brow b) aus)) (seq 0 n)).
Proof.
  unfold compute_error. rewrite (proj1 RW _ _ n Wo Wa B).
  replace (forallb _ _) with true; [reflexivity|]. symmetry. apply forallb_forall. intros r Hr. apply in_map_iff in Hr. destruct Hr as (b & <- & Hb).
  apply in_seq in Hb. apply Nat.eqb_eq. apply (E_length err_fn E _ _ dim RW os aus n); trivial; lia.
Qed.
Lemma os_ne : os <> [].
Proof. unfold os. intro H. apply map_eq_nil in H. contradiction. Qed.

(** ---- C71 ---- *)

(** VMAP, the default: whatever mixture of batch sizes 1 and n the variables have *)
Theorem C71_vmap : exists js, jacobians err_fn dim VMAP optim aux = Some (js, map (fun b => E (map (brow b) os) (map (brow b) aus)) (seq 0 n)) /\
  exact_jacobians E dim ms os aus n js.
Proof.
  destruct raw_exact as (js & Hjs & X). exists js. split; [|exact X]. unfold jacobians. fold os aus. rewrite error_rows.
  rewrite (vmap_raw err_fn E _ _ dim RW os aus n os_ne Hn Wo Wa B). now rewrite Hjs.
Qed.
(** DENSE: when every optimization variable has n rows (auxiliary variables may have one) *)
Theorem C71_dense : (1 <= dim)%nat -> (forall t, In t os -> length t = n) ->
  jacobians err_fn dim DENSE optim aux = jacobians err_fn dim VMAP optim aux.
Proof.
  intros Hd L. unfold jacobians. fold os aus. rewrite error_rows.
  rewrite (vmap_raw err_fn E _ _ dim RW os aus n os_ne Hn Wo Wa B).
  rewrite (dense_raw err_fn E _ _ dim RW os aus n _ os_ne Hn Hd Wo Wa B); trivial. now rewrite map_length, seq_length.
Qed.
(** ... and otherwise it raises *)
Theorem C71_dense_raises : (1 <= dim)%nat -> (exists t, In t os /\ length t <> n) -> jacobians err_fn dim DENSE optim aux = None.
Proof.
  intros Hd (t & Ht & Hl). unfold jacobians. fold os aus. rewrite error_rows.
  assert (L1 : length t = 1%nat) by (destruct (proj2 B t (in_or_app _ _ _ (or_introl Ht))); [contradiction|assumption]).
  rewrite (dense_raises err_fn E _ _ dim RW os aus n _ t); trivial; [lia|now rewrite map_length, seq_length].
Qed.
(** LOOP_BATCH: when all variables have n rows *)
Theorem C71_loop : (1 <= dim)%nat -> (forall t, In t (os ++ aus) -> length t = n) ->
  jacobians err_fn dim LOOP_BATCH optim aux = jacobians err_fn dim VMAP optim aux.
Proof.
  intros Hd L. unfold jacobians. fold os aus. rewrite error_rows.
  rewrite (vmap_raw err_fn E _ _ dim RW os aus n os_ne Hn Wo Wa B).
  now rewrite (loop_raw err_fn E _ _ dim RW os aus n os_ne Hn Hd Wo Wa L).
Qed.
(** ... and it raises when the first optimization variable has n rows and any other variable has not *)
Theorem C71_loop_raises : length (nth 0 os []) = n -> (exists t, In t (os ++ aus) /\ length t <> n) -> jacobians err_fn dim LOOP_BATCH optim aux = None.
Proof.
  intros L0 (t & Ht & Hl). unfold jacobians. fold os aus. rewrite error_rows.
  assert (L1 : length t = 1%nat) by (destruct (proj2 B t Ht); [contradiction|assumption]).
  rewrite (loop_raises err_fn E _ _ dim RW os aus n t); trivial; [lia|exact (proj2 B)].
Qed.
End Main.
