(** C76 for objectives: the BaSpaCho solver and the dense solver solve the same system. *)
From Coq Require Import List Arith Bool Reals Lia Lra Permutation.
From Verif Require Import RSum Csr_spec Csr_model Lin_model Lin_proofs Lin_proofs2 Lin_props Csr_props Damp_model Damp_props Bas_model Bas_spec Bas_blocks Bas_adds Bas_props Bas_main.
Import ListNotations.
Local Open Scope nat_scope.

Lemma starts_param o : forall s, starts_from s o = param_start s (map snd o).
Proof. induction o as [|[v d] o IH]; intros s; cbn [starts_from map param_start snd]; [reflexivity|]. now rewrite IH. Qed.
Lemma cols_sum o : num_cols o = list_sum (map snd o).
Proof.
  unfold num_cols. assert (G : forall o c, fold_left (fun c v => c + snd v) o c = c + list_sum (map (@snd nat nat) o)).
  { clear. induction o as [|[v d] o IH]; intros c; cbn [fold_left map snd]; [cbn; lia|]. rewrite IH, list_sum_cons. lia. }
  apply G.
Qed.
Lemma entry_ext rp ci m n f g : csr_wf m n rp ci -> (forall k, k < length ci -> f k = g k) -> forall r c, r < m -> csr_entry rp ci f r c = csr_entry rp ci g r c.
Proof.
  intros W H r c Hr. unfold csr_entry. cbv zeta. apply rsum_ext. intros k Hk. destruct (_ =? c); [|reflexivity]. apply H.
  assert (nth (S r) rp 0 <= nth m rp 0).
  { assert (G : forall a d, a + d <= m -> nth a rp 0 <= nth (a + d) rp 0).
    { intros a d. induction d as [|d IH]; intros Hd; [now rewrite Nat.add_0_r|]. rewrite IH by lia. rewrite Nat.add_succ_r. apply (wf_mono _ _ _ _ W). lia. }
    specialize (G (S r) (m - S r) ltac:(lia)). now replace (S r + (m - S r)) with m in G by lia. }
  rewrite (wf_last _ _ _ _ W) in H0. lia.
Qed.
Lemma system_ext m A A' damping b r c : (forall q d, q < m -> A q d = A' q d) -> system m A damping b r c = system m A' damping b r c.
Proof.
  intros H. assert (G : forall x y, gram m A x y = gram m A' x y) by (intros; unfold gram; apply rsum_ext; intros; now rewrite !H).
  unfold system. destruct damping as [((t & ell) & eps)|]; [|apply G]. unfold damped. now rewrite !G.
Qed.

(** An objective with B batch elements (the costs and their Jacobians per element: [cfs b]), the CSR structure built once, and the values of
    the sparse linearization of all elements, stored one after the other: the result of the solver solves the damped normal equations of the
    matrix and vector of the dense linearization, for every element; the blocks that the solver announces are those of the variables of the
    objective *)
Theorem C76_objective : forall o cfs B st vals bs val bvec L s damping bsolve x,
  let sizes := map snd o in let m := num_rows (cfs 0) in let nnz := length (st_col_ind st) in
  (forall b, b < B -> well_formed o (cfs b) /\ build_structure o (cfs b) = Some st /\ sparse_linearize (cfs b) st = Some (vals b, bs b)) ->
  (forall b k v, b < B -> k < nnz -> vals b k = Some v -> val (k + b * nnz) = v) ->
  (forall b q v, b < B -> q < m -> bs b q = Some v -> bvec (q + b * m) = v) ->
  layout_ok L sizes (block_struct (st_row_ptr st) (st_col_ind st) (var_start_cols o) (num_cols o)) -> solver_sound L (num_cols o) bsolve ->
  executes L sizes (st_row_ptr st) (st_col_ind st) m val bvec B s -> damping_fits B damping ->
  baspacho_solve L bsolve s (num_cols o) B damping = Some x ->
  forall b, b < B -> exists A e, dense_linearize o (cfs b) = Some (A, e) /\
    forall r, r < num_cols o -> rsum (num_cols o) (fun c => (system m A damping b r c * x (c + num_cols o * b)%nat)%R) = tmv m A e r.
Proof.
  intros o cfs B st vals bs val bvec L s damping bsolve x sizes m nnz Hc Hv Hbv OK So Ex Fit E b Hb.
  assert (En : num_cols o = list_sum sizes) by apply cols_sum. rewrite En in *. unfold var_start_cols in OK. rewrite starts_param in OK. fold sizes in OK.
  assert (Wf : forall b, b < B -> csr_wf (num_rows (cfs b)) (list_sum sizes) (st_row_ptr st) (st_col_ind st)).
  { intros b0 Hb0. destruct (Hc b0 Hb0) as (W1 & W2 & _). destruct (C26_csr_well_formed o (cfs b0) W1) as (st' & E' & W'). rewrite W2 in E'. injection E' as <-. now rewrite <- En. }
  assert (Em : forall b, b < B -> num_rows (cfs b) = m).
  { intros b0 Hb0. pose proof (wf_len _ _ _ _ (Wf b0 Hb0)). pose proof (wf_len _ _ _ _ (Wf 0 ltac:(lia))). unfold m. lia. }
  pose proof (Wf b Hb) as W. rewrite (Em b Hb) in W.
  destruct (Hc b Hb) as (W1 & W2 & W3). destruct (C26_sparse_equals_dense o (cfs b) W1) as (A & e & st' & v' & bs' & D1 & D2 & D3 & D4 & D5).
  rewrite W2 in D2. injection D2 as <-. rewrite W3 in D3. injection D3 as <- <-. exists A, e. split; [exact D1|]. intros r Hr.
  pose proof (C76_solves m _ _ L sizes val bvec B s damping bsolve x W OK So Ex Fit E b r Hb Hr) as S. cbv zeta in S.
  assert (EA : forall q d, q < m -> csr_entry (st_row_ptr st) (st_col_ind st) (fun k => val (k + b * length (st_col_ind st))) q d = A q d).
  { intros q d Hq. destruct (D5 q ltac:(rewrite Em; assumption)) as [_ D6]. rewrite <- D6. apply (entry_ext _ _ m (list_sum sizes)); [exact W| |exact Hq]. intros k Hk.
    specialize (D4 k Hk). specialize (Hv b k). destruct (vals b k) as [v|]; [|contradiction]. now apply Hv. }
  rewrite (rsum_ext (list_sum sizes) _ (fun c => (system m A damping b r c * x (c + list_sum sizes * b)%nat)%R)) in S.
  2: { intros c _. rewrite (system_ext m _ A damping b r c EA). reflexivity. }
  rewrite S. unfold tmv. apply rsum_ext. intros q Hq. rewrite (EA q r Hq). f_equal. destruct (D5 q ltac:(rewrite Em; assumption)) as [D6 _]. now apply (Hbv b q _ Hb Hq D6).
Qed.
