(** C76: the hypotheses on the library can be met, whatever the elimination order; a concrete sparse case; reset. *)
From Coq Require Import List Arith Bool Reals Lia Lra Permutation.
From Verif Require Import RSum Csr_spec Csr_model Lin_proofs Csr_props Damp_model Damp_props Chol Mg_inv Bas_model Bas_spec Bas_blocks Bas_adds Bas_props Bas_main.
From Verif Require Emb2_spec Mg_spec Mg_model.
Import ListNotations.
Local Open Scope nat_scope.

(** ** every elimination order has a storage *)
Definition dense_layout (sizes : list nat) (pos inv : nat -> nat) : layout :=
  let ls := map (fun u => nth (inv u) sizes 0) (seq 0 (length sizes)) in let n := list_sum sizes in
  mkLayout pos ls (fun u w => Some (n * start_of ls u + start_of ls w)) (fun _ _ => n) (n * n).
Theorem C76_storage_exists : forall sizes struct pos inv,
  (forall p, p < length sizes -> pos p < length sizes /\ inv (pos p) = p) ->
  (forall u, u < length sizes -> inv u < length sizes /\ pos (inv u) = u) ->
  exists L, (forall p, l_pos L p = pos p) /\ layout_ok L sizes struct.
Proof.
  intros sizes struct pos inv H1 H2. set (N := length sizes) in *. exists (dense_layout sizes pos inv). split; [reflexivity|].
  set (ls := map (fun u => nth (inv u) sizes 0) (seq 0 N)).
  assert (Ls : length ls = N) by (unfold ls; now rewrite map_length, seq_length).
  assert (Nl : forall u, u < N -> nth u ls 0 = nth (inv u) sizes 0).
  { intros u Hu. unfold ls. rewrite (nth_indep _ 0 ((fun u => nth (inv u) sizes 0) 0)) by now rewrite map_length, seq_length.
    rewrite (map_nth (fun u => nth (inv u) sizes 0)), seq_nth by exact Hu. reflexivity. }
  assert (Sum : list_sum ls = list_sum sizes).
  { unfold ls. rewrite <- (map_map inv (fun p => nth p sizes 0)). rewrite (perm_list_sum _ (map (fun p => nth p sizes 0) (seq 0 N))).
    - f_equal. apply nth_ext with (d := 0) (d' := 0); [now rewrite map_length, seq_length|]. intros i Hi. rewrite map_length, seq_length in Hi.
      rewrite (nth_indep _ 0 ((fun p => nth p sizes 0) 0)) by now rewrite map_length, seq_length. rewrite (map_nth (fun p => nth p sizes 0)), seq_nth by exact Hi. reflexivity.
    - apply Permutation_map. apply map_perm; [intros; now apply H2|]. intros u w Hu Hw E. rewrite <- (proj2 (H2 u Hu)), <- (proj2 (H2 w Hw)). now rewrite E. }
  assert (St : forall u i, u < N -> i < nth u ls 0 -> block_of ls (start_of ls u + i) = u /\ start_of ls u + i < list_sum sizes).
  { intros u i Hu Hi. rewrite <- Sum. apply block_start; [now rewrite Ls|exact Hi]. }
  assert (Un : forall n a c a' c', c < n -> c' < n -> n * a + c = n * a' + c' -> a = a' /\ c = c').
  { intros n a c a' c' Hc Hc' E. destruct (Nat.lt_trichotomy a a') as [Q|[Q|Q]]; [exfalso; nia|subst; lia|exfalso; nia]. }
  split; unfold dense_layout; cbn [l_pos l_sizes l_off l_stride l_dataSize]; fold N; fold ls.
  - intros p Hp. now apply H1.
  - intros p p' Hp Hp' E. rewrite <- (proj2 (H1 p Hp)), <- (proj2 (H1 p' Hp')). now rewrite E.
  - exact Ls.
  - intros p Hp. destruct (H1 p Hp) as [Q1 Q2]. rewrite Nl by exact Q1. now rewrite Q2.
  - discriminate.
  - discriminate.
  - intros u w i j o u' w' i' j' o' Hw Hu Hw' Hu' Hi Hj Hi' Hj' E E' Q. injection E as <-. injection E' as <-.
    destruct (St u i Hu Hi) as [B1 L1]. destruct (St w j ltac:(lia) Hj) as [B2 L2]. destruct (St u' i' Hu' Hi') as [B3 L3]. destruct (St w' j' ltac:(lia) Hj') as [B4 L4].
    destruct (Un (list_sum sizes) (start_of ls u + i) (start_of ls w + j) (start_of ls u' + i') (start_of ls w' + j') L2 L4 ltac:(nia)) as [Q1 Q2].
    assert (u = u') by (rewrite <- B1, <- B3, Q1; reflexivity). assert (w = w') by (rewrite <- B2, <- B4, Q2; reflexivity). subst. repeat split; lia.
  - intros u w i j o Hw Hu Hi Hj E. injection E as <-. destruct (St u i Hu Hi) as [_ L1]. destruct (St w j ltac:(lia) Hj) as [_ L2]. nia.
Qed.
(** ** a library that solves exactly the positive definite systems *)
Lemma sym_symmetric L data i j : sym L data i j = sym L data j i.
Proof. unfold sym. destruct (Nat.leb_spec j i), (Nat.leb_spec i j); try reflexivity; [replace j with i by lia; reflexivity|lia]. Qed.
Theorem C76_library_exists : forall L n, exists bsolve, solver_sound L n bsolve /\ solver_complete L n bsolve.
Proof.
  intros L n. exists (fun data x => match chol_alg n (sym L data) with Some _ => Some (fun i => rsum n (fun j => (spd_inv n (sym L data) i j * x j)%R)) | None => None end).
  split.
  - intros data x y E i Hi. destruct (chol_alg n (sym L data)) as [C|] eqn:Ec; [|discriminate]. injection E as <-.
    pose proof (spd_inv_right n (sym L data) (fun a b _ _ => sym_symmetric L data a b) (ex_intro _ C Ec)) as R.
    rewrite (rsum_ext n _ (fun j => rsum n (fun k => (sym L data i j * spd_inv n (sym L data) j k * x k)%R))).
    2: { intros j _. cbv beta. rewrite <- rsum_scal. apply rsum_ext. intros. ring. }
    rewrite rsum_exch. rewrite (rsum_ext n _ (fun k => if k =? i then x k else 0%R)).
    + rewrite rsum_delta. now rewrite (proj2 (Nat.ltb_lt i n) Hi).
    + intros k Hk. rewrite rsum_scal_r. specialize (R i k Hi Hk). unfold eye_, Mg_model.bmm in R. rewrite R. destruct (Nat.eqb_spec i k), (Nat.eqb_spec k i); try lia; ring.
  - intros data x Pd. destruct (cholesky_exists n (sym L data)) as (C & Ec).
    + intros i j _ _. apply sym_symmetric.
    + exact Pd.
    + rewrite Ec. discriminate.
Qed.
(** ** a concrete sparse case: two variables of sizes 2 and 1 that share no cost; the second is eliminated first and no block connects them.
    A = [[1, 2, 0], [0, 1, 0], [0, 0, 3]]; two batch elements, the second with A doubled *)
Definition ex_rp := [0; 2; 3; 4].
Definition ex_ci := [0; 1; 1; 2].
Definition ex_sizes := [2; 1].
Definition ex_struct := block_struct ex_rp ex_ci (param_start 0 ex_sizes) 3.
Definition ex_layout : layout := mkLayout (fun p => 1 - p) [1; 2]
  (fun u w => match u, w with 0, 0 => Some 0 | 1, 1 => Some 1 | _, _ => None end) (fun u _ => S u) 5.
Definition ex_val (k : nat) : R := nth k [1; 2; 1; 3; 2; 4; 2; 6]%R 0%R.
Definition ex_b (k : nat) : R := nth k [1; 0; 1; 1; 1; 1]%R 0%R.
Lemma ex_blocks : ex_struct = [[0]; [1]].
Proof. reflexivity. Qed.
Lemma ex_wf : csr_wf 3 3 ex_rp ex_ci.
Proof.
  split; try reflexivity.
  - intros r Hr. destruct r as [|[|[|r]]]; cbn; lia.
  - intros k Hk. cbn in Hk. destruct k as [|[|[|[|k]]]]; cbn; lia.
  - intros r k k' Hr. destruct r as [|[|[|r]]]; cbn; try lia; intros H1 H2 H3; destruct k as [|[|[|[|k]]]]; try lia; destruct k' as [|[|[|[|k']]]]; cbn; lia.
Qed.
Lemma ex_ok : layout_ok ex_layout ex_sizes ex_struct.
Proof.
  rewrite ex_blocks. split; cbn [ex_layout ex_sizes l_pos l_sizes l_off l_stride l_dataSize length].
  - intros. lia.
  - intros. lia.
  - reflexivity.
  - intros p Hp. destruct p as [|[|p]]; [reflexivity|reflexivity|lia].
  - intros u Hu. destruct u as [|[|u]]; [discriminate|discriminate|lia].
  - intros p p' Hp Hin _. destruct p as [|[|p]]; cbn in Hin; [| |lia]; (destruct Hin as [<-|[]]); cbn; discriminate.
  - intros u w i j o u' w' i' j' o' Hw Hu Hw' Hu' Hi Hj Hi' Hj' E E'.
    destruct u as [|[|u]]; [| |lia]; destruct w as [|[|w]]; try lia; try discriminate E; injection E as <-;
    (destruct u' as [|[|u']]; [| |lia]); destruct w' as [|[|w']]; try lia; try discriminate E'; injection E' as <-; cbn in *; lia.
  - intros u w i j o Hw Hu Hi Hj E. destruct u as [|[|u]]; [| |lia]; destruct w as [|[|w]]; try lia; try discriminate E; injection E as <-; cbn in *; lia.
Qed.
(** there is an execution, and the library of the last theorem gives (1, 0, 1/3) and (-1/2, 1/2, 1/6) *)
Example C76_case : exists s bsolve x,
  csr_wf 3 (list_sum ex_sizes) ex_rp ex_ci /\ layout_ok ex_layout ex_sizes (block_struct ex_rp ex_ci (param_start 0 ex_sizes) (list_sum ex_sizes)) /\
  solver_sound ex_layout 3 bsolve /\ solver_complete ex_layout 3 bsolve /\ executes ex_layout ex_sizes ex_rp ex_ci 3 ex_val ex_b 2 s /\
  baspacho_solve ex_layout bsolve s 3 2 None = Some x /\ x 0 = 1%R /\ x 1 = 0%R /\ x 2 = (1 / 3)%R /\ x 3 = (- (1 / 2))%R /\ x 4 = (1 / 2)%R /\ x 5 = (1 / 6)%R.
Proof.
  destruct (C76_library_exists ex_layout 3) as (bsolve & So & Co).
  destruct (C76_blocks_stored 3 ex_rp ex_ci ex_layout ex_sizes ex_val ex_b 2 ex_wf ex_ok) as (_ & _ & _ & s & Ex).
  destruct (baspacho_solve ex_layout bsolve s 3 2 None) as [x|] eqn:E.
  - exists s, bsolve, x. pose proof (C76_solves 3 ex_rp ex_ci ex_layout ex_sizes ex_val ex_b 2 s None bsolve x ex_wf ex_ok So Ex I E) as H. cbv zeta in H.
    pose proof (H 0 0 ltac:(lia) ltac:(cbn; lia)) as H00. pose proof (H 0 1 ltac:(lia) ltac:(cbn; lia)) as H01. pose proof (H 0 2 ltac:(lia) ltac:(cbn; lia)) as H02.
    pose proof (H 1 0 ltac:(lia) ltac:(cbn; lia)) as H10. pose proof (H 1 1 ltac:(lia) ltac:(cbn; lia)) as H11. pose proof (H 1 2 ltac:(lia) ltac:(cbn; lia)) as H12. clear H.
    unfold system, gram, tmv, csr_entry, ex_val, ex_b in H00, H01, H02, H10, H11, H12. cbn in H00, H01, H02, H10, H11, H12.
    split; [exact ex_wf|]. split; [exact ex_ok|]. split; [exact So|]. split; [exact Co|]. split; [exact Ex|]. split; [exact E|]. repeat split; lra.
  - exfalso. revert E. apply (C76_succeeds 3 ex_rp ex_ci ex_layout ex_sizes ex_val ex_b 2 s None bsolve ex_wf ex_ok Co ltac:(lia) Ex I).
    intros b Hb v (i & Hi & Hv). unfold system, gram, csr_entry, ex_val. destruct b as [|[|b]]; [| |lia]; cbn in *.
    + assert (Q : (v 0%nat + 2 * v 1%nat <> 0 \/ v 1%nat <> 0 \/ v 2%nat <> 0)%R). { destruct (Req_dec (v 1%nat) 0); [|auto]. destruct (Req_dec (v 2%nat) 0); [|auto]. destruct i as [|[|[|i]]]; [left|lra|lra|lia]. lra. }
      assert (0 < (v 0%nat + 2 * v 1%nat) * (v 0%nat + 2 * v 1%nat) + v 1%nat * v 1%nat + v 2%nat * v 2%nat)%R.
      { destruct Q as [Q|[Q|Q]]; pose proof (Rle_0_sqr (v 0%nat + 2 * v 1%nat)) as S1; pose proof (Rle_0_sqr (v 1%nat)) as S2; pose proof (Rle_0_sqr (v 2%nat)) as S3; unfold Rsqr in *; pose proof (Rsqr_pos_lt _ Q) as S4; unfold Rsqr in S4; lra. }
      pose proof (Rle_0_sqr (v 2%nat)) as S3; unfold Rsqr in S3. lra.
    + assert (Q : (v 0%nat + 2 * v 1%nat <> 0 \/ v 1%nat <> 0 \/ v 2%nat <> 0)%R). { destruct (Req_dec (v 1%nat) 0); [|auto]. destruct (Req_dec (v 2%nat) 0); [|auto]. destruct i as [|[|[|i]]]; [left|lra|lra|lia]. lra. }
      assert (0 < (v 0%nat + 2 * v 1%nat) * (v 0%nat + 2 * v 1%nat) + v 1%nat * v 1%nat + v 2%nat * v 2%nat)%R.
      { destruct Q as [Q|[Q|Q]]; pose proof (Rle_0_sqr (v 0%nat + 2 * v 1%nat)) as S1; pose proof (Rle_0_sqr (v 1%nat)) as S2; pose proof (Rle_0_sqr (v 2%nat)) as S3; unfold Rsqr in *; pose proof (Rsqr_pos_lt _ Q) as S4; unfold Rsqr in S4; lra. }
      pose proof (Rle_0_sqr (v 2%nat)) as S3; unfold Rsqr in S3. lra.
Qed.
(** ** reset *)
(** a history of resets: for each, what is available then and the device; the final state and whether the last one raised *)
Inductive resets : list ((dev -> bool) * dev) -> solver_state -> Prop :=
| resets_nil : resets [] initial
| resets_step h s works d s' : resets h s -> reset works d s = (s', false) -> resets (h ++ [(works, d)]) s'.
(** If no reset raised, the decomposition is for the device of the last one *)
Theorem C77_reset_partial : forall h s works d, resets (h ++ [(works, d)]) s -> v_symbolic s = Some d.
Proof.
  assert (Inv : forall h s, resets h s -> (h = [] /\ s = initial) \/ exists h' works d, h = h' ++ [(works, d)] /\ s = mkSolver (Some d) true (Some d)).
  { induction 1 as [|h s works d s' H IH E]; [now left|]. right. exists h, works, d. split; [reflexivity|]. unfold reset in E.
    destruct (negb _ || negb (v_reset s)) eqn:Q.
    - destruct (works d); [|discriminate]. injection E as <-. reflexivity.
    - injection E as <-. apply orb_false_iff in Q. destruct Q as [Q1 Q2]. destruct IH as [[_ ->]|(h' & w' & d' & _ & ->)]; [discriminate Q2|].
      cbn [v_device] in Q1. apply negb_false_iff in Q1. destruct d, d'; try discriminate Q1; reflexivity. }
  intros h s works d H. destruct (Inv _ _ H) as [[E _]|(h' & w' & d' & E & ->)].
  - destruct h; discriminate.
  - apply app_inj_tail in E. destruct E as [_ E]. injection E as _ ->. reflexivity.
Qed.
(** In general this fails: the new device is recorded before the reset can raise, and so a second reset does nothing and does not raise.
    After a failed reset to CUDA the solver still has its CPU decomposition (or none at all) but reports the new device *)
Theorem C77_reset_refuted : exists works s1 s2 s3,
  reset works Cpu initial = (s1, false) /\ reset works Cuda s1 = (s2, true) /\ reset works Cuda s2 = (s3, false) /\
  v_device s3 = Some Cuda /\ v_symbolic s3 = Some Cpu.
Proof. exists (fun d => dev_eqb d Cpu). do 3 eexists. repeat split. Qed.
