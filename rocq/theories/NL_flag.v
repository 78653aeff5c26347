(** C16: what it takes to be flagged as converged, in plain arithmetic. *)
From Coq Require Import List Arith Bool ZArith QArith Qabs Qfield Lia Lqa.
Import ListNotations.
From Verif Require Import NL_model NL_proofs.
Local Open Scope Q_scope.

(** sum of the first [n] values *)
Fixpoint total (n : nat) (q : nat -> Q) : Q := match n with O => 0 | S k => total k q + q k end.

Lemma Qltb_lt a b : Qltb a b = true <-> a < b.
Proof.
  unfold Qltb. rewrite negb_true_iff. split; intros H.
  - apply Qnot_le_lt. intros L. apply Qle_bool_iff in L. congruence.
  - destruct (Qle_bool b a) eqn:E; [|reflexivity]. apply Qle_bool_iff in E. lra.
Qed.
Lemma elt_fin a b : elt (Fin a) (Fin b) = true <-> a < b.
Proof. apply Qltb_lt. Qed.
Lemma fold_fin l (g : nat -> ext) (q : nat -> Q) : (forall k, In k l -> g k = Fin (q k)) ->
  exists s, fold_right eplus (Fin 0) (map (fun i => eabs (g i)) l) = Fin s /\ s == fold_right Qplus 0 (map (fun i => Qabs (q i)) l).
Proof.
  induction l as [|a l IH]; intros H; cbn; [exists 0; split; reflexivity|].
  destruct IH as (s & E & S); [intros k Hk; apply H; right; exact Hk|].
  rewrite E, (H a (or_introl eq_refl)). cbn. eexists. split; [reflexivity|]. rewrite S. reflexivity.
Qed.
Lemma total_fold q : forall n m, fold_right Qplus 0 (map q (seq m n)) == total n (fun k => q (m + k)%nat).
Proof.
  induction n as [|n IH]; intros m; cbn [total]; [reflexivity|].
  rewrite seq_S, map_app. cbn [map]. rewrite fold_right_app. cbn [fold_right].
  rewrite <- IH. clear IH. generalize (q (m + n)%nat). intros a. induction (map q (seq m n)) as [|b l IH]; cbn; [ring|]. rewrite IH. ring.
Qed.
Lemma mean_small n (g : nat -> ext) q tol : (0 < n)%nat -> (forall k, (k < n)%nat -> g k = Fin (q k)) ->
  (elt (emean n g) (Fin tol) = true <-> total n (fun k => Qabs (q k)) < tol * inject_Z (Z.of_nat n)).
Proof.
  intros Hn H. unfold emean.
  destruct (fold_fin (seq 0 n) g q) as (s & E & S); [intros k Hk; apply H; apply in_seq in Hk; lia|].
  rewrite E. destruct n as [|m]; [lia|]. cbn [Nat.eqb]. rewrite elt_fin.
  rewrite total_fold in S. cbn [Nat.add] in S. rewrite <- S.
  assert (P : 0 < inject_Z (Z.of_nat (Datatypes.S m))) by (apply (inject_Z_injective 0) || (unfold Qlt; cbn; lia)).
  split; intros L.
  - apply Qmult_lt_r with (z := inject_Z (Z.of_nat (Datatypes.S m))) in L; [|exact P]. 
    assert (Q0 : ~ inject_Z (Z.of_nat (Datatypes.S m)) == 0) by lra.
    unfold Qdiv in L. rewrite <- Qmult_assoc, (Qmult_comm (/ _)), Qmult_inv_r, Qmult_1_r in L by exact Q0. exact L.
  - apply Qlt_shift_div_r; [exact P|exact L].
Qed.
Lemma rel_small d p tol : 0 <= d -> (elt (eabsdiv (Fin d) (Fin p)) (Fin tol) = true <-> d < tol * Qabs p).
Proof.
  intros Hd. unfold eabsdiv. destruct (Qeq_bool p 0) eqn:Ep.
  - apply Qeq_bool_iff in Ep. assert (A : tol * Qabs p == 0) by (rewrite Ep; cbn; ring).
    assert (B : ~ d < tol * Qabs p) by (rewrite A; lra).
    destruct (Qeq_bool d 0); split; intros H; try discriminate H; contradiction.
  - apply Qeq_bool_neq in Ep. rewrite elt_fin.
    assert (P : 0 < Qabs p). { destruct (Qlt_le_dec 0 (Qabs p)) as [L|L]; [exact L|]. exfalso. apply Ep.
      pose proof (Qle_Qabs p). pose proof (Qle_Qabs (- p)) as M. rewrite Qabs_opp in M. lra. }
    assert (Q1 : Qabs (d / p) == d / Qabs p).
    { unfold Qdiv. rewrite Qabs_Qmult, (Qabs_pos d Hd). rewrite Qabs_Qinv. reflexivity. }
    rewrite Q1. split; intros L.
    + apply Qmult_lt_r with (z := Qabs p) in L; [|exact P].
      assert (Q0 : ~ Qabs p == 0) by lra. unfold Qdiv in L. rewrite <- Qmult_assoc, (Qmult_comm (/ _)), Qmult_inv_r, Qmult_1_r in L by exact Q0. exact L.
    + apply Qlt_shift_div_r; [exact P|exact L].
Qed.

(** With finite errors, an element is flagged at column [c] of the history exactly if the errors of the whole batch are
    below the absolute tolerance on average, or its own error changed from column [c - 1] to [c] by less than the absolute
    tolerance, or by less than the relative tolerance times the error before. *)
Theorem C16_flag_meaning : forall {X} n abs_tol rel_tol (f : @info X) c i (e p : nat -> Q), (i < n)%nat ->
  (forall k, (k < n)%nat -> i_err_hist f c k = Fin (e k)) -> i_err_hist f (c - 1) i = Fin (p i) ->
  (flagged n abs_tol rel_tol f c i = true <->
   total n (fun k => Qabs (e k)) < abs_tol * inject_Z (Z.of_nat n) \/
   Qabs (p i - e i) < abs_tol \/ Qabs (p i - e i) < rel_tol * Qabs (p i)).
Proof.
  intros X n abs_tol rel_tol f c i e p Hi He Hp. unfold flagged, check_convergence.
  pose proof (mean_small n (i_err_hist f c) e abs_tol ltac:(lia) He) as M.
  destruct (elt (emean n (i_err_hist f c)) (Fin abs_tol)).
  - split; [intros _; left; apply M; reflexivity|reflexivity].
  - rewrite Hp, (He i Hi). cbn [eabsdiff]. rewrite orb_true_iff, elt_fin, rel_small by apply Qabs_nonneg.
    split; [intros H; right; exact H|]. intros [H|H]; [apply M in H; discriminate H|exact H].
Qed.
(** an element whose error is nan or infinite is never flagged *)
Lemma fold_bad l (g : nat -> ext) i : In i l -> g i = NaN \/ g i = PInf ->
  let r := fold_right eplus (Fin 0) (map (fun k => eabs (g k)) l) in r = NaN \/ r = PInf.
Proof.
  induction l as [|a l IH]; intros Hi Hg; [destruct Hi|]. cbn. destruct Hi as [->|Hi].
  - destruct Hg as [-> | ->]; cbn; [left; reflexivity|]. destruct (fold_right _ _ _); auto.
  - specialize (IH Hi Hg). destruct IH as [-> | ->]; destruct (g a); cbn; auto.
Qed.
Theorem C16_flag_not_finite : forall {X} n abs_tol rel_tol (f : @info X) c i, (i < n)%nat ->
  i_err_hist f c i = NaN \/ i_err_hist f c i = PInf -> flagged n abs_tol rel_tol f c i = false.
Proof.
  intros X n abs_tol rel_tol f c i Hi H. unfold flagged, check_convergence, emean.
  destruct (fold_bad (seq 0 n) (i_err_hist f c) i) as [-> | ->]; [apply in_seq; lia|exact H| |]; cbn [elt];
  destruct H as [-> | ->]; destruct (i_err_hist f (c - 1) i); reflexivity.
Qed.
(** 100 -> 60 -> 59.9: with tolerances 1e-3 and 1e-2 the second step is flagged by the relative test only *)
Example C16_flag_example : total 1 (fun _ => Qabs (599 # 10)) < (1 # 1000) * inject_Z (Z.of_nat 1) -> False.
Proof. vm_compute. discriminate. Qed.
Example C16_flag_example2 : (1 # 10) < (1 # 100) * Qabs 60 /\ ~ (1 # 10) < (1 # 1000).
Proof. split; [reflexivity|]. vm_compute. discriminate. Qed.
