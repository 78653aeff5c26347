From Coq Require Import Reals List Arith Bool Lra Lia Permutation Sorted.
From Verif Require Import RSum Adj_props Adj_diff Lml_model Lml_spec.
Import ListNotations.
Local Open Scope R_scope.

(** ** sigmoid *)
Lemma sig_den a : 0 < 1 + exp (- a). Proof. pose proof (exp_pos (- a)). lra. Qed.
Lemma sig_01 a : 0 < sigmoid a < 1.
Proof.
  pose proof (sig_den a). pose proof (exp_pos (- a)). unfold sigmoid. split; [now apply Rinv_0_lt_compat|].
  rewrite <- Rinv_1. apply Rinv_lt_contravar; lra.
Qed.
Lemma sig_incr a b : a < b -> sigmoid a < sigmoid b.
Proof.
  intros H. unfold sigmoid. pose proof (sig_den a). pose proof (sig_den b). apply Rinv_lt_contravar.
  - now apply Rmult_lt_0_compat.
  - assert (exp (- b) < exp (- a)) by (apply exp_increasing; lra). lra.
Qed.
Lemma sig_le a b : a <= b -> sigmoid a <= sigmoid b.
Proof. intros [H| ->]; [left; now apply sig_incr|lra]. Qed.
Lemma sig_opp a : sigmoid (- a) = 1 - sigmoid a.
Proof.
  unfold sigmoid. rewrite Ropp_involutive. pose proof (exp_pos a). pose proof (exp_pos (- a)).
  assert (exp a * exp (- a) = 1) by (rewrite <- exp_plus, Rplus_opp_r; apply exp_0).
  pose proof (exp_plus a (- a)). field_simplify_eq; [nra|lra].
Qed.
Lemma sig_der a : derivable_pt_lim sigmoid a (sigmoid a * (1 - sigmoid a)).
Proof.
  pose proof (sig_den a). pose proof (exp_pos (- a)).
  assert (D : derivable_pt_lim (fun u => 1 + exp (- u)) a (0 + exp (- a) * -1)).
  { apply derivable_pt_lim_plus; [apply derivable_pt_lim_const|].
    apply (derivable_pt_lim_comp (fun u => - u) exp); [|apply derivable_pt_lim_exp].
    replace (-1) with (- (1)) by ring. apply derivable_pt_lim_opp, derivable_pt_lim_id. }
  pose proof (derivable_pt_lim_div (fun _ => 1) (fun u => 1 + exp (- u)) a 0 _ (derivable_pt_lim_const 1 a) D ltac:(lra)) as Q.
  replace (sigmoid a * (1 - sigmoid a)) with ((0 * (1 + exp (- a)) - (0 + exp (- a) * -1) * 1) / Rsqr (1 + exp (- a))).
  - unfold div_fct in Q. intros e He. destruct (Q e He) as [d Hd]. exists d. intros h Hh0 Hh. specialize (Hd h Hh0 Hh).
    unfold sigmoid. unfold Rdiv in Hd. rewrite !Rmult_1_l in Hd. exact Hd.
  - unfold sigmoid, Rsqr. field. lra.
Qed.
Lemma sig_quarter a : 0 < sigmoid a * (1 - sigmoid a) <= / 4.
Proof. pose proof (sig_01 a). split; [nra|]. pose proof (Rle_0_sqr (sigmoid a - / 2)). unfold Rsqr in *. nra. Qed.
Lemma sig_lip a b : Rabs (sigmoid a - sigmoid b) <= Rabs (a - b) / 4.
Proof.
  assert (G : forall a b, a < b -> sigmoid b - sigmoid a <= (b - a) / 4).
  { clear. intros a b H. destruct (MVT_cor2 sigmoid (fun c => sigmoid c * (1 - sigmoid c)) a b H) as (c & E & _); [intros; apply sig_der|].
    rewrite E. pose proof (sig_quarter c). nra. }
  destruct (Rtotal_order a b) as [H|[->|H]].
  - pose proof (G a b H). pose proof (sig_incr a b H). rewrite !Rabs_left by lra. lra.
  - rewrite !Rminus_diag_eq by reflexivity. rewrite Rabs_R0. lra.
  - pose proof (G b a H). pose proof (sig_incr b a H). rewrite !Rabs_right by lra. lra.
Qed.
Lemma sig_cont a : continuity_pt sigmoid a.
Proof. apply derivable_continuous_pt. eexists. apply sig_der. Qed.
Lemma sig_logit a : ln (sigmoid a) - ln (1 - sigmoid a) = a.
Proof.
  rewrite <- sig_opp. unfold sigmoid. rewrite Ropp_involutive. pose proof (sig_den a). pose proof (exp_pos a).
  rewrite !ln_Rinv by lra. replace (1 + exp (- a)) with (exp (- a) * (1 + exp a)).
  - rewrite ln_mult, ln_exp by (try apply exp_pos; lra). ring.
  - rewrite Rmult_plus_distr_l, <- exp_plus, Rplus_opp_l, exp_0. ring.
Qed.

(** ** the excess *)
Lemma excess_incr N nx x a b : (0 < nx)%nat -> a < b -> excess N nx x a < excess N nx x b.
Proof.
  intros Hn H. unfold excess. destruct nx as [|n]; [lia|]. cbn [rsum].
  assert (rsum n (fun i => sigmoid (x i + a)) <= rsum n (fun i => sigmoid (x i + b))) by (apply rsum_le; intros; apply sig_le; lra).
  pose proof (sig_incr (x n + a) (x n + b) ltac:(lra)). lra.
Qed.
Lemma excess_le N nx x a b : a <= b -> excess N nx x a <= excess N nx x b.
Proof.
  intros H. unfold excess. assert (rsum nx (fun i => sigmoid (x i + a)) <= rsum nx (fun i => sigmoid (x i + b))) by (apply rsum_le; intros; apply sig_le; lra). lra.
Qed.
Lemma excess_cont N nx x : continuity (excess N nx x).
Proof.
  intros a. unfold excess. apply (continuity_pt_minus (fun a => rsum nx (fun i => sigmoid (x i + a))) (fun _ => INR N)).
  - induction nx as [|n IH]; cbn [rsum]; [apply continuity_pt_const; intros ? ?; reflexivity|].
    apply (continuity_pt_plus (fun a => rsum n (fun i => sigmoid (x i + a))) (fun a => sigmoid (x n + a))); [exact IH|].
    apply (continuity_pt_comp (fun a => x n + a) sigmoid); [|apply sig_cont].
    apply (continuity_pt_plus (fun _ => x n) (fun a => a)); [apply continuity_pt_const; intros ? ?; reflexivity|apply derivable_continuous_pt, derivable_pt_id].
  - apply continuity_pt_const. intros ? ?; reflexivity.
Qed.
Lemma excess_root N nx x lo hi : (0 < nx)%nat -> excess N nx x lo < 0 -> 0 <= excess N nx x hi -> exists nu, lo <= nu <= hi /\ excess N nx x nu = 0.
Proof.
  intros Hn Hl Hh. assert (L : lo <= hi). { destruct (Rle_lt_dec lo hi) as [|H]; [assumption|]. apply (excess_incr N nx x hi lo Hn) in H. lra. }
  destruct (Rle_lt_or_eq_dec 0 _ Hh) as [Hp|Hz].
  - destruct (IVT_cor (excess N nx x) lo hi (excess_cont N nx x) L) as (z & Hz & E); [nra|]. now exists z.
  - exists hi. split; [lra|now symmetry].
Qed.
(** the exact shift *)
Lemma shift_exists N nx x : (0 < N < nx)%nat -> exists nu, excess N nx x nu = 0.
Proof.
  intros [HN Hn]. set (B := rsum nx (fun i => Rabs (x i))).
  assert (HB : forall i, (i < nx)%nat -> - B <= x i <= B).
  { intros i Hi. pose proof (rsum_term nx (fun i => Rabs (x i)) i ltac:(intros; apply Rabs_pos) Hi) as H. fold B in H. cbv beta in H.
    unfold Rabs in H. destruct (Rcase_abs (x i)); lra. }
  assert (0 < INR nx) by (apply lt_0_INR; lia). assert (Hs : sigmoid (ln (INR nx)) = INR nx / (INR nx + 1)).
  { unfold sigmoid. rewrite exp_Ropp, exp_ln by assumption. field. lra. }
  assert (1 <= INR N) by (replace 1 with (INR 1) by reflexivity; apply le_INR; lia).
  assert (INR N <= INR nx - 1) by (replace (INR nx - 1) with (INR (nx - 1)) by (rewrite minus_INR by lia; reflexivity); apply le_INR; lia).
  destruct (excess_root N nx x (- B - ln (INR nx)) (B + ln (INR nx))) as (nu & _ & E).
  - lia.
  - unfold excess. assert (rsum nx (fun i => sigmoid (x i + (- B - ln (INR nx)))) <= rsum nx (fun _ => 1 - INR nx / (INR nx + 1))).
    { apply rsum_le. intros i Hi. rewrite <- Hs, <- sig_opp. apply sig_le. specialize (HB i Hi). lra. }
    rewrite rsum_const in H2. assert (INR nx * (1 - INR nx / (INR nx + 1)) < 1); [|lra].
    replace (INR nx * (1 - INR nx / (INR nx + 1))) with (INR nx / (INR nx + 1)) by (field; lra).
    apply (Rmult_lt_reg_r (INR nx + 1)); [lra|]. unfold Rdiv. rewrite Rmult_assoc, Rinv_l by lra. lra.
  - unfold excess. assert (rsum nx (fun _ => INR nx / (INR nx + 1)) <= rsum nx (fun i => sigmoid (x i + (B + ln (INR nx))))).
    { apply rsum_le. intros i Hi. rewrite <- Hs. apply sig_le. specialize (HB i Hi). lra. }
    rewrite rsum_const in H2. assert (INR nx - 1 <= INR nx * (INR nx / (INR nx + 1))); [|lra].
    apply (Rmult_le_reg_r (INR nx + 1)); [lra|]. replace (INR nx * (INR nx / (INR nx + 1)) * (INR nx + 1)) with (INR nx * INR nx) by (field; lra). nra.
  - now exists nu.
Qed.

(** ** the sigmoids with the exact shift are the unique minimizer *)
(** z ln z - z ln y >= z - y, with equality only at z = y *)
Lemma ln_le u : 0 < u -> ln u <= u - 1.
Proof. intros H. pose proof (exp_ineq1_le (ln u)). rewrite exp_ln in H0 by assumption. lra. Qed.
Lemma ln_lt u : 0 < u -> u <> 1 -> ln u < u - 1.
Proof.
  intros H N. destruct (Req_dec (ln u) 0) as [E|E].
  - exfalso. apply N. rewrite <- (exp_ln u H), E. apply exp_0.
  - pose proof (exp_ineq1 (ln u) E). rewrite exp_ln in H0 by assumption. lra.
Qed.
Lemma kl z y : 0 <= z -> 0 < y -> z - y <= z * ln z - z * ln y /\ (z * ln z - z * ln y = z - y -> z = y).
Proof.
  intros [Hz|<-] Hy; [|split; [lra|intros; lra]].
  assert (E : ln (y / z) = ln y - ln z) by (unfold Rdiv; rewrite ln_mult, ln_Rinv; [ring| | |]; try assumption; now apply Rinv_0_lt_compat).
  assert (P : 0 < y / z) by (apply Rdiv_lt_0_compat; assumption). assert (Z : z * (y / z) = y) by (field; lra). split.
  - pose proof (ln_le _ P) as L. rewrite E in L. nra.
  - intros Q. destruct (Req_dec (y / z) 1) as [F|F]; [rewrite F in Z; lra|]. pose proof (ln_lt _ P F) as L. rewrite E in L. nra.
Qed.
Lemma cost_gap N nx x nu z : excess N nx x nu = 0 -> admissible N nx z ->
  lml_cost nx x (fun i => sigmoid (x i + nu)) <= lml_cost nx x z
  /\ (lml_cost nx x z <= lml_cost nx x (fun i => sigmoid (x i + nu)) -> forall i, (i < nx)%nat -> z i = sigmoid (x i + nu)).
Proof.
  intros E [Hz Sz]. set (y := fun i => sigmoid (x i + nu)).
  set (gap := fun i => (z i * ln (z i) - z i * ln (y i) - (z i - y i)) + ((1 - z i) * ln (1 - z i) - (1 - z i) * ln (1 - y i) - ((1 - z i) - (1 - y i)))).
  assert (G0 : forall i, (i < nx)%nat -> 0 <= gap i).
  { intros i Hi. pose proof (sig_01 (x i + nu)). destruct (kl (z i) (y i)) as [A _]; [apply Hz; exact Hi|unfold y; lra|].
    destruct (kl (1 - z i) (1 - y i)) as [B _]; [specialize (Hz i Hi); lra|unfold y; lra|]. unfold gap. lra. }
  assert (Sy : rsum nx y = INR N) by (unfold excess in E; fold y in E; lra).
  assert (T : lml_cost nx x z - lml_cost nx x y = rsum nx gap).
  { unfold lml_cost, dot.
    replace (- rsum nx (fun i => x i * z i) + rsum nx (fun i => z i * ln (z i) + (1 - z i) * ln (1 - z i))
      - (- rsum nx (fun i => x i * y i) + rsum nx (fun i => y i * ln (y i) + (1 - y i) * ln (1 - y i))))
      with (rsum nx (fun i => (z i * ln (z i) + (1 - z i) * ln (1 - z i) - (y i * ln (y i) + (1 - y i) * ln (1 - y i))) - (x i * z i - x i * y i)))
      by (rewrite !rsum_minus; ring).
    rewrite (rsum_ext _ _ (fun i => gap i + nu * (z i - y i))).
    - rewrite rsum_plus, rsum_scal, rsum_minus, Sy, Sz. ring.
    - intros i Hi. unfold gap. pose proof (sig_logit (x i + nu)) as L. fold (y i) in L.
      replace (ln (y i)) with (x i + nu + ln (1 - y i)) by lra. ring. }
  split; [pose proof (rsum_nonneg nx gap G0); lra|]. intros L i Hi.
  assert (rsum nx gap = 0) by (pose proof (rsum_nonneg nx gap G0); lra).
  pose proof (rsum_zero_each nx gap G0 H i Hi) as Z. pose proof (sig_01 (x i + nu)). specialize (Hz i Hi).
  destruct (kl (z i) (y i)) as [A A']; [lra|unfold y; lra|].
  destruct (kl (1 - z i) (1 - y i)) as [B _]; [lra|unfold y; lra|]. apply A'. unfold gap in Z. lra.
Qed.
Lemma root_soft_top N nx x nu : excess N nx x nu = 0 -> soft_top N nx x (fun i => sigmoid (x i + nu)).
Proof.
  intros E. split.
  - split; [intros i _; pose proof (sig_01 (x i + nu)); lra|unfold excess in E; lra].
  - intros z Hz. exact (proj1 (cost_gap N nx x nu z E Hz)).
Qed.
Lemma soft_top_shift N nx x y : (0 < N < nx)%nat -> soft_top N nx x y -> exists nu, excess N nx x nu = 0 /\ forall i, (i < nx)%nat -> y i = sigmoid (x i + nu).
Proof.
  intros H [Hy M]. destruct (shift_exists N nx x H) as [nu E]. exists nu. split; [exact E|].
  apply (proj2 (cost_gap N nx x nu y E Hy)). apply M. exact (proj1 (root_soft_top N nx x nu E)).
Qed.
(** The soft selection exists, is unique, lies strictly between 0 and 1 and is ordered as the scores. *)
Theorem C68_lml_unique : forall N nx x, (0 < N < nx)%nat -> exists y, soft_top N nx x y
  /\ (forall z, soft_top N nx x z -> forall i, (i < nx)%nat -> z i = y i)
  /\ (forall i, (i < nx)%nat -> 0 < y i < 1)
  /\ (forall i j, (i < nx)%nat -> (j < nx)%nat -> x i < x j -> y i < y j)
  /\ (forall i j, (i < nx)%nat -> (j < nx)%nat -> x i = x j -> y i = y j).
Proof.
  intros N nx x H. destruct (shift_exists N nx x H) as [nu E]. exists (fun i => sigmoid (x i + nu)).
  split; [now apply root_soft_top|]. split; [|split; [intros; apply sig_01|split]].
  - intros z [Hz M]. apply (proj2 (cost_gap N nx x nu z E Hz)). apply M. exact (proj1 (root_soft_top N nx x nu E)).
  - intros i j _ _ L. apply sig_incr. lra.
  - intros i j _ _ ->. reflexivity.
Qed.
