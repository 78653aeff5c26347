From Coq Require Import Reals List Arith Bool Lra Lia.
From Verif Require Import RSum Adj_props Adj_diff Lml_model Lml_spec Lml_props Lml_fwd.
Import ListNotations.
Local Open Scope R_scope.

Definition dsig (a : R) : R := sigmoid a * (1 - sigmoid a).
Definition slope (b a : R) : R := if Req_EM_T a b then dsig b else (sigmoid a - sigmoid b) / (a - b).
Lemma slope_eq b a : sigmoid a - sigmoid b = slope b a * (a - b).
Proof. unfold slope. destruct (Req_EM_T a b) as [->|H]; [ring|field; lra]. Qed.
Lemma slope_pos b a : 0 < slope b a.
Proof.
  unfold slope. destruct (Req_EM_T a b) as [->|H]; [apply sig_quarter|].
  destruct (Rtotal_order a b) as [L|[E|L]]; [|lra|].
  - replace ((sigmoid a - sigmoid b) / (a - b)) with ((sigmoid b - sigmoid a) / (b - a)) by (field; lra).
    pose proof (sig_incr a b L). apply Rdiv_lt_0_compat; lra.
  - pose proof (sig_incr b a L). apply Rdiv_lt_0_compat; lra.
Qed.
Lemma slope_lim b (a : R -> R) : lim0 a b -> lim0 (fun t => slope b (a t)) (dsig b).
Proof.
  intros Ha e He. destruct (sig_der b e He) as [d Hd]. destruct (Ha d (cond_pos d)) as (d' & Hd' & H). exists d'. split; [exact Hd'|].
  intros h Hh0 Hh. specialize (H h Hh0 Hh). unfold slope. destruct (Req_EM_T (a h) b) as [E|E].
  - rewrite Rminus_diag_eq, Rabs_R0 by reflexivity. exact He.
  - specialize (Hd (a h - b) ltac:(lra) H). replace (b + (a h - b)) with (a h) in Hd by ring. exact Hd.
Qed.
Lemma lim_inv f l : 0 < l -> lim0 f l -> lim0 (fun t => / f t) (/ l).
Proof.
  intros Hl Hf e He.
  destruct (Hf (l / 2) ltac:(lra)) as (d1 & Hd1 & H1). destruct (Hf (e * (l * l / 2))) as (d2 & Hd2 & H2).
  { apply Rmult_lt_0_compat; [exact He|]. nra. }
  exists (Rmin d1 d2). split; [now apply Rmin_glb_lt|]. intros h Hh0 Hh.
  specialize (H1 h Hh0 (Rlt_le_trans _ _ _ Hh (Rmin_l _ _))). specialize (H2 h Hh0 (Rlt_le_trans _ _ _ Hh (Rmin_r _ _))).
  apply Rabs_def2 in H1. assert (P : l / 2 < f h) by lra.
  replace (/ f h - / l) with ((l - f h) * / (f h * l)) by (field; lra). rewrite Rabs_mult, Rabs_minus_sym.
  assert (Q : 0 < / (f h * l)) by (apply Rinv_0_lt_compat; nra). rewrite (Rabs_right (/ (f h * l))) by lra.
  apply (Rmult_lt_reg_r (f h * l)); [nra|]. rewrite Rmult_assoc, Rinv_l, Rmult_1_r by nra.
  eapply Rlt_le_trans; [exact H2|]. apply Rmult_le_compat_l; [lra|nra].
Qed.
Lemma shift_of N nx x y nu : (0 < nx)%nat -> excess N nx x nu = 0 -> (forall i, (i < nx)%nat -> y i = sigmoid (x i + nu)) ->
  nu = ln (y 0%nat) - ln (1 - y 0%nat) - x 0%nat.
Proof. intros Hn _ H. rewrite (H 0%nat Hn). pose proof (sig_logit (x 0%nat + nu)). lra. Qed.
(** LML's backward returns the exact derivative of the soft selection: for every differentiable curve of scores the selection is
    differentiable, and the gradient it returns gives its derivative against every incoming gradient. *)
Theorem C68_lml_backward : forall N nx (x : R -> nat -> R) x' (y : R -> nat -> R) g, (0 < N < nx)%nat -> has_derivative nx x x' ->
  near0 (fun t => soft_top N nx (x t) (y t)) ->
  exists y', has_derivative nx y y' /\ dot nx g y' = dot nx (lml_backward N nx (y 0) g) x'.
Proof.
  intros N nx x x' y g HN Hx (d & Hd & Hy). set (nu := fun t => ln (y t 0%nat) - ln (1 - y t 0%nat) - x t 0%nat).
  assert (Hyn : forall t, Rabs t < d -> excess N nx (x t) (nu t) = 0 /\ forall i, (i < nx)%nat -> y t i = sigmoid (x t i + nu t)).
  { intros t Ht. destruct (soft_top_shift N nx (x t) (y t) HN (Hy t Ht)) as (n & E & Y). 
    pose proof (shift_of N nx (x t) (y t) n ltac:(lia) E Y) as En. fold (nu t) in En. rewrite <- En. now split. }
  assert (D0 : Rabs 0 < d) by (rewrite Rabs_R0; exact Hd).
  set (b := fun i => x 0 i + nu 0). set (a := fun i t => x t i + nu t). set (q := fun i t => slope (b i) (a i t)).
  assert (Sum : forall t, Rabs t < d -> rsum nx (fun i => q i t * (a i t - b i)) = 0).
  { intros t Ht. rewrite (rsum_ext _ _ (fun i => sigmoid (a i t) - sigmoid (b i))) by (intros; unfold q; now rewrite <- slope_eq).
    rewrite rsum_minus. pose proof (proj1 (Hyn t Ht)) as A. pose proof (proj1 (Hyn 0 D0)) as B. unfold excess in A, B. fold b in B. unfold a, b in *. lra. }
  assert (Dpos : forall t, 0 < rsum nx (fun i => q i t)).
  { intros t. pose proof (rsum_term nx (fun i => q i t) 0%nat ltac:(intros; left; apply slope_pos) ltac:(lia)). pose proof (slope_pos (b 0%nat) (a 0%nat t)).
    unfold q in *. lra. }
  assert (Enu : forall t, Rabs t < d -> (nu t - nu 0) * rsum nx (fun i => q i t) = - rsum nx (fun i => q i t * (x t i - x 0 i))).
  { intros t Ht. pose proof (Sum t Ht) as E. rewrite (rsum_ext _ _ (fun i => q i t * (x t i - x 0 i) + (nu t - nu 0) * q i t)) in E
      by (intros; unfold a, b; ring). rewrite rsum_plus, rsum_scal in E. lra. }
  assert (Xinc : lim0 (fun t => rsum nx (fun i => Rabs (x t i - x 0 i))) 0).
  { assert (Z : rsum nx (fun _ => 0) = 0) by (apply rsum_0; reflexivity). 
    assert (Q : lim0 (fun t => rsum nx (fun i => Rabs (x t i - x 0 i))) (rsum nx (fun _ => 0))); [|now rewrite Z in Q].
    apply (lim_rsum nx (fun i t => Rabs (x t i - x 0 i)) (fun _ => 0)). intros i Hi. apply lim_abs.
    exact (der_increment _ _ (Hx i Hi)). }
  assert (Nbound : forall t, Rabs t < d -> Rabs (nu t - nu 0) <= rsum nx (fun i => Rabs (x t i - x 0 i))).
  { intros t Ht. apply (Rmult_le_reg_r (rsum nx (fun i => q i t))); [apply Dpos|]. pose proof (Dpos t).
    rewrite <- (Rabs_right (rsum nx (fun i => q i t))) at 1 by lra. rewrite <- Rabs_mult, (Enu t Ht), Rabs_Ropp.
    eapply Rle_trans; [apply rsum_abs|]. rewrite <- rsum_scal. apply rsum_le. intros i Hi. rewrite Rabs_mult, Rmult_comm.
    rewrite (Rabs_right (q i t)) by (left; apply slope_pos). apply Rmult_le_compat_r; [left; apply slope_pos|].
    exact (rsum_term nx (fun i => Rabs (x t i - x 0 i)) i ltac:(intros; apply Rabs_pos) Hi). }
  assert (Ninc : lim0 nu (nu 0)).
  { intros e He. destruct (Xinc e He) as (d1 & Hd1 & H1). exists (Rmin d d1). split; [now apply Rmin_glb_lt|]. intros h Hh0 Hh.
    specialize (H1 h Hh0 (Rlt_le_trans _ _ _ Hh (Rmin_r _ _))). rewrite Rminus_0_r in H1.
    eapply Rle_lt_trans; [apply Nbound; exact (Rlt_le_trans _ _ _ Hh (Rmin_l _ _))|]. eapply Rle_lt_trans; [apply Rle_abs|exact H1]. }
  assert (Ainc : forall i, (i < nx)%nat -> lim0 (a i) (b i)).
  { intros i Hi. unfold a, b. apply lim_plus; [|exact Ninc]. apply (lim_ext (fun t => (x t i - x 0 i) + x 0 i)).
    - exists 1. split; [lra|]. intros; ring.
    - assert (Q : lim0 (fun t => x t i - x 0 i + x 0 i) (0 + x 0 i)) by (apply lim_plus; [exact (der_increment _ _ (Hx i Hi))|apply lim_const]).
      now rewrite Rplus_0_l in Q. }
  assert (Qlim : forall i, (i < nx)%nat -> lim0 (q i) (dsig (b i))) by (intros i Hi; apply slope_lim, Ainc, Hi).
  set (D := rsum nx (fun i => dsig (b i))).
  assert (DP : 0 < D). { unfold D. pose proof (rsum_term nx (fun i => dsig (b i)) 0%nat ltac:(intros; left; apply sig_quarter) ltac:(lia)). pose proof (sig_quarter (b 0%nat)). unfold dsig in *. lra. }
  set (nu' := - (rsum nx (fun i => dsig (b i) * x' i)) * / D).
  assert (Nder : derivable_pt_lim nu 0 nu').
  { apply der_quot. apply (lim_ext (fun t => (-1 * rsum nx (fun i => q i t * quot (fun t => x t i) t)) * / rsum nx (fun i => q i t))).
    - exists d. split; [exact Hd|]. intros t Ht Ht0. unfold quot at 2. pose proof (Dpos t) as P. pose proof (Enu t Ht) as E.
      apply (Rmult_eq_reg_r (rsum nx (fun i => q i t))); [|lra]. rewrite Rmult_assoc, Rinv_l, Rmult_1_r by lra.
      replace ((nu t - nu 0) / t * rsum nx (fun i => q i t)) with ((nu t - nu 0) * rsum nx (fun i => q i t) * / t) by (unfold Rdiv; ring). rewrite E.
      rewrite <- Ropp_mult_distr_l, <- rsum_scal_r. unfold quot, Rdiv.
      rewrite (rsum_ext nx (fun i => q i t * (x t i - x 0 i) * / t) (fun i => q i t * ((x t i - x 0 i) * / t))) by (intros; ring). ring.
    - unfold nu'. replace (- rsum nx (fun i => dsig (b i) * x' i)) with (-1 * rsum nx (fun i => dsig (b i) * x' i)) by ring.
      apply (lim_mult (fun t => -1 * rsum nx (fun i => q i t * quot (fun t => x t i) t)) (fun t => / rsum nx (fun i => q i t))).
      + apply lim_scal, (lim_rsum nx (fun i t => q i t * quot (fun t => x t i) t)). intros i Hi. apply lim_mult; [now apply Qlim|]. now apply der_quot, Hx.
      + apply lim_inv; [exact DP|]. now apply (lim_rsum nx q). }
  exists (fun i => dsig (b i) * (x' i + nu')). split.
  - intros i Hi. apply (der_ext_loc (fun t => sigmoid (x t i + nu t))).
    + exists d. split; [exact Hd|]. intros t Ht. symmetry. now apply Hyn.
    + apply (derivable_pt_lim_comp (fun t => x t i + nu t) sigmoid); [apply der_plus; [now apply Hx|exact Nder]|apply sig_der].
  - assert (Y0 : forall i, (i < nx)%nat -> y 0 i = sigmoid (b i)) by (intros i Hi; now apply Hyn).
    assert (Hi : forall i, (i < nx)%nat -> 1 / (1 / y 0 i + 1 / (1 - y 0 i)) = dsig (b i)).
    { intros i H. rewrite (Y0 i H). unfold dsig. pose proof (sig_01 (b i)). field. repeat split; try lra. }
    unfold lml_backward. destruct (Nat.leb_spec nx N) as [|_]; [lia|]. cbv zeta. unfold dot.
    rewrite (rsum_ext nx (fun i => 1 / (1 / y 0 i + 1 / (1 - y 0 i))) (fun i => dsig (b i)) Hi). fold D.
    rewrite (rsum_ext nx (fun i => 1 / (1 / y 0 i + 1 / (1 - y 0 i)) * g i) (fun i => dsig (b i) * g i)) by (intros i H; now rewrite Hi).
    set (G := rsum nx (fun i => dsig (b i) * g i)).
    rewrite (rsum_ext nx (fun i => - (1 / (1 / y 0 i + 1 / (1 - y 0 i))) * (- g i + G / D) * x' i) (fun i => dsig (b i) * g i * x' i - G / D * (dsig (b i) * x' i)))
      by (intros i H; rewrite Hi by exact H; ring).
    rewrite rsum_minus, rsum_scal.
    rewrite (rsum_ext nx (fun i => g i * (dsig (b i) * (x' i + nu'))) (fun i => dsig (b i) * g i * x' i + nu' * (dsig (b i) * g i))) by (intros; ring).
    rewrite rsum_plus, rsum_scal. fold G. unfold nu', Rdiv. ring.
Qed.
(** for nx <= N the output is constant and the gradient returned is 0 *)
Theorem C68_lml_backward_all : forall N nx y g i, (nx <= N)%nat -> lml_backward N nx y g i = 0.
Proof. intros N nx y g i H. unfold lml_backward. now destruct (Nat.leb_spec nx N); [|lia]. Qed.
(** the hypotheses are met: two equal scores, one selected, along any differentiable curve *)
Lemma C68_lml_forward_example : exists out y, lml_forward 100 10 1 2 (/ 1000) (fun _ => 0) = Some out /\ soft_top 1 2 (fun _ => 0) y
  /\ y 0%nat = / 2 /\ Rabs (out 0%nat - / 2) <= / 8000.
Proof.
  pose proof (exp_ineq1_le 7) as E7.
  destruct (C68_lml_forward_partial 100 10 1 2 (/ 1000) (fun _ => 0) 0) as (out & y & E & S & H & _); try lia; try (cbn [INR Nat.sub]; lra).
  - intros i j _ _. lra.
  - exists out, y. split; [exact E|]. split; [exact S|].
    assert (y 0%nat = / 2).
    { destruct (C68_lml_unique 1 2 (fun _ => 0) ltac:(lia)) as (z & Sz & U & _ & _ & Eq). rewrite (U y S 0%nat ltac:(lia)).
      destruct Sz as [[_ Sz] _]. cbn [rsum INR] in Sz. pose proof (Eq 0%nat 1%nat ltac:(lia) ltac:(lia) eq_refl). lra. }
    split; [assumption|]. destruct (H 0%nat ltac:(lia)) as [B _]. rewrite H0 in B. lra.
Qed.
