(** The laws of Mg_laws.v for SE2, SO3 and SE3. *)
From Coq Require Import Reals List Arith Lia Lra Psatz.
From Coquelicot Require Import Coquelicot.
Import List ListNotations.
From Verif Require Import Geo_spec Geo3_spec Geo4_spec RSum Trig Exp_unique SE2_model SE2_group SE2_exp SE2_jac
  SO3_model SO3_exp SO3_jexp SO3_group SO3_log SO3_quat SO3_ops SO3_normback SE3_model SE3_group SE3_exp SE3_jexp SE3_log SE3_local
  Mg_model Mg_spec Mg_inv Mg_laws.
Local Open Scope R_scope.

Ltac unclass := cbn [elt dof local retract exp_map_jac se2_class so3_class se3_class valid same moves angle threshold se2_meaning so3_meaning se3_meaning].
Lemma omap {A B} (f : A -> B) (o : option A) y : option_map f o = Some y -> exists x, o = Some x /\ f x = y.
Proof. destruct o as [x|]; cbn; [|discriminate]. intro E. exists x. split; [reflexivity|]. now apply some_inj in E. Qed.

(** ---- SE2 ---- *)
Lemma se2_between_compose g e : se2_valid g -> se2_between g (se2_compose g e) = e.
Proof.
  intro V. destruct C34_se2_group as (_ & _ & GC & GI & GA & GId & GInv & GB & _).
  unfold se2_between. rewrite <- GA, (proj1 (GInv g V)). apply GId.
Qed.
Lemma abs0 x : Rabs x = 0 -> x = 0.
Proof. intro H. destruct (Req_dec x 0) as [E|N]; [exact E|]. now apply Rabs_no_R0 in N. Qed.
Lemma se2_log_b2 d g v : se2_log_map d g = Some v -> b2 v = se2_theta g.
Proof.
  unfold se2_log_map. cbv zeta. intro E.
  match type of E with context [div_ ?a ?b] => destruct (div_ a b) as [q|]; [|discriminate E] end.
  cbn [bind] in E. apply some_inj in E. subst v. reflexivity.
Qed.
Lemma se2_local_exact d g k u : se2_valid g -> se2_valid k -> se2_local d g k = Some u -> Rabs (b2 u) < PI ->
  Rabs (b2 u) = 0 \/ se2_near_zero_eps d < Rabs (b2 u) -> se2_retract d g u = Some k.
Proof.
  intros Vg Vk E A B. pose proof (eps_pos d) as P.
  destruct C34_se2_group as (_ & _ & _ & _ & _ & _ & _ & GB & GV).
  assert (T : b2 u = se2_theta (se2_between g k)) by (exact (se2_log_b2 d _ u E)).
  destruct B as [B|B].
  - apply abs0 in B. unfold se2_local in E. destruct (theta_spec _ (GV _ _ Vg Vk)) as (C & S & _).
    set (f := se2_between g k) in *. rewrite <- T, B in C, S. rewrite cos_0 in C. rewrite sin_0 in S.
    rewrite SE2_exp.log_small in E by (rewrite <- T, B, Rabs_R0; lra). apply some_inj in E.
    unfold se2_retract. rewrite exp_small by (rewrite B, Rabs_R0; lra). cbv beta iota delta [bind]. apply f_equal.
    rewrite <- (GB g k Vg). fold f. f_equal. rewrite B, cos_0, sin_0.
    assert (U0 : b0 u = px f) by (rewrite <- E; cbn [b0]; rewrite <- C, <- S, <- T, B; field).
    assert (U1 : b1 u = py f) by (rewrite <- E; cbn [b1]; rewrite <- C, <- S, <- T, B; field).
    apply SE2_ext; cbn [px py pc ps]; rewrite ?U0, ?U1; [field|field|exact C|exact S].
  - destruct (C34_local_retract d g k Vg Vk ltac:(rewrite <- T; lra)) as (v & L & Rt). rewrite E in L. apply some_inj in L. subst v. exact Rt.
Qed.
Lemma se2_jac_inverse d v J : Rabs (b2 v) < PI -> se2_exp_map_jac d v = Some J -> exists K, mul3 J K = I3 /\ mul3 K J = I3.
Proof.
  intros A E. pose proof (eps_pos d) as P.
  assert (F : exists a b p q, a <> 0 /\ J = mkM3 a (- b) p b a q 0 0 1).
  { unfold se2_exp_map_jac in E. destruct v as [x y th]. cbn [b0 b1 b2] in *.
    destruct (Rlt_dec (Rabs th) (se2_near_zero_eps d)) as [S|S].
    - rewrite lt_b_true in E by exact S. cbn -[pow] in E. rewrite !div_some in E by lra. cbn -[pow] in E. apply some_inj in E. subst J.
      eexists _, _, _, _. split; [|reflexivity]. apply Rabs_def2 in S. nra.
    - rewrite lt_b_false in E by lra. cbn -[pow] in E. assert (N : th <> 0) by (intros ->; rewrite Rabs_R0 in S; lra).
      rewrite !div_some in E by (try apply pow_nonzero; assumption). cbn -[pow] in E. apply some_inj in E. subst J.
      eexists _, _, _, _. split; [|reflexivity]. apply Rabs_def2 in A.
      assert (SN : sin th <> 0).
      { destruct (Rle_dec 0 th); [pose proof (sin_gt_0 th ltac:(lra) ltac:(lra)); lra|].
        pose proof (sin_lt_0_var th ltac:(lra) ltac:(lra)). lra. }
      unfold Rdiv. apply Rmult_integral_contrapositive_currified; [exact SN|]. now apply Rinv_neq_0_compat. }
  destruct F as (a & b & p & q & N & ->). set (D := a * a + b * b). assert (DN : D <> 0) by (unfold D; nra).
  exists (mkM3 (a / D) (b / D) (- (a * p + b * q) / D) (- b / D) (a / D) ((b * p - a * q) / D) 0 0 1).
  split; apply M3_ext; unfold mul3, I3; cbn; unfold D in *; field; exact DN.
Qed.
Lemma abs_cont (w r : R) : 0 < r -> exists s, 0 < s /\ forall t, Rabs t < s -> Rabs (t * w) < r.
Proof.
  intro H. exists (r / (1 + Rabs w)). pose proof (Rabs_pos w). split; [apply Rdiv_lt_0_compat; lra|].
  intros t Ht. rewrite Rabs_mult. pose proof (Rabs_pos t).
  assert (Rabs t * (1 + Rabs w) < r) by (replace r with (r / (1 + Rabs w) * (1 + Rabs w)) by (field; lra); apply Rmult_lt_compat_r; lra). nra.
Qed.
Lemma se2_compose_matrix g h : se2_to_matrix (se2_compose g h) = mul3 (se2_to_matrix g) (se2_to_matrix h).
Proof. destruct g, h. apply M3_ext; unf; ring. Qed.
Lemma deriv_left A H t H' : deriv_m3 H t H' -> deriv_m3 (fun x => mul3 A (H x)) t (mul3 A H').
Proof.
  intro D. eapply deriv_m3_eq; [|apply (deriv_mul3 (fun _ => A) H t mzero H'); [|exact D]].
  - destruct A, H'. apply M3_ext; cbn; try ring.
  - unfold deriv_m3, mzero; cbn. repeat split; apply derivable_pt_lim_const.
Qed.
Lemma se2_moves d g v eps J k h : se2_valid g -> Rabs (b2 v) = 0 \/ se2_near_zero_eps d < Rabs (b2 v) ->
  se2_exp_map_jac d v = Some J -> se2_retract d g v = Some k ->
  (forall t, se2_retract d g (add3 v (scal3 t eps)) = Some (h t)) ->
  h 0 = k /\ deriv_m3 (fun t => se2_to_matrix (h t)) 0 (mul3 (se2_to_matrix k) (se2_alg (app3 J eps))).
Proof.
  intros V B EJ EK EH. pose proof (eps_pos d) as P.
  assert (Z : add3 v (scal3 0 eps) = v) by (destruct v, eps; apply V3_ext; cbn; ring).
  assert (H0 : h 0 = k) by (specialize (EH 0); rewrite Z, EK in EH; now apply some_inj in EH).
  split; [exact H0|].
  assert (XE : exists M, (exists r, 0 < r /\ forall t, Rabs (t - 0) < r -> mul3 (se2_to_matrix g) (M t) = se2_to_matrix (h t))
     /\ deriv_m3 M 0 (mul3 (M 0) (se2_alg (app3 J eps)))).
  { destruct B as [B|B].
    - apply abs0 in B. rewrite code_Jexp in EJ by (right; exact B). apply some_inj in EJ. subst J.
      destruct v as [x y th], eps as [p q w]. cbn [b2] in B. subst th.
      exists (fun t => se2_to_matrix (mkSE2
         ((1 - (0 + t * w) ^ 2 / 6) * (x + t * p) + (- (0 + t * w) / 2 + (0 + t * w) ^ 3 / 24) * (y + t * q))
         ((1 - (0 + t * w) ^ 2 / 6) * (y + t * q) - (- (0 + t * w) / 2 + (0 + t * w) ^ 3 / 24) * (x + t * p))
         (cos (0 + t * w)) (sin (0 + t * w)))). split.
      + destruct (abs_cont w (se2_near_zero_eps d) ltac:(lra)) as (s & Hs & C). exists s. split; [exact Hs|].
        intros t Ht. rewrite Rminus_0_r in Ht. specialize (C t Ht). specialize (EH t). unfold se2_retract in EH.
        rewrite exp_small in EH by (cbn; rewrite Rplus_0_l; exact C). cbv beta iota delta [bind] in EH. apply some_inj in EH.
        rewrite <- EH, se2_compose_matrix. reflexivity.
      + unfold Jexp. cbn [b0 b1 b2]. unfold sinc, cosc. destruct (Req_EM_T 0 0) as [_|N]; [|congruence].
        unfold deriv_m3, se2_to_matrix, se2_alg, app3, mul3. cbn -[pow].
        repeat split; apply is_derive_Reals; auto_derive; try exact I; rewrite ?Rmult_0_l, ?Rplus_0_l, ?cos_0, ?sin_0; field.
    - exists (fun t => se2_to_matrix (E2 (add3 v (scal3 t eps)))). split.
      + destruct (abs_cont (b2 eps) (Rabs (b2 v) - se2_near_zero_eps d) ltac:(lra)) as (s & Hs & C). exists s. split; [exact Hs|].
        intros t Ht. rewrite Rminus_0_r in Ht. specialize (C t Ht). specialize (EH t). unfold se2_retract in EH.
        assert (BG : se2_near_zero_eps d <= Rabs (b2 (add3 v (scal3 t eps)))).
        { cbn. pose proof (Rabs_triang_inv (b2 v) (- (t * b2 eps))) as Q. rewrite Rabs_Ropp in Q. unfold Rminus in Q. rewrite Ropp_involutive in Q. lra. }
        rewrite exp_big in EH by exact BG. cbv beta iota delta [bind] in EH. apply some_inj in EH.
        rewrite <- EH, se2_compose_matrix. do 2 f_equal. unfold E2.
        destruct (Req_EM_T (b2 (add3 v (scal3 t eps))) 0) as [Q|Q]; [rewrite Q, Rabs_R0 in BG; lra|reflexivity].
      + apply (C35_exp_jac d v J eps); [left; lra|exact EJ|]. intro t. apply is_exp_E2. reflexivity. }
  destruct XE as (M & (r & Hr & ML) & D).
  assert (K0 : se2_to_matrix k = mul3 (se2_to_matrix g) (M 0)).
  { rewrite <- H0. symmetry. apply ML. unfold Rminus. rewrite Rplus_opp_r, Rabs_R0. exact Hr. }
  rewrite K0, mul3_assoc. apply (deriv_m3_ext_loc (fun t => mul3 (se2_to_matrix g) (M t)) _ 0 _ r Hr ML). now apply deriv_left.
Qed.
Lemma se2_class_laws d : Laws (se2_class d) (se2_meaning d).
Proof.
  pose proof (eps_pos d) as P.
  split; unclass; unfold regular; unclass.
  - intros g v V. unfold se2_retract. destruct (C35_exp_valid d (v3_of v)) as (e & E & Ve & _). rewrite E. eexists. split; [reflexivity|].
    destruct C34_se2_group as (_ & _ & GC & _). now apply GC.
  - intros g k v Vg Vk E [A B]. apply omap in E. destruct E as (u & E & <-). exists k. split; [|reflexivity]. rewrite v3_of_of.
    apply (se2_local_exact d g k u Vg Vk E); assumption.
  - intros g v k u V [A B] E1 E2. apply omap in E2. destruct E2 as (w & E2 & <-). apply of_v3_same.
    destruct (C34_retract_local d g _ k V E1) as (_ & HB & HS). cbn [v3_of b2] in HB, HS. destruct B as [B|B].
    + destruct (HS ltac:(lra)) as (w' & L & W2 & W0 & W1). rewrite E2 in L. apply some_inj in L. subst w'.
      apply abs0 in B. rewrite B in *. replace (0 ^ 4) with 0 in * by ring. rewrite Rmult_0_l in *.
      pose proof (Rabs_pos (b0 w - b0 (v3_of v))). pose proof (Rabs_pos (b1 w - b1 (v3_of v))).
      assert (Q0 : b0 w - b0 (v3_of v) = 0) by (apply abs0; lra). assert (Q1 : b1 w - b1 (v3_of v) = 0) by (apply abs0; lra).
      apply V3_ext; [lra|lra|]. rewrite W2. exact B.
    + specialize (HB ltac:(lra)). rewrite E2 in HB. now apply some_inj in HB.
  - intro v. destruct (C35_exp_jac_total d (v3_of v)) as (J & E). rewrite E. eexists. reflexivity.
  - intros u v J K S E1 E2. rewrite (v3_same u v S) in E1. rewrite E1 in E2. apply some_inj in E2. subst K. apply same_refl.
  - intros v J A E. apply omap in E. destruct E as (J' & E & <-). destruct (se2_jac_inverse d (v3_of v) J' A E) as (K & H1 & H2).
    exists (of_m3 K). now apply inverse_m3.
  - intros g v eps J k h V [A B] EJ EK EH. apply omap in EJ. destruct EJ as (J' & EJ & <-). rewrite v3_of_vm3.
    apply (se2_moves d g (v3_of v) (v3_of eps) J' k h V B EJ EK EH).
  - intros h k k' xi H <-. exact H.
  - intros h k xi xi' V [_ H] [_ H']. pose proof (deriv_m3_unique _ _ _ _ H H') as U. clear H H'.
    destruct k as [x y c s]. cbn in V. unfold mul3, se2_to_matrix, se2_alg, v3_of in U. cbn in U. injection U as U1 U2 U3 U4 U5 U6.
    set (a0 := xi 0%nat) in *. set (a1 := xi 1%nat) in *. set (a2 := xi 2%nat) in *.
    set (c0 := xi' 0%nat) in *. set (c1 := xi' 1%nat) in *. set (c2 := xi' 2%nat) in *.
    assert (X0 : a0 = c0 /\ a1 = c1 /\ a2 = c2).
    { repeat split.
      - transitivity ((c * c + s * s) * a0); [rewrite V; ring|]. transitivity ((c * c + s * s) * c0); [|rewrite V; ring].
        transitivity (c * (c * a0 - s * a1) + s * (s * a0 + c * a1)); [ring|]. transitivity (c * (c * c0 - s * c1) + s * (s * c0 + c * c1)); [|ring].
        f_equal; f_equal; lra.
      - transitivity ((c * c + s * s) * a1); [rewrite V; ring|]. transitivity ((c * c + s * s) * c1); [|rewrite V; ring].
        transitivity (c * (s * a0 + c * a1) - s * (c * a0 - s * a1)); [ring|]. transitivity (c * (s * c0 + c * c1) - s * (c * c0 - s * c1)); [|ring].
        f_equal; f_equal; lra.
      - transitivity ((c * c + s * s) * a2); [rewrite V; ring|]. transitivity ((c * c + s * s) * c2); [|rewrite V; ring].
        transitivity (c * (c * a2) + s * (s * a2)); [ring|]. transitivity (c * (c * c2) + s * (s * c2)); [|ring].
        f_equal; f_equal; lra. }
    destruct X0 as (X0 & X1 & X2). intros i Hi. destruct i as [|[|[|i]]]; try lia; assumption.
Qed.

(** ---- SO3 ---- *)
Lemma so3_log_zero d f u : rotation3 f -> so3_log d f = Some u -> len3 u = 0 -> f = I3 /\ u = zero3.
Proof.
  intros Rf E Z. pose proof (so3_eps_pos d) as P. rewrite <- norm3_len in Z.
  split; [|now apply norm3_zero].
  destruct (axis_angle f Rf) as (th & a & T & A & EF & _).
  destruct (log_form d f u Rf E) as (th' & T' & TH & _ & _ & F). rewrite EF, AA_theta in TH by assumption. subst th'.
  assert (TZ : th = 0).
  { destruct F as [[S N]|[S [N _]]]; [|lra]. rewrite Z in N.
    destruct (Req_dec th 0) as [Y|Y]; [exact Y|]. exfalso. pose proof PI2_3_2. 
    pose proof (sin_gt_0 th ltac:(lra) ltac:(lra)) as SP. pose proof (pow2_ge_0 (sin th)). nra. }
  rewrite EF, TZ. unfold AA. rewrite cos_0, sin_0. destruct a. unfold matc, I3. apply M3_ext; cbn; ring.
Qed.
Lemma so3_exp_zero d : so3_exp d zero3 = Some I3.
Proof.
  pose proof (so3_eps_pos d) as P.
  assert (N : norm3 zero3 = 0) by (rewrite norm3_len; unfold len3, zero3, dot3; cbn; rewrite Rmult_0_l, !Rplus_0_r; apply sqrt_0).
  rewrite so3_exp_small by (rewrite N; lra). f_equal. unfold matc, zero3, dot3, I3. apply M3_ext; cbn; field.
Qed.
(** the inverse of a polynomial in a skew matrix *)
Lemma matc_inverse c s o w : c * c + s * s * dot3 w w <> 0 -> c + o * dot3 w w <> 0 ->
  exists K, mul3 (matc c s o w) K = I3 /\ mul3 K (matc c s o w) = I3.
Proof.
  intros H1 H2. set (n := dot3 w w) in *. set (D := c * c + s * s * n) in *.
  exists (matc (c / D) (- s / D) (- (o * c - s * s) / (D * (c + o * n))) w).
  split; rewrite matc_matc, <- (matc_I w); fold n; f_equal; unfold D in *; field; repeat split; assumption.
Qed.
Lemma so3_jac_inverse d v J : len3 v < PI -> so3_jexp d v = Some J -> exists K, mul3 J K = I3 /\ mul3 K J = I3.
Proof.
  intros A E. pose proof (so3_eps_pos d) as P. rewrite <- norm3_len in A. pose proof (dot3_pos v) as DP.
  destruct (Rlt_le_dec (norm3 v) (so3_near_zero_eps d)) as [S|B].
  - rewrite jexp_mat_small in E by exact S. apply some_inj in E. subst J. rewrite jexp_matc.
    set (n := dot3 v v) in *. assert (K : 0 < / (4 + n)) by (apply Rinv_0_lt_compat; lra). unfold Rdiv.
    apply matc_inverse; fold n.
    + assert (0 < 4 * / (4 + n) * (4 * / (4 + n))) by nra. assert (0 <= - (2 * / (4 + n)) * - (2 * / (4 + n)) * n) by nra. apply Rgt_not_eq. lra.
    + apply Rgt_not_eq. nra.
  - rewrite jexp_mat_big in E by exact B. apply some_inj in E. subst J. rewrite jexp_matc.
    pose proof (norm3_sq v) as Q. set (th := norm3 v) in *. assert (N : th <> 0) by lra.
    assert (SP : 0 < sin th) by (apply sin_gt_0; lra).
    assert (C1 : 0 < sin th / th) by (apply Rdiv_lt_0_compat; lra).
    apply matc_inverse; rewrite <- Q.
    + assert (0 < sin th / th * (sin th / th)) by nra. set (o := (1 - cos th) / th ^ 2). assert (0 <= - o * - o * (th * th)) by (pose proof (Rle_0_sqr (o * th)) as Y; unfold Rsqr in Y; lra). apply Rgt_not_eq. lra.
    + replace (sin th / th + (th - sin th) / (th * th ^ 2) * (th * th)) with 1 by (field; exact N). apply Rgt_not_eq. lra.
Qed.
Lemma so3_between_mul g e : rotation3 g -> so3_between g (mul3 g e) = e.
Proof. intro R. change (mul3 (tr3 g) (mul3 g e) = e). rewrite <- mul3_assoc, (proj1 R). apply mul3_I_l. Qed.
Lemma so3_alg_inj g x y : rotation3 g -> mul3 g (so3_alg x) = mul3 g (so3_alg y) -> x = y.
Proof.
  intros R E. assert (F : so3_alg x = so3_alg y).
  { rewrite <- (mul3_I_l (so3_alg x)), <- (mul3_I_l (so3_alg y)), <- (proj1 R), !mul3_assoc, E. reflexivity. }
  destruct x, y. unfold so3_alg in F. cbn in F. injection F as F1 F2 F3. apply V3_ext; cbn; lra.
Qed.
Lemma so3_class_laws d : Laws (so3_class d) (so3_meaning d).
Proof.
  pose proof (so3_eps_pos d) as P.
  split; unclass; unfold regular; unclass.
  - intros g v V. unfold so3_retract. destruct (C36_exp_rotation d (v3_of v)) as (e & E & Ve). rewrite E. eexists. split; [reflexivity|].
    now apply rot_mul.
  - intros g k v Vg Vk E [A B]. apply omap in E. destruct E as (u & E & <-). exists k. split; [|reflexivity]. rewrite v3_of_of in *.
    assert (RB : rotation3 (so3_between g k)) by (apply rot_mul; [now apply rot_tr|assumption]).
    assert (X : so3_exp d u = Some (so3_between g k)).
    { unfold so3_local in E. destruct B as [B|B].
      - destruct (so3_log_zero d _ u RB E B) as [-> ->]. apply so3_exp_zero.
      - destruct (C36_log_is_logarithm d _ u RB E) as (_ & m & _ & _ & X). apply X. lra. }
    unfold so3_retract. rewrite X. cbv beta iota delta [bind]. f_equal. change (mul3 g (mul3 (tr3 g) k) = k).
    rewrite <- mul3_assoc, (rot_right g Vg). apply mul3_I_l.
  - intros g v k u V [A B] E1 E2. apply omap in E2. destruct E2 as (w & E2 & <-). apply of_v3_same.
    unfold so3_retract in E1. destruct (so3_exp d (v3_of v)) as [e|] eqn:EE; [|discriminate]. cbv beta iota delta [bind] in E1. apply some_inj in E1. subst k.
    unfold so3_local in E2. change (so3_compose g e) with (mul3 g e) in E2. rewrite so3_between_mul in E2 by exact V. destruct B as [B|B].
    + destruct (C36_log_exp_small_angle d (v3_of v) e ltac:(lra) EE) as (u & L & Q). rewrite E2 in L. apply some_inj in L. subst u.
      rewrite B in Q. assert (Z : sub3 w (v3_of v) = zero3) by (apply len_zero; lra). destruct w, (v3_of v). unfold sub3, zero3 in Z. cbn in Z. injection Z as Z1 Z2 Z3. apply V3_ext; cbn; lra.
    + destruct (C36_log_exp d (v3_of v) e ltac:(lra) EE) as [L|L]; rewrite E2 in L; [|discriminate]. now apply some_inj in L.
  - intro v. destruct (C36_exp_jac_total d (v3_of v)) as (J & E). rewrite E. eexists. reflexivity.
  - intros u v J K S E1 E2. rewrite (v3_same u v S) in E1. rewrite E1 in E2. apply some_inj in E2. subst K. apply same_refl.
  - intros v J A E. apply omap in E. destruct E as (J' & E & <-). destruct (so3_jac_inverse d (v3_of v) J' A E) as (K & H1 & H2).
    exists (of_m3 K). now apply inverse_m3.
  - intros g v eps J k h V [A B] EJ EK EH. apply omap in EJ. destruct EJ as (J' & EJ & <-). rewrite v3_of_vm3.
    unfold so3_retract in EK. destruct (so3_exp d (v3_of v)) as [e|] eqn:EE; [|discriminate]. cbv beta iota delta [bind] in EK. apply some_inj in EK. subst k.
    change (so3_compose g e) with (mul3 g e).
    set (M := fun t => match so3_exp d (add3 (v3_of v) (scal3 t (v3_of eps))) with Some m => m | None => I3 end).
    assert (EM : forall t, so3_exp d (add3 (v3_of v) (scal3 t (v3_of eps))) = Some (M t)).
    { intro t. unfold M. destruct (C36_exp_rotation d (add3 (v3_of v) (scal3 t (v3_of eps)))) as (m & -> & _). reflexivity. }
    assert (HM : forall t, mul3 g (M t) = h t).
    { intro t. specialize (EH t). rewrite v3_shift in EH. unfold so3_retract in EH. rewrite EM in EH. cbv beta iota delta [bind] in EH. now apply some_inj in EH. }
    assert (M0 : M 0 = e).
    { specialize (EM 0). replace (add3 (v3_of v) (scal3 0 (v3_of eps))) with (v3_of v) in EM by (unfold v3_of; apply V3_ext; cbn; ring).
      rewrite EE in EM. now apply some_inj in EM. }
    split; [rewrite <- HM, M0; reflexivity|]. rewrite mul3_assoc.
    apply (deriv_m3_ext (fun t => mul3 g (M t))); [exact HM|]. apply deriv_left.
    apply (C36_exp_jac d (v3_of v) (v3_of eps) J' e M); try assumption. lra.
  - intros h k k' xi H <-. exact H.
  - intros h k xi xi' V [_ H] [_ H']. pose proof (deriv_m3_unique _ _ _ _ H H') as U.
    apply (so3_alg_inj k _ _ V) in U. unfold v3_of in U. injection U as U0 U1 U2. intros i Hi. destruct i as [|[|[|i]]]; try lia; assumption.
Qed.
