(** C38: normalize; C49: project; the small-angle branch of log_map's Jacobian. *)
From Coq Require Import Reals Lra Psatz.
From Coquelicot Require Import Coquelicot.
From Verif Require Import Geo_spec Trig Exp_unique SE2_model SE2_group SE2_exp SE2_jac.
Local Open Scope R_scope.

(** ** C38 *)
Definition norm2 (t : V2) := sqrt (a0 t * a0 t + a1 t * a1 t).

Lemma norm2_sq : forall t, norm2 t * norm2 t = a0 t * a0 t + a1 t * a1 t.
Proof. intro t. unfold norm2. apply sqrt_sqrt. nra. Qed.
Lemma norm2_pos : forall t, 0 <= norm2 t.
Proof. intro t. apply sqrt_pos. Qed.

Lemma normalize_far : forall d t, so2_norm_eps d <= norm2 t -> norm2 t <> 0 ->
  so2_normalize d t = Some (mkV2 (a0 t / norm2 t) (a1 t / norm2 t)).
Proof.
  intros d t H N. unfold so2_normalize. fold (norm2 t). rewrite lt_b_false by assumption.
  cbn [where_]. rewrite !div_some by assumption. reflexivity.
Qed.
Lemma normalize_near : forall d t, norm2 t < so2_norm_eps d -> so2_normalize d t = Some (mkV2 1 0).
Proof.
  intros d t H. unfold so2_normalize. fold (norm2 t). rewrite lt_b_true by assumption.
  cbn [where_]. rewrite !div_some by lra. reflexivity.
Qed.
Lemma norm_eps_nonneg : forall d, 0 <= so2_norm_eps d.
Proof. destruct d; cbn; lra. Qed.

(** the result is on the unit circle, in the direction of the input unless the
    input is shorter than the tolerance, and accepted by the tensor check *)
Theorem C38_normalize_partial : forall d t, d = F32 \/ t <> mkV2 0 0 ->
  exists r, so2_normalize d t = Some r
    /\ a0 r * a0 r + a1 r * a1 r = 1
    /\ so2_check_tensor d r
    /\ (so2_norm_eps d <= norm2 t -> a0 t = norm2 t * a0 r /\ a1 t = norm2 t * a1 r).
Proof.
  intros d t H.
  assert (CK : forall r, a0 r * a0 r + a1 r * a1 r = 1 -> so2_check_tensor d r).
  { intros r E. unfold so2_check_tensor. rewrite E, sqrt_1, Rminus_diag_eq by reflexivity.
    rewrite Rabs_R0. destruct d; cbn; lra. }
  destruct (Rlt_dec (norm2 t) (so2_norm_eps d)) as [L|L].
  - exists (mkV2 1 0). split; [apply normalize_near; exact L|]. cbn.
    split; [lra|]. split; [apply CK; cbn; lra|]. lra.
  - assert (N : norm2 t <> 0).
    { intro Z. pose proof (norm2_sq t) as S. rewrite Z in S. destruct H as [->|H].
      - cbn in L. lra.
      - apply H. destruct t as [x y]; cbn in S. f_equal; nra. }
    exists (mkV2 (a0 t / norm2 t) (a1 t / norm2 t)).
    assert (U : a0 t / norm2 t * (a0 t / norm2 t) + a1 t / norm2 t * (a1 t / norm2 t) = 1).
    { pose proof (norm2_sq t) as S. field_simplify_eq; [|exact N]. lra. }
    split; [apply normalize_far; lra|]. cbn. split; [exact U|]. split; [apply CK; exact U|].
    intros _. split; field; exact N.
Qed.

(** valid rows are unchanged, so normalize is idempotent *)
Theorem C38_normalize_valid_fixed : forall d t,
  a0 t * a0 t + a1 t * a1 t = 1 -> so2_normalize d t = Some t.
Proof.
  intros d t H. assert (E : norm2 t = 1) by (unfold norm2; rewrite H; apply sqrt_1).
  rewrite normalize_far; [| rewrite E; destruct d; cbn; lra | lra ].
  rewrite E. f_equal. apply V2_ext; cbn; field.
Qed.

Theorem C38_se2_normalize_partial : forall d x y t, d = F32 \/ t <> mkV2 0 0 ->
  exists g, se2_normalize d x y t = Some g /\ se2_valid g /\ px g = x /\ py g = y.
Proof.
  intros d x y t H. destruct (C38_normalize_partial d t H) as (r & E & U & _).
  unfold se2_normalize. rewrite E. cbn. eexists. split; [reflexivity|]. split; [exact U|]. split; reflexivity.
Qed.
Theorem C38_se2_normalize_fixed : forall d g, se2_valid g ->
  se2_normalize d (px g) (py g) (mkV2 (pc g) (ps g)) = Some g.
Proof.
  intros d g V. unfold se2_normalize. rewrite C38_normalize_valid_fixed by exact V.
  destruct g; reflexivity.
Qed.

(** F56: in float64 the tolerance is never initialised (it stays 0), so the zero
    row is divided by its norm 0: the result is nan, while in float32 it is the
    identity. *)
Theorem C38_normalize_float64_zero_refuted :
  so2_normalize F64 (mkV2 0 0) = None /\ so2_normalize F32 (mkV2 0 0) = Some (mkV2 1 0).
Proof.
  assert (Z : norm2 (mkV2 0 0) = 0) by (unfold norm2; cbn; rewrite Rmult_0_l, Rplus_0_l; apply sqrt_0).
  split.
  - unfold so2_normalize. fold (norm2 (mkV2 0 0)). rewrite Z, lt_b_false by (cbn; lra).
    cbn [where_]. rewrite !div_none. reflexivity.
  - apply normalize_near. rewrite Z. cbn. lra.
Qed.

Example C38_example : so2_normalize F64 (mkV2 3 4) = Some (mkV2 (3/5) (4/5)).
Proof.
  assert (E : norm2 (mkV2 3 4) = 5).
  { unfold norm2; cbn. replace (3*3+4*4) with (5*5) by ring. apply sqrt_square. lra. }
  rewrite normalize_far; rewrite E; cbn; try lra. reflexivity.
Qed.

(** ** C49: project turns the gradient with respect to the entries of the tensor
    into the gradient with respect to the tangent vector *)
Theorem C49_project : forall d g gxy gcs dl h,
  (forall t, se2_retract d g (scal3 t dl) = Some (h t)) ->
  deriv (fun t => a0 gxy * px (h t) + a1 gxy * py (h t) + (a0 gcs * pc (h t) + a1 gcs * ps (h t))) 0
    (b0 (se2_project g gxy gcs) * b0 dl + b1 (se2_project g gxy gcs) * b1 dl
     + b2 (se2_project g gxy gcs) * b2 dl).
Proof.
  intros d g gxy gcs dl h H. destruct (retract_curve d g dl h H) as (H0 & D1 & D2 & D3 & D4).
  dgo. cbn. ring.
Qed.
Theorem C49_so2_project : forall g gr dl,
  deriv (fun t => a0 gr * co (so2_retract g (t * dl)) + a1 gr * si (so2_retract g (t * dl))) 0
    (so2_project g gr * dl).
Proof.
  intros g gr dl. cbn. apply is_derive_Reals; auto_derive; [exact I|].
  rewrite Rmult_0_l, cos_0, sin_0. unfold so2_project. ring.
Qed.

(** ** log_map's Jacobian in its own small-angle branch: applied after the true
    derivative of the exponential it gives the identity up to theta^4 *)
Lemma half_cot_bound : forall th, 0 < Rabs th < / 10 ->
  Rabs (th * sin th / (2 * (1 - cos th)) - (1 - th ^ 2 / 12 - th ^ 4 / 720)) <= th ^ 6 / 900.
Proof.
  assert (P : forall th, 0 < th < / 10 ->
    Rabs (th * sin th / (2 * (1 - cos th)) - (1 - th ^ 2 / 12 - th ^ 4 / 720)) <= th ^ 6 / 900).
  { intros th H.
    pose proof (sin_ge_7 th ltac:(lra)) as S1. pose proof (sin_le_5 th ltac:(lra)) as S2.
    pose proof (cos_ge_6 th ltac:(lra)) as C1. pose proof (cos_le_8 th ltac:(lra)) as C2.
    set (w := th ^ 2). assert (W : 0 < w < 1 / 100) by (unfold w; nra).
    replace (th ^ 4) with (w * w) in * by (unfold w; ring).
    replace (th ^ 6) with (w * w * w) in * by (unfold w; ring).
    replace (th ^ 8) with (w * w * w * w) in * by (unfold w; ring).
    fold w in C1, C2.
    set (ts := th * sin th).
    assert (T1 : w - w * w / 6 + w * w * w / 120 - w * w * w * w / 5040 <= ts).
    { unfold ts, w. apply (Rmult_le_compat_l th) in S1; [|lra]. eapply Rle_trans; [|exact S1]. right. field. }
    assert (T2 : ts <= w - w * w / 6 + w * w * w / 120).
    { unfold ts, w. apply (Rmult_le_compat_l th) in S2; [|lra]. eapply Rle_trans; [exact S2|]. right. field. }
    clearbody ts. clear S1 S2. set (e := 1 - cos th). assert (E1 : e <= w / 2 - w * w / 24 + w * w * w / 720) by (unfold e; lra).
    assert (E2 : w / 2 - w * w / 24 + w * w * w / 720 - w * w * w * w / 40320 <= e) by (unfold e; lra).
    clearbody e. clear C1 C2 H. clearbody w.
    assert (W2 : 0 < w * w) by nra. assert (W3 : 0 < w * w * w) by nra. assert (W4 : 0 < w * w * w * w) by nra.
    assert (W2' : w * w < w / 100) by nra. assert (W3' : w * w * w < w * w / 100) by nra.
    assert (W4' : w * w * w * w < w * w * w / 100) by nra.
    assert (Ep : 99 / 200 * w <= e) by lra.
    set (c := 1 - w / 12 - w * w / 720).
    assert (Cc : 0 <= c <= 1) by (unfold c; lra).
    assert (B1 : ts - 2 * e * c <= w * w * w * w / 1000).
    { assert (2 * (w / 2 - w * w / 24 + w * w * w / 720 - w * w * w * w / 40320) * c <= 2 * e * c) by nra.
      assert (w - w * w / 6 + w * w * w / 120 - w * w * w * w / 1200
              <= 2 * (w / 2 - w * w / 24 + w * w * w / 720 - w * w * w * w / 40320) * c).
      { unfold c.
        replace (2 * (w / 2 - w * w / 24 + w * w * w / 720 - w * w * w * w / 40320) * (1 - w / 12 - w * w / 720))
          with (w - w * w / 6 + w * w * w / 120 + (- (1 / 4320) + 1 / 8640 - 1 / 20160) * (w * w * w * w)
                - w * (w * w * w * w) * (1 / 259200) + (w * w * w * w) * w / 241920 + (w * w) * (w * w * w * w) / 14515200) by field.
        assert (0 <= w * (w * w * w * w)) by nra. assert (w * (w * w * w * w) <= w * w * w * w) by nra.
        assert (0 <= (w * w) * (w * w * w * w)) by nra. lra. }
      lra. }
    assert (B2 : - (w * w * w * w / 1000) <= ts - 2 * e * c).
    { assert (2 * e * c <= 2 * (w / 2 - w * w / 24 + w * w * w / 720) * c) by nra.
      assert (2 * (w / 2 - w * w / 24 + w * w * w / 720) * c <= w - w * w / 6 + w * w * w / 120).
      { unfold c.
        replace (2 * (w / 2 - w * w / 24 + w * w * w / 720) * (1 - w / 12 - w * w / 720))
          with (w - w * w / 6 + w * w * w / 120 + (- (1 / 4320) + 1 / 8640) * (w * w * w * w)
                - w * (w * w * w * w) * (1 / 259200)) by field.
        assert (0 <= w * (w * w * w * w)) by nra. lra. }
      lra. }
    replace (ts / (2 * e) - c) with ((ts - 2 * e * c) / (2 * e)) by (field; lra).
    assert (EP : 0 < 2 * e) by lra.
    set (q := (ts - 2 * e * c) / (2 * e)).
    assert (Hq : q * (2 * e) = ts - 2 * e * c) by (unfold q; field; lra).
    clearbody q.
    assert (G : w * w * w * w / 1000 <= w * w * w / 900 * (2 * e)).
    { assert (w * w * w * (99 / 100 * w) <= w * w * w * (2 * e)) by (apply Rmult_le_compat_l; lra). lra. }
    apply Rabs_le. split; apply (Rmult_le_reg_r (2 * e)); try exact EP; lra. }
  intros th H. destruct (Rle_dec 0 th).
  - rewrite (Rabs_pos_eq th) in H by lra. apply P; exact H.
  - rewrite (Rabs_left th) in H by lra. specialize (P (- th) H). rewrite sin_neg, cos_neg in P.
    replace (- th * - sin th) with (th * sin th) in P by ring.
    replace ((- th) ^ 2) with (th ^ 2) in P by ring. replace ((- th) ^ 4) with (th ^ 4) in P by ring.
    replace ((- th) ^ 6) with (th ^ 6) in P by ring. exact P.
Qed.

Lemma Jlog_inverse : forall th u0 u1, 0 < Rabs th < PI -> 
  mul3 (Jlog_code th u0 u1 (sin th) (cos th)) (Jexp (mkV3 u0 u1 th)) = I3.
Proof.
  intros th u0 u1 H.
  assert (N : th <> 0) by (intro Z; rewrite Z, Rabs_R0 in H; lra).
  assert (CN : cos th < 1) by (apply cos_lt_1; lra).
  assert (Q : sin th ^ 2 = 1 - cos th ^ 2) by (pose proof (sin2cos2 th); lra).
  unfold Jexp, Jlog_code, sinc, cosc. cbn [b0 b1 b2]. destruct (Req_EM_T th 0); [contradiction|].
  apply M3_ext; unfg; try ring; field_simplify_eq; try (split; lra); ring [Q].
Qed.

Theorem C35_log_jac_small_angle : forall d g J u M dl L, se2_valid g ->
  Rabs (se2_theta g) < se2_d_near_zero_eps d ->
  se2_log_map d g = Some u -> se2_log_map_jac d g = Some J ->
  (forall t, is_exp_m3 (se2_alg (add3 u (scal3 t dl))) (M t)) ->
  deriv_m3 M 0 (mul3 (M 0) (se2_alg L)) ->
  let th := se2_theta g in
  Rabs (b0 (app3 J L) - b0 dl) <= th ^ 4 / 700 * Rabs (b0 L) + Rabs th ^ 5 / 900 * Rabs (b0 u) * Rabs (b2 L)
  /\ Rabs (b1 (app3 J L) - b1 dl) <= th ^ 4 / 700 * Rabs (b1 L) + Rabs th ^ 5 / 900 * Rabs (b1 u) * Rabs (b2 L)
  /\ b2 (app3 J L) = b2 dl.
Proof.
  intros d g J u M dl L V H Lg EJ HM HL. cbv zeta.
  pose proof (deps_pos d) as P. pose proof PI2_1 as HPI.
  assert (EL : L = app3 (Jexp u) dl).
  { eapply tangent_unique; [eexists; apply HM|exact HL|apply Jexp_correct; exact HM]. }
  clear HM HL.
  destruct (theta_spec g V) as (C & S & B).
  assert (T : b2 u = se2_theta g).
  { unfold se2_log_map in Lg. destruct (div_ _ _) in Lg; [|discriminate]. cbn [bind] in Lg.
    apply some_inj in Lg. subst u. reflexivity. }
  unfold se2_log_map_jac in EJ. rewrite Lg in EJ. cbn [bind] in EJ. rewrite T in EJ.
  rewrite lt_b_true in EJ by exact H. cbn [where_] in EJ. rewrite !div_some in EJ by lra. cbn [bind] in EJ.
  apply some_inj in EJ. rewrite <- EJ. clear EJ Lg.
  set (th := se2_theta g) in *. clearbody th.
  destruct u as [u0 u1 uu]. cbn [b0 b1 b2] in *. subst uu.
  destruct (Req_EM_T th 0) as [Z|N].
  - subst th. rewrite EL. unfold Jexp, sinc, cosc. cbn [b0 b1 b2].
    destruct (Req_EM_T 0 0); [|congruence]. rewrite Rabs_R0. destruct dl as [e0 e1 w]. cbn.
    split; [|split; [|field]];
    (match goal with |- Rabs ?x <= _ => replace x with 0 by field end; rewrite Rabs_R0; lra).
  - assert (TH : 0 < Rabs th < / 10) by (split; [apply Rabs_pos_lt; exact N|lra]).
    assert (CN : cos th < 1) by (apply cos_lt_1; lra).
    pose proof (Jlog_inverse th u0 u1 ltac:(lra)) as INV.
    assert (ID : app3 (Jlog_code th u0 u1 (sin th) (cos th)) L = dl).
    { rewrite EL, <- app3_mul, INV, app3_I. reflexivity. }
    clear EL INV. rewrite <- ID. clear ID dl.
    pose proof (half_cot_bound th TH) as HB.
    unfold Jlog_code. destruct L as [l0 l1 l2]. cbn [app3 b0 b1 b2 d00 d01 d02 d10 d11 d12 d20 d21 d22].
    replace (1 / 2 * th * sin th / (1 - cos th)) with (th * sin th / (2 * (1 - cos th))) by (field; lra).
    replace (1 / 2 * sin th / (1 - cos th)) with (th * sin th / (2 * (1 - cos th)) / th) by (field; split; lra).
    set (hh := th * sin th / (2 * (1 - cos th))) in *. clearbody hh.
    set (er := hh - (1 - th ^ 2 / 12 - th ^ 4 / 720)) in *.
    assert (A6 : th ^ 6 = th ^ 4 * th ^ 2) by ring.
    assert (A2 : 0 <= th ^ 2 <= 1 / 100) by (rewrite <- abs_pow2; nra).
    assert (A4 : 0 <= th ^ 4) by (replace (th ^ 4) with (th ^ 2 * th ^ 2) by ring; nra).
    assert (E1 : Rabs (1 - th ^ 2 / 12 - hh) <= th ^ 4 / 700).
    { replace (1 - th ^ 2 / 12 - hh) with (th ^ 4 / 720 - er) by (unfold er; field).
      apply Rabs_le_between in HB. rewrite A6 in HB. apply Rabs_le. nra. }
    assert (E2 : Rabs (th / 12 + th * th ^ 2 / 720 - (1 / th - hh / th)) <= Rabs th ^ 5 / 900).
    { replace (th / 12 + th * th ^ 2 / 720 - (1 / th - hh / th)) with (er / th) by (unfold er; field; exact N).
      unfold Rdiv. rewrite Rabs_mult, Rabs_inv.
      apply (Rmult_le_reg_r (Rabs th)); [lra|]. rewrite Rmult_assoc, Rinv_l, Rmult_1_r by lra.
      eapply Rle_trans; [exact HB|]. right.
      replace (th ^ 6) with (Rabs th ^ 6) by (rewrite RPow_abs, Rabs_pos_eq; [reflexivity|rewrite A6; nra]).
      field. }
    set (kk := th / 12 + th * th ^ 2 / 720) in *. set (kt := 1 / th - hh / th) in *.
    split; [|split; [|ring]].
    + match goal with |- Rabs ?x <= _ => replace x with ((1 - th ^ 2 / 12 - hh) * l0 + (kk - kt) * u0 * l2) by ring end.
      eapply Rle_trans; [apply Rabs_triang|]. rewrite !Rabs_mult.
      pose proof (Rabs_pos l0). pose proof (Rabs_pos u0). pose proof (Rabs_pos l2).
      apply Rplus_le_compat; repeat apply Rmult_le_compat_r; assumption.
    + match goal with |- Rabs ?x <= _ => replace x with ((1 - th ^ 2 / 12 - hh) * l1 + (kk - kt) * u1 * l2) by ring end.
      eapply Rle_trans; [apply Rabs_triang|]. rewrite !Rabs_mult.
      pose proof (Rabs_pos l1). pose proof (Rabs_pos u1). pose proof (Rabs_pos l2).
      apply Rplus_le_compat; repeat apply Rmult_le_compat_r; assumption.
Qed.

(** the hypotheses above are met: a quarter turn *)
Example C35_jac_example : forall d, exists g J, se2_valid g
  /\ se2_d_near_zero_eps d <= Rabs (se2_theta g) < PI /\ se2_log_map_jac d g = Some J.
Proof.
  intro d. pose proof PI2_1. pose proof PI_RGT_0. pose proof (deps_pos d).
  set (g := mkSE2 1 2 0 1).
  assert (V : se2_valid g) by (unfold se2_valid, g; cbn; lra).
  assert (T : se2_theta g = PI / 2).
  { unfold se2_theta, so2_log_map, g. cbn. rewrite <- cos_PI2, <- sin_PI2. apply atan2_angle. lra. }
  assert (B : se2_d_near_zero_eps d <= Rabs (se2_theta g) < PI) by (rewrite T, Rabs_pos_eq; lra).
  destruct (C35_log_jac_total d g V B) as [J E]. exists g, J. auto.
Qed.
