(** C35: the exponential and logarithm maps of SE2 and their Jacobians. *)
From Coq Require Import Reals Lra Psatz.
From Coquelicot Require Import Coquelicot.
From Verif Require Import Geo_spec Trig Exp_unique SE2_model SE2_group.
Local Open Scope R_scope.

Lemma eps_pos : forall d, 0 < se2_near_zero_eps d <= 3 / 100.
Proof. destruct d; cbn; lra. Qed.
Lemma deps_pos : forall d, se2_near_zero_eps d < se2_d_near_zero_eps d <= / 10.
Proof. destruct d; cbn; lra. Qed.

Lemma lt_b_true : forall a b, a < b -> lt_b a b = true.
Proof. intros. unfold lt_b. destruct (Rlt_dec a b); [reflexivity|contradiction]. Qed.
Lemma lt_b_false : forall a b, b <= a -> lt_b a b = false.
Proof. intros. unfold lt_b. destruct (Rlt_dec a b); [lra|reflexivity]. Qed.
Lemma div_some : forall a b, b <> 0 -> div_ a b = Some (a / b).
Proof. intros. unfold div_. destruct (Req_EM_T b 0); [contradiction|reflexivity]. Qed.
Lemma div_none : forall a, div_ a 0 = None.
Proof. intros. unfold div_. destruct (Req_EM_T 0 0); [reflexivity|congruence]. Qed.

Lemma some_inj : forall {A} (x y : A), Some x = Some y -> x = y.
Proof. intros A x y H. injection H as <-. reflexivity. Qed.

(** the code's exp_map in its two branches *)
Lemma exp_big : forall d v, se2_near_zero_eps d <= Rabs (b2 v) ->
  se2_exp_map d v = Some (mkSE2
    (sin (b2 v) / b2 v * b0 v + (cos (b2 v) - 1) / b2 v * b1 v)
    (sin (b2 v) / b2 v * b1 v - (cos (b2 v) - 1) / b2 v * b0 v)
    (cos (b2 v)) (sin (b2 v))).
Proof.
  intros d [u0 u1 th] H. cbn in H. pose proof (eps_pos d).
  assert (th <> 0) by (intro; subst; rewrite Rabs_R0 in H; lra).
  unfold se2_exp_map. cbn. rewrite lt_b_false by assumption. cbn.
  rewrite !div_some by assumption. reflexivity.
Qed.
Lemma exp_small : forall d v, Rabs (b2 v) < se2_near_zero_eps d ->
  se2_exp_map d v = Some (mkSE2
    ((1 - b2 v ^ 2 / 6) * b0 v + (- b2 v / 2 + b2 v ^ 3 / 24) * b1 v)
    ((1 - b2 v ^ 2 / 6) * b1 v - (- b2 v / 2 + b2 v ^ 3 / 24) * b0 v)
    (cos (b2 v)) (sin (b2 v))).
Proof.
  intros d [u0 u1 th] H. cbn in H.
  unfold se2_exp_map. cbn. rewrite lt_b_true by assumption. cbn.
  rewrite !div_some by lra. reflexivity.
Qed.

(** ** exp_map always succeeds and returns a valid element with the right angle *)
Theorem C35_exp_valid : forall d v, exists g,
  se2_exp_map d v = Some g /\ se2_valid g
  /\ se2_rotation g = so2_exp_map (b2 v).
Proof.
  intros d v. destruct (Rlt_dec (Rabs (b2 v)) (se2_near_zero_eps d)).
  - rewrite exp_small by assumption. eexists; split; [reflexivity|].
    split; [|reflexivity]. unfold se2_valid; cbn. pose proof (sin2cos2 (b2 v)). lra.
  - rewrite exp_big by lra. eexists; split; [reflexivity|].
    split; [|reflexivity]. unfold se2_valid; cbn. pose proof (sin2cos2 (b2 v)). lra.
Qed.

(** ** The exponential of the Lie algebra element, in closed form *)
Definition E2 (v : V3) : SE2 :=
  if Req_EM_T (b2 v) 0 then mkSE2 (b0 v) (b1 v) 1 0
  else mkSE2
    (sin (b2 v) / b2 v * b0 v + (cos (b2 v) - 1) / b2 v * b1 v)
    (sin (b2 v) / b2 v * b1 v - (cos (b2 v) - 1) / b2 v * b0 v)
    (cos (b2 v)) (sin (b2 v)).
Definition curve2 (v : V3) (t : R) : SE2 :=
  if Req_EM_T (b2 v) 0 then mkSE2 (t * b0 v) (t * b1 v) 1 0
  else mkSE2
    (sin (t * b2 v) / b2 v * b0 v + (cos (t * b2 v) - 1) / b2 v * b1 v)
    (sin (t * b2 v) / b2 v * b1 v - (cos (t * b2 v) - 1) / b2 v * b0 v)
    (cos (t * b2 v)) (sin (t * b2 v)).

Ltac dR := apply is_derive_Reals; auto_derive; [try exact I; auto|].

Lemma is_exp_E2 : forall v m, is_exp_m3 (se2_alg v) m <-> m = se2_to_matrix (E2 v).
Proof.
  intros v m.
  replace (se2_to_matrix (E2 v)) with ((fun t => se2_to_matrix (curve2 v t)) 1).
  2:{ unfold curve2, E2. rewrite !Rmult_1_l. reflexivity. }
  apply (exp_unique_m3 (se2_alg v) (fun t => se2_to_matrix (curve2 v t))); unfold curve2; destruct (Req_EM_T (b2 v) 0) as [Z|Z].
  - apply M3_ext; cbn; ring.
  - rewrite !Rmult_0_l, sin_0, cos_0. apply M3_ext; cbn; field; assumption.
  - intro t. unfold deriv_m3, deriv; cbn; rewrite Z.
    repeat split; dR; try ring.
  - intro t. unfold deriv_m3, deriv; cbn.
    repeat split; dR; field; assumption.
  - intro t. apply M3_ext; cbn; try rewrite Z; ring.
  - intro t. apply M3_ext; cbn; field; assumption.
Qed.

(** exp_map is the exponential, exactly, outside the small-angle branch and at
    angle 0 *)
Theorem C35_exp_is_exponential : forall d v g,
  se2_near_zero_eps d <= Rabs (b2 v) \/ b2 v = 0 ->
  se2_exp_map d v = Some g -> is_exp_m3 (se2_alg v) (se2_to_matrix g).
Proof.
  intros d v g H E. apply is_exp_E2. f_equal. pose proof (eps_pos d) as P.
  unfold E2. destruct (Req_EM_T (b2 v) 0) as [Z|Z].
  - rewrite exp_small in E by (rewrite Z, Rabs_R0; lra). injection E as <-.
    rewrite Z, cos_0, sin_0. apply SE2_ext; cbn; field.
  - destruct H as [H|H]; [|contradiction]. rewrite exp_big in E by assumption.
    injection E as <-. reflexivity.
Qed.

Lemma abs_cos : forall x, cos (Rabs x) = cos x.
Proof. intro x. unfold Rabs. destruct (Rcase_abs x); [apply cos_neg|reflexivity]. Qed.
Lemma abs_pow2 : forall x, Rabs x ^ 2 = x ^ 2.
Proof. intro x. unfold Rabs. destruct (Rcase_abs x); ring. Qed.
Lemma abs_pow4 : forall x, Rabs x ^ 4 = x ^ 4.
Proof. intro x. unfold Rabs. destruct (Rcase_abs x); ring. Qed.
Lemma cos_bounds : forall x, 1 - x ^ 2 / 2 <= cos x <= 1 - x ^ 2 / 2 + x ^ 4 / 24.
Proof.
  intro x. rewrite <- abs_cos, <- (abs_pow2 x), <- (abs_pow4 x).
  split; [apply cos_ge_2|apply cos_le_4]; apply Rabs_pos.
Qed.
Lemma cos_lower6 : forall x, 1 - x ^ 2 / 2 + x ^ 4 / 24 - x ^ 6 / 720 <= cos x.
Proof.
  intro x. destruct (Rle_dec 0 x).
  - apply cos_ge_6; lra.
  - pose proof (cos_ge_6 (- x) ltac:(lra)) as H. rewrite cos_neg in H.
    replace ((- x) ^ 2) with (x ^ 2) in H by ring. replace ((- x) ^ 4) with (x ^ 4) in H by ring.
    replace ((- x) ^ 6) with (x ^ 6) in H by ring. exact H.
Qed.

(** sin x / x and (cos x - 1) / x against the polynomials of the code *)
Lemma sinc_bound : forall x, x <> 0 -> Rabs (1 - x ^ 2 / 6 - sin x / x) <= x ^ 4 / 120.
Proof.
  assert (P : forall x, 0 < x -> Rabs (1 - x ^ 2 / 6 - sin x / x) <= x ^ 4 / 120).
  { intros x Hx.
    assert (L := sin_ge_3 x ltac:(lra)). assert (U := sin_le_5 x ltac:(lra)).
    set (q := sin x / x). assert (E : sin x = q * x) by (unfold q; field; lra).
    rewrite E in *. apply Rabs_le.
    assert (1 - x ^ 2 / 6 <= q).
    { apply (Rmult_le_reg_r x); [lra|]. lra. }
    assert (q <= 1 - x ^ 2 / 6 + x ^ 4 / 120).
    { apply (Rmult_le_reg_r x); [lra|]. lra. }
    lra. }
  intros x N. destruct (Rle_dec 0 x); [apply P; lra|].
  specialize (P (- x) ltac:(lra)). rewrite sin_neg in P.
  replace (- sin x / - x) with (sin x / x) in P by (field; lra).
  replace ((- x) ^ 2) with (x ^ 2) in P by ring. replace ((- x) ^ 4) with (x ^ 4) in P by ring.
  exact P.
Qed.
Lemma cosc_bound : forall x, x <> 0 ->
  Rabs (- x / 2 + x ^ 3 / 24 - (cos x - 1) / x) <= Rabs x ^ 5 / 720.
Proof.
  assert (P : forall x, 0 < x -> Rabs (- x / 2 + x ^ 3 / 24 - (cos x - 1) / x) <= x ^ 5 / 720).
  { intros x Hx.
    assert (L := cos_lower6 x). assert (U := cos_bounds x).
    set (q := (cos x - 1) / x). assert (E : cos x = 1 + q * x) by (unfold q; field; lra).
    rewrite E in *. apply Rabs_le.
    assert (- x / 2 + x ^ 3 / 24 - x ^ 5 / 720 <= q).
    { apply (Rmult_le_reg_r x); [lra|]. lra. }
    assert (q <= - x / 2 + x ^ 3 / 24).
    { apply (Rmult_le_reg_r x); [lra|]. lra. }
    lra. }
  intros x N. destruct (Rle_dec 0 x) as [H|H].
  - rewrite (Rabs_pos_eq x) by lra. apply P; lra.
  - rewrite (Rabs_left x) by lra. specialize (P (- x) ltac:(lra)). rewrite cos_neg in P.
    replace (- - x / 2 + (- x) ^ 3 / 24 - (cos x - 1) / - x)
      with (- (- x / 2 + x ^ 3 / 24 - (cos x - 1) / x)) in P by (field; lra).
    rewrite Rabs_Ropp in P. exact P.
Qed.

Definition close (e a b : R) := Rabs (a - b) <= e.

Lemma close_lin : forall p q p' q' e f a b,
  Rabs (p - p') <= e -> Rabs (q - q') <= f ->
  Rabs ((p * a + q * b) - (p' * a + q' * b)) <= e * Rabs a + f * Rabs b.
Proof.
  intros. replace (p * a + q * b - (p' * a + q' * b)) with ((p - p') * a + (q - q') * b) by ring.
  eapply Rle_trans; [apply Rabs_triang|]. rewrite !Rabs_mult.
  apply Rplus_le_compat; apply Rmult_le_compat_r; try apply Rabs_pos; assumption.
Qed.

(** inside the branch, the rotation is exact and the translation is off by at
    most theta^4/120 |u| + |theta|^5/720 |u| *)
Theorem C35_exp_small_angle : forall d v g m,
  Rabs (b2 v) < se2_near_zero_eps d ->
  se2_exp_map d v = Some g -> is_exp_m3 (se2_alg v) m ->
  d00 m = pc g /\ d10 m = ps g /\ d01 m = - ps g /\ d11 m = pc g
  /\ Rabs (px g - d02 m) <= b2 v ^ 4 / 120 * Rabs (b0 v) + Rabs (b2 v) ^ 5 / 720 * Rabs (b1 v)
  /\ Rabs (py g - d12 m) <= b2 v ^ 4 / 120 * Rabs (b1 v) + Rabs (b2 v) ^ 5 / 720 * Rabs (b0 v).
Proof.
  intros d v g m H E M. apply is_exp_E2 in M. subst m.
  rewrite exp_small in E by assumption. injection E as <-.
  unfold E2. destruct (Req_EM_T (b2 v) 0) as [Z|Z].
  - cbn. rewrite Z, cos_0, sin_0, Rabs_R0.
    repeat split; try ring;
    (match goal with |- Rabs ?x <= _ => replace x with 0 by field end; rewrite Rabs_R0; lra).
  - cbn [px py pc ps d00 d01 d02 d10 d11 d12 se2_to_matrix so2_to_matrix se2_rotation c00 c01 c10 c11 co si].
    repeat split; try reflexivity.
    + apply close_lin; [apply sinc_bound|apply cosc_bound]; assumption.
    + pose proof (cosc_bound _ Z) as C. rewrite <- Rabs_Ropp in C.
      replace (- (- b2 v / 2 + b2 v ^ 3 / 24 - (cos (b2 v) - 1) / b2 v))
        with (- (- b2 v / 2 + b2 v ^ 3 / 24) - - ((cos (b2 v) - 1) / b2 v)) in C by ring.
      pose proof (close_lin _ _ _ _ _ _ (b1 v) (b0 v) (sinc_bound _ Z) C) as G.
      eapply Rle_trans; [|exact G]. right. f_equal. field; assumption.
Qed.

(** ** log_map *)
Lemma log_big : forall d g, se2_valid g -> se2_near_zero_eps d <= Rabs (se2_theta g) ->
  ps g <> 0 ->
  se2_log_map d g = Some (mkV3
    (1 / 2 * (1 + pc g) * (se2_theta g / ps g) * px g + 1 / 2 * se2_theta g * py g)
    (1 / 2 * (1 + pc g) * (se2_theta g / ps g) * py g - 1 / 2 * se2_theta g * px g)
    (se2_theta g)).
Proof.
  intros d [x y c s] V H N. unfold se2_log_map. unfold se2_theta in *. cbn in *.
  rewrite lt_b_false by assumption. cbn. rewrite div_some by assumption. reflexivity.
Qed.
Lemma log_small : forall d g, Rabs (se2_theta g) < se2_near_zero_eps d ->
  se2_log_map d g = Some (mkV3
    (1 / 2 * (1 + pc g) * (1 + ps g ^ 2 / 6) * px g + 1 / 2 * se2_theta g * py g)
    (1 / 2 * (1 + pc g) * (1 + ps g ^ 2 / 6) * py g - 1 / 2 * se2_theta g * px g)
    (se2_theta g)).
Proof.
  intros d [x y c s] H. unfold se2_log_map. unfold se2_theta in *. cbn in *.
  rewrite lt_b_true by assumption. cbn. rewrite div_some by lra. reflexivity.
Qed.

Lemma theta_spec : forall g, se2_valid g ->
  cos (se2_theta g) = pc g /\ sin (se2_theta g) = ps g /\ - PI < se2_theta g <= PI.
Proof. intros g V. apply atan2_spec. exact V. Qed.

Lemma theta_exp : forall d v g, se2_exp_map d v = Some g -> - PI < b2 v <= PI ->
  se2_theta g = b2 v.
Proof.
  intros d v g E B. destruct (C35_exp_valid d v) as (g' & E' & _ & R).
  rewrite E in E'. injection E' as <-. unfold se2_theta. rewrite R.
  apply atan2_angle. exact B.
Qed.

(** log_map inverts exp_map on the angles the code treats exactly *)
Theorem C35_log_exp : forall d v g,
  se2_near_zero_eps d <= Rabs (b2 v) < PI ->
  se2_exp_map d v = Some g -> se2_log_map d g = Some v.
Proof.
  intros d v g [L U] E. pose proof (eps_pos d) as P.
  assert (B : - PI < b2 v <= PI) by (apply Rabs_def2 in U; lra).
  pose proof (theta_exp d v g E B) as T.
  assert (S : sin (b2 v) <> 0) by (apply sin_nonzero; lra).
  assert (N : b2 v <> 0) by (intro Z; rewrite Z, Rabs_R0 in L; lra).
  destruct (C35_exp_valid d v) as (g' & E' & V & R). rewrite E in E'. injection E' as <-.
  rewrite exp_big in E by assumption. injection E as <-.
  rewrite log_big; [| exact V | rewrite T; exact L | exact S ].
  rewrite T. f_equal. cbn. pose proof (sin2cos2 (b2 v)) as Q.
  assert (Q' : sin (b2 v) ^ 2 = 1 - cos (b2 v) ^ 2) by lra.
  destruct v as [u0 u1 th]; cbn in *.
  apply V3_ext; cbn; [ | | reflexivity ]; field_simplify_eq; auto; ring [Q'].
Qed.

(** exp_map inverts log_map away from the small-angle branch and from the
    half-turn *)
Theorem C35_exp_log : forall d g, se2_valid g ->
  se2_near_zero_eps d <= Rabs (se2_theta g) < PI ->
  exists v, se2_log_map d g = Some v /\ se2_exp_map d v = Some g /\ - PI < b2 v <= PI.
Proof.
  intros d g V [L U]. pose proof (eps_pos d) as P.
  destruct (theta_spec g V) as (C & S & B).
  assert (N : ps g <> 0) by (rewrite <- S; apply sin_nonzero; lra).
  assert (Z : se2_theta g <> 0) by (intro Z; rewrite Z, Rabs_R0 in L; lra).
  rewrite log_big by assumption. eexists; split; [reflexivity|]. split; [|exact B].
  rewrite exp_big by exact L. f_equal. cbn.
  assert (Q : pc g * pc g + ps g * ps g = 1) by exact V.
  assert (Q' : ps g ^ 2 = 1 - pc g ^ 2) by lra.
  rewrite C, S.
  set (th := se2_theta g) in *. clearbody th. destruct g as [x y c s]; cbn in *.
  apply SE2_ext; cbn; try reflexivity; field_simplify_eq; auto; ring [Q'].
Qed.

(** F53: at the half-turn the code divides by sin = 0 and the logarithm is lost,
    although the element is a perfectly valid one and has one. *)
Theorem C35_log_half_turn_refuted : forall d x y,
  se2_valid (mkSE2 x y (-1) 0) /\ se2_log_map d (mkSE2 x y (-1) 0) = None
  /\ (exists v, is_exp_m3 (se2_alg v) (se2_to_matrix (mkSE2 x y (-1) 0))).
Proof.
  intros d x y. pose proof (eps_pos d) as P. pose proof PI_RGT_0. pose proof PI2_1.
  assert (V : se2_valid (mkSE2 x y (-1) 0)) by (unfold se2_valid; cbn; lra).
  destruct (theta_spec _ V) as (C & S & B). cbn in C, S.
  assert (T : se2_theta (mkSE2 x y (-1) 0) = PI).
  { apply angle_unique; [exact B|lra| |]; [rewrite C, cos_PI|rewrite S, sin_PI]; reflexivity. }
  split; [exact V|]. split.
  - unfold se2_log_map. unfold se2_theta in T. cbn in *. rewrite T.
    rewrite lt_b_false by (rewrite Rabs_pos_eq by lra; lra). cbn. rewrite div_none. reflexivity.
  - exists (mkV3 (PI / 2 * y) (- (PI / 2) * x) PI).
    apply is_exp_E2. unfold E2. cbn. destruct (Req_EM_T PI 0); [lra|].
    rewrite cos_PI, sin_PI. f_equal. apply SE2_ext; cbn; field; lra.
Qed.

(** In the small-angle branch the angle comes back exactly and the translation
    part up to theta^4 (|ux| + |uy|). *)
Lemma h_bounds : forall th, Rabs th < 3 / 100 ->
  1 - th ^ 2 / 12 - th ^ 4 / 10 <= 1 / 2 * (1 + cos th) * (1 + sin th ^ 2 / 6)
  <= 1 - th ^ 2 / 12 + th ^ 4 / 100.
Proof.
  intros th H.
  assert (W : 0 <= th ^ 2 <= 9 / 10000).
  { rewrite <- abs_pow2. pose proof (Rabs_pos th). nra. }
  pose proof (cos_bounds th) as [L U]. pose proof (sin2cos2 th) as Q.
  replace (sin th ^ 2) with (1 - cos th ^ 2) by lra.
  replace (th ^ 4) with (th ^ 2 * th ^ 2) in * by ring.
  set (w := th ^ 2) in *. clearbody w. clear Q H.
  set (e := 1 - cos th). replace (cos th) with (1 - e) in * by (unfold e; ring). clearbody e.
  assert (E : w / 2 - w * w / 24 <= e <= w / 2) by lra. clear L U.
  assert (E0 : 0 <= e) by nra.
  replace (1 / 2 * (1 + (1 - e)) * (1 + (1 - (1 - e) ^ 2) / 6))
    with (1 - e / 6 - e * e / 3 + e * e * e / 12) by field.
  assert (E2 : e * e <= w * w / 4) by nra.
  assert (0 <= e * e * e) by (apply Rmult_le_pos; nra).
  split; [nra|].
  assert (e * e * e <= e * e * 1) by nra. nra.
Qed.

Lemma small_coefs : forall th, Rabs th < 3 / 100 ->
  let h := 1 / 2 * (1 + cos th) * (1 + sin th ^ 2 / 6) in
  Rabs (h * (1 - th ^ 2 / 6) - th / 2 * (- th / 2 + th ^ 3 / 24) - 1) <= th ^ 4
  /\ Rabs (h * (- th / 2 + th ^ 3 / 24) + th / 2 * (1 - th ^ 2 / 6)) <= th ^ 4.
Proof.
  intros th H. cbv zeta. pose proof (h_bounds th H) as Hh.
  set (h := 1 / 2 * (1 + cos th) * (1 + sin th ^ 2 / 6)) in *. clearbody h.
  assert (W : 0 <= th ^ 2 <= 9 / 10000).
  { rewrite <- abs_pow2. pose proof (Rabs_pos th). nra. }
  assert (TH : Rabs th <= 3 / 100) by lra. apply Rabs_le_between in TH.
  assert (K1 : Rabs (h * (1 - th ^ 2 / 6) - th / 2 * (- th / 2 + th ^ 3 / 24) - 1) <= th ^ 4).
  { apply Rabs_le.
    replace (th / 2 * (- th / 2 + th ^ 3 / 24)) with (- (th ^ 2 / 4) + th ^ 2 * th ^ 2 / 48) by field.
    replace (th ^ 4) with (th ^ 2 * th ^ 2) in * by ring.
    set (q := th ^ 2) in *. clearbody q. split; nra. }
  assert (K2 : Rabs (h * (- th / 2 + th ^ 3 / 24) + th / 2 * (1 - th ^ 2 / 6)) <= th ^ 4).
  { replace (h * (- th / 2 + th ^ 3 / 24) + th / 2 * (1 - th ^ 2 / 6))
      with (th * (h * (- (1 / 2) + th ^ 2 / 24) + 1 / 2 * (1 - th ^ 2 / 6))) by field.
    rewrite Rabs_mult.
    assert (Rabs (h * (- (1 / 2) + th ^ 2 / 24) + 1 / 2 * (1 - th ^ 2 / 6)) <= th ^ 4).
    { apply Rabs_le. replace (th ^ 4) with (th ^ 2 * th ^ 2) in * by ring.
      set (q := th ^ 2) in *. clearbody q. split; nra. }
    assert (Rabs th <= 1) by (apply Rabs_le; lra).
    pose proof (Rabs_pos th). pose proof (Rabs_pos (h * (- (1 / 2) + th ^ 2 / 24) + 1 / 2 * (1 - th ^ 2 / 6))).
    nra. }
  split; assumption.
Qed.

Theorem C35_log_exp_small_angle : forall d v g w,
  Rabs (b2 v) < se2_near_zero_eps d ->
  se2_exp_map d v = Some g -> se2_log_map d g = Some w ->
  b2 w = b2 v
  /\ Rabs (b0 w - b0 v) <= b2 v ^ 4 * (Rabs (b0 v) + Rabs (b1 v))
  /\ Rabs (b1 w - b1 v) <= b2 v ^ 4 * (Rabs (b0 v) + Rabs (b1 v)).
Proof.
  intros d v g w H E L. pose proof (eps_pos d) as P. pose proof PI2_1 as HPI.
  assert (B : - PI < b2 v <= PI) by (apply Rabs_def2 in H; lra).
  pose proof (theta_exp d v g E B) as T.
  rewrite exp_small in E by assumption. apply some_inj in E. subst g.
  rewrite log_small in L by (rewrite T; exact H). rewrite T in L. apply some_inj in L. subst w.
  destruct v as [u0 u1 th]; cbn [b0 b1 b2 px py pc ps] in *.
  destruct (small_coefs th ltac:(lra)) as [K1 K2].
  set (h := 1 / 2 * (1 + cos th) * (1 + sin th ^ 2 / 6)) in *. clearbody h.
  split; [reflexivity|]. split.
  - replace (h * ((1 - th ^ 2 / 6) * u0 + (- th / 2 + th ^ 3 / 24) * u1)
       + 1 / 2 * th * ((1 - th ^ 2 / 6) * u1 - (- th / 2 + th ^ 3 / 24) * u0) - u0)
      with ((h * (1 - th ^ 2 / 6) - th / 2 * (- th / 2 + th ^ 3 / 24) - 1) * u0
       + (h * (- th / 2 + th ^ 3 / 24) + th / 2 * (1 - th ^ 2 / 6)) * u1) by field.
    eapply Rle_trans; [apply Rabs_triang|]. rewrite !Rabs_mult, (Rmult_plus_distr_l (th ^ 4)).
    apply Rplus_le_compat; apply Rmult_le_compat_r; try apply Rabs_pos; assumption.
  - replace (h * ((1 - th ^ 2 / 6) * u1 - (- th / 2 + th ^ 3 / 24) * u0)
       - 1 / 2 * th * ((1 - th ^ 2 / 6) * u0 + (- th / 2 + th ^ 3 / 24) * u1) - u1)
      with ((h * (1 - th ^ 2 / 6) - th / 2 * (- th / 2 + th ^ 3 / 24) - 1) * u1
       + - (h * (- th / 2 + th ^ 3 / 24) + th / 2 * (1 - th ^ 2 / 6)) * u0) by field.
    eapply Rle_trans; [apply Rabs_triang|]. rewrite !Rabs_mult, Rabs_Ropp, (Rmult_plus_distr_l (th ^ 4)), Rplus_comm.
    apply Rplus_le_compat; apply Rmult_le_compat_r; try apply Rabs_pos; assumption.
Qed.

Theorem C35_exp_log_small_angle : forall d g v h, se2_valid g ->
  Rabs (se2_theta g) < se2_near_zero_eps d ->
  se2_log_map d g = Some v -> se2_exp_map d v = Some h ->
  pc h = pc g /\ ps h = ps g
  /\ Rabs (px h - px g) <= se2_theta g ^ 4 * (Rabs (px g) + Rabs (py g))
  /\ Rabs (py h - py g) <= se2_theta g ^ 4 * (Rabs (px g) + Rabs (py g)).
Proof.
  intros d g v h V H L E. pose proof (eps_pos d) as P.
  destruct (theta_spec g V) as (C & S & _).
  rewrite log_small in L by assumption. apply some_inj in L. subst v.
  rewrite exp_small in E by exact H. apply some_inj in E. subst h.
  cbn [b0 b1 b2 px py pc ps]. split; [exact C|]. split; [exact S|].
  rewrite <- C, <- S. set (th := se2_theta g) in *. clearbody th.
  destruct g as [x y c s]; cbn [px py pc ps] in *.
  destruct (small_coefs th ltac:(lra)) as [K1 K2].
  set (h := 1 / 2 * (1 + cos th) * (1 + sin th ^ 2 / 6)) in *. clearbody h.
  split.
  - replace ((1 - th ^ 2 / 6) * (h * x + 1 / 2 * th * y) + (- th / 2 + th ^ 3 / 24) * (h * y - 1 / 2 * th * x) - x)
      with ((h * (1 - th ^ 2 / 6) - th / 2 * (- th / 2 + th ^ 3 / 24) - 1) * x
       + (h * (- th / 2 + th ^ 3 / 24) + th / 2 * (1 - th ^ 2 / 6)) * y) by field.
    eapply Rle_trans; [apply Rabs_triang|]. rewrite !Rabs_mult, (Rmult_plus_distr_l (th ^ 4)).
    apply Rplus_le_compat; apply Rmult_le_compat_r; try apply Rabs_pos; assumption.
  - replace ((1 - th ^ 2 / 6) * (h * y - 1 / 2 * th * x) - (- th / 2 + th ^ 3 / 24) * (h * x + 1 / 2 * th * y) - y)
      with ((h * (1 - th ^ 2 / 6) - th / 2 * (- th / 2 + th ^ 3 / 24) - 1) * y
       + - (h * (- th / 2 + th ^ 3 / 24) + th / 2 * (1 - th ^ 2 / 6)) * x) by field.
    eapply Rle_trans; [apply Rabs_triang|]. rewrite !Rabs_mult, Rabs_Ropp, (Rmult_plus_distr_l (th ^ 4)), Rplus_comm.
    apply Rplus_le_compat; apply Rmult_le_compat_r; try apply Rabs_pos; assumption.
Qed.

(** local undoes retract, and retract undoes local *)
Theorem C34_retract_local : forall d g v h, se2_valid g ->
  se2_retract d g v = Some h ->
  se2_valid h
  /\ (se2_near_zero_eps d <= Rabs (b2 v) < PI -> se2_local d g h = Some v)
  /\ (Rabs (b2 v) < se2_near_zero_eps d -> exists w, se2_local d g h = Some w
        /\ b2 w = b2 v
        /\ Rabs (b0 w - b0 v) <= b2 v ^ 4 * (Rabs (b0 v) + Rabs (b1 v))
        /\ Rabs (b1 w - b1 v) <= b2 v ^ 4 * (Rabs (b0 v) + Rabs (b1 v))).
Proof.
  intros d g v h V H. unfold se2_retract in H.
  destruct (C35_exp_valid d v) as (e & E & Ve & Re). rewrite E in H. cbn -[se2_compose] in H.
  injection H as <-.
  destruct C34_se2_group as (_ & _ & GC & GI & GA & GId & GInv & GB & _).
  assert (D : se2_between g (se2_compose g e) = e).
  { unfold se2_between. rewrite <- GA, (proj1 (GInv g V)). apply GId. }
  split; [apply GC; assumption|]. unfold se2_local. rewrite D. split; intro B.
  - apply C35_log_exp; assumption.
  - pose proof (eps_pos d) as P. pose proof PI2_1.
    assert (T : se2_theta e = b2 v).
    { apply (theta_exp d); [exact E|]. apply Rabs_def2 in B. lra. }
    eexists. split; [apply log_small; rewrite T; exact B|].
    eapply (C35_log_exp_small_angle d v e); [exact B|exact E|]. apply log_small; rewrite T; exact B.
Qed.

Theorem C34_local_retract : forall d g h, se2_valid g -> se2_valid h ->
  se2_near_zero_eps d <= Rabs (se2_theta (se2_between g h)) < PI ->
  exists v, se2_local d g h = Some v /\ se2_retract d g v = Some h.
Proof.
  intros d g h Vg Vh B.
  destruct C34_se2_group as (_ & _ & GC & GI & GA & GId & GInv & GB & GV).
  destruct (C35_exp_log d (se2_between g h) (GV _ _ Vg Vh) B) as (v & L & E & _).
  exists v. split; [exact L|]. unfold se2_retract. rewrite E. cbn -[se2_compose se2_between].
  f_equal. apply GB. exact Vg.
Qed.
