(** C36: SO3.log and SO3.to_quaternion. *)
From Coq Require Import Reals Lra Psatz.
From Coquelicot Require Import Coquelicot.
From Verif Require Import Geo_spec Geo3_spec Trig Exp_unique SE2_model SE2_group SE2_exp SE2_jac
  SO3_model SO3_exp SO3_jexp SO3_group SO3_quat SO3_ops.
Local Open Scope R_scope.

Ltac c3 := cbn [d00 d01 d02 d10 d11 d12 d20 d21 d22 b0 b1 b2 qw qx qy qz].
Ltac c3h H := cbn [d00 d01 d02 d10 d11 d12 d20 d21 d22 b0 b1 b2 qw qx qy qz] in H.

(** ** every rotation has an axis and an angle *)
Definition AA (th : R) (a : V3) : M3 := matc (cos th) (sin th) (1 - cos th) a.
Lemma axis_angle : forall g, rotation3 g ->
  exists th a, 0 <= th <= PI /\ dot3 a a = 1 /\ g = AA th a
    /\ (exists q, qnorm2 q = 1 /\ qw q = cos (th / 2) /\ qx q = sin (th / 2) * b0 a
        /\ qy q = sin (th / 2) * b1 a /\ qz q = sin (th / 2) * b2 a /\ g = so3_quat_mat q).
Proof.
  intros g H. destruct (quat_exists g H) as (q & Q & W & E). destruct q as [w x y z].
  unfold qnorm2 in Q. c3h Q. c3h W.
  assert (W1 : -1 <= w <= 1) by nra.
  pose proof (acos_bound w) as HB. pose proof PI_RGT_0.
  set (h := acos w) in *.
  assert (C : cos h = w) by (apply cos_acos; lra).
  assert (HH : 0 <= h <= PI / 2).
  { split; [lra|]. destruct (Rle_dec h (PI / 2)) as [L|L]; [exact L|].
    pose proof (cos_lt_0 h ltac:(lra) ltac:(lra)). lra. }
  pose proof (sin_ge_0 h ltac:(lra) ltac:(lra)) as SP.
  pose proof (sin2cos2 h) as SC. rewrite C in SC.
  exists (2 * h).
  assert (C2 : cos (2 * h) = 2 * w * w - 1) by (rewrite cos_2a_cos, C; ring).
  assert (S2 : sin (2 * h) = 2 * sin h * w) by (rewrite sin_2a, C; ring).
  replace (2 * h / 2) with h by field. rewrite C.
  set (s := sin h) in *. clearbody s. clearbody h.
  destruct (Req_EM_T s 0) as [Z|N].
  - exists (mkV3 1 0 0). subst s.
    assert (x = 0) by nra. assert (y = 0) by nra. assert (z = 0) by nra.
    subst x y z. assert (WW : w * w = 1) by lra.
    split; [lra|]. split; [unfold dot3; c3; ring|]. split.
    + rewrite E. unfold AA. rewrite C2, S2. apply M3_ext; unfold so3_quat_mat, matc; c3; lra.
    + exists (mkQ w 0 0 0). unfold qnorm2. c3. repeat split; try ring; [lra|exact E].
  - exists (mkV3 (x / s) (y / s) (z / s)). split; [lra|].
    assert (XX : x * x = s * s - y * y - z * z) by lra.
    assert (WW : w * w = 1 - s * s) by lra.
    split; [unfold dot3; c3; field_simplify_eq; [lra|exact N]|]. split.
    + rewrite E. unfold AA. rewrite C2, S2.
      assert (W2 : w ^ 2 = 1 - s ^ 2) by (replace (w ^ 2) with (w * w) by ring; rewrite WW; ring).
      assert (X2 : x ^ 2 = s ^ 2 - y ^ 2 - z ^ 2) by (replace (x ^ 2) with (x * x) by ring; rewrite XX; ring).
      apply M3_ext; unfold so3_quat_mat, matc; c3; field_simplify_eq; try exact N; ring [W2 X2].
    + exists (mkQ w x y z). unfold qnorm2. c3. repeat split; try (field; exact N); [exact Q|exact E].
Qed.
Lemma AA_rotation : forall th a, dot3 a a = 1 -> rotation3 (AA th a).
Proof.
  intros th a A. pose proof (sin2cos2 th). apply matc_rotation; rewrite A; nra.
Qed.
Lemma AA_sine_axis : forall th a, so3_sine_axis (AA th a) = scal3 (sin th) a.
Proof. intros th [x y z]. unfold AA, matc, so3_sine_axis, scal3. c3. apply V3_ext; c3; field. Qed.
Lemma AA_cosine : forall th a, dot3 a a = 1 -> so3_cosine (AA th a) = cos th.
Proof.
  intros th [x y z] A. unfold dot3 in A. c3h A. unfold AA, matc, so3_cosine. c3.
  generalize (cos th). intro c.
  replace (1 / 2 * _) with (1 / 2 * ((1 - c) * (x * x + y * y + z * z) + 3 * c - 1)) by ring.
  rewrite A. field.
Qed.
Lemma norm3_scal : forall t a, dot3 a a = 1 -> norm3 (scal3 t a) = Rabs t.
Proof.
  intros t [x y z] A. unfold dot3 in A. c3h A. unfold norm3, scal3. c3.
  replace (t * x * (t * x) + t * y * (t * y) + t * z * (t * z)) with (Rsqr t * (x * x + y * y + z * z)) by (unfold Rsqr; ring).
  rewrite A, Rmult_1_r. apply sqrt_Rsqr_abs.
Qed.
Lemma AA_sine : forall th a, 0 <= th <= PI -> dot3 a a = 1 -> so3_sine (AA th a) = sin th.
Proof.
  intros th a B A. unfold so3_sine. rewrite AA_sine_axis, norm3_scal by exact A.
  apply Rabs_pos_eq. apply sin_ge_0; lra.
Qed.
Lemma AA_theta : forall th a, 0 <= th <= PI -> dot3 a a = 1 -> so3_theta (AA th a) = th.
Proof.
  intros th a B A. unfold so3_theta. rewrite AA_sine, AA_cosine by assumption.
  apply atan2_angle. pose proof PI_RGT_0. lra.
Qed.
Lemma rot_theta : forall g th, rotation3 g -> rot_angle g th <-> th = so3_theta g.
Proof.
  intros g th H. destruct (axis_angle g H) as (t & a & T & A & E & _).
  assert (Tt : so3_theta g = t) by (rewrite E; apply AA_theta; assumption).
  assert (C : (d00 g + d11 g + d22 g - 1) / 2 = cos t).
  { rewrite <- (AA_cosine t a A), <- E. unfold so3_cosine. field. }
  unfold rot_angle. rewrite C, Tt. split.
  - intros [B CC]. rewrite <- (acos_cos th B), CC. apply acos_cos; exact T.
  - intros ->. split; [exact T|reflexivity].
Qed.

(** ** the two tests of log are exclusive *)
Lemma near_zero_not_pi : forall d th, 0 <= th < so3_near_zero_eps d -> so3_near_pi_eps d < 1 + cos th.
Proof.
  intros d th H. pose proof (so3_eps_pos d). pose proof (so3_pi_eps_pos d).
  pose proof (cos_ge_2 th (proj1 H)). nra.
Qed.
Lemma le_b_true : forall a b, a <= b -> le_b a b = true.
Proof. intros. unfold le_b. destruct (Rle_dec a b); [reflexivity|contradiction]. Qed.
Lemma le_b_false : forall a b, b < a -> le_b a b = false.
Proof. intros. unfold le_b. destruct (Rle_dec a b); [lra|reflexivity]. Qed.

(** ** the selected row *)
Lemma AA_sel : forall th a, so3_sel_rows (AA th a) (cos th)
  = scal3 ((1 - cos th) * nth3 (so3_major (AA th a)) a) a.
Proof.
  intros th [x y z]. unfold so3_sel_rows. generalize (so3_major (AA th (mkV3 x y z))). intro m.
  unfold AA. generalize (cos th), (sin th).
  intros c s. destruct m as [|[|m]]; unfold nth3, sub_at, col3, row3, scal3, add3, tr3, matc; c3;
    apply V3_ext; c3; field.
Qed.
Lemma AA_major_le : forall th a, cos th < 1 -> dot3 a a = 1 ->
  nth3 (so3_major (AA th a)) a = 0 ->
  b0 a = 0 /\ b1 a * b1 a = b2 a * b2 a /\ so3_major (AA th a) = O.
Proof.
  intros th [x y z] C A. unfold dot3 in A. c3h A. unfold so3_major. unfold AA, matc. c3.
  set (c := cos th) in *. clearbody c.
  unfold lt_b.
  repeat match goal with |- context [Rlt_dec ?p ?q] => destruct (Rlt_dec p q) end;
    cbn [andb Nat.add Nat.mul nth3 b0 b1 b2]; intro Z; subst; try (exfalso; nra).
  all: repeat split.
  all: nra.
Qed.

(** where log is undefined (0/0): near half a turn, with the first axis
    coordinate zero and the other two of equal size *)
Definition log_tie (d : dtype) (th : R) (a : V3) :=
  1 + cos th <= so3_near_pi_eps d /\ b0 a = 0 /\ b1 a * b1 a = b2 a * b2 a.

Lemma div3_some : forall v x, x <> 0 -> div3_ v x = Some (scal3 (/ x) v).
Proof.
  intros v x N. unfold div3_. rewrite !div_some by exact N. cbv beta iota delta [bind].
  apply f_equal. apply V3_ext; unfold scal3; c3; field; exact N.
Qed.
Lemma div3_none : forall v, div3_ v 0 = None.
Proof. intro v. unfold div3_. rewrite div_none. reflexivity. Qed.
Lemma sign_spec : forall x, (0 < x /\ sign_ x = 1) \/ (x < 0 /\ sign_ x = -1) \/ (x = 0 /\ sign_ x = 0).
Proof.
  intro x. unfold sign_. destruct (Rlt_dec 0 x); [tauto|]. destruct (Rlt_dec x 0); [tauto|].
  right; right. split; [lra|reflexivity].
Qed.

Lemma log_small : forall d th a, 0 <= th <= PI -> dot3 a a = 1 -> th < so3_near_zero_eps d ->
  so3_log d (AA th a) = Some (scal3 (sin th * (1 + sin th ^ 2 / 6)) a).
Proof.
  intros d th a T A H. pose proof (near_zero_not_pi d th ltac:(lra)) as P.
  unfold so3_log. rewrite AA_theta, AA_sine, AA_cosine, AA_sine_axis by assumption.
  rewrite (lt_b_true th) by exact H. rewrite (le_b_false (1 + cos th)) by lra. cbn [orb]. unfold where_.
  unfold NON_ZERO. rewrite div_some by lra. cbv beta iota zeta delta [bind].
  apply f_equal. apply V3_ext; unfold scal3; c3; ring.
Qed.
Lemma log_mid : forall d th a, 0 <= th <= PI -> dot3 a a = 1 -> so3_near_zero_eps d <= th ->
  so3_near_pi_eps d < 1 + cos th -> so3_log d (AA th a) = Some (scal3 th a).
Proof.
  intros d th a T A H P. pose proof (so3_eps_pos d). pose proof (so3_pi_eps_pos d).
  unfold so3_log. rewrite AA_theta, AA_sine, AA_cosine, AA_sine_axis by assumption.
  rewrite (lt_b_false th) by exact H. rewrite (le_b_false (1 + cos th)) by lra. cbn [orb]. unfold where_.
  assert (TP : th < PI).
  { destruct (Req_EM_T th PI) as [E|N]; [|lra]. rewrite E, cos_PI in P. lra. }
  pose proof (sin_gt_0 th ltac:(lra) TP).
  rewrite div_some by lra. cbv beta iota zeta delta [bind].
  apply f_equal. apply V3_ext; unfold scal3; c3; field; lra.
Qed.
Lemma near_pi_big : forall d th, 0 <= th <= PI -> 1 + cos th <= so3_near_pi_eps d ->
  so3_near_zero_eps d <= th /\ cos th < 0.
Proof.
  intros d th T P. pose proof (so3_pi_eps_pos d). split; [|lra].
  destruct (Rle_dec (so3_near_zero_eps d) th) as [L|L]; [exact L|].
  pose proof (near_zero_not_pi d th ltac:(lra)). lra.
Qed.
Lemma log_pi : forall d th a, 0 <= th <= PI -> dot3 a a = 1 -> 1 + cos th <= so3_near_pi_eps d ->
  (log_tie d th a /\ so3_log d (AA th a) = None)
  \/ (~ log_tie d th a /\ so3_log d (AA th a) = Some (scal3 th a))
  \/ (~ log_tie d th a /\ th = PI /\ so3_log d (AA th a) = Some (scal3 (- th) a)).
Proof.
  intros d th a T A P. destruct (near_pi_big d th T P) as [H C].
  pose proof (so3_eps_pos d). pose proof (so3_pi_eps_pos d).
  unfold so3_log. rewrite AA_theta, AA_sine, AA_cosine, AA_sine_axis by assumption.
  rewrite (lt_b_false th) by exact H. rewrite (le_b_true (1 + cos th)) by lra. cbn [orb]. unfold where_.
  rewrite AA_sel. set (am := nth3 (so3_major (AA th a)) a).
  rewrite norm3_scal by exact A.
  assert (NS : nth3 (so3_major (AA th a)) (scal3 (sin th) a) = sin th * am).
  { unfold am. destruct (so3_major (AA th a)) as [|[|m]]; reflexivity. }
  rewrite NS.
  destruct (Req_EM_T am 0) as [Z|N].
  - left. destruct (AA_major_le th a ltac:(lra) A Z) as (A0 & A1 & _).
    split; [repeat split; assumption|]. rewrite Z, Rmult_0_r, Rabs_R0, div3_none. reflexivity.
  - right.
    assert (NT : ~ log_tie d th a).
    { intros (_ & A0 & A1). apply N. unfold am. unfold so3_major, AA, matc. c3.
      rewrite !(lt_b_false ((1 - cos th) * b2 a * b2 a + cos th)),
        !(lt_b_false ((1 - cos th) * b1 a * b1 a + cos th)) by nra.
      rewrite !Bool.andb_false_r. cbn [andb Nat.add Nat.mul nth3]. exact A0. }
    assert (NZ : (1 - cos th) * am <> 0) by (apply Rmult_integral_contrapositive_currified; lra).
    rewrite div3_some by (apply Rabs_no_R0; exact NZ). cbv beta iota delta [bind].
    assert (SN : forall t, scal3 t (scal3 (/ Rabs ((1 - cos th) * am)) (scal3 ((1 - cos th) * am) a))
              = scal3 (t * ((1 - cos th) * am / Rabs ((1 - cos th) * am))) a).
    { intro t. apply V3_ext; unfold scal3; c3; field; apply Rabs_no_R0; exact NZ. }
    rewrite SN. clear SN.
    assert (SG : (1 - cos th) * am / Rabs ((1 - cos th) * am) = if Rlt_dec 0 am then 1 else -1).
    { destruct (Rlt_dec 0 am).
      - rewrite Rabs_pos_eq by nra. field. split; lra.
      - rewrite Rabs_left by nra. field. split; lra. }
    rewrite SG.
    pose proof (sin_ge_0 th ltac:(lra) ltac:(lra)) as SP.
    destruct (Req_EM_T (sin th) 0) as [S0|S1].
    + assert (TP : th = PI).
      { destruct (Req_EM_T th PI) as [E|NE]; [exact E|]. pose proof (sin_gt_0 th ltac:(lra) ltac:(lra)). lra. }
      rewrite S0, Rmult_0_l. destruct (sign_spec 0) as [K|[K|[_ K]]]; [lra|lra|]. rewrite K.
      destruct (Req_EM_T 0 0) as [_|]; [|congruence].
      destruct (Rlt_dec 0 am).
      * left. split; [exact NT|]. rewrite !Rmult_1_r. reflexivity.
      * right. split; [exact NT|]. split; [exact TP|]. do 2 f_equal. ring.
    + left. split; [exact NT|].
      destruct (sign_spec (sin th * am)) as [[K0 K]|[[K0 K]|[K0 K]]]; rewrite K.
      * destruct (Req_EM_T 1 0); [lra|]. destruct (Rlt_dec 0 am); [do 2 f_equal; ring|nra].
      * destruct (Req_EM_T (-1) 0); [lra|]. destruct (Rlt_dec 0 am); [nra|do 2 f_equal; ring].
      * exfalso. nra.
Qed.

Lemma E3_scal : forall t a, dot3 a a = 1 -> E3 (scal3 t a) = AA t a.
Proof.
  intros t a A. unfold E3. rewrite norm3_scal by exact A. destruct (Req_EM_T (Rabs t) 0) as [Z|N].
  - destruct (Req_EM_T t 0) as [->|N]; [|apply Rabs_no_R0 in N; contradiction].
    unfold AA. rewrite cos_0, sin_0. apply M3_ext; unfold matc; c3; cbn; ring.
  - assert (NT : t <> 0) by (intro; subst; rewrite Rabs_R0 in N; lra).
    unfold AA. destruct (Rle_dec 0 t).
    + rewrite Rabs_pos_eq by assumption. apply M3_ext; unfold matc, scal3; c3; field; exact NT.
    + rewrite Rabs_left by lra. rewrite cos_neg, sin_neg.
      apply M3_ext; unfold matc, scal3; c3; field; exact NT.
Qed.
Lemma AA_PI_neg : forall a, AA (- PI) a = AA PI a.
Proof. intro a. unfold AA. rewrite cos_neg, sin_neg, sin_PI. f_equal. ring. Qed.

(** sin t (1 + sin^2 t / 6) is a little less than t *)
Lemma asin_series : forall t, 0 <= t -> 0 <= t - sin t * (1 + sin t ^ 2 / 6) <= 3 * t ^ 5 / 40.
Proof.
  intros t Ht. split.
  - revert t Ht. apply (nonneg_from_derivative (fun t => t - sin t * (1 + sin t ^ 2 / 6))
      (fun t => (1 - cos t) ^ 2 * (cos t + 2) / 2)).
    + der. pose proof (sin2cos2 x0) as S. assert (SS : sin x0 ^ 2 = 1 - cos x0 ^ 2) by (rewrite <- S; ring).
      field_simplify_eq. ring [SS].
    + intros x _. pose proof (COS_bound x). pose proof (pow2_ge_0 (1 - cos x)). nra.
    + rewrite sin_0. field.
  - cut (0 <= 3 * t ^ 5 / 40 - (t - sin t * (1 + sin t ^ 2 / 6))); [lra|]. revert t Ht.
    apply (nonneg_from_derivative (fun t => 3 * t ^ 5 / 40 - (t - sin t * (1 + sin t ^ 2 / 6)))
      (fun t => 3 * t ^ 4 / 8 - (1 - cos t) ^ 2 * (cos t + 2) / 2)).
    + der. pose proof (sin2cos2 x0) as S. assert (SS : sin x0 ^ 2 = 1 - cos x0 ^ 2) by (rewrite <- S; ring).
      field_simplify_eq. ring [SS].
    + intros x Hx. pose proof (COS_bound x). pose proof (cos_ge_2 x Hx).
      assert (E : (1 - cos x) ^ 2 <= (x ^ 2 / 2) ^ 2) by (apply pow_incr; lra).
      assert (P4 : (x ^ 2 / 2) ^ 2 = x ^ 4 / 4) by field. rewrite P4 in E.
      pose proof (pow2_ge_0 (1 - cos x)). nra.
    + rewrite sin_0. field.
Qed.
Lemma lip : forall (f f' : R -> R), (forall x, derivable_pt_lim f x (f' x)) -> (forall x, -1 <= f' x <= 1) ->
  forall a b, a <= b -> Rabs (f b - f a) <= b - a.
Proof.
  intros f f' D B a b L. destruct (Req_EM_T a b) as [->|N].
  - unfold Rminus. rewrite !Rplus_opp_r, Rabs_R0. lra.
  - destruct (MVT_cor2 f f' a b ltac:(lra) (fun c _ => D c)) as [c [Hc _]]. rewrite Hc.
    specialize (B c). apply Rabs_le. nra.
Qed.
Lemma lip_cos : forall a b, a <= b -> Rabs (cos b - cos a) <= b - a.
Proof.
  apply (lip cos (fun x => - sin x)); [intro; apply derivable_pt_lim_cos|].
  intro x. pose proof (SIN_bound x). lra.
Qed.
Lemma lip_sin : forall a b, a <= b -> Rabs (sin b - sin a) <= b - a.
Proof.
  apply (lip sin cos); [intro; apply derivable_pt_lim_sin|]. intro x. pose proof (COS_bound x). lra.
Qed.
Lemma unit_coord : forall a, dot3 a a = 1 -> Rabs (b0 a) <= 1 /\ Rabs (b1 a) <= 1 /\ Rabs (b2 a) <= 1.
Proof.
  intros a A. pose proof (coord_le a) as L. pose proof (norm3_sq a) as Q. rewrite A in Q.
  pose proof (norm3_pos a). assert (norm3 a = 1) by nra. rewrite H0 in L. exact L.
Qed.
Lemma near_AA : forall t t' a, dot3 a a = 1 -> t <= t' -> near_m3 (2 * (t' - t)) (AA t a) (AA t' a).
Proof.
  intros t t' a A L. pose proof (lip_cos t t' L) as LC. pose proof (lip_sin t t' L) as LS.
  destruct (unit_coord a A) as (U0 & U1 & U2).
  set (e := t' - t) in *. assert (EP : 0 <= e) by (unfold e; lra).
  assert (D : forall x y z, Rabs x <= 1 -> Rabs y <= 1 -> Rabs z <= 1 ->
     Rabs ((1 - cos t) * x * y + sin t * z - ((1 - cos t') * x * y + sin t' * z)) <= 2 * e).
  { intros x y z X Y Z.
    replace ((1 - cos t) * x * y + sin t * z - ((1 - cos t') * x * y + sin t' * z))
      with ((cos t' - cos t) * (x * y) + - (z * (sin t' - sin t))) by ring.
    eapply Rle_trans; [apply Rabs_triang|]. rewrite Rabs_Ropp, !Rabs_mult.
    pose proof (Rabs_pos x). pose proof (Rabs_pos y). pose proof (Rabs_pos z).
    pose proof (Rabs_pos (cos t' - cos t)). pose proof (Rabs_pos (sin t' - sin t)).
    assert (Rabs x * Rabs y <= 1) by nra.
    assert (Rabs (cos t' - cos t) * (Rabs x * Rabs y) <= e) by nra.
    assert (Rabs z * Rabs (sin t' - sin t) <= e) by nra. lra. }
  assert (D' : forall x y z, Rabs x <= 1 -> Rabs y <= 1 -> Rabs z <= 1 ->
     Rabs ((1 - cos t) * x * y - sin t * z - ((1 - cos t') * x * y - sin t' * z)) <= 2 * e).
  { intros x y z X Y Z. rewrite <- (Rabs_Ropp z) in Z. pose proof (D x y (- z) X Y Z) as K.
    eapply Rle_trans; [|exact K]. right. f_equal. ring. }
  assert (G : forall x, Rabs x <= 1 ->
     Rabs ((1 - cos t) * x * x + cos t - ((1 - cos t') * x * x + cos t')) <= 2 * e).
  { intros x X.
    replace ((1 - cos t) * x * x + cos t - ((1 - cos t') * x * x + cos t'))
      with ((cos t' - cos t) * (x * x - 1)) by ring. rewrite Rabs_mult.
    assert (Rabs (x * x - 1) <= 1).
    { apply Rabs_le.
      assert (x * x <= 1) by (rewrite <- (Rabs_pos_eq (x * x)) by nra; rewrite Rabs_mult;
        pose proof (Rabs_pos x); nra). nra. }
    pose proof (Rabs_pos (cos t' - cos t)). pose proof (Rabs_pos (x * x - 1)). nra. }
  unfold near_m3, AA, matc. c3.
  repeat split; auto.
Qed.

(** SO3.log, where it is defined, returns a vector of length at most pi whose
    exact exponential is within eps^5 of the rotation, and is the rotation
    itself when the vector is not shorter than eps *)
Theorem C36_log_is_logarithm : forall d g v, rotation3 g -> so3_log d g = Some v ->
  len3 v <= PI /\
  exists m, is_exp_m3 (so3_alg v) m /\ near_m3 (so3_near_zero_eps d ^ 5) m g
    /\ (so3_near_zero_eps d <= len3 v -> m = g /\ so3_exp d v = Some g).
Proof.
  intros d g v H L. destruct (axis_angle g H) as (th & a & T & A & E & _). subst g.
  pose proof (so3_eps_pos d) as EP. pose proof PI_RGT_0 as PP.
  assert (NR : forall m, near_m3 (so3_near_zero_eps d ^ 5) m m).
  { intro m. unfold near_m3, Rminus. rewrite !Rplus_opp_r, Rabs_R0.
    assert (0 <= so3_near_zero_eps d ^ 5) by (apply pow_le; lra). tauto. }
  assert (X : forall t, Rabs t = th -> AA t a = AA th a -> so3_near_zero_eps d <= th -> v = scal3 t a ->
    len3 v <= PI /\ exists m, is_exp_m3 (so3_alg v) m /\ near_m3 (so3_near_zero_eps d ^ 5) m (AA th a)
    /\ (so3_near_zero_eps d <= len3 v -> m = AA th a /\ so3_exp d v = Some (AA th a))).
  { intros t RT ET LT ->. rewrite <- norm3_len, norm3_scal, RT by exact A. split; [lra|].
    exists (AA th a). split; [apply is_exp_E3; rewrite E3_scal by exact A; congruence|].
    split; [apply NR|]. intros _. split; [reflexivity|].
    rewrite so3_exp_big by (rewrite norm3_scal, RT by exact A; lra).
    rewrite <- ET, <- (E3_scal t a A). unfold E3. destruct (Req_EM_T (norm3 (scal3 t a)) 0) as [Z|_]; [|reflexivity].
    rewrite norm3_scal, RT in Z by exact A. lra. }
  destruct (Rlt_dec th (so3_near_zero_eps d)) as [S|S].
  - rewrite log_small in L by assumption. apply some_inj in L. subst v.
    destruct (asin_series th (proj1 T)) as [A1 A2].
    set (t := sin th * (1 + sin th ^ 2 / 6)) in *.
    assert (TP : 0 <= t).
    { pose proof (sin_ge_0 th ltac:(lra) ltac:(lra)). pose proof (pow2_ge_0 (sin th)). unfold t. nra. }
    rewrite <- norm3_len, norm3_scal by exact A. rewrite Rabs_pos_eq by exact TP.
    split; [lra|]. exists (AA t a).
    split; [apply is_exp_E3; symmetry; apply E3_scal; exact A|]. split; [|lra].
    pose proof (near_AA t th a A ltac:(lra)) as N.
    assert (P5 : th ^ 5 <= so3_near_zero_eps d ^ 5) by (apply pow_incr; lra).
    assert (0 <= th ^ 5) by (apply pow_le; lra).
    unfold near_m3 in *.
    repeat match goal with |- _ /\ _ => split end;
      (eapply Rle_trans; [apply N|lra]).
  - destruct (Rle_dec (1 + cos th) (so3_near_pi_eps d)) as [P|P].
    + destruct (log_pi d th a T A P) as [[_ K]|[[_ K]|[_ [TP K]]]]; rewrite K in L; [discriminate| |];
        apply some_inj in L; subst v.
      * apply (X th); [apply Rabs_pos_eq; lra|reflexivity|lra|reflexivity].
      * apply (X (- th)); [rewrite Rabs_Ropp; apply Rabs_pos_eq; lra|subst th; apply AA_PI_neg|lra|reflexivity].
    + rewrite log_mid in L by (try assumption; lra). apply some_inj in L. subst v.
      apply (X th); [apply Rabs_pos_eq; lra|reflexivity|lra|reflexivity].
Qed.

(** log is undefined exactly near half a turn when the first axis coordinate
    vanishes and the other two have the same size *)
Theorem C36_log_defined : forall d g, rotation3 g ->
  (so3_log d g = None <->
   (1 + d00 g + d11 g + d22 g) / 2 <= so3_near_pi_eps d
   /\ 2 * d00 g = d00 g + d11 g + d22 g - 1 /\ d11 g = d22 g).
Proof.
  intros d g H. destruct (axis_angle g H) as (th & a & T & A & E & _).
  assert (C : (1 + d00 g + d11 g + d22 g) / 2 = 1 + cos th).
  { rewrite <- (AA_cosine th a A), <- E. unfold so3_cosine. field. }
  rewrite C. rewrite E.
  assert (TI : cos th < 1 -> (2 * d00 (AA th a) = d00 (AA th a) + d11 (AA th a) + d22 (AA th a) - 1
               /\ d11 (AA th a) = d22 (AA th a)) <-> (b0 a = 0 /\ b1 a * b1 a = b2 a * b2 a)).
  { intro LT. unfold AA, matc. c3. unfold dot3 in A. destruct a as [x y z]. c3h A. c3. split; intros [X Y].
    - assert (YZ : y * y = z * z) by nra. split; [|exact YZ]. assert ((1 - cos th) * (x * x) = 0) by nra.
      apply Rmult_integral in H0. destruct H0; [lra|nra].
    - subst x. split; nra. }
  destruct (Rle_dec (1 + cos th) (so3_near_pi_eps d)) as [P|P].
  - destruct (near_pi_big d th T P) as [_ CN]. rewrite TI by lra.
    destruct (log_pi d th a T A P) as [[K ->]|[[K ->]|[K [_ ->]]]]; unfold log_tie in K.
    + tauto.
    + split; [discriminate|tauto].
    + split; [discriminate|tauto].
  - split; [|tauto]. destruct (Rlt_dec th (so3_near_zero_eps d)).
    + rewrite log_small by assumption. discriminate.
    + rewrite log_mid by (try assumption; lra). discriminate.
Qed.

(** F57: the half turn that swaps y and z has no logarithm according to the code *)
Theorem C36_log_half_turn_refuted : exists g, rotation3 g
  /\ (exists v, is_exp_m3 (so3_alg v) g) /\ forall d, so3_log d g = None.
Proof.
  exists (mkM3 (-1) 0 0 0 0 1 0 1 0).
  assert (R : rotation3 (mkM3 (-1) 0 0 0 0 1 0 1 0)).
  { split; [apply M3_ext; cbn; ring|unfold det3; c3; ring]. }
  split; [exact R|]. split.
  - destruct (axis_angle _ R) as (th & a & _ & A & E & _). exists (scal3 th a).
    apply is_exp_E3. rewrite E3_scal by exact A. exact E.
  - intro d. apply C36_log_defined; [exact R|]. c3. pose proof (so3_pi_eps_pos d). lra.
Qed.

(** log inverts exp on vectors shorter than pi (exactly outside the small-angle
    branch, up to a relative error eps^2 / 6 inside it) wherever it is defined *)
Lemma unit_of : forall v, norm3 v <> 0 -> exists a, dot3 a a = 1 /\ v = scal3 (norm3 v) a.
Proof.
  intros v N. exists (scal3 (/ norm3 v) v). pose proof (norm3_sq v) as Q.
  split; [|apply V3_ext; unfold scal3; c3; field; exact N].
  unfold dot3 in Q |- *. unfold scal3. c3.
  replace (_ + _ + _) with ((b0 v * b0 v + b1 v * b1 v + b2 v * b2 v) * / (norm3 v * norm3 v)) by (field; exact N).
  rewrite <- Q. field. exact N.
Qed.
Theorem C36_log_exp : forall d v g, so3_near_zero_eps d <= len3 v < PI -> so3_exp d v = Some g ->
  so3_log d g = Some v \/ so3_log d g = None.
Proof.
  intros d v g [L U] E. pose proof (so3_eps_pos d) as EP. rewrite <- norm3_len in *.
  destruct (unit_of v ltac:(lra)) as (a & A & V).
  assert (G : g = AA (norm3 v) a).
  { rewrite so3_exp_big in E by exact L. apply some_inj in E. subst g.
    rewrite <- (E3_scal _ a A), <- V. unfold E3. destruct (Req_EM_T (norm3 v) 0); [lra|reflexivity]. }
  rewrite G. rewrite V at 2. set (th := norm3 v) in *. clearbody th.
  destruct (Rle_dec (1 + cos th) (so3_near_pi_eps d)) as [P|P].
  - destruct (log_pi d th a ltac:(lra) A P) as [[_ ->]|[[_ ->]|[_ [K _]]]]; [tauto|tauto|lra].
  - left. apply log_mid; lra || exact A.
Qed.
Theorem C36_log_exp_small_angle : forall d v g, len3 v < so3_near_zero_eps d -> so3_exp d v = Some g ->
  exists u, so3_log d g = Some u /\ len3 (sub3 u v) <= len3 v ^ 3 / 6.
Proof.
  intros d v g L E. pose proof (so3_eps_pos d) as EP. rewrite <- norm3_len in *.
  destruct (C36_exp_rotation d v) as (g' & E' & RG). rewrite E in E'. apply some_inj in E'. subst g'.
  destruct (Req_EM_T (norm3 v) 0) as [Z|N].
  - assert (V0 : v = zero3) by (apply norm3_zero; exact Z). subst v.
    assert (G : g = AA 0 (mkV3 1 0 0)).
    { pose proof (proj2 (C36_exp_is_exponential d zero3 g (or_intror eq_refl) E g) eq_refl) as K.
      apply is_exp_E3 in K. rewrite K. rewrite <- (E3_scal 0 (mkV3 1 0 0)) by (unfold dot3; c3; ring).
      f_equal. apply V3_ext; unfold scal3, zero3; c3; ring. }
    rewrite G. exists zero3. split.
    + rewrite log_small; [|pose proof PI_RGT_0; lra|unfold dot3; c3; ring|lra].
      rewrite sin_0. apply f_equal, V3_ext; unfold scal3, zero3; c3; ring.
    + rewrite <- norm3_len. replace (sub3 zero3 zero3) with zero3 by (apply V3_ext; unfold sub3, zero3; c3; ring).
      rewrite Z. lra.
  - destruct (unit_of v N) as (a & A & V). set (t := norm3 v) in *.
    assert (TP : 0 < t) by (pose proof (norm3_pos v); fold t in H; lra).
    (* the small branch is the rotation by 2 atan (t/2) *)
    rewrite so3_exp_small in E by exact L. apply some_inj in E.
    assert (DV : dot3 v v = t ^ 2) by (unfold t; rewrite norm3_sq2; reflexivity). rewrite DV in E.
    set (c := 8 / (4 + t ^ 2) - 1) in *.
    assert (T2 : 0 < t ^ 2 <= / 10000) by nra.
    assert (CC : (4 - t ^ 2) / (4 + t ^ 2) = c) by (unfold c; field; lra).
    assert (CB : 0 <= c <= 1).
    { rewrite <- CC. split; [apply Rmult_le_pos; [lra|apply Rlt_le, Rinv_0_lt_compat; lra]|].
      apply Rmult_le_reg_r with (4 + t ^ 2); [lra|]. unfold Rdiv. rewrite Rmult_assoc, Rinv_l by lra. lra. }
    set (al := acos c).
    pose proof (acos_bound c) as AB. fold al in AB.
    assert (CA : cos al = c) by (apply cos_acos; lra).
    assert (SA : sin al = 4 * t / (4 + t ^ 2)).
    { unfold al. rewrite sin_acos by lra. unfold Rsqr.
      replace (1 - c * c) with (Rsqr (4 * t / (4 + t ^ 2))) by (rewrite <- CC; unfold Rsqr; field; lra).
      apply sqrt_Rsqr. apply Rmult_le_pos; [lra|apply Rlt_le, Rinv_0_lt_compat; lra]. }
    assert (G : g = AA al a).
    { rewrite <- E. unfold AA. rewrite CA, SA, V.
      unfold c. apply M3_ext; unfold matc, scal3; c3; field; lra. }
    pose proof PI2_RGT_0. pose proof PI2_1.
    assert (AL : al <= t).
    { destruct (Rle_dec al t) as [K|K]; [exact K|].
      pose proof (cos_decreasing_1 t al ltac:(lra) ltac:(lra) ltac:(lra) ltac:(lra) ltac:(lra)) as D.
      pose proof (cos_coef t ltac:(lra)) as KC. rewrite CA in D. unfold c in D. lra. }
    rewrite G. eexists. split; [apply log_small; lra || exact A|].
    rewrite <- norm3_len.
    set (k := sin al * (1 + sin al ^ 2 / 6)).
    replace (sub3 (scal3 k a) v) with (scal3 (k - t) a) by (rewrite V at 1; apply V3_ext; unfold sub3, scal3; c3; ring).
    rewrite norm3_scal by exact A.
    (* |k - t| <= t^3 / 6 *)
    assert (ID : t - k = t * (t ^ 2 * (16 + 24 * t ^ 2 + 3 * t ^ 4) / (3 * (4 + t ^ 2) ^ 3)))
      by (unfold k; rewrite SA; field; lra).
    rewrite Rabs_minus_sym, ID.
    assert (Q3 : 0 < (4 + t ^ 2) ^ 3) by (apply pow_lt; lra).
    assert (Q4 : 64 <= (4 + t ^ 2) ^ 3).
    { replace 64 with (4 ^ 3) by ring. apply pow_incr. lra. }
    set (w := t ^ 2) in *. replace (t ^ 4) with (w * w) by (unfold w; ring).
    replace (t ^ 3 / 6) with (t * (w / 6)) by (unfold w; field).
    assert (I : 0 <= w * (16 + 24 * w + 3 * (w * w)) / (3 * (4 + w) ^ 3) <= w / 6).
    { split.
      - apply Rmult_le_pos; [nra|]. apply Rlt_le, Rinv_0_lt_compat. lra.
      - apply Rmult_le_reg_r with (3 * (4 + w) ^ 3); [lra|]. unfold Rdiv at 1. rewrite Rmult_assoc, Rinv_l by lra.
        nra. }
    rewrite Rabs_pos_eq by (apply Rmult_le_pos; lra).
    apply Rmult_le_compat_l; lra.
Qed.

(** ** to_quaternion *)
Lemma half_bounds : forall th, 0 <= th <= PI -> 0 <= cos (th / 2) <= 1 /\ 0 <= sin (th / 2) <= 1
  /\ cos th = 2 * (cos (th / 2) * cos (th / 2)) - 1 /\ sin th = 2 * sin (th / 2) * cos (th / 2).
Proof.
  intros th T. pose proof PI_RGT_0. pose proof (COS_bound (th / 2)). pose proof (SIN_bound (th / 2)).
  pose proof (cos_ge_0 (th / 2) ltac:(lra) ltac:(lra)). pose proof (sin_ge_0 (th / 2) ltac:(lra) ltac:(lra)).
  split; [lra|]. split; [lra|].
  split; [replace th with (2 * (th / 2)) at 1 by field; rewrite cos_2a_cos; ring|].
  replace th with (2 * (th / 2)) at 1 by field. rewrite sin_2a. ring.
Qed.
Lemma AA_w : forall th a, 0 <= th <= PI -> dot3 a a = 1 ->
  1 / 2 * sqrt (clamp (1 + d00 (AA th a) + d11 (AA th a) + d22 (AA th a)) 0 4) = cos (th / 2).
Proof.
  intros th a T A. destruct (half_bounds th T) as (C & S & C2 & _).
  pose proof (AA_cosine th a A) as K. unfold so3_cosine in K. rewrite C2 in K.
  replace (1 + d00 (AA th a) + d11 (AA th a) + d22 (AA th a)) with (Rsqr (2 * cos (th / 2))) by (unfold Rsqr; lra).
  unfold clamp. rewrite Rmax_left by apply Rle_0_sqr. rewrite Rmin_left by (unfold Rsqr; nra).
  rewrite sqrt_Rsqr by lra. field.
Qed.
Lemma AA_quat : forall th a, 0 <= th <= PI -> dot3 a a = 1 ->
  AA th a = so3_quat_mat (mkQ (cos (th / 2)) (sin (th / 2) * b0 a) (sin (th / 2) * b1 a) (sin (th / 2) * b2 a)).
Proof.
  intros th a T A. destruct (half_bounds th T) as (_ & _ & C2 & S2).
  pose proof (sin2cos2 (th / 2)) as SC. unfold AA. rewrite C2, S2.
  set (c := cos (th / 2)) in *. set (s := sin (th / 2)) in *. clearbody c s.
  destruct a as [x y z]. unfold dot3 in A. c3h A.
  assert (X : x * x = 1 - y * y - z * z) by lra. assert (K : c * c = 1 - s * s) by lra.
  apply M3_ext; unfold matc, so3_quat_mat; c3; ring [X K].
Qed.

(** to_quaternion, where it is defined, returns a unit quaternion with
    nonnegative real part that converts back to the same rotation; it is
    undefined only near half a turn, in the same tie as log *)
Theorem C36_to_quaternion : forall d g, rotation3 g ->
  (forall q, so3_to_quaternion d g = Some q ->
     qnorm2 q = 1 /\ 0 <= qw q /\ so3_quaternion_to_rotation q = Some g)
  /\ (so3_to_quaternion d g = None <->
      sqrt (1 + d00 g + d11 g + d22 g) / 2 <= so3_near_pi_eps d
      /\ 2 * d00 g = d00 g + d11 g + d22 g - 1 /\ d11 g = d22 g).
Proof.
  intros d g H. destruct (axis_angle g H) as (th & a & T & A & E & _).
  destruct (half_bounds th T) as (C & S & C2 & S2). pose proof (sin2cos2 (th / 2)) as SC.
  pose proof (so3_eps_pos d) as EP. pose proof (so3_pi_eps_pos d) as PE.
  assert (SQ : sqrt (1 + d00 g + d11 g + d22 g) / 2 = cos (th / 2)).
  { rewrite <- (AA_w th a T A), <- E. unfold clamp.
    pose proof (rot_trace g H) as ((T0 & T1) & _). rewrite Rmax_left, Rmin_left by (try rewrite Rmax_left; lra). field. }
  rewrite SQ. rewrite E.
  assert (FIN : forall q, qnorm2 q = 1 -> so3_quat_mat q = AA th a -> so3_quaternion_to_rotation q = Some (AA th a)).
  { intros q Q M. destruct (C36_quaternion q) as (K & _). unfold so3_quaternion_to_rotation.
    rewrite (proj1 (quat_normalized q ltac:(lra))). cbv beta iota delta [bind]. rewrite <- M. do 2 f_equal.
    assert (NQ : so3_quat_norm q = 1).
    { unfold so3_quat_norm. unfold qnorm2 in Q. rewrite Q. apply sqrt_1. }
    apply Quat_ext; unfold qscal; c3; rewrite NQ; field. }
  unfold so3_to_quaternion. rewrite AA_w by assumption. rewrite AA_sine_axis.
  change (1 / 2 * (d00 (AA th a) + d11 (AA th a) + d22 (AA th a) - 1)) with (so3_cosine (AA th a)).
  rewrite AA_cosine, AA_sel by exact A.
  destruct (Rle_dec (cos (th / 2)) (so3_near_pi_eps d)) as [P|P].
  - rewrite le_b_true by exact P. rewrite (lt_b_false (1 - so3_near_zero_eps d)) by lra. unfold where_.
    assert (CN : cos th < 0) by nra.
    rewrite norm3_scal by exact A.
    set (am := nth3 (so3_major (AA th a)) a).
    assert (NS : nth3 (so3_major (AA th a)) (scal3 (sin th) a) = sin th * am).
    { unfold am. destruct (so3_major (AA th a)) as [|[|m]]; reflexivity. }
    rewrite NS.
    assert (SH : sqrt (clamp (1 / 2 * (1 - cos th)) (so3_to_quaternion_sqrt_eps d) 1) = sin (th / 2)).
    { replace (1 / 2 * (1 - cos th)) with (Rsqr (sin (th / 2))) by (unfold Rsqr; lra).
      unfold clamp, so3_to_quaternion_sqrt_eps, Rsqr. rewrite Rmax_left by nra. rewrite Rmin_left by nra.
      rewrite sqrt_square by lra. reflexivity. }
    rewrite SH.
    assert (TI : (2 * d00 (AA th a) = d00 (AA th a) + d11 (AA th a) + d22 (AA th a) - 1
                 /\ d11 (AA th a) = d22 (AA th a)) <-> (b0 a = 0 /\ b1 a * b1 a = b2 a * b2 a)).
    { clear - A CN. unfold AA, matc. c3. unfold dot3 in A. destruct a as [x y z]. c3h A. c3. split; intros [X Y].
      - assert (YZ : y * y = z * z) by nra. split; [|exact YZ]. assert (K : (1 - cos th) * (x * x) = 0) by nra.
        apply Rmult_integral in K. destruct K; [lra|nra].
      - subst x. split; nra. }
    rewrite TI.
    destruct (Req_EM_T am 0) as [Z|N].
    + rewrite Z, Rmult_0_r, Rabs_R0, div3_none. cbv beta iota delta [bind].
      destruct (AA_major_le th a ltac:(lra) A Z) as (A0 & A1 & _).
      split; [discriminate|]. tauto.
    + assert (NT : ~ (b0 a = 0 /\ b1 a * b1 a = b2 a * b2 a)).
      { intros (A0 & A1). apply N. unfold am. unfold so3_major, AA, matc. c3.
        rewrite !(lt_b_false ((1 - cos th) * b2 a * b2 a + cos th)),
          !(lt_b_false ((1 - cos th) * b1 a * b1 a + cos th)) by nra.
        rewrite !Bool.andb_false_r. cbn [andb Nat.add Nat.mul nth3]. exact A0. }
      assert (NZ : (1 - cos th) * am <> 0) by (apply Rmult_integral_contrapositive_currified; lra).
      rewrite div3_some by (apply Rabs_no_R0; exact NZ). cbv beta iota delta [bind].
      split; [|split; [discriminate|tauto]].
      intros q Hq. apply some_inj in Hq.
      assert (SN : forall t u, scal3 t (scal3 u (scal3 (/ Rabs ((1 - cos th) * am)) (scal3 ((1 - cos th) * am) a)))
                = scal3 (t * (u * ((1 - cos th) * am / Rabs ((1 - cos th) * am)))) a).
      { intros t u. apply V3_ext; unfold scal3; c3; field; apply Rabs_no_R0; exact NZ. }
      rewrite SN in Hq. clear SN.
      assert (SG : (1 - cos th) * am / Rabs ((1 - cos th) * am) = if Rlt_dec 0 am then 1 else -1).
      { destruct (Rlt_dec 0 am).
        - rewrite Rabs_pos_eq by nra. field. split; lra.
        - rewrite Rabs_left by nra. field. split; lra. }
      rewrite SG in Hq.
      assert (X : exists u, (u = 1 \/ (u = -1 /\ cos (th / 2) = 0))
               /\ q = mkQ (cos (th / 2)) (sin (th / 2) * u * b0 a) (sin (th / 2) * u * b1 a) (sin (th / 2) * u * b2 a)).
      { destruct (Rle_dec 0 (sin th * am)) as [K|K]; destruct (Rlt_dec 0 am) as [L|L].
        - exists 1. split; [tauto|]. rewrite <- Hq. apply Quat_ext; unfold scal3; c3; ring.
        - exists (-1). split; [right; split; [reflexivity|]|].
          + assert (sin th <= 0) by nra. rewrite S2 in H0.
            destruct (Req_EM_T (cos (th / 2)) 0); [assumption|]. assert (0 < sin (th / 2)) by nra. nra.
          + rewrite <- Hq. apply Quat_ext; unfold scal3; c3; ring.
        - exfalso. apply K. rewrite S2. apply Rmult_le_pos; [|lra]. nra.
        - exists 1. split; [tauto|]. rewrite <- Hq. apply Quat_ext; unfold scal3; c3; ring. }
      destruct X as (u & U & ->).
      assert (UU : u * u = 1) by (destruct U as [->|[-> _]]; ring).
      assert (Q1 : qnorm2 (mkQ (cos (th / 2)) (sin (th / 2) * u * b0 a) (sin (th / 2) * u * b1 a) (sin (th / 2) * u * b2 a)) = 1).
      { unfold qnorm2. c3. unfold dot3 in A.
        replace (_ + _ + _ + _) with (cos (th/2) * cos (th/2) + sin (th/2) * sin (th/2) * (u * u) * (b0 a * b0 a + b1 a * b1 a + b2 a * b2 a)) by ring.
        rewrite UU, A. lra. }
      split; [exact Q1|]. split; [c3; lra|]. apply FIN; [exact Q1|].
      rewrite (AA_quat th a T A).
      destruct U as [->|[-> Z]].
      * rewrite !Rmult_1_r. reflexivity.
      * rewrite Z. apply M3_ext; unfold so3_quat_mat; c3; ring.
  - rewrite le_b_false by lra. unfold where_. rewrite div3_some by lra. cbv beta iota delta [bind].
    split; [|split; [discriminate|tauto]].
    intros q Hq. apply some_inj in Hq.
    assert (X : q = mkQ (cos (th / 2)) (sin (th / 2) * b0 a) (sin (th / 2) * b1 a) (sin (th / 2) * b2 a)).
    { rewrite <- Hq, S2. apply Quat_ext; unfold scal3; c3; field; lra. }
    clear Hq. rewrite X. assert (Q1 : qnorm2 (mkQ (cos (th / 2)) (sin (th / 2) * b0 a) (sin (th / 2) * b1 a) (sin (th / 2) * b2 a)) = 1).
    { unfold qnorm2. c3. unfold dot3 in A.
      replace (_ + _ + _ + _) with (cos (th/2) * cos (th/2) + sin (th/2) * sin (th/2) * (b0 a * b0 a + b1 a * b1 a + b2 a * b2 a)) by ring.
      rewrite A. lra. }
    split; [exact Q1|]. split; [c3; lra|]. apply FIN; [exact Q1|]. symmetry. apply AA_quat; assumption.
Qed.
