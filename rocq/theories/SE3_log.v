(** C37: SE3.log is the inverse of the exponential. *)
From Coq Require Import Reals Lra Psatz.
From Coquelicot Require Import Coquelicot.
From Verif Require Import Geo_spec Geo3_spec Geo4_spec Trig Exp_unique SE2_model SE2_group SE2_exp SE2_jac
  SO3_model SO3_exp SO3_jexp SO3_group SO3_quat SO3_ops SO3_log SE3_model SE3_group SE3_exp SE3_jexp.
Local Open Scope R_scope.

Lemma log_lin_app : forall a b w p, se3_log_lin a b w p = app3 (matc a (- 1 / 2) b w) p.
Proof.
  intros a b [x y z] [p q r]. unfold se3_log_lin, dot_, cross_, minus3, matc, app3, add3, scal3. c3.
  apply V3_ext; c3; field.
Qed.
Lemma matc_matc : forall c s o c' s' o' w, mul3 (matc c s o w) (matc c' s' o' w)
  = matc (c * c' - s * s' * dot3 w w) (c * s' + s * c') (c * o' + o * c' + s * s' + o * o' * dot3 w w) w.
Proof. intros c s o c' s' o' []. unfold dot3. apply M3_ext; cbn; ring. Qed.
Lemma matc_I : forall w, matc 1 0 0 w = I3.
Proof. intros []. apply M3_ext; cbn; ring. Qed.

Lemma app3_sub : forall m u v, sub3 (app3 m u) (app3 m v) = app3 m (sub3 u v).
Proof. intros [] [] []. apply V3_ext; unfold app3, sub3; c3; cbn; ring. Qed.

(** the coefficients away from zero *)
Definition la (th : R) : R := th * sin th / (2 * (1 - cos th)).
Definition lb (th : R) : R := (1 - la th) / (th * th).
Lemma cos_lt1 : forall th, 0 < th <= PI -> cos th < 1.
Proof. intros th H. pose proof PI_RGT_0. apply cos_lt_1. rewrite Rabs_pos_eq; lra. Qed.
Lemma log_coefs_big : forall d th, so3_near_zero_eps d <= th <= PI ->
  se3_log_coefs d th (sin th) (cos th) = Some (la th, lb th).
Proof.
  intros d th [T P]. pose proof (so3_eps_pos d). pose proof (cos_lt1 th ltac:(lra)) as C.
  unfold se3_log_coefs. rewrite lt_b_false by exact T. unfold where_.
  assert (N1 : 2 * cos th - 2 <> 0) by lra. assert (N2 : th ^ 2 <> 0) by (apply pow_nonzero; lra).
  rewrite div_some by exact N1. cbv beta iota delta [bind].
  rewrite div_some by (apply Rmult_integral_contrapositive_currified; assumption). cbv beta iota delta [bind].
  apply f_equal. unfold lb, la. apply f_equal2; field; repeat split; lra.
Qed.
Lemma log_coefs_small : forall d th s c, th < so3_near_zero_eps d ->
  se3_log_coefs d th s c = Some (1 - th ^ 2 / 12, 1 / 12 + th ^ 2 / 720).
Proof.
  intros d th s c T. unfold se3_log_coefs. rewrite lt_b_true by exact T. unfold where_, NON_ZERO.
  rewrite !div_some by lra. reflexivity.
Qed.

(** (sin t / t) I + ... and its inverse *)
Lemma V_inv : forall w, norm3 w <> 0 -> cos (norm3 w) <> 1 ->
  mul3 (Vcur w 1) (matc (la (norm3 w)) (- 1 / 2) (lb (norm3 w)) w) = I3
  /\ mul3 (matc (la (norm3 w)) (- 1 / 2) (lb (norm3 w)) w) (Vcur w 1) = I3.
Proof.
  intros w N C. unfold Vcur. destruct (Req_EM_T (norm3 w) 0) as [Z|_]; [contradiction|].
  rewrite Rmult_1_r, !matc_matc. rewrite <- norm3_sq2. unfold lb, la.
  pose proof (sin2cos2 (norm3 w)) as Q. set (t := norm3 w) in *. clearbody t.
  set (s := sin t) in *. set (c := cos t) in *. clearbody s c.
  assert (Q2 : s ^ 2 = 1 - c ^ 2) by lra. assert (C' : 1 - c <> 0) by lra.
  split; (rewrite <- (matc_I w); apply (f_equal3 (fun x y z => matc x y z w)));
    field_simplify_eq; try (repeat split; assumption); ring [Q2].
Qed.
Lemma neg_half : forall th, la (- th) = la th /\ lb (- th) = lb th.
Proof.
  intro th. assert (E : la (- th) = la th).
  { unfold la. rewrite sin_neg, cos_neg. unfold Rdiv. ring. }
  split; [exact E|]. unfold lb. rewrite E. f_equal. ring.
Qed.

(** what log returns, by angle *)
Lemma log_form : forall d g w, rotation3 g -> so3_log d g = Some w -> exists th, 0 <= th <= PI
  /\ so3_theta g = th /\ so3_sine g = sin th /\ so3_cosine g = cos th
  /\ ((th < so3_near_zero_eps d /\ norm3 w = sin th * (1 + sin th ^ 2 / 6))
      \/ (so3_near_zero_eps d <= th /\ norm3 w = th /\ E3 w = g)).
Proof.
  intros d g w H L. destruct (axis_angle g H) as (th & a & T & A & E & _). subst g.
  exists th. rewrite AA_theta, AA_sine, AA_cosine by assumption. repeat (split; [tauto|]).
  pose proof (so3_eps_pos d) as EP. pose proof PI_RGT_0.
  assert (X : forall t, Rabs t = th -> AA t a = AA th a -> w = scal3 t a -> norm3 w = th /\ E3 w = AA th a).
  { intros t RT ET ->. rewrite norm3_scal, E3_scal by exact A. auto. }
  destruct (Rlt_dec th (so3_near_zero_eps d)) as [S|S]; [left|right].
  - split; [exact S|]. rewrite log_small in L by assumption. apply some_inj in L. subst w.
    rewrite norm3_scal by exact A. apply Rabs_pos_eq.
    pose proof (sin_ge_0 th ltac:(lra) ltac:(lra)). pose proof (pow2_ge_0 (sin th)). nra.
  - split; [lra|]. destruct (Rle_dec (1 + cos th) (so3_near_pi_eps d)) as [P|P].
    + destruct (log_pi d th a T A P) as [[_ K]|[[_ K]|[_ [TP K]]]]; rewrite K in L; [discriminate| |];
        apply some_inj in L; subst w.
      * apply (X th); [apply Rabs_pos_eq; lra|reflexivity|reflexivity].
      * apply (X (- th)); [rewrite Rabs_Ropp; apply Rabs_pos_eq; lra|subst th; apply AA_PI_neg|reflexivity].
    + rewrite log_mid in L by (try assumption; lra). apply some_inj in L. subst w.
      apply (X th); [apply Rabs_pos_eq; lra|reflexivity|reflexivity].
Qed.

(** how far the small-angle coefficients are from those of the inverse *)
Lemma la_bound : forall t, 0 < t <= / 5 -> Rabs (la t - (1 - t ^ 2 / 12)) <= t ^ 4 / 600.
Proof.
  intros t T. pose proof PI2_1. pose proof PI2_RGT_0.
  pose proof (cos_ge_6 t ltac:(lra)) as C6. pose proof (cos_le_4 t ltac:(lra)) as C4.
  pose proof (sin_ge_7 t ltac:(lra)) as S7. pose proof (sin_le_5 t ltac:(lra)) as S5.
  pose proof (cos_lt1 t ltac:(lra)) as C1.
  unfold la. set (e1 := _ - _). set (X := 2 * (1 - cos t)) in *.
  assert (EX : e1 * X = t * sin t - (1 - t ^ 2 / 12) * X) by (unfold e1; field; unfold X; lra).
  assert (XL : t ^ 2 - t ^ 4 / 12 <= X) by (unfold X; lra).
  assert (XU : X <= t ^ 2 - t ^ 4 / 12 + t ^ 6 / 360) by (unfold X; lra).
  assert (SU : t * sin t <= t ^ 2 - t ^ 4 / 6 + t ^ 6 / 120).
  { apply Rle_trans with (t * (t - t ^ 3 / 6 + t ^ 5 / 120)); [apply Rmult_le_compat_l; lra|]. right. field. }
  assert (SL : t ^ 2 - t ^ 4 / 6 + t ^ 6 / 120 - t ^ 8 / 5040 <= t * sin t).
  { apply Rle_trans with (t * (t - t ^ 3 / 6 + t ^ 5 / 120 - t ^ 7 / 5040)); [right; field|apply Rmult_le_compat_l; lra]. }
  clearbody X e1. clear - EX XL XU T SU SL.
  set (y := t * sin t) in *. clearbody y.
  replace (t ^ 8) with (t ^ 2 * t ^ 2 * (t ^ 2 * t ^ 2)) in * by ring.
  replace (t ^ 4) with (t ^ 2 * t ^ 2) in * by ring. replace (t ^ 6) with (t ^ 2 * t ^ 2 * t ^ 2) in * by ring.
  set (w := t ^ 2) in *. assert (W : 0 < w <= 4 / 100) by (unfold w; nra). clearbody w.
  assert (W3 : 0 < w * w * w) by (apply Rmult_lt_0_compat; nra).
  assert (W4 : w * w * (w * w) <= w * w * w * (4 / 100)) by nra.
  assert (P1 : (1 - w / 12) * X <= (1 - w / 12) * (w - w * w / 12 + w * w * w / 360)) by (apply Rmult_le_compat_l; lra).
  assert (P2 : (1 - w / 12) * (w - w * w / 12) <= (1 - w / 12) * X) by (apply Rmult_le_compat_l; lra).
  assert (B : - (w * w * w / 700) <= e1 * X <= w * w * w / 700) by (rewrite EX; nra).
  assert (XH : 9 / 10 * w <= X) by nra.
  apply Rabs_le. split; apply Rnot_lt_le; intro K.
  - assert (e1 * X < - (w * w / 600) * (9 / 10 * w)); [|nra].
    apply Rle_lt_trans with (e1 * (9 / 10 * w)); [|apply Rmult_lt_compat_r; nra].
    apply Ropp_le_cancel. rewrite !Ropp_mult_distr_l. apply Rmult_le_compat_l; nra.
  - assert (w * w / 600 * (9 / 10 * w) < e1 * X); [|nra].
    apply Rlt_le_trans with (e1 * (9 / 10 * w)); [apply Rmult_lt_compat_r; nra|].
    apply Rmult_le_compat_l; nra.
Qed.
Lemma lb_bound : forall t, 0 < t <= / 5 -> Rabs (lb t - 1 / 12) <= t ^ 2 / 600.
Proof.
  intros t T. pose proof (la_bound t T) as A. apply Rabs_le_between in A.
  assert (P : 0 < t * t) by nra. assert (N : t <> 0) by lra.
  assert (E : (lb t - 1 / 12) * (t * t) = - (la t - (1 - t ^ 2 / 12))) by (unfold lb; field; exact N).
  replace (t ^ 4) with (t ^ 2 * (t * t)) in A by ring.
  set (x := lb t - 1 / 12) in *. clearbody x. set (y := la t - _) in *. clearbody y.
  apply Rabs_le. split; apply Rnot_lt_le; intro K; nra.
Qed.

(** log of a rigid motion is a logarithm: its matrix exponential is the motion
    itself, exactly when the rotation angle is at least the threshold; below it
    the entries are within eps^5 and eps^4 times the length of the translation *)
Theorem C37_log_is_logarithm : forall d g xi, rigid3 g -> se3_log d g = Some xi ->
  len3 (ang xi) <= PI /\ so3_log d (rr g) = Some (ang xi) /\
  exists m, is_exp_m44 (se3_alg xi) m
    /\ near_m3 (so3_near_zero_eps d ^ 5) (q33 m) (rr g)
    /\ len3 (sub3 (q31 m) (rp g)) <= so3_near_zero_eps d ^ 4 * len3 (rp g)
    /\ (so3_near_zero_eps d <= len3 (ang xi) -> m = hmat g /\ se3_exp d xi = Some g).
Proof.
  intros d g xi H L. unfold se3_log in L.
  destruct (so3_log d (rr g)) as [w|] eqn:LW; [|discriminate]. cbv beta iota delta [bind] in L.
  destruct (C36_log_is_logarithm d (rr g) w H LW) as (LP & m & ME & MN & MX).
  destruct (log_form d (rr g) w H LW) as (th & T & Tt & TS & TC & F).
  rewrite Tt, TS, TC in L. pose proof (so3_eps_pos d) as EP.
  apply is_exp_E3 in ME. subst m.
  destruct F as [[S N]|[S [N E]]].
  - rewrite log_coefs_small in L by exact S. cbn [fst snd] in L. apply some_inj in L. subst xi. cbn [ang lin].
    split; [exact LP|]. split; [reflexivity|]. rewrite log_lin_app.
    eexists. split; [apply is_exp_44; reflexivity|]. cbn [q33 q31 ang lin]. split; [exact MN|].
    destruct (asin_series th (proj1 T)) as [A1 A2]. rewrite <- N in A1, A2.
    split.
    2:{ intro K. exfalso. change (norm3 w) with (len3 w) in *. lra. }
    set (k := norm3 w) in *. assert (KP : 0 <= k) by apply norm3_pos.
    assert (T5 : 0 <= th ^ 5) by (apply pow_le; lra).
    assert (PW : th ^ 4 <= so3_near_zero_eps d ^ 4) by (apply pow_incr; lra).
    apply Rle_trans with (th ^ 4 * len3 (rp g)).
    2: apply Rmult_le_compat_r; [apply len3_pos|exact PW].
    destruct (Req_EM_T k 0) as [Z|NZ].
    + assert (W0 : w = zero3) by (apply norm3_zero; exact Z). subst w.
      assert (TZ : th = 0).
      { destruct (Req_EM_T th 0) as [->|NT]; [reflexivity|exfalso].
        assert (th ^ 5 = th * th ^ 4) by ring. assert (th ^ 4 <= (/ 10) ^ 4) by (apply pow_incr; lra).
        replace ((/ 10) ^ 4) with (/ 10000) in * by field.
        assert (th ^ 5 <= th * / 10) by nra. lra. }
      rewrite TZ in *. unfold Vcur. fold k. destruct (Req_EM_T k 0); [|contradiction].
      replace (sub3 _ _) with zero3.
      * unfold len3 at 1. replace (dot3 zero3 zero3) with 0 by (unfold dot3; cbn; ring). rewrite sqrt_0.
        pose proof (len3_pos (rp g)). nra.
      * destruct (rp g) as [p1 p2 p3]. apply V3_ext; unfold zero3, matc, app3, sub3; c3; field.
    + assert (PI1 : 1 < PI) by (pose proof PI2_1; pose proof PI2_RGT_0; lra).
      assert (KU : 0 < k <= th) by (split; lra).
      pose proof (cos_lt1 k ltac:(lra)) as CK.
      destruct (V_inv w NZ ltac:(fold k; lra)) as [VI _]. fold k in VI.
      assert (R0 : rp g = app3 (Vcur w 1) (app3 (matc (la k) (- 1 / 2) (lb k) w) (rp g))).
      { rewrite <- app3_mul, VI, app3_I. reflexivity. }
      rewrite R0 at 2. rewrite app3_sub, matc_sub.
      unfold Vcur. fold k. destruct (Req_EM_T k 0) as [Z|_]; [contradiction|]. rewrite Rmult_1_r.
      eapply Rle_trans; [apply matc_app_len|].
      change (len3 w) with k. 
      assert (HT : th <= / 100) by lra.
      pose proof (la_bound k ltac:(lra)) as BA. pose proof (lb_bound k ltac:(lra)) as BB.
      assert (VB : Rabs (sin k / k) + Rabs ((1 - cos k) / k ^ 2) * k + Rabs ((k - sin k) / k ^ 3) * (k * k) <= 2).
      { pose proof (sin_le_x k ltac:(lra)). pose proof (sin_ge_3 k ltac:(lra)). pose proof (cos_ge_2 k ltac:(lra)).
        assert (k ^ 3 <= k) by (replace (k ^ 3) with (k * (k * k)) by ring; nra).
        assert (SP : 0 <= sin k) by nra.
        assert (IK : 0 < / k) by (apply Rinv_0_lt_compat; lra).
        rewrite !Rabs_pos_eq.
        - replace ((1 - cos k) / k ^ 2 * k) with ((1 - cos k) * / k) by (field; lra).
          replace ((k - sin k) / k ^ 3 * (k * k)) with ((k - sin k) * / k) by (field; lra).
          apply Rle_trans with (sin k * / k + (k ^ 2 / 2) * / k + (k - sin k) * / k).
          + apply Rplus_le_compat_r. apply Rplus_le_compat_l. apply Rmult_le_compat_r; lra.
          + replace (_ + _ + _) with (1 + k / 2) by (field; lra). lra.
        - apply Rdiv_le_0_compat; [lra|apply pow_lt; lra].
        - apply Rdiv_le_0_compat; [lra|apply pow_lt; lra].
        - apply Rdiv_le_0_compat; lra. }
      apply Rle_trans with (2 * (th ^ 4 / 10 * len3 (rp g))); [|pose proof (len3_pos (rp g)); assert (0 <= th ^ 4) by (apply pow_le; lra); nra].
      apply Rmult_le_compat.
      { pose proof (Rabs_pos (sin k / k)). pose proof (Rabs_pos ((1 - cos k) / k ^ 2)). pose proof (Rabs_pos ((k - sin k) / k ^ 3)). nra. }
      { apply len3_pos. }
      { exact VB. }
      eapply Rle_trans; [apply matc_app_len|]. apply Rmult_le_compat_r; [apply len3_pos|].
      change (len3 w) with k.
      replace (- 1 / 2 - - 1 / 2) with 0 by ring. rewrite Rabs_R0.
      assert (K2 : th ^ 2 - k ^ 2 <= th ^ 4 / 10 /\ 0 <= th ^ 2 - k ^ 2).
      { replace (th ^ 2 - k ^ 2) with ((th - k) * (th + k)) by ring. split; [|apply Rmult_le_pos; lra].
        apply Rle_trans with (3 * th ^ 5 / 40 * (2 * th)); [apply Rmult_le_compat; lra|].
        replace (3 * th ^ 5 / 40 * (2 * th)) with (th ^ 4 * (3 / 20 * (th * th))) by field.
        assert (0 <= th ^ 4) by (apply pow_le; lra). nra. }
      assert (K4 : k ^ 4 <= th ^ 4) by (apply pow_incr; lra).
      assert (Z1 : Rabs (1 - th ^ 2 / 12 - la k) <= th ^ 4 / 50).
      { apply Rabs_le_between in BA. apply Rabs_le. lra. }
      assert (Z2 : Rabs (1 / 12 + th ^ 2 / 720 - lb k) <= th ^ 2 / 100).
      { apply Rabs_le_between in BB. pose proof (pow2_ge_0 th). apply Rabs_le. lra. }
      assert (Z3 : Rabs (1 / 12 + th ^ 2 / 720 - lb k) * (k * k) <= th ^ 2 / 100 * th ^ 2).
      { apply Rmult_le_compat; [apply Rabs_pos|nra|exact Z2|nra]. }
      replace (th ^ 2 / 100 * th ^ 2) with (th ^ 4 / 100) in Z3 by field.
      assert (0 <= th ^ 4) by (apply pow_le; lra). lra.
  - rewrite log_coefs_big in L by lra. cbn [fst snd] in L. apply some_inj in L. subst xi. cbn [ang lin].
    split; [exact LP|]. split; [reflexivity|]. rewrite log_lin_app.
    pose proof (cos_lt1 th ltac:(lra)) as CT.
    destruct (V_inv w ltac:(lra) ltac:(rewrite N; lra)) as [VI _]. rewrite N in VI.
    assert (R0 : app3 (Vcur w 1) (app3 (matc (la th) (- 1 / 2) (lb th) w) (rp g)) = rp g).
    { rewrite <- app3_mul, VI, app3_I. reflexivity. }
    assert (X : is_exp_m44 (se3_alg (mkTw (app3 (matc (la th) (- 1 / 2) (lb th) w) (rp g)) w)) (hmat g)).
    { apply is_exp_44. cbn [ang lin]. unfold hmat. rewrite R0, E. reflexivity. }
    exists (hmat g). split; [exact X|]. cbn [hmat q33 q31].
    split; [rewrite <- E at 1; exact MN|]. split.
    + replace (sub3 (rp g) (rp g)) with zero3 by (destruct (rp g) as [p1 p2 p3]; apply V3_ext; unfold zero3, sub3; c3; ring).
      unfold len3 at 1. replace (dot3 zero3 zero3) with 0 by (unfold dot3; cbn; ring). rewrite sqrt_0.
      apply Rmult_le_pos; [apply pow_le; lra|apply len3_pos].
    + intros K. split; [reflexivity|].
      destruct (C37_exp_rigid d (mkTw (app3 (matc (la th) (- 1 / 2) (lb th) w) (rp g)) w)) as (g' & EG & _).
      rewrite EG. f_equal.
      pose proof (proj1 (C37_exp_is_exponential d (mkTw (app3 (matc (la th) (- 1 / 2) (lb th) w) (rp g)) w) g' (or_introl K) EG _) X) as Q.
      unfold hmat in Q. destruct g, g'. cbn in *. congruence.
Qed.

(** log fails exactly where the log of the rotation does *)
Theorem C37_log_defined : forall d g, rigid3 g ->
  (se3_log d g = None <->
   (1 + d00 (rr g) + d11 (rr g) + d22 (rr g)) / 2 <= so3_near_pi_eps d
   /\ 2 * d00 (rr g) = d00 (rr g) + d11 (rr g) + d22 (rr g) - 1 /\ d11 (rr g) = d22 (rr g)).
Proof.
  intros d g H. rewrite <- (C36_log_defined d (rr g) H). unfold se3_log.
  destruct (so3_log d (rr g)) as [w|] eqn:LW; [|cbv beta iota delta [bind]; tauto].
  destruct (log_form d (rr g) w H LW) as (th & T & Tt & TS & TC & _). rewrite Tt, TS, TC.
  cbv beta iota delta [bind].
  destruct (Rlt_dec th (so3_near_zero_eps d)) as [S|S].
  - rewrite log_coefs_small by exact S. split; discriminate.
  - rewrite log_coefs_big by lra. split; discriminate.
Qed.

(** log undoes exp for angles between the threshold and half a turn *)
Theorem C37_log_exp : forall d xi g, so3_near_zero_eps d <= len3 (ang xi) < PI -> se3_exp d xi = Some g ->
  se3_log d g = Some xi \/ (se3_log d g = None /\ so3_log d (rr g) = None).
Proof.
  intros d xi g [L U] E. pose proof (so3_eps_pos d) as EP.
  destruct (C37_exp_rigid d xi) as (g' & E' & RG & ER). rewrite E in E'. apply some_inj in E'. subst g'.
  unfold se3_log.
  destruct (C36_log_exp d (ang xi) (rr g) (conj L U) ER) as [LG|LG]; rewrite LG; cbv beta iota delta [bind]; [left|tauto].
  destruct (log_form d (rr g) _ RG LG) as (th & T & Tt & TS & TC & F). rewrite Tt, TS, TC.
  change (len3 (ang xi)) with (norm3 (ang xi)) in *.
  destruct F as [[S N]|[S [N EE]]].
  { exfalso. destruct (asin_series th (proj1 T)) as [A1 _]. rewrite <- N in A1. lra. }
  rewrite log_coefs_big by lra. cbn [fst snd]. rewrite log_lin_app. f_equal.
  apply Tw_ext; cbn [lin ang]; [|reflexivity].
  rewrite (se3_exp_big d xi L) in E. cbv zeta in E. apply some_inj in E. subst g. cbn [rp].
  pose proof (cos_lt1 th ltac:(lra)) as CT.
  destruct (V_inv (ang xi) ltac:(lra) ltac:(rewrite N; lra)) as [_ VI].
  unfold Vcur in VI. destruct (Req_EM_T (norm3 (ang xi)) 0); [lra|].
  rewrite Rmult_1_r in VI. replace (norm3 (ang xi) ^ 3) with (norm3 (ang xi) * norm3 (ang xi) ^ 2) in VI by ring.
  rewrite N in *. rewrite <- app3_mul, VI, app3_I. reflexivity.
Qed.
