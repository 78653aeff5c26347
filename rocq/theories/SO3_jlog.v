(** C36: the Jacobian of SO3.log is the derivative of SO3.log (exactly for
    angles at least d_eps, within th^4 below), the backward pass of log, and
    the Jacobians of local. *)
From Coq Require Import Reals Lra Psatz.
From Coquelicot Require Import Coquelicot.
From Verif Require Import Geo_spec Geo3_spec Trig Exp_unique SE2_model SE2_group SE2_exp SE2_jac
  SO3_model SO3_exp SO3_jexp SO3_group SO3_quat SO3_ops SO3_log.
Local Open Scope R_scope.

Lemma deriv_acos : forall x, -1 < x < 1 -> deriv acos x (-1 / sqrt (1 - x * x)).
Proof.
  intros x H. pose proof (derive_pt_acos x H) as E. unfold Rsqr in E. rewrite <- E.
  apply derive_pt_eq_1 with (derivable_pt_acos x H). reflexivity.
Qed.
Lemma deriv_cont : forall f t l, deriv f t l -> forall e, 0 < e ->
  exists r, 0 < r /\ forall x, Rabs (x - t) < r -> Rabs (f x - f t) < e.
Proof.
  intros f t l D e He.
  assert (C : continuity_pt f t) by (apply derivable_continuous_pt; exists l; exact D).
  destruct (C e He) as (r & Hr & Hc). exists r. split; [exact Hr|].
  intros x Hx. destruct (Req_EM_T x t) as [->|N].
  - unfold Rminus. rewrite Rplus_opp_r, Rabs_R0. exact He.
  - apply (Hc x). split; [split; [exact I|congruence]|exact Hx].
Qed.

(** the velocity of the sine axis and of the cosine along a curve of rotations *)
Definition sine_axis_vel (th : R) (a xi : V3) : V3 :=
  add3 (scal3 ((1 + cos th) / 2) xi)
       (add3 (scal3 (- ((1 - cos th) / 2) * dot3 a xi) a) (scal3 (sin th / 2) (cross a xi))).
Lemma deriv_sine_axis : forall h th a xi, dot3 a a = 1 -> moves h (AA th a) xi ->
  deriv3 (fun t => so3_sine_axis (h t)) 0 (sine_axis_vel th a xi)
  /\ deriv (fun t => so3_cosine (h t)) 0 (- sin th * dot3 a xi).
Proof.
  intros h th a xi A [H0 (V0&V1&V2&V3&V4&V5&V6&V7&V8)].
  destruct a as [x y z], xi as [p q r]. unfold dot3 in A. c3h A.
  assert (X : x * x = 1 - y * y - z * z) by lra.
  unfold AA, matc, mul3, so3_alg in *. c3h V0. c3h V1. c3h V2. c3h V3. c3h V4. c3h V5. c3h V6. c3h V7. c3h V8.
  unfold deriv3, so3_sine_axis, so3_cosine, sine_axis_vel, add3, scal3, cross, dot3. c3.
  split; [repeat split|]; dgo; field_simplify_eq; ring [X].
Qed.

(** the value of log away from half a turn, as a function of the matrix *)
Lemma log_value : forall d g v, rotation3 g -> so3_log d g = Some v ->
  (so3_near_zero_eps d <= acos (so3_cosine g) < PI ->
     v = scal3 (acos (so3_cosine g) / sin (acos (so3_cosine g))) (so3_sine_axis g))
  /\ (acos (so3_cosine g) < so3_near_zero_eps d ->
     v = scal3 (1 + (1 - so3_cosine g * so3_cosine g) / 6) (so3_sine_axis g)).
Proof.
  intros d g v H L. destruct (axis_angle g H) as (th & a & T & A & E & _). subst g.
  rewrite AA_cosine, AA_sine_axis, acos_cos by assumption. pose proof (so3_eps_pos d).
  split; intro B.
  - assert (SN : 0 < sin th) by (apply sin_gt_0; lra).
    assert (v = scal3 th a) as ->.
    { destruct (Rle_dec (1 + cos th) (so3_near_pi_eps d)) as [P|P].
      - destruct (log_pi d th a T A P) as [[_ K]|[[_ K]|[_ [TP K]]]]; [congruence|congruence|lra].
      - rewrite log_mid in L by (assumption || lra). congruence. }
    apply V3_ext; unfold scal3; c3; field; lra.
  - rewrite log_small in L by assumption. apply some_inj in L. subst v.
    pose proof (sin2cos2 th) as Q.
    replace (1 - cos th * cos th) with (sin th ^ 2) by (rewrite <- Q; ring).
    apply V3_ext; unfold scal3; c3; ring.
Qed.

Lemma deriv3_ext_loc : forall f g t l r, 0 < r -> (forall x, Rabs (x - t) < r -> f x = g x) ->
  deriv3 f t l -> deriv3 g t l.
Proof.
  intros f g t l r Hr E (D0 & D1 & D2).
  repeat split; (eapply deriv_ext_loc; [exact Hr| |eassumption]); intros x Hx; cbv beta; rewrite (E x Hx); reflexivity.
Qed.
Lemma deriv3_scal : forall k w t k' w', deriv k t k' -> deriv3 w t w' ->
  deriv3 (fun t => scal3 (k t) (w t)) t (add3 (scal3 k' (w t)) (scal3 (k t) w')).
Proof.
  intros k w t k' w' K (D0 & D1 & D2). unfold deriv3, scal3, add3. c3.
  repeat split; apply d_mult; assumption.
Qed.
Lemma deriv3_val : forall f t l l', l = l' -> deriv3 f t l -> deriv3 f t l'.
Proof. intros; subst; assumption. Qed.

(** the derivative of log in its two regimes *)
Definition jl_true (th : R) (a xi : V3) : V3 :=
  let al := th * (1 + cos th) / (2 * sin th) in
  add3 (scal3 al xi) (add3 (scal3 ((1 - al) * dot3 a xi) a) (scal3 (th / 2) (cross a xi))).
Lemma log_velocity_mid : forall d h th a xi u r, 0 < r -> dot3 a a = 1 ->
  (forall t, Rabs t < r -> rotation3 (h t)) -> moves h (AA th a) xi ->
  so3_near_zero_eps d < th < PI ->
  (forall t, Rabs t < r -> so3_log d (h t) = Some (u t)) ->
  deriv3 u 0 (jl_true th a xi).
Proof.
  intros d h th a xi u r Hr A RH M T U. pose proof (so3_eps_pos d).
  destruct (deriv_sine_axis h th a xi A M) as [DA DC].
  assert (H0 : h 0 = AA th a) by apply M.
  assert (C0 : so3_cosine (h 0) = cos th) by (rewrite H0; apply AA_cosine; exact A).
  assert (A0 : so3_sine_axis (h 0) = scal3 (sin th) a) by (rewrite H0; apply AA_sine_axis).
  assert (SN : 0 < sin th) by (apply sin_gt_0; lra).
  pose proof (sin2cos2 th) as Q.
  assert (CB : -1 < cos th < 1) by nra.
  assert (CE : cos th < cos (so3_near_zero_eps d)) by (apply cos_decreasing_1; lra).
  destruct (deriv_cont _ _ _ DC (Rmin (cos (so3_near_zero_eps d) - cos th) (1 + cos th))) as (r1 & R1 & K).
  { apply Rmin_glb_lt; lra. }
  pose (k := fun x => acos x / sin (acos x)).
  assert (DT : deriv acos (cos th) (-1 / sin th)).
  { eapply deriv_val; [|apply deriv_acos; exact CB].
    replace (1 - cos th * cos th) with (Rsqr (sin th)) by (unfold Rsqr; lra). rewrite sqrt_Rsqr by lra. reflexivity. }
  assert (AT : acos (cos th) = th) by (apply acos_cos; lra).
  assert (DK : deriv k (cos th) ((sin th - th * cos th) / (sin th * sin th) * (-1 / sin th))).
  { apply (d_comp (fun x => x / sin x) acos); [exact DT|]. rewrite AT.
    apply is_derive_Reals. auto_derive; [lra|]. field. lra. }
  assert (DKC : deriv (fun t => k (so3_cosine (h t))) 0
    ((sin th - th * cos th) / (sin th * sin th) * (-1 / sin th) * (- sin th * dot3 a xi))).
  { apply (d_comp k (fun t => so3_cosine (h t))); [exact DC|]. rewrite C0. exact DK. }
  apply (deriv3_ext_loc (fun t => scal3 (k (so3_cosine (h t))) (so3_sine_axis (h t))) u 0 _ (Rmin r r1)).
  - apply Rmin_glb_lt; assumption.
  - intros t Ht. rewrite Rminus_0_r in Ht.
    assert (Ht1 : Rabs t < r) by (pose proof (Rmin_l r r1); lra).
    assert (Ht2 : Rabs (t - 0) < r1) by (rewrite Rminus_0_r; pose proof (Rmin_r r r1); lra).
    specialize (K t Ht2). cbv beta in K. rewrite C0 in K.
    pose proof (Rmin_l (cos (so3_near_zero_eps d) - cos th) (1 + cos th)).
    pose proof (Rmin_r (cos (so3_near_zero_eps d) - cos th) (1 + cos th)).
    apply Rabs_def2 in K.
    destruct (log_value d (h t) (u t) (RH t Ht1) (U t Ht1)) as [V _]. symmetry. apply V.
    assert (CC : -1 < so3_cosine (h t) < cos (so3_near_zero_eps d)) by lra.
    pose proof (COS_bound (so3_near_zero_eps d)).
    pose proof (acos_bound_lt (so3_cosine (h t)) ltac:(lra)) as AB. split; [|lra].
    destruct (Rle_dec (so3_near_zero_eps d) (acos (so3_cosine (h t)))) as [G|G]; [exact G|].
    pose proof (cos_decreasing_1 (acos (so3_cosine (h t))) (so3_near_zero_eps d)
       ltac:(lra) ltac:(lra) ltac:(lra) ltac:(lra) ltac:(lra)) as DD.
    rewrite cos_acos in DD by lra. lra.
  - eapply deriv3_val; [|apply (deriv3_scal (fun t => k (so3_cosine (h t)))); [exact DKC|exact DA]].
    cbv beta. rewrite C0, A0. unfold k. rewrite AT.
    assert (Q2 : sin th ^ 2 = 1 - cos th ^ 2) by (rewrite <- Q; ring).
    unfold jl_true, sine_axis_vel. set (s := sin th) in *. set (c := cos th) in *. clearbody s c.
    generalize (dot3 a xi), (cross a xi). intros m w.
    apply V3_ext; unfold add3, scal3; c3; field_simplify_eq; try lra; ring [Q2].
Qed.
Definition jl_small (th : R) (a xi : V3) : V3 :=
  let F := 1 + (1 - cos th * cos th) / 6 in
  add3 (scal3 (F * ((1 + cos th) / 2)) xi)
    (add3 (scal3 ((- F * ((1 - cos th) / 2) + (1 - cos th * cos th) * cos th / 3) * dot3 a xi) a)
          (scal3 (F * sin th / 2) (cross a xi))).
Lemma log_velocity_small : forall d h th a xi u r, 0 < r -> dot3 a a = 1 ->
  (forall t, Rabs t < r -> rotation3 (h t)) -> moves h (AA th a) xi ->
  0 <= th < so3_near_zero_eps d ->
  (forall t, Rabs t < r -> so3_log d (h t) = Some (u t)) ->
  deriv3 u 0 (jl_small th a xi).
Proof.
  intros d h th a xi u r Hr A RH M T U. pose proof (so3_eps_pos d). pose proof PI2_1 as HP1. pose proof PI2_RGT_0 as HP2.
  destruct (deriv_sine_axis h th a xi A M) as [DA DC].
  assert (H0 : h 0 = AA th a) by apply M.
  assert (C0 : so3_cosine (h 0) = cos th) by (rewrite H0; apply AA_cosine; exact A).
  assert (A0 : so3_sine_axis (h 0) = scal3 (sin th) a) by (rewrite H0; apply AA_sine_axis).
  pose proof (sin2cos2 th) as Q.
  assert (CE : cos (so3_near_zero_eps d) < cos th) by (apply cos_decreasing_1; lra).
  assert (CP : 0 < cos (so3_near_zero_eps d)) by (apply cos_gt_0; lra).
  destruct (deriv_cont _ _ _ DC (cos th - cos (so3_near_zero_eps d)) ltac:(lra)) as (r1 & R1 & K).
  set (c := fun t => so3_cosine (h t)) in *.
  assert (DF : deriv (fun t => 1 + (1 - c t * c t) * / 6) 0 (cos th * sin th * dot3 a xi / 3)).
  { dgo. unfold c. rewrite C0. field. }
  apply (deriv3_ext_loc (fun t => scal3 (1 + (1 - c t * c t) * / 6) (so3_sine_axis (h t))) u 0 _ (Rmin r r1)).
  - apply Rmin_glb_lt; assumption.
  - intros t Ht. rewrite Rminus_0_r in Ht.
    assert (Ht1 : Rabs t < r) by (pose proof (Rmin_l r r1); lra).
    assert (Ht2 : Rabs (t - 0) < r1) by (rewrite Rminus_0_r; pose proof (Rmin_r r r1); lra).
    assert (K' : Rabs (c t - c 0) < cos th - cos (so3_near_zero_eps d)) by exact (K t Ht2).
    change (so3_cosine (h 0)) with (c 0) in C0. rewrite C0 in K'. clear K. rename K' into K.
    apply Rabs_def2 in K.
    destruct (log_value d (h t) (u t) (RH t Ht1) (U t Ht1)) as [_ V]. symmetry. apply V.
    change (so3_cosine (h t)) with (c t).
    pose proof (acos_bound (c t)) as AB.
    assert (CT : -1 <= c t <= 1).
    { unfold c. destruct (axis_angle _ (RH t Ht1)) as (th' & a' & _ & A' & E' & _).
      rewrite E', AA_cosine by exact A'. apply COS_bound. }
    destruct (Rlt_dec (acos (c t)) (so3_near_zero_eps d)) as [G|G]; [exact G|].
    destruct (Req_EM_T (acos (c t)) (so3_near_zero_eps d)) as [G'|G'].
    + rewrite <- G', cos_acos in K by exact CT. lra.
    + pose proof (cos_decreasing_1 (so3_near_zero_eps d) (acos (c t))
         ltac:(lra) ltac:(lra) ltac:(lra) ltac:(lra) ltac:(lra)) as DD.
      rewrite cos_acos in DD by exact CT. lra.
  - eapply deriv3_val; [|apply (deriv3_scal (fun t => 1 + (1 - c t * c t) * / 6)); [exact DF|exact DA]].
    cbv beta. unfold c. rewrite C0, A0.
    assert (Q2 : sin th ^ 2 = 1 - cos th ^ 2) by (rewrite <- Q; ring).
    unfold jl_small, sine_axis_vel. set (s := sin th) in *. set (k := cos th) in *. clearbody s k.
    generalize (dot3 a xi), (cross a xi). intros m w.
    apply V3_ext; unfold add3, scal3; c3; field_simplify_eq; try lra; ring [Q2].
Qed.

(** ** the Jacobian the code computes *)
Lemma jlog_mat_app : forall k a A B xi, dot3 a a = 1 ->
  app3 (so3_jlog_mat (scal3 k a) A B) xi
  = add3 (scal3 A xi) (add3 (scal3 (B * (k * k) * dot3 a xi) a) (scal3 (k / 2) (cross a xi))).
Proof.
  intros k [x y z] A B [p q r] _. unfold so3_jlog_mat, app3, add3, scal3, cross, dot3. c3.
  apply V3_ext; c3; field.
Qed.
Lemma jlog_AA : forall d th a J, 0 <= th < PI -> dot3 a a = 1 -> so3_jlog d (AA th a) = Some J ->
  exists A B, so3_jlog_coefs d th (sin th) (cos th) = Some (A, B)
   /\ J = so3_jlog_mat (scal3 (if Rlt_dec th (so3_near_zero_eps d) then sin th * (1 + sin th ^ 2 / 6) else th) a) A B.
Proof.
  intros d th a J T A E. unfold so3_jlog in E.
  rewrite AA_theta, AA_sine, AA_cosine in E by (lra || exact A).
  destruct (so3_log d (AA th a)) as [v|] eqn:L; [|discriminate].
  cbv beta iota delta [bind] in E.
  destruct (so3_jlog_coefs d th (sin th) (cos th)) as [[p q]|]; [|discriminate].
  apply some_inj in E. cbn [fst snd] in E. exists p, q. split; [reflexivity|]. subst J. f_equal.
  destruct (Rlt_dec th (so3_near_zero_eps d)) as [S|S].
  - rewrite log_small in L by (lra || exact A). congruence.
  - destruct (Rle_dec (1 + cos th) (so3_near_pi_eps d)) as [P|P].
    + destruct (log_pi d th a ltac:(lra) A P) as [[_ K]|[[_ K]|[_ [TP K]]]]; [congruence|congruence|lra].
    + rewrite log_mid in L by (lra || exact A). congruence.
Qed.
Lemma coefs_big : forall d th, so3_d_near_zero_eps d <= th < PI ->
  so3_jlog_coefs d th (sin th) (cos th)
  = Some (th * (1 + cos th) / (2 * sin th), (1 - th * (1 + cos th) / (2 * sin th)) / (th * th)).
Proof.
  intros d th [T P]. pose proof (so3_deps_pos d). pose proof (so3_eps_pos d).
  assert (SN : 0 < sin th) by (apply sin_gt_0; lra). pose proof (sin2cos2 th) as Q.
  assert (CB : -1 < cos th < 1) by nra.
  unfold so3_jlog_coefs. rewrite lt_b_false by exact T. unfold where_.
  assert (N1 : 2 * cos th - 2 <> 0) by lra. assert (N2 : th ^ 2 <> 0) by (apply pow_nonzero; lra).
  rewrite div_some by exact N1. cbv beta iota delta [bind].
  rewrite div_some by (apply Rmult_integral_contrapositive_currified; assumption). cbv beta iota delta [bind].
  assert (Q2 : sin th ^ 2 = 1 - cos th ^ 2) by (rewrite <- Q; ring).
  set (s := sin th) in *. set (c := cos th) in *. clearbody s c.
  assert (EA : - (s * th) / (2 * c - 2) = th * (1 + c) / (2 * s)).
  { field_simplify_eq; [|lra]. ring [Q2]. }
  rewrite EA. apply f_equal. f_equal.
  replace ((s * th + (2 * c - 2)) / (th ^ 2 * (2 * c - 2))) with ((1 - (- (s * th) / (2 * c - 2))) / (th * th))
    by (field; lra).
  rewrite EA. reflexivity.
Qed.
Lemma coefs_small : forall d th s c, th < so3_d_near_zero_eps d ->
  so3_jlog_coefs d th s c = Some (1 - th ^ 2 / 12, 1 / 12 + th ^ 2 / 720).
Proof.
  intros d th s c T. unfold so3_jlog_coefs. rewrite lt_b_true by exact T. unfold where_, NON_ZERO.
  rewrite !div_some by lra. reflexivity.
Qed.

(** for angles from d_eps up to half a turn, the Jacobian is the derivative of
    log along every curve of rotations *)
Theorem C36_log_jac : forall d g J h xi u r th, 0 < r ->
  (forall t, Rabs t < r -> rotation3 (h t)) -> moves h g xi ->
  rot_angle g th -> so3_d_near_zero_eps d <= th < PI -> so3_jlog d g = Some J ->
  (forall t, Rabs t < r -> so3_log d (h t) = Some (u t)) ->
  deriv3 u 0 (app3 J xi).
Proof.
  intros d g J h xi u r th Hr RH M RA T EJ U.
  pose proof (so3_deps_pos d). pose proof (so3_eps_pos d).
  assert (Hg : rotation3 g).
  { rewrite <- (proj1 M). apply RH. rewrite Rabs_R0. exact Hr. }
  destruct (axis_angle g Hg) as (th' & a & T' & A & E & _).
  apply (rot_theta g th Hg) in RA. rewrite E, AA_theta in RA by assumption. subst th'.
  subst g. destruct (jlog_AA d th a J ltac:(lra) A EJ) as (p & q & EC & ->).
  rewrite coefs_big in EC by exact T. apply some_inj in EC. apply pair_equal_spec in EC. destruct EC as [<- <-].
  destruct (Rlt_dec th (so3_near_zero_eps d)); [lra|].
  rewrite jlog_mat_app by exact A.
  eapply deriv3_val; [|apply (log_velocity_mid d h th a xi u r); assumption || lra].
  assert (0 < sin th) by (apply sin_gt_0; lra).
  unfold jl_true. f_equal. f_equal. f_equal. f_equal. field. split; lra.
Qed.
(** and it is defined wherever log is *)
Theorem C36_log_jac_total : forall d g v th, rotation3 g -> rot_angle g th -> th < PI ->
  so3_log d g = Some v -> exists J, so3_jlog d g = Some J.
Proof.
  intros d g v th Hg RA T L. pose proof (proj1 (rot_theta g th Hg) RA) as TH.
  destruct RA as [[T0 T1] RC].
  destruct (axis_angle g Hg) as (th' & a & T' & A & E & _).
  assert (th' = th) by (rewrite E, AA_theta in TH by assumption; congruence). subst th'.
  unfold so3_jlog. rewrite L. rewrite E, AA_theta, AA_sine, AA_cosine by assumption. cbv beta iota delta [bind].
  destruct (Rlt_dec th (so3_d_near_zero_eps d)) as [S|S].
  - rewrite coefs_small by exact S. eauto.
  - rewrite coefs_big by lra. eauto.
Qed.

Lemma dot_le : forall a xi, dot3 a a = 1 -> dot3 a xi * dot3 a xi <= dot3 xi xi.
Proof.
  intros [x y z] [p q r] A. unfold dot3 in *. c3h A. c3.
  assert (K : (p*p+q*q+r*r) * (x*x+y*y+z*z) - (x*p+y*q+z*r)*(x*p+y*q+z*r)
     = (x*q-y*p)*(x*q-y*p) + (x*r-z*p)*(x*r-z*p) + (y*r-z*q)*(y*r-z*q)) by ring.
  rewrite A in K. pose proof (Rle_0_sqr (x*q-y*p)). pose proof (Rle_0_sqr (x*r-z*p)). pose proof (Rle_0_sqr (y*r-z*q)).
  unfold Rsqr in *. lra.
Qed.
Lemma two_terms : forall a xi e1 e2 b, dot3 a a = 1 -> Rabs e1 + Rabs e2 <= b ->
  len3 (add3 (scal3 e1 xi) (scal3 (e2 * dot3 a xi) a)) <= b * len3 xi.
Proof.
  intros a xi e1 e2 b A B. pose proof (dot_le a xi A) as D. pose proof (dot3_pos xi) as XP.
  pose proof (Rabs_pos e1). pose proof (Rabs_pos e2).
  unfold len3. rewrite <- (sqrt_Rsqr b) by lra. rewrite <- sqrt_mult_alt by apply Rle_0_sqr.
  apply sqrt_le_1_alt. set (m := dot3 a xi) in *.
  replace (dot3 (add3 (scal3 e1 xi) (scal3 (e2 * m) a)) (add3 (scal3 e1 xi) (scal3 (e2 * m) a)))
    with (e1 * e1 * dot3 xi xi + (2 * e1 * e2 + e2 * e2 * dot3 a a) * (m * m))
    by (unfold m, dot3, add3, scal3; c3; ring).
  rewrite A, Rmult_1_r. set (X := dot3 xi xi) in *. set (w := m * m) in *.
  assert (W : 0 <= w) by (unfold w; nra).
  assert (Q1 : e1 * e1 = Rabs e1 * Rabs e1) by (rewrite <- Rabs_mult, Rabs_pos_eq; nra).
  assert (Q2 : e2 * e2 = Rabs e2 * Rabs e2) by (rewrite <- Rabs_mult, Rabs_pos_eq; nra).
  assert (Q3 : e1 * e2 <= Rabs e1 * Rabs e2) by (rewrite <- Rabs_mult; apply Rle_abs).
  clearbody X w. unfold Rsqr.
  apply Rle_trans with ((Rabs e1 + Rabs e2) * (Rabs e1 + Rabs e2) * X).
  - rewrite Q1, Q2.
    assert (0 <= (Rabs e1 * Rabs e2 - e1 * e2) * w) by (apply Rmult_le_pos; lra).
    assert (0 <= (2 * (Rabs e1 * Rabs e2) + Rabs e2 * Rabs e2) * (X - w)) by (apply Rmult_le_pos; nra).
    nra.
  - apply Rmult_le_compat_r; [exact XP|]. apply Rmult_le_compat; lra.
Qed.

(** below d_eps, the Jacobian differs from the derivative by at most th^4 *)
Theorem C36_log_jac_small_angle : forall d g J h xi u r th, 0 < r ->
  (forall t, Rabs t < r -> rotation3 (h t)) -> moves h g xi ->
  rot_angle g th -> th < so3_d_near_zero_eps d -> th <> so3_near_zero_eps d -> so3_jlog d g = Some J ->
  (forall t, Rabs t < r -> so3_log d (h t) = Some (u t)) ->
  exists w, deriv3 u 0 w /\ len3 (sub3 w (app3 J xi)) <= th ^ 4 * len3 xi.
Proof.
  intros d g J h xi u r th Hr RH M RA T NE EJ U.
  pose proof (so3_deps_pos d). pose proof (so3_eps_pos d). pose proof PI2_1 as HP1. pose proof PI2_RGT_0 as HP2.
  assert (Hg : rotation3 g).
  { rewrite <- (proj1 M). apply RH. rewrite Rabs_R0. exact Hr. }
  assert (TP : 0 <= th) by apply RA.
  destruct (axis_angle g Hg) as (th' & a & T' & A & E & _).
  apply (rot_theta g th Hg) in RA. rewrite E, AA_theta in RA by assumption. subst th'.
  subst g. destruct (jlog_AA d th a J ltac:(lra) A EJ) as (p & q & EC & ->).
  rewrite coefs_small in EC by exact T. apply some_inj in EC. apply pair_equal_spec in EC. destruct EC as [<- <-].
  pose proof (sin2cos2 th) as Q.
  destruct (Rlt_dec th (so3_near_zero_eps d)) as [S|S].
  - exists (jl_small th a xi). split; [apply (log_velocity_small d h th a xi u r); assumption || lra|].
    rewrite jlog_mat_app by exact A.
    set (F := 1 + (1 - cos th * cos th) / 6).
    assert (FS : sin th * (1 + sin th ^ 2 / 6) = F * sin th).
    { unfold F. replace (1 - cos th * cos th) with (sin th * sin th) by lra. field. }
    rewrite FS.
    set (e1 := F * ((1 + cos th) / 2) - (1 - th ^ 2 / 12)).
    set (e2 := - F * ((1 - cos th) / 2) + (1 - cos th * cos th) * cos th / 3
               - (1 / 12 + th ^ 2 / 720) * (F * F * (1 - cos th * cos th))).
    replace (sub3 _ _) with (add3 (scal3 e1 xi) (scal3 (e2 * dot3 a xi) a)).
    2:{ unfold jl_small. fold F. replace (1 - cos th * cos th) with (sin th * sin th) in e2 by lra.
        unfold e1, e2. replace (1 - cos th * cos th) with (sin th * sin th) by lra.
        apply V3_ext; unfold add3, sub3, scal3; c3; field. }
    apply two_terms; [exact A|].
    (* e = 1 - cos th *)
    pose proof (cos_ge_2 th TP) as C1. pose proof (cos_le_4 th TP) as C2.
    set (e := 1 - cos th). assert (CE : cos th = 1 - e) by (unfold e; ring). rewrite CE in C1, C2.
    assert (t2 : th ^ 4 = th ^ 2 * th ^ 2) by ring. rewrite t2 in *. set (w := th ^ 2) in *.
    assert (W : 0 <= w <= / 10000) by (unfold w; nra).
    assert (E1 : e1 = (w / 2 - e) / 6 - e * e / 3 + e * e * e / 12).
    { unfold e1, F. rewrite CE. field. }
    assert (E2 : e2 = e * e * (-1 - 1/6 + (1/3 + 1/12) * e) - e * (2 - e) * (F * F - 1) / 12 + e * e / 12 - w / 720 * (F * F * (e * (2 - e)))).
    { unfold e2. rewrite CE. unfold F. rewrite CE. field. }
    assert (FF : F = 1 + e * (2 - e) / 6) by (unfold F; rewrite CE; field).
    clearbody e1 e2 F w e. clear - E1 E2 FF C1 C2 W.
    assert (EB : 0 <= e <= w / 2) by nra.
    assert (EB2 : 0 <= e * e <= w * w / 4) by nra.
    assert (EB3 : 0 <= e * e * e <= w * w / 1000) by nra.
    assert (FB : 0 <= F * F - 1 <= e) by (rewrite FF; nra).
    assert (FB' : 0 <= F * F <= 2) by lra.
    assert (B1 : Rabs e1 <= w * w / 4) by (apply Rabs_le; rewrite E1; nra).
    assert (B2 : Rabs e2 <= w * w / 2).
    { assert (M1 : 0 <= e * (2 - e) * (F * F - 1) <= w * w / 2).
      { split; [apply Rmult_le_pos; nra|]. apply Rle_trans with (e * 2 * e); [|nra].
        apply Rmult_le_compat; nra. }
      assert (M2 : 0 <= w / 720 * (F * F * (e * (2 - e))) <= w * w / 100).
      { assert (0 <= e * (2 - e) <= w) by nra. assert (0 <= F * F * (e * (2 - e)) <= 2 * w) by nra. nra. }
      assert (M3' : - (w * w / 3) <= e * e * (-1 - 1/6 + (1/3 + 1/12) * e) <= 0) by nra.
      apply Rabs_le. rewrite E2. lra. }
    nra.
  - exists (jl_true th a xi). split; [apply (log_velocity_mid d h th a xi u r); assumption || lra|].
    rewrite jlog_mat_app by exact A.
    set (al := th * (1 + cos th) / (2 * sin th)).
    set (e1 := al - (1 - th ^ 2 / 12)).
    set (e2 := - e1 - th ^ 4 / 720).
    replace (sub3 _ _) with (add3 (scal3 e1 xi) (scal3 (e2 * dot3 a xi) a)).
    2:{ unfold jl_true. fold al. unfold e2, e1. apply V3_ext; unfold add3, sub3, scal3; c3; field. }
    apply two_terms; [exact A|].
    assert (SN : 0 < sin th) by (apply sin_gt_0; lra).
    pose proof (cos_ge_6 th TP) as C6. pose proof (cos_le_4 th TP) as C4.
    pose proof (sin_ge_3 th TP) as S3. pose proof (sin_le_5 th TP) as S5.
    assert (CL : cos th < 1) by nra.
    assert (AL : al = th * sin th / (2 * (1 - cos th))).
    { unfold al. assert (Q2 : sin th ^ 2 = 1 - cos th ^ 2) by (rewrite <- Q; ring).
      field_simplify_eq; [|lra]. ring [Q2]. }
    set (X := 2 * (1 - cos th)) in *.
    assert (EX : e1 * X = th * sin th - (1 - th ^ 2 / 12) * X).
    { unfold e1. rewrite AL. field. unfold X. lra. }
    assert (XL : th ^ 2 - th ^ 4 / 12 <= X) by (unfold X; lra).
    assert (XU : X <= th ^ 2 - th ^ 4 / 12 + th ^ 6 / 360) by (unfold X; lra).
    assert (TB : 0 < th <= 2 / 10) by lra.
    assert (SU : th * sin th <= th ^ 2 - th ^ 4 / 6 + th ^ 6 / 120).
    { apply Rle_trans with (th * (th - th ^ 3 / 6 + th ^ 5 / 120)); [apply Rmult_le_compat_l; lra|]. right. field. }
    assert (SL : th ^ 2 - th ^ 4 / 6 <= th * sin th).
    { apply Rle_trans with (th * (th - th ^ 3 / 6)); [right; field|apply Rmult_le_compat_l; lra]. }
    clearbody X. clear - EX XL XU TB SU SL.
    replace (th ^ 4) with (th ^ 2 * th ^ 2) in * by ring. replace (th ^ 6) with (th ^ 2 * th ^ 2 * th ^ 2) in * by ring.
    assert (e2 = - e1 - th ^ 2 * th ^ 2 / 720) by (unfold e2; field). clearbody e2 e1.
    set (w := th ^ 2) in *. assert (W : 0 < w <= 4 / 100) by (unfold w; nra).
    set (y := th * sin th) in *. clearbody w y.
    assert (B : - (w * w * w / 100) <= e1 * X <= w * w * w / 100) by (rewrite EX; nra).
    assert (XH : w / 2 <= X) by nra.
    assert (B1 : - (w * w / 50) <= e1 <= w * w / 50).
    { split; apply Rnot_lt_le; intro K; nra. }
    assert (A1 : Rabs e1 <= w * w / 50) by (apply Rabs_le; lra).
    assert (A2 : Rabs e2 <= w * w / 25) by (apply Rabs_le; nra).
    nra.
Qed.

(** the backward pass of log is the vector-Jacobian product on tangent directions *)
Theorem C36_log_backward : forall g J grad xi, rotation3 g ->
  frob (so3_log_backward g J grad) (mul3 g (so3_alg xi)) = dot3 grad (app3 J xi).
Proof.
  intros g J grad xi H. unfold so3_log_backward, so3_lift.
  set (w := app3 (tr3 _) grad).
  assert (F : forall m n, frob (mul3 g m) (mul3 g n) = frob m n).
  { intros m n. pose proof (orth_col g (proj1 H)) as [A0 A1 A2 A3 A4 A5].
    clear - A0 A1 A2 A3 A4 A5.
    destruct g as [g1 g2 g3 g4 g5 g6 g7 g8 g9], m as [m1 m2 m3 m4 m5 m6 m7 m8 m9], n as [n1 n2 n3 n4 n5 n6 n7 n8 n9].
    unfold frob, mul3. c3h A0. c3h A1. c3h A2. c3h A3. c3h A4. c3h A5. c3.
    assert (X0 : g1 * g1 = 1 - g4 * g4 - g7 * g7) by lra. assert (X1 : g2 * g2 = 1 - g5 * g5 - g8 * g8) by lra.
    assert (X2 : g3 * g3 = 1 - g6 * g6 - g9 * g9) by lra. assert (X3 : g1 * g2 = - g4 * g5 - g7 * g8) by lra.
    assert (X4 : g1 * g3 = - g4 * g6 - g7 * g9) by lra. assert (X5 : g2 * g3 = - g5 * g6 - g8 * g9) by lra.
    ring [X0 X1 X2 X3 X4 X5]. }
  rewrite F. unfold w. clear. destruct J as [j1 j2 j3 j4 j5 j6 j7 j8 j9], grad as [x y z], xi as [p q r].
  unfold frob, so3_hat, so3_alg, dot3, app3, tr3. c3. field.
Qed.

Lemma jlog_commutes : forall c s o k a A B,
  mul3 (matc c s o a) (so3_jlog_mat (scal3 k a) A B) = mul3 (so3_jlog_mat (scal3 k a) A B) (matc c s o a).
Proof.
  intros c s o k [x y z] A B. apply M3_ext; unfold mul3, matc, so3_jlog_mat, scal3; c3; field.
Qed.

(** local(g, k): both Jacobians *)
Theorem C36_local_jac : forall d g k h xi u r th J0 J1, 0 < r ->
  rotation3 g -> rotation3 k -> (forall t, Rabs t < r -> rotation3 (h t)) ->
  rot_angle (so3_between g k) th -> so3_d_near_zero_eps d <= th < PI ->
  so3_local_jac d g k = Some (J0, J1) ->
  (moves h g xi -> (forall t, Rabs t < r -> so3_local d (h t) k = Some (u t)) -> deriv3 u 0 (app3 J0 xi))
  /\ (moves h k xi -> (forall t, Rabs t < r -> so3_local d g (h t) = Some (u t)) -> deriv3 u 0 (app3 J1 xi)).
Proof.
  intros d g k h xi u r th J0 J1 Hr Hg Hk RH RA T EJ. unfold so3_local_jac in EJ.
  set (f := so3_between g k) in *.
  destruct (so3_jlog d f) as [J|] eqn:EL; [|discriminate]. cbv beta iota delta [bind] in EJ.
  apply some_inj in EJ. apply pair_equal_spec in EJ. destruct EJ as [<- <-].
  assert (Hf : rotation3 f) by (apply rot_mul; [apply rot_tr; exact Hg|exact Hk]).
  destruct (so3_between_jac g k) as [B0 B1] eqn:EB.
  destruct (C36_between_jac g k h xi B0 B1 Hg Hk EB) as [BM0 BM1].
  assert (BV : B0 = opp_m3 (so3_adjoint (so3_inverse f)) /\ B1 = I3).
  { unfold so3_between_jac, so3_compose_jac_theseus in EB. apply pair_equal_spec in EB. destruct EB as [<- <-].
    split; [|reflexivity]. unfold f, so3_inverse_jac, so3_adjoint, so3_inverse, so3_between, so3_compose.
    unfold so3_inverse. rewrite tr3_mul, tr3_tr3. destruct g, k. apply M3_ext; cbn; ring. }
  destruct BV as [-> ->].
  assert (CO : mul3 (opp_m3 (so3_adjoint (so3_inverse f))) J = mul3 J (opp_m3 (so3_adjoint (so3_inverse f)))).
  { destruct (axis_angle f Hf) as (th' & a & T' & A & E & _).
    apply (rot_theta f th Hf) in RA. rewrite E, AA_theta in RA by assumption. subst th'.
    rewrite E in EL. destruct (jlog_AA d th a J ltac:(pose proof (so3_eps_pos d); pose proof (so3_deps_pos d); lra) A EL)
      as (p & q & _ & ->).
    assert (FI : opp_m3 (so3_adjoint (so3_inverse f)) = matc (- cos th) (sin th) (- (1 - cos th)) a).
    { rewrite E. unfold so3_adjoint, so3_inverse, AA, matc, opp_m3, tr3. apply M3_ext; c3; ring. }
    rewrite FI. apply jlog_commutes. }
  rewrite CO. split; intros M U.
  - rewrite app3_mul. apply (C36_log_jac d f J (fun t => so3_between (h t) k) _ u r th); try assumption; try lra.
    + intros t Ht. apply rot_mul; [apply rot_tr, RH; exact Ht|exact Hk].
    + apply BM0. exact M.
  - specialize (BM1 M). rewrite app3_I in BM1.
    apply (C36_log_jac d f J (fun t => so3_between g (h t)) _ u r th); try assumption; try lra.
    intros t Ht. apply rot_mul; [apply rot_tr; exact Hg|apply RH; exact Ht].
Qed.

(** the hypotheses above are met: turning about z at unit speed through a
    quarter turn *)
Example log_jac_case : exists h xi u J,
  (forall t, Rabs t < / 2 -> rotation3 (h t)) /\ moves h (h 0) xi /\ rot_angle (h 0) (PI / 2)
  /\ so3_jlog F32 (h 0) = Some J /\ (forall t, Rabs t < / 2 -> so3_log F32 (h t) = Some (u t))
  /\ xi <> zero3.
Proof.
  pose (a := mkV3 0 0 1). assert (A : dot3 a a = 1) by (unfold dot3, a; c3; ring).
  pose (h := fun t => AA (PI / 2 + t) a).
  pose proof PI2_1. pose proof PI2_RGT_0.
  assert (L : forall t, Rabs t < / 2 -> so3_log F32 (h t) = Some (scal3 (PI / 2 + t) a)).
  { intros t Ht. unfold h. apply Rabs_def2 in Ht.
    assert (TB : 0 <= PI / 2 + t <= PI) by lra.
    destruct (Rle_dec (1 + cos (PI / 2 + t)) (so3_near_pi_eps F32)) as [P|P].
    - destruct (log_pi F32 _ a TB A P) as [[K _]|[[_ K]|[_ [K _]]]].
      + exfalso. destruct K as (_ & _ & K). unfold a in K. c3h K. lra.
      + exact K.
      + exfalso. lra.
    - apply log_mid; try assumption; [cbn; lra|lra]. }
  assert (R0 : rotation3 (h 0)) by (apply AA_rotation; exact A).
  assert (HZ : Rabs 0 < / 2) by (rewrite Rabs_R0; lra).
  assert (RA : rot_angle (h 0) (PI / 2)).
  { apply (rot_theta _ _ R0). unfold h. rewrite Rplus_0_r. symmetry. apply AA_theta; [lra|exact A]. }
  destruct (C36_log_jac_total F32 (h 0) _ (PI / 2) R0 RA ltac:(lra) (L 0 HZ)) as [J EJ].
  exists h, a, (fun t => scal3 (PI / 2 + t) a), J.
  split; [intros t _; apply AA_rotation; exact A|]. split.
  - split; [reflexivity|].
    assert (DC : deriv (fun t => cos (PI / 2 + t)) 0 (- sin (PI / 2 + 0))).
    { apply is_derive_Reals. auto_derive; [exact I|ring]. }
    assert (DS : deriv (fun t => sin (PI / 2 + t)) 0 (cos (PI / 2 + 0))).
    { apply is_derive_Reals. auto_derive; [exact I|ring]. }
    unfold h, AA, matc, deriv_m3, mul3, so3_alg, a. c3.
    generalize dependent (sin (PI / 2 + 0)). generalize dependent (cos (PI / 2 + 0)). intros c s DC DS.
    repeat split; dgo; ring.
  - split; [exact RA|]. split; [exact EJ|]. split; [exact L|].
    intro Z. apply (f_equal b2) in Z. unfold a, zero3 in Z. c3h Z. lra.
Qed.
