(** C34: the planar groups obey the group laws.  The angle returned by log_map. *)
From Coq Require Import Reals Lra Psatz.
From Verif Require Import Geo_spec Trig SE2_model.
Local Open Scope R_scope.

(** A valid element: its (cos, sin) entries lie on the unit circle. *)
Definition so2_valid (g : SO2) := co g * co g + si g * si g = 1.
Definition se2_valid (g : SE2) := pc g * pc g + ps g * ps g = 1.
Definition so2_id := mkSO2 1 0.
Definition se2_id := mkSE2 0 0 1 0.

Lemma SO2_ext : forall g h, co g = co h -> si g = si h -> g = h.
Proof. intros [] []; cbn; intros; subst; reflexivity. Qed.
Lemma SE2_ext : forall g h, px g = px h -> py g = py h -> pc g = pc h -> ps g = ps h -> g = h.
Proof. intros [] []; cbn; intros; subst; reflexivity. Qed.

Ltac unf := unfold so2_valid, se2_valid, so2_id, se2_id, so2_compose, so2_inverse, so2_between,
  se2_compose, se2_inverse, se2_between, se2_of, se2_rotation, se2_translation, so2_rotate, so2_unrotate,
  rotate_from_cos_sin, se2_transform_to, se2_transform_from, so2_to_matrix, se2_to_matrix,
  se2_adjoint, so2_adjoint, add2, se2_init, se2_hat, se2_vee, so2_hat, so2_vee, mul2, mul3, app2, app3, app23,
  I2, I3, tr2, det2, se2_alg, so2_alg, rigid2, opp_m3, opp3, add3, scal3, scal2 in *; cbn in *.
Ltac unfg := unfold so2_valid, se2_valid, so2_id, se2_id, so2_compose, so2_inverse, so2_between,
  se2_compose, se2_inverse, se2_between, se2_of, se2_rotation, se2_translation, so2_rotate, so2_unrotate,
  rotate_from_cos_sin, se2_transform_to, se2_transform_from, so2_to_matrix, se2_to_matrix,
  se2_adjoint, so2_adjoint, add2, se2_init, se2_hat, se2_vee, so2_hat, so2_vee, mul2, mul3, app2, app3, app23,
  I2, I3, tr2, det2, se2_alg, so2_alg, rigid2, opp_m3, opp3, add3, scal3, scal2 ; cbn.

(** close an equation between polynomials modulo the unit-circle hypotheses *)
Ltac circ :=
  match goal with
  | H : ?a * ?a + ?b * ?b = 1, H' : ?c * ?c + ?d * ?d = 1 |- _ =>
      let E := fresh in let E' := fresh in
      assert (E : a * a = 1 - b * b) by lra; assert (E' : c * c = 1 - d * d) by lra;
      first [ring [E E'] | nra]
  | H : ?a * ?a + ?b * ?b = 1 |- _ =>
      let E := fresh in assert (E : a * a = 1 - b * b) by lra; first [ring [E] | nra]
  | _ => first [ring | lra]
  end.

(** validity says exactly that to_matrix is a rotation / a rigid motion *)
Theorem C34_valid_meaning : forall g : SE2,
  (se2_valid g <-> exists r p, rotation2 r /\ se2_to_matrix g = rigid2 r p)
  /\ (se2_valid g -> rotation2 (so2_to_matrix (se2_rotation g))).
Proof.
  assert (A : forall g, se2_valid g -> rotation2 (so2_to_matrix (se2_rotation g))).
  { intros [x y c s] H. unfold rotation2. split; [apply M2_ext|]; unf; lra. }
  intro g. split; [|apply A]. split.
  - intro H. exists (so2_to_matrix (se2_rotation g)), (se2_translation g). split; [exact (A _ H)|].
    destruct g; reflexivity.
  - intros (r & p & [Ho Hd] & E). destruct g as [x y c s], r as [r0 r1 r2 r3], p as [p0 p1].
    unf. inversion E; inversion Ho; subst; lra.
Qed.

(** SO2: a commutative group, realised by multiplication of rotation matrices *)
Theorem C34_so2_group :
  so2_valid so2_id
  /\ (forall g h, so2_valid g -> so2_valid h -> so2_valid (so2_compose g h))
  /\ (forall g, so2_valid g -> so2_valid (so2_inverse g))
  /\ (forall g h k, so2_compose (so2_compose g h) k = so2_compose g (so2_compose h k))
  /\ (forall g, so2_compose so2_id g = g /\ so2_compose g so2_id = g)
  /\ (forall g, so2_valid g ->
        so2_compose (so2_inverse g) g = so2_id /\ so2_compose g (so2_inverse g) = so2_id)
  /\ (forall g h, so2_valid g -> so2_compose g (so2_between g h) = h)
  /\ (forall g h, so2_to_matrix (so2_compose g h) = mul2 (so2_to_matrix g) (so2_to_matrix h))
  /\ (forall g p, so2_rotate g p = app2 (so2_to_matrix g) p)
  /\ (forall g p, so2_valid g ->
        so2_unrotate g (so2_rotate g p) = p /\ so2_rotate g (so2_unrotate g p) = p).
Proof.
  repeat split; intros;
  repeat match goal with g : SO2 |- _ => destruct g | p : V2 |- _ => destruct p end;
  unf; try (apply SO2_ext; cbn); try (apply V2_ext; cbn); try (apply M2_ext; cbn); circ.
Qed.

(** SE2: a group, realised by multiplication of homogeneous matrices *)
Theorem C34_se2_group :
  se2_valid se2_id /\ se2_init = se2_id
  /\ (forall g h, se2_valid g -> se2_valid h -> se2_valid (se2_compose g h))
  /\ (forall g, se2_valid g -> se2_valid (se2_inverse g))
  /\ (forall g h k, se2_compose (se2_compose g h) k = se2_compose g (se2_compose h k))
  /\ (forall g, se2_compose se2_id g = g /\ se2_compose g se2_id = g)
  /\ (forall g, se2_valid g ->
        se2_compose (se2_inverse g) g = se2_id /\ se2_compose g (se2_inverse g) = se2_id)
  /\ (forall g h, se2_valid g -> se2_compose g (se2_between g h) = h)
  /\ (forall g h, se2_valid g -> se2_valid h -> se2_valid (se2_between g h)).
Proof.
  repeat split; intros;
  repeat match goal with g : SE2 |- _ => destruct g end;
  unf; try (apply SE2_ext; cbn); circ.
Qed.

Theorem C34_se2_matrix :
  (forall g h, se2_to_matrix (se2_compose g h) = mul3 (se2_to_matrix g) (se2_to_matrix h))
  /\ se2_to_matrix se2_id = I3
  /\ (forall g, se2_valid g ->
        mul3 (se2_to_matrix (se2_inverse g)) (se2_to_matrix g) = I3
        /\ mul3 (se2_to_matrix g) (se2_to_matrix (se2_inverse g)) = I3)
  /\ (forall g h, se2_to_matrix g = se2_to_matrix h -> g = h).
Proof.
  repeat split; intros;
  repeat match goal with g : SE2 |- _ => destruct g end;
  unf; try (apply SE2_ext; cbn); try (apply M3_ext; cbn); try circ; inversion H; reflexivity.
Qed.

(** transform_from is the action of the homogeneous matrix on points,
    transform_to undoes it, and the action respects compose *)
Theorem C34_transform :
  (forall g p, app3 (se2_to_matrix g) (mkV3 (a0 p) (a1 p) 1)
               = mkV3 (a0 (se2_transform_from g p)) (a1 (se2_transform_from g p)) 1)
  /\ (forall g p, se2_valid g ->
        se2_transform_to g (se2_transform_from g p) = p
        /\ se2_transform_from g (se2_transform_to g p) = p)
  /\ (forall g h p, se2_transform_from (se2_compose g h) p
                    = se2_transform_from g (se2_transform_from h p))
  /\ (forall g p, se2_valid g -> se2_transform_from (se2_inverse g) p = se2_transform_to g p).
Proof.
  repeat split; intros;
  repeat match goal with g : SE2 |- _ => destruct g | p : V2 |- _ => destruct p end;
  unf; try (apply V3_ext; cbn); try (apply V2_ext; cbn); circ.
Qed.

(** adjoint(g) is conjugation by g on the Lie algebra, hence a homomorphism;
    hat/vee are mutually inverse on the Lie algebra *)
Theorem C34_adjoint :
  (forall g v, se2_valid g ->
     mul3 (mul3 (se2_to_matrix g) (se2_hat v)) (se2_to_matrix (se2_inverse g))
     = se2_hat (app3 (se2_adjoint g) v))
  /\ (forall g h, se2_adjoint (se2_compose g h) = mul3 (se2_adjoint g) (se2_adjoint h))
  /\ se2_adjoint se2_id = I3
  /\ (forall g w, so2_valid g ->
       mul2 (mul2 (so2_to_matrix g) (so2_hat w)) (so2_to_matrix (so2_inverse g))
       = so2_hat (so2_adjoint g * w)).
Proof.
  repeat split; intros;
  repeat match goal with g : SE2 |- _ => destruct g | g : SO2 |- _ => destruct g | v : V3 |- _ => destruct v end;
  unf; try (apply M3_ext; cbn); try (apply M2_ext; cbn); circ.
Qed.

Theorem C34_hat_vee :
  (forall v, se2_hat v = se2_alg v) /\ (forall v, se2_vee (se2_hat v) = v)
  /\ (forall m v, m = se2_alg v -> se2_hat (se2_vee m) = m)
  /\ (forall w, so2_hat w = so2_alg w /\ so2_vee (so2_hat w) = w).
Proof.
  repeat split; intros; subst; try (destruct v); reflexivity.
Qed.

(** ** The angle *)
Lemma sqrt_lem : forall c s, c * c + s * s = 1 -> c <> 0 -> sqrt (1 + Rsqr (s / c)) = / Rabs c.
Proof.
  intros c s H N.
  replace (1 + Rsqr (s / c)) with (Rsqr (/ c)).
  - rewrite sqrt_Rsqr_abs. apply Rabs_inv.
  - unfold Rsqr. field_simplify_eq; [|exact N]. nra.
Qed.

Lemma atan2_spec : forall c s, c * c + s * s = 1 ->
  cos (atan2 s c) = c /\ sin (atan2 s c) = s /\ - PI < atan2 s c <= PI.
Proof.
  intros c s H. unfold atan2. pose proof PI_RGT_0 as HPI.
  pose proof (atan_bound (s / c)) as B.
  destruct (Rlt_dec 0 c) as [P|P]; [|destruct (Rlt_dec c 0) as [Q|Q]].
  - rewrite cos_atan, sin_atan, (sqrt_lem c s H), (Rabs_pos_eq c) by lra.
    repeat split; try (field; lra); try lra.
  - assert (Hc : / Rabs c = - / c) by (rewrite Rabs_left by lra; field; lra).
    destruct (Rle_dec 0 s) as [S|S].
    + rewrite neg_cos, neg_sin, cos_atan, sin_atan, (sqrt_lem c s H), Hc by lra.
      repeat split; try (field; lra); try lra.
      assert (s / c <= 0).
      { unfold Rdiv. assert (/ c < 0) by (apply Rinv_lt_0_compat; lra). nra. }
      assert (atan (s / c) <= 0).
      { rewrite <- atan_0. destruct (Req_dec (s/c) 0) as [->|]; [lra|].
        left. apply atan_increasing. lra. }
      lra.
    + assert (Ec : forall x, cos (x - PI) = - cos x).
      { intro x. rewrite <- neg_cos. replace (x + PI) with ((x - PI) + 2 * PI) by ring.
        rewrite <- (cos_period (x - PI) 1). f_equal; cbn; ring. }
      assert (Es : forall x, sin (x - PI) = - sin x).
      { intro x. rewrite <- neg_sin. replace (x + PI) with ((x - PI) + 2 * PI) by ring.
        rewrite <- (sin_period (x - PI) 1). f_equal; cbn; ring. }
      rewrite Ec, Es, cos_atan, sin_atan, (sqrt_lem c s H), Hc by lra.
      repeat split; try (field; lra); try lra.
      assert (0 < s / c).
      { unfold Rdiv. assert (/ c < 0) by (apply Rinv_lt_0_compat; lra). nra. }
      assert (0 < atan (s / c)) by (rewrite <- atan_0; apply atan_increasing; lra). lra.
  - assert (c = 0) by lra. subst c. assert (S : (s - 1) * (s + 1) = 0) by lra.
    apply Rmult_integral in S. destruct S as [S|S].
    + assert (s = 1) by lra. subst s. destruct (Rlt_dec 0 1); [|lra].
      rewrite cos_PI2, sin_PI2. repeat split; lra.
    + assert (s = -1) by lra. subst s. destruct (Rlt_dec 0 (-1)); [lra|]. destruct (Rlt_dec (-1) 0); [|lra].
      rewrite cos_neg, sin_neg, cos_PI2, sin_PI2. repeat split; lra.
Qed.

Lemma atan2_angle : forall t, - PI < t <= PI -> atan2 (sin t) (cos t) = t.
Proof.
  intros t Ht. pose proof (sin2cos2 t) as E.
  destruct (atan2_spec (cos t) (sin t) ltac:(lra)) as (C & S & B).
  apply angle_unique; assumption.
Qed.

(** log_map of SO2 is the inverse of exp_map, and local of retract *)
Theorem C34_so2_exp_log :
  (forall t, so2_valid (so2_exp_map t))
  /\ (forall t, - PI < t <= PI -> so2_log_map (so2_exp_map t) = t)
  /\ (forall g, so2_valid g -> so2_exp_map (so2_log_map g) = g)
  /\ (forall g, so2_valid g -> - PI < so2_log_map g <= PI)
  /\ (forall g t, so2_valid g -> - PI < t <= PI -> so2_local g (so2_retract g t) = t)
  /\ (forall g h, so2_valid g -> so2_valid h -> so2_retract g (so2_local g h) = h).
Proof.
  assert (V : forall t, so2_valid (so2_exp_map t)).
  { intro t. unfold so2_valid, so2_exp_map; cbn. pose proof (sin2cos2 t). lra. }
  assert (L : forall g, so2_valid g -> so2_exp_map (so2_log_map g) = g).
  { intros g H. destruct (atan2_spec _ _ H) as (C & S & _). apply SO2_ext; assumption. }
  destruct C34_so2_group as (_ & GC & GI & GA & GId & GInv & GB & _).
  repeat split; try apply V; try apply L; intros.
  - apply atan2_angle. assumption.
  - apply atan2_spec. exact H.
  - apply atan2_spec. exact H.
  - unfold so2_local, so2_retract, so2_between. rewrite <- GA.
    rewrite (proj1 (GInv g H)), (proj1 (GId _)). apply atan2_angle. assumption.
  - unfold so2_retract, so2_local. rewrite L.
    + apply GB. assumption.
    + apply GC; [apply GI|]; assumption.
Qed.

Example C34_witness : exists g h : SE2, se2_valid g /\ se2_valid h /\ g <> h
  /\ se2_compose g h <> se2_compose h g.
Proof.
  exists (mkSE2 1 2 (3/5) (4/5)), (mkSE2 0 1 0 1). unfold se2_valid; cbn.
  repeat split; try lra; intro H; inversion H; lra.
Qed.
