(** HingeCost, Nonholonomic and QuasiStaticPushingPlanar. *)
From Coq Require Import Reals Lra Psatz List Arith Lia Bool.
Import ListNotations.
From Verif Require Import Geo_spec Geo3_spec Geo4_spec Exp_unique RSum SE2_model SE2_group SE2_exp SE2_jac SE2_curve
  Emb_model Emb_spec Emb_laws Emb2_model Emb2_spec.
Local Open Scope R_scope.

Ltac cases_lt := unfold lt_b in *; repeat match goal with |- context [Rlt_dec ?a ?b] => destruct (Rlt_dec a b) end.

(** ** HingeCost *)
(** While the limits leave room for the threshold on both sides, the error of a component is its distance to the interval from
    down + threshold to up - threshold. *)
Theorem C62_hinge_error : forall down up th v, down + th <= up - th ->
  let e := fst (fst (hinge_error down up th v)) in
  0 <= e /\ (e = 0 <-> down + th <= v <= up - th)
  /\ (exists w, down + th <= w <= up - th /\ e = Rabs (v - w))
  /\ forall w, down + th <= w <= up - th -> e <= Rabs (v - w).
Proof.
  intros down up th v H. unfold hinge_error, where_, lt_b. cbn [fst].
  destruct (Rlt_dec v (down + th)), (Rlt_dec (up - th) v); [lra| | |].
  - split; [lra|]. split; [split; intros; lra|]. split.
    + exists (down + th). split; [lra|]. rewrite Rabs_left; lra.
    + intros w Hw. rewrite Rabs_left; lra.
  - split; [lra|]. split; [split; intros; lra|]. split.
    + exists (up - th). split; [lra|]. rewrite Rabs_right; lra.
    + intros w Hw. rewrite Rabs_right; lra.
  - split; [lra|]. split; [split; intros; lra|]. split.
    + exists v. split; [lra|]. rewrite Rminus_diag_eq by reflexivity. rewrite Rabs_R0. reflexivity.
    + intros w Hw. apply Rabs_pos.
Qed.

Lemma deriv_away : forall f l a, deriv f 0 l -> f 0 <> a ->
  exists r, 0 < r /\ forall t, Rabs t < r -> (f t < a <-> f 0 < a) /\ (a < f t <-> a < f 0).
Proof.
  intros f l a D N. assert (H : 0 < Rabs (f 0 - a)) by (apply Rabs_pos_lt; lra).
  destruct (deriv_cont f 0 l (Rabs (f 0 - a)) D H) as (r & Hr & K). exists r. split; [exact Hr|].
  intros t Ht. specialize (K t ltac:(rewrite Rminus_0_r; exact Ht)). apply Rabs_def2 in K.
  unfold Rabs in K. destruct (Rcase_abs (f 0 - a)); split; split; intro; lra.
Qed.

(** Along every motion of the vector, at a value with no component on down + threshold or up - threshold, component i of the error
    moves at the rate given by row i of the Jacobian; for all limits and thresholds. *)
Theorem C62_hinge_jac : forall n down up th v h xi i, (i < n)%nat ->
  (forall j, h 0 j = v j) -> (forall j, deriv (fun t => h t j) 0 (xi j)) ->
  v i <> down i + th i -> v i <> up i - th i ->
  deriv (fun t => fst (fst (hinge_error (down i) (up i) (th i) (h t i)))) 0 (mv n (hinge_jac down up th v) xi i).
Proof.
  intros n down up th v h xi i Hi H0 D N1 N2. rewrite <- H0 in N1, N2.
  destruct (deriv_away _ _ _ (D i) N1) as (r1 & R1 & K1). destruct (deriv_away _ _ _ (D i) N2) as (r2 & R2 & K2).
  assert (EJ : mv n (hinge_jac down up th v) xi i =
    (let '(_, b, a) := hinge_error (down i) (up i) (th i) (v i) in if a then 1 else if b then - 1 else 0) * xi i).
  { unfold mv. rewrite (rsum_ext n _ (fun j => if Nat.eqb j i then
      (let '(_, b, a) := hinge_error (down i) (up i) (th i) (v i) in if a then 1 else if b then - 1 else 0) * xi j else 0)).
    - rewrite rsum_delta. destruct (Nat.ltb_spec i n); [reflexivity|lia].
    - intros j _. unfold hinge_jac. rewrite Nat.eqb_sym. destruct (hinge_error (down i) (up i) (th i) (v i)) as [[e b] a].
      destruct (Nat.eqb j i), a, b; cbn; ring. }
  rewrite EJ. clear EJ. specialize (D i). rewrite <- H0. cbv beta in *.
  pose (r := Rmin r1 r2). assert (Hr : 0 < r) by (unfold r; apply Rmin_case; assumption).
  assert (L1 : r <= r1) by apply Rmin_l. assert (L2 : r <= r2) by apply Rmin_r.
  unfold hinge_error, where_ at 1. unfold where_.
  destruct (Rlt_dec (up i - th i) (h 0 i)) as [A|A], (Rlt_dec (h 0 i) (down i + th i)) as [B|B].
  all: set (G := if lt_b (up i - th i) (h 0 i) then _ else _);
    assert (EG : G = if lt_b (up i - th i) (h 0 i) then 1 else if lt_b (h 0 i) (down i + th i) then -1 else 0) by reflexivity;
    rewrite EG; clear EG; clear G.
  1,2: apply (deriv_ext_loc (fun t => h t i - (up i - th i)) _ _ _ r Hr).
  5: apply (deriv_ext_loc (fun t => down i + th i - h t i) _ _ _ r Hr).
  7: apply (deriv_ext_loc (fun t => 0) _ _ _ r Hr).
  1,3,5,7: intros t Ht; rewrite Rminus_0_r in Ht; destruct (K1 t ltac:(lra)) as [P1 P2], (K2 t ltac:(lra)) as [Q1 Q2];
    cbn [fst]; cases_lt; try reflexivity; exfalso; tauto.
  all: unfold lt_b; destruct (Rlt_dec (up i - th i) (h 0 i)), (Rlt_dec (h 0 i) (down i + th i)); try contradiction; try tauto; dgo; ring.
Qed.

(** Nothing refuses limits closer than twice the threshold, and for all of these the error jumps: at up - threshold it is the width of the
    overlap, right after it is arbitrarily small; and no value at all has error 0. *)
Theorem C62_hinge_overlap_refuted : forall down up th, down <= up -> up - th < down + th ->
  0 <= th /\ hinge_accepts [[down]] [[up]] [[th]]
  /\ let e := fun v => fst (fst (hinge_error down up th v)) in
     e (up - th) = 2 * th - (up - down) /\ 0 < e (up - th)
     /\ (forall d, 0 < d -> e (up - th + d) = d) /\ forall v, 0 < e v.
Proof.
  intros down up th H1 H2. split; [lra|]. split.
  - split; [constructor; [constructor; [exact H1|constructor]|constructor]|].
    intro H. specialize (H [th] th (or_introl eq_refl) (or_introl eq_refl)). lra.
  - cbv zeta. unfold hinge_error, where_. cbn [fst]. split; [cases_lt; lra|]. split; [cases_lt; lra|].
    split; [intros d Hd; cases_lt; lra|]. intro v. cases_lt; lra.
Qed.
(** The constructor refuses thresholds only when all of them are negative: it accepts a negative threshold next to a zero one, for
    every pair of limits, and then a value beyond the limit has error 0. *)
Theorem C62_hinge_negative_threshold_refuted : forall down up th, down <= up -> th < 0 ->
  hinge_accepts [[down; down]] [[up; up]] [[th; 0]]
  /\ up < up - th /\ fst (fst (hinge_error down up th (up - th))) = 0.
Proof.
  intros down up th H1 H2. split; [|split; [lra|]].
  - split; [constructor; [constructor; [exact H1|constructor; [exact H1|constructor]]|constructor]|].
    intro H. specialize (H [th; 0] 0 (or_introl eq_refl) (or_intror (or_introl eq_refl))). lra.
  - unfold hinge_error, where_. cbn [fst]. cases_lt; lra.
Qed.
Example C62_hinge_case : hinge_accepts [[-1; 0]] [[1; 5]] [[1 / 2; 1]]
  /\ fst (fst (hinge_error (-1) 1 (1 / 2) 2)) = 3 / 2 /\ fst (fst (hinge_error 0 5 1 3)) = 0
  /\ hinge_jac (fun i => match i with 0%nat => -1 | _ => 0 end) (fun i => match i with 0%nat => 1 | _ => 5 end)
       (fun i => match i with 0%nat => 1 / 2 | _ => 1 end) (fun i => match i with 0%nat => 2 | _ => 3 end) 0 0 = 1.
Proof.
  split.
  - split; [constructor; [constructor; [lra|constructor; [lra|constructor]]|constructor]|]. intro H. specialize (H [1 / 2; 1] 1 (or_introl eq_refl) (or_intror (or_introl eq_refl))). lra.
  - unfold hinge_jac, hinge_error, where_. cbn [fst snd Nat.eqb andb]. repeat split; cases_lt; lra.
Qed.

(** ** Nonholonomic *)
(** The error is the lateral component of the velocity in the frame of the pose: the velocity itself is in that frame when the pose is an SE2
    element, and in the world frame when the pose is a vector (x, y, theta).  It vanishes exactly when the motion is along the heading. *)
Theorem C62_nonholonomic_error : forall pose vel g,
  nonhol_se2_error g vel = b1 vel
  /\ (nonhol_vec_error pose vel = a1 (app2 (tr2 (mkM2 (cos (b2 pose)) (- sin (b2 pose)) (sin (b2 pose)) (cos (b2 pose)))) (mkV2 (b0 vel) (b1 vel))))
  /\ (nonhol_vec_error pose vel = 0 <-> exists s, b0 vel = s * cos (b2 pose) /\ b1 vel = s * sin (b2 pose)).
Proof.
  intros pose vel g. split; [reflexivity|]. split; [unfold nonhol_vec_error; cbn; ring|].
  pose proof (sin2_cos2 (b2 pose)) as Q. unfold Rsqr in Q. unfold nonhol_vec_error. split.
  - intro E. exists (b0 vel * cos (b2 pose) + b1 vel * sin (b2 pose)).
    set (c := cos (b2 pose)) in *. set (s := sin (b2 pose)) in *. split.
    + replace ((b0 vel * c + b1 vel * s) * c) with (b0 vel * (1 - s * s) + b1 vel * s * c) by (rewrite <- Q; ring).
      replace (b1 vel * s * c) with ((b1 vel * c - b0 vel * s) * s + b0 vel * s * s) by ring. rewrite E. ring.
    + replace ((b0 vel * c + b1 vel * s) * s) with (b0 vel * s * c + b1 vel * (1 - c * c)) by (rewrite <- Q; ring).
      replace (b0 vel * s * c) with (- (b1 vel * c - b0 vel * s) * c + b1 vel * c * c) by ring. rewrite E. ring.
  - intros (s & -> & ->). ring.
Qed.
(** Along every motion of the pose and of the velocity the error moves at the rate given by the Jacobians. *)
Theorem C62_nonholonomic_jac : forall g v h k xi dv p q dp,
  moves_se2 h g xi -> k 0 = v -> deriv3 k 0 dv -> q 0 = p -> deriv3 q 0 dp ->
  deriv (fun t => nonhol_se2_error (h t) (k t)) 0 (dot3 (fst (nonhol_se2_jac g v)) xi + dot3 (snd (nonhol_se2_jac g v)) dv)
  /\ deriv (fun t => nonhol_vec_error (q t) (k t)) 0 (dot3 (fst (nonhol_vec_jac p v)) dp + dot3 (snd (nonhol_vec_jac p v)) dv).
Proof.
  intros g v h k xi dv p q dp _ K0 (D0 & D1 & D2) Q0 (E0 & E1 & E2). split.
  - eapply deriv_val; [|exact D1]. unfold dot3; cbn. ring.
  - unfold nonhol_vec_error.
    pose proof (d_comp cos (fun t => b2 (q t)) 0 _ _ E2 (derivable_pt_lim_cos _)) as DC.
    pose proof (d_comp sin (fun t => b2 (q t)) 0 _ _ E2 (derivable_pt_lim_sin _)) as DS. cbv beta in DC, DS.
    dgo. rewrite K0, Q0. unfold dot3, nonhol_vec_jac; cbn. ring.
Qed.

(** ** QuasiStaticPushingPlanar *)
Lemma moves_se2_vel : forall h g xi, moves_se2 h g xi -> vel h g xi.
Proof. intros h g xi (H0 & D & _). apply (se2_passes F64). split; assumption. Qed.
Lemma moves_se2_valid : forall h g xi, moves_se2 h g xi -> se2_valid g.
Proof. intros h g xi (H0 & _ & r & Hr & V). specialize (V 0 ltac:(rewrite Rabs_R0; exact Hr)). rewrite H0 in V. exact V. Qed.

(** Along every simultaneous motion of the four poses, while the object turns by less than half a turn between its two poses, the error
    moves at the rate given by the four Jacobians; and jacobians() returns the value of error(). *)
Theorem C63_pushing_jac : forall c2 o1 o2 e1 e2 h1 h2 k1 k2 x1 x2 y1 y2,
  moves_se2 h1 o1 x1 -> moves_se2 h2 o2 x2 -> moves_se2 k1 e1 y1 -> moves_se2 k2 e2 y2 ->
  Rabs (se2_theta (se2_between o1 o2)) < PI ->
  exists J1 J2 J3 J4 e, push_jacobians c2 o1 o2 e1 e2 = ([J1; J2; J3; J4], e)
  /\ push_error c2 o1 o2 e1 e2 = e
  /\ deriv3 (fun t => push_error c2 (h1 t) (h2 t) (k1 t) (k2 t)) 0
       (add3 (add3 (app3 J1 x1) (app3 J2 x2)) (add3 (app3 J3 y1) (app3 J4 y2))).
Proof.
  intros c2 o1 o2 e1 e2 h1 h2 k1 k2 x1 x2 y1 y2 M1 M2 N1 N2 B.
  eexists _, _, _, _, _. split; [reflexivity|]. split; [reflexivity|].
  pose proof (moves_se2_valid _ _ _ M1) as V1. pose proof (moves_se2_valid _ _ _ M2) as V2.
  assert (VB : exists r, 0 < r /\ forall t, Rabs t < r -> se2_valid (se2_between (h1 t) (h2 t))).
  { destruct M1 as (_ & _ & r1 & R1 & W1), M2 as (_ & _ & r2 & R2 & W2). exists (Rmin r1 r2).
    split; [apply Rmin_case; assumption|]. intros t Ht. pose proof (Rmin_l r1 r2). pose proof (Rmin_r r1 r2).
    specialize (W1 t ltac:(lra)). specialize (W2 t ltac:(lra)). revert W1 W2. clear. unfg.
    set (c := pc (h1 t)). set (s := ps (h1 t)). set (c' := pc (h2 t)). set (s' := ps (h2 t)). intros W1 W2.
    match goal with |- ?x = 1 => replace x with ((c * c + s * s) * (c' * c' + s' * s')) by ring end. rewrite W1, W2. ring. }
  destruct VB as (r & Hr & VB).
  pose proof (vel_compose _ _ _ _ _ _ V2 (vel_inverse _ _ _ V1 (moves_se2_vel _ _ _ M1)) (moves_se2_vel _ _ _ M2)) as W.
  change (vel (fun t => se2_between (h1 t) (h2 t)) (se2_between o1 o2)
    (add3 (app3 (se2_adjoint (se2_inverse o2)) (app3 (se2_inverse_jac o1) x1)) x2)) in W.
  pose proof (theta_curve _ _ _ _ Hr VB B W) as DO.
  assert (DO' : deriv (fun t => se2_theta (se2_between (h1 t) (h2 t))) 0 (b2 x2 - b2 x1)).
  { eapply deriv_val; [|exact DO]. destruct x1, x2, o1, o2. unfold se2_inverse_jac. unfg. ring. }
  clear DO W VB Hr r B.
  destruct (moves_se2_vel _ _ _ M1) as (A0 & A1 & A2 & A3 & A4). destruct (moves_se2_vel _ _ _ M2) as (B0 & B1 & B2 & B3 & B4).
  destruct (moves_se2_vel _ _ _ N1) as (C0 & C1 & C2 & C3 & C4). destruct (moves_se2_vel _ _ _ N2) as (D0 & D1 & D2 & D3 & D4).
  clear M1 M2 N1 N2. unfold se2_valid in V1, V2.
  assert (Q1 : pc o1 * pc o1 = 1 - ps o1 * ps o1) by lra. assert (Q2 : pc o2 * pc o2 = 1 - ps o2 * ps o2) by lra. clear V1 V2.
  assert (TH : se2_theta (se2_between (h1 0) (h2 0)) = se2_theta (se2_between o1 o2)) by (rewrite A0, B0; reflexivity).
  set (om := fun t => se2_theta (se2_between (h1 t) (h2 t))) in *.
  change (deriv om 0 (b2 x2 - b2 x1)) in DO'. set (om0 := se2_theta (se2_between o1 o2)) in *.
  assert (O0 : om 0 = om0) by exact TH. clear TH.
  set (P := fun t => mkV3 (a0 (so2_unrotate (se2_rotation (h2 t)) (sub2 (se2_xy (h2 t)) (se2_xy (h1 t)))))
    (a1 (so2_unrotate (se2_rotation (h2 t)) (sub2 (se2_xy (h2 t)) (se2_xy (h1 t))))) (om t)).
  assert (EV : forall t, push_V (h1 t) (h2 t) = P t) by reflexivity.
  assert (EV0 : push_V o1 o2 = mkV3 (a0 (so2_unrotate (se2_rotation o2) (sub2 (se2_xy o2) (se2_xy o1))))
    (a1 (so2_unrotate (se2_rotation o2) (sub2 (se2_xy o2) (se2_xy o1)))) om0) by reflexivity.
  clearbody om om0. unfold push_error. rewrite !EV0.
  apply (deriv3_ext_loc (fun t => sub3 (app3 (push_D (h2 t) c2 (se2_xy (k2 t))) (P t)) (push_Vp (h2 t) (k1 t) (k2 t))) _ _ 1 Rlt_0_1);
    [intros t _; rewrite EV; reflexivity|]. clear EV EV0. unfold P. clear P.
  unfold deriv3.
  destruct x1 as [x10 x11 x12], x2 as [x20 x21 x22], y1 as [y10 y11 y12], y2 as [y20 y21 y22].
  destruct o1 as [o1x o1y o1c o1s], o2 as [o2x o2y o2c o2s], e1 as [e1x e1y e1c e1s], e2 as [e2x e2y e2c e2s].
  cbn in A1, A2, A3, A4, B1, B2, B3, B4, C1, C2, C3, C4, D1, D2, D3, D4, Q1, Q2, DO'.
  cbn. repeat split; dgo; rewrite ?A0, ?B0, ?C0, ?D0, ?O0; cbn; ring [Q1 Q2].
Qed.

(** What the error says. In the frame of the second object pose let [v] be the displacement of the object, [om] the angle it turns,
    [p] the contact point and [u] the displacement of the pusher. The first two components are the velocity of the object's material
    point at the contact minus the one of the pusher; the third is the moment of the force (vx, vy) applied at [p] minus c_square
    times the angle: at zero the pusher sticks and the force and moment lie on the limit surface. *)
Theorem C63_pushing_balance : forall c2 o1 o2 e1 e2 v0 v1 u0 u1 p0 p1 om, se2_valid o1 -> se2_valid o2 -> - PI < om <= PI ->
  (pc o2 = pc o1 * cos om - ps o1 * sin om /\ ps o2 = ps o1 * cos om + pc o1 * sin om) ->
  (px o2 - px o1 = pc o2 * v0 - ps o2 * v1 /\ py o2 - py o1 = ps o2 * v0 + pc o2 * v1) ->
  (px e2 - px e1 = pc o2 * u0 - ps o2 * u1 /\ py e2 - py e1 = ps o2 * u0 + pc o2 * u1) ->
  (px e2 = px o2 + (pc o2 * p0 - ps o2 * p1) /\ py e2 = py o2 + (ps o2 * p0 + pc o2 * p1)) ->
  push_error c2 o1 o2 e1 e2 = mkV3 ((v0 - om * p1) - u0) ((v1 + om * p0) - u1) ((p0 * v1 - p1 * v0) - c2 * om).
Proof.
  intros c2 o1 o2 e1 e2 v0 v1 u0 u1 p0 p1 om V1 V2 Hom (R1 & R2) (D1 & D2) (U1 & U2) (P1 & P2).
  assert (TH : se2_theta (se2_between o1 o2) = om).
  { unfold se2_theta, so2_log_map, se2_rotation.
    assert (EC : pc (se2_between o1 o2) = cos om).
    { destruct o1, o2. unfold se2_valid in V1. cbn in V1, R1, R2. unfg. cbn.
      replace (cos om) with ((pc * pc + ps * ps) * cos om) by (rewrite V1; ring). rewrite R1, R2. ring. }
    assert (ES : ps (se2_between o1 o2) = sin om).
    { destruct o1, o2. unfold se2_valid in V1. cbn in V1, R1, R2. unfg. cbn.
      replace (sin om) with ((pc * pc + ps * ps) * sin om) by (rewrite V1; ring). rewrite R1, R2. ring. }
    cbn [co si]. rewrite EC, ES. apply atan2_angle. exact Hom. }
  unfold push_error, push_V. rewrite TH. clear TH R1 R2 V1.
  assert (UN : forall a b w0 w1, a = pc o2 * w0 - ps o2 * w1 -> b = ps o2 * w0 + pc o2 * w1 ->
    so2_unrotate (se2_rotation o2) (mkV2 a b) = mkV2 w0 w1).
  { intros a b w0 w1 -> ->. unfold se2_valid in V2. destruct o2. cbn in V2. unfold so2_unrotate, se2_rotation. unfg. cbn. f_equal.
    - replace w0 with ((pc * pc + ps * ps) * w0) at 3 by (rewrite V2; ring). ring.
    - replace w1 with ((pc * pc + ps * ps) * w1) at 3 by (rewrite V2; ring). ring. }
  assert (CP : se2_transform_to o2 (se2_xy e2) = mkV2 p0 p1).
  { unfold se2_transform_to. fold (se2_rotation o2).
    pose proof (UN (px e2 - px o2) (py e2 - py o2) p0 p1 ltac:(lra) ltac:(lra)) as X. unfold se2_xy, sub2. cbn [a0 a1].
    rewrite <- X. unfg. cbn. f_equal; ring. }
  unfold push_D, push_Vp. rewrite CP. unfold se2_xy, sub2. cbn [a0 a1].
  rewrite (UN _ _ v0 v1 D1 D2), (UN _ _ u0 u1 U1 U2). unfold app3, sub3. apply V3_ext; cbn; ring.
Qed.
Example pushing_balance_case : exists o1 o2 e1 e2 v0 v1 u0 u1 p0 p1 om, se2_valid o1 /\ se2_valid o2 /\ - PI < om <= PI /\ om <> 0 /\
  (pc o2 = pc o1 * cos om - ps o1 * sin om /\ ps o2 = ps o1 * cos om + pc o1 * sin om) /\
  (px o2 - px o1 = pc o2 * v0 - ps o2 * v1 /\ py o2 - py o1 = ps o2 * v0 + pc o2 * v1) /\
  (px e2 - px e1 = pc o2 * u0 - ps o2 * u1 /\ py e2 - py e1 = ps o2 * u0 + pc o2 * u1) /\
  (px e2 = px o2 + (pc o2 * p0 - ps o2 * p1) /\ py e2 = py o2 + (ps o2 * p0 + pc o2 * p1)) /\ v0 <> 0 /\ p1 <> 0 /\ u0 <> 0.
Proof.
  exists (mkSE2 0 0 1 0), (mkSE2 (cos 1) (sin 1) (cos 1) (sin 1)), (mkSE2 0 0 1 0),
    (mkSE2 (cos 1 - sin 1) (sin 1 + cos 1) (cos 1) (sin 1)), 1, 0, 1, 1, 0, 1, 1.
  pose proof (sin2_cos2 1) as Q. unfold Rsqr in Q. pose proof PI2_1. unfold se2_valid. cbn. repeat split; try lra.
Qed.
(** Moving the world frame changes no error: with T before all four poses the error is the same. *)
Theorem C63_pushing_frame : forall c2 T o1 o2 e1 e2, se2_valid T ->
  push_error c2 (se2_compose T o1) (se2_compose T o2) (se2_compose T e1) (se2_compose T e2) = push_error c2 o1 o2 e1 e2.
Proof.
  intros c2 T o1 o2 e1 e2 V.
  assert (E : se2_rotation (se2_between (se2_compose T o1) (se2_compose T o2)) = se2_rotation (se2_between o1 o2)).
  { unfold se2_valid in V. destruct T, o1, o2. cbn in V. unfg. cbn. f_equal.
    - replace (_ - _) with ((pc * pc + ps * ps) * (pc0 * pc1 - - ps0 * ps1)) by ring. rewrite V. ring.
    - replace (_ + _) with ((pc * pc + ps * ps) * (- ps0 * pc1 + pc0 * ps1)) by ring. rewrite V. ring. }
  unfold push_error, push_V. replace (se2_theta (se2_between (se2_compose T o1) (se2_compose T o2))) with (se2_theta (se2_between o1 o2))
    by (unfold se2_theta; rewrite E; reflexivity).
  clear E. generalize (se2_theta (se2_between o1 o2)) as om. intro om.
  unfold se2_valid in V. assert (Q : pc T * pc T = 1 - ps T * ps T) by lra. clear V.
  destruct T, o1, o2, e1, e2. cbn in Q. unfold push_D, push_Vp. unfg. apply V3_ext; cbn; ring [Q].
Qed.

Example C63_case : let g := mkSE2 0 0 1 0 in let k := mkSE2 2 0 1 0 in
  moves_se2 (fun t => mkSE2 t 0 1 0) g (mkV3 1 0 0) /\ moves_se2 (fun t => mkSE2 2 t 1 0) k (mkV3 0 1 0)
  /\ Rabs (se2_theta (se2_between g k)) < PI
  /\ push_error 1 g k (mkSE2 0 1 1 0) (mkSE2 0 2 1 0) = mkV3 2 (-1) (-4).
Proof.
  assert (E : se2_theta (se2_between (mkSE2 0 0 1 0) (mkSE2 2 0 1 0)) = 0).
  { replace (se2_between (mkSE2 0 0 1 0) (mkSE2 2 0 1 0)) with (mkSE2 2 0 1 0) by (apply SE2_ext; cbn; ring).
    unfold se2_theta, so2_log_map. cbn. pose proof (atan2_angle 0 ltac:(pose proof PI_RGT_0; lra)) as H.
    rewrite cos_0, sin_0 in H. exact H. }
  cbv zeta. split; [|split; [|split]].
  - split; [reflexivity|]. split; [unfold deriv_m3; cbn; repeat split; dgo; ring|]. exists 1. split; [lra|]. intros; cbn; ring.
  - split; [reflexivity|]. split; [unfold deriv_m3; cbn; repeat split; dgo; ring|]. exists 1. split; [lra|]. intros; cbn; ring.
  - rewrite E, Rabs_R0. apply PI_RGT_0.
  - unfold push_error, push_V. rewrite E. unfold push_D, push_Vp. unfg. apply V3_ext; cbn; ring.
Qed.
