(** C86, proofs: random rotations, synthetic problems, the histogram, the losses *)
From Coq Require Import Reals Lra Psatz List Arith Lia Bool ZArith.
From Verif Require Import Geo_spec Geo3_spec Geo4_spec Trig SE2_model SO3_model SO3_group SO3_exp SO3_quat SO3_log SE3_model SE3_group SE3_exp
  Emb2_spec Rand_model Rand_props G2o_model Syn_model Syn_props Syn_main Ba_model Ba_spec Ba_props.
Import ListNotations.
Local Open Scope R_scope.

Lemma s2_unit u1 u2 : 0 <= u2 <= 1 -> dot3 (random_s2 u1 u2) (random_s2 u1 u2) = 1.
Proof.
  intros H. unfold random_s2, dot3. cbn [b0 b1 b2]. pose proof (sin2cos2 (u1 * (2 * PI))) as SC.
  assert (Z : 0 <= 1 - (u2 * 2 - 1) ^ 2) by (simpl; nra). pose proof (sqrt_sqrt _ Z) as Q.
  set (r := sqrt _) in *. set (s := sin _) in *. set (c := cos _) in *. clearbody r s c.
  replace (r * c * (r * c) + r * s * (r * s)) with (r * r * (s * s + c * c)) by ring. rewrite Q, SC. ring.
Qed.
Lemma small_quat_mat th a : dot3 a a = 1 ->
  so3_quat_mat (mkQ (cos th) (sin th * b0 a) (sin th * b1 a) (sin th * b2 a)) = AA (2 * th) a /\
  qnorm2 (mkQ (cos th) (sin th * b0 a) (sin th * b1 a) (sin th * b2 a)) = 1.
Proof.
  intros A. destruct a as [x y z]. unfold dot3 in A. cbn [b0 b1 b2] in A. pose proof (sin2cos2 th) as SC.
  unfold qnorm2. cbn [qw qx qy qz b0 b1 b2]. split.
  - unfold AA, matc, so3_quat_mat. cbn [qw qx qy qz b0 b1 b2]. rewrite cos_2a, sin_2a.
    set (s := sin th) in *. set (c := cos th) in *. clearbody s c.
    assert (Z2 : z * z = 1 - x * x - y * y) by lra. assert (C2 : c * c = 1 - s * s) by lra.
    apply M3_ext; cbn [d00 d01 d02 d10 d11 d12 d20 d21 d22]; ring [Z2 C2].
  - set (s := sin th) in *. set (c := cos th) in *. clearbody s c.
    replace (c * c + s * x * (s * x) + s * y * (s * y) + s * z * (s * z)) with (c * c + s * s * (x * x + y * y + z * z)) by ring.
    rewrite A. lra.
Qed.

Definition degrees_of (max_degrees min_degrees u : R) : R := min_degrees + (max_degrees - min_degrees) * u.
(** random_small_quaternion(max, min) is a rotation about a random axis by TWICE an angle between [min] and
    [max] degrees. *)
Theorem C86_small_rotation : forall mx mn u1 u2 u3, 0 <= mn -> mn <= mx -> mx <= 90 -> in01 u1 -> in01 u2 -> in01 u3 ->
  exists g, so3_quaternion_to_rotation (random_small_quaternion mx mn u1 u2 u3) = Some g /\ rotation3 g /\
    qnorm2 (random_small_quaternion mx mn u1 u2 u3) = 1 /\
    len3 (random_s2 u1 u2) = 1 /\ app3 g (random_s2 u1 u2) = random_s2 u1 u2 /\
    exists t, mn <= t <= mx /\ rot_angle g (degrees (2 * t)).
Proof.
  intros mx mn u1 u2 u3 H0 H1 H2 [U1 U1'] [U2 U2'] [U3 U3']. pose proof PI_RGT_0 as PP.
  pose proof (s2_unit u1 u2 ltac:(lra)) as A. unfold random_small_quaternion; cbv zeta.
  set (a := random_s2 u1 u2) in *. set (t := mn + (mx - mn) * u3).
  assert (T : mn <= t <= mx) by (unfold t; nra).
  replace (t * (2 * PI) / 360) with (t * PI / 180) by field.
  destruct (small_quat_mat (t * PI / 180) a A) as [M N]. rewrite (quat_rot_unit _ N), M.
  exists (AA (2 * (t * PI / 180)) a). split; [reflexivity|]. pose proof (AA_rotation (2 * (t * PI / 180)) a A) as RA.
  split; [exact RA|]. split; [exact N|]. split; [unfold len3; rewrite A; apply sqrt_1|]. split.
  - clearbody a. destruct a as [x y z]. unfold dot3 in A. cbn [b0 b1 b2] in A. unfold AA, matc, app3.
    set (c := cos _). set (s := sin _). clearbody c s. assert (Z2 : z * z = 1 - x * x - y * y) by lra.
    apply V3_ext; cbn [b0 b1 b2 d00 d01 d02 d10 d11 d12 d20 d21 d22]; ring [Z2].
  - exists t. split; [exact T|].
    apply (rot_theta _ _ RA). rewrite AA_theta; [unfold degrees; field| |exact A].
    assert (0 <= t * PI / 180 <= PI / 2); [|lra]. split; [apply Rmult_le_pos; [nra|lra]|]. nra.
Qed.
(** so its angle can be larger than [max] degrees, up to twice as large *)
Theorem C86_small_rotation_refuted : forall mx, 0 < mx <= 90 -> exists u1 u2 u3 g th, in01 u1 /\ in01 u2 /\ in01 u3 /\
  so3_quaternion_to_rotation (random_small_quaternion mx 0 u1 u2 u3) = Some g /\ rot_angle g th /\ degrees mx < th.
Proof.
  intros mx H. pose proof PI_RGT_0 as PP.
  assert (I : in01 (3 / 4)) by (unfold in01; lra).
  exists (3 / 4), (3 / 4), (3 / 4). pose proof (s2_unit (3 / 4) (3 / 4) ltac:(lra)) as A. unfold random_small_quaternion; cbv zeta.
  set (a := random_s2 (3 / 4) (3 / 4)) in *. set (t := mx * 3 / 4).
  replace ((0 + (mx - 0) * (3 / 4)) * (2 * PI) / 360) with (t * PI / 180) by (unfold t; field).
  destruct (small_quat_mat (t * PI / 180) a A) as [M N]. rewrite (quat_rot_unit _ N), M.
  exists (AA (2 * (t * PI / 180)) a), (degrees (2 * t)). split; [exact I|]. split; [exact I|]. split; [exact I|]. split; [reflexivity|].
  pose proof (AA_rotation (2 * (t * PI / 180)) a A) as RA. split.
  - apply (rot_theta _ _ RA). rewrite AA_theta; [unfold degrees; field| |exact A]. unfold t. nra.
  - unfold degrees, t. nra.
Qed.

Lemma spread_close r base u : 0 <= r -> in01 u -> close r (spread r base u) base.
Proof. intros Hr [U V]. unfold close, spread. replace ((u * 2 - 1) * r + base - base) with ((u * 2 - 1) * r) by ring. apply Rabs_le. nra. Qed.
Lemma spread3_close r base u : 0 <= r -> in01_3 u -> close3 r (spread3 r base u) base.
Proof. intros Hr (U0 & U1 & U2). unfold close3, spread3. cbn [b0 b1 b2]. split; [|split]; now apply spread_close. Qed.

Lemma draw_rigid rot pos base u : 0 <= rot <= 90 -> 0 <= pos -> pose_draw u ->
  exists h th, se3_from_xyz_quaternion (spread3 pos base (pd_t u)) (random_small_quaternion rot 0 (pd_1 u) (pd_2 u) (pd_3 u)) = Some h /\
    rigid3 h /\ rot_angle (rr h) th /\ 0 <= th <= degrees (2 * rot) /\ close3 pos (rp h) base.
Proof.
  intros Hr Hp (U1 & U2 & U3 & UT). pose proof PI_RGT_0 as PP.
  destruct (C86_small_rotation rot 0 _ _ _ ltac:(lra) ltac:(lra) ltac:(lra) U1 U2 U3) as (g & EG & RG & _ & _ & _ & t & T & RA).
  unfold se3_from_xyz_quaternion. rewrite EG. cbn [bind]. exists (mkRig g (spread3 pos base (pd_t u))), (degrees (2 * t)).
  split; [reflexivity|]. split; [exact RG|]. split; [exact RA|]. split; [|now apply spread3_close]. unfold degrees. split; nra.
Qed.

(** A synthetic camera and a perturbed camera *)
Theorem C86_camera : forall rot pos base fr fb k1r k1b k2r k2b u, 0 <= rot <= 90 -> 0 <= pos -> 0 <= fr -> 0 <= k1r -> 0 <= k2r -> cam_draw u ->
  exists c, gen_camera rot pos base fr fb k1r k1b k2r k2b u = Some c /\ placed (2 * rot) pos base c /\
    close fr (c_f c) fb /\ close k1r (c_k1 c) k1b /\ close k2r (c_k2 c) k2b.
Proof.
  intros rot pos base fr fb k1r k1b k2r k2b u Hr Hp Hf H1 H2 (UP & UF & U1 & U2).
  destruct (draw_rigid rot pos base _ Hr Hp UP) as (h & th & E & Rh & Ra & T & C).
  unfold gen_camera. rewrite E. cbn [bind]. eexists. split; [reflexivity|]. cbn [c_f c_k1 c_k2].
  split; [unfold placed; cbn [c_pose]; split; [exact Rh|split; [now exists th|exact C]]|].
  split; [now apply spread_close|]. split; now apply spread_close.
Qed.
Theorem C86_perturbed : forall rot pos u c, 0 <= rot <= 90 -> 0 <= pos -> pose_draw u -> rigid3 (c_pose c) ->
  exists c', perturbed rot pos u (Some c) = Some c' /\ moved (2 * rot) pos c c' /\ rigid3 (c_pose c') /\
    exists h, forall p, se3_transform (c_pose c') p = se3_transform h (se3_transform (c_pose c) p).
Proof.
  intros rot pos u c Hr Hp Hu Hc. destruct (draw_rigid rot pos zero3 u Hr Hp Hu) as (h & th & E & Rh & Ra & T & C).
  unfold perturbed. rewrite E. cbn [bind]. eexists. split; [reflexivity|]. split; [|split].
  - exists h, th. cbn [c_pose c_f c_k1 c_k2]. split; [exact Rh|]. split; [exact Ra|]. split; [exact T|]. split; [exact C|]. split; [reflexivity|].
    split; [reflexivity|]. split; reflexivity.
  - cbn [c_pose]. now apply rig_compose.
  - exists h. intros p. cbn [c_pose]. apply (C37_transform h (c_pose c) p p Rh Hc).
Qed.
