(** C80: rand, randn and identity return elements of the group, whatever the
    random numbers are; and SO3.rand is uniform when they are. *)
From Coq Require Import Reals List Lia Lra.
From Verif Require Import Geo_spec Geo3_spec Geo4_spec Trig SE2_model SE2_group SE2_exp SO3_model SO3_group SO3_exp SO3_quat
  SE3_model SE3_group SE3_exp Rand_model.
Import ListNotations.
Local Open Scope R_scope.

(** what torch.rand may return *)
Definition in01 (s : nat -> R) := forall i, 0 <= s i < 1.

Lemma rand_quat_unit u1 v2 v3 : 0 <= u1 <= 1 -> qnorm2 (rand_quat u1 v2 v3) = 1.
Proof.
  intros H. unfold qnorm2, rand_quat. cbn [qw qx qy qz].
  pose proof (sin2cos2 (v2 * 2 * PI)). pose proof (sin2cos2 (v3 * 2 * PI)).
  pose proof (sqrt_sqrt (1 - u1) ltac:(lra)). pose proof (sqrt_sqrt u1 ltac:(lra)).
  set (a := sqrt (1 - u1)) in *. set (b := sqrt u1) in *. set (S := sin (v2 * 2 * PI)) in *.
  set (C := cos (v2 * 2 * PI)) in *. set (S' := sin (v3 * 2 * PI)) in *. set (C' := cos (v3 * 2 * PI)) in *.
  replace (_ + _) with (a * a * (S * S + C * C) + b * b * (S' * S' + C' * C')) by ring. rewrite H0, H1, H2, H3. ring.
Qed.
Lemma quat_rot_unit q : qnorm2 q = 1 -> so3_quaternion_to_rotation q = Some (so3_quat_mat q).
Proof.
  intros U. unfold so3_quaternion_to_rotation. destruct (quat_normalized q) as [E _]; [lra|]. rewrite E.
  change (so3_quat_norm q) with (sqrt (qnorm2 q)). rewrite U, sqrt_1. cbn [bind]. f_equal. f_equal. destruct q as [w x y z].
  apply Quat_ext; unfold qscal; cbn [qw qx qy qz]; field.
Qed.
Lemma rand_at n s i : in01 s ->
  so3_rand_at n s i = Some (so3_quat_mat (rand_quat (s i) (s (n + i)%nat) (s (2 * n + i)%nat))).
Proof. intros H. apply quat_rot_unit, rand_quat_unit. pose proof (H i). lra. Qed.

(** the numbers of a full turn *)
Lemma turn_exists c s : c * c + s * s = 1 -> exists u, 0 <= u < 1 /\ cos (u * 2 * PI) = c /\ sin (u * 2 * PI) = s.
Proof.
  intros H. pose proof PI_RGT_0 as P. destruct (atan2_spec c s H) as (C & S & B). set (t := atan2 s c) in *. clearbody t.
  destruct (Rle_dec 0 t) as [Z|Z].
  - exists (t / (2 * PI)). replace (t / (2 * PI) * 2 * PI) with t by (field; lra). split; [|tauto].
    split; [apply Rmult_le_pos; [lra|]; left; apply Rinv_0_lt_compat; lra|].
    apply (Rmult_lt_reg_r (2 * PI)); [lra|]. replace (t / (2 * PI) * (2 * PI)) with t by (field; lra). lra.
  - exists (t / (2 * PI) + 1). replace ((t / (2 * PI) + 1) * 2 * PI) with (t + 2 * PI) by (field; lra).
    rewrite cos_plus, sin_plus, cos_2PI, sin_2PI. split; [|split; lra].
    assert (E : t / (2 * PI) * (2 * PI) = t) by (field; lra). split.
    + apply (Rmult_le_reg_r (2 * PI)); [lra|]. rewrite Rmult_plus_distr_r, E. lra.
    + apply (Rmult_lt_reg_r (2 * PI)); [lra|]. rewrite Rmult_plus_distr_r, E. lra.
Qed.
Lemma turn_unique u v : 0 <= u < 1 -> 0 <= v < 1 -> cos (u * 2 * PI) = cos (v * 2 * PI) -> sin (u * 2 * PI) = sin (v * 2 * PI) -> u = v.
Proof.
  intros Hu Hv C S. pose proof PI_RGT_0 as P.
  assert (C' : cos (PI - u * 2 * PI) = cos (PI - v * 2 * PI)) by (rewrite !cos_minus, C, S; reflexivity).
  assert (S' : sin (PI - u * 2 * PI) = sin (PI - v * 2 * PI)) by (rewrite !sin_minus, C, S; reflexivity).
  apply angle_unique in C'; [|nra|nra|exact S']. nra.
Qed.

(** the i-th element of the batch *)
Lemma nth_map_seq0 {A} (f : nat -> A) n i : (i < n)%nat -> nth_error (map f (seq 0 n)) i = Some (f i).
Proof.
  intros H. rewrite (map_nth_error f i (seq 0 n) (d := i)); [reflexivity|].
  rewrite (nth_error_nth' _ 0%nat) by (rewrite seq_length; exact H). rewrite seq_nth by exact H. reflexivity.
Qed.
Lemma map_seq_forall {A} (f : nat -> A) n (P : A -> Prop) :
  (forall i, (i < n)%nat -> P (f i)) -> length (map f (seq 0 n)) = n /\ Forall P (map f (seq 0 n)).
Proof.
  intros H. split; [rewrite map_length, seq_length; reflexivity|]. apply Forall_forall. intros x I.
  apply in_map_iff in I. destruct I as (i & <- & I). apply in_seq in I. apply H. lia.
Qed.

(** rand, for every draw in [0,1): batches of the asked number of elements, each
    in the group; the translations are the numbers drawn, in the unit cube, and
    the planar angles are within [-pi, pi) *)
Definition is_rot (x : option M3) := exists g, x = Some g /\ rotation3 g.
Definition is_rig (P : V3 -> Prop) (x : option Rig) := exists g, x = Some g /\ rigid3 g /\ P (rp g).
Definition unit_cube (t : V3) := 0 <= b0 t < 1 /\ 0 <= b1 t < 1 /\ 0 <= b2 t < 1.
Definition turned (P : R -> Prop) (g : SO2) := so2_valid g /\ exists th, P th /\ co g = cos th /\ si g = sin th.

Theorem C80_rand_valid : forall size s rg ge, in01 s ->
  let n := numel size in
  (length (t_val (so3_rand size s rg)) = n /\ Forall is_rot (t_val (so3_rand size s rg)))
  /\ (length (t_val (se3_rand size s rg)) = n /\ Forall (is_rig unit_cube) (t_val (se3_rand size s rg)))
  /\ (forall r, th_so2_rand ge size s rg = Some r ->
        length (t_val r) = n /\ Forall (turned (fun th => - PI <= th < PI)) (t_val r))
  /\ (forall r, th_se2_rand ge size s rg = Some r ->
        length (t_val r) = n /\ Forall (fun g => 0 <= px g < 1 /\ 0 <= py g < 1
          /\ turned (fun th => - PI <= th < PI) (mkSO2 (pc g) (ps g))) (t_val r)).
Proof.
  intros size s rg ge H n. pose proof PI_RGT_0 as P.
  assert (U : forall m i, rotation3 (so3_quat_mat (rand_quat (s i) (s (m + i)%nat) (s (2 * m + i)%nat)))).
  { intros. apply quat_mat_rotation, rand_quat_unit. pose proof (H i). lra. }
  split; [|split; [|split]].
  - apply map_seq_forall. intros i I. eexists. split; [apply rand_at; exact H|apply U].
  - apply map_seq_forall. intros i I. rewrite rand_at by exact H. eexists. split; [reflexivity|].
    split; [apply U|]. unfold unit_cube, trans_at; cbn [rp b0 b1 b2]. auto.
  - unfold th_so2_rand, one_d. intros r. destruct (Nat.eqb _ _); [|discriminate]. intros E. injection E as <-.
    apply map_seq_forall. intros i I. split; [unfold so2_valid, so2_exp_map; cbn [co si]; pose proof (sin2cos2 (2 * PI * s i - PI)); lra|].
    exists (2 * PI * s i - PI). split; [cbv beta; pose proof (H i); nra|]. split; reflexivity.
  - unfold th_se2_rand, one_d. intros r. destruct (Nat.eqb _ _); [|discriminate]. destruct (andb rg ge); [discriminate|].
    intros E. injection E as <-. apply map_seq_forall. intros i I.
    unfold from_x_y_theta, se2_of, so2_exp_map; cbn [px py pc ps a0 a1 co si]. split; [apply H|]. split; [apply H|]. set (th := 2 * PI * _).
    split; [unfold so2_valid; cbn [co si]; pose proof (sin2cos2 th); lra|].
    exists th. split; [cbv beta; unfold th; match goal with |- context [s ?k] => pose proof (H k) end; nra|]. split; reflexivity.
Qed.

(** randn, for every real numbers *)
Theorem C80_randn_valid : forall d size s rg ge,
  let n := numel size in
  (length (t_val (so3_randn d size s rg)) = n /\ Forall is_rot (t_val (so3_randn d size s rg)))
  /\ (length (t_val (se3_randn d size s rg)) = n /\ Forall (is_rig (fun _ => True)) (t_val (se3_randn d size s rg)))
  /\ (forall r, th_so2_randn ge size s rg = Some r -> length (t_val r) = n /\ Forall so2_valid (t_val r))
  /\ (forall r, th_se2_randn ge size s rg = Some r -> length (t_val r) = n /\ Forall se2_valid (t_val r)).
Proof.
  intros d size s rg ge n. split; [|split; [|split]].
  - apply map_seq_forall. intros i I. apply C36_exp_rotation.
  - apply map_seq_forall. intros i I. unfold so3_randn_at.
    destruct (C36_exp_rotation d (mkV3 (PI * s (3 * i)%nat) (PI * s (3 * i + 1)%nat) (PI * s (3 * i + 2)%nat))) as (g & E & G).
    rewrite E. eexists. split; [reflexivity|]. split; [exact G|exact Logic.I].
  - unfold th_so2_randn, one_d. intros r. destruct (Nat.eqb _ _); [|discriminate]. intros E. injection E as <-.
    apply map_seq_forall. intros i I. unfold so2_valid, so2_exp_map; cbn [co si]. pose proof (sin2cos2 (PI * s i)). lra.
  - unfold th_se2_randn, one_d. intros r. destruct (Nat.eqb _ _); [|discriminate]. destruct (andb rg ge); [discriminate|].
    intros E. injection E as <-. apply map_seq_forall. intros i I. unfold se2_valid, from_x_y_theta, se2_of, so2_exp_map; cbn [pc ps co si].
    match goal with |- context [cos ?k] => pose proof (sin2cos2 k) end. lra.
Qed.

(** identity: n elements, each neutral for compose on both sides and the identity
    of points *)
Theorem C80_identity : forall size rg,
  (length (t_val (so3_identity size rg)) = numel size
   /\ Forall (fun e => rotation3 e /\ (forall g, so3_compose e g = g /\ so3_compose g e = g) /\ forall p, so3_transform e p = p)
        (t_val (so3_identity size rg)))
  /\ (length (t_val (se3_identity size rg)) = numel size
   /\ Forall (fun e => rigid3 e /\ (forall g, rigid3 g -> se3_compose e g = g /\ se3_compose g e = g) /\ forall p, se3_transform e p = p)
        (t_val (se3_identity size rg))).
Proof.
  intros size rg.
  assert (RI : rotation3 I3) by (split; [apply M3_ext; unfold mul3, tr3, I3; cbn [d00 d01 d02 d10 d11 d12 d20 d21 d22]; ring|unfold det3, I3; cbn [d00 d01 d02 d10 d11 d12 d20 d21 d22]; ring]).
  split; (split; [apply repeat_length|]); apply Forall_forall; intros e I; apply repeat_spec in I; subst e.
  - split; [exact RI|]. split; [intros; split; destruct g; apply M3_ext; unfold so3_compose, mul3, I3; cbn [Geo_spec.d00 Geo_spec.d01 Geo_spec.d02 Geo_spec.d10 Geo_spec.d11 Geo_spec.d12 Geo_spec.d20 Geo_spec.d21 Geo_spec.d22]; ring|].
    intros [x y z]; apply V3_ext; unfold so3_transform, app3, I3; cbn [b0 b1 b2 d00 d01 d02 d10 d11 d12 d20 d21 d22]; ring.
  - change (mkRig _ _) with (mkRig I3 zero3). split; [exact RI|]. split.
    + intros g G. destruct (C37_group g g g G G G) as (_ & _ & _ & A & B & _). split; assumption.
    + intros [x y z]; apply V3_ext; unfold se3_transform, app3, add3, zero3, I3; cbn [rr rp b0 b1 b2 d00 d01 d02 d10 d11 d12 d20 d21 d22]; ring.
Qed.

(** ---- SO3.rand is uniform ---- *)
(** the rotation the call SO3.rand(1) makes of three numbers *)
Definition draw3 (u v w : R) : nat -> R := fun i => match i with O => u | 1%nat => v | _ => w end.
Definition rand1 (u v w : R) : option M3 := hd None (t_val (so3_rand [1%nat] (draw3 u v w) false)).
Lemma rand1_eq u v w : 0 <= u <= 1 -> rand1 u v w = Some (so3_quat_mat (rand_quat u v w)).
Proof. intros H. unfold rand1. cbn. apply quat_rot_unit, rand_quat_unit, H. Qed.

(** unit quaternions give the same rotation iff they are equal or opposite *)
Lemma quat_mat_inj p q : qnorm2 p = 1 -> qnorm2 q = 1 -> so3_quat_mat p = so3_quat_mat q -> p = q \/ p = qscal (-1) q.
Proof.
  destruct p as [w x y z], q as [w' x' y' z']. unfold qnorm2, so3_quat_mat. cbn [qw qx qy qz]. intros N N' E.
  injection E as E0 E1 E2 E3 E4 E5 E6 E7 E8.
  assert (A : w * w = w' * w' /\ x * x = x' * x' /\ y * y = y' * y' /\ z * z = z' * z') by (repeat split; lra).
  assert (B : w * x = w' * x' /\ w * y = w' * y' /\ w * z = w' * z' /\ x * y = x' * y' /\ x * z = x' * z' /\ y * z = y' * z') by (repeat split; lra).
  clear E0 E1 E2 E3 E4 E5 E6 E7 E8. destruct A as (A0 & A1 & A2 & A3), B as (B0 & B1 & B2 & B3 & B4 & B5).
  assert (S : forall a a', a * a = a' * a' -> a = a' \/ a = - a').
  { intros a a' H. assert (Z : (a - a') * (a + a') = 0) by lra. apply Rmult_integral in Z. destruct Z; [left|right]; lra. }
  assert (K : forall a b b', a <> 0 -> a * b = a * b' -> b = b') by (intros a b b' H H'; apply Rmult_eq_reg_l in H'; assumption).
  assert (F : forall a b b', a <> 0 -> a * b = - a * b' -> b = - b') by (intros a b b' H H'; apply (Rmult_eq_reg_l a); [lra|assumption]).
  assert (NZ : w <> 0 \/ x <> 0 \/ y <> 0 \/ z <> 0).
  { destruct (Req_dec w 0), (Req_dec x 0), (Req_dec y 0), (Req_dec z 0); subst; tauto || (exfalso; lra). }
  unfold qscal; cbn [qw qx qy qz].
  destruct NZ as [NZ|[NZ|[NZ|NZ]]].
  - destruct (S w w' A0) as [->|T]; [left|right; assert (w' = - w) by lra; subst w']; apply Quat_ext; cbn [qw qx qy qz]; try lra;
      ((eapply K; [exact NZ|]; lra) || (apply Rmult_eq_reg_l with w; [|exact NZ]; lra)).
  - destruct (S x x' A1) as [->|T]; [left|right; assert (x' = - x) by lra; subst x']; apply Quat_ext; cbn [qw qx qy qz]; try lra;
      ((eapply K; [exact NZ|]; lra) || (apply Rmult_eq_reg_l with x; [|exact NZ]; lra)).
  - destruct (S y y' A2) as [->|T]; [left|right; assert (y' = - y) by lra; subst y']; apply Quat_ext; cbn [qw qx qy qz]; try lra;
      ((eapply K; [exact NZ|]; lra) || (apply Rmult_eq_reg_l with y; [|exact NZ]; lra)).
  - destruct (S z z' A3) as [->|T]; [left|right; assert (z' = - z) by lra; subst z']; apply Quat_ext; cbn [qw qx qy qz]; try lra;
      ((eapply K; [exact NZ|]; lra) || (apply Rmult_eq_reg_l with z; [|exact NZ]; lra)).
Qed.
Lemma quat_mat_opp q : so3_quat_mat (qscal (-1) q) = so3_quat_mat q.
Proof. destruct q. unfold so3_quat_mat, qscal; cbn [Geo3_spec.qw Geo3_spec.qx Geo3_spec.qy Geo3_spec.qz]. apply M3_ext; cbn [d00 d01 d02 d10 d11 d12 d20 d21 d22]; ring. Qed.
