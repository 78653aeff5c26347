(** C80 (continued): SO3.rand reaches every rotation but a set of measure zero,
    each exactly twice, and with a constant volume factor: it is uniform. *)
From Coq Require Import Reals List Lia Lra.
From Coquelicot Require Import Coquelicot.
From Verif Require Import Geo_spec Geo3_spec Geo4_spec Trig SE2_model SE2_group Exp_unique SE2_jac SO3_model SO3_group SO3_quat
  SE3_model Rand_model Rand_props.
Import List ListNotations.
Local Open Scope R_scope.

(** the rotations that some numbers in [0,1) give are those that do not send the
    x axis to its opposite *)
Theorem C80_so3_rand_onto : forall g, rotation3 g ->
  (exists u v w, 0 <= u < 1 /\ 0 <= v < 1 /\ 0 <= w < 1 /\ rand1 u v w = Some g) <-> d00 g <> -1.
Proof.
  intros g G. split.
  - intros (u & v & w & Hu & Hv & Hw & E). rewrite rand1_eq in E by lra. injection E as <-.
    unfold so3_quat_mat, rand_quat; cbn [d00 qw qx qy qz]. intros H.
    pose proof (sin2cos2 (v * 2 * PI)). pose proof (sin2cos2 (w * 2 * PI)).
    pose proof (sqrt_sqrt (1 - u) ltac:(lra)). pose proof (sqrt_sqrt u ltac:(lra)).
    set (a := sqrt (1 - u)) in *. set (b := sqrt u) in *. set (S := sin (v * 2 * PI)) in *.
    set (C := cos (v * 2 * PI)) in *. set (S' := sin (w * 2 * PI)) in *. set (C' := cos (w * 2 * PI)) in *.
    assert (K : a * a * (S * S + C * C) - b * b * (S' * S' + C' * C') = -1) by lra.
    rewrite H0, H1, H2, H3 in K. lra.
  - intros N. destruct (quat_exists g G) as (q & U & _ & ->). destruct q as [w x y z]. unfold qnorm2 in U.
    unfold so3_quat_mat in N. cbn [d00 qw qx qy qz] in *.
    set (u := y * y + z * z) in *.
    assert (Hu : 0 <= u < 1) by (unfold u in *; split; nra).
    pose proof (sqrt_lt_R0 (1 - u) ltac:(lra)) as Pa. pose proof (sqrt_sqrt (1 - u) ltac:(lra)) as Sa.
    pose proof (sqrt_pos u) as Pb. pose proof (sqrt_sqrt u ltac:(lra)) as Sb.
    set (a := sqrt (1 - u)) in *. set (b := sqrt u) in *.
    destruct (turn_exists (x / a) (w / a)) as (v & Hv & Cv & Sv).
    { replace (x / a * (x / a) + w / a * (w / a)) with ((w * w + x * x) * / (a * a)) by (field; lra). rewrite Sa. replace (w * w + x * x) with (1 - u) by (unfold u; lra). field. lra. }
    destruct (Req_dec u 0) as [Z|NZ].
    + exists u, v, 0. repeat (split; [lra|]). rewrite rand1_eq by lra. apply f_equal. apply f_equal.
      assert (y = 0 /\ z = 0) as [-> ->] by (unfold u in Z; split; nra).
      unfold rand_quat. fold a. fold b. rewrite Cv, Sv. assert (Eb : b = 0) by (unfold b; rewrite Z; apply sqrt_0). rewrite Eb.
      apply Quat_ext; cbn [qw qx qy qz]; field; lra.
    + assert (Qb : 0 < b) by (apply sqrt_lt_R0; lra).
      destruct (turn_exists (z / b) (y / b)) as (t & Ht & Ct & St).
      { replace (z / b * (z / b) + y / b * (y / b)) with ((y * y + z * z) * / (b * b)) by (field; lra). rewrite Sb. fold u. field. exact NZ. }
      exists u, v, t. repeat (split; [lra|]). rewrite rand1_eq by lra. apply f_equal. apply f_equal.
      unfold rand_quat. fold a. fold b. rewrite Cv, Sv, Ct, St. apply Quat_ext; cbn [qw qx qy qz]; field; lra.
Qed.

(** half a turn further *)
Lemma turn_half u v : 0 <= u < 1 -> 0 <= v < 1 ->
  (cos (u * 2 * PI) = - cos (v * 2 * PI) /\ sin (u * 2 * PI) = - sin (v * 2 * PI)) <-> Rabs (u - v) = 1 / 2.
Proof.
  intros Hu Hv.
  assert (P : forall t, cos ((t + 1 / 2) * 2 * PI) = - cos (t * 2 * PI) /\ sin ((t + 1 / 2) * 2 * PI) = - sin (t * 2 * PI)).
  { intros t. replace ((t + 1 / 2) * 2 * PI) with (t * 2 * PI + PI) by field. rewrite neg_cos, neg_sin. tauto. }
  split.
  - intros [C S]. destruct (Rlt_dec v (1 / 2)) as [L|L].
    + assert (u = v + 1 / 2) as -> by (apply turn_unique; [lra|lra|rewrite (proj1 (P v)); exact C|rewrite (proj2 (P v)); exact S]).
      replace (v + 1 / 2 - v) with (1 / 2) by lra. apply Rabs_pos_eq. lra.
    + destruct (P (v - 1 / 2)) as [P1 P2]. replace (v - 1 / 2 + 1 / 2) with v in P1, P2 by lra.
      assert (u = v - 1 / 2) as -> by (apply turn_unique; lra).
      replace (v - 1 / 2 - v) with (- (1 / 2)) by lra. rewrite Rabs_Ropp. apply Rabs_pos_eq. lra.
  - intros A. unfold Rabs in A. destruct (Rcase_abs (u - v)).
    + assert (v = u + 1 / 2) as -> by lra. destruct (P u) as [-> ->]. lra.
    + assert (u = v + 1 / 2) as -> by lra. apply P.
Qed.

(** two triples of numbers give the same rotation iff they are equal or differ by
    half a turn in both angles: every rotation reached is reached exactly twice
    (once when u1 = 0, up to the unused third number) *)
Theorem C80_so3_rand_two_to_one : forall u1 u2 u3 v1 v2 v3,
  0 < u1 < 1 -> 0 <= u2 < 1 -> 0 <= u3 < 1 -> 0 <= v1 < 1 -> 0 <= v2 < 1 -> 0 <= v3 < 1 ->
  rand1 u1 u2 u3 = rand1 v1 v2 v3 <->
  u1 = v1 /\ (u2 = v2 /\ u3 = v3 \/ Rabs (u2 - v2) = 1 / 2 /\ Rabs (u3 - v3) = 1 / 2).
Proof.
  intros u1 u2 u3 v1 v2 v3 A1 A2 A3 B1 B2 B3. rewrite !rand1_eq by lra.
  pose proof (rand_quat_unit u1 u2 u3 ltac:(lra)) as NA. pose proof (rand_quat_unit v1 v2 v3 ltac:(lra)) as NB.
  pose proof (sqrt_lt_R0 (1 - u1) ltac:(lra)) as Pa. pose proof (sqrt_lt_R0 u1 ltac:(lra)) as Pb.
  split.
  - intros E. assert (E' : so3_quat_mat (rand_quat u1 u2 u3) = so3_quat_mat (rand_quat v1 v2 v3)) by congruence. clear E.
    assert (R0 : forall x y z, 0 <= x <= 1 -> d00 (so3_quat_mat (rand_quat x y z)) = 1 - 2 * x).
    { intros x y z Hx. unfold so3_quat_mat, rand_quat; cbn [d00 qw qx qy qz].
      pose proof (sin2cos2 (y * 2 * PI)) as T1. pose proof (sin2cos2 (z * 2 * PI)) as T2.
      pose proof (sqrt_sqrt (1 - x) ltac:(lra)) as T3. pose proof (sqrt_sqrt x ltac:(lra)) as T4.
      set (a := sqrt (1 - x)) in *. set (b := sqrt x) in *. set (S := sin (y * 2 * PI)) in *.
      set (C := cos (y * 2 * PI)) in *. set (S' := sin (z * 2 * PI)) in *. set (C' := cos (z * 2 * PI)) in *.
      replace (_ - _) with (a * a * (S * S + C * C) - b * b * (S' * S' + C' * C')) by ring. rewrite T1, T2, T3, T4. ring. }
    assert (u1 = v1) by (apply (f_equal d00) in E'; rewrite !R0 in E' by lra; lra). subst v1. split; [reflexivity|].
    apply quat_mat_inj in E'; [|assumption|assumption].
    set (a := sqrt (1 - u1)) in *. set (b := sqrt u1) in *.
    destruct E' as [E'|E']; unfold rand_quat, qscal in E'; fold a b in E'; injection E' as E0 E1 E2 E3; [left|right].
    + apply Rmult_eq_reg_l in E0, E1, E2, E3; try lra. split; apply turn_unique; assumption.
    + cbn [qw qx qy qz] in *. split; apply turn_half; try assumption; split.
      * apply (Rmult_eq_reg_l a); lra.
      * apply (Rmult_eq_reg_l a); lra.
      * apply (Rmult_eq_reg_l b); lra.
      * apply (Rmult_eq_reg_l b); lra.
  - intros [<- [[<- <-]|[H H']]]; [reflexivity|].
    apply turn_half in H; [|assumption|assumption]. apply turn_half in H'; [|assumption|assumption].
    apply f_equal. rewrite <- (quat_mat_opp (rand_quat u1 v2 v3)). apply f_equal.
    unfold rand_quat, qscal. destruct H as [-> ->], H' as [-> ->]. apply Quat_ext; cbn [qw qx qy qz]; ring.
Qed.

(** the differential of the rotation of a quaternion, and its metric *)
Definition dquat (q x : Quat) : M3 :=
  mkM3 (2 * (qw q * qw x + qx q * qx x - qy q * qy x - qz q * qz x))
       (2 * (qx q * qy x + qy q * qx x - qw q * qz x - qz q * qw x))
       (2 * (qx q * qz x + qz q * qx x + qw q * qy x + qy q * qw x))
       (2 * (qx q * qy x + qy q * qx x + qw q * qz x + qz q * qw x))
       (2 * (qw q * qw x - qx q * qx x + qy q * qy x - qz q * qz x))
       (2 * (qy q * qz x + qz q * qy x - qw q * qx x - qx q * qw x))
       (2 * (qx q * qz x + qz q * qx x - qw q * qy x - qy q * qw x))
       (2 * (qy q * qz x + qz q * qy x + qw q * qx x + qx q * qw x))
       (2 * (qw q * qw x - qx q * qx x - qy q * qy x + qz q * qz x)).
Definition qdot (p q : Quat) : R := qw p * qw q + qx p * qx q + qy p * qy q + qz p * qz q.
Lemma dquat_metric q x y :
  frob (dquat q x) (dquat q y) = 8 * (qnorm2 q * qdot x y) + 4 * (qdot q x * qdot q y).
Proof. destruct q, x, y. unfold frob, dquat, qdot, qnorm2. cbn [Geo3_spec.qw Geo3_spec.qx Geo3_spec.qy Geo3_spec.qz d00 d01 d02 d10 d11 d12 d20 d21 d22]. ring. Qed.
Lemma quat_mat_deriv (f0 f1 f2 f3 : R -> R) t x0 x1 x2 x3 :
  deriv f0 t x0 -> deriv f1 t x1 -> deriv f2 t x2 -> deriv f3 t x3 ->
  deriv_m3 (fun t => so3_quat_mat (mkQ (f0 t) (f1 t) (f2 t) (f3 t))) t
    (dquat (mkQ (f0 t) (f1 t) (f2 t) (f3 t)) (mkQ x0 x1 x2 x3)).
Proof.
  intros H0 H1 H2 H3. unfold deriv_m3, so3_quat_mat, dquat. cbn [qw qx qy qz d00 d01 d02 d10 d11 d12 d20 d21 d22].
  repeat split; dgo; ring.
Qed.
Lemma d_sqrt u : 0 < u -> deriv sqrt u (/ (2 * sqrt u)).
Proof. intros H. apply derivable_pt_lim_sqrt. exact H. Qed.
Lemma d_sqrt1 u : u < 1 -> deriv (fun u => sqrt (1 - u)) u (- / (2 * sqrt (1 - u))).
Proof.
  intros H. eapply deriv_val; [|apply (d_comp sqrt (fun u => 1 - u)); [repeat dstep|apply d_sqrt; lra]]. cbv beta. lra.
Qed.
Lemma d_turn_sin a u : deriv (fun u => a * sin (u * 2 * PI)) u (a * (cos (u * 2 * PI) * (2 * PI))).
Proof.
  eapply deriv_val; [|apply (d_mult (fun _ => a) (fun u => sin (u * 2 * PI)));
    [apply d_const|apply (d_comp sin (fun u => u * 2 * PI)); [repeat dstep|apply derivable_pt_lim_sin]]]. cbv beta. ring.
Qed.
Lemma d_turn_cos a u : deriv (fun u => a * cos (u * 2 * PI)) u (- (a * (sin (u * 2 * PI) * (2 * PI)))).
Proof.
  eapply deriv_val; [|apply (d_mult (fun _ => a) (fun u => cos (u * 2 * PI)));
    [apply d_const|apply (d_comp cos (fun u => u * 2 * PI)); [repeat dstep|apply derivable_pt_lim_cos]]]. cbv beta. ring.
Qed.
Lemma d_scale (f : R -> R) u x k : deriv f u x -> deriv (fun u => f u * k) u (x * k).
Proof. intros H. dgo. ring. Qed.

(** the velocity of the rotation when one of the three numbers moves: the three
    velocities are orthogonal, and the volume they span is the same everywhere
    (the inner product of matrices is invariant under rotations, see the last
    conjunct, so equal volumes of numbers give equal invariant volumes of
    rotations) *)
Theorem C80_so3_rand_uniform : exists h : R -> R -> R -> M3,
  (forall u v w, 0 <= u < 1 -> rand1 u v w = Some (h u v w))
  /\ (forall u v w, 0 < u < 1 -> exists D1 D2 D3,
        deriv_m3 (fun t => h t v w) u D1 /\ deriv_m3 (fun t => h u t w) v D2 /\ deriv_m3 (fun t => h u v t) w D3
        /\ frob D1 D2 = 0 /\ frob D1 D3 = 0 /\ frob D2 D3 = 0
        /\ sqrt (frob D1 D1 * frob D2 D2 * frob D3 D3) = sqrt 8 ^ 3 * (2 * PI ^ 2))
  /\ (forall k D E, rotation3 k -> frob (mul3 k D) (mul3 k E) = frob D E /\ frob (mul3 D k) (mul3 E k) = frob D E).
Proof.
  exists (fun u v w => so3_quat_mat (rand_quat u v w)).
  split; [intros u v w H; apply rand1_eq; lra|]. split.
  - intros u v w H.
    pose proof (sqrt_lt_R0 (1 - u) ltac:(lra)) as Pa. pose proof (sqrt_lt_R0 u ltac:(lra)) as Pb.
    pose proof (sqrt_sqrt (1 - u) ltac:(lra)) as Sa. pose proof (sqrt_sqrt u ltac:(lra)) as Sb.
    pose proof (sin2cos2 (v * 2 * PI)) as Tv. pose proof (sin2cos2 (w * 2 * PI)) as Tw.
    assert (N : qnorm2 (rand_quat u v w) = 1) by (apply rand_quat_unit; lra).
    set (a := sqrt (1 - u)) in *. set (b := sqrt u) in *.
    set (S := sin (v * 2 * PI)) in *. set (C := cos (v * 2 * PI)) in *.
    set (S' := sin (w * 2 * PI)) in *. set (C' := cos (w * 2 * PI)) in *.
    exists (dquat (rand_quat u v w) (mkQ (- / (2 * a) * S) (- / (2 * a) * C) (/ (2 * b) * S') (/ (2 * b) * C'))).
    exists (dquat (rand_quat u v w) (mkQ (a * (C * (2 * PI))) (- (a * (S * (2 * PI)))) 0 0)).
    exists (dquat (rand_quat u v w) (mkQ 0 0 (b * (C' * (2 * PI))) (- (b * (S' * (2 * PI)))))).
    split; [refine (quat_mat_deriv _ _ _ _ u _ _ _ _ _ _ _ _); [apply (d_scale (fun u => sqrt (1 - u))), d_sqrt1; lra|apply (d_scale (fun u => sqrt (1 - u))), d_sqrt1; lra|apply (d_scale sqrt), d_sqrt; lra|apply (d_scale sqrt), d_sqrt; lra]|].
    split; [refine (quat_mat_deriv _ _ _ _ v _ _ _ _ _ _ _ _); [apply d_turn_sin|apply d_turn_cos|apply d_const|apply d_const]|].
    split; [refine (quat_mat_deriv _ _ _ _ w _ _ _ _ _ _ _ _); [apply d_const|apply d_const|apply d_turn_sin|apply d_turn_cos]|].
    assert (Q1 : qdot (rand_quat u v w) (mkQ (- / (2 * a) * S) (- / (2 * a) * C) (/ (2 * b) * S') (/ (2 * b) * C')) = 0).
    { unfold qdot, rand_quat. cbn [qw qx qy qz]. fold a b S C S' C'.
      replace (_ + _) with (- (/ 2) * (S * S + C * C) + / 2 * (S' * S' + C' * C')) by (field; lra). rewrite Tv, Tw. lra. }
    assert (Q2 : qdot (rand_quat u v w) (mkQ (a * (C * (2 * PI))) (- (a * (S * (2 * PI)))) 0 0) = 0).
    { unfold qdot, rand_quat. cbn [qw qx qy qz]. fold a b S C S' C'. ring. }
    assert (Q3 : qdot (rand_quat u v w) (mkQ 0 0 (b * (C' * (2 * PI))) (- (b * (S' * (2 * PI))))) = 0).
    { unfold qdot, rand_quat. cbn [qw qx qy qz]. fold a b S C S' C'. ring. }
    rewrite !dquat_metric, N, Q1, Q2, Q3. unfold qdot. cbn [qw qx qy qz].
    split; [field; lra|]. split; [field; lra|]. split; [ring|].
    pose proof PI_RGT_0 as P.
    match goal with |- sqrt (?x * ?y * ?z) = _ =>
      replace x with (2 * (/ (a * a) * (S * S + C * C) + / (b * b) * (S' * S' + C' * C'))) by (field; lra);
      replace y with (8 * (2 * PI) ^ 2 * (a * a * (S * S + C * C))) by ring;
      replace z with (8 * (2 * PI) ^ 2 * (b * b * (S' * S' + C' * C'))) by ring end.
    rewrite Tv, Tw, Sa, Sb.
    pose proof (sqrt_lt_R0 8 ltac:(lra)) as P8. pose proof (sqrt_sqrt 8 ltac:(lra)) as S8.
    apply sqrt_lem_1.
    + assert (0 < / (1 - u)) by (apply Rinv_0_lt_compat; lra). assert (0 < / u) by (apply Rinv_0_lt_compat; lra).
      assert (0 <= (2 * PI) ^ 2) by apply pow2_ge_0.
      set (K := (2 * PI) ^ 2) in *. clearbody K. apply Rmult_le_pos; [apply Rmult_le_pos|]; [lra|nra|nra].
    + assert (0 <= PI ^ 2) by apply pow2_ge_0. apply Rmult_le_pos; [apply pow_le; lra|lra].
    + replace (sqrt 8 ^ 3 * (2 * PI ^ 2) * (sqrt 8 ^ 3 * (2 * PI ^ 2))) with ((sqrt 8 * sqrt 8) ^ 3 * (2 * PI ^ 2) ^ 2) by ring.
      rewrite S8. field. lra.
  - intros k D E K.
    assert (F : forall X Y, frob X Y = d00 (mul3 (tr3 X) Y) + d11 (mul3 (tr3 X) Y) + d22 (mul3 (tr3 X) Y)).
    { intros X Y. unfold frob, mul3, tr3. cbn [d00 d01 d02 d10 d11 d12 d20 d21 d22]. ring. }
    assert (F' : forall X Y, frob X Y = d00 (mul3 X (tr3 Y)) + d11 (mul3 X (tr3 Y)) + d22 (mul3 X (tr3 Y))).
    { intros X Y. unfold frob, mul3, tr3. cbn [d00 d01 d02 d10 d11 d12 d20 d21 d22]. ring. }
    assert (T : forall X Y, tr3 (mul3 X Y) = mul3 (tr3 Y) (tr3 X)).
    { intros X Y. apply M3_ext; unfold mul3, tr3; cbn [d00 d01 d02 d10 d11 d12 d20 d21 d22]; ring. }
    assert (A : forall X Y Z, mul3 (mul3 X Y) Z = mul3 X (mul3 Y Z)).
    { intros X Y Z. apply M3_ext; unfold mul3; cbn [d00 d01 d02 d10 d11 d12 d20 d21 d22]; ring. }
    assert (I : forall X, mul3 I3 X = X).
    { intros X. apply M3_ext; unfold mul3, I3; cbn [d00 d01 d02 d10 d11 d12 d20 d21 d22]; ring. }
    split.
    + rewrite !F, T, A, <- (A (tr3 k)). rewrite (proj1 K), I. reflexivity.
    + rewrite !F', T, A, <- (A k). rewrite (rot_right k K), I. reflexivity.
Qed.
