(** C36: quaternions; every rotation comes from a unit quaternion, and has an
    axis and an angle. *)
From Coq Require Import Reals Lra Psatz.
From Coquelicot Require Import Coquelicot.
From Verif Require Import Geo_spec Geo3_spec Trig Exp_unique SE2_model SE2_group SE2_exp SE2_jac
  SO3_model SO3_exp SO3_jexp SO3_group.
Local Open Scope R_scope.

Record ColEqs (g : M3) : Prop := {
  o00 : d00 g * d00 g + d10 g * d10 g + d20 g * d20 g = 1;
  o11 : d01 g * d01 g + d11 g * d11 g + d21 g * d21 g = 1;
  o22 : d02 g * d02 g + d12 g * d12 g + d22 g * d22 g = 1;
  o01 : d00 g * d01 g + d10 g * d11 g + d20 g * d21 g = 0;
  o02 : d00 g * d02 g + d10 g * d12 g + d20 g * d22 g = 0;
  o12 : d01 g * d02 g + d11 g * d12 g + d21 g * d22 g = 0 }.
Lemma orth_col : forall g, orthogonal3 g -> ColEqs g.
Proof.
  intros g O. assert (P : forall p : M3 -> R, p (mul3 (tr3 g) g) = p I3) by (intro p; rewrite O; reflexivity).
  pose proof (P d00). pose proof (P d11). pose proof (P d22).
  pose proof (P d01). pose proof (P d02). pose proof (P d12).
  constructor; assumption.
Qed.

(** the symmetric 4x4 matrix with entries 4 q_i q_j *)
Lemma quat_exists : forall g, rotation3 g -> exists q, qnorm2 q = 1 /\ 0 <= qw q /\ g = so3_quat_mat q.
Proof.
  intros g H.
  pose proof (rot_eqs g H) as [K0 K1 K2 K3 K4 K5 K6 K7 K8].
  pose proof (orth_col g (proj1 H)) as [A0 A1 A2 A3 A4 A5].
  pose proof (orth_col _ (proj1 (rot_tr g H))) as [B0 B1 B2 B3 B4 B5].
  assert (W : exists q, qnorm2 q = 1 /\ g = so3_quat_mat q).
  { destruct g as [a b c d e f k h i].
    cbn [tr3 d00 d01 d02 d10 d11 d12 d20 d21 d22] in *.
    set (N00 := 1 + a + e + i). set (N11 := 1 + a - e - i). set (N22 := 1 - a + e - i).
    set (N33 := 1 - a - e + i).
    assert (S : N00 + N11 + N22 + N33 = 4) by (unfold N00, N11, N22, N33; ring).
    assert (C : 0 < N00 \/ 0 < N11 \/ 0 < N22 \/ 0 < N33) by lra.
    destruct C as [C|[C|[C|C]]];
      match type of C with 0 < ?N =>
        pose proof (sqrt_lt_R0 N C) as SP; pose proof (sqrt_sqrt N (Rlt_le _ _ C)) as SQ;
        set (s := sqrt N) in * end; clearbody s.
    - exists (mkQ (s / 2) ((h - f) / (2 * s)) ((c - k) / (2 * s)) ((d - b) / (2 * s))).
      assert (SI : / s * / s = / N00) by (rewrite <- SQ; field; lra).
      assert (R : forall p q r, p * q = N00 * r -> p / (2 * s) * (q / (2 * s)) = r / 4).
      { intros p q r E. replace (p / (2 * s) * (q / (2 * s))) with (p * q * (/ s * / s) / 4) by (field; lra).
        rewrite E, SI. field. lra. }
      assert (R' : forall p, s / 2 * (p / (2 * s)) = p / 4) by (intro; field; lra).
      assert (R0 : s / 2 * (s / 2) = N00 / 4) by (rewrite <- SQ; field).
      assert (E1 : (h - f) * (h - f) = N00 * N11) by (unfold N00, N11; lra).
      assert (E2 : (c - k) * (c - k) = N00 * N22) by (unfold N00, N22; lra).
      assert (E3 : (d - b) * (d - b) = N00 * N33) by (unfold N00, N33; lra).
      assert (E4 : (h - f) * (c - k) = N00 * (b + d)) by (unfold N00; lra).
      assert (E5 : (h - f) * (d - b) = N00 * (c + k)) by (unfold N00; lra).
      assert (E6 : (c - k) * (d - b) = N00 * (f + h)) by (unfold N00; lra).
      apply R in E1, E2, E3, E4, E5, E6.
      split; [unfold qnorm2; cbn [qw qx qy qz]; rewrite R0, E1, E2, E3; lra|].
      unfold so3_quat_mat; cbn [qw qx qy qz].
      rewrite R0, E1, E2, E3, E4, E5, E6, !R'. unfold N00, N11, N22, N33. apply M3_ext; cbn; field.
    - exists (mkQ ((h - f) / (2 * s)) (s / 2) ((b + d) / (2 * s)) ((c + k) / (2 * s))).
      assert (SI : / s * / s = / N11) by (rewrite <- SQ; field; lra).
      assert (R : forall p q r, p * q = N11 * r -> p / (2 * s) * (q / (2 * s)) = r / 4).
      { intros p q r E. replace (p / (2 * s) * (q / (2 * s))) with (p * q * (/ s * / s) / 4) by (field; lra).
        rewrite E, SI. field. lra. }
      assert (R' : forall p, s / 2 * (p / (2 * s)) = p / 4) by (intro; field; lra).
      assert (R'' : forall p, p / (2 * s) * (s / 2) = p / 4) by (intro; field; lra).
      assert (R0 : s / 2 * (s / 2) = N11 / 4) by (rewrite <- SQ; field).
      assert (E1 : (h - f) * (h - f) = N11 * N00) by (unfold N00, N11; lra).
      assert (E2 : (b + d) * (b + d) = N11 * N22) by (unfold N11, N22; lra).
      assert (E3 : (c + k) * (c + k) = N11 * N33) by (unfold N11, N33; lra).
      assert (E4 : (h - f) * (b + d) = N11 * (c - k)) by (unfold N11; lra).
      assert (E5 : (h - f) * (c + k) = N11 * (d - b)) by (unfold N11; lra).
      assert (E6 : (b + d) * (c + k) = N11 * (f + h)) by (unfold N11; lra).
      apply R in E1, E2, E3, E4, E5, E6.
      split; [unfold qnorm2; cbn [qw qx qy qz]; rewrite R0, E1, E2, E3; lra|].
      unfold so3_quat_mat; cbn [qw qx qy qz].
      rewrite R0, E1, E2, E3, E4, E5, E6, !R', !R''. unfold N00, N11, N22, N33. apply M3_ext; cbn; field.
    - exists (mkQ ((c - k) / (2 * s)) ((b + d) / (2 * s)) (s / 2) ((f + h) / (2 * s))).
      assert (SI : / s * / s = / N22) by (rewrite <- SQ; field; lra).
      assert (R : forall p q r, p * q = N22 * r -> p / (2 * s) * (q / (2 * s)) = r / 4).
      { intros p q r E. replace (p / (2 * s) * (q / (2 * s))) with (p * q * (/ s * / s) / 4) by (field; lra).
        rewrite E, SI. field. lra. }
      assert (R' : forall p, s / 2 * (p / (2 * s)) = p / 4) by (intro; field; lra).
      assert (R'' : forall p, p / (2 * s) * (s / 2) = p / 4) by (intro; field; lra).
      assert (R0 : s / 2 * (s / 2) = N22 / 4) by (rewrite <- SQ; field).
      assert (E1 : (c - k) * (c - k) = N22 * N00) by (unfold N00, N22; lra).
      assert (E2 : (b + d) * (b + d) = N22 * N11) by (unfold N11, N22; lra).
      assert (E3 : (f + h) * (f + h) = N22 * N33) by (unfold N22, N33; lra).
      assert (E4 : (c - k) * (b + d) = N22 * (h - f)) by (unfold N22; lra).
      assert (E5 : (c - k) * (f + h) = N22 * (d - b)) by (unfold N22; lra).
      assert (E6 : (b + d) * (f + h) = N22 * (c + k)) by (unfold N22; lra).
      apply R in E1, E2, E3, E4, E5, E6.
      split; [unfold qnorm2; cbn [qw qx qy qz]; rewrite R0, E1, E2, E3; lra|].
      unfold so3_quat_mat; cbn [qw qx qy qz].
      rewrite R0, E1, E2, E3, E4, E5, E6, !R', !R''. unfold N00, N11, N22, N33. apply M3_ext; cbn; field.
    - exists (mkQ ((d - b) / (2 * s)) ((c + k) / (2 * s)) ((f + h) / (2 * s)) (s / 2)).
      assert (SI : / s * / s = / N33) by (rewrite <- SQ; field; lra).
      assert (R : forall p q r, p * q = N33 * r -> p / (2 * s) * (q / (2 * s)) = r / 4).
      { intros p q r E. replace (p / (2 * s) * (q / (2 * s))) with (p * q * (/ s * / s) / 4) by (field; lra).
        rewrite E, SI. field. lra. }
      assert (R'' : forall p, p / (2 * s) * (s / 2) = p / 4) by (intro; field; lra).
      assert (R0 : s / 2 * (s / 2) = N33 / 4) by (rewrite <- SQ; field).
      assert (E1 : (d - b) * (d - b) = N33 * N00) by (unfold N00, N33; lra).
      assert (E2 : (c + k) * (c + k) = N33 * N11) by (unfold N11, N33; lra).
      assert (E3 : (f + h) * (f + h) = N33 * N22) by (unfold N22, N33; lra).
      assert (E4 : (d - b) * (c + k) = N33 * (h - f)) by (unfold N33; lra).
      assert (E5 : (d - b) * (f + h) = N33 * (c - k)) by (unfold N33; lra).
      assert (E6 : (c + k) * (f + h) = N33 * (b + d)) by (unfold N33; lra).
      apply R in E1, E2, E3, E4, E5, E6.
      split; [unfold qnorm2; cbn [qw qx qy qz]; rewrite R0, E1, E2, E3; lra|].
      unfold so3_quat_mat; cbn [qw qx qy qz].
      rewrite R0, E1, E2, E3, E4, E5, E6, !R''. unfold N00, N11, N22, N33. apply M3_ext; cbn; field. }
  destruct W as (q & Q1 & Q2). destruct (Rle_lt_dec 0 (qw q)) as [P|P].
  - exists q. auto.
  - exists (qscal (-1) q). destruct q as [w x y z]. unfold qnorm2, qscal in *. cbn [qw qx qy qz] in *.
    split; [rewrite <- Q1; ring|]. split; [lra|]. rewrite Q2.
    unfold so3_quat_mat; cbn [qw qx qy qz]. apply M3_ext; cbn; ring.
Qed.

Lemma quat_mat_rotation : forall q, qnorm2 q = 1 -> rotation3 (so3_quat_mat q).
Proof.
  intros [w x y z] H. unfold qnorm2 in H. cbn [qw qx qy qz] in H.
  assert (W : w * w = 1 - x * x - y * y - z * z) by lra.
  split; [apply M3_ext|unfold det3]; cbn; ring [W].
Qed.

Lemma quat_norm_pos : forall q, qnorm2 q <> 0 -> 0 < so3_quat_norm q /\ so3_quat_norm q * so3_quat_norm q = qnorm2 q.
Proof.
  intros q N. change (so3_quat_norm q) with (sqrt (qnorm2 q)).
  assert (0 < qnorm2 q).
  { unfold qnorm2 in *. destruct q as [w x y z]; cbn [qw qx qy qz] in *. nra. }
  split; [apply sqrt_lt_R0; assumption|]. apply sqrt_sqrt. lra.
Qed.
Lemma quat_normalized : forall q, qnorm2 q <> 0 ->
  so3_quat_normalized q = Some (qscal (/ so3_quat_norm q) q) /\ qnorm2 (qscal (/ so3_quat_norm q) q) = 1.
Proof.
  intros q N. destruct (quat_norm_pos q N) as [P S].
  unfold so3_quat_normalized. rewrite !div_some by lra. cbv beta iota zeta delta [bind].
  unfold Rdiv. split.
  - apply f_equal. apply Quat_ext; cbn; ring.
  - set (n := so3_quat_norm q) in *. clearbody n.
    unfold qnorm2 in *. destruct q as [w x y z]; cbn [qw qx qy qz qscal] in *.
    replace 1 with ((n * n) * (/ n * / n)) by (field; lra). rewrite S. ring.
Qed.

(** quaternion_to_rotation fails only on the zero quaternion; its result is a
    rotation, is the conjugation p |-> q p q* / |q|^2 on points, depends on q up
    to a nonzero factor only, and turns products into products *)
Theorem C36_quaternion : forall q,
  (qnorm2 q = 0 -> so3_quaternion_to_rotation q = None)
  /\ (qnorm2 q <> 0 -> exists g, so3_quaternion_to_rotation q = Some g /\ rotation3 g
       /\ forall p, qmul (qmul q (qpure p)) (qconj q) = qscal (qnorm2 q) (qpure (app3 g p))).
Proof.
  intro q. split; intro N.
  - unfold so3_quaternion_to_rotation, so3_quat_normalized.
    change (so3_quat_norm q) with (sqrt (qnorm2 q)). rewrite N, sqrt_0, div_none. reflexivity.
  - destruct (quat_normalized q N) as [E U]. destruct (quat_norm_pos q N) as [P S].
    unfold so3_quaternion_to_rotation. rewrite E. eexists. split; [reflexivity|].
    split; [apply quat_mat_rotation; exact U|].
    intros [p0 p1 p2]. set (n := so3_quat_norm q) in *. clearbody n.
    rewrite <- S. destruct q as [w x y z].
    apply Quat_ext; cbn; field; lra.
Qed.
Theorem C36_quaternion_product : forall p q gp gq,
  so3_quaternion_to_rotation p = Some gp -> so3_quaternion_to_rotation q = Some gq ->
  so3_quaternion_to_rotation (qmul p q) = Some (mul3 gp gq).
Proof.
  intros p q gp gq Hp Hq.
  destruct (Req_EM_T (qnorm2 p) 0) as [Z|Np]; [rewrite (proj1 (C36_quaternion p) Z) in Hp; discriminate|].
  destruct (Req_EM_T (qnorm2 q) 0) as [Z|Nq]; [rewrite (proj1 (C36_quaternion q) Z) in Hq; discriminate|].
  assert (M : qnorm2 (qmul p q) = qnorm2 p * qnorm2 q).
  { destruct p, q. unfold qnorm2; cbn. ring. }
  assert (N : qnorm2 (qmul p q) <> 0) by (rewrite M; apply Rmult_integral_contrapositive_currified; assumption).
  destruct (quat_normalized p Np) as [Ep _]. destruct (quat_normalized q Nq) as [Eq _].
  destruct (quat_normalized _ N) as [En _].
  destruct (quat_norm_pos p Np) as [Pp Sp]. destruct (quat_norm_pos q Nq) as [Pq Sq].
  unfold so3_quaternion_to_rotation in *. rewrite Ep in Hp. rewrite Eq in Hq. rewrite En.
  cbv beta iota zeta delta [bind] in *. apply some_inj in Hp, Hq. subst gp gq. apply f_equal.
  replace (so3_quat_norm (qmul p q)) with (so3_quat_norm p * so3_quat_norm q).
  2: { change (so3_quat_norm (qmul p q)) with (sqrt (qnorm2 (qmul p q))). rewrite M, <- Sp, <- Sq.
       replace (so3_quat_norm p * so3_quat_norm p * (so3_quat_norm q * so3_quat_norm q))
         with (Rsqr (so3_quat_norm p * so3_quat_norm q)) by (unfold Rsqr; ring).
       rewrite sqrt_Rsqr; [reflexivity|]. nra. }
  set (n := so3_quat_norm p) in *. set (m := so3_quat_norm q) in *. clearbody n m.
  unfold qnorm2 in *. destruct p as [w x y z], q as [w' x' y' z']. cbn [qw qx qy qz] in *.
  assert (W : w ^ 2 = n ^ 2 - x ^ 2 - y ^ 2 - z ^ 2) by (replace (n ^ 2) with (n * n) by ring; rewrite Sp; ring).
  assert (W' : w' ^ 2 = m ^ 2 - x' ^ 2 - y' ^ 2 - z' ^ 2) by (replace (m ^ 2) with (m * m) by ring; rewrite Sq; ring).
  unfold so3_quat_mat, qmul, qscal; cbn [qw qx qy qz].
  apply M3_ext; cbn [mul3 d00 d01 d02 d10 d11 d12 d20 d21 d22]; field; lra.
Qed.
Theorem C36_quaternion_scale : forall t q, t <> 0 ->
  so3_quaternion_to_rotation (qscal t q) = so3_quaternion_to_rotation q.
Proof.
  intros t q T.
  assert (M : qnorm2 (qscal t q) = t * t * qnorm2 q) by (destruct q; unfold qnorm2; cbn; ring).
  destruct (Req_EM_T (qnorm2 q) 0) as [Z|N].
  - rewrite (proj1 (C36_quaternion q) Z). apply (proj1 (C36_quaternion _)). rewrite M, Z. ring.
  - assert (N' : qnorm2 (qscal t q) <> 0).
    { rewrite M. apply Rmult_integral_contrapositive_currified; [|assumption].
      apply Rmult_integral_contrapositive_currified; assumption. }
    destruct (quat_normalized q N) as [E _]. destruct (quat_normalized _ N') as [E' _].
    destruct (quat_norm_pos q N) as [P S]. destruct (quat_norm_pos _ N') as [P' S'].
    unfold so3_quaternion_to_rotation. rewrite E, E'. cbv beta iota delta [bind]. apply f_equal.
    rewrite M, <- S in S'.
    assert (K : (so3_quat_norm (qscal t q) - t * so3_quat_norm q) * (so3_quat_norm (qscal t q) + t * so3_quat_norm q) = 0) by nra.
    apply Rmult_integral in K. set (n' := so3_quat_norm (qscal t q)) in *. set (n := so3_quat_norm q) in *.
    assert (D : n' = t * n \/ n' = - (t * n)) by (destruct K; [left|right]; lra).
    clearbody n n'. clear - D P T. destruct q as [w x y z].
    unfold so3_quat_mat, qscal; cbn [qw qx qy qz].
    destruct D as [-> | ->]; apply M3_ext; cbn [d00 d01 d02 d10 d11 d12 d20 d21 d22]; field; lra.
Qed.

