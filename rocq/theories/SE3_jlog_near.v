(** C54: the Jacobian of SE3.log for rotation angles below the first threshold,
    where log itself uses its near-zero branch: the derivative of what log
    returns, and its distance to the Jacobian the code returns. *)
From Coq Require Import Reals Lra Psatz.
From Coquelicot Require Import Coquelicot.
From Verif Require Import Geo_spec Geo3_spec Geo4_spec Trig Exp_unique SE2_model SE2_group SE2_exp SE2_jac
  SO3_model SO3_exp SO3_jexp SO3_group SO3_quat SO3_ops SO3_log SO3_jlog SE3_model SE3_group SE3_exp SE3_jexp SE3_log SE3_jlog.
Local Open Scope R_scope.

(** ** vector identities *)
Lemma near_lin_part : forall A B s S C a lam, dot3 a a = 1 ->
  sub3 (app3 (matc A (- 1 / 2) B (scal3 s a)) (app3 (matc C S (1 - C) a) lam)) (app3 (matc A (1 / 2) B (scal3 s a)) lam)
  = add3 (scal3 (A * C + s * S / 2 - A) lam)
         (add3 (scal3 (A * S - s * C / 2 - s / 2) (cross a lam)) (scal3 ((A * (1 - C) - s * S / 2) * dot3 a lam) a)).
Proof.
  intros A B s S C [a1 a2 a3] [l1 l2 l3] U. unfold dot3 in U. c3h U.
  assert (X : a1 ^ 2 = 1 - a2 ^ 2 - a3 ^ 2) by (rewrite <- U; ring). clear U.
  unfold sub3, add3, app3, matc, scal3, cross, dot3. c3. apply V3_ext; c3; field_simplify_eq; ring [X].
Qed.
(** [m1], [m3]: the coefficients of the derivative of the angular part, whose
    third one is s / 2 *)
Lemma near_ang_part : forall A B A' B' s m1 m3 c dd a p xi, dot3 a a = 1 ->
  let w := scal3 s a in
  let dw := add3 (scal3 m1 xi) (add3 (scal3 (m3 * dot3 a xi) a) (scal3 (s / 2) (cross a xi))) in
  let l := app3 (matc A (- 1 / 2) B w) p in
  sub3 (add3 (add3 (scal3 (A' * dot3 a xi) p) (scal3 (- 1 / 2) (cross dw p)))
          (add3 (scal3 (B' * dot3 a xi * dot3 w p + B * dot3 dw p) w) (scal3 (B * dot3 w p) dw)))
       (app3 (se3_jlog_la l w B c dd) xi)
  = add3 (add3 (scal3 ((A' - A * B * s + s / 4) * dot3 a xi) p) (scal3 (s * (- 1 / 4 + B * m1 - (A + B * s ^ 2) * dd) * dot3 a p) xi))
      (add3 (scal3 (s * B * (m1 - A) * dot3 p xi
                    + (B' * s ^ 2 + 2 * B * s * m3 - c * s ^ 3 * (A + B * s ^ 2) - 2 * B ^ 2 * s ^ 3) * (dot3 a p * dot3 a xi)) a)
        (add3 (scal3 ((m1 - A) / 2) (cross p xi)) (scal3 ((B * s ^ 2 - m3) / 2 * dot3 a xi) (cross a p)))).
Proof.
  intros A B A' B' s m1 m3 c dd [a1 a2 a3] [p1 p2 p3] [x1 x2 x3] U. unfold dot3 in U. c3h U. cbv zeta.
  assert (X : a1 ^ 2 = 1 - a2 ^ 2 - a3 ^ 2) by (rewrite <- U; ring). clear U.
  rewrite jlog_la_app. unfold sub3, add3, app3, matc, scal3, cross, dot3. c3. apply V3_ext; c3; field_simplify_eq; ring [X].
Qed.

(** ** sizes of the coefficients; y is the squared angle *)
Lemma abs_mul_le : forall a b x y, Rabs a <= x -> Rabs b <= y -> Rabs (a * b) <= x * y.
Proof. intros a b x y H K. rewrite Rabs_mult. apply Rmult_le_compat; try apply Rabs_pos; assumption. Qed.
Section Sizes.
Variables x S C : R.
Hypothesis XP : 0 < x <= / 100.
Hypothesis SL : x - x ^ 3 / 6 + x ^ 5 / 120 - x ^ 7 / 5040 <= S <= x - x ^ 3 / 6 + x ^ 5 / 120.
Hypothesis CL : 1 - x ^ 2 / 2 + x ^ 4 / 24 - x ^ 6 / 720 <= C <= 1 - x ^ 2 / 2 + x ^ 4 / 24.
Hypothesis Q : S * S + C * C = 1.
Let y := x ^ 2.
Let F := 1 + (1 - C * C) / 6.
Let s := F * S.
Let A := 1 - y / 12.
Let B := 1 / 12 + y / 720.
Let m1 := F * ((1 + C) / 2).
Let m3 := - F * ((1 - C) / 2) + (1 - C * C) * C / 3.
Let dd := - 1 / 6 - y / 180.
Let c := - 1 / 360 - y / 7560.

Lemma yb : 0 < y <= / 10000.
Proof. unfold y. nra. Qed.
Lemma forms : exists q1 q2 q5, 0 <= q1 <= / 120 /\ 0 <= q2 <= / 20 /\ 0 <= q5 <= / 24 /\ Rabs (q5 - / 24) <= y
  /\ S = x * (1 - y / 6 + y * y * q1)
  /\ 1 - C * C = y * (1 - y / 3 + y * y * q2)
  /\ C = 1 - y / 2 + y * y * q5.
Proof.
  pose proof yb as Y.
  set (q1 := (S / x - 1 + y / 6) / (y * y)). set (q5 := (C - 1 + y / 2) / (y * y)).
  assert (ES : S = x * (1 - y / 6 + y * y * q1)) by (unfold q1; field; lra).
  assert (EC : C = 1 - y / 2 + y * y * q5) by (unfold q5; field; lra).
  assert (YY : 0 < y * y) by nra.
  assert (Q1 : / 120 - y / 5040 <= q1 <= / 120).
  { destruct SL as [L U]. rewrite ES in L, U.
    assert (XYY : 0 < x * (y * y)) by (apply Rmult_lt_0_compat; lra).
    replace (x - x ^ 3 / 6 + x ^ 5 / 120 - x ^ 7 / 5040) with (x * (1 - y / 6) + x * (y * y) * (/ 120 - y / 5040)) in L by (unfold y; field).
    replace (x - x ^ 3 / 6 + x ^ 5 / 120) with (x * (1 - y / 6) + x * (y * y) * / 120) in U by (unfold y; field).
    replace (x * (1 - y / 6 + y * y * q1)) with (x * (1 - y / 6) + x * (y * y) * q1) in L, U by ring.
    split; apply (Rmult_le_reg_l _ _ _ XYY); lra. }
  assert (Q5 : / 24 - y / 720 <= q5 <= / 24).
  { destruct CL as [L U]. rewrite EC in L, U.
    replace (1 - x ^ 2 / 2 + x ^ 4 / 24 - x ^ 6 / 720) with (1 - y / 2 + (y * y) * (/ 24 - y / 720)) in L by (unfold y; field).
    replace (1 - x ^ 2 / 2 + x ^ 4 / 24) with (1 - y / 2 + y * y * / 24) in U by (unfold y; field).
    split; apply (Rmult_le_reg_l _ _ _ YY); lra. }
  exists q1, (/ 36 + 2 * q1 - y * q1 / 3 + y * y * (q1 * q1)), q5.
  split; [lra|]. split.
  { assert (0 <= q1 * q1 <= / 14400) by nra. assert (0 <= y * q1 <= / 10000) by nra.
    assert (0 <= y * y * (q1 * q1) <= / 10000) by nra. lra. }
  split; [lra|]. split; [apply Rabs_le; lra|]. split; [exact ES|]. split; [|exact EC].
  replace (1 - C * C) with (S * S) by lra. rewrite ES. unfold y. field.
Qed.

(** s = x (1 - y^2 q4), m1 = 1 - y/12 + y^2 q6, m3 = y/12 + y^2 q7 *)
Lemma forms2 : exists q4 q6 q7, 0 <= q4 <= / 10 /\ Rabs q6 <= / 10 /\ Rabs q7 <= / 2
  /\ s = x * (1 - y * y * q4) /\ m1 = 1 - y / 12 + y * y * q6 /\ m3 = y / 12 + y * y * q7.
Proof.
  pose proof yb as Y. destruct forms as (q1 & q2 & q5 & H1 & H2 & H5 & _ & ES & EC2 & EC).
  set (q3 := / 18 - y * q2 / 6).
  assert (H3 : / 20 <= q3 <= / 18). { unfold q3. assert (0 <= y * q2 <= / 10000) by nra. lra. }
  assert (EF : F = 1 + y / 6 - y * y * q3) by (unfold F, q3; rewrite EC2; field).
  assert (H13 : 0 <= q1 * q3 <= / 1000) by nra. assert (H35 : 0 <= q3 * q5 <= / 400) by nra.
  assert (H25 : 0 <= q2 * q5 <= / 400) by nra.
  assert (B1 : 0 <= y * q1 <= / 10000) by nra. assert (B3 : 0 <= y * q3 <= / 10000) by nra. assert (B5 : 0 <= y * q5 <= / 10000) by nra.
  assert (B2 : 0 <= y * q2 <= / 10000) by nra.
  assert (B13 : 0 <= y * y * (q1 * q3) <= / 10000) by nra.
  assert (B35 : 0 <= y * y * (q3 * q5) <= / 10000) by nra.
  assert (B25 : 0 <= y * (y * (q2 * q5)) <= / 10000) by nra.
  exists (/ 36 + q3 - q1 - y * q3 / 6 - y * q1 / 6 + y * y * (q1 * q3)).
  exists (- / 24 + q5 / 2 - q3 + y * q5 / 12 + y * q3 / 4 - y * y * (q3 * q5) / 2).
  exists (- / 24 + q5 / 2 + y * q5 / 12 + q3 * y / 4 - y * y * (q3 * q5) / 2
          + (- 1 / 2 + y * q5 - 1 / 3 * 1 + y / 6 - y * (y * q5) / 3 + y * q2 - y * (y * q2) / 2 + y * y * (y * (q2 * q5))) / 3).
  split; [lra|]. split; [apply Rabs_le; lra|]. split.
  { assert (0 <= y * (y * q5) <= / 10000) by nra. assert (0 <= y * (y * q2) <= / 10000) by nra.
    assert (0 <= y * y * (y * (q2 * q5)) <= / 10000). { replace (y * y * (y * (q2 * q5))) with (y * (y * (y * (q2 * q5)))) by ring. nra. }
    apply Rabs_le. lra. }
  split; [unfold s; rewrite EF, ES; field|]. split; [unfold m1; rewrite EF, EC; field|].
  unfold m3. rewrite EF, EC2, EC. field.
Qed.
Lemma lam_sizes : Rabs (A * C + s * S / 2 - A) <= x ^ 4 / 1000 /\ Rabs (A * S - s * C / 2 - s / 2) <= x ^ 4 / 200
  /\ Rabs (A * (1 - C) - s * S / 2) <= x ^ 4 / 1000.
Proof.
  pose proof yb as Y. destruct forms as (q1 & q2 & q5 & H1 & H2 & H5 & H5' & ES & EC2 & EC).
  destruct forms2 as (q4 & q6 & q7 & H4 & H6 & H7 & Es & _ & _).
  apply Rabs_le_between in H5'.
  set (z := x ^ 4). assert (Z : z = y * y) by (unfold z, y; ring). assert (ZP : 0 < z) by (rewrite Z; nra).
  assert (H14 : 0 <= q1 * q4 <= / 1000) by nra.
  assert (B1 : 0 <= y * q1 <= / 10000) by nra. assert (B4 : 0 <= y * q4 <= / 10000) by nra. assert (B5 : 0 <= y * q5 <= / 10000) by nra.
  assert (B14 : 0 <= y * (y * (q1 * q4)) <= / 10000) by nra.
  assert (H45 : 0 <= q4 * q5 <= / 100) by nra. assert (B45 : 0 <= y * (y * (q4 * q5)) <= / 10000) by nra.
  assert (E1 : A * C + s * S / 2 - A = z * (q5 - / 24 - y * q5 / 12 + (y * q1 - y * q4 + y * (y * q4) / 6 - y * (y * (y * (q1 * q4)))) / 2)).
  { rewrite Es, ES, EC, Z. unfold A. replace (x * (1 - y * y * q4) * (x * (1 - y / 6 + y * y * q1))) with (y * ((1 - y * y * q4) * (1 - y / 6 + y * y * q1))) by (unfold y; ring). field. }
  assert (BB : Rabs (q5 - / 24 - y * q5 / 12 + (y * q1 - y * q4 + y * (y * q4) / 6 - y * (y * (y * (q1 * q4)))) / 2) <= / 1000).
  { assert (0 <= y * (y * q4) <= / 10000) by nra. assert (0 <= y * (y * (y * (q1 * q4))) <= / 10000) by nra. apply Rabs_le. lra. }
  assert (K1 : Rabs (A * C + s * S / 2 - A) <= z / 1000).
  { rewrite E1, Rabs_mult, (Rabs_pos_eq z) by lra. unfold Rdiv. apply Rmult_le_compat_l; [lra|exact BB]. }
  split; [exact K1|]. split.
  - assert (E2 : A * S - s * C / 2 - s / 2 = z * (x * (/ 72 + q1 - y * q1 / 12 - q5 / 2 + q4 - y * q4 / 4 + y * (y * (q4 * q5)) / 2))).
    { rewrite Es, ES, EC, Z. unfold A. field. }
    rewrite E2, Rabs_mult, (Rabs_pos_eq z) by lra. change (z / 200) with (z * / 200). apply Rmult_le_compat_l; [lra|].
    set (w := / 72 + q1 - y * q1 / 12 - q5 / 2 + q4 - y * q4 / 4 + y * (y * (q4 * q5)) / 2).
    assert (W : Rabs w <= / 2) by (apply Rabs_le; unfold w; lra).
    rewrite Rabs_mult, (Rabs_pos_eq x) by lra.
    apply Rle_trans with (/ 100 * / 2); [|lra]. apply Rmult_le_compat; try lra; apply Rabs_pos || exact W.
  - rewrite <- Rabs_Ropp. replace (- (A * (1 - C) - s * S / 2)) with (A * C + s * S / 2 - A) by ring. exact K1.
Qed.
Lemma ang_sizes :
  Rabs (- x / 6 - A * B * s + s / 4) <= x ^ 3 / 100
  /\ Rabs (s * (- 1 / 4 + B * m1 - (A + B * s ^ 2) * dd)) <= x ^ 3 / 1000
  /\ Rabs (s * B * (m1 - A)) <= x ^ 3 / 1000
  /\ Rabs (x / 360 * s ^ 2 + 2 * B * s * m3 - c * s ^ 3 * (A + B * s ^ 2) - 2 * B ^ 2 * s ^ 3) <= x ^ 3 / 25
  /\ Rabs ((m1 - A) / 2) <= x ^ 3 / 1000
  /\ Rabs ((B * s ^ 2 - m3) / 2) <= x ^ 3 / 200.
Proof.
  pose proof yb as Y. destruct forms2 as (q4 & q6 & q7 & H4 & H6 & H7 & Es & E1 & E3).
  set (z := x ^ 3). assert (Z : z = x * y) by (unfold z, y; ring). assert (ZP : 0 < z) by (rewrite Z; apply Rmult_lt_0_compat; lra).
  set (rho := 1 - y * y * q4) in *.
  assert (YQ4 : 0 <= y * q4 <= / 10000) by nra.
  assert (RH : 1 - y / 10000 <= rho <= 1) by (unfold rho; nra).
  apply Rabs_le_between in H6. apply Rabs_le_between in H7.
  assert (BB : / 12 <= B <= / 12 + / 1000000) by (unfold B; lra).
  assert (S2 : s ^ 2 = y * (rho * rho)) by (rewrite Es; unfold y; ring).
  assert (R2 : 1 - y / 1000 <= rho * rho <= 1) by nra.
  assert (R3 : 1 - y / 100 <= rho * (rho * rho) <= 1) by nra.
  assert (Tt : 1 - y <= A + B * s ^ 2 <= 1 + y).
  { rewrite S2. unfold A. assert (0 <= y * (rho * rho) <= y) by nra.
    assert (B * (y * (rho * rho)) <= B * y) by (apply Rmult_le_compat_l; lra). assert (0 <= B * (y * (rho * rho))) by (apply Rmult_le_pos; lra).
    assert (B * y <= / 11 * y) by nra. lra. }
  assert (YQ6 : - / 10000 <= y * q6 <= / 10000) by nra. assert (YQ7 : - / 10000 <= y * q7 <= / 10000) by nra.
  assert (PB : forall e b, Rabs e <= b -> Rabs (z * e) <= z * b).
  { intros e b H. rewrite Rabs_mult, (Rabs_pos_eq z) by lra. apply Rmult_le_compat_l; lra. }
  split; [|split; [|split; [|split; [|split]]]].
  - replace (- x / 6 - A * B * s + s / 4) with (z * (/ 180 * rho + y * rho / 8640 - y * q4 / 6)).
    2:{ rewrite Z, Es. unfold A, B, rho. field. }
    apply (PB _ (/ 100)). assert (0 <= y * rho <= / 10000) by nra. apply Rabs_le. lra.
  - set (e := A + B * s ^ 2 - 1).
    assert (Ee : e = y * (y / 720 * (rho * rho) + (rho * rho - 1) / 12)) by (unfold e; rewrite S2; unfold A, B; field).
    replace (s * (- 1 / 4 + B * m1 - (A + B * s ^ 2) * dd))
      with (z * (rho * (y * (- / 8640) + B * (y * q6) + (y / 720 * (rho * rho) + (rho * rho - 1) / 12) * (1 / 6 + y / 180)))).
    2:{ replace (A + B * s ^ 2) with (1 + e) by (unfold e; ring). rewrite Ee, Z, Es, E1. unfold B, dd. field. }
    apply (PB _ (/ 1000)). rewrite <- (Rmult_1_l (/ 1000)). apply abs_mul_le; [apply Rabs_le; lra|].
    assert (W : Rabs (y / 720 * (rho * rho) + (rho * rho - 1) / 12) <= / 10000).
    { assert (0 <= y / 720 * (rho * rho) <= / 10000) by nra. apply Rabs_le. lra. }
    assert (W' : Rabs ((y / 720 * (rho * rho) + (rho * rho - 1) / 12) * (1 / 6 + y / 180)) <= / 10000 * 1) by (apply abs_mul_le; [exact W|apply Rabs_le; lra]).
    assert (W2 : Rabs (B * (y * q6)) <= / 10 * / 10000) by (apply abs_mul_le; apply Rabs_le; lra).
    apply Rabs_le_between in W'. apply Rabs_le_between in W2. apply Rabs_le. lra.
  - replace (s * B * (m1 - A)) with (z * (rho * B * (y * q6))) by (rewrite Z, Es, E1; unfold A; ring).
    apply (PB _ (/ 1000)). apply Rle_trans with (1 * / 10 * / 10000); [|lra].
    apply abs_mul_le; [apply abs_mul_le|]; apply Rabs_le; lra.
  - replace (x / 360 * s ^ 2 + 2 * B * s * m3 - c * s ^ 3 * (A + B * s ^ 2) - 2 * B ^ 2 * s ^ 3)
      with (z * (rho * rho / 360 + 2 * B * rho * (1 / 12 + y * q7) + - c * (rho * (rho * rho)) * (A + B * s ^ 2) - 2 * B * B * (rho * (rho * rho)))).
    2:{ replace (s ^ 3) with (z * (rho * (rho * rho))) by (rewrite Z, Es; unfold y; ring). rewrite S2, E3, Z, Es. field. }
    apply (PB _ (/ 25)).
    assert (CB : 0 <= - c <= / 350) by (unfold c; lra).
    assert (T1 : 0 <= 2 * B * rho * (1 / 12 + y * q7) <= / 70).
    { assert (0 <= B * rho <= / 12 + / 1000000) by nra. nra. }
    assert (T2 : 0 <= - c * (rho * (rho * rho)) * (A + B * s ^ 2) <= / 340).
    { assert (0 <= - c * (rho * (rho * rho)) <= / 350) by nra. nra. }
    assert (T3 : 0 <= 2 * B * B * (rho * (rho * rho)) <= / 70).
    { assert (0 <= 2 * B * B <= / 71) by nra. nra. }
    apply Rabs_le. lra.
  - replace ((m1 - A) / 2) with (z * (x * q6 / 2)) by (rewrite Z, E1; unfold A, y; field).
    apply (PB _ (/ 1000)). assert (- / 1000 <= x * q6 <= / 1000) by nra. apply Rabs_le. lra.
  - replace ((B * s ^ 2 - m3) / 2) with (z * (x * (rho * rho / 720 - y * q4 * (1 + rho) / 12 - q7) / 2)).
    2:{ rewrite S2, E3, Z. unfold B, rho, y. field. }
    apply (PB _ (/ 200)). set (g := rho * rho / 720 - y * q4 * (1 + rho) / 12 - q7).
    assert (G : - / 1 <= g <= / 1). { unfold g. assert (0 <= y * q4 * (1 + rho) <= / 1000) by nra. lra. }
    assert (- / 100 <= x * g <= / 100) by nra. apply Rabs_le. lra.
Qed.
(** p against l = (A - w/2 + B w w) p *)
Lemma pos_size : forall a p, dot3 a a = 1 -> len3 p <= 101 / 100 * len3 (app3 (matc A (- 1 / 2) B (scal3 s a)) p).
Proof.
  intros a p U. pose proof yb as Y. destruct forms2 as (q4 & q6 & q7 & H4 & _ & _ & Es & _ & _).
  assert (S0 : 0 <= s <= / 100).
  { rewrite Es. assert (0 <= y * (y * q4) <= / 10000). { assert (0 <= y * q4 <= / 10000) by nra. nra. } nra. }
  set (l := app3 (matc A (- 1 / 2) B (scal3 s a)) p).
  assert (E : p = add3 l (app3 (matc (1 - A) (1 / 2) (- B) (scal3 s a)) p)).
  { unfold l. destruct a as [a1 a2 a3], p as [p1 p2 p3]. apply V3_ext; unfold add3, app3, matc, scal3; c3; field. }
  assert (W : len3 (scal3 s a) = s).
  { rewrite scal_len, (Rabs_pos_eq s) by lra. unfold len3. rewrite U, sqrt_1. ring. }
  pose proof (add_len l (app3 (matc (1 - A) (1 / 2) (- B) (scal3 s a)) p)) as L. rewrite <- E in L.
  pose proof (matc_app_len (1 - A) (1 / 2) (- B) (scal3 s a) p) as M. rewrite W in M.
  assert (K : Rabs (1 - A) + Rabs (1 / 2) * s + Rabs (- B) * (s * s) <= / 160).
  { rewrite Rabs_Ropp, !Rabs_pos_eq by (unfold A, B; lra). assert (s * s <= / 10000) by nra. assert (0 <= s * s) by nra.
    assert (B * (s * s) <= / 10000). { assert (0 <= B <= 1) by (unfold B; lra). nra. } unfold A. lra. }
  pose proof (len3_pos p). assert ((Rabs (1 - A) + Rabs (1 / 2) * s + Rabs (- B) * (s * s)) * len3 p <= / 160 * len3 p) by (apply Rmult_le_compat_r; lra).
  lra.
Qed.
End Sizes.

(** ** the derivative of log *)
Lemma len_unit : forall a, dot3 a a = 1 -> len3 a = 1.
Proof. intros a U. unfold len3. rewrite U. apply sqrt_1. Qed.
Lemma theta_velocity : forall h th a xi r, 0 < r -> dot3 a a = 1 ->
  (forall t, Rabs t < r -> rotation3 (h t)) -> moves h (AA th a) xi -> 0 < th < PI ->
  deriv (fun t => so3_theta (h t)) 0 (dot3 a xi).
Proof.
  intros h th a xi r Hr U RH M T. pose proof PI2_RGT_0.
  destruct (deriv_sine_axis h th a xi U M) as [_ DC].
  assert (SP : 0 < sin th) by (apply sin_gt_0; lra). pose proof (sin2cos2 th) as Q.
  assert (CB : -1 < cos th < 1) by nra.
  assert (C0 : so3_cosine (h 0) = cos th) by (rewrite (proj1 M); apply AA_cosine; exact U).
  assert (DT : deriv acos (cos th) (-1 / sin th)).
  { eapply deriv_val; [|apply deriv_acos; exact CB].
    replace (1 - cos th * cos th) with (Rsqr (sin th)) by (unfold Rsqr; lra). rewrite sqrt_Rsqr by lra. reflexivity. }
  assert (D : deriv (fun t => acos (so3_cosine (h t))) 0 (-1 / sin th * (- sin th * dot3 a xi))).
  { apply (d_comp acos (fun t => so3_cosine (h t))); [exact DC|]. rewrite C0. exact DT. }
  apply (deriv_ext_loc (fun t => acos (so3_cosine (h t))) _ 0 _ r Hr).
  - intros t Ht. rewrite Rminus_0_r in Ht. destruct (axis_angle _ (RH t Ht)) as (t' & b & T' & B & E & _).
    rewrite E, AA_cosine, AA_theta, acos_cos by assumption. reflexivity.
  - eapply deriv_val; [|exact D]. field. lra.
Qed.

Theorem C37_log_jac_near_zero : forall d g J h xi u r th, 0 < r ->
  (forall t, Rabs t < r -> rigid3 (h t)) -> moves6 h g xi ->
  rot_angle (rr g) th -> 0 < th < so3_near_zero_eps d -> se3_jlog d g = Some J ->
  (forall t, Rabs t < r -> se3_log d (h t) = Some (u t)) ->
  exists v, deriv6 u 0 v
   /\ len3 (sub3 (ang v) (ang (app66 J xi))) <= th ^ 4 * len3 (ang xi)
   /\ len3 (sub3 (lin v) (lin (app66 J xi)))
      <= th ^ 4 / 100 * len3 (lin xi) + th ^ 3 / 10 * (len3 (lin (u 0)) * len3 (ang xi)).
Proof.
  intros d g J h xi u r th Hr RH M RA T EJ U. pose proof (so3_deps_pos d) as DE. pose proof (so3_eps_pos d) as EP.
  pose proof PI2_1. pose proof PI2_RGT_0.
  assert (Z0 : Rabs 0 < r) by (rewrite Rabs_R0; exact Hr).
  apply moves6_iff in M. destruct M as (H0' & DR & DP).
  assert (Hg : rigid3 g) by (rewrite <- H0'; apply RH; exact Z0).
  destruct (jlog6_form d g J th Hg RA ltac:(lra) EJ) as (x0 & ca & cb & cc & cd & L & EA & EC & EJ').
  rewrite coefs_small in EA by lra. rewrite jlog_coefs6_small in EC by lra.
  apply some_inj in EA. apply pair_equal_spec in EA. destruct EA as [<- <-].
  apply some_inj in EC. apply pair_equal_spec in EC. destruct EC as [<- <-].
  assert (x0 = u 0) by (pose proof (U 0 Z0) as U0; rewrite H0' in U0; congruence). subst x0.
  destruct (axis_angle (rr g) Hg) as (th' & a & T' & A & E & _).
  assert (th' = th). { pose proof (proj1 (rot_theta (rr g) th Hg) RA) as TH. rewrite E, AA_theta in TH by assumption. congruence. }
  subst th'.
  assert (RH3 : forall t, Rabs t < r -> rotation3 (rr (h t))) by (intros; apply RH; assumption).
  assert (M3' : moves (fun t => rr (h t)) (AA th a) (ang xi)).
  { split; [rewrite H0'; exact E|rewrite <- E; exact DR]. }
  assert (M3g : moves (fun t => rr (h t)) (rr g) (ang xi)) by (rewrite E; exact M3').
  (* the angular part *)
  set (S := sin th). set (C := cos th). pose proof (sin2cos2 th) as Q. fold S C in Q.
  assert (QQ : S * S + C * C = 1) by lra.
  set (F := 1 + (1 - C * C) / 6). set (s := F * S).
  assert (W0 : ang (u 0) = scal3 s a).
  { pose proof (rig_log_ang d g _ L) as K. rewrite E, log_small in K by (lra || exact A). apply some_inj in K. rewrite <- K.
    f_equal. unfold s, F. fold S. replace (1 - C * C) with (S * S) by lra. field. }
  pose proof (log_velocity_small d (fun t => rr (h t)) th a (ang xi) (fun t => ang (u t)) r Hr A RH3 M3' ltac:(lra)
    ltac:(intros t Ht; apply rig_log_ang, U, Ht)) as DW.
  set (m1 := F * ((1 + C) / 2)). set (m3 := - F * ((1 - C) / 2) + (1 - C * C) * C / 3).
  assert (JW : jl_small th a (ang xi) = add3 (scal3 m1 (ang xi)) (add3 (scal3 (m3 * dot3 a (ang xi)) a) (scal3 (s / 2) (cross a (ang xi))))).
  { reflexivity. }
  rewrite JW in DW. set (dw := add3 (scal3 m1 (ang xi)) _) in DW.
  (* the angle *)
  pose proof (theta_velocity _ th a (ang xi) r Hr A RH3 M3' ltac:(lra)) as DT.
  set (b := dot3 a (ang xi)) in *.
  assert (TH0 : so3_theta (rr (h 0)) = th) by (rewrite H0', E; apply AA_theta; assumption).
  assert (DT2 : deriv (fun t => so3_theta (rr (h t)) ^ 2) 0 (2 * th * b)).
  { apply (deriv_ext_loc (fun t => so3_theta (rr (h t)) * so3_theta (rr (h t))) _ 0 _ 1 ltac:(lra)); [intros; ring|].
    eapply deriv_val; [|apply d_mult; [exact DT|exact DT]]. cbv beta. rewrite TH0. ring. }
  destruct (deriv_cont _ _ _ DT (so3_near_zero_eps d - th) ltac:(lra)) as (r' & Hr' & K).
  set (rm := Rmin r r'). assert (Hm : 0 < rm) by (apply Rmin_glb_lt; assumption).
  assert (DL : deriv3 (fun t => lin (u t)) 0
     (add3 (app3 (matc (1 - th ^ 2 / 12) (- 1 / 2) (1 / 12 + th ^ 2 / 720) (scal3 s a)) (app3 (matc C S (1 - C) a) (lin xi)))
        (add3 (add3 (scal3 (- th / 6 * b) (rp g)) (scal3 (- 1 / 2) (cross dw (rp g))))
          (add3 (scal3 (th / 360 * b * dot3 (scal3 s a) (rp g) + (1 / 12 + th ^ 2 / 720) * dot3 dw (rp g)) (scal3 s a))
                (scal3 ((1 / 12 + th ^ 2 / 720) * dot3 (scal3 s a) (rp g)) dw))))).
  { apply (deriv3_ext_loc (fun t => app3 (matc (1 - so3_theta (rr (h t)) ^ 2 / 12) (- 1 / 2)
           (1 / 12 + so3_theta (rr (h t)) ^ 2 / 720) (ang (u t))) (rp (h t))) _ 0 _ rm Hm).
    { intros t Ht. rewrite Rminus_0_r in Ht. assert (Hr1 : Rabs t < r) by (eapply Rlt_le_trans; [exact Ht|apply Rmin_l]).
      assert (Hr2 : Rabs (t - 0) < r') by (rewrite Rminus_0_r; eapply Rlt_le_trans; [exact Ht|apply Rmin_r]).
      symmetry. apply (rig_log_small d (h t) (u t) (RH t Hr1) (U t Hr1)).
      specialize (K t Hr2). cbv beta in K. rewrite TH0 in K. apply Rabs_def2 in K. lra. }
    assert (DA : deriv (fun t => 1 - so3_theta (rr (h t)) ^ 2 / 12) 0 (- th / 6 * b)).
    { eapply deriv_val; [|apply d_minus; [apply d_const|apply (d_mult _ (fun _ => / 12)); [exact DT2|apply d_const]]]. field. }
    assert (DB : deriv (fun t => 1 / 12 + so3_theta (rr (h t)) ^ 2 / 720) 0 (th / 360 * b)).
    { eapply deriv_val; [|apply d_plus; [apply d_const|apply (d_mult _ (fun _ => / 720)); [exact DT2|apply d_const]]]. field. }
    eapply deriv3_val; [|apply (deriv_matc_app _ (- 1 / 2) _ _ (fun t => rp (h t)) _ _ _ _ DA DB DW DP)].
    cbv beta. rewrite H0', W0, E, AA_theta by assumption. reflexivity. }
  exists (mkTw (add3 (app3 (matc (1 - th ^ 2 / 12) (- 1 / 2) (1 / 12 + th ^ 2 / 720) (scal3 s a)) (app3 (matc C S (1 - C) a) (lin xi)))
        (add3 (add3 (scal3 (- th / 6 * b) (rp g)) (scal3 (- 1 / 2) (cross dw (rp g))))
          (add3 (scal3 (th / 360 * b * dot3 (scal3 s a) (rp g) + (1 / 12 + th ^ 2 / 720) * dot3 dw (rp g)) (scal3 s a))
                (scal3 ((1 / 12 + th ^ 2 / 720) * dot3 (scal3 s a) (rp g)) dw)))) dw).
  split; [split; cbn [lin ang]; assumption|]. cbn [lin ang].
  split.
  - (* angular *)
    assert (EJ3 : so3_jlog d (rr g) = Some (maa J)).
    { unfold so3_jlog. rewrite (rig_log_ang d g _ L). rewrite E, AA_theta, AA_sine, AA_cosine by assumption. cbv beta iota delta [bind].
      rewrite coefs_small by lra. rewrite EJ'. cbn [maa fst snd]. rewrite jlog_mat_matc. reflexivity. }
    destruct (C36_log_jac_small_angle d (rr g) (maa J) (fun t => rr (h t)) (ang xi) (fun t => ang (u t)) r th Hr RH3 M3g RA ltac:(lra) ltac:(lra) EJ3
      ltac:(intros t Ht; apply rig_log_ang, U, Ht)) as (v & DV & BV).
    assert (v = dw). { destruct DV as (V0 & V1 & V2). destruct DW as (W1 & W2 & W3).
      apply V3_ext; [exact (deriv_unique _ _ _ _ V0 W1)|exact (deriv_unique _ _ _ _ V1 W2)|exact (deriv_unique _ _ _ _ V2 W3)]. } subst v.
    replace (ang (app66 J xi)) with (app3 (maa J) (ang xi)); [exact BV|].
    rewrite EJ'. unfold app66. cbn [ang mal maa]. now rewrite app3_zero_m, add3_0_l.
  - (* linear *)
    assert (XP : 0 < th <= / 100) by lra.
    pose proof (conj (sin_ge_7 th ltac:(lra)) (sin_le_5 th ltac:(lra))) as SL.
    pose proof (conj (cos_ge_6 th ltac:(lra)) (cos_le_4 th ltac:(lra))) as CL. fold S in SL. fold C in CL.
    destruct (lam_sizes th S C XP SL CL QQ) as (K1 & K2 & K3).
    destruct (ang_sizes th S C XP SL CL QQ) as (P1 & P2 & P3 & P4 & P5 & P6).
    pose proof (pos_size th S C XP SL CL QQ a (rp g) A) as PS. fold F in K1, K2, K3, P1, P2, P3, P4, P5, P6, PS. fold s in K1, K2, K3, P1, P2, P3, P4, P5, P6, PS.
    fold m1 m3 in P2, P3, P4, P5, P6.
    assert (LP : lin (u 0) = app3 (matc (1 - th ^ 2 / 12) (- 1 / 2) (1 / 12 + th ^ 2 / 720) (scal3 s a)) (rp g)).
    { pose proof (U 0 Z0) as U0. rewrite H0' in U0. rewrite (rig_log_small d g (u 0) Hg U0); [|rewrite <- H0', TH0; lra].
      rewrite W0, <- H0', TH0. reflexivity. }
    rewrite <- LP in PS.
    replace (lin (app66 J xi)) with (add3 (app3 (matc (1 - th ^ 2 / 12) (1 / 2) (1 / 12 + th ^ 2 / 720) (scal3 s a)) (lin xi))
       (app3 (se3_jlog_la (lin (u 0)) (scal3 s a) (1 / 12 + th ^ 2 / 720) (- 1 / 360 - th ^ 2 / 7560) (- 1 / 6 - th ^ 2 / 180)) (ang xi))).
    2:{ rewrite EJ'. unfold app66. cbn [lin mll mla]. rewrite W0. reflexivity. }
    match goal with |- len3 (sub3 (add3 ?p ?q) (add3 ?v ?w)) <= _ => replace (sub3 (add3 p q) (add3 v w)) with (add3 (sub3 p v) (sub3 q w)) end.
    2:{ generalize (app3 (matc (1 - th ^ 2 / 12) (- 1 / 2) (1 / 12 + th ^ 2 / 720) (scal3 s a)) (app3 (matc C S (1 - C) a) (lin xi))).
        generalize (app3 (matc (1 - th ^ 2 / 12) (1 / 2) (1 / 12 + th ^ 2 / 720) (scal3 s a)) (lin xi)).
        generalize (app3 (se3_jlog_la (lin (u 0)) (scal3 s a) (1 / 12 + th ^ 2 / 720) (- 1 / 360 - th ^ 2 / 7560) (- 1 / 6 - th ^ 2 / 180)) (ang xi)).
        match goal with |- forall _ _ _, _ (_ _ (_ _ ?q)) _ = _ => generalize q | |- _ => idtac end.
        intros. apply V3_ext; unfold add3, sub3; c3; ring. }
    eapply Rle_trans; [apply add_len|]. apply Rplus_le_compat.
    + rewrite near_lin_part by exact A.
      eapply Rle_trans; [apply add_len|]. eapply Rle_trans; [apply Rplus_le_compat_l, add_len|].
      rewrite !scal_len, (len_unit a A), Rmult_1_r, Rabs_mult.
      pose proof (len3_pos (lin xi)) as XL. pose proof (cross_len a (lin xi)) as X1. pose proof (dot3_len a (lin xi)) as X2.
      rewrite (len_unit a A), Rmult_1_l in X1, X2.
      assert (T4 : 0 <= th ^ 4) by (apply pow_le; lra).
      apply Rle_trans with (th ^ 4 / 1000 * len3 (lin xi) + (th ^ 4 / 200 * len3 (lin xi) + th ^ 4 / 1000 * len3 (lin xi))).
      * repeat apply Rplus_le_compat; apply Rmult_le_compat; try apply Rabs_pos; try apply len3_pos; assumption || lra.
      * nra.
    + rewrite LP. unfold b, dw. rewrite near_ang_part by exact A.
      set (p := rp g) in *. set (z := ang xi) in *.
      pose proof (len3_pos p) as PL. pose proof (len3_pos z) as ZL. pose proof (len3_pos (lin (u 0))) as LL.
      pose proof (dot3_len a z) as X1. pose proof (dot3_len a p) as X2. pose proof (dot3_len p z) as X3.
      pose proof (cross_len p z) as X4. pose proof (cross_len a p) as X5. rewrite (len_unit a A), Rmult_1_l in X1, X2, X5.
      assert (T3 : 0 <= th ^ 3) by (apply pow_le; lra).
      set (n := len3 p * len3 z). assert (N0 : 0 <= n) by (apply Rmult_le_pos; assumption).
      assert (F1 : forall e k, Rabs e <= k -> Rabs (e * dot3 a z) * len3 p <= k * n).
      { intros e k He. rewrite Rabs_mult. unfold n. pose proof (Rabs_pos e). pose proof (Rabs_pos (dot3 a z)).
        assert (Rabs e * Rabs (dot3 a z) <= k * len3 z) by (apply Rmult_le_compat; assumption).
        replace (k * (len3 p * len3 z)) with (k * len3 z * len3 p) by ring. apply Rmult_le_compat_r; assumption. }
      assert (F2 : forall e k, Rabs e <= k -> Rabs (e * dot3 a p) * len3 z <= k * n).
      { intros e k He. rewrite Rabs_mult. unfold n. pose proof (Rabs_pos e). pose proof (Rabs_pos (dot3 a p)).
        assert (Rabs e * Rabs (dot3 a p) <= k * len3 p) by (apply Rmult_le_compat; assumption).
        replace (k * (len3 p * len3 z)) with (k * len3 p * len3 z) by ring. apply Rmult_le_compat_r; assumption. }
      eapply Rle_trans; [apply add_len|]. eapply Rle_trans; [apply Rplus_le_compat; [apply add_len|apply add_len]|].
      eapply Rle_trans; [apply Rplus_le_compat_l, Rplus_le_compat_l, add_len|].
      rewrite !scal_len, (len_unit a A), Rmult_1_r.
      apply Rle_trans with ((th ^ 3 / 100 * n + th ^ 3 / 1000 * n) + ((th ^ 3 / 1000 * n + th ^ 3 / 25 * n) + (th ^ 3 / 1000 * n + th ^ 3 / 200 * n))).
      * apply Rplus_le_compat; [apply Rplus_le_compat|apply Rplus_le_compat; [|apply Rplus_le_compat]].
        -- apply F1. exact P1.
        -- apply F2. exact P2.
        -- eapply Rle_trans; [apply Rabs_triang|]. apply Rplus_le_compat.
           ++ apply abs_mul_le; assumption.
           ++ apply abs_mul_le; [exact P4|]. rewrite Rabs_mult. unfold n. apply Rmult_le_compat; try apply Rabs_pos; assumption.
        -- apply Rmult_le_compat; try apply Rabs_pos; try apply len3_pos; assumption.
        -- eapply Rle_trans; [|apply (F1 _ _ P6)]. apply Rmult_le_compat_l; [apply Rabs_pos|assumption].
      * assert (NB : n <= 101 / 100 * (len3 (lin (u 0)) * len3 z)).
        { unfold n. rewrite <- Rmult_assoc. apply Rmult_le_compat_r; assumption. }
        rewrite <- LP. set (k := len3 (lin (u 0)) * len3 z) in *.
        assert (0 <= k) by (unfold k; apply Rmult_le_pos; assumption).
        assert (th ^ 3 * n <= th ^ 3 * (101 / 100 * k)) by (apply Rmult_le_compat_l; assumption). nra.
Qed.
