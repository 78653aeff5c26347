(** The logarithms of SO2 and SE2 along arbitrary differentiable curves of
    elements: the velocity of the angle, and of log_map. *)
From Coq Require Import Reals Lra Psatz.
From Coquelicot Require Import Coquelicot.
From Verif Require Import Geo_spec Trig Exp_unique SE2_model SE2_group SE2_exp SE2_jac.
Local Open Scope R_scope.

Lemma deriv_cont : forall f t l e, deriv f t l -> 0 < e ->
  exists r, 0 < r /\ forall x, Rabs (x - t) < r -> Rabs (f x - f t) < e.
Proof.
  intros f t l e D He.
  pose proof (derivable_continuous_pt f t (exist _ l D)) as C.
  destruct (C e He) as (r & Hr & K). exists r. split; [exact Hr|]. intros x Hx.
  destruct (Req_EM_T x t) as [->|N]; [unfold Rminus; rewrite Rplus_opp_r, Rabs_R0; exact He|].
  apply K. split; [|exact Hx]. split; [exact I|]. intro E. apply N. symmetry. exact E.
Qed.

Lemma deriv_atan_quot : forall f g om, deriv f 0 om -> deriv g 0 0 -> f 0 = 0 -> g 0 = 1 ->
  deriv (fun t => atan (f t / g t)) 0 om.
Proof.
  intros f g om Df Dg F0 G0.
  assert (DQ : deriv (fun t => f t / g t) 0 om).
  { apply is_derive_Reals. apply is_derive_Reals in Df, Dg.
    pose proof (is_derive_div f g 0 om 0 Df Dg ltac:(rewrite G0; lra)) as X.
    replace om with ((om * g 0 - f 0 * 0) / g 0 ^ 2) by (rewrite G0, F0; field). exact X. }
  eapply deriv_val; [|apply (d_comp atan (fun t => f t / g t) 0 om (/ (1 + 0 ^ 2)) DQ)].
  - field.
  - cbv beta. rewrite F0, G0. replace (0 / 1) with 0 by field. apply derivable_pt_lim_atan.
Qed.

(** the angle of a curve of unit vectors *)
Lemma atan2_curve : forall c s th om r, 0 < r ->
  (forall t, Rabs t < r -> c t * c t + s t * s t = 1) ->
  c 0 = cos th -> s 0 = sin th -> Rabs th < PI ->
  deriv c 0 (- sin th * om) -> deriv s 0 (cos th * om) ->
  deriv (fun t => atan2 (s t) (c t)) 0 om.
Proof.
  intros c s th om r Hr U C0 S0 B Dc Ds.
  pose (D := fun t => s t * cos th - c t * sin th).
  pose (C := fun t => c t * cos th + s t * sin th).
  pose proof (sin2cos2 th) as Q.
  assert (D0 : D 0 = 0) by (unfold D; rewrite C0, S0; ring).
  assert (C1 : C 0 = 1) by (unfold C; rewrite C0, S0; lra).
  assert (DD : deriv D 0 om).
  { unfold D. dgo. replace om with (om * (sin th * sin th + cos th * cos th)) at 3 by (rewrite <- (Rmult_1_r om) at 2; f_equal; lra). ring. }
  assert (DC : deriv C 0 0) by (unfold C; dgo; ring).
  pose proof (deriv_atan_quot D C om DD DC D0 C1) as DA.
  destruct (deriv_cont C 0 0 1 DC ltac:(lra)) as (r1 & R1 & K1).
  destruct (deriv_cont _ 0 om (PI - Rabs th) DA ltac:(lra)) as (r2 & R2 & K2).
  cbv beta in K2. rewrite D0, C1 in K2. replace (0 / 1) with 0 in K2 by field. rewrite atan_0 in K2.
  pose (r' := Rmin r (Rmin r1 r2)).
  assert (R' : 0 < r') by (unfold r'; repeat apply Rmin_pos; assumption).
  apply (deriv_ext_loc (fun t => th + atan (D t / C t)) _ _ _ r' R').
  - intros t Ht.
    assert (T1 : Rabs t < r).
    { rewrite Rminus_0_r in Ht. eapply Rlt_le_trans; [exact Ht|]. apply Rmin_l. }
    assert (T2 : Rabs (t - 0) < r1) by (eapply Rlt_le_trans; [exact Ht|]; unfold r'; eapply Rle_trans; [apply Rmin_r|apply Rmin_l]).
    assert (T3 : Rabs (t - 0) < r2) by (eapply Rlt_le_trans; [exact Ht|]; unfold r'; eapply Rle_trans; [apply Rmin_r|apply Rmin_r]).
    specialize (K1 t T2). specialize (K2 t T3). rewrite C1 in K1. apply Rabs_def2 in K1.
    assert (CP : 0 < C t) by lra.
    assert (CD : C t * C t + D t * D t = 1).
    { unfold C, D. pose proof (U t T1) as Ut.
      replace ((c t * cos th + s t * sin th) * (c t * cos th + s t * sin th) + (s t * cos th - c t * sin th) * (s t * cos th - c t * sin th))
        with ((c t * c t + s t * s t) * (sin th * sin th + cos th * cos th)) by ring. rewrite Ut. lra. }
    destruct (atan2_spec (C t) (D t) CD) as (A1 & A2 & _).
    assert (A3 : atan2 (D t) (C t) = atan (D t / C t)).
    { unfold atan2. destruct (Rlt_dec 0 (C t)); [reflexivity|contradiction]. }
    rewrite A3 in A1, A2.
    set (a := atan (D t / C t)) in *.
    replace (c t) with (cos (th + a)).
    2:{ rewrite cos_plus, A1, A2. unfold C, D.
        replace (cos th * (c t * cos th + s t * sin th) - sin th * (s t * cos th - c t * sin th))
          with (c t * (sin th * sin th + cos th * cos th)) by ring.
        rewrite <- (Rmult_1_r (c t)) at 2. f_equal. lra. }
    replace (s t) with (sin (th + a)).
    2:{ rewrite sin_plus, A1, A2. unfold C, D.
        replace (sin th * (c t * cos th + s t * sin th) + cos th * (s t * cos th - c t * sin th))
          with (s t * (sin th * sin th + cos th * cos th)) by ring.
        rewrite <- (Rmult_1_r (s t)) at 2. f_equal. lra. }
    symmetry. apply atan2_angle. rewrite Rminus_0_r in K2.
    pose proof (Rabs_triang th a). assert (Y : Rabs (th + a) < PI) by lra. apply Rabs_def2 in Y. lra.
  - eapply deriv_val; [|apply d_plus; [apply d_const|exact DA]]. ring.
Qed.

Lemma theta_curve : forall m g xi r, 0 < r -> (forall t, Rabs t < r -> se2_valid (m t)) ->
  Rabs (se2_theta g) < PI -> vel m g xi -> deriv (fun t => se2_theta (m t)) 0 (b2 xi).
Proof.
  intros m g xi r Hr V B (M0 & _ & _ & D3 & D4).
  assert (Vg : se2_valid g) by (rewrite <- M0; apply V; rewrite Rabs_R0; exact Hr).
  destruct (theta_spec g Vg) as (C & S & _).
  apply (atan2_curve (fun t => pc (m t)) (fun t => ps (m t)) (se2_theta g) (b2 xi) r Hr).
  - intros t Ht. exact (V t Ht).
  - rewrite M0, C. reflexivity.
  - rewrite M0, S. reflexivity.
  - exact B.
  - rewrite S. exact D3.
  - rewrite C. exact D4.
Qed.

(** log_map's Jacobian is the derivative of log_map along every curve *)
Theorem se2_log_curve : forall d g J xi m r, 0 < r -> (forall t, Rabs t < r -> se2_valid (m t)) ->
  vel m g xi ->
  se2_d_near_zero_eps d <= Rabs (se2_theta g) < PI \/ se2_theta g = 0 ->
  se2_log_map_jac d g = Some J ->
  exists w r', 0 < r' /\ (forall t, Rabs t < r' -> se2_log_map d (m t) = Some (w t))
    /\ deriv3 w 0 (app3 J xi).
Proof.
  intros d g J xi m r Hr V VL B EJ. pose proof VL as (M0 & D1 & D2 & D3 & D4).
  assert (Vg : se2_valid g) by (rewrite <- M0; apply V; rewrite Rabs_R0; exact Hr).
  destruct (theta_spec g Vg) as (C & S & _).
  pose proof (eps_pos d) as P. pose proof (deps_pos d) as P2. pose proof PI_RGT_0 as HPI.
  assert (BP : Rabs (se2_theta g) < PI) by (destruct B as [B|B]; [lra|rewrite B, Rabs_R0; exact HPI]).
  pose proof (theta_curve m g xi r Hr V BP VL) as DT.
  set (om := b2 xi) in *. set (T := fun t => se2_theta (m t)) in *.
  assert (T0 : T 0 = se2_theta g) by (unfold T; rewrite M0; reflexivity).
  destruct B as [[L U]|Z].
  - destruct (log_jac_big d g Vg (conj L U)) as (u & Lg & EJ'). rewrite EJ in EJ'. apply some_inj in EJ'. subst J.
    set (th := se2_theta g) in *.
    assert (N : th <> 0) by (intro Z; rewrite Z, Rabs_R0 in L; lra).
    assert (SN : sin th <> 0) by (apply sin_nonzero; lra).
    assert (CN : cos th < 1) by (apply cos_lt_1; lra).
    rewrite log_big in Lg; [|exact Vg|fold th; lra|rewrite <- S; exact SN].
    fold th in Lg. apply some_inj in Lg. subst u.
    destruct (deriv_cont T 0 om (Rmin (Rabs th - se2_near_zero_eps d) (PI - Rabs th)) DT) as (r1 & R1 & K).
    { apply Rmin_pos; lra. }
    set (r' := Rmin r r1). assert (R' : 0 < r') by (apply Rmin_pos; assumption).
    exists (fun t => mkV3
      (1 / 2 * (1 + pc (m t)) * (T t / ps (m t)) * px (m t) + 1 / 2 * T t * py (m t))
      (1 / 2 * (1 + pc (m t)) * (T t / ps (m t)) * py (m t) - 1 / 2 * T t * px (m t))
      (T t)), r'.
    split; [exact R'|]. split.
    + intros t Ht.
      assert (T1 : Rabs t < r) by (eapply Rlt_le_trans; [exact Ht|apply Rmin_l]).
      assert (T2 : Rabs (t - 0) < r1) by (rewrite Rminus_0_r; eapply Rlt_le_trans; [exact Ht|apply Rmin_r]).
      specialize (K t T2). rewrite T0 in K.
      pose proof (Rmin_l (Rabs th - se2_near_zero_eps d) (PI - Rabs th)).
      pose proof (Rmin_r (Rabs th - se2_near_zero_eps d) (PI - Rabs th)).
      pose proof (Rabs_triang_inv th (T t)). pose proof (Rabs_triang_inv (T t) th).
      rewrite (Rabs_minus_sym th (T t)) in H1.
      destruct (theta_spec (m t) (V t T1)) as (C' & S' & _).
      rewrite log_big; [reflexivity|exact (V t T1)|fold (T t); lra|].
      rewrite <- S'. apply sin_nonzero. fold (T t). lra.
    + assert (Q : sin th ^ 2 = 1 - cos th ^ 2) by (pose proof (sin2cos2 th); lra).
      assert (Hsc : sin th / (1 - cos th) = (1 + cos th) / sin th).
      { field_simplify_eq; [rewrite Q; ring|lra]. }
      assert (DQ : deriv (fun t => T t / ps (m t)) 0 ((om * sin th - th * (cos th * om)) / sin th ^ 2)).
      { apply is_derive_Reals. rewrite <- C in D4. apply is_derive_Reals in DT, D4.
        pose proof (is_derive_div T (fun t => ps (m t)) 0 _ _ DT D4 ltac:(cbv beta; rewrite M0, <- S; exact SN)) as X.
        cbv beta in X. rewrite T0, M0, <- S in X. exact X. }
      rewrite <- S in D3. fold om in D3.
      unfold deriv3. cbn [b0 b1 b2].
      split; [|split].
      * eapply deriv_val; [|apply d_plus; apply d_mult; [apply d_mult; [apply d_mult; [apply d_const|apply d_plus; [apply d_const|exact D3]]|exact DQ]|exact D1|apply d_mult; [apply d_const|exact DT]|exact D2]].
        cbv beta. rewrite M0, T0. cbn.
        unfold Rdiv. rewrite !(Rmult_assoc _ (ps g) (/ (1 - pc g))). rewrite <- C, <- S. fold (Rdiv (sin th) (1 - cos th)). rewrite Hsc.
        fold om. field_simplify_eq; [|auto]. ring [Q].
      * eapply deriv_val; [|apply d_minus; apply d_mult; [apply d_mult; [apply d_mult; [apply d_const|apply d_plus; [apply d_const|exact D3]]|exact DQ]|exact D2|apply d_mult; [apply d_const|exact DT]|exact D1]].
        cbv beta. rewrite M0, T0. cbn.
        unfold Rdiv. rewrite !(Rmult_assoc _ (ps g) (/ (1 - pc g))). rewrite <- C, <- S. fold (Rdiv (sin th) (1 - cos th)). rewrite Hsc.
        fold om. field_simplify_eq; [|auto]. ring [Q].
      * eapply deriv_val; [|exact DT]. cbn. fold om. ring.
  - assert (SM : forall g', Rabs (se2_theta g') < se2_near_zero_eps d -> se2_log_map d g' = Some (mkV3
       (1 / 2 * (1 + pc g') * (1 + ps g' ^ 2 / 6) * px g' + 1 / 2 * se2_theta g' * py g')
       (1 / 2 * (1 + pc g') * (1 + ps g' ^ 2 / 6) * py g' - 1 / 2 * se2_theta g' * px g')
       (se2_theta g'))).
    { intros g' H. unfold se2_log_map. fold (se2_theta g'). rewrite lt_b_true by exact H. cbn -[pow].
      rewrite div_some by lra. reflexivity. }
    assert (GC : pc g = 1) by (rewrite <- C, Z; apply cos_0).
    assert (GS : ps g = 0) by (rewrite <- S, Z; apply sin_0).
    destruct (deriv_cont T 0 om (se2_near_zero_eps d) DT (proj1 P)) as (r1 & R1 & K).
    exists (fun t => mkV3
       (1 / 2 * (1 + pc (m t)) * (1 + ps (m t) ^ 2 / 6) * px (m t) + 1 / 2 * T t * py (m t))
       (1 / 2 * (1 + pc (m t)) * (1 + ps (m t) ^ 2 / 6) * py (m t) - 1 / 2 * T t * px (m t))
       (T t)), r1.
    split; [exact R1|]. split.
    + intros t Ht. apply SM. specialize (K t). rewrite T0, Z, !Rminus_0_r in K. apply K. exact Ht.
    + unfold se2_log_map_jac in EJ. rewrite SM in EJ by (rewrite Z, Rabs_R0; exact (proj1 P)).
      cbn -[pow] in EJ. rewrite Z in EJ. rewrite lt_b_true in EJ by (rewrite Rabs_R0; lra). cbn -[pow] in EJ.
      rewrite !div_some in EJ by lra. cbn -[pow] in EJ. apply some_inj in EJ. subst J.
      rewrite GC, GS in *.
      assert (DS2 : deriv (fun t => 1 + ps (m t) ^ 2 / 6) 0 0).
      { apply (deriv_ext (fun t => 1 + ps (m t) * ps (m t) * / 6)); [intro t; field|].
        eapply deriv_val; [|apply d_plus; [apply d_const|apply d_mult; [apply d_mult; exact D4|apply d_const]]].
        cbv beta. rewrite M0, GS. ring. }
      unfold deriv3. cbn [b0 b1 b2].
      split; [|split].
      * eapply deriv_val; [|apply d_plus; apply d_mult; [apply d_mult; [apply d_mult; [apply d_const|apply d_plus; [apply d_const|exact D3]]|exact DS2]|exact D1|apply d_mult; [apply d_const|exact DT]|exact D2]].
        cbv beta. rewrite M0, T0, Z, GC, GS. cbn. fold om. field.
      * eapply deriv_val; [|apply d_minus; apply d_mult; [apply d_mult; [apply d_mult; [apply d_const|apply d_plus; [apply d_const|exact D3]]|exact DS2]|exact D2|apply d_mult; [apply d_const|exact DT]|exact D1]].
        cbv beta. rewrite M0, T0, Z, GC, GS. cbn. fold om. field.
      * eapply deriv_val; [|exact DT]. cbn. fold om. ring.
Qed.

(** both arguments of compose, and of between, moving at once *)
Lemma vel_compose : forall m m' g k xi xi', se2_valid k -> vel m g xi -> vel m' k xi' ->
  vel (fun t => se2_compose (m t) (m' t)) (se2_compose g k)
    (add3 (app3 (se2_adjoint (se2_inverse k)) xi) xi').
Proof.
  intros m m' g k xi xi' V (H0 & D1 & D2 & D3 & D4) (K0 & E1 & E2 & E3 & E4). unfold se2_valid in V.
  destruct k as [x y c s], xi as [e0 e1 w], xi' as [f0 f1 w']. cbn [px py pc ps] in V.
  assert (Q : c * c = 1 - s * s) by lra.
  split; [rewrite H0, K0; reflexivity|].
  unfg. repeat split; dgo; rewrite ?H0, ?K0; cbn; ring [Q].
Qed.
