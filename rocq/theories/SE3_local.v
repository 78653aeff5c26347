(** C37: local and its Jacobians, the conversions and normalize of SE3. *)
From Coq Require Import Reals Lra Psatz.
From Coquelicot Require Import Coquelicot.
From Verif Require Import Geo_spec Geo3_spec Geo4_spec Trig Exp_unique SE2_model SE2_group SE2_exp SE2_jac
  SO3_model SO3_exp SO3_jexp SO3_group SO3_quat SO3_ops SO3_log SO3_jlog SO3_normback SE3_model SE3_group SE3_exp SE3_jexp SE3_log SE3_jlog.
Local Open Scope R_scope.

Lemma local_key : forall w l o s q, o <> 0 -> q <> 0 -> dot3 w w = q -> s ^ 2 = 2 * o - o ^ 2 * q ->
  let m := (1 - s) / q in let a := s / (2 * o) in let b := (1 - a) / q in
  let d := - m / (2 * o) in let c := - (d + 2 * b) / q in
  let p := app3 (matc s o m w) l in
  let R := matc (1 - o * q) s o w in let J := matc a (1 / 2) b w in
  let Q := se3_jlog_la l w b c d in
  sub_m3 (mul3 Q R) (mul3 R Q) = sub_m3 (mul3 (so3_alg p) (mul3 J R)) (mul3 J (mul3 (so3_alg p) R)).
Proof.
  intros [w1 w2 w3] [l1 l2 l3] o s q O Q W S. unfold dot3 in *. c3h W. cbv zeta.
  assert (X : w1 ^ 2 = q - w2 ^ 2 - w3 ^ 2) by (rewrite <- W; ring). clear W.
  apply M3_ext; cbv beta iota zeta delta [se3_jlog_la sub_m3 so3_alg matc app3 mul3 dot_ dot3 scal3 add3 outer plus_m3 add_diag app3
    b0 b1 b2 d00 d01 d02 d10 d11 d12 d20 d21 d22];
   (field_simplify_eq; [ring [X S]|split; assumption]).
Qed.

Lemma mul3_sub_l : forall a b m, mul3 (sub_m3 a b) m = sub_m3 (mul3 a m) (mul3 b m).
Proof. intros [] [] []. apply M3_ext; cbn; ring. Qed.
Lemma mul3_sub_r : forall a b m, mul3 m (sub_m3 a b) = sub_m3 (mul3 m a) (mul3 m b).
Proof. intros [] [] []. apply M3_ext; cbn; ring. Qed.
Lemma opp_mul : forall m n, mul3 (opp_m3 m) n = opp_m3 (mul3 m n).
Proof. intros [] []. apply M3_ext; cbn; ring. Qed.
Lemma mul_opp : forall m n, mul3 m (opp_m3 n) = opp_m3 (mul3 m n).
Proof. intros [] []. apply M3_ext; cbn; ring. Qed.
Lemma opp_opp3 : forall m, opp_m3 (opp_m3 m) = m.
Proof. intros []. apply M3_ext; cbn; ring. Qed.
Lemma mul_z_l : forall m, mul3 mzero m = mzero.
Proof. intros []. apply M3_ext; cbn; ring. Qed.
Lemma mul_z_r : forall m, mul3 m mzero = mzero.
Proof. intros []. apply M3_ext; cbn; ring. Qed.
Lemma madd_z_l : forall m, madd mzero m = m.
Proof. intros []. apply M3_ext; cbn; ring. Qed.
Lemma madd_z_r : forall m, madd m mzero = m.
Proof. intros []. apply M3_ext; cbn; ring. Qed.
Lemma conj_comm : forall R Rt K Q P, mul3 R Rt = I3 -> mul3 Rt R = I3 -> mul3 K Rt = mul3 Rt K ->
  sub_m3 (mul3 Q R) (mul3 R Q) = sub_m3 (mul3 P (mul3 K R)) (mul3 K (mul3 P R)) ->
  madd (opp_m3 (mul3 Rt Q)) (mul3 (mul3 Rt P) K) = madd (mul3 K (mul3 Rt P)) (opp_m3 (mul3 Q Rt)).
Proof.
  intros R Rt K Q P R1 R2 KR E.
  apply (f_equal (fun m => mul3 (mul3 Rt m) Rt)) in E.
  rewrite !mul3_sub_r, !mul3_sub_l in E.
  assert (X1 : mul3 (mul3 Rt (mul3 Q R)) Rt = mul3 Rt Q) by (rewrite !mul3_assoc, R1, mul3_I_r; reflexivity).
  assert (X2 : mul3 (mul3 Rt (mul3 R Q)) Rt = mul3 Q Rt) by (rewrite <- (mul3_assoc Rt R Q), R2, mul3_I_l; reflexivity).
  assert (X3 : mul3 (mul3 Rt (mul3 P (mul3 K R))) Rt = mul3 (mul3 Rt P) K) by (rewrite !mul3_assoc, R1, mul3_I_r; reflexivity).
  assert (X4 : mul3 (mul3 Rt (mul3 K (mul3 P R))) Rt = mul3 K (mul3 Rt P)).
  { rewrite <- (mul3_assoc Rt K), <- KR, !mul3_assoc, R1, mul3_I_r. reflexivity. }
  rewrite X1, X2, X3, X4 in E. clear X1 X2 X3 X4 R1 R2 KR.
  generalize dependent (mul3 Rt Q). generalize dependent (mul3 Q Rt).
  generalize dependent (mul3 (mul3 Rt P) K). generalize dependent (mul3 K (mul3 Rt P)).
  intros [a1 a2 a3 a4 a5 a6 a7 a8 a9] [e1 e2 e3 e4 e5 e6 e7 e8 e9] [f1 f2 f3 f4 f5 f6 f7 f8 f9] [g1 g2 g3 g4 g5 g6 g7 g8 g9] E.
  unfold sub_m3 in E. c3h E. injection E; intros.
  unfold madd, opp_m3. apply M3_ext; c3; lra.
Qed.
Lemma local_commutes : forall d f J th, rigid3 f -> rot_angle (rr f) th -> so3_d_near_zero_eps d <= th < PI ->
  se3_jlog d f = Some J ->
  mul66 (opp66 (se3_adjoint (se3_inverse f))) J = mul66 J (opp66 (se3_adjoint (se3_inverse f))).
Proof.
  intros d f J th Hf RA T EJ. pose proof (so3_deps_pos d) as DE. pose proof (so3_eps_pos d) as EP.
  destruct (jlog6_form d f J th Hf RA ltac:(lra) EJ) as (x0 & a & b & c & dd & L & EA & EC & ->).
  rewrite coefs_big in EA by exact T. rewrite jlog_coefs6_big in EC by exact T.
  rewrite la_alt in EA by lra. fold (lb th) in EA.
  apply some_inj in EA. apply pair_equal_spec in EA. destruct EA as [<- <-].
  apply some_inj in EC. apply pair_equal_spec in EC. destruct EC as [<- <-].
  pose proof (rig_log_ang d f x0 L) as LA.
  pose proof (proj1 (rot_theta (rr f) th Hf) RA) as TH.
  assert (N : norm3 (ang x0) = th).
  { destruct (log_form d (rr f) _ Hf LA) as (t' & T' & Tt & _ & _ & F).
    destruct F as [[S _]|[S [N _]]]; [lra|congruence]. }
  destruct (rig_log_lin d f x0 Hf L ltac:(lra)) as (_ & E0 & _ & L0). rewrite N in L0.
  pose proof (cos_lt1 th ltac:(lra)) as CT. assert (NT : th <> 0) by lra.
  pose proof (V_inv (ang x0) ltac:(lra) ltac:(rewrite N; lra)) as [VI _]. rewrite N in VI.
  assert (PV : rp f = app3 (Vcur (ang x0) 1) (lin x0)).
  { rewrite L0, <- app3_mul, VI, app3_I. reflexivity. }
  unfold Vcur in PV. destruct (Req_EM_T (norm3 (ang x0)) 0); [lra|]. rewrite N, Rmult_1_r in PV.
  unfold E3 in E0. destruct (Req_EM_T (norm3 (ang x0)) 0); [lra|]. rewrite N in E0.
  pose proof (norm3_sq2 (ang x0)) as Q. rewrite N in Q. pose proof (sin2cos2 th) as SC.
  pose proof (local_key (ang x0) (lin x0) ((1 - cos th) / th ^ 2) (sin th / th) (th ^ 2)) as KEY.
  cbv zeta in KEY.
  assert (K1 : (1 - sin th / th) / th ^ 2 = (th - sin th) / th ^ 3) by (field; exact NT).
  assert (K2 : sin th / th / (2 * ((1 - cos th) / th ^ 2)) = la th) by (unfold la; field; lra).
  rewrite K1, K2 in KEY. rewrite <- PV in KEY.
  replace (- ((th - sin th) / th ^ 3) / (2 * ((1 - cos th) / th ^ 2))) with (ld th) in KEY by (unfold ld; field; lra).
  replace ((1 - la th) / th ^ 2) with (lb th) in KEY by (unfold lb; field; lra).
  replace (- (ld th + 2 * lb th) / th ^ 2) with (lc th) in KEY by (unfold lc; field; lra).
  replace (1 - (1 - cos th) / th ^ 2 * th ^ 2) with (cos th) in KEY by (field; lra).
  rewrite E0 in KEY.
  assert (KR : mul3 (matc (la th) (1 / 2) (lb th) (ang x0)) (tr3 (rr f)) = mul3 (tr3 (rr f)) (matc (la th) (1 / 2) (lb th) (ang x0))).
  { rewrite <- E0. generalize (cos th) (sin th / th) ((1 - cos th) / th ^ 2) (la th) (lb th). intros.
    destruct (ang x0) as [x y z]. unfold mul3, tr3, matc. apply M3_ext; c3; ring. }
  assert (PH : mul3 (so3_hat (app3 (opp_m3 (tr3 (rr f))) (rp f))) (tr3 (rr f)) = opp_m3 (mul3 (tr3 (rr f)) (so3_alg (rp f)))).
  { rewrite (alg_rot_tr (rr f) (rp f) Hf), <- opp_mul. f_equal.
    destruct (rr f) as [r1 r2 r3 r4 r5 r6 r7 r8 r9], (rp f) as [p1 p2 p3]. unfold so3_hat, so3_alg, opp_m3, tr3, app3. apply M3_ext; c3; ring. }
  unfold mul66, opp66, se3_adjoint, se3_inverse. cbn [mll mla mal maa rr rp].
  rewrite PH, opp_opp3, !mul_z_l, !mul_z_r.
  replace (opp_m3 mzero) with mzero by (apply M3_ext; cbn; ring).
  rewrite !mul_z_l, !mul_z_r, !madd_z_l, !madd_z_r, !opp_mul, !mul_opp, KR. f_equal.
  apply (conj_comm (rr f)); [apply rot_right; exact Hf|apply Hf|exact KR|].
  apply KEY.
  - apply Rmult_integral_contrapositive_currified; [lra|]. apply Rinv_neq_0_compat, pow_nonzero. exact NT.
  - apply pow_nonzero. exact NT.
  - symmetry. exact Q.
  - assert (Q2 : sin th ^ 2 = 1 - cos th ^ 2) by (rewrite <- SC; ring). field_simplify_eq; [|exact NT]. ring [Q2].
Qed.

Lemma rigid_between : forall g k, rigid3 g -> rigid3 k -> rigid3 (se3_between g k).
Proof. intros g k Hg Hk. apply rot_mul; [apply rot_tr; exact Hg|exact Hk]. Qed.
Lemma between_jac_form : forall g k, rigid3 g -> rigid3 k ->
  se3_between_jac g k = (opp66 (se3_adjoint (se3_inverse (se3_between g k))), I66).
Proof.
  intros g k Hg Hk. unfold se3_between_jac, se3_compose_jac_theseus. f_equal.
  assert (E : se3_inverse (se3_between g k) = se3_compose (se3_inverse k) g).
  { destruct g as [R p], k as [S q]. unfold rigid3 in *. cbn [rr] in *.
    unfold se3_between, se3_compose, se3_inverse. cbn [rr rp]. rewrite tr3_mul, tr3_tr3. f_equal.
    rewrite !app3_opp, app3_add, !app3_scal, !app3_mul, <- !(app3_mul R (tr3 R)), (rot_right R Hg), !app3_I.
    generalize (app3 (tr3 S) p) (app3 (tr3 S) q). intros [a1 a2 a3] [e1 e2 e3].
    apply V3_ext; unfold scal3, add3; c3; ring. }
  rewrite E. unfold se3_inverse_jac.
  destruct (C37_adjoint (se3_inverse k) g tzero ltac:(apply rot_tr; exact Hk) Hg) as (_ & HM & _). rewrite HM.
  unfold mul66, opp66. cbn [mll mla mal maa]. rewrite !mul3_opp_r.
  assert (OA : forall a b, madd (opp_m3 a) (opp_m3 b) = opp_m3 (madd a b)) by (intros [] []; apply M3_ext; cbn; ring).
  rewrite !OA. reflexivity.
Qed.

(** local(g, k): both Jacobians *)
Theorem C37_local_jac : forall d g k h xi u r th J0 J1, 0 < r ->
  rigid3 g -> rigid3 k -> (forall t, Rabs t < r -> rigid3 (h t)) ->
  rot_angle (rr (se3_between g k)) th -> so3_d_near_zero_eps d <= th < PI ->
  se3_local_jac d g k = Some (J0, J1) ->
  (moves6 h g xi -> (forall t, Rabs t < r -> se3_local d (h t) k = Some (u t)) -> deriv6 u 0 (app66 J0 xi))
  /\ (moves6 h k xi -> (forall t, Rabs t < r -> se3_local d g (h t) = Some (u t)) -> deriv6 u 0 (app66 J1 xi)).
Proof.
  intros d g k h xi u r th J0 J1 Hr Hg Hk RH RA T EJ. unfold se3_local_jac in EJ.
  pose proof (between_jac_form g k Hg Hk) as EB.
  assert (Hf : rigid3 (se3_between g k)) by (apply rigid_between; assumption).
  destruct (se3_jlog d (se3_between g k)) as [J|] eqn:EL; [|discriminate]. cbv beta iota delta [bind] in EJ.
  apply some_inj in EJ. apply pair_equal_spec in EJ. destruct EJ as [<- <-].
  rewrite (local_commutes d _ J th Hf RA T EL), app66_mul.
  assert (CG : forall x, moves6 (fun _ => x) x tzero).
  { intro x. apply moves6_iff. split; [reflexivity|]. cbn [tzero lin ang].
    replace (so3_alg zero3) with mzero by (apply M3_ext; cbn; ring). rewrite mul3_0_r, app3_zero_v.
    split; [apply deriv_const_m3|apply deriv_const3]. }
  assert (AZ : forall m, app66 m tzero = tzero).
  { intro m. unfold app66, tzero. cbn [lin ang]. rewrite !app3_zero_v, !add3_0_r. reflexivity. }
  split; intros M U.
  - apply (C37_log_jac d (se3_between g k) J (fun t => se3_between (h t) k) _ u r th); try assumption.
    + intros t Ht. apply rigid_between; [apply RH; exact Ht|exact Hk].
    + pose proof (C37_between_jac g k h (fun _ => k) xi tzero _ _ Hg Hk EB M (CG k)) as K.
      rewrite AZ in K. unfold tadd in K. cbn [tzero lin ang] in K. rewrite !add3_0_r in K. exact K.
  - apply (C37_log_jac d (se3_between g k) J (fun t => se3_between g (h t)) _ u r th); try assumption.
    + intros t Ht. apply rigid_between; [exact Hg|apply RH; exact Ht].
    + pose proof (C37_between_jac g k (fun _ => g) h tzero xi _ _ Hg Hk EB (CG g) M) as K.
      rewrite AZ, app66_I in K. unfold tadd in K. cbn [tzero lin ang] in K. rewrite !add3_0_l in K.
      destruct xi. exact K.
Qed.
(** retract and local undo each other *)
Theorem C37_retract_local : forall d g k xi, rigid3 g -> rigid3 k ->
  se3_local d g k = Some xi -> so3_near_zero_eps d <= len3 (ang xi) -> se3_retract d g xi = Some k.
Proof.
  intros d g k xi Hg Hk L B. unfold se3_local in L.
  destruct (C37_log_is_logarithm d _ xi (rigid_between g k Hg Hk) L) as (_ & _ & m & _ & _ & _ & X).
  destruct (X B) as [_ E]. unfold se3_retract. rewrite E. cbv beta iota delta [bind]. f_equal.
  destruct g as [R p], k as [S q]. unfold rigid3 in *. cbn [rr] in *.
  unfold se3_between, se3_compose, se3_inverse. cbn [rr rp].
  rewrite <- mul3_assoc, (rot_right R Hg), mul3_I_l. f_equal.
  rewrite app3_opp, app3_add, app3_scal, <- !app3_mul, (rot_right R Hg), !app3_I.
  destruct p as [p1 p2 p3], q as [q1 q2 q3]. apply V3_ext; unfold scal3, add3; c3; ring.
Qed.
Theorem C37_local_retract : forall d g k xi, rigid3 g -> so3_near_zero_eps d <= len3 (ang xi) < PI ->
  se3_retract d g xi = Some k -> rigid3 k
  /\ (se3_local d g k = Some xi \/ (se3_local d g k = None /\ so3_log d (rr (se3_between g k)) = None)).
Proof.
  intros d g k xi Hg B E. unfold se3_retract in E.
  destruct (C37_exp_rigid d xi) as (e & EE & He & _). rewrite EE in E. cbv beta iota delta [bind] in E.
  apply some_inj in E. subst k. split; [apply rot_mul; assumption|].
  assert (BE : se3_between g (se3_compose g e) = e).
  { destruct g as [R p], e as [S q]. unfold rigid3 in *. cbn [rr] in *.
    unfold se3_between, se3_compose, se3_inverse. cbn [rr rp].
    rewrite <- mul3_assoc, (proj1 Hg), mul3_I_l. f_equal.
    rewrite app3_add, app3_opp, <- app3_mul, (proj1 Hg), !app3_I.
    generalize (app3 (tr3 R) p). intros [p1 p2 p3]. destruct q as [q1 q2 q3]. apply V3_ext; unfold scal3, add3; c3; ring. }
  unfold se3_local. rewrite BE. apply C37_log_exp; assumption.
Qed.

(** normalize: the rotation part becomes the nearest rotation, the translation is kept *)
Theorem C37_normalize : forall m u s v, svd3 (rr m) u s v ->
  let n := se3_normalize_from_svd u v (rp m) in
  rigid3 n /\ rp n = rp m
  /\ (forall g, rotation3 g -> dist2_m3 (rr m) (rr n) <= dist2_m3 (rr m) g)
  /\ (rigid3 m -> n = m).
Proof.
  intros m u s v S n. destruct (C36_normalize (rr m) u s v S) as (R & B & F).
  split; [exact R|]. split; [reflexivity|]. split; [exact B|].
  intro H. destruct m as [r p]. unfold n, se3_normalize_from_svd. cbn [rr rp] in *. rewrite (F H). reflexivity.
Qed.
Theorem C37_normalize_backward : forall h r u s v dm dr grad e, 0 < e ->
  svd3 (rr (h 0)) u s v -> b0 s <> b1 s -> b1 s <> b2 s ->
  r 0 = se3_normalize_from_svd u v (rp (h 0)) ->
  (forall t, Rabs t < e -> exists u' s' v', svd3 (rr (h t)) u' s' v' /\ r t = se3_normalize_from_svd u' v' (rp (h t))) ->
  deriv_rig h 0 dm -> deriv_rig r 0 dr ->
  frob34 grad dr = frob34 (se3_normalize_backward u s v (det3 (mul3 u v)) grad) dm.
Proof.
  intros h r u s v dm dr grad e He SV N1 N2 R0 HT [DM PM] [DR PR]. unfold frob34, se3_normalize_backward. cbn [rr rp].
  f_equal.
  - apply (C52_normalize_backward (fun t => rr (h t)) (fun t => rr (r t)) u s v (rr dm) (rr dr) (rr grad) e He SV N1 N2).
    + rewrite R0. reflexivity.
    + intros t Ht. destruct (HT t Ht) as (u' & s' & v' & S' & E). exists u', s', v'. split; [exact S'|]. rewrite E. reflexivity.
    + exact DM.
    + exact DR.
  - f_equal. assert (D2 : deriv3 (fun t => rp (r t)) 0 (rp dm)).
    { apply (deriv3_ext_loc (fun t => rp (h t)) _ 0 _ e He); [|exact PM].
      intros t Ht. rewrite Rminus_0_r in Ht. destruct (HT t Ht) as (u' & s' & v' & _ & E). rewrite E. reflexivity. }
    destruct PR as (A0 & A1 & A2), D2 as (B0 & B1 & B2).
    apply V3_ext; eapply uniqueness_limite; eassumption.
Qed.

(** positions and quaternions *)
Theorem C37_xyz_quaternion : forall d p q g,
  (qnorm2 q = 0 -> se3_from_xyz_quaternion p q = None)
  /\ (qnorm2 q <> 0 -> exists k, se3_from_xyz_quaternion p q = Some k /\ rigid3 k
       /\ forall x, qadd (qmul (qmul q (qpure x)) (qconj q)) (qscal (qnorm2 q) (qpure p))
                    = qscal (qnorm2 q) (qpure (se3_transform k x)))
  /\ (rigid3 g -> forall p' q', se3_to_xyz_quaternion d g = Some (p', q') ->
       p' = rp g /\ qnorm2 q' = 1 /\ 0 <= qw q' /\ se3_from_xyz_quaternion p' q' = Some g).
Proof.
  intros d p q g. destruct (C36_quaternion q) as [QZ QN]. unfold se3_from_xyz_quaternion. split; [|split].
  - intro Z. rewrite (QZ Z). reflexivity.
  - intro N. destruct (QN N) as (k & E & R & A). rewrite E. exists (mkRig k p). split; [reflexivity|]. split; [exact R|].
    intro x. rewrite A. unfold se3_transform. cbn [rr rp]. destruct p as [p1 p2 p3], (app3 k x) as [a1 a2 a3].
    unfold qadd, qscal, qpure, add3. apply Quat_ext; c3; ring.
  - intros Hg p' q' E. unfold se3_to_xyz_quaternion in E.
    destruct (so3_to_quaternion d (rr g)) as [q0|] eqn:EQ; [|discriminate]. cbv beta iota delta [bind] in E.
    apply some_inj in E. apply pair_equal_spec in E. destruct E as [<- <-].
    destruct (C36_to_quaternion d (rr g) Hg) as [F _]. destruct (F q0 EQ) as (A & B & C).
    split; [reflexivity|]. split; [exact A|]. split; [exact B|]. rewrite C. destruct g. reflexivity.
Qed.

(** the hypotheses above are met *)
Example se3_log_case : exists g xi, rigid3 g /\ rp g <> zero3 /\ se3_log F64 g = Some xi
  /\ so3_near_zero_eps F64 <= len3 (ang xi) /\ se3_exp F64 xi = Some g.
Proof.
  pose proof PI2_1. pose proof PI2_RGT_0. pose proof (so3_eps_pos F64) as EP.
  exists (mkRig (AA (PI / 2) ez) (mkV3 0 0 3)), (mkTw (mkV3 0 0 3) (scal3 (PI / 2) ez)).
  assert (Hg : rigid3 (mkRig (AA (PI / 2) ez) (mkV3 0 0 3))) by (apply AA_rotation, ez_unit).
  assert (L : se3_log F64 (mkRig (AA (PI / 2) ez) (mkV3 0 0 3)) = Some (mkTw (mkV3 0 0 3) (scal3 (PI / 2) ez))).
  { apply screw_log. lra. }
  assert (B : so3_near_zero_eps F64 <= len3 (scal3 (PI / 2) ez)).
  { change (len3 (scal3 (PI / 2) ez)) with (norm3 (scal3 (PI / 2) ez)).
    rewrite norm3_scal, Rabs_pos_eq by (lra || apply ez_unit). lra. }
  split; [exact Hg|]. split; [intro K; apply (f_equal b2) in K; cbn in K; lra|]. split; [exact L|].
  split; [exact B|]. destruct (C37_log_is_logarithm F64 _ _ Hg L) as (_ & _ & m & _ & _ & _ & X). apply X. exact B.
Qed.
Example se3_log_jac_case : exists g xi u J,
  (forall t, Rabs t < / 2 -> rigid3 (g t)) /\ moves6 g (g 0) xi /\ rot_angle (rr (g 0)) (PI / 2)
  /\ se3_jlog F32 (g 0) = Some J /\ (forall t, Rabs t < / 2 -> se3_log F32 (g t) = Some (u t))
  /\ ang xi <> zero3 /\ rp (g 0) <> zero3.
Proof.
  pose proof PI2_1. pose proof PI2_RGT_0. pose proof (so3_eps_pos F32) as EP.
  pose (g := fun t => mkRig (AA (PI / 2 + t) ez) (mkV3 0 0 3)).
  assert (RG : forall t, rigid3 (g t)) by (intro t; apply AA_rotation, ez_unit).
  assert (L : forall t, Rabs t < / 2 -> se3_log F32 (g t) = Some (mkTw (mkV3 0 0 3) (scal3 (PI / 2 + t) ez))).
  { intros t Ht. apply Rabs_def2 in Ht. apply screw_log. lra. }
  assert (RA : rot_angle (rr (g 0)) (PI / 2)).
  { apply (rot_theta _ _ (RG 0)). unfold g. cbn [rr]. rewrite Rplus_0_r. symmetry. apply AA_theta; [lra|apply ez_unit]. }
  assert (HZ : Rabs 0 < / 2) by (rewrite Rabs_R0; lra).
  destruct (C37_log_jac_total F32 (g 0) _ (PI / 2) (RG 0) RA ltac:(lra) (L 0 HZ)) as [J EJ].
  exists g, (mkTw zero3 ez), (fun t => mkTw (mkV3 0 0 3) (scal3 (PI / 2 + t) ez)), J.
  split; [intros; apply RG|]. split.
  { apply moves6_iff. split; [reflexivity|]. unfold g. cbn [rr rp lin ang]. split; [apply AA_ez_moves|].
    rewrite app3_zero_v. apply deriv_const3. }
  split; [exact RA|]. split; [exact EJ|]. split; [exact L|].
  split; intro K; apply (f_equal b2) in K; cbn in K; lra.
Qed.
