(** C72 for SE2 rotations between zero and the threshold (F52, F83), and a case
    that meets the hypotheses of the theorems of Mg_props.v. *)
From Coq Require Import Reals List Arith Lia Lra Psatz.
From Coquelicot Require Import Coquelicot.
Import List ListNotations.
From Verif Require Import Geo_spec Geo3_spec Geo4_spec RSum Trig SE2_model SE2_group SE2_exp SE2_jac
  SO3_model Exp_unique SO3_group SO3_normback SE3_model SE3_group Mg_model Mg_spec Mg_inv Mg_laws Mg_laws2 Mg_laws3 Mg_props.
Local Open Scope R_scope.

Definition eye (i j : nat) : R := if (i =? j)%nat then 1 else 0.
Definition vec3 (x y z : R) (i : nat) : R := nth i [x; y; z] 0.

Lemma quad_eye3 x : quad 3 eye x = x 0%nat ^ 2 + x 1%nat ^ 2 + x 2%nat ^ 2.
Proof. unfold quad, eye. cbn -[pow]. ring. Qed.

Lemma se2_small_moves d g t h : se2_valid g -> Rabs t < se2_near_zero_eps d ->
  (forall s, se2_retract d g (mkV3 1 0 (t + s)) = Some (h s)) ->
  let x' := - t / 3 in let y' := 1 / 2 - t ^ 2 / 8 in
  deriv_m3 (fun s => se2_to_matrix (h s)) 0
    (mul3 (se2_to_matrix (h 0)) (se2_alg (mkV3 (cos t * x' + sin t * y') (- sin t * x' + cos t * y') 1))).
Proof.
  intros V B EH x' y'. pose proof (eps_pos d) as P.
  set (M := fun s => se2_to_matrix (mkSE2 (1 - (t + s) ^ 2 / 6) ((t + s) / 2 - (t + s) ^ 3 / 24) (cos (t + s)) (sin (t + s)))).
  assert (ML : forall s, Rabs (s - 0) < se2_near_zero_eps d - Rabs t -> mul3 (se2_to_matrix g) (M s) = se2_to_matrix (h s)).
  { intros s Hs. rewrite Rminus_0_r in Hs. specialize (EH s). unfold se2_retract in EH.
    rewrite exp_small in EH by (cbn [b2]; pose proof (Rabs_triang t s); lra). cbv beta iota delta [bind] in EH. apply some_inj in EH.
    rewrite <- EH, se2_compose_matrix. f_equal. unfold M. f_equal. cbn [b0 b1 b2]. f_equal; field. }
  assert (K0 : se2_to_matrix (h 0) = mul3 (se2_to_matrix g) (M 0)).
  { symmetry. apply ML. rewrite Rminus_0_r, Rabs_R0. lra. }
  rewrite K0, mul3_assoc.
  apply (deriv_m3_ext_loc (fun s => mul3 (se2_to_matrix g) (M s)) _ 0 _ (se2_near_zero_eps d - Rabs t) ltac:(lra) ML). apply deriv_left.
  unfold M, deriv_m3, se2_to_matrix, se2_alg, mul3, x', y'. cbn -[pow].
  assert (SC : sin t ^ 2 + cos t ^ 2 = 1) by (pose proof (sin2_cos2 t) as Q; unfold Rsqr in Q; lra).
  repeat split; apply is_derive_Reals; auto_derive; try exact I; rewrite ?Rplus_0_r; try (field; fail).
  - transitivity ((sin t ^ 2 + cos t ^ 2) * (- t / 3)); [rewrite SC; field|field].
  - transitivity ((sin t ^ 2 + cos t ^ 2) * (1 / 2 - t ^ 2 / 8)); [rewrite SC; field|field].
Qed.

(** F83: retract_gaussian (and local_gaussian, which uses the same Jacobian) is
    wrong for every nonzero rotation below the threshold: the displacement
    (0, 0, 1) from the mean (1, 0, t), of exponent 1, leaves the new mean with a
    velocity to which the new Gaussian assigns more than 1. *)
Theorem C72_small_angle_refuted : forall d t inv (g : SE2), inverts inv -> 0 < Rabs t < se2_near_zero_eps d ->
  valid (se2_meaning d) g ->
  exists (k : SE2) P (h : R -> SE2) xi,
     retract_gaussian (G := se2_class d) inv g (vec3 1 0 t) eye = Some (k, P)
  /\ (forall s, retract (l := se2_class d) g (fun i => vec3 1 0 t i + s * vec3 0 0 1 i) = Some (h s))
  /\ moves (se2_meaning d) h k xi
  /\ quad 3 eye (vec3 0 0 1) = 1 /\ 1 < quad 3 P xi.
Proof.
  intros d t inv g HI [T0 T1] Vg. pose proof (eps_pos d) as EP. pose proof (class_laws _ _ (MSE2 d)) as LW.
  assert (T2 : Rabs t < PI) by (pose proof PI2_1; unfold se2_near_zero_eps in T1; destruct d; lra).
  assert (SE : symmetric (dof (se2_class d)) eye) by (intros i j _ _; unfold eye; now rewrite Nat.eqb_sym).
  destruct (C72_retract _ _ inv (MSE2 d) HI g (vec3 1 0 t) eye Vg SE T2) as (k & P & ER & EK & Vk & _ & _).
  set (h := fun s => match retract (l := se2_class d) g (fun i => vec3 1 0 t i + s * vec3 0 0 1 i) with Some y => y | None => g end).
  assert (EH : forall s, retract (l := se2_class d) g (fun i => vec3 1 0 t i + s * vec3 0 0 1 i) = Some (h s)).
  { intro s. unfold h. destruct (l_retract _ _ LW g (fun i => vec3 1 0 t i + s * vec3 0 0 1 i) Vg) as (y & -> & _). reflexivity. }
  clearbody h. set (x' := - t / 3). set (y' := 1 / 2 - t ^ 2 / 8).
  set (xl := cos t * x' + sin t * y'). set (yl := - sin t * x' + cos t * y').
  exists k, P, h, (vec3 xl yl 1). split; [exact ER|]. split; [exact EH|].
  assert (EH' : forall s, se2_retract d g (mkV3 1 0 (t + s)) = Some (h s)).
  { intro s. specialize (EH s). cbn [retract se2_class] in EH. rewrite <- EH. f_equal. unfold v3_of, vec3. cbn. apply V3_ext; cbn; ring. }
  assert (H0 : h 0 = k).
  { specialize (EH' 0). cbn [retract se2_class] in EK. unfold v3_of, vec3 in EK. cbn in EK. rewrite Rplus_0_r, EK in EH'. now apply some_inj in EH'. }
  split; [|split].
  - cbn [moves se2_meaning]. split; [exact H0|]. rewrite <- H0. apply (se2_small_moves d g t h Vg T1 EH').
  - rewrite quad_eye3. unfold vec3. cbn. ring.
  - (* the code's Jacobian *)
    destruct (l_jac _ _ LW (vec3 1 0 t)) as (J & EJ).
    destruct (inv_defined inv (vec3 1 0 t) J HI LW T2 EJ) as (K & EI & HK).
    rewrite (retract_run (G := se2_class d) inv g (vec3 1 0 t) eye J K k HI LW T2 EK EJ EI) in ER. cbv zeta in ER.
    destruct (allclose _ _ _); [|discriminate]. apply some_inj in ER. apply pair_equal_spec in ER. destruct ER as [_ <-].
    change (dof (se2_class d)) with 3%nat in *. rewrite quad_conj, quad_eye3. set (w := matvec 3 K (vec3 xl yl 1)).
    assert (JW : forall i, (i < 3)%nat -> matvec 3 J w i = vec3 xl yl 1 i) by (intros i Hi; apply (matvec_inverse 3 J K (vec3 xl yl 1) HK i Hi)).
    clearbody w. clear HK EI K.
    cbn [exp_map_jac se2_class] in EJ. unfold se2_exp_map_jac, v3_of, vec3 in EJ. cbn [b0 b1 b2 nth] in EJ. cbv zeta in EJ.
    rewrite lt_b_true in EJ by exact T1. unfold where_ in EJ. rewrite !div_some in EJ by lra. cbv beta iota delta [bind option_map] in EJ. apply some_inj in EJ.
    assert (Z : w 2%nat = 1).
    { specialize (JW 2%nat ltac:(lia)). rewrite <- EJ in JW. unfold matvec, of_m3, vec3 in JW. cbn -[pow] in JW. lra. }
    pose proof (JW 0%nat ltac:(lia)) as J0. pose proof (JW 1%nat ltac:(lia)) as J1. rewrite <- EJ in J0, J1. unfold matvec, of_m3, vec3 in J0, J1.
    cbn -[pow] in J0, J1. rewrite Z in J0, J1. clear EJ JW. rewrite Z.
    pose proof (pow2_ge_0 (w 0%nat)). pose proof (pow2_ge_0 (w 1%nat)).
    destruct (Req_dec (w 0%nat) 0) as [W0|W0]; [destruct (Req_dec (w 1%nat) 0) as [W1|W1]|].
    + exfalso. rewrite W0, W1 in *.
      assert (A : xl ^ 2 + yl ^ 2 = x' ^ 2 + y' ^ 2).
      { unfold xl, yl. assert (SC : sin t ^ 2 + cos t ^ 2 = 1) by (pose proof (sin2_cos2 t) as Q; unfold Rsqr in Q; lra).
        transitivity ((sin t ^ 2 + cos t ^ 2) * (x' ^ 2 + y' ^ 2)); [ring|rewrite SC; ring]. }
      assert (TB : t ^ 2 < 1 / 100).
      { assert (Rabs t < 1 / 10) by (unfold se2_near_zero_eps in T1; destruct d; lra). rewrite <- (pow2_abs t). nra. }
      assert (TP : 0 < t ^ 2) by (rewrite <- (pow2_abs t); nra).
      assert (X0 : xl = t - t ^ 3 / 120) by (rewrite <- J0; field). assert (Y0 : yl = 1 / 2 - t ^ 2 / 24) by (rewrite <- J1; field).
      rewrite X0, Y0 in A. unfold x', y' in A. clear - A TB TP. set (q := t ^ 2) in *.
      assert (E : q * (1 - q / 120) ^ 2 + (1 / 2 - q / 24) ^ 2 = q / 9 + (1 / 2 - q / 8) ^ 2).
      { unfold q. transitivity ((t - t ^ 3 / 120) ^ 2 + (1 / 2 - t ^ 2 / 24) ^ 2); [field|]. unfold q in A. rewrite A. field. }
      clearbody q. nra.
    + assert (0 < w 1%nat ^ 2) by (rewrite <- Rsqr_pow2; now apply Rlt_0_sqr). lra.
    + assert (0 < w 0%nat ^ 2) by (rewrite <- Rsqr_pow2; now apply Rlt_0_sqr). lra.
Qed.

(** A pose two metres away, turned by one radian: the hypotheses of the theorems
    hold, for both directions. *)
Theorem C72_meets : forall d inv, inverts inv ->
  exists (k : SE2) P m L, valid (se2_meaning d) se2_init /\ valid (se2_meaning d) k
  /\ regular (se2_meaning d) (vec3 2 0 1) /\ regular (se2_meaning d) m
  /\ retract_gaussian (G := se2_class d) inv se2_init (vec3 2 0 1) eye = Some (k, P)
  /\ local_gaussian (G := se2_class d) se2_init (k, P) true = Some (m, L)
  /\ symmetric 3 P /\ allclose 3 P (transpose P) = true
  /\ k <> se2_init /\ same_mat 3 L eye /\ ~ same_mat 3 P eye.
Proof.
  intros d inv HI. pose proof (eps_pos d) as EP. pose proof (class_laws _ _ (MSE2 d)) as LW. pose proof PI2_1 as P1.
  assert (EB : se2_near_zero_eps d < 1) by (unfold se2_near_zero_eps; destruct d; lra).
  assert (R0 : regular (se2_meaning d) (vec3 2 0 1)).
  { unfold regular. cbn [angle threshold se2_meaning]. unfold vec3. cbn. rewrite Rabs_R1. split; [lra|right; exact EB]. }
  assert (V0 : valid (se2_meaning d) se2_init) by (cbn; ring).
  assert (SE : symmetric (dof (se2_class d)) eye) by (intros i j _ _; unfold eye; now rewrite Nat.eqb_sym).
  destruct (C72_retract _ _ inv (MSE2 d) HI se2_init (vec3 2 0 1) eye V0 SE (proj1 R0)) as (k & P & ER & EK & Vk & SP & PW).
  assert (LD : se2_local d se2_init k = Some (v3_of (vec3 2 0 1))).
  { cbn [retract se2_class] in EK. destruct (C34_retract_local d se2_init (v3_of (vec3 2 0 1)) k V0 EK) as (_ & X & _). apply X.
    unfold v3_of, vec3. cbn. rewrite Rabs_R1. lra. }
  destruct (C72_retract_local _ _ inv (MSE2 d) HI se2_init k (vec3 2 0 1) eye P V0 R0 ER) as (DF & BK).
  destruct (local_gaussian (G := se2_class d) se2_init (k, P) true) as [[m L]|] eqn:EL.
  2:{ exfalso. destruct DF as [DF _]. specialize (DF eq_refl). cbn [local se2_class] in DF. rewrite LD in DF. discriminate DF. }
  destruct (BK m L eq_refl) as (SM & SL). exists k, P, m, L.
  split; [exact V0|]. split; [exact Vk|]. split; [exact R0|]. split.
  { unfold regular in *. cbn [angle threshold se2_meaning] in *. rewrite (SM 2%nat) by (cbn; lia). exact R0. }
  split; [exact ER|]. split; [exact EL|]. split; [exact SP|]. split; [now apply allclose_symmetric|]. split; [|split; [exact SL|]].
  - intros ->. cbn [retract se2_class] in EK. unfold se2_retract in EK. rewrite exp_big in EK by (unfold v3_of, vec3; cbn; rewrite Rabs_R1; lra).
    cbv beta iota delta [bind] in EK. apply some_inj in EK. unfold v3_of, vec3 in EK. cbn [b0 b1 b2 nth] in EK.
    assert (Q : cos 1 = 1) by (apply (f_equal pc) in EK; cbn in EK; lra).
    assert (S1 : 0 < sin 1) by (apply sin_gt_0; lra). pose proof (sin2_cos2 1) as SC. unfold Rsqr in SC. nra.
  - intro SPE. (* then the Jacobian would preserve lengths *)
    destruct (local_inv (G := se2_class d) se2_init k P m L EL) as (_ & J & EJ & EQ). change (dof (se2_class d)) with 3%nat in *.
    assert (EJ2 : exp_map_jac (l := se2_class d) m = Some (of_m3 (Jexp (v3_of m)))).
    { cbn [exp_map_jac se2_class]. rewrite code_Jexp; [reflexivity|]. left. cbn [v3_of b2]. rewrite (SM 2%nat) by lia. unfold vec3. cbn. rewrite Rabs_R1. lra. }
    rewrite EJ in EJ2. apply some_inj in EJ2.
    assert (QQ : quad 3 L (vec3 1 0 0) = quad 3 P (matvec 3 J (vec3 1 0 0))) by (rewrite EQ; apply quad_conj).
    rewrite (quad_same 3 L eye (vec3 1 0 0) (vec3 1 0 0) SL (fun _ _ => eq_refl)) in QQ.
    rewrite (quad_same 3 P eye _ (matvec 3 J (vec3 1 0 0)) SPE (fun _ _ => eq_refl)) in QQ. rewrite !quad_eye3, EJ2 in QQ.
    assert (M2' : m 2%nat = 1) by (rewrite (SM 2%nat) by lia; reflexivity).
    unfold matvec, of_m3, Jexp, v3_of, vec3, sinc, cosc in QQ. cbn -[pow] in QQ. rewrite M2' in QQ.
    destruct (Req_EM_T 1 0) as [B|_]; [lra|]. rewrite !Rdiv_1 in QQ.
    pose proof (sin2_cos2 1) as SC. unfold Rsqr in SC.
    assert (C1 : cos 1 = 1 / 2) by nra.
    assert (LB : cos 1 > 1 / 2).
    { replace (1 / 2) with (cos (PI / 3)) by apply cos_PI3. apply cos_decreasing_1; try lra. pose proof PI2_3_2. lra. }
    lra.
Qed.
