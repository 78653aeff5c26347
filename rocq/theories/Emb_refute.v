(** MovingFrameBetween's Jacobians are not the derivatives of its error for
    SE2, SO3 and SE3, fast_approx_local_jacobians is not exact, and concrete
    cases meeting the hypotheses of the theorems of Emb_props. *)
From Coq Require Import Reals Lra Psatz List Arith Lia.
Import ListNotations.
From Verif Require Import Geo_spec Geo3_spec Geo4_spec RSum Trig Exp_unique SE2_model SE2_group SE2_exp SE2_jac SE2_curve
  SO3_model SO3_exp SO3_jexp SO3_group SO3_quat SO3_ops SO3_log SO3_jlog SE3_model SE3_group SE3_exp SE3_jexp SE3_log SE3_jlog SE3_local
  Emb_model Emb_spec Emb_laws Emb_props.
Local Open Scope R_scope.

(** sliding [p2] along its own x axis *)
Definition slide (p : SE2) (t : R) : SE2 := se2_compose p (mkSE2 t 0 1 0).
Lemma slide_vel : forall p, vel (slide p) p (mkV3 1 0 0).
Proof.
  intros [x y c s]. unfold vel, slide, se2_compose, se2_of, so2_compose, se2_rotation, add2, so2_rotate, se2_translation. cbn. split; [f_equal; cbn; ring|]. repeat split; dgo; ring.
Qed.
Lemma slide_valid : forall p t, se2_valid p -> se2_valid (slide p t).
Proof. intros [x y c s] t V. unfold se2_valid, slide in *. cbn in *.
  transitivity (c * c + s * s); [ring|exact V].
Qed.

Theorem C57_moving_frame_refuted_SE2 : forall d f1 f2 p1 p2 m th, let C := se2_calculus d in
  is_elt C f1 -> is_elt C f2 -> is_elt C p1 -> is_elt C p2 -> is_elt C m ->
  let f := @between (se2_group d) m (@between (se2_group d) (@between (se2_group d) f1 p1) (@between (se2_group d) f2 p2)) in
  pc f = cos th -> ps f = sin th -> se2_d_near_zero_eps d <= Rabs th < PI ->
  exists hp2 xi u r w J1 J2 J3 J4 e, 0 < r /\ curve C r hp2 p2 xi
    /\ (forall t, Rabs t < r -> @mfb_error (se2_group d) f1 f2 p1 (hp2 t) m = Some (u t))
    /\ @mfb_jacobians (se2_group d) f1 f2 p1 p2 m = Some ([J1; J2; J3; J4], e)
    /\ tderiv C u w /\ w <> japp C J4 xi.
Proof.
  intros d f1 f2 p1 p2 m th C A1 A2 A3 A4 A5 f PC PS T.
  pose proof (group_laws _ _ (TSE2 d)) as L.
  pose proof (l_between _ _ L _ _ A1 A3) as VB1. pose proof (l_between _ _ L _ _ A2 A4) as VB2.
  pose proof (l_between _ _ L _ _ VB1 VB2) as VB. pose proof (l_between _ _ L _ _ A5 VB : is_elt C f) as Vf.
  assert (TH : se2_theta f = th).
  { unfold se2_theta, so2_log_map, se2_rotation. cbn [co si]. rewrite PC, PS. apply atan2_angle.
    destruct T as [_ T]. apply Rabs_def2 in T. lra. }
  destruct (log_jac_big d f Vf ltac:(rewrite TH; exact T)) as (v & Lf & EJ).
  assert (K2 : curve C 1 (slide p2) p2 (mkV3 1 0 0)).
  { split; [apply se2_passes; apply slide_vel|]. intros t _. apply slide_valid. exact A4. }
  pose proof (curve_between_r C L 1 f2 _ _ _ A2 A4 K2) as KA.
  pose proof (curve_between_r C L 1 _ _ _ _ VB1 VB2 KA) as KB. cbv beta in KB.
  pose proof (curve_between_r C L 1 m _ _ _ A5 VB KB) as [KP KV]. cbv beta in KP, KV. fold f in KP.
  apply se2_passes in KP.
  destruct (se2_log_curve d f _ (mkV3 1 0 0) _ 1 Rlt_0_1 KV KP ltac:(left; rewrite TH; exact T) EJ) as (u & r & Hr & U & D).
  exists (slide p2), (mkV3 1 0 0), u, (Rmin 1 r).
  assert (HM : 0 < Rmin 1 r) by (apply Rmin_glb_lt; lra).
  destruct K2 as [KP2 KV2].
  assert (W : u 0 = v).
  { specialize (U 0 ltac:(rewrite Rabs_R0; exact Hr)). rewrite (proj1 KP), Lf in U. apply some_inj in U. auto. }
  eexists _, _, _, _, _, v.
  split; [exact HM|]. split.
  { split; [exact KP2|]. intros t Ht. apply KV2. eapply Rlt_le_trans; [exact Ht|apply Rmin_l]. }
  split.
  { intros t Ht. apply U. eapply Rlt_le_trans; [exact Ht|apply Rmin_r]. }
  split.
  { unfold mfb_jacobians. unfold between_jac. cbn [compose_jac se2_group se2_compose_jac].
    match goal with |- (do x <- ?q; _) = _ => change q with (se2_log_map d f) end. rewrite Lf. cbn [bind]. reflexivity. }
  split; [exact D|].
  cbn [japp C se2_calculus jmul se2_group]. rewrite app3_mul, !app3_I. intro K. apply (f_equal b1) in K.
  assert (B2 : b2 v = th).
  { rewrite log_big in Lf; [|exact Vf|rewrite TH; pose proof (deps_pos d); lra|].
    - apply some_inj in Lf. rewrite <- Lf. exact TH.
    - rewrite PS. apply sin_nonzero. pose proof (deps_pos d). pose proof (eps_pos d). lra. }
  unfold app3, Jlog_code in K. cbn in K. rewrite B2 in K.
  assert (th = 0) by lra. subst th. rewrite H, Rabs_R0 in T. pose proof (deps_pos d). pose proof (eps_pos d). lra.
Qed.

(** SO3: the other variables at the identity, the second pose turned about z *)
Theorem C57_moving_frame_refuted_SO3 : forall d th, so3_d_near_zero_eps d <= th < PI ->
  let C := so3_calculus d in
  exists hp2 xi u r w J1 J2 J3 J4 e, 0 < r /\ curve C r hp2 (AA th ez) xi
    /\ (forall t, Rabs t < r -> @mfb_error (so3_group d) I3 I3 I3 (hp2 t) I3 = Some (u t))
    /\ @mfb_jacobians (so3_group d) I3 I3 I3 (AA th ez) I3 = Some ([J1; J2; J3; J4], e)
    /\ tderiv C u w /\ w <> japp C J4 xi.
Proof.
  intros d th T C. pose proof (so3_deps_pos d) as DE. pose proof (so3_eps_pos d) as EP.
  pose proof ez_unit as A. set (ex := mkV3 1 0 0). assert (AX : dot3 ex ex = 1) by (unfold dot3, ex; c3; ring).
  assert (BI : forall g : M3, @between (so3_group d) I3 g = g).
  { intros []. apply M3_ext; cbn; ring. }
  assert (R0 : rotation3 (AA th ez)) by (apply AA_rotation; exact A).
  set (h := fun t => mul3 (AA th ez) (AA t ex)).
  assert (RH : forall t, rotation3 (h t)) by (intro t; apply rot_mul; [exact R0|apply AA_rotation; exact AX]).
  assert (CT : cos th < 1) by (rewrite <- cos_0; apply cos_decreasing_1; lra).
  assert (LD : forall t, Rabs t < 1 -> exists v, so3_log d (h t) = Some v).
  { intros t Ht. destruct (so3_log d (h t)) as [v|] eqn:E; [eauto|]. exfalso.
    apply (C36_log_defined d (h t) (RH t)) in E. destruct E as (_ & E1 & E2).
    unfold h, mul3, AA, matc, ez, ex in E1, E2. c3h E1. c3h E2.
    assert (P : 0 < cos t). { apply Rabs_def2 in Ht. pose proof PI2_1. apply cos_gt_0; lra. }
    nra. }
  set (u := fun t => match so3_log d (h t) with Some v => v | None => zero3 end).
  assert (U : forall t, Rabs t < 1 -> so3_log d (h t) = Some (u t)).
  { intros t Ht. unfold u. destruct (LD t Ht) as [v ->]. reflexivity. }
  assert (H0 : h 0 = AA th ez).
  { unfold h, AA, matc. rewrite cos_0, sin_0. apply M3_ext; unfold mul3; c3; ring. }
  assert (M : moves h (AA th ez) ex).
  { split; [exact H0|]. unfold h.
    assert (DC : deriv cos 0 0) by (eapply deriv_val; [|apply derivable_pt_lim_cos]; rewrite sin_0; ring).
    assert (DS : deriv sin 0 1) by (eapply deriv_val; [|apply derivable_pt_lim_sin]; apply cos_0).
    unfold AA, matc, deriv_m3, mul3, so3_alg, ex. c3.
    repeat split; dgo; rewrite ?sin_0, ?cos_0; ring. }
  assert (RA : rot_angle (AA th ez) th).
  { apply (rot_theta _ _ R0). symmetry. apply AA_theta; [lra|exact A]. }
  assert (L0 : so3_log d (AA th ez) = Some (u 0)) by (rewrite <- H0; apply U; rewrite Rabs_R0; lra).
  destruct (C36_log_jac_total d (AA th ez) _ th R0 RA ltac:(lra) L0) as [J EJ].
  exists h, ex, u, 1, (app3 J ex). eexists _, _, _, _, (u 0).
  split; [lra|]. split; [split; [exact M|intros; apply RH]|].
  split; [intros t Ht; unfold mfb_error, local; rewrite !BI; apply U; exact Ht|].
  split.
  { unfold mfb_jacobians, local, between_jac. rewrite !BI. cbn [log_map so3_group]. rewrite L0. cbn [bind compose_jac so3_compose_jac_theseus]. reflexivity. }
  split; [apply (C36_log_jac d (AA th ez) J h ex u 1 th); try assumption; [lra|intros; apply RH]|].
  cbn [japp C so3_calculus jmul so3_group]. rewrite app3_mul, !app3_I.
  destruct (jlog_AA d th ez J ltac:(lra) A EJ) as (p & q & EC & ->).
  destruct (Rlt_dec th (so3_near_zero_eps d)); [lra|].
  intro K. apply (f_equal b1) in K. unfold app3, so3_jlog_mat, scal3, ez, ex in K. c3h K. lra.
Qed.

(** SE3: likewise, the second pose sliding *)
Theorem C57_moving_frame_refuted_SE3 : forall d th, so3_d_near_zero_eps d <= th < PI ->
  let C := se3_calculus d in let one := mkRig I3 zero3 in let p2 := mkRig (AA th ez) zero3 in
  exists hp2 xi u r w J1 J2 J3 J4 e, 0 < r /\ curve C r hp2 p2 xi
    /\ (forall t, Rabs t < r -> @mfb_error (se3_group d) one one one (hp2 t) one = Some (u t))
    /\ @mfb_jacobians (se3_group d) one one one p2 one = Some ([J1; J2; J3; J4], e)
    /\ tderiv C u w /\ w <> japp C J4 xi.
Proof.
  intros d th T C one p2. pose proof (so3_deps_pos d) as DE. pose proof (so3_eps_pos d) as EP.
  pose proof ez_unit as A. set (ex := mkV3 1 0 0).
  assert (BI : forall g : Rig, @between (se3_group d) one g = g).
  { intros [[] []]. unfold between, one. cbn [compose inverse se3_group]. unfold se3_compose, se3_inverse. cbn [rr rp].
    f_equal; [apply M3_ext; cbn; ring|apply V3_ext; cbn; ring]. }
  assert (R0 : rotation3 (AA th ez)) by (apply AA_rotation; exact A).
  set (h := fun t => mkRig (AA th ez) (app3 (AA th ez) (scal3 t ex))).
  assert (RH : forall t, rigid3 (h t)) by (intro t; exact R0).
  assert (CT : cos th < 1) by (rewrite <- cos_0; apply cos_decreasing_1; lra).
  assert (LD : forall t, exists v, se3_log d (h t) = Some v).
  { intros t. destruct (se3_log d (h t)) as [v|] eqn:E; [eauto|]. exfalso.
    apply (C37_log_defined d (h t) (RH t)) in E. destruct E as (_ & _ & E2).
    unfold h, AA, matc, ez in E2. cbn [rr] in E2. c3h E2. nra. }
  set (u := fun t => match se3_log d (h t) with Some v => v | None => tzero end).
  assert (U : forall t, Rabs t < 1 -> se3_log d (h t) = Some (u t)).
  { intros t Ht. unfold u. destruct (LD t) as [v ->]. reflexivity. }
  assert (H0 : h 0 = p2).
  { unfold h, p2. f_equal. generalize (AA th ez). intros []. apply V3_ext; cbn; ring. }
  set (xi := mkTw ex zero3).
  assert (M : moves6 h p2 xi).
  { apply moves6_iff. split; [exact H0|]. unfold h, p2, xi. cbn [rr rp lin ang]. generalize (AA th ez). intros [].
    split; repeat split; cbn; dgo; ring. }
  assert (RA : rot_angle (rr p2) th).
  { apply (rot_theta _ _ R0). symmetry. apply AA_theta; [lra|exact A]. }
  assert (L0 : se3_log d p2 = Some (u 0)) by (rewrite <- H0; apply U; rewrite Rabs_R0; lra).
  destruct (C37_log_jac_total d p2 _ th R0 RA ltac:(lra) L0) as [J EJ].
  exists h, xi, u, 1, (app66 J xi). eexists _, _, _, _, (u 0).
  split; [lra|]. split; [split; [exact M|intros; apply RH]|].
  split; [intros t Ht; unfold mfb_error, local; rewrite !BI; apply U; exact Ht|].
  split.
  { unfold mfb_jacobians, local, between_jac. rewrite !BI. cbn [log_map se3_group]. rewrite L0. cbn [bind compose_jac se3_compose_jac_theseus]. reflexivity. }
  split; [apply (C37_log_jac d p2 J h xi u 1 th); try assumption; [lra|intros; apply RH]|].
  cbn [japp C se3_calculus jmul se3_group]. rewrite app66_mul, !app66_I.
  destruct (jlog6_form d p2 J th R0 RA ltac:(lra) EJ) as (x0 & a & b & c & dd & L & EA & EC & ->).
  assert (W0 : ang x0 = scal3 th ez).
  { pose proof (rig_log_ang d p2 _ L) as K. cbn [rr p2] in K.
    assert (K' : so3_log d (AA th ez) = Some (scal3 th ez)).
    { destruct (Rle_dec (1 + cos th) (so3_near_pi_eps d)) as [P|P].
      - destruct (log_pi d th ez ltac:(lra) A P) as [[_ N]|[[_ N]|[_ [N _]]]]; [congruence|exact N|lra].
      - apply log_mid; try assumption; lra. }
    congruence. }
  intro K. apply (f_equal (fun v => b1 (lin v))) in K. unfold app66, xi in K. cbn [lin ang mll mla] in K.
  rewrite W0 in K. unfold app3, add3, matc, scal3, ez, ex, zero3 in K. c3h K. lra.
Qed.

(** a pose turned by one radian, sliding: cases of all the theorems *)
Definition turned : SE2 := mkSE2 2 3 (cos 1) (sin 1).
Definition unit_pose : SE2 := mkSE2 0 0 1 0.
Lemma turned_valid : se2_valid turned.
Proof. unfold se2_valid, turned. cbn. pose proof (sin2cos2 1). lra. Qed.
Lemma between_unit : forall d g, @between (se2_group d) unit_pose g = g.
Proof.
  intros d [x y c s]. unfold between, unit_pose. cbn [compose inverse se2_group].
  unfold se2_compose, se2_inverse, se2_of, so2_compose, se2_rotation, add2, so2_rotate, se2_translation, so2_inverse. cbn.
  f_equal; ring.
Qed.
Lemma one_range : forall d, se2_d_near_zero_eps d <= Rabs 1 < PI.
Proof. intro d. rewrite Rabs_pos_eq by lra. pose proof (deps_pos d). pose proof PI2_1. lra. Qed.
Lemma turned_regular : forall d, regular (se2_calculus d) turned.
Proof. intro d. exists 1. split; [reflexivity|]. split; [reflexivity|]. left. apply one_range. Qed.
Lemma turned_case : forall d, exists u r J v, 0 < r
  /\ curve (se2_calculus d) r (slide turned) turned (mkV3 1 0 0)
  /\ curve (se2_calculus d) r (fun _ => unit_pose) unit_pose (mkV3 0 0 0)
  /\ (forall t, Rabs t < r -> se2_log_map d (slide turned t) = Some (u t))
  /\ se2_log_map d turned = Some v /\ se2_log_map_jac d turned = Some J
  /\ deriv3 u 0 (app3 J (mkV3 1 0 0)) /\ app3 J (mkV3 1 0 0) <> mkV3 1 0 0.
Proof.
  intro d. pose proof turned_valid as V. pose proof (one_range d) as T.
  assert (TH : se2_theta turned = 1).
  { unfold se2_theta, so2_log_map, se2_rotation. cbn [co si turned pc ps]. apply atan2_angle. pose proof PI2_1. lra. }
  destruct (log_jac_big d turned V ltac:(rewrite TH; exact T)) as (v & Lf & EJ).
  destruct (se2_log_curve d turned _ (mkV3 1 0 0) (slide turned) 1 Rlt_0_1 ltac:(intros; apply slide_valid, V) (slide_vel turned)
    ltac:(left; rewrite TH; exact T) EJ) as (u & r & Hr & U & D).
  exists u, r. eexists _, v. split; [exact Hr|].
  split; [split; [apply se2_passes, slide_vel|intros; apply slide_valid, V]|].
  split; [split; [|intros; unfold unit_pose; cbn; ring]|].
  { apply se2_passes. unfold vel, unit_pose. cbn. split; [reflexivity|]. repeat split; (eapply deriv_val; [|apply d_const]); ring. }
  split; [exact U|]. split; [exact Lf|]. split; [exact EJ|]. split; [exact D|].
  intro K. apply (f_equal b1) in K.
  assert (B2 : b2 v = 1).
  { rewrite log_big in Lf; [|exact V|rewrite TH; pose proof (deps_pos d); lra|].
    - apply some_inj in Lf. rewrite <- Lf. exact TH.
    - cbn. apply sin_nonzero. pose proof (deps_pos d). pose proof (eps_pos d). lra. }
  unfold app3, Jlog_code in K. cbn in K. rewrite B2 in K. lra.
Qed.

Theorem C57_local_fast_refuted : forall d, let C := se2_calculus d in
  exists v target h xi u r J e w, 0 < r /\ is_elt C v /\ is_elt C target /\ curve C r h v xi
    /\ (forall t, Rabs t < r -> @local_error (se2_group d) (h t) target = Some (u t))
    /\ @local_jacobians (se2_group d) true v target = Some ([J], e)
    /\ tderiv C u w /\ w <> japp C J xi.
Proof.
  intros d C. destruct (turned_case d) as (u & r & J & v & Hr & K & K0 & U & L & EJ & D & N).
  exists turned, unit_pose, (slide turned), (mkV3 1 0 0), u, r. eexists _, v, _.
  split; [exact Hr|]. split; [exact turned_valid|]. split; [cbn; ring|]. split; [exact K|].
  split; [intros t Ht; unfold local_error, local; rewrite between_unit; apply U; exact Ht|].
  split; [unfold local_jacobians, local; rewrite between_unit; cbn [log_map se2_group]; rewrite L; reflexivity|].
  split; [exact D|]. cbn [japp C se2_calculus jeye se2_group]. rewrite app3_I. exact N.
Qed.

(** all the hypotheses of C57_between_jac, C57_local_jac, C57_moving_frame_jac_partial
    and C58_double_integrator_jac hold of the sliding pose *)
Example C57_C58_case : forall d, let G := se2_group d in let C := se2_calculus d in
  exists u r Js1 Js2 Js3 Js4 J e xi, 0 < r /\ is_elt C turned /\ is_elt C unit_pose
  /\ curve C r (slide turned) turned xi /\ curve C r (fun _ => unit_pose) unit_pose (mkV3 0 0 0) /\ xi <> mkV3 0 0 0
  /\ regular C (@between G unit_pose (@between G unit_pose turned)) /\ regular C (@between G unit_pose turned)
  /\ @between_jacobians G unit_pose turned unit_pose = Some (Js1, e)
  /\ @local_jacobians G false turned unit_pose = Some (Js2, e)
  /\ @mfb_jacobians G unit_pose unit_pose unit_pose turned unit_pose = Some (Js3, e)
  /\ log_map_jac (@between G unit_pose (@between G (@between G unit_pose unit_pose) (@between G unit_pose turned))) = Some J
  /\ @di_jacobians G (1/2) unit_pose (mkV3 1 1 1) turned (mkV3 2 2 2) = Some (Js4, (sub3 e (scal3 (1/2) (mkV3 1 1 1)), sub3 (mkV3 2 2 2) (mkV3 1 1 1)))
  /\ (forall t, Rabs t < r -> @between_error G unit_pose (slide turned t) unit_pose = Some (u t)
        /\ @local_error G (slide turned t) unit_pose = Some (u t)
        /\ @mfb_error G unit_pose unit_pose unit_pose (slide turned t) unit_pose = Some (u t)
        /\ @di_error G (1/2) unit_pose (mkV3 1 1 1) (slide turned t) (mkV3 2 2 2)
           = Some (sub3 (u t) (scal3 (1/2) (mkV3 1 1 1)), sub3 (mkV3 2 2 2) (mkV3 1 1 1))).
Proof.
  intros d G C. destruct (turned_case d) as (u & r & J & v & Hr & K & K0 & U & L & EJ & D & N).
  exists u, r. eexists _, _, _, _, J, v, (mkV3 1 0 0).
  split; [exact Hr|]. split; [exact turned_valid|]. split; [cbn; ring|]. split; [exact K|]. split; [exact K0|].
  split; [intro Z; apply (f_equal b0) in Z; cbn in Z; lra|].
  unfold G in *. rewrite !between_unit. split; [apply turned_regular|]. split; [apply turned_regular|].
  unfold between_jacobians, local_jacobians, mfb_jacobians, di_jacobians, between_error, local_error, mfb_error, di_error, local, local_jac.
  change (@compose (se2_group d) (@inverse (se2_group d) unit_pose)) with (@between (se2_group d) unit_pose).
  rewrite !between_unit. cbn [log_map log_map_jac se2_group] in *. rewrite L, EJ. cbn [bind].
  split; [reflexivity|]. split; [reflexivity|].
  split; [unfold between_jac; cbn [compose_jac se2_group se2_compose_jac]; reflexivity|].
  split; [reflexivity|]. split; [reflexivity|].
  intros t Ht. rewrite !between_unit, (U t Ht). cbn [bind]. repeat split.
Qed.
