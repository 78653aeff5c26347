(** C37: the Jacobian of SE3.log, its backward pass, and local. *)
From Coq Require Import Reals Lra Psatz.
From Coquelicot Require Import Coquelicot.
From Verif Require Import Geo_spec Geo3_spec Geo4_spec Trig Exp_unique SE2_model SE2_group SE2_exp SE2_jac
  SO3_model SO3_exp SO3_jexp SO3_group SO3_quat SO3_ops SO3_log SO3_jlog SE3_model SE3_group SE3_exp SE3_jexp SE3_log.
Local Open Scope R_scope.

(** the identity behind the Jacobian of log: V l = p, and w moves with dw *)
Lemma jlog_key : forall w l xi o s q, o <> 0 -> q <> 0 -> dot3 w w = q -> s ^ 2 = 2 * o - o ^ 2 * q ->
  let m := (1 - s) / q in let a := s / (2 * o) in let b := (1 - a) / q in
  let d := - m / (2 * o) in let c := - (d + 2 * b) / q in
  let p := app3 (matc s o m w) l in
  let dw := app3 (matc a (1 / 2) b w) xi in
  let e := dot3 w l in let x := dot3 w xi in
  add3 (add3 (scal3 (d * x) p) (scal3 (- 1 / 2) (cross dw p)))
       (add3 (scal3 (c * x * e + b * dot3 dw p) w) (scal3 (b * e) dw))
  = add3 (add3 (scal3 (c * e * x + b * dot3 l xi) w) (scal3 (b * x) l))
         (add3 (scal3 (e * d) xi) (scal3 (1 / 2) (cross l xi))).
Proof.
  intros [w1 w2 w3] [l1 l2 l3] [x1 x2 x3] o s q O Q W S. unfold dot3 in *. c3h W. cbv zeta.
  assert (X : w1 ^ 2 = q - w2 ^ 2 - w3 ^ 2) by (rewrite <- W; ring). clear W.
  unfold app3, matc, cross, add3, scal3. c3.
  apply V3_ext; c3; (field_simplify_eq; [ring [X S]|split; assumption]).
Qed.
Lemma jlog_mat_matc : forall v a b, so3_jlog_mat v a b = matc a (1 / 2) b v.
Proof. intros [x y z] a b. unfold so3_jlog_mat, matc, scal3. apply M3_ext; c3; ring. Qed.
Lemma jlog_la_app : forall l w b c dd xi, app3 (se3_jlog_la l w b c dd) xi
  = add3 (add3 (scal3 (c * dot3 w l * dot3 w xi + b * dot3 l xi) w) (scal3 (b * dot3 w xi) l))
         (add3 (scal3 (dot3 w l * dd) xi) (scal3 (1 / 2) (cross l xi))).
Proof.
  intros [l1 l2 l3] [w1 w2 w3] b c dd [x1 x2 x3].
  apply V3_ext; cbv beta iota zeta delta [se3_jlog_la dot_ dot3 cross scal3 add3 outer plus_m3 add_diag app3
    b0 b1 b2 d00 d01 d02 d10 d11 d12 d20 d21 d22]; field.
Qed.
(** derivatives *)
Lemma deriv_norm_curve : forall w dw, deriv3 w 0 dw -> norm3 (w 0) <> 0 ->
  deriv (fun t => norm3 (w t)) 0 (dot3 (w 0) dw / norm3 (w 0)).
Proof.
  intros w dw (D0 & D1 & D2) N. pose proof (norm3_pos (w 0)) as P. pose proof (norm3_sq (w 0)) as Q.
  assert (D : 0 < dot3 (w 0) (w 0)) by nra.
  eapply deriv_val; [|apply (d_comp sqrt (fun t => dot3 (w t) (w t)))].
  2: unfold dot3; apply deriv_dot3; eassumption.
  2: apply derivable_pt_lim_sqrt; exact D.
  cbv beta. change (sqrt (dot3 (w 0) (w 0))) with (norm3 (w 0)). unfold dot3. field. exact N.
Qed.
Lemma deriv_matc_app : forall c k o w p c' o' dw dp,
  deriv c 0 c' -> deriv o 0 o' -> deriv3 w 0 dw -> deriv3 p 0 dp ->
  deriv3 (fun t => app3 (matc (c t) k (o t) (w t)) (p t)) 0
   (add3 (app3 (matc (c 0) k (o 0) (w 0)) dp)
     (add3 (add3 (scal3 c' (p 0)) (scal3 k (cross dw (p 0))))
       (add3 (scal3 (o' * dot3 (w 0) (p 0) + o 0 * dot3 dw (p 0)) (w 0)) (scal3 (o 0 * dot3 (w 0) (p 0)) dw)))).
Proof.
  intros c k o w p c' o' dw dp DC DO (W0 & W1 & W2) (P0 & P1 & P2).
  unfold deriv3, app3, matc, add3, scal3, cross, dot3. c3.
  repeat split; (eapply deriv_val; [|repeat dstep]); cbv beta; ring.
Qed.
Definition ld (th : R) : R := - (1 - sin th / th) / (2 * (1 - cos th)).
Definition lc (th : R) : R := - (ld th + 2 * lb th) / (th * th).
Lemma deriv_la : forall th, th <> 0 -> cos th <> 1 -> deriv la th (ld th * th).
Proof.
  intros th N C. unfold la, ld. apply is_derive_Reals. auto_derive; [lra|].
  pose proof (sin2cos2 th) as Q. assert (Q2 : sin th ^ 2 = 1 - cos th ^ 2) by (rewrite <- Q; ring).
  set (s := sin th) in *. set (c := cos th) in *. clearbody s c.
  field_simplify_eq; [|split; (exact N || lra)]. ring [Q2].
Qed.
Lemma deriv_lb : forall th, th <> 0 -> cos th <> 1 -> deriv lb th (lc th * th).
Proof.
  intros th N C. assert (NN : th * th <> 0) by (apply Rmult_integral_contrapositive_currified; exact N).
  unfold lb, lc, ld, lb, la. apply is_derive_Reals. auto_derive; [repeat split; try exact NN; lra|].
  pose proof (sin2cos2 th) as Q. assert (Q2 : sin th ^ 2 = 1 - cos th ^ 2) by (rewrite <- Q; ring).
  set (s := sin th) in *. set (c := cos th) in *. clearbody s c.
  field_simplify_eq; [|split; (exact N || lra)]. ring [Q2].
Qed.

(** the exact Jacobian of log *)
Definition jlog_true (th : R) (xi0 : Tw) : M66 :=
  mkM66 (matc (la th) (1 / 2) (lb th) (ang xi0))
        (se3_jlog_la (lin xi0) (ang xi0) (lb th) (lc th) (ld th)) mzero
        (matc (la th) (1 / 2) (lb th) (ang xi0)).
Lemma rig_log_ang : forall d g xi, se3_log d g = Some xi -> so3_log d (rr g) = Some (ang xi).
Proof.
  intros d g xi L. unfold se3_log in L. destruct (so3_log d (rr g)) as [w|]; [|discriminate].
  cbv beta iota delta [bind] in L. destruct (se3_log_coefs _ _ _ _); [|discriminate].
  apply some_inj in L. subst xi. reflexivity.
Qed.
Lemma rig_log_lin : forall d g xi, rigid3 g -> se3_log d g = Some xi -> so3_near_zero_eps d <= norm3 (ang xi) ->
  norm3 (ang xi) <= PI /\ E3 (ang xi) = rr g /\ so3_theta (rr g) = norm3 (ang xi) /\
  lin xi = app3 (matc (la (norm3 (ang xi))) (- 1 / 2) (lb (norm3 (ang xi))) (ang xi)) (rp g).
Proof.
  intros d g xi H L B. pose proof (rig_log_ang d g xi L) as LA.
  destruct (log_form d (rr g) _ H LA) as (th & T & Tt & TS & TC & F).
  destruct F as [[S N]|[S [N E]]].
  { exfalso. destruct (asin_series th (proj1 T)) as [A1 _]. rewrite <- N in A1. lra. }
  unfold se3_log in L. rewrite LA, Tt, TS, TC in L. cbv beta iota delta [bind] in L.
  rewrite log_coefs_big in L by lra. cbn [fst snd] in L. apply some_inj in L.
  rewrite N. split; [lra|]. split; [exact E|]. split; [exact Tt|].
  rewrite <- log_lin_app. rewrite <- L. cbn [lin ang]. reflexivity.
Qed.
Lemma la_alt : forall th, 0 < th < PI -> th * (1 + cos th) / (2 * sin th) = la th.
Proof.
  intros th T. unfold la. assert (SN : 0 < sin th) by (apply sin_gt_0; lra).
  pose proof (cos_lt1 th ltac:(lra)) as C. pose proof (sin2cos2 th) as Q.
  assert (Q2 : sin th ^ 2 = 1 - cos th ^ 2) by (rewrite <- Q; ring).
  set (s := sin th) in *. set (c := cos th) in *. clearbody s c.
  field_simplify_eq; [|split; lra]. ring [Q2].
Qed.
Lemma inv_rot : forall w, norm3 w <> 0 -> cos (norm3 w) <> 1 ->
  mul3 (matc (la (norm3 w)) (- 1 / 2) (lb (norm3 w)) w) (E3 w) = matc (la (norm3 w)) (1 / 2) (lb (norm3 w)) w.
Proof.
  intros w N C. unfold E3. destruct (Req_EM_T (norm3 w) 0) as [Z|_]; [contradiction|].
  rewrite matc_matc, <- norm3_sq2. unfold lb, la. pose proof (sin2cos2 (norm3 w)) as Q.
  set (t := norm3 w) in *. clearbody t. set (s := sin t) in *. set (c := cos t) in *. clearbody s c.
  assert (Q2 : s ^ 2 = 1 - c ^ 2) by lra. assert (C' : 1 - c <> 0) by lra.
  apply (f_equal3 (fun x y z => matc x y z w));
    field_simplify_eq; try (repeat split; assumption); ring [Q2].
Qed.

(** the derivative of log along a curve of rigid motions *)
Lemma log_velocity6 : forall d h g xi u r th, 0 < r ->
  (forall t, Rabs t < r -> rigid3 (h t)) -> moves6 h g xi ->
  rot_angle (rr g) th -> so3_near_zero_eps d < th < PI ->
  (forall t, Rabs t < r -> se3_log d (h t) = Some (u t)) ->
  deriv6 u 0 (app66 (jlog_true th (u 0)) xi).
Proof.
  intros d h g xi u r th Hr RH M RA T U. pose proof (so3_eps_pos d) as EP.
  apply moves6_iff in M. destruct M as (H0 & DR & DP).
  assert (Z0 : Rabs 0 < r) by (rewrite Rabs_R0; exact Hr).
  assert (Hg : rigid3 g) by (rewrite <- H0; apply RH; exact Z0).
  pose proof (U 0 Z0) as U0. rewrite H0 in U0.
  set (w := fun t => ang (u t)).
  assert (LW : forall t, Rabs t < r -> so3_log d (rr (h t)) = Some (w t)).
  { intros t Ht. apply rig_log_ang. apply U. exact Ht. }
  pose proof (proj1 (rot_theta (rr g) th Hg) RA) as TH.
  (* the angular part *)
  assert (DW : deriv3 w 0 (app3 (matc (la th) (1 / 2) (lb th) (w 0)) (ang xi))).
  { destruct (axis_angle (rr g) Hg) as (th' & a & T' & A & E & _).
    assert (th' = th) by (rewrite E, AA_theta in TH by assumption; congruence). subst th'.
    assert (W0 : w 0 = scal3 th a).
    { pose proof (LW 0 Z0) as L0. rewrite H0, E in L0.
      destruct (Rle_dec (1 + cos th) (so3_near_pi_eps d)) as [P|P].
      - destruct (log_pi d th a T' A P) as [[_ K]|[[_ K]|[_ [TP K]]]]; [congruence|congruence|lra].
      - rewrite log_mid in L0 by (try assumption; lra). congruence. }
    rewrite W0, <- jlog_mat_matc, jlog_mat_app by exact A.
    eapply deriv3_val; [|apply (log_velocity_mid d (fun t => rr (h t)) th a (ang xi) w r); try assumption].
    2: split; [rewrite H0; exact E|rewrite <- E; exact DR].
    unfold jl_true. rewrite la_alt by lra. unfold lb.
    apply V3_ext; unfold add3, scal3; c3; field; lra. }
  (* its length *)
  assert (N0 : norm3 (w 0) = th).
  { destruct (log_form d (rr g) (w 0) Hg) as (t' & T' & Tt & _ & _ & F); [rewrite <- H0; apply LW; exact Z0|].
    destruct F as [[S _]|[S [N _]]]; [lra|congruence]. }
  pose proof (deriv_norm_curve w _ DW ltac:(lra)) as DN. rewrite N0 in DN.
  pose proof (cos_lt1 th ltac:(lra)) as CT.
  destruct (rig_log_lin d g (u 0) Hg U0 ltac:(fold (w 0); rewrite N0; lra)) as (_ & E0 & _ & L0).
  fold (w 0) in E0, L0. rewrite N0 in L0.
  assert (DWE : dot3 (w 0) (app3 (matc (la th) (1 / 2) (lb th) (w 0)) (ang xi)) = dot3 (w 0) (ang xi)).
  { pose proof (norm3_sq (w 0)) as Q. rewrite N0 in Q. unfold lb.
    replace (dot3 _ _) with ((la th + (1 - la th) / (th * th) * dot3 (w 0) (w 0)) * dot3 (w 0) (ang xi))
      by (rewrite matc_app; unfold dot3, add3, scal3, cross; c3; ring).
    rewrite <- Q. field. lra. }
  rewrite DWE in DN.
  split.
  2:{ unfold jlog_true, app66. cbn [lin ang mal maa]. rewrite app3_zero_m, add3_0_l. exact DW. }
  (* the linear part, near 0 *)
  destruct (deriv_cont _ _ _ DN (th - so3_near_zero_eps d) ltac:(lra)) as (r' & Hr' & K).
  apply (deriv3_ext_loc (fun t => app3 (matc (la (norm3 (w t))) (- 1 / 2) (lb (norm3 (w t))) (w t)) (rp (h t)))
           _ 0 _ (Rmin r r')).
  { apply Rmin_glb_lt; assumption. }
  { intros t Ht. rewrite Rminus_0_r in Ht.
    assert (Hr1 : Rabs t < r) by (eapply Rlt_le_trans; [exact Ht|apply Rmin_l]).
    assert (Hr2 : Rabs (t - 0) < r') by (rewrite Rminus_0_r; eapply Rlt_le_trans; [exact Ht|apply Rmin_r]).
    specialize (K t Hr2). rewrite N0 in K. apply Rabs_def2 in K.
    symmetry. apply (rig_log_lin d (h t) (u t) (RH t Hr1) (U t Hr1)). fold (w t). lra. }
  assert (DLA : deriv (fun t => la (norm3 (w t))) 0 (ld th * dot3 (w 0) (ang xi))).
  { eapply deriv_val; [|eapply (d_comp la (fun t => norm3 (w t))); [exact DN|rewrite N0; apply deriv_la; lra]].
    field. lra. }
  assert (DLB : deriv (fun t => lb (norm3 (w t))) 0 (lc th * dot3 (w 0) (ang xi))).
  { eapply deriv_val; [|eapply (d_comp lb (fun t => norm3 (w t))); [exact DN|rewrite N0; apply deriv_lb; lra]].
    field. lra. }
  eapply deriv3_val; [|apply (deriv_matc_app _ (- 1 / 2) _ w (fun t => rp (h t)) _ _ _ _ DLA DLB DW DP)].
  cbv beta. rewrite N0, H0. unfold jlog_true, app66. cbn [lin mll mla].
  fold (w 0). f_equal.
  { rewrite <- app3_mul, <- E0. f_equal. pose proof (inv_rot (w 0)) as IR. rewrite N0 in IR. apply IR; lra. }
  rewrite jlog_la_app.
  (* p = V l *)
  pose proof (norm3_sq2 (w 0)) as Q. rewrite N0 in Q.
  pose proof (V_inv (w 0) ltac:(lra) ltac:(rewrite N0; lra)) as [VI _]. rewrite N0 in VI.
  assert (PV : rp g = app3 (Vcur (w 0) 1) (lin (u 0))).
  { rewrite L0, <- app3_mul, VI, app3_I. reflexivity. }
  unfold Vcur in PV. destruct (Req_EM_T (norm3 (w 0)) 0); [lra|]. rewrite N0, Rmult_1_r in PV.
  pose proof (sin2cos2 th) as SC.
  pose proof (jlog_key (w 0) (lin (u 0)) (ang xi) ((1 - cos th) / th ^ 2) (sin th / th) (th ^ 2)) as KEY.
  cbv zeta in KEY.
  assert (NT : th <> 0) by lra.
  assert (K1 : (1 - sin th / th) / th ^ 2 = (th - sin th) / th ^ 3) by (field; exact NT).
  assert (K2 : sin th / th / (2 * ((1 - cos th) / th ^ 2)) = la th) by (unfold la; field; lra).
  rewrite K1, K2 in KEY. rewrite <- PV in KEY.
  replace (- ((th - sin th) / th ^ 3) / (2 * ((1 - cos th) / th ^ 2))) with (ld th) in KEY by (unfold ld; field; lra).
  replace ((1 - la th) / th ^ 2) with (lb th) in KEY by (unfold lb; field; lra).
  replace (- (ld th + 2 * lb th) / th ^ 2) with (lc th) in KEY by (unfold lc; field; lra).
  rewrite <- KEY.
  - assert (WP : dot3 (w 0) (rp g) = dot3 (w 0) (lin (u 0))).
    { rewrite PV. replace (dot3 _ _) with ((sin th / th + (th - sin th) / th ^ 3 * dot3 (w 0) (w 0)) * dot3 (w 0) (lin (u 0)))
        by (rewrite matc_app; unfold dot3, add3, scal3, cross; c3; ring).
      rewrite <- Q. field. exact NT. }
    rewrite WP. reflexivity.
  - apply Rmult_integral_contrapositive_currified; [lra|]. apply Rinv_neq_0_compat, pow_nonzero. exact NT.
  - apply pow_nonzero. exact NT.
  - symmetry. exact Q.
  - assert (Q2 : sin th ^ 2 = 1 - cos th ^ 2) by (rewrite <- SC; ring). field_simplify_eq; [|exact NT]. ring [Q2].
Qed.

(** the code's coefficients *)
Lemma jlog_coefs6_big : forall d th, so3_d_near_zero_eps d <= th < PI ->
  se3_jlog_coefs d th (sin th) (cos th) = Some (lc th, ld th).
Proof.
  intros d th [T P]. pose proof (so3_deps_pos d). pose proof (so3_eps_pos d).
  pose proof (cos_lt1 th ltac:(lra)) as C.
  unfold se3_jlog_coefs. rewrite !lt_b_false by lra. unfold where_.
  assert (N1 : 2 * cos th - 2 <> 0) by lra. assert (N2 : th ^ 2 <> 0) by (apply pow_nonzero; lra).
  rewrite div_some by (apply Rmult_integral_contrapositive_currified; [apply pow_nonzero|]; assumption).
  cbv beta iota delta [bind].
  rewrite div_some by (apply Rmult_integral_contrapositive_currified; [lra|assumption]). cbv beta iota delta [bind].
  apply f_equal. unfold lc, ld, lb, la. apply f_equal2; field; repeat split; lra.
Qed.
Lemma jlog_coefs6_small : forall d th, 0 <= th < so3_d_near_zero_eps d -> th < PI ->
  se3_jlog_coefs d th (sin th) (cos th) = Some (- 1 / 360 - th ^ 2 / 7560, - 1 / 6 - th ^ 2 / 180).
Proof.
  intros d th T P. pose proof (so3_deps_pos d). pose proof (so3_eps_pos d).
  unfold se3_jlog_coefs. rewrite (lt_b_true th (so3_d_near_zero_eps d)) by lra.
  destruct (Rlt_dec th (so3_near_zero_eps d)) as [S|S].
  - rewrite (lt_b_true th (so3_near_zero_eps d)) by exact S. unfold where_, NON_ZERO.
    rewrite !div_some by (try apply Rmult_integral_contrapositive_currified; try apply pow_nonzero; lra). reflexivity.
  - rewrite (lt_b_false th (so3_near_zero_eps d)) by lra. unfold where_, NON_ZERO.
    pose proof (cos_lt1 th ltac:(lra)) as C.
    assert (N1 : 2 * cos th - 2 <> 0) by lra. assert (N2 : th ^ 2 <> 0) by (apply pow_nonzero; lra).
    rewrite !div_some; [reflexivity| |]; apply Rmult_integral_contrapositive_currified; try apply pow_nonzero; try assumption; lra.
Qed.
Lemma jlog6_form : forall d g J th, rigid3 g -> rot_angle (rr g) th -> th < PI -> se3_jlog d g = Some J ->
  exists xi a b c dd, se3_log d g = Some xi
   /\ so3_jlog_coefs d th (sin th) (cos th) = Some (a, b)
   /\ se3_jlog_coefs d th (sin th) (cos th) = Some (c, dd)
   /\ J = mkM66 (matc a (1 / 2) b (ang xi)) (se3_jlog_la (lin xi) (ang xi) b c dd) mzero (matc a (1 / 2) b (ang xi)).
Proof.
  intros d g J th Hg RA TP EJ. pose proof (proj1 (rot_theta (rr g) th Hg) RA) as TH.
  unfold se3_jlog in EJ. destruct (se3_log d g) as [xi|] eqn:L; [|discriminate].
  cbv beta iota delta [bind] in EJ.
  destruct (log_form d (rr g) _ Hg (rig_log_ang d g xi L)) as (t' & T & Tt & TS & TC & _).
  assert (TE : t' = th) by congruence. rewrite TE in *. rewrite Tt, TS, TC in EJ.
  destruct (so3_jlog_coefs d th (sin th) (cos th)) as [[a b]|]; [|discriminate].
  destruct (se3_jlog_coefs d th (sin th) (cos th)) as [[c dd]|]; [|discriminate].
  cbn [fst snd] in EJ. apply some_inj in EJ. subst J. exists xi, a, b, c, dd. rewrite jlog_mat_matc. auto.
Qed.

(** for angles from d_eps up to half a turn the Jacobian is the derivative of
    log along every curve of rigid motions *)
Theorem C37_log_jac : forall d g J h xi u r th, 0 < r ->
  (forall t, Rabs t < r -> rigid3 (h t)) -> moves6 h g xi ->
  rot_angle (rr g) th -> so3_d_near_zero_eps d <= th < PI -> se3_jlog d g = Some J ->
  (forall t, Rabs t < r -> se3_log d (h t) = Some (u t)) ->
  deriv6 u 0 (app66 J xi).
Proof.
  intros d g J h xi u r th Hr RH M RA T EJ U. pose proof (so3_deps_pos d) as DE. pose proof (so3_eps_pos d) as EP.
  assert (Z0 : Rabs 0 < r) by (rewrite Rabs_R0; exact Hr).
  assert (H0 : h 0 = g) by apply M.
  assert (Hg : rigid3 g) by (rewrite <- H0; apply RH; exact Z0).
  destruct (jlog6_form d g J th Hg RA ltac:(lra) EJ) as (x0 & a & b & c & dd & L & EA & EC & ->).
  rewrite coefs_big in EA by exact T. rewrite jlog_coefs6_big in EC by exact T.
  rewrite la_alt in EA by lra. fold (lb th) in EA.
  apply some_inj in EA. apply pair_equal_spec in EA. destruct EA as [<- <-].
  apply some_inj in EC. apply pair_equal_spec in EC. destruct EC as [<- <-].
  assert (x0 = u 0) by (specialize (U 0 Z0); rewrite H0 in U; congruence). subst x0.
  apply (log_velocity6 d h g xi u r th); try assumption. lra.
Qed.
Theorem C37_log_jac_total : forall d g xi th, rigid3 g -> rot_angle (rr g) th -> th < PI ->
  se3_log d g = Some xi -> exists J, se3_jlog d g = Some J.
Proof.
  intros d g xi th Hg RA TP L. pose proof (proj1 (rot_theta (rr g) th Hg) RA) as TH.
  unfold se3_jlog. rewrite L. cbv beta iota delta [bind].
  destruct (log_form d (rr g) _ Hg (rig_log_ang d g xi L)) as (t' & T & Tt & TS & TC & _).
  assert (TE : t' = th) by congruence. rewrite TE in *. rewrite Tt, TS, TC.
  destruct (Rlt_dec th (so3_d_near_zero_eps d)) as [S|S].
  - rewrite coefs_small by exact S. rewrite jlog_coefs6_small by lra. eauto.
  - rewrite coefs_big by lra. rewrite jlog_coefs6_big by lra. eauto.
Qed.
(** below d_eps and above eps: the error of the Jacobian *)
Lemma ld_bound : forall t, 0 < t <= / 5 -> Rabs (ld t - (- 1 / 6 - t ^ 2 / 180)) <= t ^ 4 / 900.
Proof.
  intros t T. pose proof PI2_1. pose proof PI2_RGT_0.
  pose proof (cos_ge_6 t ltac:(lra)) as C6. pose proof (cos_le_4 t ltac:(lra)) as C4.
  pose proof (sin_ge_7 t ltac:(lra)) as S7. pose proof (sin_le_5 t ltac:(lra)) as S5.
  pose proof (cos_lt1 t ltac:(lra)) as C1.
  unfold ld. set (y := 1 - sin t / t). set (X := 2 * (1 - cos t)) in *.
  assert (XP : 0 < X) by (unfold X; lra).
  set (e := - y / X - (- 1 / 6 - t ^ 2 / 180)).
  assert (EX : e * X = (1 / 6 + t ^ 2 / 180) * X - y) by (unfold e; field; lra).
  assert (XL : t ^ 2 - t ^ 4 / 12 <= X) by (unfold X; lra).
  assert (XU : X <= t ^ 2 - t ^ 4 / 12 + t ^ 6 / 360) by (unfold X; lra).
  assert (IT : 0 < / t) by (apply Rinv_0_lt_compat; lra).
  assert (YL : t ^ 2 / 6 - t ^ 4 / 120 <= y).
  { unfold y. apply Rle_trans with (1 - (t - t ^ 3 / 6 + t ^ 5 / 120) / t); [right; field; lra|].
    apply Rplus_le_compat_l, Ropp_le_contravar, Rmult_le_compat_r; lra. }
  assert (YU : y <= t ^ 2 / 6 - t ^ 4 / 120 + t ^ 6 / 5040).
  { unfold y. apply Rle_trans with (1 - (t - t ^ 3 / 6 + t ^ 5 / 120 - t ^ 7 / 5040) / t); [|right; field; lra].
    apply Rplus_le_compat_l, Ropp_le_contravar, Rmult_le_compat_r; lra. }
  clearbody X y e. clear - EX XL XU T YL YU XP.
  replace (t ^ 4) with (t ^ 2 * t ^ 2) in * by ring. replace (t ^ 6) with (t ^ 2 * t ^ 2 * t ^ 2) in * by ring.
  set (w := t ^ 2) in *. assert (W : 0 < w <= 4 / 100) by (unfold w; nra). clearbody w.
  assert (W3 : 0 < w * w * w) by (apply Rmult_lt_0_compat; nra).
  assert (W4 : w * w * (w * w) <= w * w * w * (4 / 100)) by nra.
  assert (P1 : (1 / 6 + w / 180) * X <= (1 / 6 + w / 180) * (w - w * w / 12 + w * w * w / 360)) by (apply Rmult_le_compat_l; lra).
  assert (P2 : (1 / 6 + w / 180) * (w - w * w / 12) <= (1 / 6 + w / 180) * X) by (apply Rmult_le_compat_l; lra).
  assert (B : - (w * w * w / 1200) <= e * X <= w * w * w / 1200) by (rewrite EX; nra).
  assert (XH : 9 / 10 * w <= X) by nra.
  apply Rabs_le. split; apply Rnot_lt_le; intro K.
  - assert (e * X < - (w * w / 900) * (9 / 10 * w)); [|nra].
    apply Rle_lt_trans with (e * (9 / 10 * w)); [|apply Rmult_lt_compat_r; nra].
    apply Ropp_le_cancel. rewrite !Ropp_mult_distr_l. apply Rmult_le_compat_l; nra.
  - assert (w * w / 900 * (9 / 10 * w) < e * X); [|nra].
    apply Rlt_le_trans with (e * (9 / 10 * w)); [apply Rmult_lt_compat_r; nra|].
    apply Rmult_le_compat_l; nra.
Qed.
Lemma lc_bound : forall t, 0 < t <= / 5 -> Rabs (lc t) <= / 80.
Proof.
  intros t T. pose proof (ld_bound t T) as D. pose proof (lb_bound t T) as B.
  apply Rabs_le_between in D. apply Rabs_le_between in B.
  assert (E : lc t * (t * t) = - (ld t + 2 * lb t)) by (unfold lc; field; lra).
  replace (t ^ 4) with (t ^ 2 * t ^ 2) in D by ring. replace (t ^ 2) with (t * t) in * by ring.
  set (w := t * t) in *. assert (W : 0 < w <= 4 / 100) by (unfold w; nra). clearbody w.
  assert (w * w <= 4 / 100 * w) by nra.
  set (x := lc t) in *. clearbody x. apply Rabs_le. split; apply Rnot_lt_le; intro K; nra.
Qed.
Lemma la_diff_len : forall l w xi b c dd b' c' dd',
  len3 (sub3 (app3 (se3_jlog_la l w b c dd) xi) (app3 (se3_jlog_la l w b' c' dd') xi))
  <= (Rabs (c - c') * (len3 w * len3 w * len3 w) + 2 * (Rabs (b - b') * len3 w) + Rabs (dd - dd') * len3 w)
     * (len3 l * len3 xi).
Proof.
  intros l w xi b c dd b' c' dd'. rewrite !jlog_la_app.
  replace (sub3 _ _) with
    (add3 (scal3 ((c - c') * (dot3 w l * dot3 w xi)) w)
      (add3 (add3 (scal3 ((b - b') * dot3 l xi) w) (scal3 ((b - b') * dot3 w xi) l)) (scal3 ((dd - dd') * dot3 w l) xi))).
  2:{ unfold dot3. destruct l as [l1 l2 l3], w as [w1 w2 w3], xi as [x1 x2 x3].
      apply V3_ext; unfold sub3, add3, scal3, cross; c3; ring. }
  eapply Rle_trans; [apply add_len|]. eapply Rle_trans; [apply Rplus_le_compat_l, add_len|].
  eapply Rle_trans; [apply Rplus_le_compat_l, Rplus_le_compat_r, add_len|].
  rewrite !scal_len, !Rabs_mult.
  pose proof (dot3_len w l) as D1. pose proof (dot3_len w xi) as D2. pose proof (dot3_len l xi) as D3.
  pose proof (len3_pos w) as W. pose proof (len3_pos l) as L. pose proof (len3_pos xi) as X.
  set (x := Rabs (c - c')). set (y := Rabs (b - b')). set (z := Rabs (dd - dd')).
  assert (XP : 0 <= x) by apply Rabs_pos. assert (YP : 0 <= y) by apply Rabs_pos. assert (ZP : 0 <= z) by apply Rabs_pos.
  assert (Q1 : x * (Rabs (dot3 w l) * Rabs (dot3 w xi)) * len3 w <= x * (len3 w * len3 l * (len3 w * len3 xi)) * len3 w).
  { apply Rmult_le_compat_r; [exact W|]. apply Rmult_le_compat_l; [exact XP|].
    apply Rmult_le_compat; try apply Rabs_pos; assumption. }
  assert (Q2 : y * Rabs (dot3 l xi) * len3 w <= y * (len3 l * len3 xi) * len3 w).
  { apply Rmult_le_compat_r; [exact W|]. apply Rmult_le_compat_l; assumption. }
  assert (Q3 : y * Rabs (dot3 w xi) * len3 l <= y * (len3 w * len3 xi) * len3 l).
  { apply Rmult_le_compat_r; [exact L|]. apply Rmult_le_compat_l; assumption. }
  assert (Q4 : z * Rabs (dot3 w l) * len3 xi <= z * (len3 w * len3 l) * len3 xi).
  { apply Rmult_le_compat_r; [exact X|]. apply Rmult_le_compat_l; assumption. }
  lra.
Qed.
Theorem C37_log_jac_small_angle : forall d g J h xi u r th, 0 < r ->
  (forall t, Rabs t < r -> rigid3 (h t)) -> moves6 h g xi ->
  rot_angle (rr g) th -> so3_near_zero_eps d < th < so3_d_near_zero_eps d -> se3_jlog d g = Some J ->
  (forall t, Rabs t < r -> se3_log d (h t) = Some (u t)) ->
  exists v, deriv6 u 0 v
   /\ len3 (sub3 (ang v) (ang (app66 J xi))) <= th ^ 4 / 100 * len3 (ang xi)
   /\ len3 (sub3 (lin v) (lin (app66 J xi)))
      <= th ^ 4 / 100 * len3 (lin xi) + th ^ 3 / 20 * (len3 (lin (u 0)) * len3 (ang xi)).
Proof.
  intros d g J h xi u r th Hr RH M RA T EJ U. pose proof (so3_deps_pos d) as DE. pose proof (so3_eps_pos d) as EP.
  pose proof PI2_1. pose proof PI2_RGT_0.
  assert (Z0 : Rabs 0 < r) by (rewrite Rabs_R0; exact Hr).
  assert (H0' : h 0 = g) by apply M.
  assert (Hg : rigid3 g) by (rewrite <- H0'; apply RH; exact Z0).
  destruct (jlog6_form d g J th Hg RA ltac:(lra) EJ) as (x0 & a & b & c & dd & L & EA & EC & ->).
  rewrite coefs_small in EA by lra. rewrite jlog_coefs6_small in EC by lra.
  apply some_inj in EA. apply pair_equal_spec in EA. destruct EA as [<- <-].
  apply some_inj in EC. apply pair_equal_spec in EC. destruct EC as [<- <-].
  assert (x0 = u 0) by (pose proof (U 0 Z0) as U0; rewrite H0' in U0; congruence). subst x0.
  pose proof (log_velocity6 d h g xi u r th Hr RH M RA ltac:(lra) U) as D.
  exists (app66 (jlog_true th (u 0)) xi). split; [exact D|].
  assert (N : norm3 (ang (u 0)) = th).
  { pose proof (rig_log_ang d g (u 0) L) as LA.
    pose proof (proj1 (rot_theta (rr g) th Hg) RA) as TH.
    destruct (log_form d (rr g) _ Hg LA) as (t' & T' & Tt & _ & _ & F).
    destruct F as [[S _]|[S [N _]]]; [lra|congruence]. }
  unfold jlog_true, app66. cbn [ang lin mll mla mal maa]. rewrite !app3_zero_m, !add3_0_l.
  change (norm3 (ang (u 0))) with (len3 (ang (u 0))) in N.
  pose proof (la_bound th ltac:(lra)) as BA. pose proof (lb_bound th ltac:(lra)) as BB0.
  pose proof (ld_bound th ltac:(lra)) as BD. pose proof (lc_bound th ltac:(lra)) as BC0.
  assert (BB : Rabs (lb th - (1 / 12 + th ^ 2 / 720)) <= th ^ 2 / 300).
  { apply Rabs_le_between in BB0. pose proof (pow2_ge_0 th). apply Rabs_le. lra. }
  assert (BC : Rabs (lc th - (- 1 / 360 - th ^ 2 / 7560)) <= / 60).
  { apply Rabs_le_between in BC0. assert (th ^ 2 <= / 25) by nra. pose proof (pow2_ge_0 th). apply Rabs_le. lra. }
  assert (MM : forall v, len3 (sub3 (app3 (matc (la th) (1 / 2) (lb th) (ang (u 0))) v)
      (app3 (matc (1 - th ^ 2 / 12) (1 / 2) (1 / 12 + th ^ 2 / 720) (ang (u 0))) v)) <= th ^ 4 / 100 * len3 v).
  { intro v. rewrite matc_sub. eapply Rle_trans; [apply matc_app_len|]. apply Rmult_le_compat_r; [apply len3_pos|].
    rewrite N. replace (1 / 2 - 1 / 2) with 0 by ring. rewrite Rabs_R0.
    apply Rle_trans with (th ^ 4 / 600 + 0 * th + th ^ 2 / 300 * (th * th)).
    - apply Rplus_le_compat; [apply Rplus_le_compat_r; exact BA|]. apply Rmult_le_compat_r; [nra|exact BB].
    - replace (th ^ 4 / 600 + 0 * th + th ^ 2 / 300 * (th * th)) with (th ^ 4 / 200) by field.
      assert (0 <= th ^ 4) by (apply pow_le; lra). lra. }
  split; [apply MM|].
  replace (sub3 _ _) with
   (add3 (sub3 (app3 (matc (la th) (1 / 2) (lb th) (ang (u 0))) (lin xi))
               (app3 (matc (1 - th ^ 2 / 12) (1 / 2) (1 / 12 + th ^ 2 / 720) (ang (u 0))) (lin xi)))
         (sub3 (app3 (se3_jlog_la (lin (u 0)) (ang (u 0)) (lb th) (lc th) (ld th)) (ang xi))
               (app3 (se3_jlog_la (lin (u 0)) (ang (u 0)) (1 / 12 + th ^ 2 / 720) (- 1 / 360 - th ^ 2 / 7560) (- 1 / 6 - th ^ 2 / 180)) (ang xi)))).
  2:{ generalize (app3 (matc (la th) (1 / 2) (lb th) (ang (u 0))) (lin xi)).
      generalize (app3 (matc (1 - th ^ 2 / 12) (1 / 2) (1 / 12 + th ^ 2 / 720) (ang (u 0))) (lin xi)).
      generalize (app3 (se3_jlog_la (lin (u 0)) (ang (u 0)) (lb th) (lc th) (ld th)) (ang xi)).
      generalize (app3 (se3_jlog_la (lin (u 0)) (ang (u 0)) (1 / 12 + th ^ 2 / 720) (- 1 / 360 - th ^ 2 / 7560) (- 1 / 6 - th ^ 2 / 180)) (ang xi)).
      intros [a1 a2 a3] [e1 e2 e3] [f1 f2 f3] [g1 g2 g3]. apply V3_ext; unfold add3, sub3; c3; ring. }
  eapply Rle_trans; [apply add_len|]. apply Rplus_le_compat; [apply MM|].
  eapply Rle_trans; [apply la_diff_len|]. rewrite N.
  apply Rmult_le_compat_r; [apply Rmult_le_pos; apply len3_pos|].
  assert (T3 : 0 <= th ^ 3) by (apply pow_le; lra).
  assert (P1 : Rabs (lc th - (- 1 / 360 - th ^ 2 / 7560)) * (th * th * th) <= / 60 * th ^ 3).
  { replace (th * th * th) with (th ^ 3) by ring. apply Rmult_le_compat_r; assumption. }
  assert (P2 : Rabs (lb th - (1 / 12 + th ^ 2 / 720)) * th <= th ^ 3 / 300).
  { replace (th ^ 3 / 300) with (th ^ 2 / 300 * th) by field. apply Rmult_le_compat_r; [lra|exact BB]. }
  assert (P3 : Rabs (ld th - (- 1 / 6 - th ^ 2 / 180)) * th <= th ^ 3 / 900).
  { apply Rle_trans with (th ^ 4 / 900 * th); [apply Rmult_le_compat_r; [lra|exact BD]|].
    replace (th ^ 4 / 900 * th) with (th ^ 3 / 900 * th ^ 2) by field. assert (th ^ 2 <= 1) by nra. nra. }
  lra.
Qed.

(** the small-angle coefficient c has the wrong sign: on a screw about the third
    axis the log moves only in its angle, and the Jacobian says otherwise *)
Definition ez : V3 := mkV3 0 0 1.
Lemma ez_unit : dot3 ez ez = 1.
Proof. unfold dot3, ez; c3; ring. Qed.
Lemma AA_ez_moves : forall th, deriv_m3 (fun t => AA (th + t) ez) 0 (mul3 (AA (th + 0) ez) (so3_alg ez)).
Proof.
  intro th.
  assert (DC : deriv (fun t => cos (th + t)) 0 (- sin (th + 0))).
  { apply is_derive_Reals. auto_derive; [exact I|ring]. }
  assert (DS : deriv (fun t => sin (th + t)) 0 (cos (th + 0))).
  { apply is_derive_Reals. auto_derive; [exact I|ring]. }
  unfold AA, matc, deriv_m3, mul3, so3_alg, ez. c3.
  generalize dependent (sin (th + 0)). generalize dependent (cos (th + 0)). intros c s DC DS.
  repeat split; dgo; ring.
Qed.
Lemma screw_log : forall d th l, so3_near_zero_eps d <= th < PI ->
  se3_log d (mkRig (AA th ez) (mkV3 0 0 l)) = Some (mkTw (mkV3 0 0 l) (scal3 th ez)).
Proof.
  intros d th l T. pose proof (so3_eps_pos d). pose proof ez_unit as A.
  assert (L : so3_log d (AA th ez) = Some (scal3 th ez)).
  { destruct (Rle_dec (1 + cos th) (so3_near_pi_eps d)) as [P|P].
    - destruct (log_pi d th ez ltac:(lra) A P) as [[K _]|[[_ K]|[_ [K _]]]]; [|exact K|lra].
      exfalso. destruct K as (_ & _ & K). unfold ez in K. c3h K. lra.
    - apply log_mid; lra || exact A. }
  unfold se3_log. cbn [rr rp]. rewrite L, AA_theta, AA_sine, AA_cosine by (lra || exact A).
  cbv beta iota delta [bind]. rewrite log_coefs_big by lra. cbn [fst snd]. f_equal. f_equal.
  rewrite log_lin_app. unfold lb, matc, app3, scal3, ez. c3. apply V3_ext; c3; field; lra.
Qed.
Theorem C37_log_jac_small_refuted : forall d th l, so3_near_zero_eps d < th < so3_d_near_zero_eps d -> l <> 0 ->
  let g t := mkRig (AA (th + t) ez) (mkV3 0 0 l) in
  let xi := mkTw zero3 ez in
  exists r u J, 0 < r /\ (forall t, Rabs t < r -> rigid3 (g t) /\ se3_log d (g t) = Some (u t))
    /\ moves6 g (g 0) xi /\ se3_jlog d (g 0) = Some J
    /\ deriv6 u 0 xi /\ app66 J xi <> xi
    /\ b2 (lin (app66 J xi)) = - (th ^ 3 / 180 + th ^ 5 / 7560) * l.
Proof.
  intros d th l T NL g xi. pose proof (so3_deps_pos d) as DE. pose proof (so3_eps_pos d) as EP.
  pose proof PI2_1. pose proof PI2_RGT_0.
  set (r := Rmin (th - so3_near_zero_eps d) 1).
  assert (Hr : 0 < r) by (unfold r; apply Rmin_glb_lt; lra).
  assert (B : forall t, Rabs t < r -> so3_near_zero_eps d <= th + t < PI).
  { intros t Ht. apply Rabs_def2 in Ht. pose proof (Rmin_l (th - so3_near_zero_eps d) 1) as M1. pose proof (Rmin_r (th - so3_near_zero_eps d) 1) as M2.
    fold r in M1, M2. lra. }
  assert (G0 : g 0 = mkRig (AA th ez) (mkV3 0 0 l)) by (unfold g; rewrite Rplus_0_r; reflexivity).
  assert (RG : forall t, rigid3 (g t)) by (intro t; apply AA_rotation, ez_unit).
  assert (L : forall t, Rabs t < r -> se3_log d (g t) = Some (mkTw (mkV3 0 0 l) (scal3 (th + t) ez))).
  { intros t Ht. apply screw_log. apply B. exact Ht. }
  assert (RA : rot_angle (rr (g 0)) th).
  { apply (rot_theta _ _ (RG 0)). rewrite G0. cbn [rr]. symmetry. apply AA_theta; [lra|apply ez_unit]. }
  assert (L0 : se3_log d (g 0) = Some (mkTw (mkV3 0 0 l) (scal3 th ez))).
  { rewrite L by (rewrite Rabs_R0; exact Hr). rewrite Rplus_0_r. reflexivity. }
  destruct (C37_log_jac_total d (g 0) _ th (RG 0) RA ltac:(lra) L0) as [J EJ].
  destruct (jlog6_form d (g 0) J th (RG 0) RA ltac:(lra) EJ) as (x0 & a & b & c & dd & L' & EA & EC & EJ').
  rewrite L0 in L'. apply some_inj in L'. subst x0.
  rewrite coefs_small in EA by lra. rewrite jlog_coefs6_small in EC by lra.
  apply some_inj in EA. apply pair_equal_spec in EA. destruct EA as [<- <-].
  apply some_inj in EC. apply pair_equal_spec in EC. destruct EC as [<- <-].
  assert (V : b2 (lin (app66 J xi)) = - (th ^ 3 / 180 + th ^ 5 / 7560) * l).
  { rewrite EJ'. unfold app66. cbn [lin ang mll mla xi]. rewrite jlog_la_app.
    unfold xi, ez, zero3, matc, app3, add3, scal3, cross, dot3. c3. field. }
  exists r, (fun t => mkTw (mkV3 0 0 l) (scal3 (th + t) ez)), J.
  split; [exact Hr|]. split; [intros t Ht; split; [apply RG|apply L; exact Ht]|].
  split.
  { apply moves6_iff. split; [reflexivity|]. unfold g, xi. cbn [rr rp lin ang]. split; [apply AA_ez_moves|].
    rewrite app3_zero_v. apply deriv_const3. }
  split; [exact EJ|]. split.
  { split; cbn [lin ang xi]; [apply deriv_const3|]. unfold deriv3, scal3, ez. c3. repeat split; dgo; ring. }
  split; [|exact V].
  intro K. rewrite K in V. unfold xi, zero3 in V. cbn [lin b2] in V.
  assert (P3 : 0 < th ^ 3) by (apply pow_lt; lra). assert (P5 : 0 < th ^ 5) by (apply pow_lt; lra).
  symmetry in V. apply Rmult_integral in V. destruct V; lra.
Qed.

(** ** no rotation: exact *)
Lemma deriv_squeeze : forall f k C r, 0 < r -> 0 < C -> f 0 = 0 -> k 0 = 0 ->
  (forall t, Rabs t < r -> 0 <= f t <= C * k t) -> deriv k 0 0 -> deriv f 0 0.
Proof.
  intros f k C r Hr HC F0 K0 B D e He.
  destruct (D (e / C) ltac:(apply Rdiv_lt_0_compat; assumption)) as [del Hd].
  assert (Hm : 0 < Rmin r del) by (apply Rmin_glb_lt; [exact Hr|apply cond_pos]).
  exists (mkposreal _ Hm). intros x Nx Hx. cbn [pos] in Hx.
  assert (X1 : Rabs x < r) by (eapply Rlt_le_trans; [exact Hx|apply Rmin_l]).
  assert (X2 : Rabs x < del) by (eapply Rlt_le_trans; [exact Hx|apply Rmin_r]).
  specialize (Hd x Nx X2). rewrite Rplus_0_l, K0, !Rminus_0_r in Hd. rewrite Rplus_0_l, F0, !Rminus_0_r.
  specialize (B x X1). unfold Rdiv in *. rewrite Rabs_mult in *.
  assert (IP : 0 <= Rabs (/ x)) by apply Rabs_pos.
  rewrite (Rabs_pos_eq (f x)) by lra.
  assert (KP : k x <= Rabs (k x)) by apply Rle_abs.
  apply Rle_lt_trans with (C * (Rabs (k x) * Rabs (/ x))).
  - rewrite <- Rmult_assoc. apply Rmult_le_compat_r; [exact IP|]. nra.
  - apply Rmult_lt_reg_l with (/ C); [apply Rinv_0_lt_compat; exact HC|].
    replace (/ C * (C * (Rabs (k x) * Rabs (/ x)))) with (Rabs (k x) * Rabs (/ x)) by (field; lra). lra.
Qed.
Lemma rig_log_small : forall d g xi, rigid3 g -> se3_log d g = Some xi -> so3_theta (rr g) < so3_near_zero_eps d ->
  lin xi = app3 (matc (1 - so3_theta (rr g) ^ 2 / 12) (- 1 / 2) (1 / 12 + so3_theta (rr g) ^ 2 / 720) (ang xi)) (rp g).
Proof.
  intros d g xi H L B. pose proof (rig_log_ang d g xi L) as LA.
  unfold se3_log in L. rewrite LA in L. cbv beta iota delta [bind] in L.
  rewrite log_coefs_small in L by exact B. cbn [fst snd] in L. apply some_inj in L.
  rewrite <- log_lin_app. rewrite <- L. cbn [lin ang]. reflexivity.
Qed.
Theorem C37_log_jac_no_rotation : forall d g J h xi u r, 0 < r ->
  (forall t, Rabs t < r -> rigid3 (h t)) -> moves6 h g xi -> rr g = I3 -> se3_jlog d g = Some J ->
  (forall t, Rabs t < r -> se3_log d (h t) = Some (u t)) ->
  deriv6 u 0 (app66 J xi).
Proof.
  intros d g J h xi u r Hr RH M RI EJ U. pose proof (so3_deps_pos d) as DE. pose proof (so3_eps_pos d) as EP.
  pose proof PI2_1. pose proof PI2_RGT_0. pose proof ez_unit as A.
  assert (Z0 : Rabs 0 < r) by (rewrite Rabs_R0; exact Hr).
  apply moves6_iff in M. destruct M as (H0' & DR & DP).
  assert (Hg : rigid3 g) by (rewrite <- H0'; apply RH; exact Z0).
  assert (IA : rr g = AA 0 ez).
  { rewrite RI. unfold AA. rewrite cos_0, sin_0. unfold matc, ez, I3. apply M3_ext; c3; ring. }
  assert (RA : rot_angle (rr g) 0).
  { apply (rot_theta _ _ Hg). rewrite IA. symmetry. apply AA_theta; [lra|exact A]. }
  destruct (jlog6_form d g J 0 Hg RA ltac:(lra) EJ) as (x0 & a & b & c & dd & L & EA & EC & ->).
  rewrite coefs_small in EA by lra. rewrite jlog_coefs6_small in EC by lra.
  apply some_inj in EA. apply pair_equal_spec in EA. destruct EA as [<- <-].
  apply some_inj in EC. apply pair_equal_spec in EC. destruct EC as [<- <-].
  assert (x0 = u 0) by (pose proof (U 0 Z0) as U0; rewrite H0' in U0; congruence). subst x0.
  assert (M3' : moves (fun t => rr (h t)) (AA 0 ez) (ang xi)).
  { split; [rewrite H0'; exact IA|rewrite <- IA; exact DR]. }
  assert (RH3 : forall t, Rabs t < r -> rotation3 (rr (h t))) by (intros; apply RH; assumption).
  assert (W0 : ang (u 0) = zero3).
  { pose proof (rig_log_ang d g _ L) as K. rewrite IA, log_small in K by (lra || exact A).
    apply some_inj in K. rewrite <- K, sin_0. apply V3_ext; unfold scal3, zero3, ez; c3; ring. }
  assert (DW : deriv3 (fun t => ang (u t)) 0 (ang xi)).
  { eapply deriv3_val; [|apply (log_velocity_small d (fun t => rr (h t)) 0 ez (ang xi) _ r Hr A RH3 M3' ltac:(lra))].
    2: intros t Ht; apply rig_log_ang, U, Ht.
    unfold jl_small. rewrite cos_0, sin_0. destruct (ang xi) as [x y z].
    apply V3_ext; unfold add3, scal3, cross, ez; c3; field. }
  unfold app66. cbn [mll mla mal maa]. rewrite W0.
  assert (MI : forall v, app3 (matc (1 - 0 ^ 2 / 12) (1 / 2) (1 / 12 + 0 ^ 2 / 720) zero3) v = v).
  { intros [x y z]. apply V3_ext; unfold app3, matc, zero3; c3; field. }
  rewrite !MI, app3_zero_m, add3_0_l. split; [|exact DW]. cbn [lin].
  (* the squared angle has derivative 0 *)
  destruct (deriv_sine_axis _ 0 ez (ang xi) A M3') as [_ DC]. rewrite sin_0 in DC.
  set (cc := fun t => so3_cosine (rr (h t))) in *.
  assert (C0 : cc 0 = 1) by (unfold cc; rewrite H0', IA, AA_cosine, cos_0 by exact A; reflexivity).
  assert (CE : cos (so3_near_zero_eps d) < 1) by (apply cos_lt1; lra).
  destruct (deriv_cont _ _ _ DC (1 - cos (so3_near_zero_eps d)) ltac:(lra)) as (r' & Hr' & K).
  assert (TB : forall t, Rabs t < Rmin r r' -> 0 <= so3_theta (rr (h t)) < so3_near_zero_eps d
             /\ cc t = cos (so3_theta (rr (h t)))).
  { intros t Ht. assert (Hr1 : Rabs t < r) by (eapply Rlt_le_trans; [exact Ht|apply Rmin_l]).
    assert (Hr2 : Rabs (t - 0) < r') by (rewrite Rminus_0_r; eapply Rlt_le_trans; [exact Ht|apply Rmin_r]).
    specialize (K t Hr2). rewrite C0 in K. apply Rabs_def2 in K.
    destruct (axis_angle _ (RH3 t Hr1)) as (t' & a & T & AU & E & _).
    unfold cc in K |- *. rewrite E, AA_cosine in * by exact AU. rewrite AA_theta by assumption.
    split; [|reflexivity]. split; [lra|].
    apply Rnot_le_lt. intro G. assert (cos t' <= cos (so3_near_zero_eps d)); [|lra].
    destruct (Req_EM_T t' (so3_near_zero_eps d)) as [->|NE]; [lra|].
    left. apply cos_decreasing_1; lra. }
  assert (Hm : 0 < Rmin r r') by (apply Rmin_glb_lt; assumption).
  assert (DT : deriv (fun t => so3_theta (rr (h t)) ^ 2) 0 0).
  { apply (deriv_squeeze _ (fun t => 1 - cc t) 4 (Rmin r r') Hm ltac:(lra)).
    - rewrite H0', IA, AA_theta by (lra || exact A). ring.
    - rewrite C0. ring.
    - intros t Ht. destruct (TB t Ht) as [[B1 B2] B3]. split; [apply pow2_ge_0|]. rewrite B3.
      pose proof (cos_le_4 _ B1) as C4. set (q := so3_theta (rr (h t))) in *.
      assert (Q1 : q ^ 2 <= 1 ^ 2) by (apply pow_incr; lra). rewrite pow1 in Q1. pose proof (pow2_ge_0 q) as Q0.
      assert (q ^ 4 <= q ^ 2 * 1) by (replace (q ^ 4) with (q ^ 2 * q ^ 2) by ring; apply Rmult_le_compat_l; assumption). lra.
    - eapply deriv_val; [|apply d_minus; [apply d_const|exact DC]]. ring. }
  apply (deriv3_ext_loc (fun t => app3 (matc (1 - so3_theta (rr (h t)) ^ 2 / 12) (- 1 / 2)
           (1 / 12 + so3_theta (rr (h t)) ^ 2 / 720) (ang (u t))) (rp (h t))) _ 0 _ (Rmin r r') Hm).
  { intros t Ht. rewrite Rminus_0_r in Ht. assert (Hr1 : Rabs t < r) by (eapply Rlt_le_trans; [exact Ht|apply Rmin_l]).
    symmetry. apply (rig_log_small d (h t) (u t) (RH t Hr1) (U t Hr1)). apply TB. exact Ht. }
  assert (DA : deriv (fun t => 1 - so3_theta (rr (h t)) ^ 2 / 12) 0 0).
  { eapply deriv_val; [|apply d_minus; [apply d_const|apply (d_mult _ (fun _ => / 12)); [exact DT|apply d_const]]]. ring. }
  assert (DB : deriv (fun t => 1 / 12 + so3_theta (rr (h t)) ^ 2 / 720) 0 0).
  { eapply deriv_val; [|apply d_plus; [apply d_const|apply (d_mult _ (fun _ => / 720)); [exact DT|apply d_const]]]. ring. }
  eapply deriv3_val; [|apply (deriv_matc_app _ (- 1 / 2) _ _ (fun t => rp (h t)) _ _ _ _ DA DB DW DP)].
  cbv beta. rewrite H0', W0, RI, app3_I.
  assert (LP : lin (u 0) = rp g).
  { pose proof (U 0 Z0) as U0. rewrite H0' in U0.
    rewrite (rig_log_small d g (u 0) Hg U0); [|rewrite IA, AA_theta by (lra || exact A); lra].
    rewrite W0, IA, AA_theta by (lra || exact A). destruct (rp g) as [x y z].
    apply V3_ext; unfold app3, matc, zero3; c3; field. }
  assert (TI : so3_theta I3 = 0) by (rewrite <- RI, IA; apply AA_theta; [lra|exact A]).
  rewrite jlog_la_app, LP, TI.
  destruct (rp g) as [p1 p2 p3], (lin xi) as [l1 l2 l3], (ang xi) as [x1 x2 x3].
  apply V3_ext; unfold app3, matc, zero3, add3, scal3, cross, dot3; c3; field.
Qed.

(** the backward pass of log is the vector-Jacobian product on the tangent
    directions g hat(xi) *)
Theorem C37_log_backward : forall g J grad xi, rigid3 g ->
  frob34 (se3_log_backward g J grad)
    (mkRig (mul3 (rr g) (so3_alg (ang xi))) (app3 (rr g) (lin xi))) = dot6 grad (app66 J xi).
Proof.
  intros g J grad xi H. unfold se3_log_backward, se3_lift, frob34. cbn [rr rp lin ang].
  assert (TR : dot6 grad (app66 J xi) = dot6 (app66 (tr66 J) grad) xi).
  { destruct grad as [[] []], xi as [[] []], J as [[] [] [] []]. unfold dot6, dot3, app66, tr66. cbn. ring. }
  rewrite TR. set (w := app66 (tr66 J) grad). clearbody w. unfold dot6. rewrite Rplus_comm. f_equal.
  - assert (TD : forall m u v, dot3 (app3 m u) (app3 m v) = dot3 (app3 (mul3 (tr3 m) m) u) v).
    { intros [] [] []. unfold dot3. cbn. ring. }
    rewrite TD, (proj1 H), app3_I. reflexivity.
  - pose proof (C36_log_backward (rr g) I3 (ang w) (ang xi) H) as K.
    rewrite app3_I in K. rewrite <- K. unfold so3_log_backward. f_equal. f_equal. f_equal.
    destruct (ang w) as [x y z]. apply V3_ext; unfold scal3, app3, tr3, I3; c3; field.
Qed.
