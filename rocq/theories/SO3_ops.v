(** C36: Jacobians of compose, inverse, between, transform and untransform of
    SO3, the backward passes of the autograd functions, projection of
    gradients, and normalize. *)
From Coq Require Import Reals Lra Psatz.
From Coquelicot Require Import Coquelicot.
From Verif Require Import Geo_spec Geo3_spec Trig Exp_unique SE2_model SE2_group SE2_exp SE2_jac
  SO3_model SO3_exp SO3_jexp SO3_group SO3_quat.
Local Open Scope R_scope.

(** retract(g, t dl) leaves g with body velocity dl *)
Theorem C36_retract_velocity : forall d g dl h,
  (forall t, so3_retract d g (scal3 t dl) = Some (h t)) -> moves h g dl.
Proof.
  intros d g dl h H. pose proof (so3_eps_pos d) as EP.
  assert (Z : norm3 zero3 = 0).
  { unfold norm3, zero3. cbn [b0 b1 b2]. replace (0 * 0 + 0 * 0 + 0 * 0) with 0 by ring. apply sqrt_0. }
  assert (DZ : dot3 zero3 zero3 = 0) by (unfold dot3, zero3; cbn [b0 b1 b2]; ring).
  destruct (C36_exp_rotation d zero3) as (e0 & E0 & _).
  assert (E0I : e0 = I3).
  { rewrite so3_exp_small in E0 by lra. apply some_inj in E0. subst e0. rewrite DZ.
    apply M3_ext; cbn [matc I3 zero3 d00 d01 d02 d10 d11 d12 d20 d21 d22 b0 b1 b2]; field. }
  assert (J0 : so3_jexp d zero3 = Some I3).
  { rewrite jexp_mat_small by lra. rewrite DZ. apply f_equal.
    apply M3_ext; cbn [so3_jexp_mat I3 zero3 d00 d01 d02 d10 d11 d12 d20 d21 d22 b0 b1 b2]; field. }
  pose (M := fun t => match so3_exp d (scal3 t dl) with Some e => e | None => I3 end).
  assert (EM : forall t, so3_exp d (scal3 t dl) = Some (M t)).
  { intro t. unfold M. destruct (C36_exp_rotation d (scal3 t dl)) as (e & E & _). rewrite E. reflexivity. }
  assert (EM' : forall t, so3_exp d (add3 zero3 (scal3 t dl)) = Some (M t)).
  { intro t. rewrite <- EM. f_equal. apply V3_ext; cbn; ring. }
  assert (HM : forall t, mul3 g (M t) = h t).
  { intro t. specialize (H t). unfold so3_retract in H. rewrite EM in H. apply some_inj in H. exact H. }
  pose proof (C36_exp_jac d zero3 dl I3 e0 M ltac:(rewrite <- norm3_len; lra) J0 E0 EM') as D.
  rewrite E0I, mul3_I_l, app3_I in D.
  assert (M0 : M 0 = I3).
  { specialize (EM 0). replace (scal3 0 dl) with zero3 in EM by (apply V3_ext; cbn; ring).
    rewrite E0 in EM. apply some_inj in EM. congruence. }
  split.
  - rewrite <- HM, M0. apply mul3_I_r.
  - apply (deriv_m3_ext (fun t => mul3 g (M t))); [exact HM|].
    assert (C : deriv_m3 (fun _ => g) 0 zero_m3) by (repeat split; apply d_const).
    pose proof (deriv_mul3 (fun _ => g) M 0 _ _ C D) as DD. cbv beta in DD.
    replace (add_m3 _ _) with (mul3 g (so3_alg dl)) in DD; [exact DD|].
    generalize (mul3 g (so3_alg dl)). intros []. apply M3_ext; cbn; ring.
Qed.

Lemma deriv_tr3 : forall h t L, deriv_m3 h t L -> deriv_m3 (fun t => tr3 (h t)) t (tr3 L).
Proof.
  intros h t L (V0&V1&V2&V3&V4&V5&V6&V7&V8). unfold deriv_m3, tr3.
  cbn [d00 d01 d02 d10 d11 d12 d20 d21 d22]. repeat split; assumption.
Qed.
Lemma deriv_const_m3 : forall g t, deriv_m3 (fun _ => g) t zero_m3.
Proof. intros. repeat split; apply d_const. Qed.

(** compose: the Jacobians with respect to both arguments, as torchlie and as
    theseus compute them *)
Theorem C36_compose_jac : forall g k h xi J0 J1, rotation3 g -> rotation3 k ->
  so3_compose_jac g k = (J0, J1) \/ so3_compose_jac_theseus g k = (J0, J1) ->
  (moves h g xi -> moves (fun t => so3_compose (h t) k) (so3_compose g k) (app3 J0 xi))
  /\ (moves h k xi -> moves (fun t => so3_compose g (h t)) (so3_compose g k) (app3 J1 xi)).
Proof.
  intros g k h xi J0 J1 Hg Hk E.
  assert (EE : J0 = tr3 k /\ J1 = I3) by (destruct E as [E|E]; inversion E; auto).
  destruct EE as [-> ->]. clear E. unfold so3_compose. split; intros [H0 D].
  - split; [rewrite H0; reflexivity|].
    pose proof (deriv_mul3 h (fun _ => k) 0 _ _ D (deriv_const_m3 k 0)) as DD. cbv beta in DD.
    replace (add_m3 _ _) with (mul3 (mul3 g k) (so3_alg (app3 (tr3 k) xi))) in DD; [exact DD|].
    destruct (C36_adjoint (tr3 k) I3 xi (rot_tr k Hk) rot_I) as (A & _). unfold so3_adjoint, so3_inverse in A.
    rewrite <- A, tr3_tr3. rewrite !mul3_assoc, <- (mul3_assoc k), (rot_right k Hk), mul3_I_l.
    generalize (mul3 g (mul3 (so3_alg xi) k)). intros []. apply M3_ext; cbn; ring.
  - split; [rewrite H0; reflexivity|]. rewrite app3_I.
    pose proof (deriv_mul3 (fun _ => g) h 0 _ _ (deriv_const_m3 g 0) D) as DD. cbv beta in DD.
    replace (add_m3 _ _) with (mul3 (mul3 g k) (so3_alg xi)) in DD; [exact DD|].
    rewrite mul3_assoc. generalize (mul3 k (so3_alg xi)). intro m. destruct g, m. apply M3_ext; cbn; ring.
Qed.

Theorem C36_inverse_jac : forall g h xi, rotation3 g -> moves h g xi ->
  moves (fun t => so3_inverse (h t)) (so3_inverse g) (app3 (so3_inverse_jac g) xi).
Proof.
  intros g h xi Hg [H0 D]. unfold so3_inverse. split; [rewrite H0; reflexivity|].
  pose proof (deriv_tr3 _ _ _ D) as DD.
  replace (mul3 (tr3 g) _) with (tr3 (mul3 g (so3_alg xi))); [exact DD|].
  destruct (C36_adjoint g I3 xi Hg rot_I) as (A & _). unfold so3_adjoint, so3_inverse in A.
  replace (so3_alg (app3 (so3_inverse_jac g) xi)) with (opp_m3 (so3_alg (app3 g xi)))
    by (unfold so3_inverse_jac, so3_adjoint; destruct g, xi; apply M3_ext; cbn; ring).
  rewrite <- A, tr3_mul.
  assert (OM : forall a b, mul3 a (opp_m3 b) = opp_m3 (mul3 a b)) by (intros [] []; apply M3_ext; cbn; ring).
  rewrite OM, <- !mul3_assoc, (proj1 Hg), mul3_I_l.
  destruct g, xi; apply M3_ext; cbn; ring.
Qed.

Theorem C36_between_jac : forall g k h xi J0 J1, rotation3 g -> rotation3 k ->
  so3_between_jac g k = (J0, J1) ->
  (moves h g xi -> moves (fun t => so3_between (h t) k) (so3_between g k) (app3 J0 xi))
  /\ (moves h k xi -> moves (fun t => so3_between g (h t)) (so3_between g k) (app3 J1 xi)).
Proof.
  intros g k h xi J0 J1 Hg Hk E. unfold so3_between_jac in E.
  destruct (so3_compose_jac_theseus (so3_inverse g) k) as [j0 j1] eqn:EC.
  assert (E0 : mul3 j0 (so3_inverse_jac g) = J0) by congruence.
  assert (E1 : j1 = J1) by congruence. subst J0 J1.
  assert (Hi : rotation3 (so3_inverse g)) by (apply rot_tr; exact Hg).
  split; intro H; unfold so3_between.
  - rewrite app3_mul.
    apply (proj1 (C36_compose_jac (so3_inverse g) k (fun t => so3_inverse (h t)) _ j0 j1 Hi Hk (or_intror EC))).
    apply C36_inverse_jac; assumption.
  - apply (proj2 (C36_compose_jac (so3_inverse g) k h xi j0 j1 Hi Hk (or_intror EC))). exact H.
Qed.

Lemma deriv_app3 : forall h p t L dp, deriv_m3 h t L -> deriv3 p t dp ->
  deriv3 (fun t => app3 (h t) (p t)) t (add3 (app3 L (p t)) (app3 (h t) dp)).
Proof.
  intros h p t L dp (V0&V1&V2&V3&V4&V5&V6&V7&V8) (P0&P1&P2).
  unfold deriv3, app3, add3; cbn [b0 b1 b2].
  repeat split; apply deriv_dot3; assumption.
Qed.

(** transform and untransform: rotation and point both move *)
Theorem C36_transform_jac : forall g p h q xi dp Jg Jp, rotation3 g ->
  moves h g xi -> q 0 = p -> deriv3 q 0 dp -> so3_transform_jac g p = (Jg, Jp) ->
  deriv3 (fun t => so3_transform (h t) (q t)) 0 (add3 (app3 Jg xi) (app3 Jp dp)).
Proof.
  intros g p h q xi dp Jg Jp Hg [H0 D] Q0 DQ E. unfold so3_transform_jac in E.
  assert (E0 : mul3 (opp_m3 g) (so3_hat p) = Jg) by congruence. assert (E1 : g = Jp) by congruence.
  subst Jg Jp. pose proof (deriv_app3 h q 0 _ _ D DQ) as DD. rewrite H0, Q0 in DD.
  unfold so3_transform. replace (app3 (mul3 (opp_m3 g) (so3_hat p)) xi)
    with (app3 (mul3 g (so3_alg xi)) p); [exact DD|].
  destruct g, p, xi; apply V3_ext; cbn; ring.
Qed.
Theorem C36_untransform_jac : forall g p h q xi dp Jg Jp, rotation3 g ->
  moves h g xi -> q 0 = p -> deriv3 q 0 dp -> so3_untransform_jac g p = (Jg, Jp) ->
  deriv3 (fun t => so3_untransform (h t) (q t)) 0 (add3 (app3 Jg xi) (app3 Jp dp)).
Proof.
  intros g p h q xi dp Jg Jp Hg [H0 D] Q0 DQ E. unfold so3_untransform_jac in E.
  assert (E0 : so3_hat (so3_untransform g p) = Jg) by congruence. assert (E1 : tr3 g = Jp) by congruence.
  subst Jg Jp. pose proof (deriv_app3 _ q 0 _ _ (deriv_tr3 _ _ _ D) DQ) as DD. cbv beta in DD. rewrite H0, Q0 in DD.
  unfold so3_untransform. replace (app3 (so3_hat (app3 (tr3 g) p)) xi)
    with (app3 (tr3 (mul3 g (so3_alg xi))) p); [exact DD|].
  rewrite tr3_mul, app3_mul. generalize (app3 (tr3 g) p). intros [x y z]. destruct xi.
  apply V3_ext; cbn; ring.
Qed.

(** ** the backward passes *)
(** the autograd functions whose forward map is linear in the argument *)
Theorem C36_backward_linear : forall g h p,
  vjp_mm so3_inverse so3_inverse_backward
  /\ vjp_mm so3_adjoint so3_adjoint_backward
  /\ vjp_mv so3_hat so3_hat_backward /\ vjp_vm so3_vee so3_vee_backward
  /\ vjp_mv so3_lift so3_lift_backward /\ vjp_vm so3_project so3_project_backward
  /\ vjp_mm (fun x => so3_compose x h) (fun gr => fst (so3_compose_backward g h gr))
  /\ vjp_mm (fun x => so3_compose g x) (fun gr => snd (so3_compose_backward g h gr))
  /\ vjp_vm (fun x => so3_transform x p) (fun gr => fst (so3_transform_backward g p gr))
  /\ vjp_vv (fun x => so3_transform g x) (fun gr => snd (so3_transform_backward g p gr))
  /\ vjp_vm (fun x => so3_untransform x p) (fun gr => fst (so3_untransform_backward g p gr))
  /\ vjp_vv (fun x => so3_untransform g x) (fun gr => snd (so3_untransform_backward g p gr)).
Proof.
  intros g h p. unfold vjp_mm, vjp_mv, vjp_vm, vjp_vv.
  repeat split; intros gr u; destruct g, h, p, gr, u; unfold frob, dot3; cbn; field.
Qed.
(** Exp: gradient of any linear function of the result *)
Theorem C36_exp_backward : forall d v dl g grad b M, len3 v <> so3_near_zero_eps d ->
  so3_exp d v = Some g -> so3_exp_backward d v g grad = Some b ->
  (forall t, so3_exp d (add3 v (scal3 t dl)) = Some (M t)) ->
  deriv (fun t => frob grad (M t)) 0 (dot3 b dl).
Proof.
  intros d v dl g grad b M NE EG EB EM. unfold so3_exp_backward in EB.
  destruct (so3_jexp d v) as [J|] eqn:EJ; [|discriminate]. cbv beta iota zeta delta [bind] in EB.
  apply some_inj in EB. subst b.
  destruct (C36_exp_jac d v dl J g M NE EJ EG EM) as (V0&V1&V2&V3&V4&V5&V6&V7&V8).
  unfold frob. eapply deriv_val; [|repeat dstep]. cbv beta.
  destruct g, grad, J, dl. unfold dot3; cbn. ring.
Qed.

(** left_project is the pull-back of a Euclidean gradient to the tangent space;
    theseus' _project_impl computes the same *)
Theorem C36_project : forall g grad xi,
  frob grad (mul3 g (so3_alg xi)) = dot3 (so3_left_project g grad) xi
  /\ so3_project_impl g grad = so3_left_project g grad.
Proof.
  intros g grad xi. split.
  - destruct g, grad, xi. unfold frob, dot3; cbn. ring.
  - destruct g, grad. apply V3_ext; cbn; ring.
Qed.

(** ** normalize *)
Lemma orth_det : forall m, orthogonal3 m -> det3 m = 1 \/ det3 m = -1.
Proof.
  intros m O. assert (E : det3 (tr3 m) * det3 m = 1).
  { rewrite <- det3_mul, O. unfold det3; cbn; ring. }
  rewrite det3_tr in E.
  assert (F : (det3 m - 1) * (det3 m + 1) = 0) by lra. apply Rmult_integral in F. lra.
Qed.
Definition flip (v : M3) : M3 := mkM3 (d00 v) (d01 v) (- d02 v) (d10 v) (d11 v) (- d12 v) (d20 v) (d21 v) (- d22 v).
Lemma orth_tr : forall m, orthogonal3 m -> orthogonal3 (tr3 m).
Proof.
  intros m O. destruct (orth_det m O) as [D|D].
  - apply (rot_tr m). split; assumption.
  - assert (R : rotation3 (opp_m3 m)).
    { split.
      - unfold orthogonal3 in *. rewrite <- O. destruct m; apply M3_ext; cbn; ring.
      - replace (det3 (opp_m3 m)) with (- det3 m) by (destruct m; unfold det3; cbn; ring). lra. }
    apply rot_tr in R. destruct R as [R _]. unfold orthogonal3 in *. rewrite <- R.
    destruct m; apply M3_ext; cbn; ring.
Qed.
Lemma orth_mul : forall m n, orthogonal3 m -> orthogonal3 n -> orthogonal3 (mul3 m n).
Proof.
  intros m n O O'. unfold orthogonal3 in *. rewrite tr3_mul, mul3_assoc, <- (mul3_assoc (tr3 m)), O, mul3_I_l. exact O'.
Qed.
Lemma orth_flip : forall v, orthogonal3 v -> orthogonal3 (flip v).
Proof.
  intros v O. pose proof (orth_col v O) as [A0 A1 A2 A3 A4 A5]. destruct v as [v1 v2 v3 v4 v5 v6 v7 v8 v9].
  cbn [d00 d01 d02 d10 d11 d12 d20 d21 d22] in *.
  apply M3_ext; cbn; lra.
Qed.
Lemma normalize_cases : forall u v, orthogonal3 u -> orthogonal3 v ->
  (det3 (mul3 u v) = 1 /\ so3_normalize_from_svd u v = mul3 u (tr3 v))
  \/ (det3 (mul3 u v) = -1 /\ so3_normalize_from_svd u v = mul3 u (tr3 (flip v))).
Proof.
  intros u v U V. unfold so3_normalize_from_svd.
  destruct (orth_det _ (orth_mul u v U V)) as [D|D]; rewrite D; [left|right]; (split; [reflexivity|]).
  - rewrite lt_b_true by lra. destruct v; reflexivity.
  - rewrite lt_b_false by lra. destruct v; reflexivity.
Qed.
Lemma normalize_rotation : forall u v, orthogonal3 u -> orthogonal3 v -> rotation3 (so3_normalize_from_svd u v).
Proof.
  intros u v U V. destruct (normalize_cases u v U V) as [[D E]|[D E]]; rewrite E; rewrite det3_mul in D.
  - split; [apply orth_mul; [exact U|apply orth_tr; exact V]|]. rewrite det3_mul, det3_tr. exact D.
  - split; [apply orth_mul; [exact U|apply orth_tr, orth_flip; exact V]|].
    rewrite det3_mul, det3_tr.
    replace (det3 (flip v)) with (- det3 v) by (destruct v; unfold det3; cbn; ring). lra.
Qed.

Lemma rot_trace : forall g, rotation3 g -> -1 <= d00 g + d11 g + d22 g <= 3
  /\ d00 g <= 1 /\ d11 g <= 1 /\ d22 g <= 1.
Proof.
  intros g H. destruct (quat_exists g H) as (q & Q & _ & ->). destruct q as [w x y z].
  unfold qnorm2 in Q. unfold so3_quat_mat. cbn [d00 d01 d02 d10 d11 d12 d20 d21 d22 qw qx qy qz] in *.
  repeat split; nra.
Qed.

(** whatever singular value decomposition torch.svd returns, normalize returns
    a rotation; the rotation nearest to its input in the sum of squared entry
    differences; and its input unchanged if that is a rotation *)
Theorem C36_normalize : forall m u s v, svd3 m u s v ->
  rotation3 (so3_normalize_from_svd u v)
  /\ (forall g, rotation3 g -> dist2_m3 m (so3_normalize_from_svd u v) <= dist2_m3 m g)
  /\ (rotation3 m -> so3_normalize_from_svd u v = m).
Proof.
  intros m u s v (U & V & S1 & S2 & S3 & EM).
  assert (R : rotation3 (so3_normalize_from_svd u v)) by (apply normalize_rotation; assumption).
  assert (B : forall g, rotation3 g -> dist2_m3 m (so3_normalize_from_svd u v) <= dist2_m3 m g).
  { intros g Hg.
    (* squared distance = |m|^2 + 3 - 2 <m, g> *)
    assert (DG : forall g, orthogonal3 g -> dist2_m3 m g = frob m m + 3 - 2 * frob m g).
    { intros k O. pose proof (orth_col k O) as [A0 A1 A2 _ _ _].
      unfold dist2_m3, frob, sub_m3. cbn [d00 d01 d02 d10 d11 d12 d20 d21 d22]. lra. }
    rewrite (DG _ (proj1 R)), (DG _ (proj1 Hg)).
    assert (F : forall k, frob m k = b0 s * d00 (mul3 (mul3 (tr3 u) k) v)
              + b1 s * d11 (mul3 (mul3 (tr3 u) k) v) + b2 s * d22 (mul3 (mul3 (tr3 u) k) v)).
    { intro k. rewrite EM. clear. destruct u, v, s, k. unfold frob; cbn. ring. }
    rewrite (F g).
    set (Q := mul3 (mul3 (tr3 u) g) v).
    assert (OQ : orthogonal3 Q) by (apply orth_mul; [apply orth_mul; [apply orth_tr; exact U|apply Hg]|exact V]).
    assert (DQ : det3 Q = det3 (mul3 u v)).
    { unfold Q. rewrite !det3_mul, det3_tr, (proj2 Hg). ring. }
    destruct (normalize_cases u v U V) as [[D E]|[D E]]; rewrite E; [rewrite (F (mul3 u (tr3 v)))|rewrite (F (mul3 u (tr3 (flip v))))].
    - assert (I : mul3 (mul3 (tr3 u) (mul3 u (tr3 v))) v = I3).
      { rewrite <- (mul3_assoc (tr3 u)), U, mul3_I_l. exact V. }
      rewrite I. cbn [I3 d00 d11 d22].
      assert (RQ : rotation3 Q) by (split; [exact OQ|lra]).
      destruct (rot_trace Q RQ) as (_ & T0 & T1 & T2). clearbody Q. nra.
    - assert (I : mul3 (mul3 (tr3 u) (mul3 u (tr3 (flip v)))) v = mkM3 1 0 0 0 1 0 0 0 (-1)).
      { rewrite <- (mul3_assoc (tr3 u)), U, mul3_I_l.
        pose proof (orth_col v V) as [A0 A1 A2 A3 A4 A5]. destruct v as [v1 v2 v3 v4 v5 v6 v7 v8 v9].
        cbn [d00 d01 d02 d10 d11 d12 d20 d21 d22] in *. apply M3_ext; cbn; lra. }
      rewrite I. cbn [d00 d11 d22].
      assert (RQ : rotation3 (opp_m3 Q)).
      { split.
        - unfold orthogonal3 in *. rewrite <- OQ. destruct Q; apply M3_ext; cbn; ring.
        - replace (det3 (opp_m3 Q)) with (- det3 Q) by (destruct Q; unfold det3; cbn; ring). lra. }
      destruct (rot_trace _ RQ) as ((T & _) & _).
      pose proof (orth_col Q OQ) as [A0 A1 A2 _ _ _].
      assert (d00 Q <= 1) by nra. assert (d11 Q <= 1) by nra.
      assert (T' : d00 Q + d11 Q + d22 Q <= 1) by (clearbody Q; destruct Q as [q1 q2 q3 q4 q5 q6 q7 q8 q9]; cbn [opp_m3 d00 d11 d22] in *; lra).
      clearbody Q. nra. }
  split; [exact R|]. split; [exact B|].
  intro Hm. specialize (B m Hm). set (n := so3_normalize_from_svd u v) in *. clearbody n. clear - B.
  unfold dist2_m3, frob, sub_m3 in B. destruct m as [m1 m2 m3 m4 m5 m6 m7 m8 m9], n as [n1 n2 n3 n4 n5 n6 n7 n8 n9]. cbn [d00 d01 d02 d10 d11 d12 d20 d21 d22] in B.
  assert (Z : forall x y : R, (x - y) * (x - y) = 0 -> y = x).
  { intros x y H. apply Rmult_integral in H. lra. }
  assert (S : forall x y : R, 0 <= (x - y) * (x - y)) by (intros x y; exact (Rle_0_sqr (x - y))).
  pose proof (S m1 n1). pose proof (S m2 n2). pose proof (S m3 n3). pose proof (S m4 n4). pose proof (S m5 n5).
  pose proof (S m6 n6). pose proof (S m7 n7). pose proof (S m8 n8). pose proof (S m9 n9).
  apply M3_ext; cbn [d00 d01 d02 d10 d11 d12 d20 d21 d22]; apply Z; lra.
Qed.
