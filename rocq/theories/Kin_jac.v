(** C65: the Jacobians and the gradients of the forward kinematics of torchkin. *)
From Coq Require Import Reals List Arith Bool Lia Lra Sorted.
From Coquelicot Require Import Coquelicot.
From Coq Require Import List.
Import ListNotations.
From Verif Require Import Geo_spec Geo3_spec Geo4_spec Exp_unique SE2_model SE2_exp SE2_jac SO3_model SO3_group SO3_exp SO3_jexp SE3_model SE3_exp SE3_group Kin_spec Kin_model Kin_tree Kin_num Kin_fk Kin_props.
Local Open Scope R_scope.

(** ** twists *)
Lemma tadd_0_r v : tadd v tzero = v.
Proof. destruct v as [[] []]. apply Tw_ext; apply V3_ext; cbn; ring. Qed.
Lemma tadd_0_l v : tadd tzero v = v.
Proof. destruct v as [[] []]. apply Tw_ext; apply V3_ext; cbn; ring. Qed.
Lemma tadd_comm v w : tadd v w = tadd w v.
Proof. apply Tw_ext; apply V3_ext; cbn; ring. Qed.
Lemma tadd_assoc v w x : tadd (tadd v w) x = tadd v (tadd w x).
Proof. apply Tw_ext; apply V3_ext; cbn; ring. Qed.
Lemma tscal_0 v : tscal 0 v = tzero.
Proof. apply Tw_ext; apply V3_ext; cbn; ring. Qed.
Lemma tscal_z a : tscal a tzero = tzero.
Proof. apply Tw_ext; apply V3_ext; cbn; ring. Qed.
Lemma app66_0 m : app66 m tzero = tzero.
Proof. apply Tw_ext; apply V3_ext; cbn; ring. Qed.
Lemma app66_add m v w : app66 m (tadd v w) = tadd (app66 m v) (app66 m w).
Proof. apply Tw_ext; apply V3_ext; cbn; ring. Qed.
Lemma app66_scal m a v : app66 m (tscal a v) = tscal a (app66 m v).
Proof. apply Tw_ext; apply V3_ext; cbn; ring. Qed.
Lemma dot6_add u v w : dot6 u (tadd v w) = dot6 u v + dot6 u w.
Proof. unfold dot6, dot3. cbn. ring. Qed.
Lemma dot6_scal u a v : dot6 u (tscal a v) = a * dot6 u v.
Proof. unfold dot6, dot3. cbn. ring. Qed.
Lemma dot6_comm u v : dot6 u v = dot6 v u.
Proof. unfold dot6, dot3. cbn. ring. Qed.
Lemma dot6_0 u : dot6 u tzero = 0.
Proof. unfold dot6, dot3. cbn. ring. Qed.

(** body and spatial velocities *)
Lemma mul44_spatial g xi : mul44 (se3_alg xi) (hmat g) = mkM44 (mul3 (so3_alg (ang xi)) (rr g)) (add3 (app3 (so3_alg (ang xi)) (rp g)) (lin xi)) zero3 0.
Proof. apply M44_ext; [apply M3_ext|apply V3_ext|apply V3_ext|]; cbn; unfold dot3; cbn; ring. Qed.
Lemma spatial_iff h g xi : moves6_spatial h g xi <->
  h 0 = g /\ deriv_m3 (fun t => rr (h t)) 0 (mul3 (so3_alg (ang xi)) (rr g)) /\ deriv3 (fun t => rp (h t)) 0 (add3 (app3 (so3_alg (ang xi)) (rp g)) (lin xi)).
Proof.
  unfold moves6_spatial. rewrite mul44_spatial. unfold deriv_m44, hmat. cbn [q33 q31 q13 q11]. split.
  - intros (H0 & D & P & _). auto.
  - intros (H0 & D & P). split; [exact H0|]. split; [exact D|]. split; [exact P|]. split; [|apply d_const]. repeat split; apply d_const.
Qed.
Lemma body_spatial h g xi : rigid3 g -> moves6 h g xi <-> moves6_spatial h g (app66 (se3_adjoint g) xi).
Proof.
  intros Rg. unfold moves6, moves6_spatial.
  assert (E : mul44 (hmat g) (se3_alg xi) = mul44 (se3_alg (app66 (se3_adjoint g) xi)) (hmat g)); [|rewrite E; tauto].
  rewrite mul44_alg, mul44_spatial.
  assert (A : ang (app66 (se3_adjoint g) xi) = app3 (rr g) (ang xi)) by (apply V3_ext; cbn; ring).
  rewrite A, (alg_rot (rr g) (ang xi) Rg). f_equal. cbn [app66 lin se3_adjoint mll mla]. rewrite app3_mul.
  set (w := app3 (rr g) (ang xi)). apply V3_ext; cbn; ring.
Qed.

(** ** curves of joints *)
Lemma deriv3_ext f g t l : (forall x, f x = g x) -> deriv3 f t l -> deriv3 g t l.
Proof. intros H (A & B & C). repeat split; (eapply deriv_ext; [|eassumption]); intros x; cbv beta; rewrite H; reflexivity. Qed.
Lemma deriv_const3 g t : deriv3 (fun _ => g) t zero3.
Proof. repeat split; apply d_const. Qed.
Lemma deriv_const_m3 g t : deriv_m3 (fun _ => g) t (mkM3 0 0 0 0 0 0 0 0 0).
Proof. repeat split; apply d_const. Qed.
Lemma line_scal x a t : add3 (scal3 x a) (scal3 t a) = scal3 (x + t) a.
Proof. apply V3_ext; cbn; ring. Qed.
Lemma deriv_m3_comp (M : R -> M3) (f : R -> R) t x L : deriv f t x -> deriv_m3 M (f t) L -> deriv_m3 (fun t => M (f t)) t (mkM3 (d00 L * x) (d01 L * x) (d02 L * x) (d10 L * x) (d11 L * x) (d12 L * x) (d20 L * x) (d21 L * x) (d22 L * x)).
Proof.
  intros Hf (A0 & A1 & A2 & A3 & A4 & A5 & A6 & A7 & A8). unfold deriv_m3. cbn [d00 d01 d02 d10 d11 d12 d20 d21 d22].
  repeat split; match goal with |- deriv (fun t => ?p (M (f t))) _ _ => apply (d_comp (fun y => p (M y)) f) end; assumption.
Qed.
Lemma mul3_alg_scal g a x : mul3 g (so3_alg (scal3 x a)) = let L := mul3 g (so3_alg a) in mkM3 (d00 L * x) (d01 L * x) (d02 L * x) (d10 L * x) (d11 L * x) (d12 L * x) (d20 L * x) (d21 L * x) (d22 L * x).
Proof. apply M3_ext; cbn; ring. Qed.
(** how much slower than its argument a revolute joint of the code turns *)
Definition turn_scale (d : dtype) (uj : UJoint) (x : R) : R := match uj_type uj with
  | Revolute => if lt_b (len3 (scal3 x (uj_axis uj))) (so3_near_zero_eps d) then 4 / (4 + len3 (scal3 x (uj_axis uj)) ^ 2) else 1
  | _ => 1 end.
Lemma so3_turn d a x g : len3 (scal3 x a) <> so3_near_zero_eps d -> so3_exp d (scal3 x a) = Some g -> forall M, (forall y, so3_exp d (scal3 y a) = Some (M y)) ->
  deriv_m3 M x (mul3 g (so3_alg (scal3 (if lt_b (len3 (scal3 x a)) (so3_near_zero_eps d) then 4 / (4 + len3 (scal3 x a) ^ 2) else 1) a))).
Proof.
  intros NE EG M HM. destruct (C36_exp_jac_total d (scal3 x a)) as (J & EJ).
  assert (D : deriv_m3 (fun t => M (x + t)) 0 (mul3 g (so3_alg (app3 J a)))).
  { apply (C36_exp_jac d (scal3 x a) a J g _ NE EJ EG). intros t. rewrite line_scal. apply HM. }
  assert (EJA : app3 J a = scal3 (if lt_b (len3 (scal3 x a)) (so3_near_zero_eps d) then 4 / (4 + len3 (scal3 x a) ^ 2) else 1) a).
  { rewrite <- norm3_len in *. destruct (Rlt_le_dec (norm3 (scal3 x a)) (so3_near_zero_eps d)) as [S|B].
    - rewrite (jexp_mat_small d _ S) in EJ. apply some_inj in EJ. subst J. rewrite lt_b_true by exact S. rewrite norm3_sq2.
      pose proof (dot3_pos (scal3 x a)). apply V3_ext; cbn; unfold dot3; cbn; unfold dot3 in H; cbn in H; field; lra.
    - rewrite (jexp_mat_big d _ B) in EJ. apply some_inj in EJ. rewrite lt_b_false by exact B.
      pose proof (so3_eps_pos d). pose proof (norm3_sq2 (scal3 x a)) as Q. set (t := norm3 (scal3 x a)) in *. clearbody t.
      unfold dot3 in Q. cbn in Q.
      assert (K : (t - sin t) / (t * t ^ 2) * (x * b0 a * (x * b0 a) + x * b1 a * (x * b1 a) + x * b2 a * (x * b2 a)) = 1 - sin t / t) by (rewrite <- Q; field; lra).
      subst J. set (k := (t - sin t) / (t * t ^ 2)) in *. set (o := (1 - cos t) / t ^ 2). set (s := sin t / t) in *. clearbody k o s.
      apply V3_ext; cbn.
      + replace _ with (k * (x * b0 a * (x * b0 a) + x * b1 a * (x * b1 a) + x * b2 a * (x * b2 a)) * b0 a + s * b0 a) by ring. rewrite K. ring.
      + replace _ with (k * (x * b0 a * (x * b0 a) + x * b1 a * (x * b1 a) + x * b2 a * (x * b2 a)) * b1 a + s * b1 a) by ring. rewrite K. ring.
      + replace _ with (k * (x * b0 a * (x * b0 a) + x * b1 a * (x * b1 a) + x * b2 a * (x * b2 a)) * b2 a + s * b2 a) by ring. rewrite K. ring. }
  rewrite EJA in D.
  assert (H1 : deriv (fun y => y - x) x 1) by (eapply deriv_val; [|apply d_minus; [apply derivable_pt_lim_id|apply d_const]]; ring).
  replace 0 with (x - x) in D by ring.
  pose proof (deriv_m3_comp (fun t => M (x + t)) (fun y => y - x) x 1 _ H1 D) as D2. cbv beta in D2.
  eapply deriv_m3_eq; [|eapply deriv_m3_ext; [|exact D2]].
  - apply M3_ext; cbn; ring.
  - intros y. cbv beta. replace (x + (y - x)) with y by ring. reflexivity.
Qed.
(** the exact exponential turns at the speed of its argument *)
Lemma E3_turn a x : deriv_m3 (fun y => E3 (scal3 y a)) x (mul3 (E3 (scal3 x a)) (so3_alg a)).
Proof.
  assert (X : is_exp_m3 (so3_alg a) (E3 a)) by (apply is_exp_E3; reflexivity). destruct X as (G & G0 & GD & _).
  assert (K : forall y, G y = E3 (scal3 y a)).
  { intros y. apply is_exp_E3. exists (fun t => G (t * y)). split; [rewrite Rmult_0_l; exact G0|]. split; [|rewrite Rmult_1_l; reflexivity].
    intros t. rewrite mul3_alg_scal. assert (H1 : deriv (fun t => t * y) t y) by (eapply deriv_val; [|apply d_mult; [apply derivable_pt_lim_id|apply d_const]]; cbv beta; ring).
    apply (deriv_m3_comp G (fun t => t * y) t y _ H1 (GD (t * y))). }
  rewrite <- K. apply (deriv_m3_ext G); [exact K|apply GD].
Qed.

(** the motions along a curve of angles *)
Lemma motf_moves d uj (q : R -> R) dq : deriv q 0 dq -> (uj_type uj = Revolute -> len3 (scal3 (q 0) (uj_axis uj)) <> so3_near_zero_eps d) ->
  moves6 (fun t => motf d uj (q t)) (motf d uj (q 0)) (tscal (turn_scale d uj (q 0) * dq) (joint_axis uj)).
Proof.
  intros Hq NE. apply moves6_iff. split; [reflexivity|]. unfold motf, turn_scale, joint_axis in *. destruct (uj_type uj).
  - specialize (NE eq_refl). set (a := uj_axis uj) in *.
    assert (E : forall y, exists g, so3_exp d (scal3 y a) = Some g) by (intros y; destruct (C36_exp_rotation d (scal3 y a)) as (g & E & _); eauto).
    set (M := fun y => match so3_exp d (scal3 y a) with Some g => g | None => I3 end).
    assert (HM : forall y, so3_exp d (scal3 y a) = Some (M y)) by (intros y; unfold M; destruct (E y) as (g & ->); reflexivity).
    pose proof (so3_turn d a (q 0) _ NE (HM (q 0)) M HM) as D. pose proof (deriv_m3_comp M q 0 dq _ Hq D) as D2.
    rewrite HM. cbn [rr rp lin ang tscal]. split.
    + eapply deriv_m3_eq; [|eapply deriv_m3_ext; [|exact D2]]; [|intros t; cbv beta; rewrite HM; reflexivity].
      set (k := if lt_b _ _ then _ else _). apply M3_ext; cbn; ring.
    + apply (deriv3_ext (fun _ => zero3)); [intros t; rewrite HM; reflexivity|]. eapply deriv3_eq; [|apply deriv_const3]. apply V3_ext; cbn; ring.
  - cbn [rr rp lin ang tscal]. split.
    + eapply deriv_m3_eq; [|apply deriv_const_m3]. apply M3_ext; cbn; ring.
    + unfold deriv3. cbn. repeat split; (eapply deriv_val; [|apply d_mult; [exact Hq|apply d_const]]; cbv beta; ring).
  - cbn [rr rp lin ang tscal]. split.
    + eapply deriv_m3_eq; [|apply deriv_const_m3]. apply M3_ext; cbn; ring.
    + eapply deriv3_eq; [|apply deriv_const3]. apply V3_ext; cbn; ring.
Qed.
Definition mote (uj : UJoint) (q : R) : Rig := match uj_type uj with
  | Revolute => mkRig (E3 (scal3 q (uj_axis uj))) zero3
  | Prismatic => mkRig I3 (scal3 q (uj_axis uj))
  | Fixed => mkRig I3 zero3
  end.
Lemma mote_ok uj q m : joint_motion uj q m <-> m = mote uj q.
Proof.
  unfold joint_motion, mote. destruct (uj_type uj); [|tauto|tauto]. rewrite is_exp_E3. split.
  - intros (H & Z). apply Rig_ext; assumption.
  - intros ->. split; reflexivity.
Qed.
Lemma mote_moves uj (q : R -> R) dq : deriv q 0 dq -> moves6 (fun t => mote uj (q t)) (mote uj (q 0)) (tscal dq (joint_axis uj)).
Proof.
  intros Hq. apply moves6_iff. split; [reflexivity|]. unfold mote, joint_axis in *. destruct (uj_type uj).
  - cbn [rr rp lin ang tscal]. split.
    + rewrite mul3_alg_scal. apply (deriv_m3_comp (fun y => E3 (scal3 y (uj_axis uj))) q 0 dq _ Hq). apply E3_turn.
    + eapply deriv3_eq; [|apply deriv_const3]. apply V3_ext; cbn; ring.
  - cbn [rr rp lin ang tscal]. split.
    + eapply deriv_m3_eq; [|apply deriv_const_m3]. apply M3_ext; cbn; ring.
    + unfold deriv3. cbn. repeat split; (eapply deriv_val; [|apply d_mult; [exact Hq|apply d_const]]; cbv beta; ring).
  - cbn [rr rp lin ang tscal]. split.
    + eapply deriv_m3_eq; [|apply deriv_const_m3]. apply M3_ext; cbn; ring.
    + eapply deriv3_eq; [|apply deriv_const3]. apply V3_ext; cbn; ring.
Qed.
