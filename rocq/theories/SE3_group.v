(** C37: SE3 group laws, 4x4 matrices, adjoint, hat/vee, actions on points,
    their Jacobians, and the backward passes of the autograd functions. *)
From Coq Require Import Reals Lra Psatz.
From Coquelicot Require Import Coquelicot.
From Verif Require Import Geo_spec Geo3_spec Geo4_spec Trig Exp_unique SE2_model SE2_group SE2_exp SE2_jac
  SO3_model SO3_exp SO3_jexp SO3_group SO3_quat SO3_ops SE3_model.
Local Open Scope R_scope.

Lemma cross__cross : forall u v, cross_ u v = cross u v.
Proof. reflexivity. Qed.
Lemma dot__dot : forall u v, dot_ u v = dot3 u v.
Proof. reflexivity. Qed.
Lemma hat_alg : forall v, so3_hat v = so3_alg v.
Proof. reflexivity. Qed.

(** vectors and 3x3 matrices as a module *)
Lemma add3_0_l : forall v, add3 zero3 v = v.
Proof. intros []. apply V3_ext; cbn; ring. Qed.
Lemma add3_0_r : forall v, add3 v zero3 = v.
Proof. intros []. apply V3_ext; cbn; ring. Qed.
Lemma add3_comm : forall u v, add3 u v = add3 v u.
Proof. intros [] []. apply V3_ext; cbn; ring. Qed.
Lemma add3_assoc : forall u v w, add3 (add3 u v) w = add3 u (add3 v w).
Proof. intros [] [] []. apply V3_ext; cbn; ring. Qed.
Lemma app3_add : forall m u v, app3 m (add3 u v) = add3 (app3 m u) (app3 m v).
Proof. intros [] [] []. apply V3_ext; cbn; ring. Qed.
Lemma app3_opp : forall m v, app3 (opp_m3 m) v = scal3 (-1) (app3 m v).
Proof. intros [] []. apply V3_ext; cbn; ring. Qed.
Lemma app3_scal : forall m c v, app3 m (scal3 c v) = scal3 c (app3 m v).
Proof. intros [] c []. apply V3_ext; cbn; ring. Qed.
Lemma app3_zero_v : forall m, app3 m zero3 = zero3.
Proof. intros []. apply V3_ext; cbn; ring. Qed.
Lemma app3_zero_m : forall v, app3 mzero v = zero3.
Proof. intros []. apply V3_ext; cbn; ring. Qed.
Lemma add3_neg : forall v, add3 (scal3 (-1) v) v = zero3.
Proof. intros []. apply V3_ext; cbn; ring. Qed.
Lemma add3_neg_r : forall v, add3 v (scal3 (-1) v) = zero3.
Proof. intros []. apply V3_ext; cbn; ring. Qed.
Lemma minus3_add : forall u v, minus3 u v = add3 u (scal3 (-1) v).
Proof. intros [] []. apply V3_ext; cbn; ring. Qed.
Lemma scal3_scal3 : forall a b v, scal3 a (scal3 b v) = scal3 (a * b) v.
Proof. intros a b []. apply V3_ext; cbn; ring. Qed.
Lemma scal3_add3 : forall a u v, scal3 a (add3 u v) = add3 (scal3 a u) (scal3 a v).
Proof. intros a [] []. apply V3_ext; cbn; ring. Qed.
Lemma scal3_1 : forall v, scal3 1 v = v.
Proof. intros []. apply V3_ext; cbn; ring. Qed.
Lemma scal3_0 : forall v, scal3 0 v = zero3.
Proof. intros []. apply V3_ext; cbn; ring. Qed.
Lemma madd_0_l : forall m, madd mzero m = m.
Proof. intros []. apply M3_ext; cbn; ring. Qed.
Lemma madd_0_r : forall m, madd m mzero = m.
Proof. intros []. apply M3_ext; cbn; ring. Qed.
Lemma mul3_0_l : forall m, mul3 mzero m = mzero.
Proof. intros []. apply M3_ext; cbn; ring. Qed.
Lemma mul3_0_r : forall m, mul3 m mzero = mzero.
Proof. intros []. apply M3_ext; cbn; ring. Qed.
Lemma app3_madd : forall m n v, app3 (madd m n) v = add3 (app3 m v) (app3 n v).
Proof. intros [] [] []. apply V3_ext; cbn; ring. Qed.
Lemma mul3_madd_r : forall a m n, mul3 a (madd m n) = madd (mul3 a m) (mul3 a n).
Proof. intros [] [] []. apply M3_ext; cbn; ring. Qed.
Lemma mul3_madd_l : forall a m n, mul3 (madd m n) a = madd (mul3 m a) (mul3 n a).
Proof. intros [] [] []. apply M3_ext; cbn; ring. Qed.
Lemma colrow_0 : forall v, colrow v zero3 = mzero.
Proof. intros []. apply M3_ext; cbn; ring. Qed.

Lemma tadd_comm : forall u v, tadd u v = tadd v u.
Proof. intros [] []. apply Tw_ext; cbn; apply add3_comm. Qed.
Lemma app66_mul : forall m n v, app66 (mul66 m n) v = app66 m (app66 n v).
Proof.
  intros [ma mb mc md] [na nb nc nd] [l a]. unfold app66, mul66. cbn [mll mla mal maa lin ang].
  rewrite !app3_madd, !app3_add, !app3_mul. f_equal; rewrite !add3_assoc; f_equal; rewrite <- !add3_assoc; f_equal; apply add3_comm.
Qed.
Lemma app66_I : forall v, app66 I66 v = v.
Proof.
  intros [l a]. unfold app66, I66. cbn [mll mla mal maa lin ang].
  rewrite !app3_I, !app3_zero_m, add3_0_l, add3_0_r. reflexivity.
Qed.
Lemma hmat_mul : forall g h, mul44 (hmat g) (hmat h) = hmat (se3_compose g h).
Proof.
  intros [R p] [R' p']. unfold mul44, hmat, se3_compose. cbn [q33 q31 q13 q11 rr rp].
  rewrite colrow_0, madd_0_r, !app3_zero_v, scal3_1, scal3_1, add3_0_l.
  f_equal. unfold dot3, zero3; cbn. ring.
Qed.

Definition se3_id : Rig := mkRig I3 zero3.

(** the group laws of compose and inverse on rigid motions; compose is the
    product of the 4x4 matrices to_matrix returns *)
Theorem C37_group : forall g h k, rigid3 g -> rigid3 h -> rigid3 k ->
  rigid3 (se3_compose g h) /\ rigid3 (se3_inverse g)
  /\ se3_compose (se3_compose g h) k = se3_compose g (se3_compose h k)
  /\ se3_compose g (mkRig I3 zero3) = g /\ se3_compose (mkRig I3 zero3) g = g
  /\ se3_compose g (se3_inverse g) = mkRig I3 zero3
  /\ se3_compose (se3_inverse g) g = mkRig I3 zero3
  /\ se3_to_matrix (se3_compose g h) = mul44 (se3_to_matrix g) (se3_to_matrix h)
  /\ mul44 (se3_to_matrix g) (se3_to_matrix (se3_inverse g)) = I44.
Proof.
  intros [R p] [S q] [T u] Hg Hh Hk. unfold rigid3 in *. cbn [rr] in *.
  assert (GI : se3_compose (mkRig R p) (se3_inverse (mkRig R p)) = mkRig I3 zero3).
  { unfold se3_compose, se3_inverse; cbn [rr rp]. rewrite (rot_right R Hg). f_equal.
    rewrite app3_opp, app3_scal, <- app3_mul, (rot_right R Hg), app3_I, add3_comm. apply add3_neg_r. }
  split; [apply rot_mul; assumption|]. split; [apply rot_tr; assumption|].
  split; [unfold se3_compose; cbn [rr rp]; rewrite mul3_assoc, app3_add, !add3_assoc, app3_mul; reflexivity|].
  split; [unfold se3_compose; cbn [rr rp]; rewrite mul3_I_r, app3_zero_v, add3_0_l; reflexivity|].
  split; [unfold se3_compose; cbn [rr rp]; rewrite mul3_I_l, app3_I, add3_0_r; reflexivity|].
  split; [exact GI|].
  split; [unfold se3_compose, se3_inverse; cbn [rr rp]; rewrite (proj1 Hg), app3_opp, add3_neg_r; reflexivity|].
  split; [symmetry; apply hmat_mul|].
  change (se3_to_matrix) with hmat. rewrite hmat_mul, GI. reflexivity.
Qed.

(** hat is the matrix of the twist, vee its inverse *)
Theorem C37_hat_vee : forall v m,
  se3_hat v = se3_alg v /\ se3_vee (se3_hat v) = v
  /\ (tr3 (q33 m) = opp_m3 (q33 m) -> q13 m = zero3 -> q11 m = 0 -> se3_hat (se3_vee m) = m)
  /\ se3_lift v = mkRig (q33 (se3_alg v)) (q31 (se3_alg v))
  /\ se3_project (se3_lift v) = mkTw (lin v) (scal3 2 (ang v)).
Proof.
  intros [l a] m. split; [reflexivity|].
  destruct (C36_hat_vee a a (q33 m)) as (A & _ & _ & B & C).
  split; [unfold se3_vee, se3_hat; cbn [q33 q31 lin ang]; rewrite A; reflexivity|].
  split.
  - intros H1 H2 H3. unfold se3_hat, se3_vee. cbn [lin ang]. rewrite (B H1).
    destruct m; cbn in *; congruence.
  - split; [reflexivity|]. unfold se3_project, se3_lift; cbn [rr rp lin ang]. rewrite C. reflexivity.
Qed.

(** the check vee makes on its argument when torchlie checks are enabled
    rejects what hat returns as soon as a translation entry exceeds the
    tolerance, so vee then does not undo hat *)
Theorem C37_vee_check_refuted : forall d v,
  so3_hat_eps d < Rabs (b0 (lin v)) \/ so3_hat_eps d < Rabs (b1 (lin v)) \/ so3_hat_eps d < Rabs (b2 (lin v)) ->
  se3_hat v = se3_alg v /\ ~ se3_check_hat d (se3_hat v).
Proof.
  intros d v H. split; [reflexivity|]. intros [C _]. cbn [se3_hat q31 q11] in C.
  set (x := Rabs (b0 (lin v))) in *. set (y := Rabs (b1 (lin v))) in *. set (z := Rabs (b2 (lin v))) in *.
  pose proof (Rmax_l (Rmax x y) (Rmax z (Rabs 0))). pose proof (Rmax_r (Rmax x y) (Rmax z (Rabs 0))).
  pose proof (Rmax_l x y). pose proof (Rmax_r x y). pose proof (Rmax_l z (Rabs 0)). lra.
Qed.
(** ... while it accepts any twist without translation *)
Theorem C37_vee_check_pure_rotation : forall d w, se3_check_hat d (se3_hat (mkTw zero3 w)).
Proof.
  intros d [x y z]. assert (P : 0 <= so3_hat_eps d) by (destruct d; cbn; lra).
  split.
  - cbn. rewrite Rabs_R0. repeat apply Rmax_lub; exact P.
  - unfold so3_check_hat. cbn [se3_hat q33 so3_hat d00 d01 d02 d10 d11 d12 d20 d21 d22 ang b0 b1 b2].
    repeat split; (match goal with |- Rabs ?e <= _ => replace e with 0 by ring end); rewrite Rabs_R0; exact P.
Qed.

Lemma mul44_alg : forall g v, mul44 (hmat g) (se3_alg v)
  = mkM44 (mul3 (rr g) (so3_alg (ang v))) (app3 (rr g) (lin v)) zero3 0.
Proof.
  intros [R p] [l a]. unfold mul44, hmat, se3_alg. cbn [q33 q31 q13 q11 rr rp lin ang].
  rewrite colrow_0, madd_0_r, scal3_0, add3_0_r, app3_zero_v, scal3_1, add3_0_l.
  f_equal. unfold dot3, zero3; cbn. ring.
Qed.
(** hat (R v) = R hat(v) R^T *)
Lemma alg_conj : forall g v, rotation3 g -> so3_alg (app3 g v) = mul3 (mul3 g (so3_alg v)) (tr3 g).
Proof. intros g v H. symmetry. apply (C36_adjoint g I3 v H rot_I). Qed.
Lemma alg_rot : forall g v, rotation3 g -> mul3 (so3_alg (app3 g v)) g = mul3 g (so3_alg v).
Proof. intros g v H. rewrite (alg_conj g v H), mul3_assoc, (proj1 H), mul3_I_r. reflexivity. Qed.
Lemma alg_rot_tr : forall g v, rotation3 g -> mul3 (tr3 g) (so3_alg v) = mul3 (so3_alg (app3 (tr3 g) v)) (tr3 g).
Proof. intros g v H. rewrite alg_rot by (apply rot_tr; exact H). reflexivity. Qed.
Lemma alg_add : forall u v, so3_alg (add3 u v) = madd (so3_alg u) (so3_alg v).
Proof. intros [] []. apply M3_ext; cbn; ring. Qed.
Lemma alg_scal_m1 : forall u, so3_alg (scal3 (-1) u) = opp_m3 (so3_alg u).
Proof. intros []. apply M3_ext; cbn; ring. Qed.
Lemma mul3_opp_l : forall a b, mul3 (opp_m3 a) b = opp_m3 (mul3 a b).
Proof. intros [] []. apply M3_ext; cbn; ring. Qed.
Lemma mul3_opp_r : forall a b, mul3 a (opp_m3 b) = opp_m3 (mul3 a b).
Proof. intros [] []. apply M3_ext; cbn; ring. Qed.
Lemma madd_opp_r : forall a, madd a (opp_m3 a) = mzero.
Proof. intros []. apply M3_ext; cbn; ring. Qed.
Lemma madd_opp_l : forall a, madd (opp_m3 a) a = mzero.
Proof. intros []. apply M3_ext; cbn; ring. Qed.
Lemma madd_comm : forall a b, madd a b = madd b a.
Proof. intros [] []. apply M3_ext; cbn; ring. Qed.

(** the adjoint: g hat(v) g^-1 = hat(Ad(g) v); Ad is a homomorphism *)
Theorem C37_adjoint : forall g h v, rigid3 g -> rigid3 h ->
  mul44 (mul44 (hmat g) (se3_alg v)) (hmat (se3_inverse g)) = se3_alg (app66 (se3_adjoint g) v)
  /\ se3_adjoint (se3_compose g h) = mul66 (se3_adjoint g) (se3_adjoint h)
  /\ mul66 (se3_adjoint g) (se3_adjoint (se3_inverse g)) = I66
  /\ se3_adjoint (mkRig I3 zero3) = I66.
Proof.
  intros g h v Hg Hh.
  assert (HOM : forall g h, rigid3 g -> se3_adjoint (se3_compose g h) = mul66 (se3_adjoint g) (se3_adjoint h)).
  { clear. intros [R p] [S q] Hg. unfold rigid3 in Hg; cbn [rr] in Hg.
    unfold se3_adjoint, se3_compose, mul66. cbn [rr rp mll mla mal maa].
    rewrite !mul3_0_l, !mul3_0_r, !madd_0_l, !madd_0_r. f_equal.
    rewrite !hat_alg, alg_add, mul3_madd_l, <- (mul3_assoc (so3_alg (app3 R q))), (alg_rot R q Hg), !mul3_assoc.
    reflexivity. }
  assert (ID : se3_adjoint (mkRig I3 zero3) = I66).
  { unfold se3_adjoint, I66. cbn [rr rp]. f_equal. apply M3_ext; cbn; ring. }
  split; [|split; [apply HOM; exact Hg|split]]; [| |exact ID].
  - rewrite mul44_alg. destruct g as [R p], v as [l a]. unfold rigid3 in Hg; cbn [rr] in Hg.
    unfold mul44, hmat, se3_inverse, se3_adjoint, app66, se3_alg. cbn [q33 q31 q13 q11 rr rp lin ang mll mla mal maa].
    rewrite colrow_0, madd_0_r, <- (alg_conj R a Hg), app3_zero_m, add3_0_l, scal3_1, scal3_0, app3_zero_v, add3_0_r.
    f_equal.
    + rewrite app3_opp, app3_scal, <- app3_mul, <- (alg_conj R a Hg), !so3_alg_cross, app3_mul, hat_alg, so3_alg_cross.
      rewrite add3_comm. f_equal. destruct (app3 R a), p. apply V3_ext; cbn; ring.
    + unfold dot3, zero3; cbn. ring.
  - rewrite <- HOM by exact Hg. destruct (C37_group g g g Hg Hg Hg) as (_&_&_&_&_&E&_). rewrite E. exact ID.
Qed.

Lemma len_rot : forall g p, rotation3 g -> len3 (app3 g p) = len3 p.
Proof.
  intros g p H. unfold len3. f_equal.
  destruct (C36_transform g g p p H H) as (_&_&_&_&_&E&_). exact E.
Qed.
(** transform applies the motion, untransform its inverse *)
Theorem C37_transform : forall g h p q, rigid3 g -> rigid3 h ->
  se3_transform (se3_compose g h) p = se3_transform g (se3_transform h p)
  /\ se3_transform (mkRig I3 zero3) p = p
  /\ se3_untransform g (se3_transform g p) = p /\ se3_transform g (se3_untransform g p) = p
  /\ se3_untransform g p = se3_transform (se3_inverse g) p
  /\ len3 (sub3 (se3_transform g p) (se3_transform g q)) = len3 (sub3 p q)
  /\ add3 (app3 (q33 (se3_to_matrix g)) p) (q31 (se3_to_matrix g)) = se3_transform g p.
Proof.
  intros [R t] [S u] p q Hg Hh. unfold rigid3 in *; cbn [rr] in *.
  unfold se3_transform, se3_untransform, se3_compose, se3_inverse, se3_to_matrix. cbn [rr rp q33 q31].
  split; [rewrite app3_mul, app3_add, <- add3_assoc, (add3_comm (app3 R u) t); reflexivity|].
  split; [rewrite app3_I; apply add3_0_l|].
  split.
  { rewrite minus3_add, (add3_comm t), add3_assoc, add3_neg_r, add3_0_r, <- app3_mul, (proj1 Hg). apply app3_I. }
  split.
  { rewrite <- app3_mul, (rot_right R Hg), app3_I. destruct t, p; apply V3_ext; cbn; ring. }
  split; [rewrite minus3_add, app3_add, app3_opp, app3_scal, add3_comm; reflexivity|].
  split; [|apply add3_comm].
  replace (sub3 (add3 t (app3 R p)) (add3 t (app3 R q))) with (app3 R (sub3 p q))
    by (destruct R, t, p, q; apply V3_ext; cbn; ring).
  apply len_rot. exact Hg.
Qed.

(** ** Jacobians *)
Lemma moves6_iff : forall h g xi, moves6 h g xi <->
  h 0 = g /\ deriv_m3 (fun t => rr (h t)) 0 (mul3 (rr g) (so3_alg (ang xi)))
  /\ deriv3 (fun t => rp (h t)) 0 (app3 (rr g) (lin xi)).
Proof.
  intros h g xi. unfold moves6. rewrite mul44_alg. unfold deriv_m44, hmat. cbn [q33 q31 q13 q11].
  split.
  - intros (H0 & D & P & _). auto.
  - intros (H0 & D & P). split; [exact H0|]. split; [exact D|]. split; [exact P|].
    split; [|apply d_const]. repeat split; apply d_const.
Qed.
Lemma deriv_add3 : forall p q t dp dq, deriv3 p t dp -> deriv3 q t dq ->
  deriv3 (fun t => add3 (p t) (q t)) t (add3 dp dq).
Proof.
  intros p q t dp dq (A0&A1&A2) (B0&B1&B2). unfold deriv3, add3; cbn [b0 b1 b2].
  repeat split; apply d_plus; assumption.
Qed.
Lemma deriv_const3 : forall p t, deriv3 (fun _ => p) t zero3.
Proof. intros. repeat split; apply d_const. Qed.
Lemma deriv3_eq : forall p t l l', l = l' -> deriv3 p t l -> deriv3 p t l'.
Proof. intros; subst; assumption. Qed.
Lemma deriv_m3_eq : forall p t l l', l = l' -> deriv_m3 p t l -> deriv_m3 p t l'.
Proof. intros; subst; assumption. Qed.
Lemma add_m3_madd : forall a b, add_m3 a b = madd a b.
Proof. reflexivity. Qed.

(** compose: both arguments move *)
Lemma compose_moves : forall g k h h' xi xi', rigid3 g -> rigid3 k ->
  moves6 h g xi -> moves6 h' k xi' ->
  moves6 (fun t => se3_compose (h t) (h' t)) (se3_compose g k)
    (tadd (app66 (se3_adjoint (se3_inverse k)) xi) xi').
Proof.
  intros [R p] [S q] h h' [l a] [l' a'] Hg Hk H1 H2. unfold rigid3 in *; cbn [rr] in *.
  apply moves6_iff in H1. apply moves6_iff in H2. apply moves6_iff.
  destruct H1 as (E1 & D1 & P1), H2 as (E2 & D2 & P2). cbn [rr rp lin ang] in *.
  unfold se3_compose, se3_adjoint, se3_inverse, app66, tadd. cbn [rr rp lin ang mll mla mal maa].
  split; [rewrite E1, E2; reflexivity|]. split.
  - eapply deriv_m3_eq; [|apply (deriv_mul3 (fun t => rr (h t)) (fun t => rr (h' t)) 0 _ _ D1 D2)].
    cbv beta. rewrite E1, E2, add_m3_madd, app3_zero_m, add3_0_l, alg_add, mul3_madd_r. cbn [rr]. f_equal.
    + rewrite !mul3_assoc, <- (alg_rot S (app3 (tr3 S) a) Hk), <- app3_mul, (rot_right S Hk), app3_I.
      reflexivity.
    + symmetry. apply mul3_assoc.
  - eapply deriv3_eq; [|apply deriv_add3; [apply (deriv_app3 (fun t => rr (h t)) (fun t => rp (h' t)) 0 _ _ D1 P2)|exact P1]].
    cbv beta. rewrite E1, E2. cbn [rr rp].
    assert (A : app3 S (app3 (mul3 (so3_hat (app3 (opp_m3 (tr3 S)) q)) (tr3 S)) a) = app3 (so3_alg a) q).
    { rewrite app3_mul, app3_opp, hat_alg, alg_scal_m1, app3_opp, app3_scal, <- (app3_mul S), <- (alg_rot S (app3 (tr3 S) q) Hk).
      rewrite <- (app3_mul S (tr3 S) q), (rot_right S Hk), app3_I.
      rewrite ?app3_mul. rewrite <- (app3_mul S (tr3 S) a), (rot_right S Hk), app3_I.
      destruct q, a; apply V3_ext; cbn; ring. }
    revert A. generalize (app3 (mul3 (so3_hat (app3 (opp_m3 (tr3 S)) q)) (tr3 S)) a). intros X A.
    rewrite !app3_mul, !app3_add. rewrite <- !(app3_mul S (tr3 S)), (rot_right S Hk), app3_I.
    rewrite A. rewrite (add3_comm (app3 R l)), !add3_assoc. f_equal. apply add3_comm.
Qed.

(** compose: both arguments move; the Jacobians torchlie and theseus return *)
Theorem C37_compose_jac : forall g k h h' xi xi' J0 J1, rigid3 g -> rigid3 k ->
  se3_compose_jac g k = (J0, J1) \/ se3_compose_jac_theseus g k = (J0, J1) ->
  moves6 h g xi -> moves6 h' k xi' ->
  moves6 (fun t => se3_compose (h t) (h' t)) (se3_compose g k) (tadd (app66 J0 xi) (app66 J1 xi')).
Proof.
  intros g k h h' xi xi' J0 J1 Hg Hk E H1 H2.
  assert (EE : J0 = se3_adjoint (se3_inverse k) /\ J1 = I66) by (destruct E as [E|E]; inversion E; auto).
  destruct EE as [-> ->]. rewrite app66_I. apply compose_moves; assumption.
Qed.

Theorem C37_inverse_jac : forall g h xi, rigid3 g -> moves6 h g xi ->
  moves6 (fun t => se3_inverse (h t)) (se3_inverse g) (app66 (se3_inverse_jac g) xi).
Proof.
  intros [R p] h [l a] Hg H. unfold rigid3 in *; cbn [rr] in *.
  apply moves6_iff in H. apply moves6_iff. destruct H as (E & D & P). cbn [rr rp lin ang] in *.
  unfold se3_inverse, se3_inverse_jac, se3_adjoint, opp66, app66. cbn [rr rp lin ang mll mla mal maa].
  split; [rewrite E; reflexivity|].
  assert (SK : forall v, tr3 (so3_alg v) = opp_m3 (so3_alg v)) by (intros []; apply M3_ext; cbn; ring).
  assert (MZ : opp_m3 mzero = mzero) by (apply M3_ext; cbn; ring).
  split.
  - eapply deriv_m3_eq; [|apply (deriv_tr3 _ _ _ D)].
    rewrite MZ, app3_zero_m, add3_0_l, app3_opp, alg_scal_m1, mul3_opp_r.
    rewrite (alg_rot_tr R (app3 R a) Hg), <- app3_mul, (proj1 Hg), app3_I, tr3_mul, SK, mul3_opp_l. reflexivity.
  - eapply (deriv3_eq _ _ (add3 (app3 (opp_m3 (tr3 (mul3 R (so3_alg a)))) p) (app3 (opp_m3 (tr3 R)) (app3 R l)))).
    + rewrite tr3_mul, SK, mul3_opp_l.
      replace (opp_m3 (opp_m3 (mul3 (so3_alg a) (tr3 R)))) with (mul3 (so3_alg a) (tr3 R))
        by (generalize (mul3 (so3_alg a) (tr3 R)); intros []; apply M3_ext; cbn; ring).
      rewrite !app3_opp, app3_add, !app3_scal. rewrite <- (app3_mul (tr3 R) R l), (proj1 Hg), app3_I.
      change (so3_hat p) with (so3_alg p). rewrite add3_comm. f_equal. rewrite <- (app3_mul (tr3 R) (mul3 (so3_alg p) R) a).
      replace (mul3 (tr3 R) (mul3 (so3_alg p) R)) with (so3_alg (app3 (tr3 R) p)).
      2:{ rewrite (alg_conj (tr3 R) p) by (apply rot_tr; exact Hg). rewrite tr3_tr3, mul3_assoc. reflexivity. }
      rewrite app3_mul, !so3_alg_cross. destruct (app3 (tr3 R) p), a. apply V3_ext; cbn; ring.
    + assert (D' : deriv_m3 (fun t => opp_m3 (tr3 (rr (h t)))) 0 (opp_m3 (tr3 (mul3 R (so3_alg a))))).
      { destruct D as (V0&V1&V2&V3&V4&V5&V6&V7&V8). unfold deriv_m3, opp_m3, tr3.
        cbn [d00 d01 d02 d10 d11 d12 d20 d21 d22]. repeat split; apply d_opp; assumption. }
      pose proof (deriv_app3 _ _ 0 _ _ D' P) as Q. cbv beta in Q. rewrite E in Q. cbn [rr rp] in Q. exact Q.
Qed.

Theorem C37_between_jac : forall g k h h' xi xi' J0 J1, rigid3 g -> rigid3 k ->
  se3_between_jac g k = (J0, J1) -> moves6 h g xi -> moves6 h' k xi' ->
  moves6 (fun t => se3_between (h t) (h' t)) (se3_between g k) (tadd (app66 J0 xi) (app66 J1 xi')).
Proof.
  intros g k h h' xi xi' J0 J1 Hg Hk E H1 H2. unfold se3_between_jac, se3_compose_jac_theseus in E.
  assert (E0 : mul66 (se3_adjoint (se3_inverse k)) (se3_inverse_jac g) = J0) by congruence.
  assert (E1 : I66 = J1) by congruence. subst J0 J1. rewrite app66_mul.
  assert (Hi : rigid3 (se3_inverse g)) by (apply rot_tr; exact Hg).
  apply (C37_compose_jac (se3_inverse g) k (fun t => se3_inverse (h t)) h' _ xi' (se3_adjoint (se3_inverse k)) I66 Hi Hk (or_introl eq_refl)).
  - apply C37_inverse_jac; assumption.
  - exact H2.
Qed.

(** transform and untransform: the motion and the point both move *)
Theorem C37_transform_jac : forall g p h q xi dp Jg Jp, rigid3 g ->
  moves6 h g xi -> q 0 = p -> deriv3 q 0 dp -> se3_transform_jac g p = (Jg, Jp) ->
  deriv3 (fun t => se3_transform (h t) (q t)) 0 (add3 (app36 Jg xi) (app3 Jp dp)).
Proof.
  intros [R u] p h q [l a] dp Jg Jp Hg H Q0 DQ E. unfold rigid3 in Hg; cbn [rr] in Hg.
  apply moves6_iff in H. destruct H as (H0 & D & P). cbn [rr rp lin ang] in *.
  unfold se3_transform_jac in E. cbn [rr] in E.
  assert (E0 : mkM36 R (mul3 (opp_m3 R) (so3_hat p)) = Jg) by congruence. assert (E1 : R = Jp) by congruence.
  subst Jg Jp. unfold se3_transform, app36. cbn [ml ma lin ang].
  eapply deriv3_eq; [|apply deriv_add3; [exact P|apply (deriv_app3 _ _ 0 _ _ D DQ)]].
  cbv beta. rewrite H0, Q0. cbn [rr]. rewrite <- add3_assoc. f_equal. f_equal.
  destruct R, p, a; apply V3_ext; cbn; ring.
Qed.
Theorem C37_untransform_jac : forall g p h q xi dp Jg Jp, rigid3 g ->
  moves6 h g xi -> q 0 = p -> deriv3 q 0 dp -> se3_untransform_jac g p = (Jg, Jp) ->
  deriv3 (fun t => se3_untransform (h t) (q t)) 0 (add3 (app36 Jg xi) (app3 Jp dp)).
Proof.
  intros [R u] p h q [l a] dp Jg Jp Hg H Q0 DQ E. unfold rigid3 in Hg; cbn [rr] in Hg.
  apply moves6_iff in H. destruct H as (H0 & D & P). cbn [rr rp lin ang] in *.
  unfold se3_untransform_jac, se3_untransform in *. cbn [rr rp] in E.
  assert (E0 : mkM36 (opp_m3 I3) (so3_hat (app3 (tr3 R) (minus3 p u))) = Jg) by congruence.
  assert (E1 : tr3 R = Jp) by congruence. subst Jg Jp. unfold app36. cbn [ml ma lin ang].
  assert (DM : deriv3 (fun t => minus3 (q t) (rp (h t))) 0 (minus3 dp (app3 R l))).
  { destruct DQ as (A0&A1&A2), P as (B0&B1&B2). unfold deriv3, minus3; cbn [b0 b1 b2].
    repeat split; apply d_minus; assumption. }
  eapply deriv3_eq; [|apply (deriv_app3 _ _ 0 _ _ (deriv_tr3 _ _ _ D) DM)].
  cbv beta. rewrite H0, Q0. cbn [rr rp]. rewrite tr3_mul, app3_mul.
  generalize (app3 (tr3 R) (minus3 p u)). intro m.
  rewrite minus3_add, app3_add, app3_scal, <- (app3_mul (tr3 R)), (proj1 Hg), app3_I.
  rewrite (add3_comm (app3 (tr3 R) dp)), <- add3_assoc. f_equal.
  destruct m, a, l; apply V3_ext; cbn; ring.
Qed.

(** ** the backward passes *)
Lemma d_frob : forall grad h t L, deriv_m3 h t L -> deriv (fun t => frob grad (h t)) t (frob grad L).
Proof.
  intros grad h t L (V0&V1&V2&V3&V4&V5&V6&V7&V8). unfold frob.
  eapply deriv_val; [|repeat dstep]. cbv beta. ring.
Qed.
Lemma d_dot3 : forall grad p t dp, deriv3 p t dp -> deriv (fun t => dot3 grad (p t)) t (dot3 grad dp).
Proof.
  intros grad p t dp (V0&V1&V2). unfold dot3. eapply deriv_val; [|repeat dstep]. cbv beta. ring.
Qed.

(** a curve of 3x4 matrices and its entrywise derivative *)
Definition deriv_rig (h : R -> Rig) (t : R) (l : Rig) :=
  deriv_m3 (fun t => rr (h t)) t (rr l) /\ deriv3 (fun t => rp (h t)) t (rp l).

(** the autograd functions whose forward map is linear *)
Theorem C37_backward_linear :
  (forall gr u, frob44 gr (se3_hat u) = dot6 (se3_hat_backward gr) u)
  /\ (forall gr u, dot6 gr (se3_vee u) = frob44 (se3_vee_backward gr) u)
  /\ (forall gr u, frob34 gr (se3_lift u) = dot6 (se3_lift_backward gr) u)
  /\ (forall gr u, dot6 gr (se3_project u) = frob34 (se3_project_backward gr) u).
Proof.
  repeat split; intros gr u; destruct gr, u; unfold frob44, frob34, dot6, frob, dot3; cbn; field.
Qed.
(** the others: the returned gradients are those of the pairing of the output
    with [gr], for every curve of the arguments (not only of rigid motions) *)
Theorem C37_compose_backward : forall g k h h' dg dk gr, h 0 = g -> h' 0 = k ->
  deriv_rig h 0 dg -> deriv_rig h' 0 dk ->
  deriv (fun t => frob34 gr (se3_compose (h t) (h' t))) 0
    (frob34 (fst (se3_compose_backward g k gr)) dg + frob34 (snd (se3_compose_backward g k gr)) dk).
Proof.
  intros g k h h' dg dk gr E1 E2 [D1 P1] [D2 P2]. unfold frob34, se3_compose. cbn [rr rp].
  eapply deriv_val; [|apply d_plus; [apply d_frob, (deriv_mul3 _ _ 0 _ _ D1 D2)
    |apply d_dot3, deriv_add3; [apply (deriv_app3 _ _ 0 _ _ D1 P2)|exact P1]]].
  cbv beta. rewrite E1, E2. clear. destruct g as [[] []], k as [[] []], dg as [[] []], dk as [[] []], gr as [[] []].
  unfold frob, dot3; cbn. ring.
Qed.
Theorem C37_inverse_backward : forall g h dg gr, h 0 = g -> deriv_rig h 0 dg ->
  deriv (fun t => frob34 gr (se3_inverse (h t))) 0 (frob34 (se3_inverse_backward g gr) dg).
Proof.
  intros g h dg gr E1 [D1 P1]. unfold frob34, se3_inverse. cbn [rr rp].
  assert (D' : deriv_m3 (fun t => opp_m3 (tr3 (rr (h t)))) 0 (opp_m3 (tr3 (rr dg)))).
  { destruct D1 as (V0&V1&V2&V3&V4&V5&V6&V7&V8). unfold deriv_m3, opp_m3, tr3.
    cbn [d00 d01 d02 d10 d11 d12 d20 d21 d22]. repeat split; apply d_opp; assumption. }
  eapply deriv_val; [|apply d_plus; [apply d_frob, (deriv_tr3 _ _ _ D1)
    |apply d_dot3, (deriv_app3 _ _ 0 _ _ D' P1)]].
  cbv beta. rewrite E1. clear. destruct g as [[] []], dg as [[] []], gr as [[] []].
  unfold frob, dot3; cbn. ring.
Qed.
Theorem C37_adjoint_backward : forall g h dg gr, h 0 = g -> deriv_rig h 0 dg ->
  deriv (fun t => frob66 gr (se3_adjoint (h t))) 0 (frob34 (se3_adjoint_backward g gr) dg).
Proof.
  intros g h dg gr E1 [D1 P1]. unfold frob66, se3_adjoint. cbn [mll mla mal maa].
  assert (D' : deriv_m3 (fun t => so3_hat (rp (h t))) 0 (so3_hat (rp dg))).
  { destruct P1 as (V0&V1&V2). unfold deriv_m3, so3_hat. cbn [d00 d01 d02 d10 d11 d12 d20 d21 d22].
    repeat split; try apply d_opp; try assumption; apply d_const. }
  eapply deriv_val; [|apply d_plus; [apply d_plus; [apply d_plus; [apply d_frob, D1
    |apply d_frob, (deriv_mul3 _ _ 0 _ _ D' D1)]|apply d_const]|apply d_frob, D1]].
  cbv beta. rewrite E1. clear. destruct g as [[] []], dg as [[] []]. destruct gr as [[] [] [] []].
  unfold frob34, frob, dot3; cbn. ring.
Qed.
Theorem C37_transform_backward : forall g p h q dg dp gr, h 0 = g -> q 0 = p ->
  deriv_rig h 0 dg -> deriv3 q 0 dp ->
  deriv (fun t => dot3 gr (se3_transform (h t) (q t))) 0
    (frob34 (fst (se3_transform_backward g p gr)) dg + dot3 (snd (se3_transform_backward g p gr)) dp).
Proof.
  intros g p h q dg dp gr E1 E2 [D1 P1] D2. unfold se3_transform.
  eapply deriv_val; [|apply d_dot3, deriv_add3; [exact P1|apply (deriv_app3 _ _ 0 _ _ D1 D2)]].
  cbv beta. rewrite E1, E2. clear. destruct g as [[] []], dg as [[] []], p, dp, gr.
  unfold frob34, frob, dot3; cbn. ring.
Qed.
Theorem C37_untransform_backward : forall g p h q dg dp gr, h 0 = g -> q 0 = p ->
  deriv_rig h 0 dg -> deriv3 q 0 dp ->
  deriv (fun t => dot3 gr (se3_untransform (h t) (q t))) 0
    (frob34 (fst (se3_untransform_backward g p gr)) dg + dot3 (snd (se3_untransform_backward g p gr)) dp).
Proof.
  intros g p h q dg dp gr E1 E2 [D1 P1] D2. unfold se3_untransform.
  assert (DM : deriv3 (fun t => minus3 (q t) (rp (h t))) 0 (minus3 dp (rp dg))).
  { destruct D2 as (A0&A1&A2), P1 as (B0&B1&B2). unfold deriv3, minus3; cbn [b0 b1 b2].
    repeat split; apply d_minus; assumption. }
  eapply deriv_val; [|apply d_dot3, (deriv_app3 _ _ 0 _ _ (deriv_tr3 _ _ _ D1) DM)].
  cbv beta. rewrite E1, E2. clear. destruct g as [[] []], dg as [[] []], p, dp, gr.
  unfold frob34, frob, dot3; cbn. ring.
Qed.

(** left_project is the pull-back of a Euclidean gradient to the tangent space;
    theseus' _project_impl computes the same *)
Theorem C37_project : forall g h xi grad, moves6 h g xi ->
  deriv (fun t => frob34 grad (h t)) 0 (dot6 (se3_left_project g grad) xi)
  /\ se3_project_impl g grad = se3_left_project g grad.
Proof.
  intros g h xi grad H. split; [|reflexivity].
  apply moves6_iff in H. destruct H as (H0 & D & P). unfold frob34.
  eapply deriv_val; [|apply d_plus; [apply d_frob, D|apply d_dot3, P]].
  destruct g as [[] []], grad as [[] []], xi as [[] []]. unfold dot6, frob, dot3; cbn. ring.
Qed.
