(** C36: group laws, adjoint, hat/vee, actions on points, their Jacobians and
    the vector-Jacobian products used in the backward passes; quaternions. *)
From Coq Require Import Reals Lra Psatz.
From Coquelicot Require Import Coquelicot.
From Verif Require Import Geo_spec Geo3_spec Trig Exp_unique SE2_model SE2_group SE2_exp SE2_jac
  SO3_model SO3_exp SO3_jexp.
Local Open Scope R_scope.

(** ** rotations: transpose = cofactors *)
Record RotEqs (g : M3) : Prop := {
  k00 : d00 g = d11 g * d22 g - d12 g * d21 g;
  k01 : d01 g = d12 g * d20 g - d10 g * d22 g;
  k02 : d02 g = d10 g * d21 g - d11 g * d20 g;
  k10 : d10 g = d02 g * d21 g - d01 g * d22 g;
  k11 : d11 g = d00 g * d22 g - d02 g * d20 g;
  k12 : d12 g = d01 g * d20 g - d00 g * d21 g;
  k20 : d20 g = d01 g * d12 g - d02 g * d11 g;
  k21 : d21 g = d02 g * d10 g - d00 g * d12 g;
  k22 : d22 g = d00 g * d11 g - d01 g * d10 g }.

Definition adj3 (g : M3) : M3 := mkM3
  (d11 g * d22 g - d12 g * d21 g) (d02 g * d21 g - d01 g * d22 g) (d01 g * d12 g - d02 g * d11 g)
  (d12 g * d20 g - d10 g * d22 g) (d00 g * d22 g - d02 g * d20 g) (d02 g * d10 g - d00 g * d12 g)
  (d10 g * d21 g - d11 g * d20 g) (d01 g * d20 g - d00 g * d21 g) (d00 g * d11 g - d01 g * d10 g).
Lemma mul_adj : forall g, det3 g = 1 -> mul3 g (adj3 g) = I3.
Proof.
  intros [a b c d e f k h i] D. unfold det3 in D.
  cbn [d00 d01 d02 d10 d11 d12 d20 d21 d22] in D.
  apply M3_ext; cbn; try ring; rewrite <- D; ring.
Qed.
Lemma rot_adj : forall g, rotation3 g -> tr3 g = adj3 g.
Proof.
  intros g [O D]. rewrite <- (mul3_I_r (tr3 g)), <- (mul_adj g D), <- mul3_assoc, O. apply mul3_I_l.
Qed.
Lemma rot_eqs : forall g, rotation3 g -> RotEqs g.
Proof.
  intros g H. pose proof (rot_adj g H) as E.
  assert (P : forall p : M3 -> R, p (tr3 g) = p (adj3 g)) by (intro p; rewrite E; reflexivity).
  constructor.
  - exact (P d00). - exact (P d10). - exact (P d20).
  - exact (P d01). - exact (P d11). - exact (P d21).
  - exact (P d02). - exact (P d12). - exact (P d22).
Qed.
Lemma rot_right : forall g, rotation3 g -> mul3 g (tr3 g) = I3.
Proof. intros g H. rewrite (rot_adj g H). apply mul_adj. apply H. Qed.

Lemma tr3_mul : forall g h, tr3 (mul3 g h) = mul3 (tr3 h) (tr3 g).
Proof. intros [] []. apply M3_ext; cbn; ring. Qed.
Lemma tr3_tr3 : forall g, tr3 (tr3 g) = g.
Proof. intros []. reflexivity. Qed.
Lemma det3_mul : forall g h, det3 (mul3 g h) = det3 g * det3 h.
Proof. intros [] []. unfold det3; cbn. ring. Qed.
Lemma det3_tr : forall g, det3 (tr3 g) = det3 g.
Proof. intros []. unfold det3; cbn. ring. Qed.
Lemma rot_mul : forall g h, rotation3 g -> rotation3 h -> rotation3 (mul3 g h).
Proof.
  intros g h [O D] [O' D']. split.
  - unfold orthogonal3. rewrite tr3_mul, mul3_assoc, <- (mul3_assoc (tr3 g)), O, mul3_I_l. exact O'.
  - rewrite det3_mul, D, D'. ring.
Qed.
Lemma rot_tr : forall g, rotation3 g -> rotation3 (tr3 g).
Proof.
  intros g H. split.
  - unfold orthogonal3. rewrite tr3_tr3. apply rot_right. exact H.
  - rewrite det3_tr. apply H.
Qed.
Lemma rot_I : rotation3 I3.
Proof. split; [apply M3_ext|unfold det3]; cbn; ring. Qed.

(** the group laws of compose and inverse, on rotations *)
Theorem C36_group : forall g h k, rotation3 g -> rotation3 h -> rotation3 k ->
  rotation3 (so3_compose g h) /\ rotation3 (so3_inverse g)
  /\ so3_compose (so3_compose g h) k = so3_compose g (so3_compose h k)
  /\ so3_compose g I3 = g /\ so3_compose I3 g = g
  /\ so3_compose g (so3_inverse g) = I3 /\ so3_compose (so3_inverse g) g = I3.
Proof.
  intros g h k Hg Hh Hk. unfold so3_compose, so3_inverse.
  split; [apply rot_mul; assumption|]. split; [apply rot_tr; assumption|].
  split; [apply mul3_assoc|]. split; [apply mul3_I_r|]. split; [apply mul3_I_l|].
  split; [apply rot_right; assumption|]. apply Hg.
Qed.

(** hat and vee are inverse to each other; hat(v) is the cross product; vee of
    any matrix is the vector of its skew part *)
Theorem C36_hat_vee : forall v p m,
  so3_vee (so3_hat v) = v /\ app3 (so3_hat v) p = cross v p /\ so3_lift v = so3_hat v
  /\ (tr3 m = opp_m3 m -> so3_hat (so3_vee m) = m)
  /\ so3_project (so3_lift v) = scal3 2 v.
Proof.
  intros [x y z] [p q r] m.
  split; [apply V3_ext; cbn; field|]. split; [apply V3_ext; cbn; ring|].
  split; [reflexivity|]. split; [|apply V3_ext; cbn; ring].
  intro H. assert (P : forall e : M3 -> R, e (tr3 m) = e (opp_m3 m)) by (intro e; rewrite H; reflexivity).
  pose proof (P d00) as P0. pose proof (P d01) as P1. pose proof (P d02) as P2.
  pose proof (P d11) as P4. pose proof (P d12) as P5. pose proof (P d22) as P8.
  destruct m. cbn in *. apply M3_ext; cbn; lra.
Qed.

(** the adjoint: g hat(v) g^-1 = hat(Ad(g) v), and Ad is a homomorphism *)
Theorem C36_adjoint : forall g h v, rotation3 g -> rotation3 h ->
  mul3 (mul3 g (so3_alg v)) (so3_inverse g) = so3_alg (app3 (so3_adjoint g) v)
  /\ so3_adjoint (so3_compose g h) = mul3 (so3_adjoint g) (so3_adjoint h)
  /\ so3_adjoint (so3_inverse g) = tr3 (so3_adjoint g).
Proof.
  intros g h v Hg Hh. split; [|split; reflexivity].
  pose proof (rot_eqs g Hg) as [K0 K1 K2 K3 K4 K5 K6 K7 K8].
  unfold so3_adjoint, so3_inverse. destruct g as [a b c d e f k i j]. destruct v as [x y z].
  cbn [d00 d01 d02 d10 d11 d12 d20 d21 d22] in *.
  apply M3_ext; cbn [mul3 so3_alg tr3 app3 d00 d01 d02 d10 d11 d12 d20 d21 d22 b0 b1 b2].
  - ring.
  - rewrite K6, K7, K8. ring.
  - rewrite K3, K4, K5. ring.
  - rewrite K6, K7, K8. ring.
  - ring.
  - rewrite K0, K1, K2. ring.
  - rewrite K3, K4, K5. ring.
  - rewrite K0, K1, K2. ring.
  - ring.
Qed.

(** transform is the action of the rotation; untransform undoes it; lengths,
    inner products and cross products are preserved *)
Theorem C36_transform : forall g h p q, rotation3 g -> rotation3 h ->
  so3_transform (so3_compose g h) p = so3_transform g (so3_transform h p)
  /\ so3_transform I3 p = p
  /\ so3_untransform g (so3_transform g p) = p /\ so3_transform g (so3_untransform g p) = p
  /\ so3_untransform g p = so3_transform (so3_inverse g) p
  /\ dot3 (so3_transform g p) (so3_transform g q) = dot3 p q
  /\ cross (so3_transform g p) (so3_transform g q) = so3_transform g (cross p q).
Proof.
  intros g h p q Hg Hh. unfold so3_transform, so3_untransform, so3_compose, so3_inverse.
  split; [apply app3_mul|]. split; [apply app3_I|].
  split; [rewrite <- app3_mul, (proj1 Hg); apply app3_I|].
  split; [rewrite <- app3_mul, (rot_right g Hg); apply app3_I|].
  split; [reflexivity|]. split.
  - assert (E : forall a m b, dot3 a (app3 m b) = dot3 (app3 (tr3 m) a) b).
    { intros [] [] []. unfold dot3; cbn. ring. }
    rewrite E, <- app3_mul, (proj1 Hg), app3_I. reflexivity.
  - pose proof (rot_eqs g Hg) as [K0 K1 K2 K3 K4 K5 K6 K7 K8].
    destruct g as [a b c d e f k i j]. destruct p as [x y z]. destruct q as [x' y' z'].
    cbn [d00 d01 d02 d10 d11 d12 d20 d21 d22] in *.
    apply V3_ext; cbn [cross app3 d00 d01 d02 d10 d11 d12 d20 d21 d22 b0 b1 b2].
    + rewrite K0, K1, K2. ring.
    + rewrite K3, K4, K5. ring.
    + rewrite K6, K7, K8. ring.
Qed.
