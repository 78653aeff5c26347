(** C50: the Jacobian of the conversion of quaternions to rotations. *)
From Coq Require Import Reals Lra Psatz.
From Coquelicot Require Import Coquelicot.
From Verif Require Import Geo_spec Geo3_spec Trig Exp_unique SE2_model SE2_group SE2_exp SE2_jac
  SO3_model SO3_exp SO3_jexp SO3_group SO3_quat.
Local Open Scope R_scope.

(** the derivative of a unit quaternion's rotation, entry by entry *)
Definition qvel (w x y z w' x' y' z' : R) : V3 :=
  mkV3 (2 * (w * x' - x * w' + z * y' - y * z'))
       (2 * (w * y' - y * w' - z * x' + x * z'))
       (2 * (w * z' - z * w' + y * x' - x * y')).
Definition qrot' (w x y z w' x' y' z' : R) : M3 :=
  mkM3 (2 * (w * w' + x * x' - y * y' - z * z')) (2 * (x' * y + x * y' - w' * z - w * z')) (2 * (x' * z + x * z' + w' * y + w * y'))
       (2 * (x' * y + x * y' + w' * z + w * z')) (2 * (w * w' - x * x' + y * y' - z * z')) (2 * (y' * z + y * z' - w' * x - w * x'))
       (2 * (x' * z + x * z' - w' * y - w * y')) (2 * (y' * z + y * z' + w' * x + w * x')) (2 * (w * w' - x * x' - y * y' + z * z')).
Section Unit.
Variables w x y z w' x' y' z' : R.
Let N := w * w + x * x + y * y + z * z.
Let D := 2 * (w * w' + x * x' + y * y' + z * z').
Let G := so3_quat_mat (mkQ w x y z).
Let A := so3_alg (qvel w x y z w' x' y' z').
Let Q := qrot' w x y z w' x' y' z'.
Ltac go := unfold Q, G, A, N, D, qrot', qvel, so3_alg, so3_quat_mat, mul3; cbn [d00 d01 d02 d10 d11 d12 d20 d21 d22 b0 b1 b2 qw qx qy qz]; ring.
Lemma qu00 : d00 Q * N - D * d00 G = d00 (mul3 G A). Proof. go. Qed.
Lemma qu01 : d01 Q * N - D * d01 G = d01 (mul3 G A). Proof. go. Qed.
Lemma qu02 : d02 Q * N - D * d02 G = d02 (mul3 G A). Proof. go. Qed.
Lemma qu10 : d10 Q * N - D * d10 G = d10 (mul3 G A). Proof. go. Qed.
Lemma qu11 : d11 Q * N - D * d11 G = d11 (mul3 G A). Proof. go. Qed.
Lemma qu12 : d12 Q * N - D * d12 G = d12 (mul3 G A). Proof. go. Qed.
Lemma qu20 : d20 Q * N - D * d20 G = d20 (mul3 G A). Proof. go. Qed.
Lemma qu21 : d21 Q * N - D * d21 G = d21 (mul3 G A). Proof. go. Qed.
Lemma qu22 : d22 Q * N - D * d22 G = d22 (mul3 G A). Proof. go. Qed.
End Unit.

(** the Jacobian returned by jquaternion_to_rotation *)
Theorem C36_quaternion_jac : forall q dq J g M, qnorm2 q <> 0 ->
  so3_jquaternion_to_rotation q = Some J -> so3_quaternion_to_rotation q = Some g ->
  (exists r, 0 < r /\ forall t, Rabs t < r -> so3_quaternion_to_rotation (qadd q (qscal t dq)) = Some (M t)) ->
  moves M g (app34 J dq).
Proof.
  intros q dq J g M N EJ EG (r0 & Hr0 & EM).
  assert (G0 : Some (M 0) = Some g).
  { rewrite <- (EM 0) by (rewrite Rabs_R0; exact Hr0). rewrite <- EG. f_equal.
    destruct q, dq. apply Quat_ext; cbn; ring. }
  apply some_inj in G0.
  set (NN := fun t => qnorm2 (qadd q (qscal t dq))).
  set (RR := fun t => so3_quat_mat (qadd q (qscal t dq))).
  set (F := fun (p : M3 -> R) t => p (RR t) * / NN t).
  assert (CN : continuity_pt NN 0).
  { unfold NN. destruct q as [w x y z], dq as [w' x' y' z']. unfold qadd, qscal, qnorm2; cbn [qw qx qy qz].
    reg. }
  assert (N0 : NN 0 = qnorm2 q).
  { unfold NN. f_equal. destruct q, dq. apply Quat_ext; cbn; ring. }
  assert (NP : 0 < qnorm2 q).
  { unfold qnorm2 in *. destruct q as [w x y z]; cbn [qw qx qy qz] in *. nra. }
  destruct (CN (qnorm2 q) NP) as (r1 & Hr1 & C).
  assert (NZ : forall t, Rabs t < r1 -> NN t <> 0).
  { intros t Ht. destruct (Req_EM_T t 0) as [->|T]; [rewrite N0; exact N|].
    specialize (C t). unfold dist in C; cbn in C. unfold R_dist in C. rewrite N0 in C.
    intro Z. rewrite Z in C. rewrite Rminus_0_l, Rabs_Ropp, (Rabs_pos_eq (qnorm2 q)) in C by lra.
    assert (qnorm2 q < qnorm2 q); [|lra]. apply C. split; [split; [exact I|congruence]|].
    rewrite Rminus_0_r. exact Ht. }
  assert (L : forall t, Rabs t < Rmin r0 r1 -> forall p : M3 -> R,
     (forall k m, p (mkM3 (k * d00 m) (k * d01 m) (k * d02 m) (k * d10 m) (k * d11 m) (k * d12 m)
                          (k * d20 m) (k * d21 m) (k * d22 m)) = k * p m) -> F p t = p (M t)).
  { intros t Ht p Hp. pose proof (Rmin_l r0 r1). pose proof (Rmin_r r0 r1).
    specialize (EM t ltac:(lra)). specialize (NZ t ltac:(lra)).
    destruct (quat_normalized _ NZ) as [E _]. destruct (quat_norm_pos _ NZ) as [P S].
    unfold so3_quaternion_to_rotation in EM. rewrite E in EM. cbv beta iota delta [bind] in EM.
    apply some_inj in EM. rewrite <- EM. unfold F. rewrite Rmult_comm, <- Hp. apply f_equal.
    fold (NN t) in S. rewrite <- S. unfold RR.
    set (n := so3_quat_norm _) in *. clearbody n.
    destruct (qadd q (qscal t dq)) as [w x y z]. unfold so3_quat_mat, qscal; cbn [qw qx qy qz].
    apply M3_ext; cbn [d00 d01 d02 d10 d11 d12 d20 d21 d22]; field; lra. }
  split; [exact G0|].
  destruct (quat_normalized _ N) as [E _]. destruct (quat_norm_pos _ N) as [P S].
  unfold so3_jquaternion_to_rotation in EJ. rewrite E in EJ.
  cbv beta iota delta [bind] in EJ. rewrite !div_some in EJ by lra.
  unfold so3_quaternion_to_rotation in EG. rewrite E in EG.
  cbv beta iota zeta delta [bind] in EJ, EG. apply some_inj in EJ, EG. subst J g.
  set (k := / qnorm2 q).
  assert (K1 : k = / so3_quat_norm q * / so3_quat_norm q).
  { unfold k. rewrite <- S. field. lra. }
  assert (KN : k * qnorm2 q = 1) by (unfold k; field; exact N).
  assert (DN : deriv (fun t => / NN t) 0 (- (2 * (qw q * qw dq + qx q * qx dq + qy q * qy dq + qz q * qz dq)) * k * k)).
  { eapply deriv_val; [|apply (d_comp Rinv NN 0)].
    3: rewrite N0; apply is_derive_Reals; auto_derive; [exact N|reflexivity].
    2: { unfold NN, qadd, qscal, qnorm2; cbn [qw qx qy qz]. repeat dstep. }
    cbv beta. unfold k. field. exact N. }
  assert (RM : 0 < Rmin r0 r1) by (apply Rmin_pos; assumption).
  assert (KV : forall t, t = 0 -> / NN t = k) by (intros t ->; rewrite N0; reflexivity).
  unfold Rdiv. set (n := / so3_quat_norm q) in *. clearbody n k.
  destruct q as [w x y z], dq as [w' x' y' z'].
  unfold qnorm2 in KN. cbn [qw qx qy qz] in KN, DN.
  assert (KK : n * n = k) by (symmetry; exact K1).
  match goal with |- context [app34 ?J ?q] =>
    replace (app34 J q) with (qvel (n * w) (n * x) (n * y) (n * z) (n * w') (n * x') (n * y') (n * z'))
      by (unfold app34, qscal, so3_hat, app3, add3, scal3, qvel; cbn [fst snd qw qx qy qz d00 d01 d02 d10 d11 d12 d20 d21 d22 b0 b1 b2];
          apply V3_ext; cbn [b0 b1 b2]; ring) end.
  assert (NU : n * w * (n * w) + n * x * (n * x) + n * y * (n * y) + n * z * (n * z) = 1).
  { rewrite <- KN, <- KK. ring. }
  unfold qscal. cbn [qw qx qy qz].
  repeat split;
  (eapply deriv_ext_loc; [exact RM| |]);
  [intros t Ht; rewrite Rminus_0_r in Ht; apply (L t Ht d00); reflexivity |
  |intros t Ht; rewrite Rminus_0_r in Ht; apply (L t Ht d01); reflexivity |
  |intros t Ht; rewrite Rminus_0_r in Ht; apply (L t Ht d02); reflexivity |
  |intros t Ht; rewrite Rminus_0_r in Ht; apply (L t Ht d10); reflexivity |
  |intros t Ht; rewrite Rminus_0_r in Ht; apply (L t Ht d11); reflexivity |
  |intros t Ht; rewrite Rminus_0_r in Ht; apply (L t Ht d12); reflexivity |
  |intros t Ht; rewrite Rminus_0_r in Ht; apply (L t Ht d20); reflexivity |
  |intros t Ht; rewrite Rminus_0_r in Ht; apply (L t Ht d21); reflexivity |
  |intros t Ht; rewrite Rminus_0_r in Ht; apply (L t Ht d22); reflexivity | ];
  unfold F, RR, so3_quat_mat at 1, qadd, qscal; cbn [d00 d01 d02 d10 d11 d12 d20 d21 d22 qw qx qy qz];
  (eapply deriv_val; [|repeat dstep]); cbv beta; rewrite (KV 0 eq_refl), <- KK;
  first [rewrite <- qu00|rewrite <- qu01|rewrite <- qu02|rewrite <- qu10|rewrite <- qu11|rewrite <- qu12|rewrite <- qu20|rewrite <- qu21|rewrite <- qu22];
  rewrite NU; clear; unfold qrot', so3_quat_mat; cbn [d00 d01 d02 d10 d11 d12 d20 d21 d22 qw qx qy qz]; ring.
Qed.
