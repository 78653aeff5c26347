(** C52: the hand-written backward pass of SO3.normalize. *)
From Coq Require Import Reals Lra Psatz.
From Coquelicot Require Import Coquelicot.
From Verif Require Import Geo_spec Geo3_spec Trig Exp_unique SE2_model SE2_group SE2_exp SE2_jac
  SO3_model SO3_exp SO3_jexp SO3_group SO3_quat SO3_ops.
Local Open Scope R_scope.

Definition coords (u v m : M3) : M3 := mul3 (mul3 (tr3 u) m) v.
Definition sgn3 (x : R) : M3 := mkM3 1 0 0 0 1 0 0 0 x.
(** the gradient in the basis of the singular vectors *)
Definition backB (F A : M3) (s : V3) (x : R) : M3 :=
  let S := sgn3 x in
  plus_m3 (mul_cols (had3 F (skew3_ (mul3 A S))) s) (mul_rows s (had3 F (skew3_ (mul3 (tr3 A) S)))).

Lemma back_coords : forall u s v x grad, orthogonal3 u -> orthogonal3 v ->
  so3_normalize_backward u s v x grad
  = mul3 (mul3 u (backB (so3_normalize_F s) (coords u v grad) s x)) (tr3 v).
Proof.
  intros u s v x grad _ _. unfold so3_normalize_backward.
  assert (E1 : mul3 (tr3 u) (mul3 grad (scale_last_col v x)) = mul3 (coords u v grad) (sgn3 x)).
  { unfold coords. rewrite !mul3_assoc. f_equal. f_equal. destruct v; apply M3_ext; cbn; ring. }
  assert (E2 : mul3 (tr3 v) (mul3 (tr3 grad) (scale_last_col u x)) = mul3 (tr3 (coords u v grad)) (sgn3 x)).
  { unfold coords. rewrite !tr3_mul. rewrite !mul3_assoc. f_equal. f_equal.
    destruct u; apply M3_ext; cbn; ring. }
  rewrite E1, E2. clear E1 E2. unfold backB.
  set (P := had3 _ (skew3_ (mul3 (coords u v grad) (sgn3 x)))).
  set (Q := had3 _ (skew3_ (mul3 (tr3 (coords u v grad)) (sgn3 x)))).
  assert (C : mul_cols (mul3 u P) s = mul3 u (mul_cols P s)) by (clearbody P; destruct P, u, s; apply M3_ext; cbn; ring).
  assert (D : mul_rows s (mul3 Q (tr3 v)) = mul3 (mul_rows s Q) (tr3 v)) by (clearbody Q; destruct Q, v, s; apply M3_ext; cbn; ring).
  rewrite C, D. set (p := mul_cols P s). set (q := mul_rows s Q). clearbody p q.
  rewrite <- mul3_assoc. destruct p, q, u, v. apply M3_ext; cbn; ring.
Qed.

Lemma frob_coords : forall u v b m, frob (mul3 (mul3 u b) (tr3 v)) m = frob b (coords u v m).
Proof. intros [] [] [] []. unfold frob, coords. cbn. ring. Qed.

Lemma coords_back : forall u v m, orthogonal3 u -> orthogonal3 v -> mul3 (mul3 u (coords u v m)) (tr3 v) = m.
Proof.
  intros u v m U V. unfold coords. apply orth_tr in U, V. unfold orthogonal3 in U, V. rewrite tr3_tr3 in U, V.
  rewrite !mul3_assoc, V, mul3_I_r, <- mul3_assoc, U. apply mul3_I_l.
Qed.

Lemma backB_entries : forall f00 f01 f02 f10 f11 f12 f20 f21 f22 a00 a01 a02 a10 a11 a12 a20 a21 a22 s0 s1 s2 x,
  backB (mkM3 f00 f01 f02 f10 f11 f12 f20 f21 f22) (mkM3 a00 a01 a02 a10 a11 a12 a20 a21 a22) (mkV3 s0 s1 s2) x
  = mkM3 0 (f01 * (a01 - a10) * s1 + s0 * (f01 * (a10 - a01))) (f02 * (a02 * x - a20) * s2 + s0 * (f02 * (a20 * x - a02)))
         (f10 * (a10 - a01) * s0 + s1 * (f10 * (a01 - a10))) 0 (f12 * (a12 * x - a21) * s2 + s1 * (f12 * (a21 * x - a12)))
         (f20 * (a20 - a02 * x) * s0 + s2 * (f20 * (a02 - a20 * x))) (f21 * (a21 - a12 * x) * s1 + s2 * (f21 * (a12 - a21 * x))) 0.
Proof. intros. apply M3_ext; cbn; ring. Qed.

(** in the basis of the singular vectors: x is the sign, A the gradient, X the
    velocity of the output, Y that of the input *)
Lemma back_pair : forall (si sj Si Sj a a' x x' y y' : R),
  Si * Si = 1 -> Sj * Sj = 1 -> sj ^ 2 - si ^ 2 <> 0 ->
  Sj * x' + Si * x = 0 ->
  x' * sj + Si * y = x * si + Sj * y' ->
  a * x + a' * x'
  = (/ (sj ^ 2 - si ^ 2) * (a * Sj - a' * Si) * sj + si * (/ (sj ^ 2 - si ^ 2) * (a' * Sj - a * Si))) * y
  + (/ (si ^ 2 - sj ^ 2) * (a' * Si - a * Sj) * si + sj * (/ (si ^ 2 - sj ^ 2) * (a * Si - a' * Sj))) * y'.
Proof.
  intros si sj Si Sj a a' x x' y y' Hi Hj N E1 E2.
  assert (X' : x' = - (Si * Sj * x)) by
    (replace x' with (Sj * (Sj * x' + Si * x) - Si * Sj * x) by (ring [Hj]); rewrite E1; ring).
  subst x'.
  replace (/ (si ^ 2 - sj ^ 2)) with (- / (sj ^ 2 - si ^ 2)) by (field; split; lra).
  apply (Rmult_eq_reg_l (sj ^ 2 - si ^ 2)); [|exact N].
  transitivity ((a * Sj - a' * Si) * sj * y + si * (a' * Sj - a * Si) * y
    - (a' * Si - a * Sj) * si * y' - sj * (a * Si - a' * Sj) * y'); [|field; exact N].
  (* x (Si si + Sj sj) = y - Si Sj y' *)
  assert (K : x * (Si * si + Sj * sj) = y - Si * Sj * y').
  { assert (Si * (x * si + Sj * y') = Si * (- (Si * Sj * x) * sj + Si * y)) by (rewrite E2; reflexivity).
    transitivity (Si * (x * si + Sj * y') + Sj * sj * x - Si * Sj * y'); [ring|]. rewrite H. ring [Hi]. }
  assert (Q : (sj ^ 2 - si ^ 2) = (Sj * sj - Si * si) * (Si * si + Sj * sj)) by (ring [Hi Hj]).
  rewrite Q.
  replace ((Sj * sj - Si * si) * (Si * si + Sj * sj) * (a * x + a' * - (Si * Sj * x)))
    with ((Sj * sj - Si * si) * (a - a' * Si * Sj) * (x * (Si * si + Sj * sj))) by ring.
  rewrite K. ring [Hi Hj].
Qed.

Lemma norm_WS : forall u v, orthogonal3 u -> orthogonal3 v ->
  coords u v (so3_normalize_from_svd u v) = sgn3 (det3 (mul3 u v))
  /\ (det3 (mul3 u v) = 1 \/ det3 (mul3 u v) = -1).
Proof.
  intros u v U V. split; [|apply orth_det, orth_mul; assumption].
  unfold coords. destruct (normalize_cases u v U V) as [[D E]|[D E]]; rewrite D, E;
    rewrite <- (mul3_assoc (tr3 u)), U, mul3_I_l.
  - rewrite V. apply M3_ext; reflexivity.
  - pose proof (orth_col v V) as [A0 A1 A2 A3 A4 A5]. destruct v as [v1 v2 v3 v4 v5 v6 v7 v8 v9].
    cbn [d00 d01 d02 d10 d11 d12 d20 d21 d22] in *. apply M3_ext; cbn; lra.
Qed.

(** the output of normalize times its input, transposed, is symmetric *)
Lemma norm_sym : forall m u s v, svd3 m u s v ->
  mul3 (tr3 (so3_normalize_from_svd u v)) m = mul3 (tr3 m) (so3_normalize_from_svd u v).
Proof.
  intros m u s v (U & V & _ & _ & _ & E).
  destruct (norm_WS u v U V) as (W & _). set (r := so3_normalize_from_svd u v) in *. set (x := det3 _) in W. clearbody r x.
  assert (R : r = mul3 (mul3 u (sgn3 x)) (tr3 v)) by (rewrite <- W; symmetry; apply coords_back; assumption).
  rewrite R, E, !tr3_mul, !tr3_tr3, !mul3_assoc.
  rewrite <- !(mul3_assoc (tr3 u) u), U, !mul3_I_l. f_equal. rewrite <- !mul3_assoc. f_equal.
  destruct s. apply M3_ext; cbn; ring.
Qed.

Lemma deriv_m3_ext_loc : forall f g t l r, 0 < r -> (forall x, Rabs (x - t) < r -> f x = g x) ->
  deriv_m3 f t l -> deriv_m3 g t l.
Proof.
  intros f g t l r Hr E (V0&V1&V2&V3&V4&V5&V6&V7&V8).
  repeat split; (eapply deriv_ext_loc; [exact Hr| |eassumption]); intros x Hx; cbv beta; rewrite (E x Hx); reflexivity.
Qed.
Lemma deriv_m3_unique : forall f t l l', deriv_m3 f t l -> deriv_m3 f t l' -> l = l'.
Proof.
  intros f t l l' (V0&V1&V2&V3&V4&V5&V6&V7&V8) (W0&W1&W2&W3&W4&W5&W6&W7&W8).
  apply M3_ext; eapply deriv_unique; eassumption.
Qed.

(** C52: let h be a differentiable curve of matrices and r the rotations that
    normalize returns for them (with whatever decompositions torch.svd
    returns), r differentiable at 0.  If the singular values of h(0) are
    distinct, the backward pass maps the gradient of a loss with respect to the
    output to its gradient with respect to the input *)
Theorem C52_normalize_backward : forall h r u s v dm dr grad e, 0 < e ->
  svd3 (h 0) u s v -> b0 s <> b1 s -> b1 s <> b2 s ->
  r 0 = so3_normalize_from_svd u v ->
  (forall t, Rabs t < e -> exists u' s' v', svd3 (h t) u' s' v' /\ r t = so3_normalize_from_svd u' v') ->
  deriv_m3 h 0 dm -> deriv_m3 r 0 dr ->
  frob grad dr = frob (so3_normalize_backward u s v (det3 (mul3 u v)) grad) dm.
Proof.
  intros h r u s v dm dr grad e HE (U & V & S1 & S2 & S3 & EM) N1 N2 R0 HT DM DR.
  destruct (norm_WS u v U V) as (W & DX). set (x := det3 (mul3 u v)) in *. clearbody x.
  (* the two constraints on the velocities *)
  assert (C1 : add_m3 (mul3 (tr3 dr) (r 0)) (mul3 (tr3 (r 0)) dr) = zero_m3).
  { pose proof (deriv_mul3 (fun t => tr3 (r t)) r 0 _ _ (deriv_tr3 _ _ _ DR) DR) as D. cbv beta in D.
    assert (K : deriv_m3 (fun t => mul3 (tr3 (r t)) (r t)) 0 zero_m3).
    { apply (deriv_m3_ext_loc (fun _ => I3) _ 0 _ e HE); [|apply deriv_const_m3].
      intros t Ht. rewrite Rminus_0_r in Ht. destruct (HT t Ht) as (u' & s' & v' & (U' & V' & _) & ->).
      symmetry. apply (normalize_rotation u' v' U' V'). }
    exact (deriv_m3_unique _ _ _ _ D K). }
  assert (C2 : add_m3 (mul3 (tr3 dr) (h 0)) (mul3 (tr3 (r 0)) dm)
             = add_m3 (mul3 (tr3 dm) (r 0)) (mul3 (tr3 (h 0)) dr)).
  { pose proof (deriv_mul3 (fun t => tr3 (r t)) h 0 _ _ (deriv_tr3 _ _ _ DR) DM) as D. cbv beta in D.
    pose proof (deriv_mul3 (fun t => tr3 (h t)) r 0 _ _ (deriv_tr3 _ _ _ DM) DR) as D'. cbv beta in D'.
    refine (deriv_m3_unique _ _ _ _ D _).
    apply (deriv_m3_ext_loc (fun t => mul3 (tr3 (h t)) (r t)) _ 0 _ e HE); [|exact D'].
    intros t Ht. rewrite Rminus_0_r in Ht. destruct (HT t Ht) as (u' & s' & v' & SV & ->).
    symmetry. exact (norm_sym _ _ _ _ SV). }
  (* change of basis *)
  rewrite back_coords by assumption. rewrite frob_coords.
  rewrite <- (coords_back u v grad U V) at 1. rewrite frob_coords.
  set (A := coords u v grad). set (X := coords u v dr). set (Y := coords u v dm).
  rewrite <- R0 in W.
  assert (RR : r 0 = mul3 (mul3 u (sgn3 x)) (tr3 v)) by (rewrite <- W; symmetry; apply coords_back; assumption).
  assert (ER : dr = mul3 (mul3 u X) (tr3 v)) by (symmetry; apply coords_back; assumption).
  assert (EY : dm = mul3 (mul3 u Y) (tr3 v)) by (symmetry; apply coords_back; assumption).
  assert (CC : forall a b, mul3 (tr3 (mul3 (mul3 u a) (tr3 v))) (mul3 (mul3 u b) (tr3 v)) = mul3 (mul3 v (mul3 (tr3 a) b)) (tr3 v)).
  { intros a b. rewrite !tr3_mul, !tr3_tr3, !mul3_assoc. rewrite <- !(mul3_assoc (tr3 u) u), U, !mul3_I_l. reflexivity. }
  rewrite RR, ER in C1. rewrite RR, ER, EM, EY in C2. repeat rewrite CC in C1. repeat rewrite CC in C2.
  assert (CV : forall a b, mul3 (mul3 v a) (tr3 v) = mul3 (mul3 v b) (tr3 v) -> a = b).
  { intros a b H. apply (f_equal (fun m => mul3 (mul3 (tr3 v) m) v)) in H.
    rewrite !mul3_assoc in H. rewrite <- !(mul3_assoc (tr3 v) v), V, !mul3_I_l, !mul3_I_r in H. exact H. }
  assert (CA : forall a b, add_m3 (mul3 (mul3 v a) (tr3 v)) (mul3 (mul3 v b) (tr3 v)) = mul3 (mul3 v (add_m3 a b)) (tr3 v)).
  { intros [] []. destruct v. apply M3_ext; cbn; ring. }
  assert (CZ : zero_m3 = mul3 (mul3 v zero_m3) (tr3 v)) by (destruct v; apply M3_ext; cbn; ring).
  rewrite CA in C1. rewrite CZ in C1. repeat rewrite CA in C2. apply CV in C1, C2.
  clearbody A X Y. clear - C1 C2 S1 S2 S3 N1 N2 DX.
  destruct A as [a00 a01 a02 a10 a11 a12 a20 a21 a22]. destruct X as [x00 x01 x02 x10 x11 x12 x20 x21 x22].
  destruct Y as [y00 y01 y02 y10 y11 y12 y20 y21 y22]. destruct s as [s0 s1 s2]. cbn [b0 b1 b2] in *.
  unfold add_m3, mul3, tr3, sgn3, diag3, zero_m3 in C1, C2. cbn [d00 d01 d02 d10 d11 d12 d20 d21 d22 b0 b1 b2] in C1, C2.
  assert (IN : forall m n, m = n -> d00 m = d00 n /\ d01 m = d01 n /\ d02 m = d02 n /\ d10 m = d10 n /\ d11 m = d11 n
     /\ d12 m = d12 n /\ d20 m = d20 n /\ d21 m = d21 n /\ d22 m = d22 n) by (intros m n ->; repeat split).
  apply IN in C1. apply IN in C2. cbn [d00 d01 d02 d10 d11 d12 d20 d21 d22] in C1, C2.
  destruct C1 as (A1 & A2 & A3 & A4 & A5 & A6 & A7 & A8 & A9). destruct C2 as (B1 & B2 & B3 & B4 & B5 & B6 & B7 & B8 & B9).
  assert (XX : x * x = 1) by (destruct DX as [-> | ->]; ring).
  assert (q01 : s1 ^ 2 - s0 ^ 2 <> 0) by nra.
  assert (q02 : s2 ^ 2 - s0 ^ 2 <> 0) by nra.
  assert (q12 : s2 ^ 2 - s1 ^ 2 <> 0) by nra.
  assert (Z : forall y, y <> 0 -> inv_or_0 y = / y) by (intros y Hy; unfold inv_or_0; destruct (Req_EM_T y 0); [contradiction|reflexivity]).
  pose proof (back_pair s0 s1 1 1 a01 a10 x01 x10 y01 y10 ltac:(ring) ltac:(ring) q01 ltac:(lra) ltac:(lra)) as P1.
  pose proof (back_pair s0 s2 1 x a02 a20 x02 x20 y02 y20 ltac:(ring) XX q02 ltac:(lra) ltac:(lra)) as P2.
  pose proof (back_pair s1 s2 1 x a12 a21 x12 x21 y12 y21 ltac:(ring) XX q12 ltac:(lra) ltac:(lra)) as P3.
  unfold so3_normalize_F. cbn [b0 b1 b2]. rewrite backB_entries.
  unfold frob. cbn [d00 d01 d02 d10 d11 d12 d20 d21 d22].
  rewrite (Z _ q01), (Z _ q02), (Z _ q12), (Z (s0 ^ 2 - s1 ^ 2)), (Z (s0 ^ 2 - s2 ^ 2)), (Z (s1 ^ 2 - s2 ^ 2)) by lra.
  assert (X0 : x00 = 0) by lra. assert (X1 : x11 = 0) by lra.
  assert (X2 : x22 = 0) by (destruct DX as [-> | ->]; lra).
  rewrite X0, X1, X2. 
  transitivity ((a01 * x01 + a10 * x10) + (a02 * x02 + a20 * x20) + (a12 * x12 + a21 * x21)); [ring|].
  rewrite P1, P2, P3. ring.
Qed.

Definition rotz (t : R) : M3 := mkM3 (cos t) (- sin t) 0 (sin t) (cos t) 0 0 0 1.
Lemma rotz_rot : forall t, rotation3 (rotz t).
Proof.
  intro t. pose proof (sin2_cos2 t) as P. unfold Rsqr in P.
  split; [apply M3_ext; cbn; lra|]. unfold det3, rotz; cbn. lra.
Qed.
Lemma rotz_svd : forall t s, b1 s <= b0 s -> b2 s <= b1 s -> 0 <= b2 s -> svd3 (mul3 (rotz t) (diag3 s)) (rotz t) s I3.
Proof.
  intros t s A B C. split; [apply rotz_rot|]. split; [apply M3_ext; cbn; ring|]. repeat (split; [assumption|]).
  rewrite <- (mul3_I_r (mul3 (rotz t) (diag3 s))) at 1. f_equal.
Qed.
Lemma rotz_norm : forall t, so3_normalize_from_svd (rotz t) I3 = rotz t.
Proof.
  intro t. unfold so3_normalize_from_svd. rewrite mul3_I_r, (proj2 (rotz_rot t)), lt_b_true by lra. cbn.
  unfold rotz. apply M3_ext; cbn; ring.
Qed.
Lemma rotz_deriv : deriv_m3 rotz 0 (mkM3 0 (-1) 0 1 0 0 0 0 0).
Proof.
  unfold rotz. repeat split; cbn [d00 d01 d02 d10 d11 d12 d20 d21 d22]; apply is_derive_Reals; auto_derive; auto;
    rewrite ?sin_0, ?cos_0; ring.
Qed.

(** the hypotheses hold for a turning matrix with singular values 3, 2, 1 *)
Example C52_backward_case :
  let h t := mul3 (rotz t) (diag3 (mkV3 3 2 1)) in
  frob (mkM3 0 0 0 1 0 0 0 0 0)
    (mkM3 0 (-1) 0 1 0 0 0 0 0)
  = frob (so3_normalize_backward (rotz 0) (mkV3 3 2 1) I3 1 (mkM3 0 0 0 1 0 0 0 0 0))
      (mul3 (mkM3 0 (-1) 0 1 0 0 0 0 0) (diag3 (mkV3 3 2 1)))
  /\ frob (mkM3 0 0 0 1 0 0 0 0 0) (mkM3 0 (-1) 0 1 0 0 0 0 0) = 1.
Proof.
  intro h. split; [|unfold frob; cbn; ring].
  assert (DE : det3 (mul3 (rotz 0) I3) = 1) by (rewrite mul3_I_r; apply (rotz_rot 0)).
  pose proof (C52_normalize_backward h rotz (rotz 0) (mkV3 3 2 1) I3
    (mul3 (mkM3 0 (-1) 0 1 0 0 0 0 0) (diag3 (mkV3 3 2 1))) (mkM3 0 (-1) 0 1 0 0 0 0 0) (mkM3 0 0 0 1 0 0 0 0 0) 1) as T.
  rewrite DE in T. apply T; clear T; cbn [b0 b1 b2]; try lra.
  - apply rotz_svd; cbn; lra.
  - symmetry. apply rotz_norm.
  - intros t _. exists (rotz t), (mkV3 3 2 1), I3. split; [apply rotz_svd; cbn; lra|symmetry; apply rotz_norm].
  - pose proof (deriv_mul3 rotz (fun _ => diag3 (mkV3 3 2 1)) 0 _ _ rotz_deriv (deriv_const_m3 _ 0)) as D. cbv beta in D.
    replace (add_m3 _ _) with (mul3 (mkM3 0 (-1) 0 1 0 0 0 0 0) (diag3 (mkV3 3 2 1))) in D; [exact D|].
    apply M3_ext; cbn; ring.
  - exact rotz_deriv.
Qed.

(** C52, F62: at a matrix with equal singular values the backward pass returns
    zero, although normalize is differentiable there: it is the identity on the
    curve of rotations about the third axis *)
Theorem C52_normalize_backward_refuted : exists h r u s v dm dr grad,
  svd3 (h 0) u s v /\ r 0 = so3_normalize_from_svd u v
  /\ (forall t, exists u' s' v', svd3 (h t) u' s' v' /\ r t = so3_normalize_from_svd u' v')
  /\ deriv_m3 h 0 dm /\ deriv_m3 r 0 dr /\ (forall t, rotation3 (h t))
  /\ so3_normalize_backward u s v (det3 (mul3 u v)) grad = zero_m3
  /\ frob grad dr <> frob (so3_normalize_backward u s v (det3 (mul3 u v)) grad) dm.
Proof.
  assert (SV : forall t, svd3 (rotz t) (rotz t) (mkV3 1 1 1) I3).
  { intro t. pose proof (rotz_svd t (mkV3 1 1 1) ltac:(cbn; lra) ltac:(cbn; lra) ltac:(cbn; lra)) as H.
    replace (mul3 (rotz t) (diag3 (mkV3 1 1 1))) with (rotz t) in H; [exact H|].
    rewrite <- (mul3_I_r (rotz t)) at 1. f_equal. }
  assert (Z : forall g, so3_normalize_backward (rotz 0) (mkV3 1 1 1) I3 (det3 (mul3 (rotz 0) I3)) g = zero_m3).
  { intro g. rewrite back_coords by (try apply rotz_rot; apply M3_ext; cbn; ring).
    set (A := coords _ _ _). set (x := det3 _). clearbody A x.
    assert (F : so3_normalize_F (mkV3 1 1 1) = zero_m3).
    { unfold so3_normalize_F, inv_or_0. cbn [b0 b1 b2].
      destruct (Req_EM_T (1 ^ 2 - 1 ^ 2) 0) as [_|N]; [reflexivity|exfalso; apply N; ring]. }
    rewrite F. unfold rotz. destruct A. apply M3_ext; cbn; ring. }
  exists rotz, rotz, (rotz 0), (mkV3 1 1 1), I3, (mkM3 0 (-1) 0 1 0 0 0 0 0), (mkM3 0 (-1) 0 1 0 0 0 0 0), (mkM3 0 0 0 1 0 0 0 0 0).
  split; [apply SV|]. split; [symmetry; apply rotz_norm|].
  split. { intro t. exists (rotz t), (mkV3 1 1 1), I3. split; [apply SV|symmetry; apply rotz_norm]. }
  split; [exact rotz_deriv|]. split; [exact rotz_deriv|]. split; [exact rotz_rot|].
  split; [apply Z|]. rewrite Z. unfold frob; cbn. lra.
Qed.
