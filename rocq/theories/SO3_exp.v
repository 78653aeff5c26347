(** C36: SO3.exp and its Jacobian. *)
From Coq Require Import Reals Lra Psatz.
From Coquelicot Require Import Coquelicot.
From Verif Require Import Geo_spec Geo3_spec Trig Exp_unique SE2_model SE2_group SE2_exp SE2_jac SO3_model.
Local Open Scope R_scope.

Lemma so3_eps_pos : forall d, 0 < so3_near_zero_eps d <= / 100.
Proof. intros []; cbn; lra. Qed.
Lemma so3_deps_pos : forall d, so3_near_zero_eps d < so3_d_near_zero_eps d <= 2 / 10.
Proof. intros []; cbn; lra. Qed.
Lemma so3_pi_eps_pos : forall d, 0 < so3_near_pi_eps d <= / 100.
Proof. intros []; cbn; lra. Qed.

Lemma norm3_len : forall v, norm3 v = len3 v.
Proof. reflexivity. Qed.
Lemma norm3_pos : forall v, 0 <= norm3 v.
Proof. intro. apply sqrt_pos. Qed.
Lemma dot3_pos : forall v, 0 <= dot3 v v.
Proof. intros [x y z]. unfold dot3; cbn [b0 b1 b2]. nra. Qed.
Lemma norm3_sq : forall v, norm3 v * norm3 v = dot3 v v.
Proof. intro v. unfold norm3. apply sqrt_sqrt. apply dot3_pos. Qed.
Lemma norm3_sq2 : forall v, norm3 v ^ 2 = dot3 v v.
Proof. intro v. rewrite <- norm3_sq. ring. Qed.
Lemma norm3_zero : forall v, norm3 v = 0 -> v = zero3.
Proof.
  intros v H. pose proof (norm3_sq v) as E. rewrite H in E. destruct v as [x y z].
  unfold dot3 in E. cbn [b0 b1 b2] in E. apply V3_ext; cbn; nra.
Qed.

(** ** the matrices c I + s hat(v) + o v v^T *)
Definition matc (c s o : R) (v : V3) : M3 := mkM3
  (o * b0 v * b0 v + c) (o * b0 v * b1 v - s * b2 v) (o * b0 v * b2 v + s * b1 v)
  (o * b1 v * b0 v + s * b2 v) (o * b1 v * b1 v + c) (o * b1 v * b2 v - s * b0 v)
  (o * b2 v * b0 v - s * b1 v) (o * b2 v * b1 v + s * b0 v) (o * b2 v * b2 v + c).

Lemma matc_rotation : forall c s o v,
  c + o * dot3 v v = 1 -> c * c + s * s * dot3 v v = 1 -> 2 * c * o + o * o * dot3 v v = s * s ->
  rotation3 (matc c s o v).
Proof.
  intros c s o [x y z]. unfold dot3. cbn [b0 b1 b2]. intros H1 H2 H3.
  set (n := x * x + y * y + z * z) in *.
  assert (X : x * x = n - y * y - z * z) by (unfold n; ring). clearbody n.
  assert (C : c = 1 - o * n) by lra. subst c.
  assert (S : s * s = 2 * o - o * o * n) by (rewrite <- H3; ring).
  clear H1 H3.
  split.
  - apply M3_ext; cbn; ring [X S].
  - unfold det3; cbn. ring [X S].
Qed.

Lemma exp_aux_big : forall d v, so3_near_zero_eps d <= norm3 v ->
  so3_exp_aux d v = Some (mkAux (norm3 v) (norm3 v ^ 2) (norm3 v) (norm3 v ^ 2)
    (sin (norm3 v)) (cos (norm3 v)) (sin (norm3 v) / norm3 v)
    ((1 - cos (norm3 v)) / norm3 v ^ 2)).
Proof.
  intros d v H. unfold so3_exp_aux. rewrite lt_b_false by exact H. unfold where_.
  pose proof (so3_eps_pos d). pose proof (pow2_ge_0 (norm3 v)).
  rewrite !div_some; [reflexivity| | |]; try lra.
  apply pow_nonzero; lra.
Qed.
Lemma exp_aux_small : forall d v, norm3 v < so3_near_zero_eps d ->
  so3_exp_aux d v = Some (mkAux (norm3 v) (norm3 v ^ 2) 1 1
    (sin (norm3 v)) (8 / (4 + norm3 v ^ 2) - 1) (4 / (4 + norm3 v ^ 2)) (2 / (4 + norm3 v ^ 2))).
Proof.
  intros d v H. unfold so3_exp_aux. rewrite lt_b_true by exact H. unfold where_, NON_ZERO.
  pose proof (pow2_ge_0 (norm3 v)).
  repeat (rewrite div_some by lra; cbv beta iota zeta delta [bind]). apply f_equal. f_equal; field; lra.
Qed.
Lemma exp_mat_matc : forall x v, so3_exp_mat x v = matc (x_cosine x) (x_sbt x) (x_omc x) v.
Proof. intros. reflexivity. Qed.

Lemma so3_exp_big : forall d v, so3_near_zero_eps d <= norm3 v ->
  so3_exp d v = Some (matc (cos (norm3 v)) (sin (norm3 v) / norm3 v)
                           ((1 - cos (norm3 v)) / norm3 v ^ 2) v).
Proof.
  intros d v H. unfold so3_exp. rewrite (exp_aux_big d v H). unfold bind.
  rewrite exp_mat_matc. reflexivity.
Qed.
Lemma so3_exp_small : forall d v, norm3 v < so3_near_zero_eps d ->
  so3_exp d v = Some (matc (8 / (4 + dot3 v v) - 1) (4 / (4 + dot3 v v)) (2 / (4 + dot3 v v)) v).
Proof.
  intros d v H. unfold so3_exp. rewrite (exp_aux_small d v H). unfold bind.
  rewrite exp_mat_matc. cbn [x_cosine x_sbt x_omc]. rewrite norm3_sq2. reflexivity.
Qed.

(** exp never fails and always returns a rotation, also inside the small-angle
    branch *)
Theorem C36_exp_rotation : forall d v, exists g, so3_exp d v = Some g /\ rotation3 g.
Proof.
  intros d v. destruct (Rlt_le_dec (norm3 v) (so3_near_zero_eps d)) as [S|B].
  - rewrite (so3_exp_small d v S). eexists; split; [reflexivity|].
    pose proof (dot3_pos v). apply matc_rotation; field; lra.
  - rewrite (so3_exp_big d v B). eexists; split; [reflexivity|].
    pose proof (so3_eps_pos d). pose proof (sin2cos2 (norm3 v)) as Q.
    apply matc_rotation; rewrite <- norm3_sq2; set (t := norm3 v) in *; clearbody t.
    + field. lra.
    + assert (QQ : sin t ^ 2 = 1 - cos t ^ 2) by (cbn; lra).
      field_simplify_eq; [|lra]. ring [QQ].
    + assert (QQ : sin t ^ 2 = 1 - cos t ^ 2) by (cbn; lra).
      field_simplify_eq; [|lra]. ring [QQ].
Qed.

(** ** exp is the matrix exponential *)
Definition E3 (v : V3) : M3 :=
  if Req_EM_T (norm3 v) 0 then I3
  else matc (cos (norm3 v)) (sin (norm3 v) / norm3 v) ((1 - cos (norm3 v)) / norm3 v ^ 2) v.

Lemma is_exp_E3 : forall v m, is_exp_m3 (so3_alg v) m <-> m = E3 v.
Proof.
  intros v m. unfold E3. destruct (Req_EM_T (norm3 v) 0) as [Z|N].
  - apply norm3_zero in Z. subst v.
    apply (exp_unique_m3 (so3_alg zero3) (fun _ => I3)); [reflexivity| |].
    + intro t. unfold deriv_m3; cbn.
      repeat split; (eapply deriv_val; [|apply d_const]); ring.
    + intro t. apply M3_ext; cbn; ring.
  - set (th := norm3 v) in *.
    pose (E := fun t => matc (cos (th * t)) (sin (th * t) / th) ((1 - cos (th * t)) / th ^ 2) v).
    assert (D : dot3 v v = th ^ 2) by (unfold th; rewrite norm3_sq2; reflexivity).
    replace (matc _ _ _ v) with (E 1) by (unfold E; rewrite Rmult_1_r; reflexivity).
    apply (exp_unique_m3 (so3_alg v) E).
    + unfold E. rewrite Rmult_0_r, cos_0, sin_0.
      apply M3_ext; cbn; field; exact N.
    + intro t.
      assert (DC : deriv (fun t => cos (th * t)) t (- sin (th * t) * th)).
      { apply is_derive_Reals. auto_derive; [exact I|ring]. }
      assert (DS : deriv (fun t => sin (th * t) / th) t (cos (th * t))).
      { apply is_derive_Reals. auto_derive; [exact I|field; exact N]. }
      assert (DO : deriv (fun t => (1 - cos (th * t)) / th ^ 2) t (sin (th * t) / th)).
      { apply is_derive_Reals. auto_derive; [exact I|field; exact N]. }
      unfold deriv_m3, E, matc, mul3, so3_alg.
      cbn [d00 d01 d02 d10 d11 d12 d20 d21 d22 b0 b1 b2].
      unfold dot3 in D. set (x := b0 v) in *. set (y := b1 v) in *. set (z := b2 v) in *.
      clearbody x y z th. clear E v m.
      assert (X : x ^ 2 = th ^ 2 - y ^ 2 - z ^ 2) by (rewrite <- D; ring).
      generalize dependent (sin (th * t)). generalize dependent (cos (th * t)). intros c s DC DS DO.
      repeat split; (eapply deriv_val; [|repeat dstep]); cbv beta;
        field_simplify_eq; try exact N; ring [X].
    + intro t. apply M3_ext; cbn; ring.
Qed.

Theorem C36_exp_is_exponential : forall d v g,
  so3_near_zero_eps d <= len3 v \/ v = zero3 -> so3_exp d v = Some g ->
  forall m, is_exp_m3 (so3_alg v) m <-> m = g.
Proof.
  intros d v g H E m. rewrite is_exp_E3. unfold E3.
  assert (g = E3 v) as ->; [|unfold E3; tauto].
  destruct H as [H|H].
  - rewrite <- norm3_len in H. pose proof (so3_eps_pos d).
    rewrite (so3_exp_big d v H) in E. apply some_inj in E. subst g. unfold E3.
    destruct (Req_EM_T (norm3 v) 0); [lra|reflexivity].
  - subst v. pose proof (so3_eps_pos d).
    assert (Z : norm3 zero3 = 0).
    { unfold norm3, zero3. cbn [b0 b1 b2]. replace (0 * 0 + 0 * 0 + 0 * 0) with 0 by ring. apply sqrt_0. }
    rewrite so3_exp_small in E by lra. apply some_inj in E. subst g. unfold E3.
    destruct (Req_EM_T (norm3 zero3) 0); [|lra].
    replace (dot3 zero3 zero3) with 0 by (unfold dot3, zero3; cbn [b0 b1 b2]; ring).
    apply M3_ext; cbn [matc I3 zero3 d00 d01 d02 d10 d11 d12 d20 d21 d22 b0 b1 b2]; field.
Qed.

(** inside the small-angle branch the result differs from the exponential by at
    most theta^3 / 10 in every entry *)
Lemma sinc_coef : forall t, 0 < t < 1 -> 0 <= sin t / t - 4 / (4 + t ^ 2) <= t ^ 2 / 12.
Proof.
  intros t H. pose proof (sin_ge_3 t ltac:(lra)). pose proof (sin_le_5 t ltac:(lra)).
  assert (A : t * (1 - t ^ 2 / 6) <= sin t) by lra.
  assert (B : sin t <= t * (1 - t ^ 2 / 6 + t ^ 4 / 120)) by lra.
  assert (P : 0 < / t) by (apply Rinv_0_lt_compat; lra).
  assert (A' : 1 - t ^ 2 / 6 <= sin t / t).
  { replace (1 - t ^ 2 / 6) with (t * (1 - t ^ 2 / 6) / t) by (field; lra).
    apply Rmult_le_compat_r; lra. }
  assert (B' : sin t / t <= 1 - t ^ 2 / 6 + t ^ 4 / 120).
  { replace (1 - t ^ 2 / 6 + t ^ 4 / 120) with (t * (1 - t ^ 2 / 6 + t ^ 4 / 120) / t) by (field; lra).
    apply Rmult_le_compat_r; lra. }
  assert (K : 4 / (4 + t ^ 2) = 1 - t ^ 2 / 4 + (t ^ 4 / 4) * / (4 + t ^ 2)) by (field; nra).
  assert (K1 : / 5 <= / (4 + t ^ 2) <= / 4).
  { split; apply Rinv_le_contravar; nra. }
  set (k := / (4 + t ^ 2)) in *. clearbody k.
  replace (t ^ 4) with (t ^ 2 * t ^ 2) in * by ring.
  assert (T : 0 <= t ^ 2 <= 1) by nra. set (u := t ^ 2) in *. clearbody u.
  assert (0 <= u * u <= u) by nra.
  rewrite K. clear K.
  assert (u * u / 5 <= u * u * k <= u * u / 4) by nra. split; nra.
Qed.

Lemma cosc_coef : forall t, 0 < t < 1 -> 0 <= (1 - cos t) / t ^ 2 - 2 / (4 + t ^ 2) <= t ^ 2 / 8.
Proof.
  intros t H. pose proof (cos_le_4 t ltac:(lra)). pose proof (cos_ge_2 t ltac:(lra)).
  assert (P : 0 < t ^ 2) by nra.
  assert (A' : 1 / 2 - t ^ 2 / 24 <= (1 - cos t) / t ^ 2).
  { replace (1 / 2 - t ^ 2 / 24) with ((1 - (1 - t ^ 2 / 2 + t ^ 4 / 24)) / t ^ 2) by (field; lra).
    apply Rmult_le_compat_r; [|lra]. left. apply Rinv_0_lt_compat. exact P. }
  assert (B' : (1 - cos t) / t ^ 2 <= 1 / 2).
  { replace (1 / 2) with ((1 - (1 - t ^ 2 / 2)) / t ^ 2) by (field; lra).
    apply Rmult_le_compat_r; [|lra]. left. apply Rinv_0_lt_compat. exact P. }
  assert (K : 2 / (4 + t ^ 2) = 1 / 2 - t ^ 2 / 2 * / (4 + t ^ 2)) by (field; nra).
  assert (K1 : / 5 <= / (4 + t ^ 2) <= / 4).
  { split; apply Rinv_le_contravar; nra. }
  set (k := / (4 + t ^ 2)) in *. clearbody k. rewrite K.
  set (u := t ^ 2) in *. clearbody u. split; nra.
Qed.
Lemma cos_coef : forall t, 0 < t < 1 -> 0 <= (8 / (4 + t ^ 2) - 1) - cos t <= t ^ 4 / 6.
Proof.
  intros t H. pose proof (cos_le_4 t ltac:(lra)). pose proof (cos_ge_2 t ltac:(lra)).
  assert (P : 0 < t ^ 2) by nra.
  assert (K : 8 / (4 + t ^ 2) = 2 - t ^ 2 / 2 + t ^ 4 / 2 * / (4 + t ^ 2)) by (field; nra).
  assert (K1 : / 5 <= / (4 + t ^ 2) <= / 4).
  { split; apply Rinv_le_contravar; nra. }
  set (k := / (4 + t ^ 2)) in *. clearbody k. rewrite K.
  replace (t ^ 4) with (t ^ 2 * t ^ 2) in * by ring.
  set (u := t ^ 2) in *. clearbody u. split; nra.
Qed.

Lemma coord_le : forall v, Rabs (b0 v) <= norm3 v /\ Rabs (b1 v) <= norm3 v /\ Rabs (b2 v) <= norm3 v.
Proof.
  intro v. pose proof (norm3_sq v) as Q. pose proof (norm3_pos v) as P.
  unfold dot3 in Q. destruct v as [x y z]. cbn [b0 b1 b2] in *.
  set (n := norm3 _) in *. clearbody n.
  repeat split; (apply Rabs_le; split; nra).
Qed.
Lemma prod_le : forall a b n, Rabs a <= n -> Rabs b <= n -> Rabs (a * b) <= n * n.
Proof.
  intros. rewrite Rabs_mult. pose proof (Rabs_pos a). pose proof (Rabs_pos b). nra.
Qed.
Lemma diag_near : forall o o' c c' x t, 0 < t <= / 100 -> Rabs x <= t ->
  0 <= o' - o <= t ^ 2 / 8 -> 0 <= c - c' <= t ^ 4 / 6 ->
  Rabs (o * x * x + c - (o' * x * x + c')) <= t ^ 3 / 10.
Proof.
  intros o o' c c' x t Ht Hx Ho Hc.
  replace (o * x * x + c - (o' * x * x + c')) with ((c - c') - (o' - o) * (x * x)) by ring.
  pose proof (prod_le x x t Hx Hx) as P. assert (0 <= x * x) by nra.
  rewrite Rabs_pos_eq in P by assumption.
  set (y := x * x) in *. clearbody y. set (e := o' - o) in *. clearbody e.
  set (f := c - c') in *. clearbody f.
  assert (0 <= e * y <= t ^ 2 / 8 * (t * t)) by nra.
  replace (t ^ 2 / 8 * (t * t)) with (t ^ 3 * t / 8) in * by field.
  replace (t ^ 4) with (t ^ 3 * t) in * by ring.
  assert (0 < t ^ 3) by (apply pow_lt; lra).
  assert (t ^ 3 * t <= t ^ 3 / 100) by nra.
  apply Rabs_le. split; lra.
Qed.
Lemma off_near : forall o o' s s' x y z t (g : R), 0 < t <= / 100 -> Rabs x <= t -> Rabs y <= t -> Rabs z <= t ->
  g = 1 \/ g = -1 ->
  0 <= o' - o <= t ^ 2 / 8 -> 0 <= s' - s <= t ^ 2 / 12 ->
  Rabs (o * x * y + g * (s * z) - (o' * x * y + g * (s' * z))) <= t ^ 3 / 10.
Proof.
  intros o o' s s' x y z t g Ht Hx Hy Hz Hg Ho Hs.
  replace (o * x * y + g * (s * z) - (o' * x * y + g * (s' * z)))
    with (- ((o' - o) * (x * y) + g * ((s' - s) * z))) by ring.
  rewrite Rabs_Ropp. eapply Rle_trans; [apply Rabs_triang|].
  pose proof (prod_le x y t Hx Hy) as P.
  replace (Rabs (g * ((s' - s) * z))) with (Rabs ((s' - s) * z))
    by (destruct Hg as [->| ->]; [f_equal; ring|rewrite <- Rabs_Ropp; f_equal; ring]).
  rewrite !Rabs_mult in *. rewrite (Rabs_pos_eq (o' - o)), (Rabs_pos_eq (s' - s)) by lra.
  set (a := Rabs x * Rabs y) in *. assert (0 <= a) by (unfold a; pose proof (Rabs_pos x); pose proof (Rabs_pos y); nra).
  clearbody a. pose proof (Rabs_pos z). set (b := Rabs z) in *. clearbody b.
  set (e := o' - o) in *. clearbody e. set (f := s' - s) in *. clearbody f.
  assert (0 <= e * a <= t ^ 2 / 8 * (t * t)) by nra.
  assert (0 <= f * b <= t ^ 2 / 12 * t) by nra.
  replace (t ^ 2 / 8 * (t * t)) with (t ^ 3 * t / 8) in * by field.
  replace (t ^ 2 / 12 * t) with (t ^ 3 / 12) in * by field.
  assert (0 < t ^ 3) by (apply pow_lt; lra).
  assert (t ^ 3 * t <= t ^ 3 / 100) by nra. lra.
Qed.

Theorem C36_exp_small_angle : forall d v g m,
  len3 v < so3_near_zero_eps d -> so3_exp d v = Some g -> is_exp_m3 (so3_alg v) m ->
  near_m3 (len3 v ^ 3 / 10) g m.
Proof.
  intros d v g m H E M. rewrite <- norm3_len in *.
  rewrite (so3_exp_small d v H) in E. apply some_inj in E. subst g.
  apply is_exp_E3 in M. subst m. unfold E3.
  destruct (Req_EM_T (norm3 v) 0) as [Z|N].
  - rewrite Z. apply norm3_zero in Z. subst v.
    replace (dot3 zero3 zero3) with 0 by (unfold dot3, zero3; cbn [b0 b1 b2]; ring).
    unfold near_m3, matc, I3, zero3. cbn [d00 d01 d02 d10 d11 d12 d20 d21 d22 b0 b1 b2].
    repeat split; (match goal with |- Rabs ?x <= _ => replace x with 0 by field end);
      rewrite Rabs_R0; lra.
  - rewrite <- norm3_sq2. pose proof (norm3_pos v). pose proof (so3_eps_pos d).
    destruct (coord_le v) as (C0 & C1 & C2).
    set (t := norm3 v) in *.
    pose proof (sinc_coef t ltac:(lra)) as S. pose proof (cosc_coef t ltac:(lra)) as O.
    pose proof (cos_coef t ltac:(lra)) as C.
    assert (T : 0 < t <= / 100) by lra.
    unfold near_m3, matc. cbn [d00 d01 d02 d10 d11 d12 d20 d21 d22].
    repeat split.
    1,5,9: apply diag_near; assumption.
    all: match goal with |- Rabs (?o * ?x * ?y + ?s * ?z - (?o' * _ * _ + ?s' * _)) <= _ =>
         replace (o * x * y + s * z - (o' * x * y + s' * z))
           with (o * x * y + 1 * (s * z) - (o' * x * y + 1 * (s' * z))) by ring
       | |- Rabs (?o * ?x * ?y - ?s * ?z - (?o' * _ * _ - ?s' * _)) <= _ =>
         replace (o * x * y - s * z - (o' * x * y - s' * z))
           with (o * x * y + (-1) * (s * z) - (o' * x * y + (-1) * (s' * z))) by ring end;
      apply off_near; auto.
Qed.
