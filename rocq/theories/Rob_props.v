(** C31-C33: robust losses and robust cost functions. *)
From Coq Require Import List Arith Bool Reals Lra Lia Psatz.
From Coquelicot Require Import Coquelicot.
From Verif Require Import RSum Rob_model.
Local Open Scope R_scope.

(** ---- specification: the losses without the code's epsilons ---- *)
Inductive kind := Welsch | Huber | Hinge | Geman (mu : R).
Definition code (k : kind) : loss := match k with Welsch => welsch | Huber => huber | Hinge => hinge | Geman mu => geman mu end.
(** [rho k r x]: loss of the squared norm [x] for radius [r] (radius on the scale of the squared norm) *)
Definition rho (k : kind) (r x : R) : R :=
  match k with
  | Welsch => r * (1 - exp (- x / r))
  | Huber => if Rle_dec x r then x else 2 * sqrt (r * x) - r
  | Hinge => if Rle_dec x r then 0 else sqrt x - sqrt r
  | Geman mu => mu * r * x / (mu * r + x)
  end.
(** its derivative *)
Definition rho' (k : kind) (r x : R) : R :=
  match k with
  | Welsch => exp (- x / r)
  | Huber => if Rle_dec x r then 1 else sqrt (r / x)
  | Hinge => if Rle_dec x r then 0 else / (2 * sqrt x)
  | Geman mu => (mu * r / (mu * r + x)) ^ 2
  end.
Definition good_kind (k : kind) : Prop := match k with Geman mu => 0 < mu | _ => True end.
(** the kink of the hinge loss *)
Definition smooth_at (k : kind) (r x : R) : Prop := match k with Hinge => x <> r | _ => True end.
Definition eps : R := / 10 ^ 20.

Lemma eps_pos : 0 < eps. Proof. unfold eps. apply Rinv_0_lt_compat. lra. Qed.
Lemma loss_eps : LOSS_EPS = eps. Proof. reflexivity. Qed.
Lemma rgtb_le x r : rgtb x r = if Rle_dec x r then false else true.
Proof. unfold rgtb. destruct (Rlt_dec r x), (Rle_dec x r); auto; lra. Qed.

Lemma sqrt_step a e : 0 <= a -> 0 <= e -> 0 <= sqrt (a + e) - sqrt a <= sqrt e.
Proof.
  intros Ha He. pose proof (sqrt_le_1 a (a + e) Ha ltac:(lra) ltac:(lra)).
  pose proof (sqrt_pos a). pose proof (sqrt_pos e). pose proof (sqrt_sqrt a Ha). pose proof (sqrt_sqrt e He).
  split; [lra|]. assert (sqrt (a + e) <= sqrt a + sqrt e); [|lra].
  apply Rsqr_incr_0_var; [|lra]. rewrite Rsqr_sqrt by lra. unfold Rsqr. nra.
Qed.
Lemma sqrt_step_rel a e : 0 < a -> 0 <= e -> 0 <= sqrt (a + e) - sqrt a <= e / (2 * sqrt a).
Proof.
  intros Ha He. pose proof (sqrt_le_1 a (a + e) ltac:(lra) ltac:(lra) ltac:(lra)). pose proof (sqrt_lt_R0 a Ha) as Hs. pose proof (sqrt_sqrt a ltac:(lra)) as Hss.
  split; [lra|]. set (q := e / (2 * sqrt a)). assert (Hq : q * (2 * sqrt a) = e) by (unfold q; field; lra). assert (0 <= q) by (unfold q; apply Rmult_le_pos; [lra|apply Rlt_le, Rinv_0_lt_compat; lra]).
  assert (sqrt (a + e) <= sqrt a + q); [|lra]. apply Rsqr_incr_0_var; [|lra]. rewrite Rsqr_sqrt by lra. unfold Rsqr. nra.
Qed.
Lemma exp_step r x : 0 < r -> 0 <= x -> 0 <= exp (- x / (r + eps)) - exp (- x / r) <= eps / r.
Proof.
  intros Hr Hx. pose proof eps_pos as He. set (b := x / (r + eps)). set (c := b * (eps / r)).
  assert (Hb : 0 <= b) by (unfold b; apply Rmult_le_pos; [lra|apply Rlt_le, Rinv_0_lt_compat; lra]).
  assert (Her : 0 < eps / r) by (apply Rdiv_lt_0_compat; lra). assert (Hc : 0 <= c) by (unfold c; nra).
  replace (- x / (r + eps)) with (- b) by (unfold b; field; lra). replace (- x / r) with (- b + - c) by (unfold c, b; field; lra).
  rewrite exp_plus. pose proof (exp_pos (- b)) as Pb. pose proof (exp_pos (- c)) as Pc.
  pose proof (exp_ineq1_le (- c)) as I1. pose proof (exp_ineq1_le b) as I2.
  assert (E1 : exp (- c) <= 1). { rewrite <- exp_0. destruct (Req_dec c 0) as [->|N]; [rewrite Ropp_0; lra|left; apply exp_increasing; lra]. }
  assert (E2 : exp (- b) * b <= 1). { rewrite exp_Ropp. apply (Rmult_le_reg_l (exp b)); [apply exp_pos|]. rewrite <- Rmult_assoc, Rinv_r by (pose proof (exp_pos b); lra). lra. }
  split; [nra|]. replace (exp (- b) - exp (- b) * exp (- c)) with (exp (- b) * (1 - exp (- c))) by ring.
  apply Rle_trans with (exp (- b) * c); [apply Rmult_le_compat_l; lra|]. unfold c. rewrite <- Rmult_assoc. nra.
Qed.

(** ---- C33: the losses are what they claim ---- *)
(** evaluate and linearize are within the documented epsilon (10^-20, and its square root for Huber) of the
    loss and of its derivative *)
Definition eval_bound (k : kind) (r : R) : R := match k with Huber => eps / r | _ => eps end.
Definition lin_bound (k : kind) (r : R) : R :=
  match k with Welsch => eps / r | Huber => sqrt eps | Hinge => eps / r | Geman mu => eps / (mu * r) ^ 2 end.
Lemma div_pos a b : 0 <= a -> 0 < b -> 0 <= a / b.
Proof. intros. apply Rmult_le_pos; [assumption|]. left. now apply Rinv_0_lt_compat. Qed.
Lemma div_le a b c : 0 < b -> a <= c * b -> a / b <= c.
Proof. intros Hb H. apply (Rmult_le_reg_r b); [exact Hb|]. unfold Rdiv. rewrite Rmult_assoc, Rinv_l by lra. lra. Qed.

Theorem C33_evaluate_is_loss : forall k log_radius x, good_kind k -> 0 <= x ->
  Rabs (evaluate (code k) x log_radius - rho k (exp log_radius) x) <= eval_bound k (exp log_radius).
Proof.
  intros k lr x Hk Hx. unfold evaluate. set (r := exp lr). assert (Hr : 0 < r) by apply exp_pos. clearbody r. pose proof eps_pos as He.
  destruct k as [| | |mu]; cbn [code evaluate_impl welsch huber hinge geman rho eval_bound]; rewrite ?loss_eps, ?rgtb_le.
  - pose proof (exp_step r x Hr Hx) as [A B]. assert (r * (exp (- x / (r + eps)) - exp (- x / r)) <= eps).
    { apply Rle_trans with (r * (eps / r)); [apply Rmult_le_compat_l; lra|]. right. field. lra. }
    rewrite Rabs_left1 by nra. nra.
  - destruct (Rle_dec x r) as [L|L]; [rewrite Rminus_diag_eq, Rabs_R0 by reflexivity; apply div_pos; lra|].
    rewrite Rmax_left by lra. assert (Hrx : 0 < r * x) by nra. destruct (sqrt_step_rel (r * x) eps Hrx ltac:(lra)) as [A B].
    rewrite Rabs_pos_eq by lra. assert (r <= sqrt (r * x)). { rewrite <- (sqrt_Rsqr r) at 1 by lra. apply sqrt_le_1; unfold Rsqr; nra. }
    apply Rle_trans with (2 * (eps / (2 * sqrt (r * x)))); [lra|].
    replace (2 * (eps / (2 * sqrt (r * x)))) with (eps * / sqrt (r * x)) by (field; lra). unfold Rdiv. apply Rmult_le_compat_l; [lra|]. apply Rinv_le_contravar; lra.
  - destruct (Rle_dec x r); [rewrite Rminus_0_r, Rabs_pos_eq; lra|]. rewrite Rminus_diag_eq, Rabs_R0 by reflexivity. lra.
  - cbn in Hk. set (m := mu * r). assert (Hm : 0 < m) by (unfold m; nra).
    replace (m * x / (m + x + eps) - m * x / (m + x)) with (- ((m * x * eps) / ((m + x + eps) * (m + x)))) by (field; lra).
    rewrite Rabs_Ropp, Rabs_pos_eq by (apply div_pos; [apply Rmult_le_pos; nra|nra]). apply div_le; [nra|].
    assert (m * x <= (m + x + eps) * (m + x)) by nra. nra.
Qed.

Theorem C33_linearize_is_derivative : forall k log_radius x, good_kind k -> 0 <= x ->
  Rabs (linearize (code k) x log_radius - rho' k (exp log_radius) x) <= lin_bound k (exp log_radius).
Proof.
  intros k lr x Hk Hx. unfold linearize. set (r := exp lr). assert (Hr : 0 < r) by apply exp_pos. clearbody r. pose proof eps_pos as He.
  destruct k as [| | |mu]; cbn [code linearize_impl welsch huber hinge geman rho' lin_bound]; rewrite ?loss_eps, ?rgtb_le.
  - pose proof (exp_step r x Hr Hx) as [A B]. rewrite Rabs_pos_eq; lra.
  - destruct (Rle_dec x r) as [L|L].
    + rewrite Rmax_right by lra. replace (r / r) with 1 by (field; lra). pose proof (sqrt_step 1 eps ltac:(lra) ltac:(lra)). rewrite sqrt_1 in *. rewrite Rabs_pos_eq; lra.
    + rewrite Rmax_left by lra. pose proof (sqrt_step (r / x) eps ltac:(apply div_pos; lra) ltac:(lra)). rewrite Rabs_pos_eq; lra.
  - destruct (Rle_dec x r) as [L|L]; [rewrite Rminus_0_r, Rabs_R0; apply div_pos; lra|].
    pose proof (sqrt_lt_R0 x ltac:(lra)) as Hs. pose proof (sqrt_sqrt x Hx) as Hss.
    replace (1 / (2 * sqrt x + eps) - / (2 * sqrt x)) with (- (eps / ((2 * sqrt x + eps) * (2 * sqrt x)))) by (field; lra).
    rewrite Rabs_Ropp, Rabs_pos_eq by (apply div_pos; nra). unfold Rdiv. apply Rmult_le_compat_l; [lra|]. apply Rinv_le_contravar; nra.
  - cbn in Hk. set (m := mu * r). assert (Hm : 0 < m) by (unfold m; nra).
    assert (0 < (m + x) ^ 2) by (apply pow_lt; lra). assert (0 < m ^ 2) by (apply pow_lt; lra).
    replace (m ^ 2 / ((m + x) ^ 2 + eps) - (m / (m + x)) ^ 2) with (- (m ^ 2 * eps / (((m + x) ^ 2 + eps) * (m + x) ^ 2))) by (field; split; nra).
    rewrite Rabs_Ropp, Rabs_pos_eq by (apply div_pos; nra). apply div_le; [nra|].
    replace (eps / m ^ 2 * (((m + x) ^ 2 + eps) * (m + x) ^ 2)) with (eps * ((((m + x) ^ 2 + eps) * (m + x) ^ 2) / m ^ 2)) by (field; nra).
    rewrite (Rmult_comm (m ^ 2)). apply Rmult_le_compat_l; [lra|].
    apply (Rmult_le_reg_r (m ^ 2)); [assumption|]. unfold Rdiv. rewrite Rmult_assoc, Rinv_l by lra. rewrite Rmult_1_r.
    assert (m ^ 2 <= (m + x) ^ 2) by nra. nra.
Qed.

Lemma dpl_local f g x l d : 0 < d -> (forall y, Rabs (y - x) < d -> f y = g y) -> derivable_pt_lim g x l -> derivable_pt_lim f x l.
Proof.
  intros Hd E H. apply is_derive_Reals. apply is_derive_Reals in H. apply (is_derive_ext_loc g); [|exact H].
  exists (mkposreal d Hd). intros y Hy. symmetry. apply E. exact Hy.
Qed.
Theorem C33_derivative : forall k r x, good_kind k -> 0 < r -> 0 <= x -> smooth_at k r x ->
  derivable_pt_lim (rho k r) x (rho' k r x).
Proof.
  intros k r x Hk Hr Hx Hs. destruct k as [| | |mu]; unfold rho, rho'; cbn [good_kind smooth_at] in *.
  - apply is_derive_Reals. auto_derive; [exact I|]. replace (- x * / r) with (- x / r) by reflexivity. field. lra.
  - destruct (Rtotal_order x r) as [L|[->|L]].
    + apply (dpl_local _ (fun y => y) x _ (r - x)); [lra| |].
      * intros y Hy. apply Rabs_def2 in Hy. destruct (Rle_dec y r); lra.
      * destruct (Rle_dec x r); [|lra]. apply derivable_pt_lim_id.
    + intros e He. assert (Hd : 0 < r * e) by nra. exists (mkposreal _ Hd). intros h Hh Hlt. cbn [pos] in Hlt. destruct (Rle_dec r r) as [_|N]; [|lra].
      destruct (Rle_dec (r + h) r) as [L|L]; [|].
      * replace ((r + h - r) / h - 1) with 0 by (field; lra). rewrite Rabs_R0. lra.
      * assert (0 < h) by lra. set (s := sqrt (r * (r + h))). assert (Hss : s * s = r * (r + h)) by (unfold s; apply sqrt_sqrt; nra).
        assert (r <= s). { unfold s. rewrite <- (sqrt_Rsqr r) at 1 by lra. apply sqrt_le_1; unfold Rsqr; nra. }
        assert (s <= r + h / 2) by nra.
        replace ((2 * s - r - r) / h - 1) with (- ((h - 2 * (s - r)) / h)) by (field; lra).
        rewrite Rabs_pos_eq in Hlt by lra. rewrite Rabs_Ropp, Rabs_pos_eq by (apply div_pos; lra).
        apply (Rmult_lt_reg_r h); [assumption|]. unfold Rdiv. rewrite Rmult_assoc, Rinv_l, Rmult_1_r by lra.
        (* (s - r)(s + r) = r h *)
        assert (Hp : (s - r) * (s + r) = r * h) by nra.
        assert (h - 2 * (s - r) <= h * (s - r) / r). { apply (Rmult_le_reg_r r); [lra|]. unfold Rdiv. rewrite (Rmult_assoc (h * (s - r))), Rinv_l, Rmult_1_r by lra. nra. }
        assert (h * (s - r) / r <= h * (h / 2) / r). { unfold Rdiv at 1 3. apply Rmult_le_compat_r; [left; apply Rinv_0_lt_compat; lra|]. nra. }
        assert (h * (h / 2) / r < e * h). { apply (Rmult_lt_reg_r r); [lra|]. unfold Rdiv at 1. rewrite Rmult_assoc, Rinv_l, Rmult_1_r by lra. nra. }
        lra.
    + apply (dpl_local _ (fun y => 2 * sqrt (r * y) - r) x _ (x - r)); [lra| |].
      * intros y Hy. apply Rabs_def2 in Hy. destruct (Rle_dec y r); [lra|reflexivity].
      * destruct (Rle_dec x r); [lra|]. apply is_derive_Reals. auto_derive; [nra|].
        pose proof (sqrt_lt_R0 x ltac:(lra)). pose proof (sqrt_lt_R0 r ltac:(lra)). pose proof (sqrt_sqrt r ltac:(lra)) as Hrr.
        rewrite sqrt_mult by lra. rewrite sqrt_div by lra. transitivity (sqrt r * sqrt r / (sqrt r * sqrt x)); [rewrite Hrr; field; lra|field; lra].
  - destruct (Rtotal_order x r) as [L|[->|L]]; [|congruence|].
    + apply (dpl_local _ (fun y => 0) x _ (r - x)); [lra| |].
      * intros y Hy. apply Rabs_def2 in Hy. destruct (Rle_dec y r); lra.
      * destruct (Rle_dec x r); [|lra]. apply derivable_pt_lim_const.
    + apply (dpl_local _ (fun y => sqrt y - sqrt r) x _ (x - r)); [lra| |].
      * intros y Hy. apply Rabs_def2 in Hy. destruct (Rle_dec y r); [lra|reflexivity].
      * destruct (Rle_dec x r); [lra|]. apply is_derive_Reals. auto_derive; [lra|]. field. pose proof (sqrt_lt_R0 x ltac:(lra)). lra.
  - assert (0 < mu * r) by nra. apply is_derive_Reals. auto_derive; [lra|]. field. lra.
Qed.

(** shape of the losses: non-negative, zero at zero, monotone; never above the squared error for
    Welsch, Huber and Geman-McClure; Huber is the squared error inside the radius *)
Lemma rho_zero k r : good_kind k -> 0 < r -> rho k r 0 = 0.
Proof.
  intros Hk Hr. destruct k as [| | |mu]; cbn in *; try (destruct (Rle_dec 0 r); lra).
  - replace (- 0 / r) with 0 by (field; lra). rewrite exp_0. ring.
Qed.
Lemma exp_le x y : x <= y -> exp x <= exp y.
Proof. intros [H| ->]; [left; now apply exp_increasing|lra]. Qed.
Lemma rho_mono k r x y : good_kind k -> 0 < r -> 0 <= x <= y -> rho k r x <= rho k r y.
Proof.
  intros Hk Hr [Hx Hxy]. destruct k as [| | |mu]; cbn in *.
  - apply Rmult_le_compat_l; [lra|]. assert (exp (- y / r) <= exp (- x / r)); [|lra]. apply exp_le. unfold Rdiv. apply Rmult_le_compat_r; [left; now apply Rinv_0_lt_compat|lra].
  - destruct (Rle_dec x r), (Rle_dec y r); try lra.
    + assert (r <= sqrt (r * y)). { rewrite <- (sqrt_Rsqr r) at 1 by lra. apply sqrt_le_1; unfold Rsqr; nra. } lra.
    + assert (sqrt (r * x) <= sqrt (r * y)) by (apply sqrt_le_1; nra). lra.
  - destruct (Rle_dec x r), (Rle_dec y r); try lra.
    + assert (sqrt r <= sqrt y) by (apply sqrt_le_1; lra). lra.
    + assert (sqrt x <= sqrt y) by (apply sqrt_le_1; lra). lra.
  - set (m := mu * r). assert (0 < m) by (unfold m; nra). apply div_le; [lra|].
    replace (m * y / (m + y) * (m + x)) with (m * (y * (m + x)) / (m + y)) by (field; lra).
    apply (Rmult_le_reg_r (m + y)); [lra|]. unfold Rdiv. rewrite (Rmult_assoc (m * (y * (m + x)))), Rinv_l by lra. nra.
Qed.
Lemma rho_nonneg k r x : good_kind k -> 0 < r -> 0 <= x -> 0 <= rho k r x.
Proof. intros. rewrite <- (rho_zero k r) by assumption. apply rho_mono; auto; lra. Qed.
Lemma rho_below k r x : good_kind k -> k <> Hinge -> 0 < r -> 0 <= x -> rho k r x <= x.
Proof.
  intros Hk Hn Hr Hx. destruct k as [| | |mu]; cbn in *; [| |congruence|].
  - pose proof (exp_ineq1_le (- x / r)) as H. assert (r * (1 + - x / r) <= r * exp (- x / r)) by (apply Rmult_le_compat_l; lra).
    replace (r * (1 + - x / r)) with (r - x) in * by (field; lra). lra.
  - destruct (Rle_dec x r); [lra|]. assert (sqrt (r * x) <= (r + x) / 2); [|lra].
    apply Rsqr_incr_0_var; [|lra]. rewrite Rsqr_sqrt by nra. unfold Rsqr. nra.
  - set (m := mu * r). assert (0 < m) by (unfold m; nra). apply div_le; nra.
Qed.
Theorem C33_shape : forall k r x y, good_kind k -> 0 < r -> 0 <= x <= y ->
  rho k r 0 = 0 /\ 0 <= rho k r x /\ rho k r x <= rho k r y /\ (k <> Hinge -> rho k r x <= x) /\ (k = Huber -> x <= r -> rho k r x = x).
Proof.
  intros k r x y Hk Hr Hxy. split; [now apply rho_zero|]. split; [apply rho_nonneg; auto; lra|]. split; [now apply rho_mono|].
  split; [intros; apply rho_below; auto; lra|]. intros -> L. cbn. destruct (Rle_dec x r); [reflexivity|contradiction].
Qed.
(** the same for [evaluate] itself, as far as it is true *)
Theorem C33_evaluate_shape_partial : forall k lr x y, good_kind k -> 0 <= x <= y ->
  0 <= evaluate (code k) x lr /\
  (k <> Hinge -> evaluate (code k) 0 lr = 0 /\ evaluate (code k) x lr <= evaluate (code k) y lr) /\
  (k = Welsch \/ (exists mu, k = Geman mu) -> evaluate (code k) x lr <= x) /\
  (k = Huber -> x <= exp lr -> evaluate (code k) x lr = x).
Proof.
  intros k lr x y Hk [Hx Hxy]. unfold evaluate. set (r := exp lr). assert (Hr : 0 < r) by apply exp_pos. clearbody r. pose proof eps_pos as He.
  assert (M : k <> Hinge -> evaluate_impl (code k) 0 r = 0 /\ (forall a b, 0 <= a <= b -> evaluate_impl (code k) a r <= evaluate_impl (code k) b r)).
  { intros Hn. destruct k as [| | |mu]; [| |congruence|]; cbn [code evaluate_impl welsch huber geman]; rewrite ?loss_eps, ?rgtb_le.
    - split; [replace (- 0 / (r + eps)) with 0 by (field; lra); rewrite exp_0; ring|]. intros a b Hab.
      assert (exp (- b / (r + eps)) <= exp (- a / (r + eps))); [|nra]. apply exp_le. unfold Rdiv. apply Rmult_le_compat_r; [left; apply Rinv_0_lt_compat; lra|lra].
    - split; [destruct (Rle_dec 0 r); lra|]. intros a b Hab. rewrite !rgtb_le. destruct (Rle_dec a r), (Rle_dec b r); try lra.
      + rewrite Rmax_left by lra. assert (r <= sqrt (r * b + eps)). { rewrite <- (sqrt_Rsqr r) at 1 by lra. apply sqrt_le_1; unfold Rsqr; nra. } lra.
      + rewrite !Rmax_left by lra. assert (sqrt (r * a + eps) <= sqrt (r * b + eps)) by (apply sqrt_le_1; nra). lra.
    - cbn in Hk. set (m := mu * r). assert (0 < m) by (unfold m; nra). split; [field; lra|]. intros a b Hab. apply div_le; [lra|].
      replace (m * b / (m + b + eps) * (m + a + eps)) with (m * (b * (m + a + eps)) / (m + b + eps)) by (field; lra).
      apply (Rmult_le_reg_r (m + b + eps)); [lra|]. unfold Rdiv. rewrite (Rmult_assoc (m * (b * (m + a + eps)))), Rinv_l by lra.
      assert (a * eps <= b * eps) by nra. assert (a * m <= b * m) by nra. nra. }
  split.
  { destruct k as [| | |mu]; try (destruct M as [M0 M1]; [discriminate|]; rewrite <- M0; apply M1; lra).
    cbn [code evaluate_impl hinge]. rewrite loss_eps, rgtb_le. destruct (Rle_dec x r); [lra|]. assert (sqrt r <= sqrt x) by (apply sqrt_le_1; lra). lra. }
  split; [intros Hn; destruct (M Hn); auto|]. split.
  - intros [->|[mu ->]]; cbn [code evaluate_impl welsch geman] in *; rewrite loss_eps.
    + assert (Hre : 0 < r + eps) by lra. pose proof (exp_ineq1_le (- x / (r + eps))) as H. assert (r * (1 + - x / (r + eps)) <= r * exp (- x / (r + eps))) by (apply Rmult_le_compat_l; lra).
      replace (r * (1 + - x / (r + eps))) with (r - r * x / (r + eps)) in * by (field; lra). assert (r * x / (r + eps) <= x) by (apply div_le; nra). lra.
    + cbn in Hk. set (m := mu * r). assert (0 < m) by (unfold m; nra). apply div_le; nra.
  - intros -> L. cbn [code evaluate_impl huber]. rewrite rgtb_le. destruct (Rle_dec x r); [reflexivity|contradiction].
Qed.
(** Where it is false: the hinge loss is 10^-20 at zero and not monotone, and the Huber loss exceeds the
    squared error, just above the radius. *)
Theorem C33_epsilon_refuted :
  (forall lr, 0 < evaluate hinge 0 lr) /\
  (exists x y, 0 <= x < y /\ evaluate hinge y 0 < evaluate hinge x 0) /\
  (exists x, evaluate huber x 0 > x).
Proof.
  pose proof eps_pos as He. split; [|split].
  - intros lr. unfold evaluate, hinge. cbn [evaluate_impl]. rewrite loss_eps, rgtb_le. pose proof (exp_pos lr). destruct (Rle_dec 0 (exp lr)); lra.
  - exists 1, ((1 + eps / 2) ^ 2). unfold evaluate, hinge. cbn [evaluate_impl]. rewrite exp_0, loss_eps, !rgtb_le. split; [nra|].
    destruct (Rle_dec 1 1); [|lra]. destruct (Rle_dec ((1 + eps / 2) ^ 2) 1); [nra|]. rewrite sqrt_1, sqrt_pow2 by lra. lra.
  - exists (1 + eps). unfold evaluate, huber. cbn [evaluate_impl]. rewrite exp_0, loss_eps, rgtb_le. destruct (Rle_dec (1 + eps) 1); [lra|].
    rewrite Rmax_left by lra. assert (1 + eps / 2 + eps / 8 < sqrt (1 * (1 + eps) + eps)); [|lra].
    assert (eps < 1) by (unfold eps; rewrite <- Rinv_1; apply Rinv_lt_contravar; lra).
    rewrite <- (sqrt_Rsqr (1 + eps / 2 + eps / 8)) by lra. assert (eps * eps < eps) by nra. apply sqrt_lt_1; unfold Rsqr; nra.
Qed.

(** ---- C31: the value of a robust cost function ---- *)
(** torch broadcasting of the batch of the error with the batch of the radius *)
Definition compatible (B Br : nat) : Prop := Br = 1%nat \/ Br = B \/ B = 1%nat.
(** the radius of batch element [i] *)
Definition radius_of (radius : ten) (i : nat) : R := t_at radius (brow (t_rows radius) i) 0%nat.
(** row [i] of the error, as broadcast *)
Definition err_of (we : ten) (i : nat) : nat -> R := t_at we (brow (t_rows we) i).
Definition sqn (d : nat) (e : nat -> R) : R := rsum d (fun j => e j * e j).

Lemma broadcast1_some f a radius : compatible (t_rows a) (t_rows radius) ->
  exists r, broadcast1 f a radius = Some r /\ t_rows r = (if (t_rows radius =? 1)%nat then t_rows a else t_rows radius) /\ t_cols r = 1%nat /\
    forall i, (i < t_rows r)%nat -> t_at r i 0%nat = f (t_at a (brow (t_rows a) i) 0%nat) (radius_of radius i).
Proof.
  intros H. unfold broadcast1, radius_of, brow. destruct (Nat.eqb_spec (t_rows radius) 1) as [E|N].
  - eexists. split; [reflexivity|]. cbn. repeat split; auto. intros i Hi. destruct (Nat.eqb_spec (t_rows a) 1); [|reflexivity]. replace i with 0%nat by lia. reflexivity.
  - destruct (Nat.eqb_spec (t_rows a) (t_rows radius)) as [E|N'].
    + eexists. split; [reflexivity|]. cbn. repeat split; auto. intros i Hi. rewrite E. destruct (Nat.eqb_spec (t_rows radius) 1); [contradiction|reflexivity].
    + destruct H as [H|[H|H]]; [contradiction|congruence|]. rewrite H. cbn. eexists. split; [reflexivity|]. cbn. repeat split; auto.
Qed.
Lemma evaluate_nonneg k x lr : good_kind k -> 0 <= x -> 0 <= evaluate (code k) x lr.
Proof. intros Hk Hx. apply (C33_evaluate_shape_partial k lr x x); auto; lra. Qed.
Lemma sq_nonneg d e : 0 <= sqn d e.
Proof. apply rsum_nonneg. intros. nra. Qed.
Lemma pow2_sqn d (f : nat -> R) : rsum d (fun j => f j ^ 2) = sqn d f.
Proof. apply rsum_ext. intros. ring. Qed.

Theorem C31_value : forall k we radius d, good_kind k -> (0 < d)%nat -> t_cols we = d -> compatible (t_rows we) (t_rows radius) ->
  exists h, weighted_error (code k) false d we radius = Some h /\
    t_rows h = (if (t_rows radius =? 1)%nat then t_rows we else t_rows radius) /\ t_cols h = d /\
    forall i, (i < t_rows h)%nat ->
      sqn d (t_at h i) = evaluate (code k) (sqn d (err_of we i)) (radius_of radius i) + INR d * eps.
Proof.
  intros k we radius d Hk Hd Hc HC. unfold weighted_error.
  destruct (broadcast1_some (evaluate (code k)) (squared_norm we) radius HC) as (r & -> & Hr & _ & Ha). cbn [omap].
  eexists. split; [reflexivity|]. cbn [t_rows t_cols t_at]. split; [exact Hr|]. split; [exact Hc|]. intros i Hi.
  rewrite (Ha i Hi). unfold squared_norm. cbn [t_at t_rows]. rewrite pow2_sqn, Hc. change (t_at we (brow (t_rows we) i)) with (err_of we i).
  set (v := evaluate (code k) _ _). assert (Hv : 0 <= v) by (apply evaluate_nonneg; [exact Hk|apply sq_nonneg]).
  assert (HD : 0 < INR d) by (apply lt_0_INR; exact Hd). pose proof eps_pos as He. change ROBUST_EPS with eps.
  assert (0 <= v / INR d) by (apply div_pos; lra).
  unfold sqn. rewrite (rsum_ext d _ (fun _ => v / INR d + eps)); [rewrite rsum_const; field; lra|].
  intros j _. rewrite !Rmult_1_l. apply sqrt_sqrt. lra.
Qed.
(** with flatten_dims: each dimension is an error of its own; the radius must have batch size one (or the
    dimension must be one) *)
Theorem C31_value_flat_partial : forall k we radius d, good_kind k -> (0 < d)%nat -> t_cols we = d ->
  (t_rows radius = 1%nat \/ (d = 1%nat /\ t_rows radius = t_rows we)) ->
  exists h, weighted_error (code k) true d we radius = Some h /\ t_rows h = t_rows we /\ t_cols h = d /\
    forall i, (i < t_rows h)%nat ->
      sqn d (t_at h i) = rsum d (fun j => evaluate (code k) (t_at we i j * t_at we i j) (radius_of radius i)) + INR d * eps.
Proof.
  intros k we radius d Hk Hd Hc HR. unfold weighted_error.
  assert (HC : compatible (t_rows (squared_norm (reshape_col we))) (t_rows radius)).
  { unfold compatible. cbn. rewrite Hc. destruct HR as [->|[-> ->]]; [now left|]. rewrite Nat.mul_1_r. auto. }
  destruct (broadcast1_some (evaluate (code k)) (squared_norm (reshape_col we)) radius HC) as (r & -> & Hr & Hr1 & Ha). cbn [omap].
  assert (Hr' : t_rows r = (t_rows we * d)%nat).
  { rewrite Hr. cbn. rewrite Hc. destruct HR as [->|[-> ->]]; [reflexivity|]. rewrite Nat.mul_1_r. destruct (t_rows we =? 1)%nat; reflexivity. }
  eexists. split; [reflexivity|]. cbn [t_rows t_cols t_at reshape_rows]. rewrite Hr', Hr1, Nat.mul_1_r, Nat.div_mul by lia. split; [reflexivity|]. split; [reflexivity|].
  intros i Hi. unfold sqn. rewrite <- (rsum_const d eps), <- rsum_plus. apply rsum_ext. intros j Hj.
  rewrite Nat.div_1_r, Nat.mod_1_r. assert (Hlt : (i * d + j < t_rows we * d)%nat) by nia. rewrite Ha by (rewrite Hr'; exact Hlt).
  unfold squared_norm. cbn [t_at t_rows reshape_col t_cols rsum]. rewrite Rplus_0_l, Hc.
  assert (HB : brow (t_rows we * d) (i * d + j) = (i * d + j)%nat). { unfold brow. destruct (Nat.eqb_spec (t_rows we * d) 1); [|reflexivity]. lia. }
  rewrite HB. replace ((i * d + j) / d)%nat with i by (rewrite Nat.div_add_l, Nat.div_small by lia; lia).
  replace ((i * d + j) mod d)%nat with j by (rewrite Nat.add_comm, Nat.mod_add, Nat.mod_small by lia; reflexivity).
  replace (t_at we i j ^ 2) with (t_at we i j * t_at we i j) by ring.
  assert (HRad : radius_of radius (i * d + j) = radius_of radius i).
  { unfold radius_of, brow. destruct HR as [->|[-> ->]]; [reflexivity|]. destruct (t_rows we =? 1)%nat; [reflexivity|]. f_equal. lia. }
  rewrite HRad. change ROBUST_EPS with eps. pose proof eps_pos. apply sqrt_sqrt.
  pose proof (evaluate_nonneg k (t_at we i j * t_at we i j) (radius_of radius i) Hk ltac:(nra)). lra.
Qed.
(** flatten_dims with a batched radius: raises, or (batch size one error, as many radii as dimensions)
    uses the radius of batch element [j] for dimension [j] and returns one row *)
Theorem C31_flat_batched_radius_refuted :
  (forall k we radius d, t_cols we = d -> (1 < d)%nat -> (1 < t_rows we)%nat -> t_rows radius = t_rows we -> weighted_error (code k) true d we radius = None) /\
  (forall k, exists we radius h, t_rows we = 1%nat /\ t_cols we = 2%nat /\ t_rows radius = 2%nat /\ weighted_error (code k) true 2 we radius = Some h /\ t_rows h = 1%nat).
Proof.
  split.
  - intros k we radius d Hc Hd HB HR. unfold weighted_error. cbn [omap]. unfold broadcast1. cbn [squared_norm reshape_col t_rows t_cols]. rewrite Hc, HR.
    destruct (Nat.eqb_spec (t_rows we) 1); [lia|]. destruct (Nat.eqb_spec (t_rows we * d) (t_rows we)); [nia|]. destruct (Nat.eqb_spec (t_rows we * d) 1); [nia|reflexivity].
  - intros k. exists (mkT 1 2 (fun _ _ => 1)), (mkT 2 1 (fun _ _ => 0)). eexists. repeat split.
Qed.

(** ---- C32: the gradient ---- *)
(** [J]^T [e] of one batch element, dimension [c] *)
Lemma dir_derivative k r d (path : R -> nat -> R) (p' : nat -> R) : good_kind k -> 0 < r ->
  (forall j, (j < d)%nat -> derivable_pt_lim (fun t => path t j) 0 (p' j)) -> smooth_at k r (sqn d (path 0)) ->
  derivable_pt_lim (fun t => / 2 * rho k r (sqn d (path t))) 0 (rho' k r (sqn d (path 0)) * dot d (path 0) p').
Proof.
  intros Hk Hr Hp Hs.
  assert (HS : derivable_pt_lim (fun t => sqn d (path t)) 0 (2 * dot d (path 0) p')).
  { unfold sqn, dot. clear Hs. induction d as [|n IH]; cbn [rsum].
    - rewrite Rmult_0_r. apply derivable_pt_lim_const.
    - rewrite Rmult_plus_distr_l. apply (derivable_pt_lim_plus (fun t => rsum n (fun i => path t i * path t i)) (fun t => path t n * path t n)); [apply IH; auto with arith|].
      replace (2 * (path 0 n * p' n)) with (p' n * path 0 n + path 0 n * p' n) by ring.
      apply (derivable_pt_lim_mult (fun t => path t n) (fun t => path t n)); apply Hp; lia. }
  pose proof (C33_derivative k r (sqn d (path 0)) Hk Hr (sq_nonneg _ _) Hs) as HD.
  pose proof (derivable_pt_lim_comp (fun t => sqn d (path t)) (rho k r) 0 _ _ HS HD) as HCmp.
  pose proof (derivable_pt_lim_scal _ (/ 2) 0 _ HCmp) as HH. unfold mult_real_fct, comp in HH.
  replace (rho' k r (sqn d (path 0)) * dot d (path 0) p') with (/ 2 * (rho' k r (sqn d (path 0)) * (2 * dot d (path 0) p'))) by field. exact HH.
Qed.
Lemma lin_nonneg k x lr : good_kind k -> 0 <= x -> 0 <= linearize (code k) x lr.
Proof.
  intros Hk Hx. unfold linearize. set (r := exp lr). assert (Hr : 0 < r) by apply exp_pos. pose proof eps_pos as He.
  destruct k as [| | |mu]; cbn [code linearize_impl welsch huber hinge geman]; rewrite ?loss_eps, ?rgtb_le.
  - left. apply exp_pos.
  - apply sqrt_pos.
  - destruct (Rle_dec x r); [lra|]. pose proof (sqrt_pos x). apply div_pos; lra.
  - apply div_pos; [apply pow2_ge_0|]. pose proof (pow2_ge_0 (mu * r + x)). lra.
Qed.
Lemma scaled_tmv m n (s : R) (J J' : nat -> nat -> R) (e e' : nat -> R) v : 
  (forall r c, (r < m)%nat -> J' r c = s * J r c) -> (forall r, (r < m)%nat -> e' r = s * e r) ->
  dot n v (tmv m J' e') = s * s * dot m (mv n J v) e.
Proof.
  intros HJ He. rewrite dot_tmv. unfold dot. rewrite <- rsum_scal. apply rsum_ext. intros r Hr. rewrite He by exact Hr.
  unfold mv. rewrite (rsum_ext n _ (fun c => s * (J r c * v c))) by (intros c _; rewrite HJ by exact Hr; ring). rewrite rsum_scal. ring.
Qed.

(** [rj]: the returned Jacobian of the [q]-th variable, [re]: the returned error. For every direction [v] of
    that variable, v . (rj^T re) is the derivative, along any path of the weighted error with velocity J v, of half
    the robust cost, up to (lin_bound + eps) times |e . J v|. *)
Theorem C32_gradient : forall k js we radius d, good_kind k -> t_cols we = d -> compatible (t_rows we) (t_rows radius) ->
  (forall j, In j js -> j_rows j = t_rows we /\ j_mid j = d) ->
  exists rj re, weighted_jacobians_error (code k) false d js we radius = Some (rj, re) /\ length rj = length js /\
  forall q J, nth_error js q = Some J -> exists J', nth_error rj q = Some J' /\ j_mid J' = d /\ j_cols J' = j_cols J /\
  forall i v path, (i < t_rows re)%nat ->
    let n := j_cols J in let r := exp (radius_of radius i) in let e := err_of we i in let Ji := j_at J (brow (j_rows J) i) in
    (forall j, path 0 j = e j) -> (forall j, (j < d)%nat -> derivable_pt_lim (fun t => path t j) 0 (mv n Ji v j)) ->
    smooth_at k r (sqn d e) ->
    exists D, derivable_pt_lim (fun t => / 2 * rho k r (sqn d (path t))) 0 D /\
      Rabs (dot n v (tmv d (j_at J' i) (t_at re i)) - D) <= (lin_bound k r + eps) * Rabs (dot d e (mv n Ji v)).
Proof.
  intros k js we radius d Hk Hc HC HJs. unfold weighted_jacobians_error.
  destruct (broadcast1_some (linearize (code k)) (squared_norm we) radius HC) as (lin & -> & Hr & _ & Ha). cbn [omap].
  eexists _, _. split; [reflexivity|]. split; [apply map_length|]. intros q J HJ.
  destruct (HJs J (nth_error_In _ _ HJ)) as [HJr HJm]. rewrite nth_error_map, HJ. eexists. split; [reflexivity|]. cbn [j_mid j_cols j_at t_rows t_at]. split; [exact HJm|]. split; [reflexivity|].
  intros i v path Hi. set (n := j_cols J). set (r := exp (radius_of radius i)). set (e := err_of we i). set (Ji := j_at J (brow (j_rows J) i)). intros Hp0 Hp Hs. set (s := sqrt (t_at lin i 0%nat + ROBUST_EPS)).
  assert (Hlr : 0 < r) by (unfold r; apply exp_pos).
  assert (Hlin : t_at lin i 0%nat = linearize (code k) (sqn d e) (radius_of radius i)).
  { rewrite (Ha i Hi). unfold squared_norm. cbn [t_at t_rows]. rewrite pow2_sqn, Hc. reflexivity. }
  assert (Hss : s * s = t_at lin i 0%nat + eps).
  { unfold s. change ROBUST_EPS with eps. apply sqrt_sqrt. rewrite Hlin. pose proof (lin_nonneg k (sqn d e) (radius_of radius i) Hk (sq_nonneg d e)). pose proof eps_pos. lra. }
  assert (E0 : sqn d (path 0) = sqn d e) by (unfold sqn; apply rsum_ext; intros; now rewrite Hp0).
  exists (rho' k r (sqn d e) * dot d e (mv n Ji v)). split.
  { rewrite <- E0 in *. rewrite <- (dot_ext d (path 0) e (mv n Ji v) (mv n Ji v)) by (intros; auto). apply dir_derivative; auto. }
  rewrite (scaled_tmv d n s Ji _ e _ v); [|intros; reflexivity|intros; reflexivity].
  rewrite Hss, Hlin. rewrite (dot_comm d (mv n Ji v) e).
  replace ((linearize (code k) (sqn d e) (radius_of radius i) + eps) * dot d e (mv n Ji v) - rho' k r (sqn d e) * dot d e (mv n Ji v))
    with ((linearize (code k) (sqn d e) (radius_of radius i) - rho' k r (sqn d e) + eps) * dot d e (mv n Ji v)) by ring.
  rewrite Rabs_mult. apply Rmult_le_compat_r; [apply Rabs_pos|].
  eapply Rle_trans; [apply Rabs_triang|]. pose proof eps_pos. rewrite (Rabs_pos_eq eps) by lra.
  pose proof (C33_linearize_is_derivative k (radius_of radius i) (sqn d e) Hk (sq_nonneg d e)). unfold r. lra.
Qed.

(** The same with flatten_dims: half the sum over the dimensions of the losses. *)
Theorem C32_gradient_flat_partial : forall k js we radius d, good_kind k -> (0 < d)%nat -> t_cols we = d ->
  (t_rows radius = 1%nat \/ (d = 1%nat /\ t_rows radius = t_rows we)) ->
  (forall j, In j js -> j_rows j = t_rows we /\ j_mid j = d) ->
  exists rj re, weighted_jacobians_error (code k) true d js we radius = Some (rj, re) /\ length rj = length js /\ t_rows re = t_rows we /\ t_cols re = d /\
  forall q J, nth_error js q = Some J -> exists J', nth_error rj q = Some J' /\ j_rows J' = t_rows we /\ j_mid J' = d /\ j_cols J' = j_cols J /\
  forall i v path, (i < t_rows re)%nat ->
    let n := j_cols J in let r := exp (radius_of radius i) in let e := t_at we i in let Ji := j_at J i in
    (forall j, path 0 j = e j) -> (forall j, (j < d)%nat -> derivable_pt_lim (fun t => path t j) 0 (mv n Ji v j)) ->
    (forall j, (j < d)%nat -> smooth_at k r (e j * e j)) ->
    exists D, derivable_pt_lim (fun t => / 2 * rsum d (fun j => rho k r (path t j * path t j))) 0 D /\
      Rabs (dot n v (tmv d (j_at J' i) (t_at re i)) - D) <= (lin_bound k r + eps) * rsum d (fun j => Rabs (e j * mv n Ji v j)).
Proof.
  intros k js we radius d Hk Hd Hc HR HJs. unfold weighted_jacobians_error.
  assert (HC : compatible (t_rows (squared_norm (reshape_col we))) (t_rows radius)).
  { unfold compatible. cbn. rewrite Hc. destruct HR as [->|[-> ->]]; [now left|]. rewrite Nat.mul_1_r. auto. }
  destruct (broadcast1_some (linearize (code k)) (squared_norm (reshape_col we)) radius HC) as (lin & -> & Hr & Hr1 & Ha). cbn [omap].
  assert (Hr' : t_rows lin = (t_rows we * d)%nat).
  { rewrite Hr. cbn. rewrite Hc. destruct HR as [->|[-> ->]]; [reflexivity|]. rewrite Nat.mul_1_r. destruct (t_rows we =? 1)%nat; reflexivity. }
  eexists _, _. split; [reflexivity|]. split; [now rewrite !map_length|]. cbn [t_rows t_cols reshape_rows reshape_col]. rewrite Hr', Nat.mul_1_r, Nat.div_mul by lia.
  split; [reflexivity|]. split; [reflexivity|]. intros q J HJ.
  destruct (HJs J (nth_error_In _ _ HJ)) as [HJr HJm]. rewrite !nth_error_map, HJ. cbn [option_map]. eexists. split; [reflexivity|].
  cbn [j_rows j_mid j_cols j_at t_at reshape_rows3 view_col3]. rewrite Nat.mul_1_r, Nat.div_mul by lia. do 3 (split; [reflexivity|]).
  intros i v path Hi. cbv zeta. set (n := j_cols J). set (r := exp (radius_of radius i)). set (e := t_at we i). set (Ji := j_at J i). intros Hp0 Hp Hs.
  assert (Hlr : 0 < r) by (unfold r; apply exp_pos).
  set (s := fun j => sqrt (t_at lin (i * d + j) 0%nat + ROBUST_EPS)).
  assert (IDX : forall j, (j < d)%nat -> (i * d + j < t_rows we * d)%nat /\ ((i * d + j) / d = i)%nat /\ ((i * d + j) mod d = j)%nat /\ brow (t_rows we * d) (i * d + j) = (i * d + j)%nat).
  { intros j Hj. split; [nia|]. split; [rewrite Nat.div_add_l, Nat.div_small by lia; lia|]. split; [rewrite Nat.add_comm, Nat.mod_add, Nat.mod_small by lia; reflexivity|].
    unfold brow. destruct (Nat.eqb_spec (t_rows we * d) 1); [|reflexivity]. nia. }
  assert (Hlin : forall j, (j < d)%nat -> t_at lin (i * d + j) 0%nat = linearize (code k) (e j * e j) (radius_of radius i)).
  { intros j Hj. destruct (IDX j Hj) as (I1 & I2 & I3 & I4). rewrite Ha by lia. unfold squared_norm. cbn [t_at t_rows reshape_col t_cols rsum]. rewrite Hc, I4, I2, I3, Rplus_0_l.
    assert (HRad : radius_of radius (i * d + j) = radius_of radius i).
    { unfold radius_of, brow. destruct HR as [->|[-> ->]]; [reflexivity|]. destruct (t_rows we =? 1)%nat; [reflexivity|]. f_equal. lia. }
    rewrite HRad. f_equal. unfold e. ring. }
  assert (Hss : forall j, (j < d)%nat -> s j * s j = t_at lin (i * d + j) 0%nat + eps).
  { intros j Hj. unfold s. change ROBUST_EPS with eps. apply sqrt_sqrt. rewrite (Hlin j Hj). pose proof (lin_nonneg k (e j * e j) (radius_of radius i) Hk ltac:(nra)). pose proof eps_pos. lra. }
  exists (rsum d (fun j => rho' k r (e j * e j) * (e j * mv n Ji v j))). split.
  { assert (G : forall m, (m <= d)%nat -> derivable_pt_lim (fun t => / 2 * rsum m (fun j => rho k r (path t j * path t j))) 0 (rsum m (fun j => rho' k r (e j * e j) * (e j * mv n Ji v j)))).
    { induction m as [|m IH]; intros Hm; cbn [rsum].
      - apply (dpl_local _ (fun _ => 0) 0 _ 1); [lra|intros; ring|apply derivable_pt_lim_const].
      - apply (dpl_local _ (fun t => / 2 * rsum m (fun j => rho k r (path t j * path t j)) + / 2 * rho k r (path t m * path t m)) 0 _ 1); [lra|intros; ring|].
        apply (derivable_pt_lim_plus (fun t => / 2 * rsum m (fun j => rho k r (path t j * path t j))) (fun t => / 2 * rho k r (path t m * path t m))); [apply IH; lia|].
        pose proof (dir_derivative k r 1 (fun t _ => path t m) (fun _ => mv n Ji v m) Hk Hlr) as DD.
        unfold sqn, dot in DD. cbn [rsum] in DD. rewrite !Rplus_0_l, Hp0 in DD.
        apply (dpl_local _ (fun t => / 2 * rho k r (0 + path t m * path t m)) 0 _ 1); [lra|intros; now rewrite Rplus_0_l|].
        apply DD; [intros; apply Hp; lia|apply Hs; lia]. }
    apply G. lia. }
  match goal with |- Rabs (?L - _) <= _ => assert (EL : L = rsum d (fun j => (linearize (code k) (e j * e j) (radius_of radius i) + eps) * (e j * mv n Ji v j))) end.
  { rewrite dot_tmv. unfold dot. apply rsum_ext. intros j Hj. destruct (IDX j Hj) as (I1 & I2 & I3 & I4). cbn [reshape_rows t_at t_rows t_cols reshape_col]. rewrite Hc, Nat.div_1_r, HJr, HJm, I4, I2, I3.
    change (sqrt (t_at lin (i * d + j) 0%nat + ROBUST_EPS)) with (s j).
    rewrite <- (Hlin j Hj), <- (Hss j Hj). unfold mv.
    rewrite (rsum_ext n _ (fun c => s j * (Ji j c * v c))); [rewrite rsum_scal; unfold e; ring|].
    intros c _. rewrite ?Nat.div_1_r, ?HJr, ?HJm, ?I4, ?I2, ?I3. change (sqrt (t_at lin (i * d + j) 0%nat + ROBUST_EPS)) with (s j). unfold Ji. ring. }
  rewrite EL, <- rsum_minus. clear EL. rewrite <- rsum_scal.
  assert (TR : forall m f g, (forall j, (j < m)%nat -> Rabs (f j) <= g j) -> Rabs (rsum m f) <= rsum m g).
  { induction m as [|m IH]; intros f g H; cbn [rsum]; [rewrite Rabs_R0; lra|]. eapply Rle_trans; [apply Rabs_triang|]. apply Rplus_le_compat; [apply IH; auto with arith|apply H; lia]. }
  apply TR. intros j Hj.
  replace ((linearize (code k) (e j * e j) (radius_of radius i) + eps) * (e j * mv n Ji v j) - rho' k r (e j * e j) * (e j * mv n Ji v j))
    with ((linearize (code k) (e j * e j) (radius_of radius i) - rho' k r (e j * e j) + eps) * (e j * mv n Ji v j)) by ring.
  rewrite Rabs_mult. apply Rmult_le_compat_r; [apply Rabs_pos|].
  eapply Rle_trans; [apply Rabs_triang|]. pose proof eps_pos. rewrite (Rabs_pos_eq eps) by lra.
  pose proof (C33_linearize_is_derivative k (radius_of radius i) (e j * e j) Hk ltac:(nra)). unfold r. lra.
Qed.

(** A concrete case of the hypotheses: a batch of two errors of dimension two, one radius, one Jacobian;
    the error [3;4] is outside the Huber radius exp(0) = 1, so the loss is 2*5 - 1 = 9. *)
Lemma C31_example : let we := mkT 2 2 (fun i j => if (i =? 0)%nat then (if (j =? 0)%nat then 3 else 4) else 0) in
  let radius := mkT 1 1 (fun _ _ => 0) in
  good_kind Huber /\ compatible (t_rows we) (t_rows radius) /\ smooth_at Huber (exp 0) (sqn 2 (err_of we 0)) /\
  rho Huber (exp (radius_of radius 0)) (sqn 2 (err_of we 0)) = 9 /\ rho' Huber (exp (radius_of radius 0)) (sqn 2 (err_of we 0)) = / 5.
Proof.
  cbv zeta. split; [exact I|]. split; [now left|]. split; [exact I|]. unfold radius_of, err_of, sqn. cbn. rewrite exp_0.
  replace (0 + 3 * 3 + 4 * 4) with (5 * 5) by ring. destruct (Rle_dec (5 * 5) 1); [lra|].
  split; [rewrite Rmult_1_l, sqrt_square; lra|]. replace (1 / (5 * 5)) with (/ 5 * / 5) by field. rewrite sqrt_square; lra.
Qed.
