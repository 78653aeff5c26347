(** C40: in-place updates of group tensors. C55: construction under the check settings.
    C56: operators of torchlie's LieTensor. *)
From Coq Require Import Reals Lra Psatz List Bool.
From Coquelicot Require Import Coquelicot.
From Verif Require Import Geo_spec Geo3_spec Geo4_spec Trig Exp_unique SE2_model SE2_group SE2_exp SE2_jac SE2_norm
  SO3_model SO3_exp SO3_jexp SO3_group SO3_ops SO3_quat SE3_model SE3_group SE3_exp SE3_jexp Ctx_model Lgt_model.
Import List. Import ListNotations.
Local Open Scope R_scope.

(** ** C40 *)
(** Inside a lie-tangent context add_ is the retraction along alpha times the projected update, at
    every recursion limit. *)
Theorem C40_add_tangent : forall d st n, s_tan st = true ->
  (forall x u alpha, so2_add_ (S n) st (so2_row x) u alpha = Some (so2_row (so2_retract x (alpha * so2_project x u))))
  /\ (forall x u alpha, se2_add_ d (S n) st x u alpha
        = se2_retract d x (scal3 alpha (se2_project x (mkV2 (px u) (py u)) (mkV2 (pc u) (ps u)))))
  /\ (forall x u alpha, so3_add_ d (S n) st x u alpha = so3_retract d x (scal3 alpha (so3_project_impl x u)))
  /\ (forall x u alpha, se3_add_ d (S n) st x u alpha = se3_retract d x (tscal alpha (se3_project_impl x u))).
Proof.
  intros d st n H. repeat split; intros; unfold so2_add_, se2_add_, so3_add_, se3_add_, lgt_add_; rewrite H; auto.
Qed.

(** Outside one it never returns, whatever the recursion limit: the claim that it behaves like the
    plain tensor add_ is false for every tensor. *)
Theorem C40_add_plain_refuted : forall T V project scale retract n st x u alpha, s_tan st = false ->
  lgt_add_ T V project scale retract n st x u alpha = None.
Proof. intros T V pr sc re n st x u alpha H. induction n; simpl; auto. rewrite H. exact IHn. Qed.

(** addcmul_ and addcdiv_ do behave like the plain operations outside *)
Theorem C40_addc_plain : forall T V project scale retract map2 map1 nz nzd n st x t1 t2 value, s_tan st = false ->
  lgt_addcmul_ T V project scale retract map2 map1 n st x t1 t2 value = Some (plain_addcmul_ T map2 map1 x t1 t2 value)
  /\ lgt_addcdiv_ T V project scale retract map2 map1 nz nzd n st x t1 t2 value = plain_addcdiv_ T map2 map1 nz nzd x t1 t2 value.
Proof. intros. unfold lgt_addcmul_, lgt_addcdiv_. rewrite H. auto. Qed.

(** What the update does to a loss. A loss on the entries of the tensor with gradient [grad] at [x]:
    along every curve through x the rate of change is the inner product of [grad] with the velocity. *)
Definition gradient_so3 (loss : M3 -> R) (x grad : M3) :=
  forall h v, h 0 = x -> deriv_m3 h 0 v -> deriv (fun t => loss (h t)) 0 (frob grad v).
Definition gradient_se3 (loss : Rig -> R) (x grad : Rig) :=
  forall h v, h 0 = x -> deriv_rig h 0 v -> deriv (fun t => loss (h t)) 0 (frob34 grad v).


Lemma deriv_descends : forall f l, deriv f 0 l -> 0 < l -> exists e, 0 < e /\ forall lr, 0 < lr < e -> f (- lr) < f 0.
Proof.
  intros f l D L. destruct (D (l / 2) ltac:(lra)) as [e He]. exists e. split; [apply cond_pos|].
  intros lr [H1 H2]. specialize (He (- lr) ltac:(lra) ltac:(rewrite Rabs_Ropp, Rabs_pos_eq; lra)).
  rewrite Rplus_0_l in He.
  assert (E : (f (- lr) - f 0) / - lr = (f 0 - f (- lr)) / lr) by (field; lra). rewrite E in He.
  assert (0 < (f 0 - f (- lr)) / lr). { apply Rabs_def2 in He. lra. }
  assert (0 < (f 0 - f (- lr)) / lr * lr) by (apply Rmult_lt_0_compat; lra).
  replace ((f 0 - f (- lr)) / lr * lr) with (f 0 - f (- lr)) in H0 by (field; lra). lra.
Qed.
Lemma dot3_pos : forall v, v <> zero3 -> 0 < dot3 v v.
Proof.
  intros [x y z] H. unfold dot3; cbn.
  destruct (Req_dec x 0) as [->|]; [|nra]. destruct (Req_dec y 0) as [->|]; [|nra].
  destruct (Req_dec z 0) as [->|]; [|nra]. destruct H. reflexivity.
Qed.

(** SO3: the update stays on the group, the loss changes at the rate alpha |project grad|^2, and a
    small enough step against a gradient with non-zero projection decreases the loss. *)
Theorem C40_so3_descent : forall d st n loss x grad, rotation3 x -> s_tan st = true -> gradient_so3 loss x grad ->
  exists h, (forall alpha, so3_add_ d (S n) st x grad alpha = Some (h alpha) /\ rotation3 (h alpha)) /\ h 0 = x
   /\ deriv (fun alpha => loss (h alpha)) 0 (dot3 (so3_project_impl x grad) (so3_project_impl x grad))
   /\ (so3_project_impl x grad <> zero3 -> exists e, 0 < e /\ forall lr, 0 < lr < e -> loss (h (- lr)) < loss x).
Proof.
  intros d st n loss x grad Rx Ht G. set (p := so3_project_impl x grad).
  exists (fun a => match so3_retract d x (scal3 a p) with Some y => y | None => x end).
  assert (E : forall a, exists y, so3_retract d x (scal3 a p) = Some y /\ rotation3 y).
  { intro a. destruct (C36_exp_rotation d (scal3 a p)) as (e & E & Re). unfold so3_retract. rewrite E.
    eexists. split; [reflexivity|]. apply rot_mul; assumption. }
  assert (M : moves (fun a => match so3_retract d x (scal3 a p) with Some y => y | None => x end) x p).
  { apply (C36_retract_velocity d). intro t. destruct (E t) as (y & -> & _). reflexivity. }
  destruct M as [M0 M1].
  assert (D : deriv (fun a => loss (match so3_retract d x (scal3 a p) with Some y => y | None => x end)) 0 (dot3 p p)).
  { pose proof (G _ _ M0 M1) as D. rewrite (proj1 (C36_project x grad p)) in D.
    rewrite <- (proj2 (C36_project x grad p)) in D. exact D. }
  split; [|split; [exact M0|split; [exact D|]]].
  - intro a. unfold so3_add_, lgt_add_. rewrite Ht. fold p. destruct (E a) as (y & -> & Ry). auto.
  - intro NZ. destruct (deriv_descends _ _ D (dot3_pos _ NZ)) as (e & He & Hd).
    exists e. split; [exact He|]. intros lr Hl. specialize (Hd lr Hl). cbv beta in Hd. rewrite M0 in Hd. exact Hd.
Qed.

Lemma dot6_pos : forall v, v <> tzero -> 0 < dot6 v v.
Proof.
  intros [l a] H. unfold dot6; cbn [lin ang].
  assert (P : forall v, 0 <= dot3 v v) by (intros []; unfold dot3; cbn; nra).
  destruct (Req_dec (dot3 l l) 0) as [Z|]; [|pose proof (P l); pose proof (P a); lra].
  destruct (Req_dec (dot3 a a) 0) as [Z'|]; [|pose proof (P l); pose proof (P a); lra].
  destruct H. unfold tzero. f_equal; destruct l, a; unfold dot3, zero3 in *; cbn in *; f_equal; nra.
Qed.
Lemma moves6_rig : forall h g xi, moves6 h g xi ->
  deriv_rig h 0 (mkRig (mul3 (rr g) (so3_alg (ang xi))) (app3 (rr g) (lin xi))).
Proof. intros h g xi H. apply moves6_iff in H. destruct H as (_ & A & B). split; assumption. Qed.

Theorem C40_se3_descent : forall d st n loss x grad, rigid3 x -> s_tan st = true -> gradient_se3 loss x grad ->
  exists h, (forall alpha, se3_add_ d (S n) st x grad alpha = Some (h alpha) /\ rigid3 (h alpha)) /\ h 0 = x
   /\ deriv (fun alpha => loss (h alpha)) 0 (dot6 (se3_project_impl x grad) (se3_project_impl x grad))
   /\ (se3_project_impl x grad <> tzero -> exists e, 0 < e /\ forall lr, 0 < lr < e -> loss (h (- lr)) < loss x).
Proof.
  intros d st n loss x grad Rx Ht G. set (p := se3_project_impl x grad).
  set (h := fun a => match se3_retract d x (tscal a p) with Some y => y | None => x end).
  assert (E : forall a, exists y, se3_retract d x (tscal a p) = Some y /\ rigid3 y).
  { intro a. destruct (C37_exp_rigid d (tscal a p)) as (e & E & Re & _). unfold se3_retract. rewrite E.
    eexists. split; [reflexivity|]. apply rot_mul; [exact Rx|exact Re]. }
  assert (M : moves6 h x p).
  { apply (C37_retract_velocity d); [exact Rx|]. intro t. unfold h. destruct (E t) as (y & -> & _). reflexivity. }
  assert (M0 : h 0 = x) by apply M.
  assert (D : deriv (fun a => loss (h a)) 0 (dot6 p p)).
  { pose proof (G _ _ M0 (moves6_rig _ _ _ M)) as D. eapply deriv_val; [|exact D].
    clear. assert (Q : forall q, frob34 grad (mkRig (mul3 (rr x) (so3_alg (ang q))) (app3 (rr x) (lin q))) = dot6 (se3_project_impl x grad) q).
    { intros [[] []]. destruct x as [[] []], grad as [[] []]. unfold dot6, frob34, frob, dot3; cbn. ring. }
    rewrite Q. reflexivity. }
  exists h. split; [|split; [exact M0|split; [exact D|]]].
  - intro a. unfold se3_add_, lgt_add_. rewrite Ht. fold p. unfold h. destruct (E a) as (y & -> & Ry). auto.
  - intro NZ. destruct (deriv_descends _ _ D (dot6_pos _ NZ)) as (e & He & Hd).
    exists e. split; [exact He|]. intros lr Hl. specialize (Hd lr Hl). cbv beta in Hd. rewrite M0 in Hd. exact Hd.
Qed.

(** The planar groups, same statements *)
Definition gradient_so2 (loss : V2 -> R) (x grad : V2) :=
  forall h v, h 0 = x -> deriv (fun t => a0 (h t)) 0 (a0 v) -> deriv (fun t => a1 (h t)) 0 (a1 v) ->
    deriv (fun t => loss (h t)) 0 (a0 grad * a0 v + a1 grad * a1 v).
Definition gradient_se2 (loss : SE2 -> R) (x grad : SE2) :=
  forall h v, h 0 = x -> deriv (fun t => px (h t)) 0 (px v) -> deriv (fun t => py (h t)) 0 (py v) ->
    deriv (fun t => pc (h t)) 0 (pc v) -> deriv (fun t => ps (h t)) 0 (ps v) ->
    deriv (fun t => loss (h t)) 0 (px grad * px v + py grad * py v + pc grad * pc v + ps grad * ps v).

Theorem C40_so2_descent : forall st n loss x grad, so2_valid x -> s_tan st = true -> gradient_so2 loss (so2_row x) grad ->
  let p := so2_project x grad in
  exists h, (forall alpha, so2_add_ (S n) st (so2_row x) grad alpha = Some (so2_row (h alpha)) /\ so2_valid (h alpha)) /\ h 0 = x
   /\ deriv (fun alpha => loss (so2_row (h alpha))) 0 (p * p)
   /\ (p <> 0 -> exists e, 0 < e /\ forall lr, 0 < lr < e -> loss (so2_row (h (- lr))) < loss (so2_row x)).
Proof.
  intros st n loss x grad Vx Ht G p. set (h := fun a => so2_retract x (a * p)).
  assert (M0 : h 0 = x).
  { unfold h, so2_retract, so2_compose, so2_exp_map. rewrite Rmult_0_l; cbn. rewrite cos_0, sin_0. destruct x; cbn; f_equal; ring. }
  assert (D : deriv (fun a => loss (so2_row (h a))) 0 (p * p)).
  { eapply deriv_val; [|apply (G (fun a => so2_row (h a)) (mkV2 (- si x * p) (co x * p)))].
    - cbn. unfold p, so2_project. ring.
    - cbv beta. rewrite M0. reflexivity.
    - cbn. apply is_derive_Reals; auto_derive; [exact I|]. rewrite Rmult_0_l, cos_0, sin_0. ring.
    - cbn. apply is_derive_Reals; auto_derive; [exact I|]. rewrite Rmult_0_l, cos_0, sin_0. ring. }
  exists h. split; [|split; [exact M0|split; [exact D|]]].
  - intro a. unfold so2_add_, lgt_add_. rewrite Ht. split; [destruct x; reflexivity|].
    unfold h, so2_valid, so2_retract, so2_compose, so2_exp_map in *; cbn.
    pose proof (sin2_cos2 (a * p)) as S. unfold Rsqr in S. nra.
  - intro NZ. destruct (deriv_descends _ _ D ltac:(nra)) as (e & He & Hd).
    exists e. split; [exact He|]. intros lr Hl. specialize (Hd lr Hl). cbv beta in Hd. rewrite M0 in Hd. exact Hd.
Qed.

Theorem C40_se2_descent : forall d st n loss x grad, se2_valid x -> s_tan st = true -> gradient_se2 loss x grad ->
  let p := se2_project x (mkV2 (px grad) (py grad)) (mkV2 (pc grad) (ps grad)) in
  exists h, (forall alpha, se2_add_ d (S n) st x grad alpha = Some (h alpha) /\ se2_valid (h alpha)) /\ h 0 = x
   /\ deriv (fun alpha => loss (h alpha)) 0 (dot3 p p)
   /\ (p <> zero3 -> exists e, 0 < e /\ forall lr, 0 < lr < e -> loss (h (- lr)) < loss x).
Proof.
  intros d st n loss x grad Vx Ht G p.
  set (h := fun a => match se2_retract d x (scal3 a p) with Some y => y | None => x end).
  assert (E : forall a, exists y, se2_retract d x (scal3 a p) = Some y /\ se2_valid y).
  { intro a. destruct (C35_exp_valid d (scal3 a p)) as (e & E & Ve & _). unfold se2_retract. rewrite E.
    eexists. split; [reflexivity|]. unfold se2_valid in *. cbn. clear -Vx Ve. destruct x, e; cbn in *. nra. }
  assert (EH : forall t, se2_retract d x (scal3 t p) = Some (h t)).
  { intro t. unfold h. destruct (E t) as (y & -> & _). reflexivity. }
  destruct (retract_curve d x p h EH) as (M0 & D1 & D2 & D3 & D4).
  assert (D : deriv (fun a => loss (h a)) 0 (dot3 p p)).
  { eapply deriv_val; [|apply (G h (mkSE2 (pc x * b0 p - ps x * b1 p) (ps x * b0 p + pc x * b1 p) (- ps x * b2 p) (pc x * b2 p)));
      [exact M0|exact D1|exact D2|exact D3|exact D4]].
    unfold dot3. unfold p, se2_project. cbn [px py pc ps a0 a1 b0 b1 b2]. ring. }
  exists h. split; [|split; [exact M0|split; [exact D|]]].
  - intro a. unfold se2_add_, lgt_add_. rewrite Ht. fold p. unfold h. destruct (E a) as (y & -> & Vy). auto.
  - intro NZ. destruct (deriv_descends _ _ D (dot3_pos _ NZ)) as (e & He & Hd).
    exists e. split; [exact He|]. intros lr Hl. specialize (Hd lr Hl). cbv beta in Hd. rewrite M0 in Hd. exact Hd.
Qed.

(** torchlie: a marked gradient gives the same update as above; an unmarked tensor is refused *)
Theorem C40_lie_tensor_add : forall d st n, s_tan st = true ->
  (forall x u alpha, so3_lie_add_ d true x u alpha = so3_add_ d (S n) st x u alpha)
  /\ (forall x u alpha, se3_lie_add_ d true x u alpha = se3_add_ d (S n) st x u alpha)
  /\ (forall x u alpha, so3_lie_add_ d false x u alpha = None) /\ (forall x u alpha, se3_lie_add_ d false x u alpha = None).
Proof.
  intros d st n H. unfold so3_lie_add_, se3_lie_add_, so3_add_, se3_add_, lie_add_, lgt_add_. rewrite H.
  repeat split. intros x u alpha. rewrite (proj2 (C36_project x u zero3)). reflexivity.
Qed.

(** A case with a non-zero projection: the loss is one entry of the matrix *)
Example so3_descent_case : let u := mkM3 0 0 0 1 0 0 0 0 0 in
  rotation3 I3 /\ gradient_so3 (fun m => d10 m) I3 u /\ so3_project_impl I3 u = mkV3 0 0 1.
Proof.
  split; [apply rot_I|]. split.
  - intros h v _ (V0&V1&V2&V3&V4&V5&V6&V7&V8). eapply deriv_val; [|exact V3]. unfold frob; cbn; ring.
  - apply V3_ext; cbn; ring.
Qed.

(** ** C55 *)
Lemma forallb_Forall : forall T (f : T -> bool) l, forallb f l = true <-> Forall (fun x => f x = true) l.
Proof.
  induction l; simpl; split; intro H; auto.
  - apply andb_prop in H as [A B]. constructor; auto. apply IHl; auto.
  - inversion H; subst. rewrite H2. simpl. apply IHl; auto.
Qed.
Lemma so2_check_iff : forall d t, so2_check d t = true <-> so2_check_tensor d t.
Proof. intros. unfold so2_check, so2_check_tensor, decb. destruct (Rle_dec _ _); split; intro; auto; congruence. Qed.

(** With checks disabled, by the settings or for this call, the tensor is stored as it is. *)
Theorem C55_unchecked : forall T st strict disable check norm (rows : list T),
  disable = true \/ c_check (s_chk st) = false -> manifold_init st strict disable check norm rows = Built rows.
Proof. intros T st strict disable check norm rows [-> | H]; unfold manifold_init; [|rewrite H; destruct disable]; reflexivity. Qed.

(** With checks enabled and strict_checks, exactly the tensors all of whose rows are unit up to the
    tolerance are accepted, unchanged; all others raise. *)
Theorem C55_strict_planar : forall st d, c_check (s_chk st) = true ->
  (forall rows, Forall (so2_check_tensor d) rows -> so2_build st true false d rows = Built rows)
  /\ (forall rows, ~ Forall (so2_check_tensor d) rows -> so2_build st true false d rows = RaisesValueError)
  /\ (forall rows, Forall (fun g => so2_check_tensor d (mkV2 (pc g) (ps g))) rows -> se2_build st true false d rows = Built rows)
  /\ (forall rows, ~ Forall (fun g => so2_check_tensor d (mkV2 (pc g) (ps g))) rows -> se2_build st true false d rows = RaisesValueError).
Proof.
  intros st d H. unfold so2_build, se2_build, manifold_init. rewrite H.
  assert (A : forall rows, forallb (so2_check d) rows = true <-> Forall (so2_check_tensor d) rows).
  { intro rows. rewrite forallb_Forall. split; apply Forall_impl; intros x; apply so2_check_iff. }
  assert (B : forall rows, forallb (se2_check d) rows = true <-> Forall (fun g => so2_check_tensor d (mkV2 (pc g) (ps g))) rows).
  { intro rows. rewrite forallb_Forall. split; apply Forall_impl; intros x; apply so2_check_iff. }
  repeat split; intros rows F.
  - apply A in F. rewrite F. reflexivity.
  - destruct (forallb (so2_check d) rows) eqn:E; auto. apply A in E. contradiction.
  - apply B in F. rewrite F. reflexivity.
  - destruct (forallb (se2_check d) rows) eqn:E; auto. apply B in E. contradiction.
Qed.

Lemma all_some_map : forall T S (f : T -> option S) (P : T -> S -> Prop) l, Forall (fun x => exists y, f x = Some y /\ P x y) l ->
  exists r, all_some (map f l) = Some r /\ Forall2 P l r.
Proof.
  induction l; simpl; intro H; [exists []; auto|]. inversion H as [|? ? (y & E & Py) Hl]; subst.
  destruct (IHl Hl) as (r & Er & F). rewrite E, Er. eauto.
Qed.
Lemma F2_length : forall T S (P : T -> S -> Prop) l r, Forall2 P l r -> length l = length r.
Proof. induction 1; simpl; auto. Qed.
Lemma unit_checked : forall d t, a0 t * a0 t + a1 t * a1 t = 1 -> so2_check_tensor d t.
Proof.
  intros d t E. unfold so2_check_tensor. rewrite E, sqrt_1, Rminus_diag_eq by reflexivity. rewrite Rabs_R0. destruct d; cbn; lra.
Qed.

(** With checks enabled and strict_checks off (the default), every tensor without zero rows gives an
    object: unchanged if all rows pass the check, else every row projected to the unit circle in its
    own direction (for rows at least as long as the tolerance); the result always passes the check. *)
Theorem C55_so2_partial : forall st d rows, c_check (s_chk st) = true ->
  Forall (fun t => d = F32 \/ t <> mkV2 0 0) rows ->
  exists r, so2_build st false false d rows = Built r /\ length r = length rows /\ Forall (so2_check_tensor d) r
   /\ (Forall (so2_check_tensor d) rows -> r = rows)
   /\ (~ Forall (so2_check_tensor d) rows -> Forall2 (fun t y => a0 y * a0 y + a1 y * a1 y = 1
          /\ (so2_norm_eps d <= norm2 t -> a0 t = norm2 t * a0 y /\ a1 t = norm2 t * a1 y)) rows r)
   /\ so2_build st false false d r = Built r.
Proof.
  intros st d rows H NZ. unfold so2_build, manifold_init. rewrite H.
  assert (A : forall rows, forallb (so2_check d) rows = true <-> Forall (so2_check_tensor d) rows).
  { intro l. rewrite forallb_Forall. split; apply Forall_impl; intros x; apply so2_check_iff. }
  destruct (forallb (so2_check d) rows) eqn:E.
  - exists rows. rewrite E. apply A in E. repeat split; auto; intros; contradiction.
  - assert (NE : ~ Forall (so2_check_tensor d) rows) by (intro F; apply A in F; congruence).
    destruct (all_some_map _ _ (so2_normalize d) (fun t y => a0 y * a0 y + a1 y * a1 y = 1
       /\ (so2_norm_eps d <= norm2 t -> a0 t = norm2 t * a0 y /\ a1 t = norm2 t * a1 y)) rows) as (r & Er & F).
    { revert NZ. apply Forall_impl. intros t Ht. destruct (C38_normalize_partial d t Ht) as (y & Y1 & Y2 & _ & Y3).
      exists y. auto. }
    assert (Cr : Forall (so2_check_tensor d) r).
    { clear -F. induction F as [|t y l r' [U _] F IH]; constructor; auto. apply unit_checked; exact U. }
    exists r. rewrite Er. assert (Cb : forallb (so2_check d) r = true) by (apply A; exact Cr). rewrite Cb.
    repeat split; auto; [symmetry; eapply F2_length; eauto|intros; contradiction].
Qed.
Theorem C55_se2_partial : forall st d rows, c_check (s_chk st) = true ->
  Forall (fun g => d = F32 \/ mkV2 (pc g) (ps g) <> mkV2 0 0) rows ->
  exists r, se2_build st false false d rows = Built r /\ length r = length rows
   /\ Forall (fun g => so2_check_tensor d (mkV2 (pc g) (ps g))) r
   /\ (Forall (fun g => so2_check_tensor d (mkV2 (pc g) (ps g))) rows -> r = rows)
   /\ Forall2 (fun g y => px y = px g /\ py y = py g) rows r
   /\ se2_build st false false d r = Built r.
Proof.
  intros st d rows H NZ. unfold se2_build, manifold_init. rewrite H.
  assert (A : forall rows, forallb (se2_check d) rows = true <-> Forall (fun g => so2_check_tensor d (mkV2 (pc g) (ps g))) rows).
  { intro l. rewrite forallb_Forall. split; apply Forall_impl; intros x; apply so2_check_iff. }
  destruct (forallb (se2_check d) rows) eqn:E.
  - exists rows. rewrite E. apply A in E. repeat split; auto. clear. induction rows; auto.
  - assert (NE : ~ Forall (fun g => so2_check_tensor d (mkV2 (pc g) (ps g))) rows) by (intro F; apply A in F; congruence).
    destruct (all_some_map _ _ (fun g => se2_normalize d (px g) (py g) (mkV2 (pc g) (ps g)))
       (fun g y => (pc y * pc y + ps y * ps y = 1) /\ px y = px g /\ py y = py g) rows) as (r & Er & F).
    { revert NZ. apply Forall_impl. intros g Hg. destruct (C38_normalize_partial d _ Hg) as (y & Y1 & Y2 & _).
      exists (mkSE2 (px g) (py g) (a0 y) (a1 y)). unfold se2_normalize. rewrite Y1. cbn. auto. }
    assert (Cr : Forall (fun g => so2_check_tensor d (mkV2 (pc g) (ps g))) r).
    { clear -F. induction F as [|t y l r' (U & _) F IH]; constructor; auto. apply unit_checked; exact U. }
    exists r. rewrite Er. assert (Cb : forallb (se2_check d) r = true) by (apply A; exact Cr). rewrite Cb.
    repeat split; auto; [symmetry; eapply F2_length; eauto|intros; contradiction|].
    clear -F. induction F as [|t y l r' (_ & U) F IH]; constructor; auto.
Qed.

(** SO3 and SE3: theseus' checks are on by default but delegate to torchlie's, which are off by
    default; the 3x3 matrix 2 I is accepted as a rotation even with strict_checks. *)
Theorem C55_so3_refuted : exists st rows, st = settings_of (mkTls None None None None)
  /\ c_check (s_chk st) = true /\ (exists g, In g rows /\ ~ so3_check_group F64 g)
  /\ (forall strict d svd, so3_build st strict false d svd rows = Built rows)
  /\ (forall strict d svd, se3_build st strict false d svd (map (fun g => mkRig g zero3) rows) = Built (map (fun g => mkRig g zero3) rows)).
Proof.
  exists (settings_of (mkTls None None None None)), [mkM3 2 0 0 0 2 0 0 0 2]. split; [reflexivity|]. split; [reflexivity|].
  split; [|split; intros; reflexivity]. eexists. split; [left; reflexivity|].
  unfold so3_check_group. cbn. intros [(H & _) _].
  assert (E : 2 * 2 + 0 * 0 + 0 * 0 - 1 = 3) by ring. rewrite E, Rabs_pos_eq in H by lra. lra.
Qed.

Lemma so3_group_b_iff : forall d g, so3_group_b d g = true <-> so3_check_group d g.
Proof.
  intros. unfold so3_group_b, so3_check_group, lt_dec_b, decb. rewrite !andb_true_iff.
  split; intro H; repeat match goal with H : _ /\ _ |- _ => destruct H end;
  repeat match goal with |- _ /\ _ => split end;
  repeat match goal with H : (if ?d then true else false) = true |- _ => destruct d; [clear H|discriminate] end; auto;
  match goal with |- (if ?d then true else false) = true => destruct d; auto; contradiction end.
Qed.
Lemma rotation_checked : forall d g, rotation3 g -> so3_check_group d g.
Proof.
  intros d g Hg. assert (E : mul3 g (tr3 g) = I3) by (apply rot_tr in Hg; destruct Hg as [O _]; unfold orthogonal3 in O; rewrite tr3_tr3 in O; exact O).
  unfold so3_check_group. rewrite E. destruct Hg as [_ D]. rewrite D.
  unfold sub_m3; cbn [I3 d00 d01 d02 d10 d11 d12 d20 d21 d22].
  replace (1 - 1) with 0 by ring. replace (0 - 0) with 0 by ring. rewrite Rabs_R0.
  assert (0 < so3_matrix_eps d) by (destruct d; cbn; lra). repeat split; assumption.
Qed.
(** With torchlie's setting on as well, strict construction accepts exactly the matrices that are
    rotations up to the tolerance. *)
Theorem C55_so3_strict : forall st d svd rows, c_check (s_chk st) = true -> s_lie st = true ->
  (Forall (so3_check_group d) rows -> so3_build st true false d svd rows = Built rows)
  /\ (~ Forall (so3_check_group d) rows -> so3_build st true false d svd rows = RaisesValueError).
Proof.
  intros st d svd rows H L. unfold so3_build, manifold_init. rewrite H.
  assert (A : forallb (so3_check st d) rows = true <-> Forall (so3_check_group d) rows).
  { rewrite forallb_Forall. unfold so3_check. rewrite L. split; apply Forall_impl; intros x; apply so3_group_b_iff. }
  split; intro F; [apply A in F; rewrite F; reflexivity|].
  destruct (forallb (so3_check st d) rows) eqn:E; auto. destruct F. apply A. reflexivity.
Qed.
Theorem C55_se3_strict : forall st d svd rows, c_check (s_chk st) = true -> s_lie st = true ->
  (Forall (fun g => so3_check_group d (rr g)) rows -> se3_build st true false d svd rows = Built rows)
  /\ (~ Forall (fun g => so3_check_group d (rr g)) rows -> se3_build st true false d svd rows = RaisesValueError).
Proof.
  intros st d svd rows H L. unfold se3_build, manifold_init. rewrite H.
  assert (A : forallb (se3_check st d) rows = true <-> Forall (fun g => so3_check_group d (rr g)) rows).
  { rewrite forallb_Forall. unfold se3_check, so3_check. rewrite L. split; apply Forall_impl; intros x; apply so3_group_b_iff. }
  split; intro F; [apply A in F; rewrite F; reflexivity|].
  destruct (forallb (se3_check st d) rows) eqn:E; auto. destruct F. apply A. reflexivity.
Qed.
(** ... and without strict_checks the result always passes the check, given the singular vectors *)
Theorem C55_so3_normalized : forall st d svd rows, c_check (s_chk st) = true -> s_lie st = true ->
  (forall g, exists s, svd3 g (fst (svd g)) s (snd (svd g))) ->
  exists r, so3_build st false false d svd rows = Built r /\ length r = length rows /\ Forall (so3_check_group d) r
    /\ (Forall (so3_check_group d) rows -> r = rows) /\ so3_build st false false d svd r = Built r.
Proof.
  intros st d svd rows H L SV. unfold so3_build, manifold_init. rewrite H.
  assert (A : forall rows, forallb (so3_check st d) rows = true <-> Forall (so3_check_group d) rows).
  { intro l. rewrite forallb_Forall. unfold so3_check. rewrite L. split; apply Forall_impl; intros x; apply so3_group_b_iff. }
  destruct (forallb (so3_check st d) rows) eqn:E.
  - exists rows. rewrite E. apply A in E. repeat split; auto.
  - set (nz := fun g => so3_normalize_from_svd (fst (svd g)) (snd (svd g))).
    exists (map nz rows).
    assert (ES : all_some (map (fun g => Some (nz g)) rows) = Some (map nz rows)).
    { clear. induction rows; simpl; auto. rewrite IHrows. reflexivity. }
    assert (C : Forall (so3_check_group d) (map nz rows)).
    { clear -SV. induction rows as [|g l IH]; simpl; constructor; auto.
      destruct (SV g) as (s & S). apply rotation_checked. apply (C36_normalize g (fst (svd g)) s (snd (svd g)) S). }
    fold nz. change (fun g => Some (so3_normalize_from_svd (fst (svd g)) (snd (svd g)))) with (fun g => Some (nz g)).
    rewrite ES. assert (Cb : forallb (so3_check st d) (map nz rows) = true) by (apply A; exact C). rewrite Cb.
    split; [reflexivity|]. split; [apply map_length|]. split; [exact C|]. split; [|reflexivity].
    intro F. apply A in F. congruence.
Qed.

(** ** C56: `g * h` is documented as g.compose(h) *)
Theorem C56_star_refuted : exists g h, rotation3 g /\ rotation3 h /\ so3_star g h <> so3_compose g h.
Proof.
  exists (mkM3 0 (-1) 0 1 0 0 0 0 1), (mkM3 1 0 0 0 0 (-1) 0 1 0).
  split; [|split].
  - split; [apply M3_ext; cbn; ring|unfold det3; cbn; ring].
  - split; [apply M3_ext; cbn; ring|unfold det3; cbn; ring].
  - intro E. apply (f_equal d02) in E. cbn in E. lra.
Qed.
