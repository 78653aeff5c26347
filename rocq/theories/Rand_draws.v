(** C80 (continued): which numbers are used where, the circle, and requires_grad. *)
From Coq Require Import Reals List Lia Lra Bool.
From Verif Require Import Geo_spec Geo3_spec Geo4_spec Trig SE2_model SE2_group SO3_model SO3_group SO3_quat
  SE3_model Rand_model Rand_props Rand_unif.
Import ListNotations.
Local Open Scope R_scope.

(** SO2.rand(1) maps the numbers of [0,1) one to one onto the rotations of the
    plane; the angle is an affine function of the number *)
Definition so2_rand1 (u : R) : option SO2 :=
  match th_so2_rand true [1%nat] (fun _ => u) false with Some r => hd_error (t_val r) | None => None end.
Theorem C80_so2_rand_uniform :
  (forall u, so2_rand1 u = Some (mkSO2 (cos (2 * PI * u - PI)) (sin (2 * PI * u - PI))))
  /\ (forall g, so2_valid g -> exists u, 0 <= u < 1 /\ so2_rand1 u = Some g)
  /\ (forall u v, 0 <= u < 1 -> 0 <= v < 1 -> so2_rand1 u = so2_rand1 v -> u = v).
Proof.
  assert (C : forall t, cos (2 * PI * t - PI) = - cos (t * 2 * PI) /\ sin (2 * PI * t - PI) = - sin (t * 2 * PI)).
  { intros t. replace (2 * PI * t - PI) with (- (PI - t * 2 * PI)) by ring. rewrite cos_neg, sin_neg.
    rewrite cos_minus, sin_minus, cos_PI, sin_PI. split; lra. }
  split; [intros u; reflexivity|]. split.
  - intros [c s] V. unfold so2_valid in V. cbn [co si] in V. destruct (turn_exists (- c) (- s)) as (u & Hu & E1 & E2); [lra|].
    exists u. split; [exact Hu|]. change (so2_rand1 u) with (Some (mkSO2 (cos (2 * PI * u - PI)) (sin (2 * PI * u - PI)))).
    destruct (C u) as [-> ->]. rewrite E1, E2, !Ropp_involutive. reflexivity.
  - intros u v Hu Hv E.
    change (Some (mkSO2 (cos (2 * PI * u - PI)) (sin (2 * PI * u - PI))) = Some (mkSO2 (cos (2 * PI * v - PI)) (sin (2 * PI * v - PI)))) in E.
    injection E as E1 E2. destruct (C u) as [F1 F2], (C v) as [G1 G2]. apply turn_unique; lra.
Qed.

(** every batch element is made of numbers of its own: changing one of the random
    numbers changes at most one element of the batch (so elements are independent
    if the numbers are) *)
Definition one_differs {A} (f : (nat -> R) -> list A) :=
  forall k, exists i, forall s s' j, (forall m, m <> k -> s m = s' m) -> j <> i -> nth_error (f s) j = nth_error (f s') j.
(** and only the first [m] numbers are used *)
Definition first_only {A} (m : nat) (f : (nat -> R) -> list A) :=
  forall s s', (forall k, (k < m)%nat -> s k = s' k) -> f s = f s'.

Lemma map_seq_at {A} (f g : nat -> A) n j : ((j < n)%nat -> f j = g j) -> nth_error (map f (seq 0 n)) j = nth_error (map g (seq 0 n)) j.
Proof.
  intros H. destruct (Nat.lt_ge_cases j n) as [L|L].
  - rewrite !nth_map_seq0 by exact L. rewrite H by exact L. reflexivity.
  - rewrite !(proj2 (nth_error_None _ _)); [reflexivity|rewrite map_length, seq_length; exact L|rewrite map_length, seq_length; exact L].
Qed.
Lemma map_seq_same {A} (f g : nat -> A) n : (forall j, (j < n)%nat -> f j = g j) -> map f (seq 0 n) = map g (seq 0 n).
Proof. intros H. apply map_ext_in. intros j I. apply in_seq in I. apply H. lia. Qed.

Theorem C80_rand_draws : forall d size,
  let n := numel size in
  (one_differs (fun s => t_val (so3_rand size s false)) /\ first_only (3 * n) (fun s => t_val (so3_rand size s false)))
  /\ (one_differs (fun s => t_val (se3_rand size s false)) /\ first_only (6 * n) (fun s => t_val (se3_rand size s false)))
  /\ (one_differs (fun s => t_val (so3_randn d size s false)) /\ first_only (3 * n) (fun s => t_val (so3_randn d size s false)))
  /\ (one_differs (fun s => t_val (se3_randn d size s false)) /\ first_only (6 * n) (fun s => t_val (se3_randn d size s false))).
Proof.
  intros d size n.
  assert (R : forall s s' j, s j = s' j -> s (n + j)%nat = s' (n + j)%nat -> s (2 * n + j)%nat = s' (2 * n + j)%nat -> so3_rand_at n s j = so3_rand_at n s' j).
  { intros s s' j E1 E2 E3. unfold so3_rand_at. rewrite E1, E2, E3. reflexivity. }
  assert (N : forall s s' j, s (3 * j)%nat = s' (3 * j)%nat -> s (3 * j + 1)%nat = s' (3 * j + 1)%nat -> s (3 * j + 2)%nat = s' (3 * j + 2)%nat ->
    so3_randn_at d s j = so3_randn_at d s' j).
  { intros s s' j E1 E2 E3. unfold so3_randn_at. rewrite E1, E2, E3. reflexivity. }
  assert (T : forall s s' j, s (3 * n + 3 * j)%nat = s' (3 * n + 3 * j)%nat -> s (3 * n + 3 * j + 1)%nat = s' (3 * n + 3 * j + 1)%nat ->
    s (3 * n + 3 * j + 2)%nat = s' (3 * n + 3 * j + 2)%nat -> trans_at n s j = trans_at n s' j).
  { intros s s' j E1 E2 E3. unfold trans_at. rewrite E1, E2, E3. reflexivity. }
  (* the element that number k belongs to *)
  set (own_r := fun k => if lt_dec k n then k else if lt_dec k (2 * n) then (k - n)%nat else (k - 2 * n)%nat).
  set (own_t := fun k => Nat.div (k - 3 * n) 3).
  assert (DM : forall a, exists q r, a = (3 * q + r)%nat /\ (r < 3)%nat /\ Nat.div a 3 = q).
  { intros a. exists (Nat.div a 3), (Nat.modulo a 3). split; [apply Nat.div_mod; lia|]. split; [apply Nat.mod_upper_bound; lia|reflexivity]. }
  split; [|split; [|split]]; split.
  - intros k. exists (own_r k). intros s s' j H J. apply map_seq_at. intros L. apply R; apply H; intros E; apply J; unfold own_r;
      repeat destruct (lt_dec _ _); lia.
  - intros s s' H. apply map_seq_same. intros j L. apply R; apply H; fold n in L; lia.
  - intros k. destruct (lt_dec k (3 * n)) as [K|K].
    + exists (own_r k). intros s s' j H J. apply map_seq_at. intros L. fold n in L. fold n. f_equal.
      * apply R; apply H; intros E; apply J; unfold own_r; repeat destruct (lt_dec _ _); lia.
      * apply T; apply H; lia.
    + exists (own_t k). intros s s' j H J. apply map_seq_at. intros L. fold n in L. fold n. unfold own_t in J.
      destruct (DM (k - 3 * n)%nat) as (q & r & E & Hr & Eq). rewrite Eq in J. f_equal.
      * apply R; apply H; lia.
      * apply T; apply H; lia.
  - intros s s' H. apply map_seq_same. intros j L. fold n in L. fold n. f_equal; [apply R|apply T]; apply H; lia.
  - intros k. exists (Nat.div k 3). intros s s' j H J. apply map_seq_at. intros L.
    destruct (DM k) as (q & r & E & Hr & Eq). rewrite Eq in J. apply N; apply H; lia.
  - intros s s' H. apply map_seq_same. intros j L. fold n in L. apply N; apply H; lia.
  - intros k. destruct (lt_dec k (3 * n)) as [K|K].
    + exists (Nat.div k 3). intros s s' j H J. apply map_seq_at. intros L. fold n in L. fold n.
      destruct (DM k) as (q & r & E & Hr & Eq). rewrite Eq in J. f_equal; [apply N|apply T]; apply H; lia.
    + exists (own_t k). intros s s' j H J. apply map_seq_at. intros L. fold n in L. fold n. unfold own_t in J.
      destruct (DM (k - 3 * n)%nat) as (q & r & E & Hr & Eq). rewrite Eq in J. f_equal; [apply N|apply T]; apply H; lia.
  - intros s s' H. apply map_seq_same. intros j L. fold n in L. fold n. f_equal; [apply N|apply T]; apply H; lia.
Qed.
Lemma first_rand_planar ge size : forall s s' rg,
  (forall k, (k < 3 * numel size)%nat -> s k = s' k) ->
  th_so2_rand ge size s rg = th_so2_rand ge size s' rg /\ th_se2_rand ge size s rg = th_se2_rand ge size s' rg.
Proof.
  intros s s' rg H. split.
  - unfold th_so2_rand. rewrite (map_seq_same (fun i => so2_exp_map (2 * PI * s i - PI)) (fun i => so2_exp_map (2 * PI * s' i - PI)));
      [reflexivity|]. intros j L. rewrite H by lia. reflexivity.
  - unfold th_se2_rand. destruct (one_d size tt); [|reflexivity]. destruct (andb rg ge); [reflexivity|]. do 2 f_equal.
    apply map_seq_same. intros j L. rewrite !H by lia. reflexivity.
Qed.

(** the sizes of theseus' own rand and randn: exactly the 1-D ones are accepted;
    SO3 and SE3 return a leaf tensor with the requires_grad asked for *)
Theorem C80_rand_sizes : forall d size s rg,
  (length size = 1%nat ->
     th_so3_rand size s rg = Some (so3_rand size s rg) /\ th_so3_randn d size s rg = Some (so3_randn d size s rg)
     /\ th_se3_rand size s rg = Some (se3_rand size s rg) /\ th_se3_randn d size s rg = Some (se3_randn d size s rg))
  /\ (length size <> 1%nat ->
     th_so3_rand size s rg = None /\ th_so3_randn d size s rg = None /\ th_se3_rand size s rg = None /\ th_se3_randn d size s rg = None
     /\ forall ge, th_so2_rand ge size s rg = None /\ th_so2_randn ge size s rg = None
          /\ th_se2_rand ge size s rg = None /\ th_se2_randn ge size s rg = None).
Proof.
  intros d size s rg.
  unfold th_so3_rand, th_so3_randn, th_se3_rand, th_se3_randn, th_so2_rand, th_so2_randn, th_se2_rand, th_se2_randn, one_d.
  split; intros H.
  - apply Nat.eqb_eq in H. rewrite H. tauto.
  - apply Nat.eqb_neq in H. rewrite H. tauto.
Qed.
(** requires_grad=True in grad mode: SO3 and SE3 give a leaf to optimise; SO2 a
    tensor with a history, which collects no .grad; SE2.rand and SE2.randn raise *)
Theorem C80_requires_grad_refuted : forall d n s,
  let size := [n] in
  (t_req (so3_rand size s true) = true /\ t_leaf (so3_rand size s true) = true
   /\ t_req (so3_randn d size s true) = true /\ t_leaf (so3_randn d size s true) = true
   /\ t_req (se3_rand size s true) = true /\ t_leaf (se3_rand size s true) = true
   /\ t_req (se3_randn d size s true) = true /\ t_leaf (se3_randn d size s true) = true
   /\ t_req (so3_identity size true) = true /\ t_leaf (so3_identity size true) = true
   /\ t_req (se3_identity size true) = true /\ t_leaf (se3_identity size true) = true)
  /\ (exists r, th_so2_rand true size s true = Some r /\ t_req r = true /\ t_leaf r = false)
  /\ (exists r, th_so2_randn true size s true = Some r /\ t_req r = true /\ t_leaf r = false)
  /\ th_se2_rand true size s true = None /\ th_se2_randn true size s true = None
  /\ (exists r, th_se2_rand true size s false = Some r /\ t_req r = false)
  /\ (exists r, th_se2_rand false size s true = Some r /\ t_req r = false).
Proof.
  intros d n s size. split; [repeat split|]. split; [eexists; repeat split|]. split; [eexists; repeat split|].
  split; [reflexivity|]. split; [reflexivity|]. split; eexists; repeat split.
Qed.

(** a concrete call: SO3.rand(1) with the numbers 0, 0, 0 is a half turn about x *)
Example C80_nonvacuous :
  in01 (fun _ => 0) /\ t_val (so3_rand [1%nat] (fun _ => 0) false) = [Some (mkM3 1 0 0 0 (-1) 0 0 0 (-1))]
  /\ length (t_val (se3_rand [2%nat] (fun _ => 0) false)) = 2%nat.
Proof.
  split; [intros i; lra|]. split; [|reflexivity]. change (t_val (so3_rand [1%nat] (fun _ => 0) false)) with [so3_rand_at 1 (fun _ => 0) 0].
  rewrite rand_at by (intros i; lra). unfold so3_quat_mat, rand_quat; cbn [qw qx qy qz]. apply f_equal2; [|reflexivity]. apply f_equal.
  rewrite Rminus_0_r, sqrt_1, sqrt_0, !Rmult_0_l, sin_0, cos_0. apply M3_ext; cbn [d00 d01 d02 d10 d11 d12 d20 d21 d22]; ring.
Qed.
