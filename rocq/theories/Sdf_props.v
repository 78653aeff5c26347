(** SignedDistanceField2D, Collision2D and EffectorObjectContactPlanar. *)
From Coq Require Import Reals Lra Psatz List Arith Lia Bool ZArith.
Import ListNotations.
From Verif Require Import Geo_spec Geo3_spec Geo4_spec Exp_unique RSum SE2_model SE2_group SE2_exp SE2_jac SE2_curve
  Emb_model Emb_spec Emb_laws Emb2_model Emb2_spec Misc_props.
Local Open Scope R_scope.

Lemma floor_at : forall k a, 0 <= a < 1 -> floor_ (IZR k + a) = k.
Proof. intros k a H. unfold floor_, Int_part. rewrite <- (up_tech (IZR k + a) k); [lia|lra|rewrite plus_IZR; lra]. Qed.
Lemma floor_spec : forall x, IZR (floor_ x) <= x < IZR (floor_ x) + 1.
Proof. intro x. unfold floor_. destruct (base_Int_part x). lra. Qed.
Lemma lt_b_true : forall a b, lt_b a b = true <-> a < b.
Proof. intros. unfold lt_b. destruct (Rlt_dec a b); split; intro; try lra; try discriminate; reflexivity. Qed.
Lemma lt_b_false : forall a b, lt_b a b = false <-> b <= a.
Proof. intros. unfold lt_b. destruct (Rlt_dec a b); split; intro; try lra; try discriminate; reflexivity. Qed.
Lemma clampZ_in : forall x n, (0 < n)%nat -> (0 <= clampZ x 0 (Z.of_nat n - 1) < Z.of_nat n)%Z.
Proof. intros. unfold clampZ. lia. Qed.
Lemma gather_in : forall s r c, (0 <= r < Z.of_nat (sd_rows s))%Z -> (0 <= c < Z.of_nat (sd_cols s))%Z ->
  gather_ s r c = Some (sd_data s (Z.to_nat r) (Z.to_nat c)).
Proof.
  intros s r c Hr Hc. unfold gather_.
  destruct (0 <=? r)%Z eqn:E1, (r <? Z.of_nat (sd_rows s))%Z eqn:E2, (0 <=? c)%Z eqn:E3, (c <? Z.of_nat (sd_cols s))%Z eqn:E4;
    cbn; try reflexivity; lia.
Qed.

Section Field.
Variables (ox oy cell : R) (rows cols : nat) (data : nat -> nat -> R).
Hypothesis (Hcell : 0 < cell) (Hrows : (0 < rows)%nat) (Hcols : (0 < cols)%nat).
Let s := sdf_init ox oy cell rows cols data.
Local Notation in_map := (in_map ox oy cell rows cols).

Lemma out_iff : forall p, sdf_out_of_bounds s p = false <-> in_map p.
Proof.
  intro p. unfold sdf_out_of_bounds, Emb2_spec.in_map, s, sdf_init. cbn. rewrite !orb_false_iff, !lt_b_false. tauto.
Qed.
(** the value and the Jacobian at the point with row index r + a and column index c + b *)
Lemma sdf_at : forall r c a b, (r < rows)%nat -> (c < cols)%nat -> 0 <= a < 1 -> 0 <= b < 1 ->
  (a = 0 \/ (r + 1 < rows)%nat) -> (b = 0 \/ (c + 1 < cols)%nat) ->
  let r1 := Nat.min (r + 1) (rows - 1) in let c1 := Nat.min (c + 1) (cols - 1) in
  sdf_signed_distance s (mkV2 (ox + (INR c + b) * cell) (oy + (INR r + a) * cell)) =
  Some (bilinear (data r c) (data r c1) (data r1 c) (data r1 c1) a b,
        mkV2 (((1 - a) * (data r c1 - data r c) + a * (data r1 c1 - data r1 c)) / cell)
             (((1 - b) * (data r1 c - data r c) + b * (data r1 c1 - data r c1)) / cell)).
Proof.
  intros r c a b Hr Hc Ha Hb Ka Kb r1 c1. set (p := mkV2 _ _).
  assert (B : sdf_out_of_bounds s p = false).
  { apply out_iff. unfold Emb2_spec.in_map, p. cbn.
    assert (0 <= INR c) by apply pos_INR. assert (0 <= INR r) by apply pos_INR.
    assert (INR c + b <= INR cols - 1).
    { destruct Kb as [->|K].
      - assert (INR (c + 1) <= INR cols) by (apply le_INR; lia). rewrite plus_INR in H1. cbn in H1. lra.
      - assert (INR (c + 2) <= INR cols) by (apply le_INR; lia). rewrite plus_INR in H1. cbn in H1. lra. }
    assert (INR r + a <= INR rows - 1).
    { destruct Ka as [->|K].
      - assert (INR (r + 1) <= INR rows) by (apply le_INR; lia). rewrite plus_INR in H2. cbn in H2. lra.
      - assert (INR (r + 2) <= INR rows) by (apply le_INR; lia). rewrite plus_INR in H2. cbn in H2. lra. }
    repeat split; nra. }
  unfold sdf_signed_distance. rewrite B. unfold s at 1 2 3 4. cbn [sd_ox sd_oy sd_cell sdf_init]. unfold p. cbn [a0 a1].
  unfold div_. destruct (Req_EM_T cell 0) as [|_]; [lra|]. cbn [bind].
  replace ((ox + (INR c + b) * cell - ox) / cell) with (IZR (Z.of_nat c) + b) by (rewrite <- INR_IZR_INZ; field; lra).
  replace ((oy + (INR r + a) * cell - oy) / cell) with (IZR (Z.of_nat r) + a) by (rewrite <- INR_IZR_INZ; field; lra).
  rewrite !floor_at by assumption. cbv zeta. change (sd_num_rows s) with rows. change (sd_num_cols s) with cols.
  replace (clampZ (Z.of_nat r) 0 (Z.of_nat rows - 1)) with (Z.of_nat r) by (unfold clampZ; lia).
  replace (clampZ (Z.of_nat c) 0 (Z.of_nat cols - 1)) with (Z.of_nat c) by (unfold clampZ; lia).
  replace (clampZ (Z.of_nat r + 1) 0 (Z.of_nat rows - 1)) with (Z.of_nat r1) by (unfold clampZ, r1; lia).
  replace (clampZ (Z.of_nat c + 1) 0 (Z.of_nat cols - 1)) with (Z.of_nat c1) by (unfold clampZ, c1; lia).
  assert (R1 : (r1 < rows)%nat) by (unfold r1; lia). assert (C1 : (c1 < cols)%nat) by (unfold c1; lia).
  rewrite !gather_in by (unfold s; cbn; lia). cbn [bind]. unfold s. cbn [sdf_init sd_data sd_cell]. rewrite !Nat2Z.id.
  apply f_equal. apply f_equal2; [unfold bilinear; ring|]. apply V2_ext; cbn [a0 a1]; unfold Rdiv; ring.
Qed.
Lemma cell_of : forall p, in_map p -> exists r c a b, (r < rows)%nat /\ (c < cols)%nat /\ 0 <= a < 1 /\ 0 <= b < 1
  /\ (a = 0 \/ (r + 1 < rows)%nat) /\ (b = 0 \/ (c + 1 < cols)%nat)
  /\ p = mkV2 (ox + (INR c + b) * cell) (oy + (INR r + a) * cell).
Proof.
  assert (K : forall x0 x n, (0 < n)%nat -> x0 <= x <= x0 + (INR n - 1) * cell ->
    exists k f, (k < n)%nat /\ 0 <= f < 1 /\ (f = 0 \/ (k + 1 < n)%nat) /\ x = x0 + (INR k + f) * cell).
  { intros x0 x n Hn Hx. set (y := (x - x0) / cell). assert (Ey : x = x0 + y * cell) by (unfold y; field; lra).
    assert (Y0 : 0 <= y) by (apply Rmult_le_reg_r with cell; lra).
    assert (Y1 : y <= INR n - 1) by (apply Rmult_le_reg_r with cell; lra).
    destruct (floor_spec y) as [F1 F2]. set (z := floor_ y) in *.
    assert (Z0 : (0 <= z)%Z). { assert (X : IZR (-1) < IZR z) by (cbn; lra). apply lt_IZR in X. lia. }
    exists (Z.to_nat z), (y - IZR z). assert (EZ : INR (Z.to_nat z) = IZR z) by (rewrite INR_IZR_INZ, Z2Nat.id; [reflexivity|exact Z0]).
    assert (ZN : (z <= Z.of_nat n - 1)%Z). { apply le_IZR. rewrite minus_IZR, <- INR_IZR_INZ. lra. }
    split; [lia|]. split; [lra|]. split; [|rewrite EZ, Ey; ring].
    destruct (Z.eq_dec z (Z.of_nat n - 1)) as [E|E]; [left|right; lia].
    rewrite E, minus_IZR, <- INR_IZR_INZ in F1 |- *. lra. }
  intros [x y] [Hx Hy]. cbn in Hx, Hy. destruct (K ox x cols Hcols Hx) as (c & b & Hc & Hb & Kb & ->).
  destruct (K oy y rows Hrows Hy) as (r & a & Hr & Ha & Ka & ->). exists r, c, a, b. repeat split; tauto.
Qed.
End Field.

(** Every query succeeds on a map with at least one cell. *)
Theorem C60_sdf_defined : forall ox oy cell rows cols data p, cell <> 0 -> (0 < rows)%nat -> (0 < cols)%nat ->
  exists d J, sdf_signed_distance (sdf_init ox oy cell rows cols data) p = Some (d, J).
Proof.
  intros ox oy cell rows cols data p Hc Hr Hn. unfold sdf_signed_distance. cbn [sd_ox sd_oy sd_cell sdf_init].
  unfold div_. destruct (Req_EM_T cell 0) as [|_]; [contradiction|]. cbn [bind]. cbv zeta. cbn [sd_num_rows sd_num_cols sdf_init].
  rewrite !gather_in by (cbn; apply clampZ_in; assumption). cbn [bind]. eauto.
Qed.
(** At the grid points the field has the given data; between four neighbouring grid points, borders of the cell included, it is their bilinear
    interpolation. *)
Theorem C60_sdf_interpolates : forall ox oy cell rows cols data, 0 < cell ->
  (forall r c, (r < rows)%nat -> (c < cols)%nat -> exists J,
     sdf_signed_distance (sdf_init ox oy cell rows cols data) (mkV2 (ox + INR c * cell) (oy + INR r * cell)) = Some (data r c, J))
  /\ (forall r c a b, (r + 1 < rows)%nat -> (c + 1 < cols)%nat -> 0 <= a <= 1 -> 0 <= b <= 1 -> exists J,
     sdf_signed_distance (sdf_init ox oy cell rows cols data) (mkV2 (ox + (INR c + b) * cell) (oy + (INR r + a) * cell))
     = Some (bilinear (data r c) (data r (c + 1)%nat) (data (r + 1)%nat c) (data (r + 1)%nat (c + 1)%nat) a b, J)).
Proof.
  intros ox oy cell rows cols data Hcell. split.
  - intros r c Hr Hc.
    pose proof (sdf_at ox oy cell rows cols data Hcell ltac:(lia) ltac:(lia) r c 0 0 Hr Hc ltac:(lra) ltac:(lra) ltac:(auto) ltac:(auto)) as E.
    rewrite !Rplus_0_r in E. eexists. rewrite E. f_equal. f_equal. unfold bilinear. ring.
  - intros r c a b Hr Hc Ha Hb.
    assert (M1 : Nat.min (r + 1) (rows - 1) = (r + 1)%nat) by lia. assert (M2 : Nat.min (c + 1) (cols - 1) = (c + 1)%nat) by lia.
    destruct (Req_EM_T a 1) as [->|Na], (Req_EM_T b 1) as [->|Nb].
    + pose proof (sdf_at ox oy cell rows cols data Hcell ltac:(lia) ltac:(lia) (r + 1) (c + 1) 0 0 Hr Hc ltac:(lra) ltac:(lra) ltac:(auto) ltac:(auto)) as E.
      rewrite !plus_INR, !Rplus_0_r in E. cbn [INR] in E. eexists. rewrite E. f_equal. f_equal. unfold bilinear. ring.
    + pose proof (sdf_at ox oy cell rows cols data Hcell ltac:(lia) ltac:(lia) (r + 1) c 0 b Hr ltac:(lia) ltac:(lra) ltac:(lra) ltac:(auto) ltac:(auto)) as E.
      rewrite !plus_INR, !Rplus_0_r, M2 in E. cbn [INR] in E. eexists. rewrite E. f_equal. f_equal. unfold bilinear. ring.
    + pose proof (sdf_at ox oy cell rows cols data Hcell ltac:(lia) ltac:(lia) r (c + 1) a 0 ltac:(lia) Hc ltac:(lra) ltac:(lra) ltac:(auto) ltac:(auto)) as E.
      rewrite !plus_INR, !Rplus_0_r, M1 in E. cbn [INR] in E. eexists. rewrite E. f_equal. f_equal. unfold bilinear. ring.
    + pose proof (sdf_at ox oy cell rows cols data Hcell ltac:(lia) ltac:(lia) r c a b ltac:(lia) ltac:(lia) ltac:(lra) ltac:(lra) ltac:(auto) ltac:(auto)) as E.
      cbv zeta in E. rewrite M1, M2 in E. eexists. exact E.
Qed.
Lemma bilinear_range : forall lo hi x y z w a b, 0 <= a <= 1 -> 0 <= b <= 1 ->
  lo <= x <= hi -> lo <= y <= hi -> lo <= z <= hi -> lo <= w <= hi -> lo <= bilinear x y z w a b <= hi.
Proof.
  intros lo hi x y z w a b Ha Hb Hx Hy Hz Hw. unfold bilinear.
  assert (P : lo <= (1 - b) * x + b * y <= hi) by nra. assert (Q : lo <= (1 - b) * z + b * w <= hi) by nra.
  set (u := (1 - b) * x + b * y) in *. set (v := (1 - b) * z + b * w) in *. clearbody u v. nra.
Qed.
(** Inside the map the field never leaves the range of the data; outside it has the boundary value 0 and Jacobian 0. *)
Theorem C60_sdf_range : forall ox oy cell rows cols data p d J lo hi, 0 < cell -> (0 < rows)%nat -> (0 < cols)%nat ->
  sdf_signed_distance (sdf_init ox oy cell rows cols data) p = Some (d, J) ->
  (in_map ox oy cell rows cols p -> (forall r c, (r < rows)%nat -> (c < cols)%nat -> lo <= data r c <= hi) -> lo <= d <= hi)
  /\ (~ in_map ox oy cell rows cols p -> d = 0 /\ J = mkV2 0 0).
Proof.
  intros ox oy cell rows cols data p d J lo hi Hcell Hr Hc E. split.
  - intros I H. destruct (cell_of ox oy cell rows cols Hcell Hr Hc p I) as (r & c & a & b & Lr & Lc & Ha & Hb & Ka & Kb & ->).
    rewrite (sdf_at ox oy cell rows cols data Hcell Hr Hc r c a b Lr Lc Ha Hb Ka Kb) in E. injection E as <- _.
    apply bilinear_range; try lra; apply H; lia.
  - intro N. destruct (sdf_out_of_bounds (sdf_init ox oy cell rows cols data) p) eqn:O.
    + unfold sdf_signed_distance in E. rewrite O in E. cbn [sd_ox sd_oy sd_cell sdf_init] in E.
      unfold div_ in E. destruct (Req_EM_T cell 0) as [|_]; [lra|]. cbn [bind] in E. cbv zeta in E. cbn [sd_num_rows sd_num_cols sdf_init] in E.
      rewrite !gather_in in E by (cbn; apply clampZ_in; assumption). cbn [bind] in E. injection E as <- <-. auto.
    + apply out_iff in O. contradiction.
Qed.

(** Strictly inside a cell the returned Jacobian is the derivative of the field: along every motion of the point the field moves at
    the rate Jacobian * velocity. *)
Theorem C60_sdf_jac : forall ox oy cell rows cols data q dq d J, 0 < cell ->
  inside_cell ox oy cell rows cols (q 0) -> deriv2 q 0 dq ->
  sdf_signed_distance (sdf_init ox oy cell rows cols data) (q 0) = Some (d, J) ->
  exists u K, defined_near (fun t => sdf_signed_distance (sdf_init ox oy cell rows cols data) (q t)) (fun t => (u t, K t)) /\ u 0 = d
  /\ deriv u 0 (dot2 J dq).
Proof.
  intros ox oy cell rows cols data q dq d J Hcell (r & c & a & b & Hr & Hc & Ha & Hb & Q0) [Dx Dy] E. unfold dot2.
  set (s := sdf_init ox oy cell rows cols data) in *.
  assert (M1 : Nat.min (r + 1) (rows - 1) = (r + 1)%nat) by lia. assert (M2 : Nat.min (c + 1) (cols - 1) = (c + 1)%nat) by lia.
  assert (S : forall a b, 0 <= a < 1 -> 0 <= b < 1 -> _) by
    (intros a' b' Ha' Hb'; exact (sdf_at ox oy cell rows cols data Hcell ltac:(lia) ltac:(lia) r c a' b' ltac:(lia) ltac:(lia) Ha' Hb' ltac:(auto) ltac:(auto))).
  cbv zeta in S. rewrite M1, M2 in S. fold s in S.
  rewrite Q0, S in E by lra. apply some_inj in E. apply pair_equal_spec in E. destruct E as [Ed EJ]. subst J d.
  pose (A := fun t => (a1 (q t) - oy) / cell - INR r). pose (B := fun t => (a0 (q t) - ox) / cell - INR c).
  assert (A0 : A 0 = a) by (unfold A; rewrite Q0; cbn; field; lra). assert (B0 : B 0 = b) by (unfold B; rewrite Q0; cbn; field; lra).
  assert (DA : deriv A 0 (a1 dq / cell)).
  { unfold A. apply (deriv_ext (fun t => a1 (q t) * / cell - (oy / cell + INR r))); [intro; unfold Rdiv; ring|]. dgo. unfold Rdiv. ring. }
  assert (DB : deriv B 0 (a0 dq / cell)).
  { unfold B. apply (deriv_ext (fun t => a0 (q t) * / cell - (ox / cell + INR c))); [intro; unfold Rdiv; ring|]. dgo. unfold Rdiv. ring. }
  destruct (deriv_away A _ 0 DA ltac:(lra)) as (r1 & R1 & K1). destruct (deriv_away A _ 1 DA ltac:(lra)) as (r2 & R2 & K2).
  destruct (deriv_away B _ 0 DB ltac:(lra)) as (r3 & R3 & K3). destruct (deriv_away B _ 1 DB ltac:(lra)) as (r4 & R4 & K4).
  rewrite A0 in K1, K2. rewrite B0 in K3, K4.
  pose (u := fun t => bilinear (data r c) (data r (c + 1)%nat) (data (r + 1)%nat c) (data (r + 1)%nat (c + 1)%nat) (A t) (B t)).
  eexists u, _. split; [|split; [unfold u; rewrite A0, B0; reflexivity|]].
  - exists (Rmin (Rmin r1 r2) (Rmin r3 r4)). split; [repeat apply Rmin_case; assumption|]. intros t Ht.
    assert (L : Rabs t < r1 /\ Rabs t < r2 /\ Rabs t < r3 /\ Rabs t < r4).
    { pose proof (Rmin_l (Rmin r1 r2) (Rmin r3 r4)). pose proof (Rmin_r (Rmin r1 r2) (Rmin r3 r4)).
      pose proof (Rmin_l r1 r2). pose proof (Rmin_r r1 r2). pose proof (Rmin_l r3 r4). pose proof (Rmin_r r3 r4). lra. }
    destruct L as (L1 & L2 & L3 & L4). specialize (K1 t L1). specialize (K2 t L2). specialize (K3 t L3). specialize (K4 t L4).
    assert (HA : 0 < A t < 1) by tauto. assert (HB : 0 < B t < 1) by tauto.
    replace (q t) with (mkV2 (ox + (INR c + B t) * cell) (oy + (INR r + A t) * cell)) by (apply V2_ext; cbn; unfold A, B; field; lra).
    rewrite S by lra. unfold u. reflexivity.
  - unfold u, bilinear. dgo. rewrite A0, B0. cbn [a0 a1]. field. lra.
Qed.

(** ** continuity *)
Definition lerp (v : nat -> R) (k : nat) (f : R) : R := (1 - f) * v k + f * v (S k).
Lemma steps : forall v M, (forall j, Rabs (v (S j) - v j) <= M) -> forall k m, Rabs (v (k + m)%nat - v k) <= M * INR m.
Proof.
  intros v M H k m. induction m as [|m IH].
  - rewrite Nat.add_0_r, Rminus_diag_eq by reflexivity. rewrite Rabs_R0. cbn. lra.
  - rewrite Nat.add_succ_r, S_INR. replace (v (S (k + m)) - v k) with ((v (S (k + m)) - v (k + m)%nat) + (v (k + m)%nat - v k)) by ring.
    eapply Rle_trans; [apply Rabs_triang|]. specialize (H (k + m)%nat). lra.
Qed.
Lemma lerp_left : forall v M k f, Rabs (v (S k) - v k) <= M -> 0 <= f < 1 -> Rabs (lerp v k f - v k) <= M * f /\ Rabs (lerp v k f - v (S k)) <= M * (1 - f).
Proof.
  intros v M k f H Hf. unfold lerp. split.
  - replace (_ - _) with (f * (v (S k) - v k)) by ring. rewrite Rabs_mult, (Rabs_right f) by lra. nra.
  - replace (_ - _) with (- (1 - f) * (v (S k) - v k)) by ring. rewrite Rabs_mult, Rabs_Ropp, (Rabs_right (1 - f)) by lra. nra.
Qed.
Lemma lerp_lip_lt : forall v M, (forall j, Rabs (v (S j) - v j) <= M) -> forall k f k' f', (k < k')%nat -> 0 <= f < 1 -> 0 <= f' < 1 ->
  Rabs (lerp v k' f' - lerp v k f) <= M * ((INR k' + f') - (INR k + f)).
Proof.
  intros v M H k f k' f' L Hf Hf'. destruct (lerp_left v M k f (H k) Hf) as [_ A]. destruct (lerp_left v M k' f' (H k') Hf') as [B _].
  pose proof (steps v M H (S k) (k' - S k)) as C. replace (S k + (k' - S k))%nat with k' in C by lia.
  rewrite minus_INR, S_INR in C by lia.
  replace (lerp v k' f' - lerp v k f) with ((lerp v k' f' - v k') + (v k' - v (S k)) + - (lerp v k f - v (S k))) by ring.
  eapply Rle_trans; [apply Rabs_triang|]. rewrite Rabs_Ropp.
  pose proof (Rabs_triang (lerp v k' f' - v k') (v k' - v (S k))). lra.
Qed.
Lemma lerp_lip : forall v M, (forall j, Rabs (v (S j) - v j) <= M) -> forall k f k' f', 0 <= f < 1 -> 0 <= f' < 1 ->
  Rabs (lerp v k' f' - lerp v k f) <= M * Rabs ((INR k' + f') - (INR k + f)).
Proof.
  intros v M H k f k' f' Hf Hf'.
  assert (M0 : 0 <= M) by (pose proof (Rabs_pos (v 1%nat - v 0%nat)); specialize (H 0%nat); lra).
  destruct (Nat.lt_trichotomy k k') as [L|[->|L]].
  - eapply Rle_trans; [apply (lerp_lip_lt v M H); assumption|]. apply Rmult_le_compat_l; [exact M0|apply Rle_abs].
  - unfold lerp. replace (_ - _) with ((f' - f) * (v (S k') - v k')) by ring. rewrite Rabs_mult.
    replace (INR k' + f' - (INR k' + f)) with (f' - f) by ring. rewrite Rmult_comm. apply Rmult_le_compat_r; [apply Rabs_pos|apply H].
  - rewrite Rabs_minus_sym, (Rabs_minus_sym (INR k' + f')).
    eapply Rle_trans; [apply (lerp_lip_lt v M H); assumption|]. apply Rmult_le_compat_l; [exact M0|apply Rle_abs].
Qed.
Lemma lerp_close : forall v w e k f, (forall j, Rabs (v j - w j) <= e) -> 0 <= f < 1 -> Rabs (lerp v k f - lerp w k f) <= e.
Proof.
  intros v w e k f H Hf. unfold lerp. replace (_ - _) with ((1 - f) * (v k - w k) + f * (v (S k) - w (S k))) by ring.
  eapply Rle_trans; [apply Rabs_triang|]. rewrite !Rabs_mult, (Rabs_right f), (Rabs_right (1 - f)) by lra.
  pose proof (H k). pose proof (H (S k)). nra.
Qed.
(** If neighbouring data differ by at most L times the cell size (as the values of a distance field do, with L = 1), the field is Lipschitz on the
    whole map: it has no jumps, at cell borders or elsewhere. *)
Theorem C60_sdf_lipschitz : forall ox oy cell rows cols data L p p' d d' J J', 0 < cell -> (0 < rows)%nat -> (0 < cols)%nat -> 0 <= L ->
  (forall r c, (r < rows)%nat -> (c + 1 < cols)%nat -> Rabs (data r (c + 1)%nat - data r c) <= L * cell) ->
  (forall r c, (r + 1 < rows)%nat -> (c < cols)%nat -> Rabs (data (r + 1)%nat c - data r c) <= L * cell) ->
  in_map ox oy cell rows cols p -> in_map ox oy cell rows cols p' ->
  sdf_signed_distance (sdf_init ox oy cell rows cols data) p = Some (d, J) ->
  sdf_signed_distance (sdf_init ox oy cell rows cols data) p' = Some (d', J') ->
  Rabs (d' - d) <= L * (Rabs (a0 p' - a0 p) + Rabs (a1 p' - a1 p)).
Proof.
  intros ox oy cell rows cols data L p p' d d' J J' Hcell Hr Hc L0 HC HR I I' E E'.
  destruct (cell_of ox oy cell rows cols Hcell Hr Hc p I) as (r & c & a & b & Lr & Lc & Ha & Hb & Ka & Kb & ->).
  destruct (cell_of ox oy cell rows cols Hcell Hr Hc p' I') as (r' & c' & a' & b' & Lr' & Lc' & Ha' & Hb' & Ka' & Kb' & ->).
  rewrite (sdf_at ox oy cell rows cols data Hcell Hr Hc r c a b Lr Lc Ha Hb Ka Kb) in E. injection E as <- _.
  rewrite (sdf_at ox oy cell rows cols data Hcell Hr Hc r' c' a' b' Lr' Lc' Ha' Hb' Ka' Kb') in E'. injection E' as <- _.
  pose (D := fun i j => data (Nat.min i (rows - 1)) (Nat.min j (cols - 1))).
  assert (DR : forall i j, Rabs (D (S i) j - D i j) <= L * cell).
  { intros i j. unfold D. destruct (le_lt_dec (rows - 1) i) as [G|G].
    - replace (Nat.min (S i) (rows - 1)) with (Nat.min i (rows - 1)) by lia. rewrite Rminus_diag_eq by reflexivity. rewrite Rabs_R0. nra.
    - replace (Nat.min (S i) (rows - 1)) with (i + 1)%nat by lia. replace (Nat.min i (rows - 1)) with i by lia. apply HR; lia. }
  assert (DC : forall i j, Rabs (D i (S j) - D i j) <= L * cell).
  { intros i j. unfold D. destruct (le_lt_dec (cols - 1) j) as [G|G].
    - replace (Nat.min (S j) (cols - 1)) with (Nat.min j (cols - 1)) by lia. rewrite Rminus_diag_eq by reflexivity. rewrite Rabs_R0. nra.
    - replace (Nat.min (S j) (cols - 1)) with (j + 1)%nat by lia. replace (Nat.min j (cols - 1)) with j by lia. apply HC; lia. }
  assert (F : forall r c a b, (r < rows)%nat -> (c < cols)%nat ->
    bilinear (data r c) (data r (Nat.min (c + 1) (cols - 1))) (data (Nat.min (r + 1) (rows - 1)) c) (data (Nat.min (r + 1) (rows - 1)) (Nat.min (c + 1) (cols - 1))) a b
    = lerp (fun i => lerp (fun j => D i j) c b) r a).
  { intros i j x y Hi Hj. unfold lerp, D, bilinear. rewrite !Nat.add_1_r.
    replace (Nat.min i (rows - 1)) with i by lia. replace (Nat.min j (cols - 1)) with j by lia. reflexivity. }
  rewrite !F by assumption. clear F.
  assert (S1 : Rabs (lerp (fun i => lerp (fun j => D i j) c' b') r' a' - lerp (fun i => lerp (fun j => D i j) c b) r' a') <= L * cell * Rabs ((INR c' + b') - (INR c + b))).
  { apply lerp_close; [|assumption]. intro i. apply (lerp_lip (fun j => D i j) (L * cell)); [apply DC|assumption|assumption]. }
  assert (S2 : Rabs (lerp (fun i => lerp (fun j => D i j) c b) r' a' - lerp (fun i => lerp (fun j => D i j) c b) r a) <= L * cell * Rabs ((INR r' + a') - (INR r + a))).
  { apply lerp_lip; [|assumption|assumption]. intro i. apply lerp_close; [|assumption]. intro j. apply DR. }
  cbn [a0 a1].
  replace (ox + (INR c' + b') * cell - (ox + (INR c + b) * cell)) with (cell * ((INR c' + b') - (INR c + b))) by ring.
  replace (oy + (INR r' + a') * cell - (oy + (INR r + a) * cell)) with (cell * ((INR r' + a') - (INR r + a))) by ring.
  rewrite !Rabs_mult, (Rabs_right cell) by lra.
  match goal with |- Rabs (?x - ?y) <= _ => replace (x - y) with ((x - lerp (fun i => lerp (fun j => D i j) c b) r' a') + (lerp (fun i => lerp (fun j => D i j) c b) r' a' - y)) by ring end.
  eapply Rle_trans; [apply Rabs_triang|]. lra.
Qed.

(** ** Collision2D and EffectorObjectContactPlanar *)
Lemma deriv_hinge : forall d l eps, deriv d 0 l -> d 0 <> eps ->
  deriv (fun t => clamp_min0 (eps - d t)) 0 (if lt_b eps (d 0) then 0 else - l).
Proof.
  intros d l eps D N. destruct (deriv_away d l eps D N) as (r & Hr & K). unfold clamp_min0, lt_b.
  destruct (Rlt_dec eps (d 0)) as [G|G].
  - apply (deriv_ext_loc (fun _ => 0) _ _ _ r Hr); [|apply d_const]. intros t Ht. rewrite Rminus_0_r in Ht.
    destruct (K t Ht) as [_ K2]. destruct (Rlt_dec (eps - d t) 0); [reflexivity|]. apply K2 in G. lra.
  - apply (deriv_ext_loc (fun t => eps - d t) _ _ _ r Hr); [|dgo; ring]. intros t Ht. rewrite Rminus_0_r in Ht.
    destruct (K t Ht) as [_ K2]. destruct (Rlt_dec (eps - d t) 0); [|reflexivity]. exfalso. apply G, K2. lra.
Qed.
Lemma deriv_abs : forall d l w, deriv d 0 l -> d 0 <> w ->
  deriv (fun t => Rabs (d t - w)) 0 (if lt_b (d 0) w then - l else l).
Proof.
  intros d l w D N. destruct (deriv_away d l w D N) as (r & Hr & K). unfold lt_b.
  destruct (Rlt_dec (d 0) w) as [G|G].
  - apply (deriv_ext_loc (fun t => - (d t - w)) _ _ _ r Hr); [|dgo; ring]. intros t Ht. rewrite Rminus_0_r in Ht.
    destruct (K t Ht) as [K1 _]. apply K1 in G. rewrite Rabs_left; lra.
  - apply (deriv_ext_loc (fun t => d t - w) _ _ _ r Hr); [|dgo; ring]. intros t Ht. rewrite Rminus_0_r in Ht.
    destruct (K t Ht) as [K1 _]. destruct (Rlt_dec (d t) w) as [F|F]; [apply K1 in F; contradiction|]. rewrite Rabs_right; lra.
Qed.
(** The collision error is the depth by which the signed distance is below cost_eps, and never negative; beyond cost_eps the error and the Jacobian
    vanish.  Outside the map the distance counts as 0. *)
Theorem C60_collision_error : forall s eps p g d J,
  (sdf_signed_distance s p = Some (d, J) ->
     coll_error_point s eps p = Some (Rmax 0 (eps - d))
     /\ (eps < d -> coll_jacobians_point s eps p = Some (mkV2 0 0, 0)))
  /\ (sdf_signed_distance s (se2_xy g) = Some (d, J) ->
     coll_error_se2 s eps g = Some (Rmax 0 (eps - d))
     /\ (eps < d -> coll_jacobians_se2 s eps g = Some (mkV3 0 0 0, 0))).
Proof.
  assert (M : forall x, clamp_min0 x = Rmax 0 x).
  { intro x. unfold clamp_min0, lt_b. destruct (Rlt_dec x 0); [rewrite Rmax_left by lra|rewrite Rmax_right by lra]; reflexivity. }
  intros s eps p g d J. split; intro E.
  - unfold coll_error_point, coll_jacobians_point. rewrite E. cbn [bind fst]. split; [rewrite M; reflexivity|]. intro L.
    assert (X : lt_b eps d = true) by (apply lt_b_true; exact L). rewrite X. cbn. rewrite !Ropp_0, M, Rmax_left by lra. reflexivity.
  - unfold coll_error_se2, coll_jacobians_se2. rewrite E. cbn [bind fst]. split; [rewrite M; reflexivity|]. intro L.
    assert (X : lt_b eps d = true) by (apply lt_b_true; exact L). rewrite X. cbn. rewrite !Ropp_0, M, Rmax_left by lra. reflexivity.
Qed.
(** Outside the map every query reports the same error max(0, cost_eps) and Jacobian zero, whatever the obstacle data. *)
Theorem C60_collision_outside : forall ox oy cell rows cols data eps p g, 0 < cell -> (0 < rows)%nat -> (0 < cols)%nat ->
  (~ in_map ox oy cell rows cols p ->
     coll_jacobians_point (sdf_init ox oy cell rows cols data) eps p = Some (mkV2 0 0, Rmax 0 eps))
  /\ (~ in_map ox oy cell rows cols (se2_xy g) -> exists J,
     coll_jacobians_se2 (sdf_init ox oy cell rows cols data) eps g = Some (J, Rmax 0 eps) /\ J = mkV3 0 0 0).
Proof.
  assert (M : forall x, clamp_min0 x = Rmax 0 x).
  { intro x. unfold clamp_min0, lt_b. destruct (Rlt_dec x 0); [rewrite Rmax_left by lra|rewrite Rmax_right by lra]; reflexivity. }
  intros ox oy cell rows cols data eps p g Hcell Hr Hc. split; intro N.
  - destruct (C60_sdf_defined ox oy cell rows cols data p ltac:(lra) Hr Hc) as (d & J & E).
    destruct (proj2 (C60_sdf_range ox oy cell rows cols data p d J 0 0 Hcell Hr Hc E) N) as [-> ->].
    unfold coll_jacobians_point. rewrite E. cbn [bind fst snd]. rewrite Rminus_0_r, M. unfold where_. destruct (lt_b eps 0); cbn; rewrite Ropp_0; reflexivity.
  - destruct (C60_sdf_defined ox oy cell rows cols data (se2_xy g) ltac:(lra) Hr Hc) as (d & J & E).
    destruct (proj2 (C60_sdf_range ox oy cell rows cols data _ d J 0 0 Hcell Hr Hc E) N) as [-> ->].
    unfold coll_jacobians_se2. rewrite E. cbn [bind fst snd]. rewrite Rminus_0_r, M. eexists. split; [reflexivity|].
    unfold where_. destruct (lt_b eps 0); apply V3_ext; cbn; ring.
Qed.

(** jacobians() returns the value of error() and the derivative: along every motion of the pose, strictly inside a cell and off the kink (distance equal
    to cost_eps), the error moves at the rate Jacobian * velocity.  First for Point2 poses, then for SE2 poses. *)
Theorem C60_collision_jac : forall ox oy cell rows cols data eps, 0 < cell ->
  let s := sdf_init ox oy cell rows cols data in
  (forall q dq d J0, inside_cell ox oy cell rows cols (q 0) -> deriv2 q 0 dq ->
     sdf_signed_distance s (q 0) = Some (d, J0) -> d <> eps ->
     exists J e u, coll_jacobians_point s eps (q 0) = Some (J, e) /\ coll_error_point s eps (q 0) = Some e
     /\ defined_near (fun t => coll_error_point s eps (q t)) u /\ u 0 = e /\ deriv u 0 (dot2 J dq))
  /\ (forall h g xi d J0, moves_se2 h g xi -> inside_cell ox oy cell rows cols (se2_xy g) ->
     sdf_signed_distance s (se2_xy g) = Some (d, J0) -> d <> eps ->
     exists J e u, coll_jacobians_se2 s eps g = Some (J, e) /\ coll_error_se2 s eps g = Some e
     /\ defined_near (fun t => coll_error_se2 s eps (h t)) u /\ u 0 = e /\ deriv u 0 (dot3 J xi)).
Proof.
  intros ox oy cell rows cols data eps Hcell s. split.
  - intros q dq d J0 In Dq E N.
    destruct (C60_sdf_jac ox oy cell rows cols data q dq d J0 Hcell In Dq E) as (u & K & (r & Hr & U) & U0 & DU).
    unfold coll_jacobians_point, coll_error_point. fold s in U. rewrite E. cbn [bind fst snd].
    eexists _, _, (fun t => clamp_min0 (eps - u t)). split; [reflexivity|]. split; [reflexivity|].
    split; [exists r; split; [exact Hr|]; intros t Ht; rewrite (U t Ht); reflexivity|]. split; [rewrite U0; reflexivity|].
    rewrite <- U0 in N. eapply deriv_val; [|apply (deriv_hinge u _ eps DU N)]. rewrite U0. unfold where_, dot2.
    destruct (lt_b eps d); cbn; ring.
  - intros h g xi d J0 Mh In E N. destruct (moves_se2_vel _ _ _ Mh) as (H0 & D1 & D2 & _).
    assert (Dq : deriv2 (fun t => se2_xy (h t)) 0 (app23 (se2_xy_jac g) xi)).
    { split; cbn; (eapply deriv_val; [|eassumption]); ring. }
    rewrite <- H0 in In, E.
    destruct (C60_sdf_jac ox oy cell rows cols data (fun t => se2_xy (h t)) _ d J0 Hcell In Dq E) as (u & K & (r & Hr & U) & U0 & DU).
    rewrite H0 in E. unfold coll_jacobians_se2, coll_error_se2. fold s in U. rewrite E. cbn [bind fst snd].
    eexists _, _, (fun t => clamp_min0 (eps - u t)). split; [reflexivity|]. split; [reflexivity|].
    split; [exists r; split; [exact Hr|]; intros t Ht; rewrite (U t Ht); reflexivity|]. split; [rewrite U0; reflexivity|].
    rewrite <- U0 in N. eapply deriv_val; [|apply (deriv_hinge u _ eps DU N)]. rewrite U0. unfold where_, dot2, dot3, vmul23.
    destruct (lt_b eps d); cbn; ring.
Qed.
(** The contact error is the distance between the signed distance of the effector (in the object's frame) and the effector's radius; its Jacobians are the
    derivatives, strictly inside a cell and off contact. *)
Theorem C60_contact_jac : forall ox oy cell rows cols data radius ho obj xo he eff xe d J0, 0 < cell ->
  let s := sdf_init ox oy cell rows cols data in
  moves_se2 ho obj xo -> moves_se2 he eff xe -> inside_cell ox oy cell rows cols (se2_transform_to obj (se2_xy eff)) ->
  sdf_signed_distance s (se2_transform_to obj (se2_xy eff)) = Some (d, J0) -> d <> radius ->
  exists J1 J2 e u, contact_jacobians s radius obj eff = Some (J1, J2, e) /\ contact_error s radius obj eff = Some e /\ e = Rabs (d - radius)
  /\ defined_near (fun t => contact_error s radius (ho t) (he t)) u /\ u 0 = e /\ deriv u 0 (dot3 J1 xo + dot3 J2 xe).
Proof.
  intros ox oy cell rows cols data radius ho obj xo he eff xe d J0 Hcell s Mo Me In E N.
  pose proof (moves_se2_valid _ _ _ Mo) as Vo.
  destruct (moves_se2_vel _ _ _ Mo) as (A0 & A1 & A2 & A3 & A4). destruct (moves_se2_vel _ _ _ Me) as (B0 & B1 & B2 & B3 & B4).
  pose (q := fun t => se2_transform_to (ho t) (se2_xy (he t))).
  assert (Q0 : q 0 = se2_transform_to obj (se2_xy eff)) by (unfold q; rewrite A0, B0; reflexivity).
  assert (Dq : deriv2 q 0 (add2 (app23 (se2_transform_to_Jg obj (se2_xy eff)) xo)
     (app23 (mul2_23 (se2_transform_to_Jpnt obj) (se2_xy_jac eff)) xe))).
  { unfold se2_valid in Vo. assert (Q : pc obj * pc obj = 1 - ps obj * ps obj) by lra. clear Vo Q0 E In Mo Me. unfold q. clear q.
    destruct obj as [ox' oy' oc os], eff as [ex ey ec es], xo as [o0 o1 o2], xe as [f0 f1 f2]. cbn in A1, A2, A3, A4, B1, B2, B3, B4, Q.
    unfold deriv2, se2_transform_to_Jg, se2_transform_to_Jpnt, mul2_23, se2_xy_jac, se2_xy. unfg.
    split; dgo; rewrite ?A0, ?B0; cbn; ring [Q]. }
  rewrite <- Q0 in In, E.
  destruct (C60_sdf_jac ox oy cell rows cols data q _ d J0 Hcell In Dq E) as (u & K & (r & Hr & U) & U0 & DU).
  rewrite Q0 in E. unfold contact_jacobians, contact_error. fold s in U. rewrite E. cbn [bind fst snd].
  eexists _, _, _, (fun t => Rabs (u t - radius)). split; [reflexivity|]. split; [reflexivity|]. split; [reflexivity|].
  split; [exists r; split; [exact Hr|]; intros t Ht; change (se2_transform_to (ho t) (se2_xy (he t))) with (q t); rewrite (U t Ht); reflexivity|].
  split; [rewrite U0; reflexivity|].
  rewrite <- U0 in N. eapply deriv_val; [|apply (deriv_abs u _ radius DU N)]. rewrite U0. unfold dot2, dot3, vmul23, app23, add2.
  destruct (lt_b d radius); cbn [b0 b1 b2 a0 a1]; ring.
Qed.

(** ** replacing the map *)
(** update_data with a map of the shape given at construction: as if the field had been constructed with the new data. *)
Theorem C60_sdf_update_partial : forall ox oy cell rows cols data ox' oy' cell' data',
  sdf_update_data (sdf_init ox oy cell rows cols data) ox' oy' cell' rows cols data' = sdf_init ox' oy' cell' rows cols data'.
Proof. reflexivity. Qed.
(** Without that condition it fails: with a wider map, every point beyond the old width is reported to be outside (value 0) although the new map covers it; with
    a narrower map, the field raises at every point beyond the new width (by more than a cell) that the old width covers. *)
Theorem C60_sdf_update_refuted : forall ox oy cell rows cols data cols' data' x y,
  0 < cell -> (0 < rows)%nat -> (0 < cols)%nat -> (0 < cols')%nat -> oy <= y <= oy + (INR rows - 1) * cell ->
  let s := sdf_update_data (sdf_init ox oy cell rows cols data) ox oy cell rows cols' data' in
  (ox + (INR cols - 1) * cell < x <= ox + (INR cols' - 1) * cell -> exists J, sdf_signed_distance s (mkV2 x y) = Some (0, J)
     /\ in_map ox oy cell rows cols' (mkV2 x y))
  /\ (ox + INR cols' * cell <= x <= ox + (INR cols - 1) * cell -> sdf_signed_distance s (mkV2 x y) = None).
Proof.
  intros ox oy cell rows cols data cols' data' x y Hcell Hr Hc Hc' Hy s. split; intro Hx.
  - assert (LE : (cols <= cols')%nat). { apply INR_le. assert (INR cols - 1 < INR cols' - 1) by (apply Rmult_lt_reg_r with cell; lra). lra. }
    assert (O : sdf_out_of_bounds s (mkV2 x y) = true).
    { unfold sdf_out_of_bounds. cbn. assert (X : lt_b (ox + (INR cols - 1) * cell) x = true) by (apply lt_b_true; lra). rewrite X, orb_true_r. reflexivity. }
    exists (mkV2 0 0). split.
    + unfold sdf_signed_distance. rewrite O. unfold s. cbn [sd_ox sd_oy sd_cell sdf_update_data a0 a1]. unfold div_.
      destruct (Req_EM_T cell 0) as [|_]; [lra|]. cbn [bind]. cbv zeta. cbn [sd_num_rows sd_num_cols sdf_init sdf_update_data].
      pose proof (fun z => clampZ_in z rows Hr). pose proof (fun z => clampZ_in z cols Hc).
      rewrite !gather_in; cbn; try reflexivity; try apply clampZ_in; try assumption;
        (match goal with |- (0 <= clampZ ?z _ _ < _)%Z => specialize (H0 z); lia end).
    + unfold in_map. cbn. assert (0 <= (INR cols - 1) * cell) by (apply Rmult_le_pos; [apply (le_INR 1) in Hc; cbn in Hc; lra|lra]). lra.
  - unfold sdf_signed_distance. unfold s at 1 2 3 4. cbn [sd_ox sd_oy sd_cell sdf_update_data a0 a1]. unfold div_.
    destruct (Req_EM_T cell 0) as [|_]; [lra|]. cbn [bind]. cbv zeta.
    set (z := floor_ ((x - ox) / cell)).
    assert (Z1 : (Z.of_nat cols' <= z)%Z).
    { destruct (floor_spec ((x - ox) / cell)) as [_ F]. fold z in F.
      assert (INR cols' <= (x - ox) / cell) by (apply Rmult_le_reg_r with cell; [lra|]; unfold Rdiv; rewrite Rmult_assoc, Rinv_l; lra).
      assert (X : IZR (Z.of_nat cols') < IZR (z + 1)) by (rewrite plus_IZR, <- INR_IZR_INZ; lra). apply lt_IZR in X. lia. }
    assert (LT : (cols' < cols)%nat).
    { apply INR_lt. assert (INR cols' <= INR cols - 1) by (apply Rmult_le_reg_r with cell; lra). lra. }
    set (rr := clampZ (floor_ ((y - oy) / cell)) 0 _). set (cc := clampZ z 0 _).
    assert (Q : (Z.of_nat cols' <= cc)%Z) by (unfold cc, clampZ, s; cbn [sd_num_cols sdf_update_data sdf_init]; lia).
    assert (G : gather_ s rr cc = None).
    { unfold gather_. assert (X : (cc <? Z.of_nat (sd_cols s))%Z = false) by (apply Z.ltb_ge; exact Q). rewrite X, andb_false_r. reflexivity. }
    rewrite G. reflexivity.
Qed.
(** Whatever auxiliary variables are replaced, in whatever order, on a constructed or copied cost function, the field reads exactly the registered
    variables; so an update of a registered variable always reaches the error. *)
Inductive field_history : FieldObj -> Prop :=
| FHnew : forall aux, field_history (fo_new aux)
| FHset : forall o i v o', field_history o -> fo_set_aux_var_at o i v = Some o' -> field_history o'
| FHcopy : forall o n, field_history o -> field_history (fo_copy n o).
Theorem C60_field_in_sync : forall o, field_history o -> fo_sdf o = (fo_aux o 0%nat, fo_aux o 1%nat, fo_aux o 2%nat).
Proof.
  intros o H. destruct H as [aux|o i v o' _ E|o n _]; [reflexivity| |reflexivity].
  unfold fo_set_aux_var_at in E. destruct (Nat.leb 4 i); [discriminate|]. injection E as <-. reflexivity.
Qed.
Theorem C60_set_aux_var_at : forall o i v, (i < 4)%nat -> exists o', fo_set_aux_var_at o i v = Some o'
  /\ fo_aux o' i = v /\ forall j, j <> i -> fo_aux o' j = fo_aux o j.
Proof.
  intros o i v Hi. unfold fo_set_aux_var_at. destruct (Nat.leb_spec 4 i); [lia|]. eexists. split; [reflexivity|].
  cbn. rewrite Nat.eqb_refl. split; [reflexivity|]. intros j N. apply Nat.eqb_neq in N. rewrite N. reflexivity.
Qed.
Example C60_case : let data := fun r c => INR r + 2 * INR c in
  inside_cell 0 0 1 2 3 (mkV2 (1 + 1 / 2) (1 / 2))
  /\ (exists J, sdf_signed_distance (sdf_init 0 0 1 2 3 data) (mkV2 (1 + 1 / 2) (1 / 2)) = Some (7 / 2, J))
  /\ coll_error_point (sdf_init 0 0 1 2 3 data) 4 (mkV2 (1 + 1 / 2) (1 / 2)) = Some (1 / 2).
Proof.
  cbv zeta.
  assert (EQ : mkV2 (1 + 1 / 2) (1 / 2) = mkV2 (0 + (INR 1 + 1 / 2) * 1) (0 + (INR 0 + 1 / 2) * 1)) by (apply V2_ext; cbn; field).
  assert (E := proj2 (C60_sdf_interpolates 0 0 1 2 3 (fun r c => INR r + 2 * INR c) Rlt_0_1) 0%nat 1%nat (1 / 2) (1 / 2)
    ltac:(lia) ltac:(lia) ltac:(lra) ltac:(lra)).
  rewrite EQ. destruct E as (J & E).
  match type of E with _ = Some (?v, _) => assert (V : v = 7 / 2) by (unfold bilinear; cbn; field); rewrite V in E end.
  split; [exists 0%nat, 1%nat, (1 / 2), (1 / 2); repeat split; try lia; try lra|]. split; [exists J; exact E|].
  unfold coll_error_point. rewrite E. cbn [bind fst]. f_equal. unfold clamp_min0, lt_b. destruct (Rlt_dec (4 - 7 / 2) 0); lra.
Qed.
