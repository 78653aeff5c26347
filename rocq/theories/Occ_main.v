(** C83, theorems *)
From Coq Require Import Reals Lra Psatz List Arith Lia Bool ZArith Rgeom.
From Verif Require Import Geo_spec Geo3_spec Geo4_spec SE2_model Emb_model Emb2_model Emb2_spec Sdf_props Occ_model Occ_spec Occ_props.
Import ListNotations.
Local Open Scope R_scope.

(** At the centre of a free cell the field is the distance to the nearest occupied cell, at the
    centre of an occupied cell minus the distance to the nearest free cell. *)
Theorem C83_centres : forall unspec thr ox oy cell rows cols m r c, 0 < cell ->
  let data := sdf_of_map unspec thr cell rows cols m in
  (free thr rows cols m r c -> (exists i j, occ thr rows cols m i j) ->
     nearest ox oy cell (data r c) (centre ox oy cell r c) (occ thr rows cols m)) /\
  (occ thr rows cols m r c -> (exists i j, free thr rows cols m i j) ->
     nearest ox oy cell (- data r c) (centre ox oy cell r c) (free thr rows cols m)) /\
  ((r < rows)%nat -> (c < cols)%nat -> exists J,
     sdf_signed_distance (sdf_init ox oy cell rows cols data) (centre ox oy cell r c) = Some (data r c, J)).
Proof.
  intros u thr ox oy cell rows cols m r c Hc data. split; [|split].
  - intros; now apply free_data.
  - intros; now apply occ_data.
  - intros Hr Hcc. apply (C60_sdf_interpolates ox oy cell rows cols data Hc); auto.
Qed.
(** Its sign tells free from occupied cells, with a margin of one cell. *)
Theorem C83_sign : forall unspec thr cell rows cols m r c, 0 < cell -> (r < rows)%nat -> (c < cols)%nat ->
  (exists i j, occ thr rows cols m i j) -> (exists i j, free thr rows cols m i j) ->
  let d := sdf_of_map unspec thr cell rows cols m r c in
  (free thr rows cols m r c <-> 0 < d) /\ (occ thr rows cols m r c <-> d < 0) /\ cell <= Rabs d.
Proof.
  intros u thr cell rows cols m r c Hc Hr Hcc HO HF d. subst d.
  pose proof (free_ge u thr 0 0 cell rows cols m Hc r c) as F. pose proof (occ_le u thr 0 0 cell rows cols m Hc r c) as O.
  destruct (occ_or_free thr rows cols m r c Hr Hcc) as [K|K].
  - specialize (O K HF). split; [|split].
    + split; intro H; [exfalso; eapply occ_not_free; eauto|lra].
    + split; intro H; [lra|exact K].
    + rewrite Rabs_left by lra. lra.
  - specialize (F K HO). split; [|split].
    + split; intro H; [lra|exact K].
    + split; intro H; [exfalso; eapply occ_not_free; eauto|lra].
    + rewrite Rabs_right by lra. lra.
Qed.
(** A map without obstacles: the constant is larger than the distance between any two cells. *)
Theorem C83_empty : forall unspec thr ox oy cell rows cols m, 0 < cell -> (forall r c, ~ occ thr rows cols m r c) ->
  forall r c r1 c1 r2 c2, (r1 < rows)%nat -> (c1 < cols)%nat -> (r2 < rows)%nat -> (c2 < cols)%nat ->
  dist (centre ox oy cell r1 c1) (centre ox oy cell r2 c2) < sdf_of_map unspec thr cell rows cols m r c.
Proof.
  intros u thr ox oy cell rows cols m Hc HN r c r1 c1 r2 c2 H1 H2 H3 H4. rewrite (empty_data u thr cell rows cols m HN), dist_index by exact Hc.
  set (M := INR (Nat.max rows cols)). assert (HM : 0 < M) by (apply lt_0_INR; lia).
  assert (B : forall i j, (i < Nat.max rows cols)%nat -> (j < Nat.max rows cols)%nat -> (INR i - INR j) * (INR i - INR j) <= M * M).
  { intros i j Hi Hj. assert (0 <= INR i) by apply pos_INR. assert (0 <= INR j) by apply pos_INR. assert (INR i <= M) by (apply le_INR; lia). assert (INR j <= M) by (apply le_INR; lia). nra. }
  assert (K : index_dist r1 c1 r2 c2 < 2 * M); [|nra].
  unfold index_dist. rewrite <- (sqrt_square (2 * M)) by lra. apply sqrt_lt_1_alt. split; [apply Rplus_le_le_0_compat; apply Rle_0_sqr|].
  pose proof (B r1 r2 ltac:(lia) ltac:(lia)). pose proof (B c1 c2 ltac:(lia) ltac:(lia)). nra.
Qed.

Section Between.
Variable unspec : nat -> nat -> nat -> nat -> R.
Variables (thr ox oy cell : R) (rows cols : nat) (m : nat -> nat -> R).
Hypothesis (Hcell : 0 < cell).
Notation occ := (occ thr rows cols m).
Notation free := (free thr rows cols m).
Notation centre := (centre ox oy cell).
Notation data := (sdf_of_map unspec thr cell rows cols m).
Notation field := (sdf_signed_distance (sdf_init ox oy cell rows cols data)).
Notation r2 := (/ sqrt 2).

Lemma d_corners : forall p q r c a b, p = mkV2 (ox + (INR c + b) * cell) (oy + (INR r + a) * cell) -> forall i j, 
  q = centre (r + i) (c + j) -> dist p q = cell * sqrt ((INR i - a) * (INR i - a) + (INR j - b) * (INR j - b)).
Proof.
  intros p q r c a b -> i j ->. unfold dist, dist_euc, Occ_spec.centre, Rsqr. cbn [a0 a1]. rewrite !plus_INR.
  replace (_ + _) with ((cell * cell) * ((INR i - a) * (INR i - a) + (INR j - b) * (INR j - b))) by ring. rewrite sqrt_mult_alt by nra. rewrite sqrt_square by lra. reflexivity.
Qed.
(** an upper bound of the data by K plus the distance to the point bounds the field by K + cell / sqrt 2 *)
Lemma field_bound : forall (v : nat -> nat -> R) p d K, in_map ox oy cell rows cols p -> (0 < rows)%nat -> (0 < cols)%nat ->
  (exists J, sdf_signed_distance (sdf_init ox oy cell rows cols v) p = Some (d, J)) ->
  (forall r c, (r < rows)%nat -> (c < cols)%nat -> Rabs (a0 p - a0 (centre r c)) < cell -> Rabs (a1 p - a1 (centre r c)) < cell -> v r c <= K + dist p (centre r c)) ->
  d <= K + cell * r2.
Proof.
  intros v p d K HI Hr Hc (J & E) HV. destruct (cell_of ox oy cell rows cols Hcell Hr Hc p HI) as (r & c & a & b & Lr & Lc & Ha & Hb & Ka & Kb & Ep).
  assert (E' := E). rewrite Ep in E'. rewrite (sdf_at ox oy cell rows cols v Hcell Hr Hc r c a b Lr Lc Ha Hb Ka Kb) in E'. injection E' as <- _. clear E.
  set (r1 := Nat.min (r + 1) (rows - 1)). set (c1 := Nat.min (c + 1) (cols - 1)).
  assert (AB : forall (i : nat) x, 0 <= x < 1 -> (i = 0%nat \/ (i = 1%nat /\ 0 < x)) -> Rabs (x - INR i) < 1).
  { intros i x Hx [->|[-> Hp]]; cbn [INR]; [rewrite Rabs_right; lra|rewrite Rabs_left; lra]. }
  assert (G : forall i j, (i = 0%nat \/ (i = 1%nat /\ 0 < a)) -> (j = 0%nat \/ (j = 1%nat /\ 0 < b)) -> (r + i < rows)%nat -> (c + j < cols)%nat ->
     v (r + i)%nat (c + j)%nat <= K + cell * sqrt ((INR i - a) * (INR i - a) + (INR j - b) * (INR j - b))).
  { intros i j Hi Hj Hri Hcj. rewrite <- (d_corners p (centre (r + i) (c + j)) r c a b Ep i j eq_refl). apply HV; auto; rewrite Ep; unfold Occ_spec.centre; cbn [a0 a1]; rewrite plus_INR.
    - replace (_ - _) with (cell * (b - INR j)) by ring. rewrite Rabs_mult, (Rabs_right cell) by lra. pose proof (AB j b Hb Hj). nra.
    - replace (_ - _) with (cell * (a - INR i)) by ring. rewrite Rabs_mult, (Rabs_right cell) by lra. pose proof (AB i a Ha Hi). nra. }
  pose proof (mean_corner a b ltac:(lra) ltac:(lra)) as MC.
  assert (G1 : (1 - a) * (1 - b) * v r c <= (1 - a) * (1 - b) * (K + cell * sqrt (a * a + b * b))).
  { apply Rmult_le_compat_l; [apply Rmult_le_pos; lra|]. specialize (G 0%nat 0%nat ltac:(auto) ltac:(auto) ltac:(lia) ltac:(lia)). rewrite !Nat.add_0_r in G. cbn [INR] in G.
    replace ((0 - a) * (0 - a) + (0 - b) * (0 - b)) with (a * a + b * b) in G by ring. exact G. }
  assert (G2 : (1 - a) * b * v r c1 <= (1 - a) * b * (K + cell * sqrt (a * a + (1 - b) * (1 - b)))).
  { destruct Kb as [->|Kb]; [rewrite Rmult_0_r, !Rmult_0_l; lra|]. destruct (Req_EM_T b 0) as [->|Nb]; [rewrite Rmult_0_r, !Rmult_0_l; lra|].
    apply Rmult_le_compat_l; [apply Rmult_le_pos; lra|]. specialize (G 0%nat 1%nat ltac:(auto) ltac:(right; split; [reflexivity|lra]) ltac:(lia) ltac:(lia)). rewrite Nat.add_0_r in G. cbn [INR] in G.
    replace ((0 - a) * (0 - a)) with (a * a) in G by ring. replace c1 with (c + 1)%nat by (unfold c1; lia). exact G. }
  assert (G3 : a * (1 - b) * v r1 c <= a * (1 - b) * (K + cell * sqrt ((1 - a) * (1 - a) + b * b))).
  { destruct Ka as [->|Ka]; [rewrite !Rmult_0_l; lra|]. destruct (Req_EM_T a 0) as [->|Na]; [rewrite !Rmult_0_l; lra|].
    apply Rmult_le_compat_l; [apply Rmult_le_pos; lra|]. specialize (G 1%nat 0%nat ltac:(right; split; [reflexivity|lra]) ltac:(auto) ltac:(lia) ltac:(lia)). rewrite Nat.add_0_r in G. cbn [INR] in G.
    replace ((0 - b) * (0 - b)) with (b * b) in G by ring. replace r1 with (r + 1)%nat by (unfold r1; lia). exact G. }
  assert (G4 : a * b * v r1 c1 <= a * b * (K + cell * sqrt ((1 - a) * (1 - a) + (1 - b) * (1 - b)))).
  { destruct Ka as [->|Ka]; [rewrite !Rmult_0_l; lra|]. destruct (Req_EM_T a 0) as [->|Na]; [rewrite !Rmult_0_l; lra|].
    destruct Kb as [->|Kb]; [rewrite Rmult_0_r, !Rmult_0_l; lra|]. destruct (Req_EM_T b 0) as [->|Nb]; [rewrite Rmult_0_r, !Rmult_0_l; lra|].
    apply Rmult_le_compat_l; [apply Rmult_le_pos; lra|]. specialize (G 1%nat 1%nat ltac:(right; split; [reflexivity|lra]) ltac:(right; split; [reflexivity|lra]) ltac:(lia) ltac:(lia)). cbn [INR] in G.
    replace r1 with (r + 1)%nat by (unfold r1; lia). replace c1 with (c + 1)%nat by (unfold c1; lia). exact G. }
  fold r1 c1. unfold bilinear. apply Rmult_le_compat_l with (r := cell) in MC; [|lra].
  set (s1 := sqrt (a * a + b * b)) in *. set (s2 := sqrt (a * a + (1 - b) * (1 - b))) in *. set (s3 := sqrt ((1 - a) * (1 - a) + b * b)) in *. set (s4 := sqrt ((1 - a) * (1 - a) + (1 - b) * (1 - b))) in *.
  clearbody s1 s2 s3 s4 r1 c1.
  replace ((1 - a) * ((1 - b) * v r c + b * v r c1) + a * ((1 - b) * v r1 c + b * v r1 c1)) with ((1 - a) * (1 - b) * v r c + (1 - a) * b * v r c1 + a * (1 - b) * v r1 c + a * b * v r1 c1) by ring.
  apply Rle_trans with (K + cell * ((1 - a) * (1 - b) * s1 + (1 - a) * b * s2 + a * (1 - b) * s3 + a * b * s4)); [|lra].
  replace (K + cell * ((1 - a) * (1 - b) * s1 + (1 - a) * b * s2 + a * (1 - b) * s3 + a * b * s4))
    with ((1 - a) * (1 - b) * (K + cell * s1) + (1 - a) * b * (K + cell * s2) + a * (1 - b) * (K + cell * s3) + a * b * (K + cell * s4)) by ring.
  lra.
Qed.
Lemma field_neg : forall (v : nat -> nat -> R) p d J, in_map ox oy cell rows cols p -> (0 < rows)%nat -> (0 < cols)%nat ->
  sdf_signed_distance (sdf_init ox oy cell rows cols v) p = Some (d, J) ->
  exists J', sdf_signed_distance (sdf_init ox oy cell rows cols (fun r c => - v r c)) p = Some (- d, J').
Proof.
  intros v p d J HI Hr Hc E. destruct (cell_of ox oy cell rows cols Hcell Hr Hc p HI) as (r & c & a & b & Lr & Lc & Ha & Hb & Ka & Kb & ->).
  rewrite (sdf_at ox oy cell rows cols v Hcell Hr Hc r c a b Lr Lc Ha Hb Ka Kb) in E. injection E as <- _.
  rewrite (sdf_at ox oy cell rows cols _ Hcell Hr Hc r c a b Lr Lc Ha Hb Ka Kb). eexists. f_equal. f_equal. unfold bilinear. ring.
Qed.
Lemma field_low : forall (v : nat -> nat -> R) p d J L, in_map ox oy cell rows cols p -> (0 < rows)%nat -> (0 < cols)%nat ->
  sdf_signed_distance (sdf_init ox oy cell rows cols v) p = Some (d, J) ->
  (forall r c, (r < rows)%nat -> (c < cols)%nat -> Rabs (a0 p - a0 (centre r c)) < cell -> Rabs (a1 p - a1 (centre r c)) < cell -> L <= v r c) -> L <= d.
Proof.
  intros v p d J L HI Hr Hc E HV. destruct (cell_of ox oy cell rows cols Hcell Hr Hc p HI) as (r & c & a & b & Lr & Lc & Ha & Hb & Ka & Kb & Ep).
  rewrite Ep, (sdf_at ox oy cell rows cols v Hcell Hr Hc r c a b Lr Lc Ha Hb Ka Kb) in E. injection E as <- _.
  set (r1 := Nat.min (r + 1) (rows - 1)). set (c1 := Nat.min (c + 1) (cols - 1)).
  assert (AB : forall (i : nat) x, 0 <= x < 1 -> (i = 0%nat \/ (i = 1%nat /\ 0 < x)) -> Rabs (x - INR i) < 1).
  { intros i x Hx [->|[-> Hp]]; cbn [INR]; [rewrite Rabs_right; lra|rewrite Rabs_left; lra]. }
  assert (G : forall i j, (i = 0%nat \/ (i = 1%nat /\ 0 < a)) -> (j = 0%nat \/ (j = 1%nat /\ 0 < b)) -> (r + i < rows)%nat -> (c + j < cols)%nat -> L <= v (r + i)%nat (c + j)%nat).
  { intros i j Hi Hj Hri Hcj. apply HV; auto; rewrite Ep; unfold Occ_spec.centre; cbn [a0 a1]; rewrite plus_INR.
    - replace (_ - _) with (cell * (b - INR j)) by ring. rewrite Rabs_mult, (Rabs_right cell) by lra. pose proof (AB j b Hb Hj). nra.
    - replace (_ - _) with (cell * (a - INR i)) by ring. rewrite Rabs_mult, (Rabs_right cell) by lra. pose proof (AB i a Ha Hi). nra. }
  assert (G1 : L <= v r c) by (specialize (G 0%nat 0%nat ltac:(auto) ltac:(auto) ltac:(lia) ltac:(lia)); now rewrite !Nat.add_0_r in G).
  assert (G2 : b = 0 \/ L <= v r c1).
  { destruct (Req_EM_T b 0) as [->|Nb]; [now left|right]. destruct Kb as [->|Kb]; [lra|]. specialize (G 0%nat 1%nat ltac:(auto) ltac:(right; split; [reflexivity|lra]) ltac:(lia) ltac:(lia)).
    rewrite Nat.add_0_r in G. replace c1 with (c + 1)%nat by (unfold c1; lia). exact G. }
  assert (G3 : a = 0 \/ L <= v r1 c).
  { destruct (Req_EM_T a 0) as [->|Na]; [now left|right]. destruct Ka as [->|Ka]; [lra|]. specialize (G 1%nat 0%nat ltac:(right; split; [reflexivity|lra]) ltac:(auto) ltac:(lia) ltac:(lia)).
    rewrite Nat.add_0_r in G. replace r1 with (r + 1)%nat by (unfold r1; lia). exact G. }
  assert (G4 : a = 0 \/ b = 0 \/ L <= v r1 c1).
  { destruct (Req_EM_T a 0) as [->|Na]; [now left|right]. destruct (Req_EM_T b 0) as [->|Nb]; [now left|right]. destruct Ka as [->|Ka]; [lra|]. destruct Kb as [->|Kb]; [lra|].
    specialize (G 1%nat 1%nat ltac:(right; split; [reflexivity|lra]) ltac:(right; split; [reflexivity|lra]) ltac:(lia) ltac:(lia)).
    replace r1 with (r + 1)%nat by (unfold r1; lia). replace c1 with (c + 1)%nat by (unfold c1; lia). exact G. }
  fold r1 c1. unfold bilinear.
  assert (T1 : L <= (1 - b) * v r c + b * v r c1) by (destruct G2 as [->|G2]; [lra|nra]).
  assert (T2 : a = 0 \/ L <= (1 - b) * v r1 c + b * v r1 c1).
  { destruct G3 as [->|G3]; [now left|]. destruct G4 as [->|[->|G4]]; [now left|right; lra|right; nra]. }
  destruct T2 as [->|T2]; [lra|nra].
Qed.
End Between.

(** Everywhere in the map, not only at the centres: the field exceeds the distance to an occupied
    cell by at most cell / sqrt 2, minus the field exceeds the distance to a free cell by at most that;
    and where the neighbouring cells are free it is below the distance to the obstacles by at most that. *)
Theorem C83_clearance : forall unspec thr ox oy cell rows cols m p d J, 0 < cell ->
  (exists i j, occ thr rows cols m i j) -> (exists i j, free thr rows cols m i j) ->
  in_map ox oy cell rows cols p ->
  sdf_signed_distance (sdf_init ox oy cell rows cols (sdf_of_map unspec thr cell rows cols m)) p = Some (d, J) ->
  (forall r c, occ thr rows cols m r c -> d <= dist p (centre ox oy cell r c) + cell / sqrt 2) /\
  (forall r c, free thr rows cols m r c -> - d <= dist p (centre ox oy cell r c) + cell / sqrt 2) /\
  (forall l, (forall r c, (r < rows)%nat -> (c < cols)%nat ->
        Rabs (a0 p - a0 (centre ox oy cell r c)) < cell -> Rabs (a1 p - a1 (centre ox oy cell r c)) < cell -> free thr rows cols m r c) ->
     (forall r c, occ thr rows cols m r c -> l <= dist p (centre ox oy cell r c)) -> l - cell / sqrt 2 <= d).
Proof.
  intros u thr ox oy cell rows cols m p d J Hc HO HF HI E. unfold Rdiv.
  assert (S : (0 < rows)%nat /\ (0 < cols)%nat) by (destruct HO as (i & j & A & B & _); lia). destruct S as [Hr Hcc].
  split; [|split].
  - intros r c O. eapply field_bound; eauto. intros i j Hi Hj _ _. eapply Rle_trans; [apply (data_le_occ u thr ox oy cell rows cols m Hc i j r c); auto|].
    pose proof (dist_tri (centre ox oy cell i j) p (centre ox oy cell r c)) as T. rewrite (dist_sym (centre ox oy cell i j) p) in T. lra.
  - intros r c F. destruct (field_neg ox oy cell rows cols Hc _ p d J HI Hr Hcc E) as (J' & E'). eapply field_bound; eauto. intros i j Hi Hj _ _.
    eapply Rle_trans; [apply (data_ge_free u thr ox oy cell rows cols m Hc i j r c); auto|].
    pose proof (dist_tri (centre ox oy cell i j) p (centre ox oy cell r c)) as T. rewrite (dist_sym (centre ox oy cell i j) p) in T. lra.
  - intros l HN HL. destruct (field_neg ox oy cell rows cols Hc _ p d J HI Hr Hcc E) as (J' & E').
    assert (- d <= - l + cell * / sqrt 2); [|lra]. eapply field_bound; eauto. intros i j Hi Hj N1 N2. pose proof (HN i j Hi Hj N1 N2) as F.
    destruct (free_data u thr ox oy cell rows cols m Hc i j F HO) as [(r & c & O & ->) _]. specialize (HL r c O).
    pose proof (dist_tri p (centre ox oy cell i j) (centre ox oy cell r c)) as T. lra.
Qed.
(** The sign between the centres: positive (at least one cell) where the neighbouring cells are free,
    negative where they are occupied. *)
Theorem C83_neighbours : forall unspec thr ox oy cell rows cols m p d J, 0 < cell ->
  (exists i j, occ thr rows cols m i j) -> (exists i j, free thr rows cols m i j) ->
  in_map ox oy cell rows cols p ->
  sdf_signed_distance (sdf_init ox oy cell rows cols (sdf_of_map unspec thr cell rows cols m)) p = Some (d, J) ->
  let near := fun r c : nat => (r < rows)%nat /\ (c < cols)%nat /\ Rabs (a0 p - a0 (centre ox oy cell r c)) < cell /\ Rabs (a1 p - a1 (centre ox oy cell r c)) < cell in
  ((forall r c, near r c -> free thr rows cols m r c) -> cell <= d) /\ ((forall r c, near r c -> occ thr rows cols m r c) -> d <= - cell).
Proof.
  intros u thr ox oy cell rows cols m p d J Hc HO HF HI E near. subst near.
  assert (S : (0 < rows)%nat /\ (0 < cols)%nat) by (destruct HO as (i & j & A & B & _); lia). destruct S as [Hr Hcc]. split; intro H.
  - eapply field_low; eauto. intros r c A B C D. apply (free_ge u thr ox oy cell rows cols m Hc); auto.
  - destruct (field_neg ox oy cell rows cols Hc _ p d J HI Hr Hcc E) as (J' & E').
    assert (cell <= - d); [|lra]. eapply (field_low ox oy cell rows cols Hc (fun r c => - sdf_of_map u thr cell rows cols m r c)); eauto.
    intros r c A B C D. cbv beta. pose proof (occ_le u thr ox oy cell rows cols m Hc r c (H r c (conj A (conj B (conj C D)))) HF). lra.
Qed.
(** If the field is above sqrt 2 cells, the point is in no occupied cell; in general it is at least
    d - sqrt 2 * cell away from every point of an occupied cell. *)
Theorem C83_safe : forall unspec thr ox oy cell rows cols m p d J, 0 < cell ->
  (exists i j, free thr rows cols m i j) -> in_map ox oy cell rows cols p ->
  sdf_signed_distance (sdf_init ox oy cell rows cols (sdf_of_map unspec thr cell rows cols m)) p = Some (d, J) ->
  forall r c z, occ thr rows cols m r c -> in_cell ox oy cell r c z -> d - sqrt 2 * cell <= dist p z.
Proof.
  intros u thr ox oy cell rows cols m p d J Hc HF HI E r c z O [Z1 Z2].
  destruct (C83_clearance u thr ox oy cell rows cols m p d J Hc ltac:(eauto) HF HI E) as [K _]. specialize (K r c O).
  assert (S2 : 0 < sqrt 2) by (apply sqrt_lt_R0; lra). assert (Q : sqrt 2 * sqrt 2 = 2) by (apply sqrt_sqrt; lra).
  assert (IV : / sqrt 2 = sqrt 2 / 2) by (apply Rmult_eq_reg_l with (sqrt 2); [rewrite Rinv_r by lra; lra|lra]).
  assert (H : cell / sqrt 2 = sqrt 2 / 2 * cell) by (unfold Rdiv at 1; rewrite IV; ring).
  rewrite H in K.
  assert (B : dist z (centre ox oy cell r c) <= sqrt 2 / 2 * cell).
  { unfold dist, dist_euc, centre, Rsqr. cbn [a0 a1]. rewrite <- (sqrt_square (sqrt 2 / 2 * cell)) by (apply Rmult_le_pos; lra). apply sqrt_le_1_alt.
    set (x := a0 z - (ox + INR c * cell)) in *. set (y := a1 z - (oy + INR r * cell)) in *.
    assert (SX : x * x <= cell / 2 * (cell / 2)) by (rewrite <- (Rabs_right (x * x)), Rabs_mult by (apply Rle_ge, Rle_0_sqr); apply Rmult_le_compat; auto using Rabs_pos).
    assert (SY : y * y <= cell / 2 * (cell / 2)) by (rewrite <- (Rabs_right (y * y)), Rabs_mult by (apply Rle_ge, Rle_0_sqr); apply Rmult_le_compat; auto using Rabs_pos).
    replace (sqrt 2 / 2 * cell * (sqrt 2 / 2 * cell)) with (sqrt 2 * sqrt 2 / 4 * (cell * cell)) by field. rewrite Q. lra. }
  pose proof (dist_tri p z (centre ox oy cell r c)). lra.
Qed.
(** The field is Lipschitz on the map. *)
Theorem C83_lipschitz : forall unspec thr ox oy cell rows cols m p p' d d' J J', 0 < cell ->
  (exists i j, free thr rows cols m i j) -> in_map ox oy cell rows cols p -> in_map ox oy cell rows cols p' ->
  let f := sdf_init ox oy cell rows cols (sdf_of_map unspec thr cell rows cols m) in
  sdf_signed_distance f p = Some (d, J) -> sdf_signed_distance f p' = Some (d', J') ->
  Rabs (d' - d) <= 2 * (Rabs (a0 p' - a0 p) + Rabs (a1 p' - a1 p)).
Proof.
  intros u thr ox oy cell rows cols m p p' d d' J J' Hc HF HI HI'. cbv zeta. intros E E'.
  assert (S : (0 < rows)%nat /\ (0 < cols)%nat) by (destruct HF as (i & j & A & B & _); lia). destruct S as [Hr Hcc].
  assert (K : forall r c r' c', (r < rows)%nat -> (c < cols)%nat -> (r' < rows)%nat -> (c' < cols)%nat -> index_dist r c r' c' = 1 ->
    Rabs (sdf_of_map u thr cell rows cols m r' c' - sdf_of_map u thr cell rows cols m r c) <= 2 * cell).
  { intros r c r' c' A B C D I1. apply Rabs_le.
    destruct (data_lip u thr 0 0 cell rows cols m Hc r c r' c' A B C D HF) as [L1 _]. destruct (data_lip u thr 0 0 cell rows cols m Hc r' c' r c C D A B HF) as [L2 _].
    rewrite dist_sym in L2. rewrite dist_index in L1, L2 by exact Hc. rewrite I1 in L1, L2. lra. }
  eapply (C60_sdf_lipschitz ox oy cell rows cols); eauto; [lra| |].
  - intros r c A B. apply K; try lia. unfold index_dist. rewrite plus_INR. cbn [INR]. replace (_ + _) with 1 by ring. apply sqrt_1.
  - intros r c A B. apply K; try lia. unfold index_dist. rewrite plus_INR. cbn [INR]. replace (_ + _) with 1 by ring. apply sqrt_1.
Qed.
(** A batch: one map per element; the cell sizes are one per map or one for all, anything else raises. *)
Theorem C83_batch : forall unspec thr rows cols maps cell_size,
  match sdf_construct unspec thr rows cols cell_size None (Some maps) with
  | Some ds =>
    length ds = length maps /\ (length cell_size = length maps \/ length cell_size = 1%nat) /\
    forall i, (i < length maps)%nat -> nth i ds (fun _ _ => 0) =
      sdf_of_map unspec thr (nth (if length cell_size =? length maps then i else 0) cell_size 0) rows cols (nth i maps (fun _ _ => 0))
  | None => maps = [] \/ rows = 0%nat \/ cols = 0%nat \/ (length cell_size <> length maps /\ length cell_size <> 1%nat)
  end.
Proof.
  intros u thr rows cols maps cs. cbn [sdf_construct]. unfold compute_sdf_data_from_map. cbv zeta.
  assert (G : forall l, length l = length maps ->
    match (if (length maps =? 0) || (rows * cols =? 0) then None else Some (map (fun p => sdf_of_map u thr (snd p) rows cols (fst p)) (combine maps l))) with
    | Some ds => length ds = length maps /\ forall i, (i < length maps)%nat -> nth i ds (fun _ _ => 0) = sdf_of_map u thr (nth i l 0) rows cols (nth i maps (fun _ _ => 0))
    | None => maps = [] \/ rows = 0%nat \/ cols = 0%nat end).
  { intros l Hl. destruct ((length maps =? 0) || (rows * cols =? 0)) eqn:EB.
    - apply orb_true_iff in EB. destruct EB as [EB|EB]; apply Nat.eqb_eq in EB; [left; now destruct maps|right; now apply Nat.eq_mul_0].
    - assert (LC : length (combine maps l) = length maps) by (rewrite combine_length; lia). split; [now rewrite map_length|].
      intros i Hi. set (F := fun p : (nat -> nat -> R) * R => sdf_of_map u thr (snd p) rows cols (fst p)).
      rewrite (nth_indep _ _ (F ((fun _ _ => 0), 0))) by (rewrite map_length; lia). rewrite map_nth. rewrite combine_nth by lia. reflexivity. }
  destruct (Nat.eqb_spec (length cs) (length maps)) as [EL|NL].
  - specialize (G cs EL). destruct ((length maps =? 0) || (rows * cols =? 0)); [tauto|]. destruct G as [G1 G2]. auto.
  - destruct cs as [|x [|y cs]]; [right; right; right; cbn in *; lia| |right; right; right; cbn in *; lia].
    specialize (G (repeat x (length maps)) (repeat_length _ _)). destruct ((length maps =? 0) || (rows * cols =? 0)); [tauto|]. destruct G as [G1 G2].
    split; [exact G1|]. split; [auto|]. intros i Hi. rewrite (G2 i Hi). cbn [nth]. replace (nth i (repeat x (length maps)) 0) with x; [reflexivity|].
    clear - Hi. revert i Hi. generalize (length maps) as k. induction k as [|k IH]; intros i Hi; [lia|]. destruct i; cbn; [reflexivity|]. apply IH. lia.
Qed.

(** ---- a concrete map: 3 x 3, the middle cell occupied, a value equal to the threshold is free ---- *)
Definition ex_map (r c : nat) : R := if (r =? 1) && (c =? 1) then 1 else if (r =? 0) then 3 / 4 else 0.
Lemma ex_occ : occ (3 / 4) 3 3 ex_map 1 1. Proof. unfold occ, ex_map. cbn. repeat split; try lia. lra. Qed.
Lemma ex_free : forall r c, (r < 3)%nat -> (c < 3)%nat -> (r, c) <> (1, 1)%nat -> free (3 / 4) 3 3 ex_map r c.
Proof.
  intros r c Hr Hc N. unfold free, ex_map. split; [auto|split; [auto|]].
  destruct (Nat.eqb_spec r 1) as [->|], (Nat.eqb_spec c 1) as [->|]; cbn [andb]; [congruence|destruct (1 =? 0); lra|destruct (r =? 0); lra|destruct (r =? 0); lra].
Qed.
Example C83_hypotheses_satisfiable : forall unspec,
  (exists i j, occ (3 / 4) 3 3 ex_map i j) /\ (exists i j, free (3 / 4) 3 3 ex_map i j) /\
  sdf_of_map unspec (3 / 4) (1 / 2) 3 3 ex_map 0 0 = sqrt 2 / 2 /\ sdf_of_map unspec (3 / 4) (1 / 2) 3 3 ex_map 1 1 = - (1 / 2).
Proof.
  intros u. assert (HO : exists i j, occ (3 / 4) 3 3 ex_map i j) by (exists 1%nat, 1%nat; exact ex_occ).
  assert (HF : exists i j, free (3 / 4) 3 3 ex_map i j) by (exists 0%nat, 0%nat; apply ex_free; [lia|lia|congruence]).
  split; [exact HO|]. split; [exact HF|]. split.
  - destruct (free_data u (3 / 4) 0 0 (1 / 2) 3 3 ex_map ltac:(lra) 0 0 (ex_free 0 0 ltac:(lia) ltac:(lia) ltac:(congruence)) HO) as [(i & j & K & ->) _].
    destruct (Nat.eq_dec i 1) as [->|N]; [destruct (Nat.eq_dec j 1) as [->|N]|].
    + rewrite dist_index by lra. unfold index_dist. cbn [INR]. replace (_ + _) with 2 by ring. lra.
    + exfalso. eapply occ_not_free; [exact K|]. apply ex_free; [apply K|apply K|congruence].
    + exfalso. eapply occ_not_free; [exact K|]. apply ex_free; [apply K|apply K|congruence].
  - pose proof (occ_le u (3 / 4) 0 0 (1 / 2) 3 3 ex_map ltac:(lra) 1 1 ex_occ HF) as A.
    destruct (occ_data u (3 / 4) 0 0 (1 / 2) 3 3 ex_map ltac:(lra) 1 1 ex_occ HF) as [_ B]. specialize (B 0%nat 1%nat (ex_free 0 1 ltac:(lia) ltac:(lia) ltac:(congruence))).
    rewrite dist_index in B by lra. unfold index_dist in B. cbn [INR] in B. replace ((1 - 0) * (1 - 0) + (1 - 1) * (1 - 1)) with 1 in B by ring. rewrite sqrt_1 in B. lra.
Qed.
(** The stronger property "the field is positive only outside the occupied cells" is false: near the
    corner of an occupied cell the interpolation is positive inside it. *)
Theorem C83_positive_is_free_refuted : ~ forall unspec thr ox oy cell rows cols m p d J r c, 0 < cell ->
  (exists i j, free thr rows cols m i j) -> in_map ox oy cell rows cols p ->
  sdf_signed_distance (sdf_init ox oy cell rows cols (sdf_of_map unspec thr cell rows cols m)) p = Some (d, J) ->
  0 < d -> occ thr rows cols m r c -> ~ in_cell ox oy cell r c p.
Proof.
  intros H. set (u := fun _ _ _ _ : nat => 0). set (data := sdf_of_map u (3 / 4) 1 3 3 ex_map).
  assert (HF : exists i j, free (3 / 4) 3 3 ex_map i j) by (exists 0%nat, 0%nat; apply ex_free; [lia|lia|congruence]).
  assert (HO : exists i j, occ (3 / 4) 3 3 ex_map i j) by (exists 1%nat, 1%nat; exact ex_occ).
  pose (p := mkV2 (0 + (INR 1 + 2 / 5) * 1) (0 + (INR 1 + 2 / 5) * 1)).
  pose proof (sdf_at 0 0 1 3 3 data ltac:(lra) ltac:(lia) ltac:(lia) 1 1 (2 / 5) (2 / 5) ltac:(lia) ltac:(lia) ltac:(lra) ltac:(lra) ltac:(right; lia) ltac:(right; lia)) as E.
  cbv zeta in E. fold p in E.
  assert (D1 : -1 <= data 1%nat 1%nat).
  { destruct (occ_data u (3 / 4) 0 0 1 3 3 ex_map ltac:(lra) 1 1 ex_occ HF) as [_ B]. specialize (B 0%nat 1%nat (ex_free 0 1 ltac:(lia) ltac:(lia) ltac:(congruence))).
    rewrite dist_index in B by lra. unfold index_dist in B. cbn [INR] in B. replace ((1 - 0) * (1 - 0) + (1 - 1) * (1 - 1)) with 1 in B by ring. rewrite sqrt_1 in B. fold data in B. lra. }
  assert (D2 : forall r c, (r < 3)%nat -> (c < 3)%nat -> (r, c) <> (1, 1)%nat -> 1 <= data r c).
  { intros r c A B C. apply (free_ge u (3 / 4) 0 0 1 3 3 ex_map); [lra|now apply ex_free|exact HO]. }
  assert (I : in_map 0 0 1 3 3 p) by (unfold in_map, p; cbn; lra).
  eapply (H u (3 / 4) 0 0 1 3%nat 3%nat ex_map p _ _ 1%nat 1%nat); [lra|exact HF|exact I|exact E| |exact ex_occ|].
  - change (Nat.min (1 + 1) (3 - 1)) with 2%nat. unfold bilinear. pose proof (D2 1%nat 2%nat ltac:(lia) ltac:(lia) ltac:(congruence)).
    pose proof (D2 2%nat 1%nat ltac:(lia) ltac:(lia) ltac:(congruence)). pose proof (D2 2%nat 2%nat ltac:(lia) ltac:(lia) ltac:(congruence)). lra.
  - unfold in_cell, p. cbn [a0 a1 INR]. replace (0 + (1 + 2 / 5) * 1 - (0 + 1 * 1)) with (2 / 5) by lra. rewrite Rabs_right by lra. lra.
Qed.
Print Assumptions C83_clearance.
(** Exactly one of the two sources is accepted: data is used as given, both or neither raise. *)
Theorem C83_one_source : forall unspec thr rows cols cell_size data maps,
  sdf_construct unspec thr rows cols cell_size (Some data) None = Some data /\
  sdf_construct unspec thr rows cols cell_size (Some data) (Some maps) = None /\
  sdf_construct unspec thr rows cols cell_size None None = None.
Proof. intros. repeat split. Qed.
