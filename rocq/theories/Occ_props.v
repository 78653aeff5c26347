(** C83: the signed distance field of an occupancy map *)
From Coq Require Import Reals Lra Psatz List Arith Lia Bool ZArith Rgeom.
From Verif Require Import Geo_spec Geo3_spec Geo4_spec SE2_model Emb_model Emb2_model Emb2_spec Sdf_props Occ_model Occ_spec.
Import ListNotations.
Local Open Scope R_scope.

(** ---- the distance transform ---- *)
Lemma in_cells : forall rows cols r c, In (r, c) (cells rows cols) <-> (r < rows)%nat /\ (c < cols)%nat.
Proof. intros. unfold cells. rewrite in_prod_iff, !in_seq. lia. Qed.
Lemma min_dist_spec : forall r c l x, (min_dist r c l x = x \/ exists q, In q l /\ min_dist r c l x = index_dist r c (fst q) (snd q))
  /\ min_dist r c l x <= x /\ forall q, In q l -> min_dist r c l x <= index_dist r c (fst q) (snd q).
Proof.
  intros r c l x. induction l as [|q l (I1 & I2 & I3)]; cbn [min_dist fold_right]; [split; [now left|split; [lra|contradiction]]|].
  fold (min_dist r c l x). set (m := min_dist r c l x) in *. clearbody m. set (y := index_dist r c (fst q) (snd q)).
  pose proof (Rmin_l y m). pose proof (Rmin_r y m). split; [|split; [lra|]].
  - destruct (Rle_dec y m) as [L|L].
    + right. exists q. split; [now left|]. rewrite Rmin_left by exact L. reflexivity.
    + rewrite Rmin_right by lra. destruct I1 as [->|(q' & Hq & ->)]; [now left|right; exists q'; split; [now right|reflexivity]].
  - intros q' [Eq|Hq]; [rewrite <- Eq; fold y; exact H|]. specialize (I3 _ Hq). lra.
Qed.
Section Map.
Variable unspecified : nat -> nat -> nat -> nat -> R.
Notation edt := (distance_transform_edt unspecified).
Lemma edt_spec : forall rows cols f r c, (exists r' c', (r' < rows)%nat /\ (c' < cols)%nat /\ f r' c' = false) ->
  (exists r' c', (r' < rows)%nat /\ (c' < cols)%nat /\ f r' c' = false /\ edt rows cols f r c = index_dist r c r' c') /\
  (forall r' c', (r' < rows)%nat -> (c' < cols)%nat -> f r' c' = false -> edt rows cols f r c <= index_dist r c r' c').
Proof.
  intros rows cols f r c (r0 & c0 & H0 & H0' & H1). unfold distance_transform_edt.
  assert (HF : forall q, In q (filter (fun q => negb (f (fst q) (snd q))) (cells rows cols)) <-> (fst q < rows)%nat /\ (snd q < cols)%nat /\ f (fst q) (snd q) = false).
  { intros [i j]. rewrite filter_In, in_cells, negb_true_iff. cbn. tauto. }
  destruct (filter _ _) as [|q l]; [exfalso; apply (HF (r0, c0)); auto|].
  destruct (min_dist_spec r c l (index_dist r c (fst q) (snd q))) as (M1 & M2 & M3). split.
  - destruct M1 as [->|(q' & Hq & ->)].
    + exists (fst q), (snd q). destruct (proj1 (HF q) (or_introl eq_refl)) as (A & B & C). auto.
    + exists (fst q'), (snd q'). destruct (proj1 (HF q') (or_intror Hq)) as (A & B & C). auto.
  - intros i j Hi Hj Hz. destruct (proj2 (HF (i, j)) (conj Hi (conj Hj Hz))) as [E|Hin]; [subst q; exact M2|exact (M3 _ Hin)].
Qed.
Lemma index_dist_pos : forall r c r' c', 0 <= index_dist r c r' c'. Proof. intros. apply sqrt_pos. Qed.
Lemma index_dist_0 : forall r c, index_dist r c r c = 0.
Proof. intros. unfold index_dist. rewrite !Rminus_diag_eq by reflexivity. rewrite Rmult_0_l, Rplus_0_l. apply sqrt_0. Qed.
Lemma index_dist_1 : forall r c r' c', (r, c) <> (r', c') -> 1 <= index_dist r c r' c'.
Proof.
  intros r c r' c' N. unfold index_dist. rewrite <- sqrt_1. apply sqrt_le_1_alt.
  assert (K : forall i j, i <> j -> 1 <= (INR i - INR j) * (INR i - INR j)).
  { intros i j H. destruct (lt_dec i j) as [L|L].
    - assert (INR (S i) <= INR j) by (apply le_INR; lia). rewrite S_INR in H0. nra.
    - assert (INR (S j) <= INR i) by (apply le_INR; lia). rewrite S_INR in H0. nra. }
  pose proof (Rle_0_sqr (INR r - INR r')) as P. pose proof (Rle_0_sqr (INR c - INR c')) as Q. unfold Rsqr in P, Q.
  destruct (Nat.eq_dec r r') as [->|D]; [|pose proof (K _ _ D); lra].
  destruct (Nat.eq_dec c c') as [->|D']; [congruence|pose proof (K _ _ D'); lra].
Qed.
Lemma dist_index : forall ox oy cell r c r' c', 0 < cell -> dist (centre ox oy cell r c) (centre ox oy cell r' c') = index_dist r c r' c' * cell.
Proof.
  intros ox oy cell r c r' c' H. unfold dist, dist_euc, centre, index_dist, Rsqr. cbn [a0 a1].
  replace ((ox + INR c * cell - (ox + INR c' * cell)) * (ox + INR c * cell - (ox + INR c' * cell)) + (oy + INR r * cell - (oy + INR r' * cell)) * (oy + INR r * cell - (oy + INR r' * cell)))
    with (((INR r - INR r') * (INR r - INR r') + (INR c - INR c') * (INR c - INR c')) * (cell * cell)) by ring.
  rewrite sqrt_mult_alt by (apply Rplus_le_le_0_compat; apply Rle_0_sqr). rewrite sqrt_square by lra. reflexivity.
Qed.
Lemma dist_sym : forall p q, dist p q = dist q p. Proof. intros. apply distance_symm. Qed.
Lemma dist_tri : forall p q w, dist p w <= dist p q + dist q w.
Proof. intros. unfold dist. apply triangle. Qed.
Lemma dist_pos : forall p q, 0 <= dist p q. Proof. intros. apply sqrt_pos. Qed.

(** ---- one map ---- *)
Section One.
Variables (thr ox oy cell : R) (rows cols : nat) (m : nat -> nat -> R).
Hypothesis (Hcell : 0 < cell).
Notation occ := (occ thr rows cols m).
Notation free := (free thr rows cols m).
Notation centre := (centre ox oy cell).
Notation data := (sdf_of_map unspecified thr cell rows cols m).
Lemma occ_or_free : forall r c, (r < rows)%nat -> (c < cols)%nat -> occ r c \/ free r c.
Proof. intros r c Hr Hc. unfold Occ_spec.occ, Occ_spec.free. destruct (Rlt_dec thr (m r c)); [left|right]; repeat split; auto; lra. Qed.
Lemma occ_not_free : forall r c, occ r c -> free r c -> False.
Proof. intros r c (_ & _ & A) (_ & _ & B). lra. Qed.
Lemma map_occ : forall r c, (r < rows)%nat -> (c < cols)%nat -> occ r c <-> cur_map thr m r c = true.
Proof. intros r c Hr Hc. unfold cur_map. rewrite lt_b_true. unfold Occ_spec.occ. tauto. Qed.
Lemma map_free : forall r c, (r < rows)%nat -> (c < cols)%nat -> free r c <-> cur_map thr m r c = false.
Proof. intros r c Hr Hc. unfold cur_map. rewrite lt_b_false. unfold Occ_spec.free. tauto. Qed.

Lemma empty_data : (forall r c, ~ occ r c) -> forall r c, data r c = 2 * cell * INR (Nat.max rows cols).
Proof.
  intros H r c. unfold sdf_of_map. replace (forallb _ _) with true; [lra|]. symmetry. apply forallb_forall. intros [i j] Hin.
  apply in_cells in Hin. destruct Hin as [Hi Hj]. cbn. rewrite negb_true_iff. apply map_free; auto. destruct (occ_or_free i j Hi Hj) as [K|K]; [exfalso; eapply H; eauto|exact K].
Qed.
Lemma some_data : (exists r c, occ r c) -> forall r c, data r c =
  (edt rows cols (fun r c => negb (cur_map thr m r c)) r c - edt rows cols (cur_map thr m) r c) * cell.
Proof.
  intros (i & j & H) r c. unfold sdf_of_map. destruct (forallb _ _) eqn:EF; [|reflexivity]. exfalso. rewrite forallb_forall in EF.
  assert (H' := H). destruct H' as (Hi & Hj & _). specialize (EF (i, j) (proj2 (in_cells _ _ _ _) (conj Hi Hj))). cbn in EF. rewrite negb_true_iff in EF.
  apply map_occ in H; auto. congruence.
Qed.
Lemma edt_zero : forall f r c, (r < rows)%nat -> (c < cols)%nat -> f r c = false -> edt rows cols f r c = 0.
Proof.
  intros f r c Hr Hc Hf. destruct (edt_spec rows cols f r c) as [(r' & c' & _ & _ & _ & E) L]; [eauto|].
  specialize (L r c Hr Hc Hf). rewrite index_dist_0 in L. pose proof (index_dist_pos r c r' c'). lra.
Qed.
Lemma free_data : forall r c, free r c -> (exists r' c', occ r' c') -> nearest ox oy cell (data r c) (centre r c) occ.
Proof.
  intros r c F O. assert (F' := F). destruct F' as (Hr & Hc & _). rewrite some_data by exact O.
  rewrite (edt_zero (cur_map thr m) r c) by (auto; apply map_free; auto).
  destruct (edt_spec rows cols (fun r c => negb (cur_map thr m r c)) r c) as [(r1 & c1 & H1 & H1' & Hz & E) L].
  { destruct O as (i & j & K). assert (K' := K). destruct K' as (Hi & Hj & _). exists i, j. rewrite negb_false_iff. split; [auto|split; [auto|]]. now apply map_occ. }
  rewrite negb_false_iff in Hz. split.
  - exists r1, c1. split; [now apply map_occ|]. rewrite dist_index by exact Hcell. rewrite E. ring.
  - intros i j K. assert (K' := K). destruct K' as (Hi & Hj & _). rewrite dist_index by exact Hcell. rewrite Rminus_0_r. apply Rmult_le_compat_r; [lra|].
    apply L; auto. rewrite negb_false_iff. now apply map_occ.
Qed.
Lemma occ_data : forall r c, occ r c -> (exists r' c', free r' c') -> nearest ox oy cell (- data r c) (centre r c) free.
Proof.
  intros r c F O. assert (F' := F). destruct F' as (Hr & Hc & _). rewrite some_data by eauto.
  rewrite (edt_zero (fun r c => negb (cur_map thr m r c)) r c) by (auto; rewrite negb_false_iff; apply map_occ; auto).
  destruct (edt_spec rows cols (cur_map thr m) r c) as [(r1 & c1 & H1 & H1' & Hz & E) L].
  { destruct O as (i & j & K). assert (K' := K). destruct K' as (Hi & Hj & _). exists i, j. split; [auto|split; [auto|]]. now apply map_free. }
  split.
  - exists r1, c1. split; [now apply map_free|]. rewrite dist_index by exact Hcell. rewrite E. ring.
  - intros i j K. assert (K' := K). destruct K' as (Hi & Hj & _). rewrite dist_index by exact Hcell.
    replace (- ((0 - edt rows cols (cur_map thr m) r c) * cell)) with (edt rows cols (cur_map thr m) r c * cell) by ring. apply Rmult_le_compat_r; [lra|].
    apply L; auto. now apply map_free.
Qed.
Lemma free_ge : forall r c, free r c -> (exists r' c', occ r' c') -> cell <= data r c.
Proof.
  intros r c F O. destruct (free_data r c F O) as [(i & j & K & ->) _]. rewrite dist_index by exact Hcell.
  assert (1 <= index_dist r c i j); [|nra]. apply index_dist_1. intros [= -> ->]. eapply occ_not_free; eauto.
Qed.
Lemma occ_le : forall r c, occ r c -> (exists r' c', free r' c') -> data r c <= - cell.
Proof.
  intros r c F O. destruct (occ_data r c F O) as [(i & j & K & E) _]. rewrite dist_index in E by exact Hcell.
  assert (1 <= index_dist r c i j); [|nra]. apply index_dist_1. intros [= -> ->]. eapply occ_not_free; eauto.
Qed.
(** the data never exceeds the distance to an occupied cell *)
Lemma data_le_occ : forall r c r' c', (r < rows)%nat -> (c < cols)%nat -> (exists i j, free i j) -> occ r' c' -> data r c <= dist (centre r c) (centre r' c').
Proof.
  intros r c r' c' Hr Hc HF O. destruct (occ_or_free r c Hr Hc) as [K|K].
  - pose proof (occ_le r c K HF). pose proof (dist_pos (centre r c) (centre r' c')). lra.
  - apply (free_data r c K); eauto.
Qed.
Lemma data_ge_free : forall r c r' c', (r < rows)%nat -> (c < cols)%nat -> (exists i j, occ i j) -> free r' c' -> - data r c <= dist (centre r c) (centre r' c').
Proof.
  intros r c r' c' Hr Hc HF O. destruct (occ_or_free r c Hr Hc) as [K|K].
  - apply (occ_data r c K); eauto.
  - pose proof (free_ge r c K HF). pose proof (dist_pos (centre r c) (centre r' c')). lra.
Qed.
Lemma data_lip : forall r c r' c', (r < rows)%nat -> (c < cols)%nat -> (r' < rows)%nat -> (c' < cols)%nat -> (exists i j, free i j) ->
  data r' c' - data r c <= 2 * dist (centre r c) (centre r' c') /\
  ((free r c <-> free r' c') -> data r' c' - data r c <= dist (centre r c) (centre r' c')).
Proof.
  intros r c r' c' Hr Hc Hr' Hc' HF. set (D := dist (centre r c) (centre r' c')). pose proof (dist_pos (centre r c) (centre r' c')) as P. fold D in P.
  assert (HO : (exists i j, occ i j) \/ forall i j, ~ occ i j).
  { destruct (forallb (fun q => negb (cur_map thr m (fst q) (snd q))) (cells rows cols)) eqn:EF.
    - right. rewrite forallb_forall in EF. intros i j K. assert (K' := K). destruct K' as (Hi & Hj & _). specialize (EF (i, j) (proj2 (in_cells _ _ _ _) (conj Hi Hj))). cbn in EF.
      rewrite negb_true_iff in EF. apply map_occ in K; auto. congruence.
    - left. assert (EX : existsb (fun q => cur_map thr m (fst q) (snd q)) (cells rows cols) = true).
      { clear - EF. induction (cells rows cols) as [|q l IH]; [discriminate|]. cbn in *. destruct (cur_map thr m (fst q) (snd q)); [reflexivity|]. cbn in *. auto. }
      apply existsb_exists in EX. destruct EX as ([i j] & Hin & K). apply in_cells in Hin. exists i, j. apply map_occ; tauto. }
  destruct HO as [HO|HO]; [|rewrite !empty_data by exact HO; split; intros; lra].
  assert (SF : free r c -> free r' c' -> data r' c' - data r c <= D).
  { intros F F'. destruct (free_data r c F HO) as [(i & j & K & E) _]. destruct (free_data r' c' F' HO) as [_ L]. specialize (L i j K).
    pose proof (dist_tri (centre r' c') (centre r c) (centre i j)) as T. rewrite (dist_sym (centre r' c') (centre r c)) in T. fold D in T. lra. }
  assert (SO : occ r c -> occ r' c' -> data r' c' - data r c <= D).
  { intros F F'. destruct (occ_data r' c' F' HF) as [(i & j & K & E) _]. destruct (occ_data r c F HF) as [_ L]. specialize (L i j K).
    pose proof (dist_tri (centre r c) (centre r' c') (centre i j)) as T. fold D in T. lra. }
  destruct (occ_or_free r c Hr Hc) as [O|F], (occ_or_free r' c' Hr' Hc') as [O'|F'].
  - specialize (SO O O'). split; intros; lra.
  - split; [|intros [_ K]; exfalso; eapply occ_not_free; eauto].
    destruct (occ_data r c O HF) as [_ L1]. specialize (L1 r' c' F'). destruct (free_data r' c' F' HO) as [_ L2]. specialize (L2 r c O).
    rewrite (dist_sym (centre r' c')) in L2. fold D in L1, L2. lra.
  - split; [|intros [K _]; exfalso; eapply occ_not_free; eauto].
    pose proof (free_ge r c F HO). pose proof (occ_le r' c' O' HF). lra.
  - specialize (SF F F'). split; intros; lra.
Qed.
End One.

(** ---- the interpolated field ---- *)
Lemma sqrt_tangent : forall e, 0 <= e -> sqrt e <= (e + 1 / 2) / sqrt 2.
Proof.
  intros e H. assert (S2 : 0 < sqrt 2) by (apply sqrt_lt_R0; lra). assert (Q : sqrt 2 * sqrt 2 = 2) by (apply sqrt_sqrt; lra).
  assert (Qe : sqrt e * sqrt e = e) by (apply sqrt_sqrt; exact H).
  apply Rmult_le_reg_r with (sqrt 2); [exact S2|]. unfold Rdiv. rewrite Rmult_assoc, Rinv_l, Rmult_1_r by lra.
  pose proof (Rle_0_sqr (sqrt e - sqrt 2 / 2)) as K. unfold Rsqr in K. nra.
Qed.
(** the mean, with the weights of the bilinear interpolation, of the distances to the four corners *)
Lemma mean_corner : forall a b, 0 <= a <= 1 -> 0 <= b <= 1 ->
  (1 - a) * (1 - b) * sqrt (a * a + b * b) + (1 - a) * b * sqrt (a * a + (1 - b) * (1 - b))
  + a * (1 - b) * sqrt ((1 - a) * (1 - a) + b * b) + a * b * sqrt ((1 - a) * (1 - a) + (1 - b) * (1 - b)) <= / sqrt 2.
Proof.
  intros a b Ha Hb. assert (S2 : 0 < sqrt 2) by (apply sqrt_lt_R0; lra).
  set (e1 := a * a + b * b). set (e2 := a * a + (1 - b) * (1 - b)). set (e3 := (1 - a) * (1 - a) + b * b). set (e4 := (1 - a) * (1 - a) + (1 - b) * (1 - b)).
  assert (P1 : 0 <= e1) by (unfold e1; apply Rplus_le_le_0_compat; apply Rle_0_sqr). assert (P2 : 0 <= e2) by (unfold e2; apply Rplus_le_le_0_compat; apply Rle_0_sqr). assert (P3 : 0 <= e3) by (unfold e3; apply Rplus_le_le_0_compat; apply Rle_0_sqr). assert (P4 : 0 <= e4) by (unfold e4; apply Rplus_le_le_0_compat; apply Rle_0_sqr).
  assert (W1 : 0 <= (1 - a) * (1 - b)) by (apply Rmult_le_pos; lra). assert (W2 : 0 <= (1 - a) * b) by (apply Rmult_le_pos; lra). assert (W3 : 0 <= a * (1 - b)) by (apply Rmult_le_pos; lra). assert (W4 : 0 <= a * b) by (apply Rmult_le_pos; lra).
  pose proof (Rmult_le_compat_l _ _ _ W1 (sqrt_tangent e1 P1)). pose proof (Rmult_le_compat_l _ _ _ W2 (sqrt_tangent e2 P2)).
  pose proof (Rmult_le_compat_l _ _ _ W3 (sqrt_tangent e3 P3)). pose proof (Rmult_le_compat_l _ _ _ W4 (sqrt_tangent e4 P4)).
  assert (T : (1 - a) * (1 - b) * ((e1 + 1 / 2) / sqrt 2) + (1 - a) * b * ((e2 + 1 / 2) / sqrt 2) + a * (1 - b) * ((e3 + 1 / 2) / sqrt 2) + a * b * ((e4 + 1 / 2) / sqrt 2)
    = (a * (1 - a) + b * (1 - b) + 1 / 2) / sqrt 2) by (unfold e1, e2, e3, e4; field; lra).
  assert (U : (a * (1 - a) + b * (1 - b) + 1 / 2) / sqrt 2 <= 1 * / sqrt 2).
  { unfold Rdiv. apply Rmult_le_compat_r; [left; now apply Rinv_0_lt_compat|].
    pose proof (Rle_0_sqr (a - 1 / 2)) as K1. pose proof (Rle_0_sqr (b - 1 / 2)) as K2. unfold Rsqr in K1, K2. lra. }
  lra.
Qed.
End Map.
