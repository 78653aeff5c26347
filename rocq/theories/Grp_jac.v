(** The Jacobians of compose, transform and untransform. *)
From Coq Require Import List Arith Bool ZArith Reals Lra Lia.
From Verif Require Import RSum Act_model Act_base Act_ops Act_props Act_raise Grp_model Grp_spec Grp_base Grp_grad.
Import ListNotations.
Local Open Scope nat_scope.

(** ** rotations: every column is the cross product of the others, and the rows are orthonormal too *)
Record rot (m : nat -> nat -> R) : Prop := mkRot {
  c00 : (m 0%nat 0%nat = m 1%nat 1%nat * m 2%nat 2%nat - m 1%nat 2%nat * m 2%nat 1%nat)%R; c01 : (m 0%nat 1%nat = m 1%nat 2%nat * m 2%nat 0%nat - m 1%nat 0%nat * m 2%nat 2%nat)%R; c02 : (m 0%nat 2%nat = m 1%nat 0%nat * m 2%nat 1%nat - m 1%nat 1%nat * m 2%nat 0%nat)%R;
  c10 : (m 1%nat 0%nat = m 2%nat 1%nat * m 0%nat 2%nat - m 2%nat 2%nat * m 0%nat 1%nat)%R; c11 : (m 1%nat 1%nat = m 2%nat 2%nat * m 0%nat 0%nat - m 2%nat 0%nat * m 0%nat 2%nat)%R; c12 : (m 1%nat 2%nat = m 2%nat 0%nat * m 0%nat 1%nat - m 2%nat 1%nat * m 0%nat 0%nat)%R;
  c20 : (m 2%nat 0%nat = m 0%nat 1%nat * m 1%nat 2%nat - m 0%nat 2%nat * m 1%nat 1%nat)%R; c21 : (m 2%nat 1%nat = m 0%nat 2%nat * m 1%nat 0%nat - m 0%nat 0%nat * m 1%nat 2%nat)%R; c22 : (m 2%nat 2%nat = m 0%nat 0%nat * m 1%nat 1%nat - m 0%nat 1%nat * m 1%nat 0%nat)%R;
  orth : forall i j, i < 3 -> j < 3 -> rsum 3 (fun l => m l i * m l j)%R = if i =? j then 1%R else 0%R;
  rorth : forall i j, i < 3 -> j < 3 -> rsum 3 (fun l => m i l * m j l)%R = if i =? j then 1%R else 0%R }.
Lemma rot_of G : is_rotation G -> rot (ent G).
Proof.
  intros [O D]. unfold ent in D. change (forall i j, i < 3 -> j < 3 -> rsum 3 (fun l => ent G l i * ent G l j)%R = (if i =? j then 1 else 0)%R) in O.
  change (ent G 0 0 * (ent G 1 1 * ent G 2 2 - ent G 1 2 * ent G 2 1) - ent G 0 1 * (ent G 1 0 * ent G 2 2 - ent G 1 2 * ent G 2 0) + ent G 0 2 * (ent G 1 0 * ent G 2 1 - ent G 1 1 * ent G 2 0) = 1)%R in D.
  set (m := ent G) in *. clearbody m.
  pose proof (O 0 0 ltac:(lia) ltac:(lia)) as O00. pose proof (O 0 1 ltac:(lia) ltac:(lia)) as O01. pose proof (O 0 2 ltac:(lia) ltac:(lia)) as O02.
  pose proof (O 1 1 ltac:(lia) ltac:(lia)) as O11. pose proof (O 1 2 ltac:(lia) ltac:(lia)) as O12. pose proof (O 2 2 ltac:(lia) ltac:(lia)) as O22.
  cbn [rsum Nat.eqb] in O00, O01, O02, O11, O12, O22.
  set (a := m 0 0) in *; set (b := m 0 1) in *; set (c := m 0 2) in *; set (d := m 1 0) in *; set (e := m 1 1) in *; set (f := m 1 2) in *;
  set (g := m 2 0) in *; set (h := m 2 1) in *; set (k := m 2 2) in *.
  (* m^T = m^T m adj(m) *)
  assert (C00 : (a = e * k - f * h)%R).
  { transitivity (a * (a * (e * k - f * h) - b * (d * k - f * g) + c * (d * h - e * g)))%R; [rewrite D; ring|].
    transitivity ((0 + a * a + d * d + g * g) * (e * k - f * h) + (0 + a * b + d * e + g * h) * (f * g - d * k) + (0 + a * c + d * f + g * k) * (d * h - e * g))%R; [ring|]. rewrite O00, O01, O02; ring. }
  assert (C10 : (d = h * c - k * b)%R).
  { transitivity (d * (a * (e * k - f * h) - b * (d * k - f * g) + c * (d * h - e * g)))%R; [rewrite D; ring|].
    transitivity ((0 + a * a + d * d + g * g) * (c * h - b * k) + (0 + a * b + d * e + g * h) * (a * k - c * g) + (0 + a * c + d * f + g * k) * (b * g - a * h))%R; [ring|]. rewrite O00, O01, O02; ring. }
  assert (C20 : (g = b * f - c * e)%R).
  { transitivity (g * (a * (e * k - f * h) - b * (d * k - f * g) + c * (d * h - e * g)))%R; [rewrite D; ring|].
    transitivity ((0 + a * a + d * d + g * g) * (b * f - c * e) + (0 + a * b + d * e + g * h) * (c * d - a * f) + (0 + a * c + d * f + g * k) * (a * e - b * d))%R; [ring|]. rewrite O00, O01, O02; ring. }
  assert (C01 : (b = f * g - d * k)%R).
  { transitivity (b * (a * (e * k - f * h) - b * (d * k - f * g) + c * (d * h - e * g)))%R; [rewrite D; ring|].
    transitivity ((0 + a * b + d * e + g * h) * (e * k - f * h) + (0 + b * b + e * e + h * h) * (f * g - d * k) + (0 + b * c + e * f + h * k) * (d * h - e * g))%R; [ring|]. rewrite O01, O11, O12; ring. }
  assert (C11 : (e = k * a - g * c)%R).
  { transitivity (e * (a * (e * k - f * h) - b * (d * k - f * g) + c * (d * h - e * g)))%R; [rewrite D; ring|].
    transitivity ((0 + a * b + d * e + g * h) * (c * h - b * k) + (0 + b * b + e * e + h * h) * (a * k - c * g) + (0 + b * c + e * f + h * k) * (b * g - a * h))%R; [ring|]. rewrite O01, O11, O12; ring. }
  assert (C21 : (h = c * d - a * f)%R).
  { transitivity (h * (a * (e * k - f * h) - b * (d * k - f * g) + c * (d * h - e * g)))%R; [rewrite D; ring|].
    transitivity ((0 + a * b + d * e + g * h) * (b * f - c * e) + (0 + b * b + e * e + h * h) * (c * d - a * f) + (0 + b * c + e * f + h * k) * (a * e - b * d))%R; [ring|]. rewrite O01, O11, O12; ring. }
  assert (C02 : (c = d * h - e * g)%R).
  { transitivity (c * (a * (e * k - f * h) - b * (d * k - f * g) + c * (d * h - e * g)))%R; [rewrite D; ring|].
    transitivity ((0 + a * c + d * f + g * k) * (e * k - f * h) + (0 + b * c + e * f + h * k) * (f * g - d * k) + (0 + c * c + f * f + k * k) * (d * h - e * g))%R; [ring|]. rewrite O02, O12, O22; ring. }
  assert (C12 : (f = g * b - h * a)%R).
  { transitivity (f * (a * (e * k - f * h) - b * (d * k - f * g) + c * (d * h - e * g)))%R; [rewrite D; ring|].
    transitivity ((0 + a * c + d * f + g * k) * (c * h - b * k) + (0 + b * c + e * f + h * k) * (a * k - c * g) + (0 + c * c + f * f + k * k) * (b * g - a * h))%R; [ring|]. rewrite O02, O12, O22; ring. }
  assert (C22 : (k = a * e - b * d)%R).
  { transitivity (k * (a * (e * k - f * h) - b * (d * k - f * g) + c * (d * h - e * g)))%R; [rewrite D; ring|].
    transitivity ((0 + a * c + d * f + g * k) * (b * f - c * e) + (0 + b * c + e * f + h * k) * (c * d - a * f) + (0 + c * c + f * f + k * k) * (a * e - b * d))%R; [ring|]. rewrite O02, O12, O22; ring. }
  clear O00 O01 O02 O11 O12 O22.
  constructor; try assumption.
  intros i j Hi Hj. destruct i as [|[|[|i]]]; [| | |lia]; (destruct j as [|[|[|j]]]; [| | |lia]); cbn [rsum Nat.eqb];
    fold a b c d e f g h k.
  - rewrite <- D. rewrite C00 at 2. rewrite C01 at 2. rewrite C02 at 2. ring.
  - rewrite C10, C11, C12. ring.
  - rewrite C20, C21, C22. ring.
  - rewrite C10, C11, C12. ring.
  - rewrite <- D. rewrite C10 at 2. rewrite C11 at 2. rewrite C12 at 2. ring.
  - rewrite C20, C21, C22. ring.
  - rewrite C20, C21, C22. ring.
  - rewrite C20, C21, C22. ring.
  - rewrite <- D. rewrite C20 at 2. rewrite C21 at 2. rewrite C22 at 2. ring.
Qed.
Ltac three i := destruct i as [|[|[|i]]]; [| | |lia].
Ltac six i := destruct i as [|[|[|[|[|[|i]]]]]]; [| | | | | |lia].
Lemma cross_ext v w i j : (forall c, c < 3 -> v c = w c) -> cross v i j = cross w i j.
Proof. intros E. unfold cross. destruct i as [|[|[|i]]], j as [|[|[|j]]]; rewrite ?E by lia; reflexivity. Qed.
(** m^T v^ m = (m^T v)^ *)
Lemma conj m v i j : rot m -> i < 3 -> j < 3 ->
  rsum 3 (fun l => cross v i l * m l j)%R = rsum 3 (fun l => m i l * cross (fun c => rsum 3 (fun k => m k c * v k)) l j)%R.
Proof.
  intros M Hi Hj. three j; three i; cbn [rsum cross];
    first [rewrite (c00 _ M), (c10 _ M), (c20 _ M); ring | rewrite (c00 _ M), (c10 _ M); ring | rewrite (c00 _ M), (c20 _ M); ring | rewrite (c10 _ M), (c20 _ M); ring |
           rewrite (c01 _ M), (c11 _ M); ring | rewrite (c01 _ M), (c21 _ M); ring | rewrite (c11 _ M), (c21 _ M); ring |
           rewrite (c02 _ M), (c12 _ M); ring | rewrite (c02 _ M), (c22 _ M); ring | rewrite (c12 _ M), (c22 _ M); ring].
Qed.
Lemma rorth_apply m v i : rot m -> i < 3 -> rsum 3 (fun l => m i l * rsum 3 (fun k => m k l * v k))%R = v i.
Proof.
  intros M Hi. transitivity (rsum 3 (fun k => rsum 3 (fun l => m i l * m k l) * v k))%R; [cbn [rsum]; ring|]. cbn [rsum].
  pose proof (rorth _ M) as O. three i; pose proof (O _ 0 Hi ltac:(lia)) as O0; pose proof (O _ 1 Hi ltac:(lia)) as O1; pose proof (O _ 2 Hi ltac:(lia)) as O2;
    cbn [rsum Nat.eqb] in O0, O1, O2; rewrite O0, O1, O2; ring.
Qed.
Lemma orth_apply m v i : rot m -> i < 3 -> rsum 3 (fun l => m l i * rsum 3 (fun k => m l k * v k))%R = v i.
Proof.
  intros M Hi. transitivity (rsum 3 (fun k => rsum 3 (fun l => m l i * m l k) * v k))%R; [cbn [rsum]; ring|]. cbn [rsum].
  pose proof (orth _ M) as O. three i; pose proof (O _ 0 Hi ltac:(lia)) as O0; pose proof (O _ 1 Hi ltac:(lia)) as O1; pose proof (O _ 2 Hi ltac:(lia)) as O2;
    cbn [rsum Nat.eqb] in O0, O1, O2; rewrite O0, O1, O2; ring.
Qed.
Lemma adjoint_lin m t u w i : rot m -> i < 3 ->
  rsum 3 (fun l => m i l * (rsum 3 (fun k => m k l * u k) + rsum 3 (fun k => rsum 3 (fun n => cross (fun c => - rsum 3 (fun q => m q c * t q)) l n * m k n) * w k)))%R =
  (u i + rsum 3 (fun l => cross w i l * t l))%R.
Proof.
  intros M Hi. transitivity (rsum 3 (fun l => m i l * rsum 3 (fun k => m k l * u k)) +
     rsum 3 (fun n => rsum 3 (fun l => m i l * cross (fun c => rsum 3 (fun q => m q c * (- t q))) l n) * rsum 3 (fun k => m k n * w k)))%R.
  - assert (E : forall l n, cross (fun c => - rsum 3 (fun q => m q c * t q))%R l n = cross (fun c => rsum 3 (fun q => m q c * (- t q)))%R l n)
      by (intros; apply cross_ext; intros; cbn [rsum]; ring).
    rewrite (rsum_ext 3 _ (fun l => m i l * (rsum 3 (fun k => m k l * u k) + rsum 3 (fun k => rsum 3 (fun n => cross (fun c => rsum 3 (fun q => m q c * (- t q))) l n * m k n) * w k)))%R).
    + cbn [rsum]. ring.
    + intros l _. do 2 f_equal. apply rsum_ext; intros k _. f_equal. apply rsum_ext; intros n _. rewrite E. reflexivity.
  - rewrite rorth_apply by assumption. f_equal.
    transitivity (rsum 3 (fun n => rsum 3 (fun l => cross (fun q => - t q) i l * m l n) * rsum 3 (fun k => m k n * w k)))%R.
    + apply rsum_ext; intros n Hn. rewrite (conj m (fun q => - t q)%R i n M Hi Hn). reflexivity.
    + transitivity (rsum 3 (fun l => cross (fun q => - t q) i l * rsum 3 (fun n => m l n * rsum 3 (fun k => m k n * w k))))%R; [cbn [rsum]; ring|].
      transitivity (rsum 3 (fun l => cross (fun q => - t q) i l * w l))%R; [apply rsum_ext; intros l Hl; rewrite rorth_apply by assumption; reflexivity|].
      three i; cbn [rsum cross]; ring.
Qed.

Lemma moves_of k G T dG dT D : (forall y, inr (tdims k) y -> dformula k G T dG dT y = D y) -> moves k G T dG dT D.
Proof. intros E. exists (qformula k dG dT). intros e y Hy. rewrite formula_moves, E by exact Hy. reflexivity. Qed.
Lemma eyes_times S n bi v i : i < n -> times (eyes S n) bi n v i = v i.
Proof.
  intros Hi. unfold times. rewrite (rsum_ext n _ (fun c => if c =? i then v c else 0%R)).
  - rewrite rsum_delta. destruct (Nat.ltb_spec i n); [reflexivity|lia].
  - intros c _. rewrite eyes_blocks, (Nat.eqb_sym i c). destruct (c =? i); ring.
Qed.

Section Jac.
Variables (A B S : list nat) (g t : nd).
Hypothesis H : bcast A B = Some S.
Let XA : expands A S := proj1 (bcast_expands _ _ _ H).
Let XB : expands B S := proj2 (bcast_expands _ _ _ H).

Lemma jac_compose3 : sh g = A ++ [3; 3] -> sh t = B ++ [3; 3] -> exists j0 j1 r, jcompose_so3 g t = Some ((j0, j1), r) /\ compose_so3 g t = Some r /\ jacobians_of Compose3 A B S g t j0 j1.
Proof.
  intros Eg Et. destruct (forward A B S g t H Compose3 Eg Et) as (r & R1 & R2 & _). cbn [op_of tdims is_compose gdims] in R1, R2.
  unfold jcompose_so3. rewrite R1. cbn [opt_bind]. destruct (mat_bsh _ _ _ _ R2) as (-> & _).
  destruct (transpose_blocks t _ _ _ Et) as [T1 T2]. destruct (expand_blocks (transpose t) B S [3; 3] T1 XB) as (j & J1 & J2 & J3). rewrite J1. cbn [opt_bind].
  exists j, (eyes S 3), r. split; [reflexivity|]. split; [reflexivity|]. split; [exact J2|]. split; [reflexivity|].
  intros bi Hbi G T RG RT v. specialize (RT eq_refl). pose proof (rot_of T RT) as MT. cbn [dof rdof is_compose second]. split; apply moves_of; intros y Hy; destruct (inr_mat _ _ _ Hy) as (i & j' & -> & Hi & Hj); cbn [dformula body dof].
  - transitivity (rsum 3 (fun m => G [i; m] * rsum 3 (fun l => cross v m l * ent T l j')))%R; [unfold ent; cbn [rsum]; ring|].
    transitivity (rsum 3 (fun l => formula Compose3 G T [i; l] * cross (fun c => rsum 3 (fun k => ent T k c * v k)) l j'))%R.
    + transitivity (rsum 3 (fun m => G [i; m] * rsum 3 (fun l => ent T m l * cross (fun c => rsum 3 (fun k => ent T k c * v k)) l j')))%R.
      * apply rsum_ext; intros m Hm. rewrite (conj (ent T) v m j' MT Hm Hj). reflexivity.
      * cbn [formula]. unfold ent. cbn [rsum]. ring.
    + apply rsum_ext; intros l Hl. f_equal. apply cross_ext; intros c Hc. unfold times. apply rsum_ext; intros q Hq. rewrite J3 by (try apply inr_two; assumption). rewrite T2. reflexivity.
  - transitivity (rsum 3 (fun l => formula Compose3 G T [i; l] * cross v l j'))%R; [cbn [formula]; cbn [rsum]; ring|].
    apply rsum_ext; intros l Hl. f_equal. apply cross_ext; intros c Hc. symmetry; apply eyes_times; exact Hc.
Qed.
Lemma adjoint_blocks : sh t = B ++ [3; 4] -> exists a, adjoint_se3 (inverse_se3 t) = Some a /\ sh a = B ++ [6; 6] /\
  forall x i j, i < 3 -> j < 3 -> inr B x ->
    dat a (x ++ [i; j]) = dat t (x ++ [j; i]) /\ dat a (x ++ [3 + i; j]) = 0%R /\ dat a (x ++ [3 + i; 3 + j]) = dat t (x ++ [j; i]) /\
    dat a (x ++ [i; 3 + j]) = rsum 3 (fun l => cross (fun c => - rsum 3 (fun q => dat t (x ++ [q; c]) * dat t (x ++ [q; 3%nat]))) i l * dat t (x ++ [j; l]))%R.
Proof.
  intros Et. destruct (mat_bsh _ _ _ _ Et) as (E1 & _). set (u := inverse_se3 t).
  assert (Eu : sh u = B ++ [3; 4]) by (unfold u, inverse_se3; cbn [sh]; rewrite E1; reflexivity).
  assert (Vu : forall x i j, dat u (x ++ [i; j]) = if j <? 3 then dat t (x ++ [j; i]) else (- rsum 3 (fun l => dat t (x ++ [l; i]) * dat t (x ++ [l; 3%nat])))%R).
  { intros x i j. unfold u, inverse_se3; cbn [dat]. destruct (idx_split x i j) as (-> & -> & -> & ->). reflexivity. }
  destruct (first_cols_blocks u B 4 Eu) as [F1 F2]; [lia|]. destruct (cols_from_blocks 3 u B 3 4 Eu) as [C1 C2]. cbn [Nat.sub] in C1.
  destruct (squeeze_blocks _ _ _ C1) as [Q1 Q2]. destruct (lift_blocks _ _ Q1) as [L1 L2].
  unfold adjoint_se3. destruct (matmul_blocks _ _ B B B 3 3 3 L1 F1 (bcast_id B)) as (m & M1 & M2 & M3). rewrite M1. cbn [opt_bind].
  destruct (mat_bsh _ _ _ _ Eu) as (-> & _). eexists. split; [reflexivity|]. split; [reflexivity|]. intros x i j Hi Hj Hx. cbn [dat].
  destruct (idx_split x i j) as (-> & -> & -> & ->). destruct (idx_split x (3 + i) j) as (-> & -> & -> & ->). destruct (idx_split x (3 + i) (3 + j)) as (-> & -> & -> & ->).
  destruct (idx_split x i (3 + j)) as (-> & -> & -> & ->).
  destruct (Nat.ltb_spec i 3); [|lia]. destruct (Nat.ltb_spec j 3); [|lia]. destruct (Nat.ltb_spec (3 + i) 3); [lia|]. destruct (Nat.ltb_spec (3 + j) 3); [lia|].
  replace (3 + i - 3) with i by lia. replace (3 + j - 3) with j by lia.
  split; [rewrite Vu; destruct (Nat.ltb_spec j 3); [reflexivity|lia]|]. split; [reflexivity|]. split; [rewrite Vu; destruct (Nat.ltb_spec j 3); [reflexivity|lia]|].
  rewrite M3, (bidx_id B) by exact Hx. apply rsum_ext; intros l Hl. rewrite F2, Vu. destruct (Nat.ltb_spec j 3); [|lia]. f_equal.
  rewrite L2 by assumption. apply cross_ext; intros c Hc. rewrite Q2, C2. cbn [Nat.add]. rewrite Vu. reflexivity.
Qed.
Lemma jac_compose4 : sh g = A ++ [3; 4] -> sh t = B ++ [3; 4] -> exists j0 j1 r, jcompose_se3 g t = Some ((j0, j1), r) /\ compose_se3 g t = Some r /\ jacobians_of Compose4 A B S g t j0 j1.
Proof.
  intros Eg Et. destruct (forward A B S g t H Compose4 Eg Et) as (r & R1 & R2 & _). cbn [op_of tdims is_compose gdims] in R1, R2.
  unfold jcompose_se3. rewrite R1. cbn [opt_bind]. destruct (mat_bsh _ _ _ _ R2) as (-> & _).
  destruct (adjoint_blocks Et) as (a & A1 & A2 & A3). rewrite A1. cbn [opt_bind].
  destruct (expand_blocks a B S [6; 6] A2 XB) as (j & J1 & J2 & J3). rewrite J1. cbn [opt_bind].
  exists j, (eyes S 6), r. split; [reflexivity|]. split; [reflexivity|]. split; [exact J2|]. split; [reflexivity|].
  intros bi Hbi G T RG RT v. specialize (RT eq_refl). pose proof (rot_of T RT) as MT. cbn [dof rdof is_compose second].
  assert (HB : inr B (bidx B bi)) by (eapply bidx_inr; [exact XB|exact Hbi]).
  assert (JV : forall i c, i < 6 -> c < 6 -> dat j (bi ++ [i; c]) = dat a (bidx B bi ++ [i; c])) by (intros; apply J3; [exact Hbi|apply inr_two; assumption]).
  set (w := fun c => v (3 + c)).
  assert (W : forall c, c < 3 -> times j bi 6 v (3 + c) = rsum 3 (fun k => ent T k c * w k)%R).
  { intros c Hc. unfold times. cbn [rsum]. rewrite !JV by lia. destruct (A3 (bidx B bi) c 0 Hc ltac:(lia) HB) as (_ & X1 & X2 & _).
    destruct (A3 (bidx B bi) c 1 Hc ltac:(lia) HB) as (_ & Y1 & Y2 & _). destruct (A3 (bidx B bi) c 2 Hc ltac:(lia) HB) as (_ & Z1 & Z2 & _).
    cbn [Nat.add] in X1, Y1, Z1, X2, Y2, Z2 |- *. rewrite X1, X2, Y1, Y2, Z1, Z2. unfold w, ent, T, block. cbn [Nat.add]. ring. }
  assert (U : forall c, c < 3 -> times j bi 6 v c = (rsum 3 (fun k => ent T k c * v k) +
     rsum 3 (fun k => rsum 3 (fun n => cross (fun c => - rsum 3 (fun q => ent T q c * ent T q 3)) c n * ent T k n) * w k))%R).
  { intros c Hc. unfold times. cbn [rsum]. rewrite !JV by lia. destruct (A3 (bidx B bi) c 0 Hc ltac:(lia) HB) as (X1 & _ & _ & X2).
    destruct (A3 (bidx B bi) c 1 Hc ltac:(lia) HB) as (Y1 & _ & _ & Y2). destruct (A3 (bidx B bi) c 2 Hc ltac:(lia) HB) as (Z1 & _ & _ & Z2).
    cbn [Nat.add] in X2, Y2, Z2. rewrite X1, X2, Y1, Y2, Z1, Z2. unfold w, ent, T, block. cbn [Nat.add rsum]. ring. }
  split; apply moves_of; intros y Hy; destruct (inr_mat _ _ _ Hy) as (i & j' & -> & Hi & Hj); cbn [dformula body dof].
  - fold w. destruct (Nat.eqb_spec j' 3) as [->|Nj].
    + transitivity (rsum 3 (fun m => G [i; m] * (v m + rsum 3 (fun l => cross w m l * ent T l 3))))%R; [unfold ent; cbn [rsum Nat.eqb]; ring|].
      transitivity (rsum 3 (fun m => G [i; m] * rsum 3 (fun l => ent T m l * times j bi 6 v l)))%R.
      * apply rsum_ext; intros m Hm. f_equal. rewrite <- (adjoint_lin (ent T) (fun q => ent T q 3) v w m MT Hm). apply rsum_ext; intros l Hl. rewrite (U l Hl). reflexivity.
      * cbn [formula]. unfold ent. cbn [rsum Nat.eqb]. ring.
    + assert (Hj' : j' < 3) by lia.
      transitivity (rsum 3 (fun m => G [i; m] * rsum 3 (fun l => cross w m l * ent T l j')))%R; [unfold ent; cbn [rsum Nat.eqb]; ring|].
      transitivity (rsum 3 (fun l => formula Compose4 G T [i; l] * cross (fun c => rsum 3 (fun k => ent T k c * w k)) l j'))%R.
      * transitivity (rsum 3 (fun m => G [i; m] * rsum 3 (fun l => ent T m l * cross (fun c => rsum 3 (fun k => ent T k c * w k)) l j')))%R.
        -- apply rsum_ext; intros m Hm. rewrite (conj (ent T) w m j' MT Hm Hj'). reflexivity.
        -- cbn [formula]. unfold ent. cbn [rsum Nat.eqb]. ring.
      * apply rsum_ext; intros l Hl. f_equal. apply cross_ext; intros c Hc. symmetry. apply (W c Hc).
  - fold w. destruct (Nat.eqb_spec j' 3) as [->|Nj].
    + transitivity (rsum 3 (fun l => formula Compose4 G T [i; l] * v l))%R; [cbn [formula]; cbn [rsum Nat.eqb]; ring|].
      apply rsum_ext; intros l Hl. f_equal. symmetry; apply eyes_times; lia.
    + transitivity (rsum 3 (fun l => formula Compose4 G T [i; l] * cross w l j'))%R; [cbn [formula]; cbn [rsum Nat.eqb]; ring|].
      apply rsum_ext; intros l Hl. f_equal. apply cross_ext; intros c Hc. symmetry; exact (eyes_times S 6 bi v (3 + c) ltac:(lia)).
Qed.
Lemma jac_transform3 : sh g = A ++ [3; 3] -> sh t = B ++ [3] -> exists j0 j1 r, jtransform_so3 g t = Some ((j0, j1), r) /\ transform_so3 g t = Some r /\ jacobians_of Transform3 A B S g t j0 j1.
Proof.
  intros Eg Et. destruct (forward A B S g t H Transform3 Eg Et) as (r & R1 & R2 & _). cbn [op_of tdims is_compose gdims] in R1, R2.
  unfold jtransform_so3. rewrite R1. cbn [opt_bind]. destruct (vec_lead _ _ _ R2) as (-> & _).
  destruct (lift_blocks t B Et) as [L1 L2]. assert (N1 : sh (neg g) = A ++ [3; 3]) by exact Eg.
  destruct (matmul_blocks (neg g) (lift_so3 t) A B S 3 3 3 N1 L1 H) as (m & M1 & M2 & M3). rewrite M1. cbn [opt_bind].
  destruct (expand_blocks m S S [3; 3] M2 (expands_refl S)) as (j & J1 & J2 & J3). rewrite J1. cbn [opt_bind].
  destruct (expand_blocks g A S [3; 3] Eg XA) as (p & P1 & P2 & P3). rewrite P1. cbn [opt_bind].
  exists j, p, r. split; [reflexivity|]. split; [reflexivity|]. split; [exact J2|]. split; [exact P2|].
  intros bi Hbi G T _ _ v. cbn [dof rdof is_compose second].
  assert (JV : forall i c, i < 3 -> c < 3 -> dat j (bi ++ [i; c]) = rsum 3 (fun l => - G [i; l] * cross (fun c => T [c]) l c)%R).
  { intros i c Hi Hc. rewrite J3 by (try apply inr_two; assumption). rewrite (bidx_id S), M3 by exact Hbi. apply rsum_ext; intros l Hl. rewrite L2 by assumption. reflexivity. }
  split; apply moves_of; intros y Hy; destruct (inr_vec _ _ Hy) as (i & -> & Hi); cbn [dformula body dof point]; unfold times.
  - cbn [rsum]. rewrite !JV by lia. cbn [rsum cross]. ring.
  - cbn [rsum]. rewrite !P3 by (try apply inr_two; (assumption || lia)). unfold G, block. ring.
Qed.
Lemma jac_untransform3 : sh g = A ++ [3; 3] -> sh t = B ++ [3] -> exists j0 j1 r, juntransform_so3 g t = Some ((j0, j1), r) /\ untransform_so3 g t = Some r /\ jacobians_of Untransform3 A B S g t j0 j1.
Proof.
  intros Eg Et. destruct (forward A B S g t H Untransform3 Eg Et) as (r & R1 & R2 & R3). cbn [op_of tdims is_compose gdims] in R1, R2, R3.
  unfold juntransform_so3. rewrite R1. cbn [opt_bind]. destruct (vec_lead _ _ _ R2) as (-> & _).
  destruct (lift_blocks r S R2) as [L1 L2]. destruct (expand_blocks _ S S [3; 3] L1 (expands_refl S)) as (j & J1 & J2 & J3). rewrite J1. cbn [opt_bind].
  destruct (transpose_blocks g _ _ _ Eg) as [T1 T2]. destruct (expand_blocks _ A S [3; 3] T1 XA) as (p & P1 & P2 & P3). rewrite P1. cbn [opt_bind].
  exists j, p, r. split; [reflexivity|]. split; [reflexivity|]. split; [exact J2|]. split; [exact P2|].
  intros bi Hbi G T _ _ v. cbn [dof rdof is_compose second].
  assert (JV : forall i c, i < 3 -> c < 3 -> dat j (bi ++ [i; c]) = cross (fun c => formula Untransform3 G T [c]) i c).
  { intros i c Hi Hc. rewrite J3 by (try apply inr_two; assumption). rewrite (bidx_id S), L2 by assumption. apply cross_ext; intros q Hq. apply R3; [exact Hbi|constructor; [exact Hq|constructor]]. }
  split; apply moves_of; intros y Hy; destruct (inr_vec _ _ Hy) as (i & -> & Hi); cbn [dformula body dof point]; unfold times.
  - cbn [rsum]. rewrite !JV by lia. three i; cbn [formula rsum cross]; ring.
  - cbn [rsum]. rewrite !P3 by (try apply inr_two; (assumption || lia)). rewrite !T2. unfold G, block. ring.
Qed.
Lemma jac_transform4 : sh g = A ++ [3; 4] -> sh t = B ++ [3] -> exists j0 j1 r, jtransform_se3 g t = Some ((j0, j1), r) /\ transform_se3 g t = Some r /\ jacobians_of Transform4 A B S g t j0 j1.
Proof.
  intros Eg Et. destruct (forward A B S g t H Transform4 Eg Et) as (r & R1 & R2 & _). cbn [op_of tdims is_compose gdims] in R1, R2.
  unfold jtransform_se3. rewrite R1. cbn [opt_bind]. destruct (vec_lead _ _ _ R2) as (-> & _).
  destruct (first_cols_blocks g A 4 Eg) as [F1 F2]; [lia|].
  destruct (lift_blocks t B Et) as [L1 L2]. assert (N1 : sh (neg (first_cols 3 g)) = A ++ [3; 3]) by exact F1.
  destruct (matmul_blocks _ (lift_so3 t) A B S 3 3 3 N1 L1 H) as (m & M1 & M2 & M3). rewrite M1. cbn [opt_bind].
  destruct (expand_blocks _ A S [3; 3] F1 XA) as (p & P1 & P2 & P3). rewrite P1. cbn [opt_bind].
  destruct (expand_blocks m S S [3; 3] M2 (expands_refl S)) as (j & J1 & J2 & J3). rewrite J1. cbn [opt_bind].
  destruct (cat_blocks p j S 3 3 3 P2 J2) as (q & Q1 & Q2 & Q3). rewrite Q1. cbn [opt_bind].
  exists q, p, r. split; [reflexivity|]. split; [reflexivity|]. split; [exact Q2|]. split; [exact P2|].
  intros bi Hbi G T _ _ v. cbn [dof rdof is_compose second].
  assert (JV : forall i c, i < 3 -> c < 3 -> dat j (bi ++ [i; c]) = rsum 3 (fun l => - G [i; l] * cross (fun c => T [c]) l c)%R).
  { intros i c Hi Hc. rewrite J3 by (try apply inr_two; assumption). rewrite (bidx_id S), M3 by exact Hbi. apply rsum_ext; intros l Hl. rewrite L2 by assumption. unfold neg; cbn [dat]. rewrite F2. reflexivity. }
  assert (PV : forall i c, i < 3 -> c < 3 -> dat p (bi ++ [i; c]) = G [i; c]).
  { intros i c Hi Hc. rewrite P3 by (try apply inr_two; assumption). rewrite F2. reflexivity. }
  split; apply moves_of; intros y Hy; destruct (inr_vec _ _ Hy) as (i & -> & Hi); cbn [dformula body dof point]; unfold times.
  - cbn [rsum]. rewrite !Q3. cbn [Nat.ltb Nat.leb Nat.sub]. rewrite !JV, !PV by lia. cbn [rsum cross Nat.eqb Nat.add]. ring.
  - cbn [rsum]. rewrite !PV by lia. ring.
Qed.
Lemma jac_untransform4 : sh g = A ++ [3; 4] -> sh t = B ++ [3] -> exists j0 j1 r, juntransform_se3 g t = Some ((j0, j1), r) /\ untransform_se3 g t = Some r /\ jacobians_of Untransform4 A B S g t j0 j1.
Proof.
  intros Eg Et. destruct (forward A B S g t H Untransform4 Eg Et) as (r & R1 & R2 & R3). cbn [op_of tdims is_compose gdims] in R1, R2, R3.
  unfold juntransform_se3. rewrite R1. cbn [opt_bind]. destruct (vec_lead _ _ _ R2) as (-> & _).
  destruct (first_cols_blocks g A 4 Eg) as [F1 F2]; [lia|].
  destruct (lift_blocks r S R2) as [L1 L2]. destruct (expand_blocks _ S S [3; 3] L1 (expands_refl S)) as (j & J1 & J2 & J3). rewrite J1. cbn [opt_bind].
  assert (N1 : sh (neg (eyes S 3)) = S ++ [3; 3]) by reflexivity.
  destruct (cat_blocks _ j S 3 3 3 N1 J2) as (q & Q1 & Q2 & Q3). rewrite Q1. cbn [opt_bind].
  destruct (transpose_blocks _ _ _ _ F1) as [T1 T2]. destruct (expand_blocks _ A S [3; 3] T1 XA) as (p & P1 & P2 & P3). rewrite P1. cbn [opt_bind].
  exists q, p, r. split; [reflexivity|]. split; [reflexivity|]. split; [exact Q2|]. split; [exact P2|].
  intros bi Hbi G T RG _ v. pose proof (rot_of G RG) as MG. cbn [dof rdof is_compose second].
  assert (JV : forall i c, i < 3 -> c < 3 -> dat j (bi ++ [i; c]) = cross (fun c => formula Untransform4 G T [c]) i c).
  { intros i c Hi Hc. rewrite J3 by (try apply inr_two; assumption). rewrite (bidx_id S), L2 by assumption. apply cross_ext; intros z Hz. apply R3; [exact Hbi|constructor; [exact Hz|constructor]]. }
  assert (EV : forall i c, dat (neg (eyes S 3)) (bi ++ [i; c]) = if i =? c then (-1)%R else 0%R).
  { intros i c. unfold neg; cbn [dat]. change (Ropp (dat (eyes S 3) (bi ++ [i; c])) = if i =? c then (-1)%R else 0%R). rewrite eyes_blocks. destruct (i =? c); ring. }
  split; apply moves_of; intros y Hy; destruct (inr_vec _ _ Hy) as (i & -> & Hi); cbn [dformula body dof point]; unfold times.
  - transitivity (- v i + rsum 3 (fun c => cross (fun c => formula Untransform4 G T [c]) i c * v (3 + c)%nat))%R.
    + rewrite <- (orth_apply (ent G) v i MG Hi). unfold ent. three i; cbn [formula rsum cross Nat.eqb Nat.add]; ring.
    + cbn [rsum]. rewrite !Q3. cbn [Nat.ltb Nat.leb Nat.sub]. rewrite !JV, !EV by lia. three i; cbn [Nat.eqb Nat.add]; ring.
  - cbn [rsum]. rewrite !P3 by (try apply inr_two; (assumption || lia)). rewrite !T2, F2. unfold G, block. ring.
Qed.
End Jac.
