(** What the five LieGroup classes have in common, as used by Mg_props.v. *)
From Coq Require Import Reals List Arith Lia Lra Psatz.
From Coquelicot Require Import Coquelicot.
Import List ListNotations.
From Verif Require Import Geo_spec Geo3_spec Geo4_spec RSum Trig Exp_unique SE2_model SE2_group SE2_exp SE2_jac
  SO3_model SO3_exp SO3_jexp SO3_group SO3_log SO3_quat SO3_ops SE3_model SE3_group SE3_exp SE3_jexp SE3_log SE3_local
  Mg_model Mg_spec Mg_inv.
Local Open Scope R_scope.

Notation shift m t eps := (fun i : nat => m i + t * eps i).

Record Laws (G : LieClass) (M : Meaning G) : Prop := mkLaws {
  l_retract : forall g v, valid M g -> exists k, retract g v = Some k /\ valid M k;
  l_local_retract : forall g k v, valid M g -> valid M k -> local g k = Some v -> regular M v ->
    exists k', retract g v = Some k' /\ same M k' k;
  l_retract_local : forall g v k u, valid M g -> regular M v -> retract g v = Some k -> local g k = Some u ->
    same_vec (dof G) u v;
  l_jac : forall v, exists J, exp_map_jac (l := G) v = Some J;
  l_jac_ext : forall u v J K, same_vec (dof G) u v -> exp_map_jac (l := G) u = Some J -> exp_map_jac (l := G) v = Some K ->
    same_mat (dof G) J K;
  l_inv : forall v J, angle M v < PI -> exp_map_jac (l := G) v = Some J -> exists K, inverse_of (dof G) J K;
  l_moves : forall g v eps J k h, valid M g -> regular M v -> exp_map_jac (l := G) v = Some J -> retract g v = Some k ->
    (forall t, retract g (shift v t eps) = Some (h t)) -> moves M h k (matvec (dof G) J eps);
  l_moves_same : forall h k k' xi, moves M h k xi -> same M k k' -> moves M h k' xi;
  l_unique : forall h k xi xi', valid M k -> moves M h k xi -> moves M h k xi' -> same_vec (dof G) xi xi' }.

(** ---- coordinates ---- *)
Lemma vm3 J v i : (i < 3)%nat -> matvec 3 (of_m3 J) v i = of_v3 (app3 J (v3_of v)) i.
Proof. intro H. destruct i as [|[|[|i]]]; try lia; unfold matvec, of_m3, of_v3, app3, v3_of; cbn; ring. Qed.
Lemma v3_of_vm3 J v : v3_of (matvec 3 (of_m3 J) v) = app3 J (v3_of v).
Proof. unfold v3_of at 1. rewrite !vm3 by lia. reflexivity. Qed.
Lemma v3_of_of v : v3_of (of_v3 v) = v. Proof. destruct v; reflexivity. Qed.
Lemma v3_shift m t eps : v3_of (shift m t eps) = add3 (v3_of m) (scal3 t (v3_of eps)).
Proof. reflexivity. Qed.
Lemma v3_same u v : same_vec 3 u v -> v3_of u = v3_of v.
Proof. intro H. unfold v3_of. now rewrite !H by lia. Qed.
Lemma of_v3_same v u : v3_of v = u -> same_vec 3 (of_v3 u) v.
Proof. intros <- i Hi. destruct i as [|[|[|i]]]; try lia; reflexivity. Qed.
Lemma tw_shift m t eps : tw_of (shift m t eps) = tadd (tw_of m) (tscal t (tw_of eps)).
Proof. reflexivity. Qed.
Lemma tw_of_of v : tw_of (of_tw v) = v. Proof. destruct v as [[] []]; reflexivity. Qed.
Lemma tw_same u v : same_vec 6 u v -> tw_of u = tw_of v.
Proof. intro H. unfold tw_of. now rewrite !H by lia. Qed.
Lemma of_tw_same v u : tw_of v = u -> same_vec 6 (of_tw u) v.
Proof. intros <- i Hi. destruct i as [|[|[|[|[|[|i]]]]]]; try lia; reflexivity. Qed.
Lemma vm66 J v i : (i < 6)%nat -> matvec 6 (of_m66 J) v i = of_tw (app66 J (tw_of v)) i.
Proof.
  intro H. destruct i as [|[|[|[|[|[|i]]]]]]; try lia; unfold matvec, of_m66, of_m3, of_tw, app66, app3, tw_of, add3; cbn; ring.
Qed.
Lemma tw_of_vm66 J v : tw_of (matvec 6 (of_m66 J) v) = app66 J (tw_of v).
Proof. unfold tw_of at 1. rewrite !vm66 by lia. destruct (app66 J (tw_of v)) as [[] []]. reflexivity. Qed.

Lemma bmm_m3 A B i j : (i < 3)%nat -> (j < 3)%nat -> rsum 3 (fun k => of_m3 A i k * of_m3 B k j) = of_m3 (mul3 A B) i j.
Proof. intros Hi Hj. destruct i as [|[|[|i]]], j as [|[|[|j]]]; try lia; unfold of_m3, mul3; cbn; ring. Qed.
Lemma I3_eye i j : (i < 3)%nat -> (j < 3)%nat -> of_m3 I3 i j = if (i =? j)%nat then 1 else 0.
Proof. intros Hi Hj. destruct i as [|[|[|i]]], j as [|[|[|j]]]; try lia; reflexivity. Qed.
Lemma inverse_m3 A B : mul3 A B = I3 -> mul3 B A = I3 -> inverse_of 3 (of_m3 A) (of_m3 B).
Proof. intros H K i j Hi Hj. rewrite !bmm_m3, H, K, I3_eye by assumption. now split. Qed.
(** a block triangular matrix *)
Lemma inverse_m66 A B C D : mul3 A B = I3 -> mul3 B A = I3 -> D = opp_m3 (mul3 (mul3 B C) B) ->
  inverse_of 6 (of_m66 (mkM66 A C mzero A)) (of_m66 (mkM66 B D mzero B)).
Proof.
  intros H K E.
  assert (R6 : forall f : nat -> R, rsum 6 f = rsum 3 f + rsum 3 (fun k => f (3 + k)%nat)) by (intro f; apply (rsum_app 3 3 f)).
  assert (Z : forall i j, of_m3 mzero i j = 0) by (intros i j; destruct i as [|[|[|[|i]]]]; destruct j as [|[|[|[|j]]]]; reflexivity).
  assert (P : forall i j, of_m3 (opp_m3 (mul3 (mul3 B C) B)) i j = - of_m3 (mul3 (mul3 B C) B) i j).
  { intros i j. unfold of_m3, opp_m3. destruct i as [|[|[|[|i]]]]; destruct j as [|[|[|[|j]]]]; cbn; ring. }
  assert (K1 : mul3 A (mul3 (mul3 B C) B) = mul3 C B) by (rewrite <- !mul3_assoc, H, mul3_I_l; reflexivity).
  assert (K2 : mul3 (mul3 (mul3 B C) B) A = mul3 B C) by (rewrite mul3_assoc, K, mul3_I_r; reflexivity).
  intros i j Hi Hj. rewrite !R6. cbn [mll mla mal maa].
  assert (CS : forall (i : nat), (i < 6)%nat -> (i < 3)%nat \/ exists i', i = (3 + i')%nat /\ (i' < 3)%nat).
  { intros q Hq. destruct (lt_dec q 3); [now left|]. right. exists (q - 3)%nat. lia. }
  assert (M1 : forall X Y Z W (p q : nat), (p < 3)%nat -> (q < 3)%nat -> of_m66 (mkM66 X Y Z W) p q = of_m3 X p q).
  { intros. unfold of_m66. cbn [mll mla mal maa]. destruct (Nat.ltb_spec p 3), (Nat.ltb_spec q 3); try lia. reflexivity. }
  assert (M2 : forall X Y Z W (p q : nat), (p < 3)%nat -> of_m66 (mkM66 X Y Z W) p (3 + q) = of_m3 Y p q).
  { intros. unfold of_m66. cbn [mll mla mal maa]. destruct (Nat.ltb_spec p 3), (Nat.ltb_spec (3 + q) 3); try lia. f_equal. lia. }
  assert (M3' : forall X Y Z W (p q : nat), (q < 3)%nat -> of_m66 (mkM66 X Y Z W) (3 + p) q = of_m3 Z p q).
  { intros. unfold of_m66. cbn [mll mla mal maa]. destruct (Nat.ltb_spec (3 + p) 3), (Nat.ltb_spec q 3); try lia. f_equal. lia. }
  assert (M4 : forall X Y Z W (p q : nat), of_m66 (mkM66 X Y Z W) (3 + p) (3 + q) = of_m3 W p q).
  { intros. unfold of_m66. cbn [mll mla mal maa]. destruct (Nat.ltb_spec (3 + p) 3), (Nat.ltb_spec (3 + q) 3); try lia. f_equal; lia. }
  assert (EQ : forall p q : nat, (3 + p =? 3 + q)%nat = (p =? q)%nat) by reflexivity.
  subst D.
  destruct (CS i Hi) as [Hi'|(i' & -> & Hi')]; destruct (CS j Hj) as [Hj'|(j' & -> & Hj')].
  - split; (rewrite (rsum_ext 3 (fun k => _ i (3 + k)%nat * _) (fun _ => 0)) by (intros k Hk; rewrite M3' by lia; rewrite Z; ring));
    (rewrite (rsum_ext 3 _ (fun k => of_m3 _ i k * of_m3 _ k j)) by (intros k Hk; rewrite !M1 by lia; reflexivity)); rewrite bmm_m3 by lia; rewrite ?H, ?K, I3_eye by lia; cbn [rsum]; ring.
  - assert (NE : (i =? 3 + j')%nat = false) by (apply Nat.eqb_neq; lia). rewrite NE. split.
    + rewrite (rsum_ext 3 (fun k => of_m66 _ i (3 + k)%nat * _) (fun k => of_m3 C i k * of_m3 B k j')) by (intros k Hk; rewrite M2, M4 by lia; reflexivity).
      rewrite (rsum_ext 3 _ (fun k => (-1) * (of_m3 A i k * of_m3 (mul3 (mul3 B C) B) k j'))) by (intros k Hk; rewrite M1, M2 by lia; rewrite P; ring).
      rewrite rsum_scal, !bmm_m3, K1 by lia. ring.
    + rewrite (rsum_ext 3 (fun k => of_m66 _ i (3 + k)%nat * _) (fun k => (-1) * (of_m3 (mul3 (mul3 B C) B) i k * of_m3 A k j'))) by (intros k Hk; rewrite M2, M4 by lia; rewrite P; ring).
      rewrite (rsum_ext 3 _ (fun k => of_m3 B i k * of_m3 C k j')) by (intros k Hk; rewrite M1, M2 by lia; reflexivity).
      rewrite rsum_scal, !bmm_m3, K2 by lia. ring.
  - assert (NE : (3 + i' =? j)%nat = false) by (apply Nat.eqb_neq; lia). rewrite NE.
    split; rewrite rsum_0, rsum_0; try ring; intros k Hk; (rewrite (M3' _ _ _ _ i' k) by lia) || (rewrite (M3' _ _ _ _ k j) by lia); rewrite Z; ring.
  - rewrite EQ. split; (rewrite (rsum_0 3 (fun k => _ (3 + i')%nat k * _)) by (intros k Hk; rewrite M3' by lia; rewrite Z; ring));
    (rewrite (rsum_ext 3 _ (fun k => of_m3 _ i' k * of_m3 _ k j')) by (intros k Hk; rewrite !M4 by lia; reflexivity)); rewrite bmm_m3 by lia; rewrite ?H, ?K, I3_eye by lia; ring.
Qed.

(** ---- Vector ---- *)
Lemma vector_class_laws n : Laws (vector_class n) (vector_meaning n).
Proof.
  split; cbn.
  - intros g v _. eexists. split; [reflexivity|exact I].
  - intros g k v _ _ E _. injection E as <-. eexists. split; [reflexivity|]. intros i Hi. cbn beta. lra.
  - intros g v k u _ _ E1 E2. injection E1 as <-. injection E2 as <-. intros i Hi. ring.
  - eauto.
  - intros u v J K _ E1 E2. injection E1 as <-. injection E2 as <-. apply same_refl.
  - intros v J _ E. injection E as <-. exists eye_. apply inverse_bmm. split; intros i j Hi Hj; now apply bmm_eye_l.
  - intros g v eps J k h _ _ E1 E2 E3 i Hi. injection E1 as <-. injection E2 as <-.
    assert (Eh : forall t, h t i = g i + (v i + t * eps i)) by (intro t; specialize (E3 t); injection E3 as <-; reflexivity).
    split; [rewrite Eh; ring|].
    assert (ME : matvec n (fun i j => if (i =? j)%nat then 1 else 0) eps i = eps i).
    { unfold matvec. rewrite (rsum_ext n _ (fun k => if (k =? i)%nat then eps k else 0)).
      - rewrite rsum_delta. destruct (Nat.ltb_spec i n); [reflexivity|lia].
      - intros k _. rewrite (Nat.eqb_sym k i). destruct (i =? k)%nat; ring. }
    apply (deriv_val _ _ (eps i)); [symmetry; exact ME|]. eapply deriv_ext; [intro x; symmetry; apply Eh|]. cbv beta. apply is_derive_Reals. auto_derive; [exact I|ring].
  - intros h k k' xi H S i Hi. rewrite <- (S i Hi). now apply H.
  - intros h k xi xi' _ H H' i Hi. destruct (H i Hi) as [_ D]. destruct (H' i Hi) as [_ D']. eapply uniqueness_limite; eassumption.
Qed.

(** ---- SO2 ---- *)
Lemma so2_class_laws : Laws so2_class so2_meaning.
Proof.
  destruct C34_so2_exp_log as (_ & _ & _ & _ & RL & LR).
  split; cbn [elt dof local retract exp_map_jac so2_class valid same moves angle threshold so2_meaning]; unfold regular;
    cbn [angle threshold so2_meaning].
  - intros g v V. eexists. split; [reflexivity|]. unfold so2_retract, so2_exp_map, so2_compose. cbn.
    pose proof (sin2cos2 (v 0%nat)) as S. destruct g as [c s]; cbn in *. nra.
  - intros g k v Vg Vk E _. injection E as <-. eexists. split; [reflexivity|]. now apply LR.
  - intros g v k u V [B _] E1 E2. injection E1 as <-. injection E2 as <-. intros i Hi. assert (i = 0%nat) by lia. subst i.
    apply Rabs_def2 in B. apply RL; [exact V|lra].
  - eauto.
  - intros u v J K _ E1 E2. injection E1 as <-. injection E2 as <-. unfold so2_exp_map_jac. apply same_refl.
  - intros v J _ E. injection E as <-. exists (fun _ _ => 1). intros i j Hi Hj. assert (i = 0%nat) by lia. assert (j = 0%nat) by lia. subst.
    unfold so2_exp_map_jac. cbn. split; ring.
  - intros g v eps J k h V _ E1 E2 E3. injection E1 as <-. injection E2 as <-.
    assert (Eh : forall t, h t = so2_retract g (v 0%nat + t * eps 0%nat)) by (intro t; specialize (E3 t); injection E3 as <-; reflexivity).
    split; [rewrite Eh; f_equal; ring|].
    unfold matvec, so2_exp_map_jac. cbn [rsum].
    destruct g as [c s]. unfold so2_retract, so2_exp_map, so2_compose, deriv_m2, so2_to_matrix. cbn.
    repeat split; (eapply deriv_ext; [intro x; rewrite (Eh x); reflexivity|]); cbv beta; unfold so2_retract, so2_exp_map, so2_compose; cbn; apply is_derive_Reals; auto_derive; try exact I; rewrite ?Rmult_0_l, ?Rplus_0_r; ring.
  - intros h k k' xi H <-. exact H.
  - intros h k xi xi' V [_ H] [_ H'] i Hi. assert (i = 0%nat) by lia. subst i.
    destruct k as [c s]. unfold deriv_m2, so2_to_matrix, mul2, so2_alg in H, H'. cbn in H, H', V.
    destruct H as (A0 & A1 & _), H' as (B0 & B1 & _).
    pose proof (uniqueness_limite _ _ _ _ A0 B0) as U0. pose proof (uniqueness_limite _ _ _ _ A1 B1) as U1.
    set (a := xi 0%nat) in *. set (b := xi' 0%nat) in *. clearbody a b.
    assert (Y0 : s * a = s * b) by lra. assert (Y1 : c * a = c * b) by lra.
    transitivity ((c * c + s * s) * a); [rewrite V; ring|]. transitivity (c * (c * a) + s * (s * a)); [ring|]. rewrite Y0, Y1. transitivity ((c * c + s * s) * b); [ring|]. rewrite V. ring.
Qed.
