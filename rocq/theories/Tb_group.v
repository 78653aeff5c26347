(** C87: the group operations of SO2 and SE2 on batches. *)
From Coq Require Import Reals List Arith Bool Lia Lra.
From Verif Require Import Geo_spec SE2_model SE2_jac Tb_model Tb_spec Tb_props Tb_vec Tb_planar.
Import ListNotations.
Local Open Scope R_scope.

(** one 1 by 1 matrix per item *)
Definition mats1 (t : ten) (b : nat) (f : nat -> R) : Prop := is3 t b 1 1 (fun i _ _ => f i).

Lemma rotations_ext : forall t b f g, rotations t b f -> (forall i, (i < b)%nat -> f i = g i) -> rotations t b g.
Proof. intros t b f g H E. eapply is2_ext; [exact H|]. intros i j Li Lj. cbv beta. rewrite E by assumption. reflexivity. Qed.
Lemma poses_ext : forall t b f g, poses t b f -> (forall i, (i < b)%nat -> f i = g i) -> poses t b g.
Proof. intros t b f g H E. eapply is2_ext; [exact H|]. intros i j Li Lj. cbv beta. rewrite E by assumption. reflexivity. Qed.

Lemma so2_compose_ok : forall g h b1 b2 B f k, rotations g b1 f -> rotations h b2 k -> bcast b1 b2 B ->
  exists t, so2_compose_b g h = Ok t /\ rotations t B (fun i => so2_compose (f (pick b1 i)) (k (pick b2 i))).
Proof.
  intros g h b1 b2 B f k Hg Hh K. unfold so2_compose_b. cbv zeta.
  assert (C1 : is1 (col g 0) b1 (fun i => co (f i))) by (apply (col_is1 _ _ _ _ 0%nat Hg); lia).
  assert (S1 : is1 (col g 1) b1 (fun i => si (f i))) by (apply (col_is1 _ _ _ _ 1%nat Hg); lia).
  assert (C2 : is1 (col h 0) b2 (fun i => co (k i))) by (apply (col_is1 _ _ _ _ 0%nat Hh); lia).
  assert (S2 : is1 (col h 1) b2 (fun i => si (k i))) by (apply (col_is1 _ _ _ _ 1%nat Hh); lia).
  destruct (ew2_is1 Rmult _ _ _ _ _ _ _ C1 C2 K) as (ta & Ea & Ha). rewrite Ea. cbn [rbind].
  destruct (ew2_is1 Rmult _ _ _ _ _ _ _ S1 S2 K) as (tb & Eb & Hb). rewrite Eb. cbn [rbind].
  destruct (ew2_is1 Rmult _ _ _ _ _ _ _ S1 C2 K) as (td & Ed & Hd). rewrite Ed. cbn [rbind].
  destruct (ew2_is1 Rmult _ _ _ _ _ _ _ C1 S2 K) as (te & Ee & He). rewrite Ee. cbn [rbind].
  destruct (ew2_is1 Rminus _ _ _ _ _ _ _ Ha Hb (bcast_same B)) as (tx & Ex & Htx). rewrite Ex. cbn [rbind].
  destruct (ew2_is1 Rplus _ _ _ _ _ _ _ Hd He (bcast_same B)) as (ty & Ey & Hty). rewrite Ey. cbn [rbind].
  destruct (stack_is2 _ _ _ _ _ Htx Hty) as (t & Et & Ht). exists t. split; [exact Et|].
  eapply is2_ext; [exact Ht|]. intros i [|[|j]] Li Lj; try lia; cbn; picks; reflexivity.
Qed.
Lemma so2_inverse_ok : forall g b f, rotations g b f ->
  exists t, so2_inverse_b g = Ok t /\ rotations t b (fun i => so2_inverse (f i)).
Proof.
  intros g b f Hg. unfold so2_inverse_b.
  assert (C1 : is1 (col g 0) b (fun i => co (f i))) by (apply (col_is1 _ _ _ _ 0%nat Hg); lia).
  assert (S1 : is1 (col g 1) b (fun i => si (f i))) by (apply (col_is1 _ _ _ _ 1%nat Hg); lia).
  destruct (stack_is2 _ _ _ _ _ C1 (neg_is1 _ _ _ S1)) as (t & Et & Ht). exists t. split; [exact Et|].
  eapply is2_ext; [exact Ht|]. intros i [|[|j]] Li Lj; try lia; reflexivity.
Qed.
Lemma rot_batch : forall g b f, rotations g b f -> batch g = b.
Proof. intros g b f [S _]. unfold batch. rewrite S. reflexivity. Qed.
Lemma pose_batch : forall g b f, poses g b f -> batch g = b.
Proof. intros g b f [S _]. unfold batch. rewrite S. reflexivity. Qed.

(** SO2: compose, inverse, between and local with their Jacobians.  Those of
    compose have the batch size of the second operand, those of between the
    batch size of the result and of the second operand. *)
Theorem C87_so2_group : forall g h b1 b2 B f k, rotations g b1 f -> rotations h b2 k -> bcast b1 b2 B ->
  (exists t j0 j1, compose so2_group g h (Some []) = Ok (t, Some [j0; j1]) /\
     rotations t B (fun i => so2_compose (f (pick b1 i)) (k (pick b2 i))) /\
     mats1 j0 b2 (fun i => 1) /\ mats1 j1 b2 (fun i => 1)) /\
  (exists t j0, inverse so2_group g (Some []) = Ok (t, Some [j0]) /\
     rotations t b1 (fun i => so2_inverse (f i)) /\ mats1 j0 b1 (fun i => so2_inverse_jac (f i))) /\
  (exists t j0 j1, between so2_group g h (Some []) = Ok (t, Some [j0; j1]) /\
     rotations t B (fun i => so2_between (f (pick b1 i)) (k (pick b2 i))) /\
     mats1 j0 B (fun i => fst (so2_between_jac (f (pick b1 i)) (k (pick b2 i)))) /\ mats1 j1 b2 (fun i => 1)) /\
  (exists t j0 j1, local so2_group so2_log_b g h (Some []) = Ok (t, Some [j0; j1]) /\
     is2 t B 1 (fun i _ => so2_local (f (pick b1 i)) (k (pick b2 i))) /\
     mats1 j0 B (fun i => fst (so2_local_jac (f (pick b1 i)) (k (pick b2 i)))) /\
     mats1 j1 B (fun i => snd (so2_local_jac (f (pick b1 i)) (k (pick b2 i))))).
Proof.
  intros g h b1 b2 B f k Hg Hh K.
  destruct (so2_compose_ok g h b1 b2 B f k Hg Hh K) as (t & Et & Ht).
  destruct (so2_inverse_ok g b1 f Hg) as (gi & Egi & Hgi).
  destruct (so2_inverse_ok h b2 k Hh) as (hi & Ehi & Hhi).
  destruct (so2_compose_ok gi h b1 b2 B _ k Hgi Hh K) as (d & Ed & Hd).
  destruct (so2_inverse_ok d B _ Hd) as (di & Edi & Hdi).
  assert (Bg := rot_batch _ _ _ Hg). assert (Bh := rot_batch _ _ _ Hh). assert (Bhi := rot_batch _ _ _ Hhi).
  assert (Bd := rot_batch _ _ _ Hd). assert (Bdi := rot_batch _ _ _ Hdi).
  assert (ONE : forall b, is3 (T [b; 1%nat; 1%nat] (fun _ => 1)) b 1 1 (fun _ _ _ => 1)) by (intro; split; reflexivity).
  assert (EYE : forall b, mats1 (eye_rep 1 b) b (fun _ => 1)).
  { intro b. eapply is3_ext; [apply eye_is3|]. intros i [|r] [|c] Li Lr Lc; try lia; reflexivity. }
  split; [|split; [|split]].
  - exists t, (T [b2; 1%nat; 1%nat] (fun _ => 1)), (eye_rep 1 b2). split; [|split; [exact Ht|split; [apply ONE|apply EYE]]].
    unfold compose. cbn [so2_group g_cmp g_cjac]. rewrite Et. cbn [rbind jextend]. unfold generic_cjac. rewrite Ehi. cbn [rbind so2_adjoint_b fst snd].
    rewrite Bhi, Bh. reflexivity.
  - exists gi, (tneg (T [b1; 1%nat; 1%nat] (fun _ => 1))). split; [|split; [exact Hgi|exact (neg_is3 _ _ _ _ _ (ONE b1))]].
    unfold inverse. cbn [so2_group g_inv]. rewrite Egi. cbn [rbind jextend]. unfold inverse_jacobian. cbn [so2_group g_adj so2_adjoint_b rbind].
    rewrite Bg. reflexivity.
  - destruct (matmul_is3 (T [b2; 1%nat; 1%nat] (fun _ => 1)) (tneg (T [b1; 1%nat; 1%nat] (fun _ => 1))) b2 b1 B 1 1 1 _ _
      (ONE b2) (neg_is3 _ _ _ _ _ (ONE b1)) (bcast_sym _ _ _ K)) as (j0 & E0 & H0).
    exists d, j0, (eye_rep 1 b2). split; [|split; [exact Hd|split; [|apply EYE]]].
    + unfold between. cbn [so2_group g_inv g_cmp g_cjac]. rewrite Egi. cbn [rbind]. rewrite Ed. cbn [rbind jextend].
      unfold generic_cjac. rewrite Ehi. cbn [rbind so2_adjoint_b fst snd]. unfold inverse_jacobian.
      cbn [so2_group g_adj so2_adjoint_b rbind]. rewrite Bhi, Bh, Bg, E0. reflexivity.
    + eapply is3_ext; [exact H0|]. intros. unfold so2_between_jac, so2_local_jac, so2_compose_jac, so2_inverse_jac, so2_adjoint, so2_log_map_jac. cbn. ring.
  - destruct (matmul_is3 (tneg (T [B; 1%nat; 1%nat] (fun _ => 1))) (T [B; 1%nat; 1%nat] (fun _ => 1)) B B B 1 1 1 _ _
      (neg_is3 _ _ _ _ _ (ONE B)) (ONE B) (bcast_same B)) as (j0 & E0 & H0).
    exists (fst (so2_log_b d)), j0, (T [B; 1%nat; 1%nat] (fun _ => 1)). split; [|split; [|split]].
    + unfold local, between, inverse. cbn [so2_group g_inv g_cmp]. rewrite Egi. cbn [rbind]. rewrite Ed. cbn [rbind jextend].
      rewrite Edi. cbn [rbind g_adj so2_group so2_adjoint_b]. rewrite Bdi. unfold so2_log_b. rewrite Bd. cbn [fst snd]. rewrite E0. reflexivity.
    + split; [cbn [so2_log_b fst shp]; rewrite Bd; reflexivity|]. intros i j Li Lj. cbn [so2_log_b fst at_].
      destruct Hd as [_ Hd]. rewrite !Hd by lia. reflexivity.
    + eapply is3_ext; [exact H0|]. intros. unfold so2_between_jac, so2_local_jac, so2_compose_jac, so2_inverse_jac, so2_adjoint, so2_log_map_jac. cbn. ring.
    + apply ONE.
Qed.

(** ** SE2 *)
Lemma se2_rotation_ok : forall g b f, poses g b f -> rotations (se2_rotation_b g) b (fun i => se2_rotation (f i)).
Proof.
  intros g b f H. unfold se2_rotation_b. eapply is2_ext; [exact (slice_is2 _ _ _ _ 2%nat 2%nat H ltac:(lia))|].
  intros i [|[|j]] Li Lj; try lia; reflexivity.
Qed.
Lemma se2_translation_ok : forall g b f, poses g b f ->
  exists v, se2_translation_b g = Ok v /\ point2 v b (fun i => se2_translation (f i)).
Proof.
  intros g b f H. unfold se2_translation_b.
  destruct (construct_ok CPoint2 _ b 2 _ (slice_is2 _ _ _ _ 0%nat 2%nat H ltac:(lia)) ltac:(reflexivity) ltac:(discriminate)) as (v & E & Hv).
  exists v. split; [exact E|]. exact (holds_point2 _ _ _ Hv).
Qed.

(** update_from_rot_and_trans: the batch size is the rotation's; a translation of
    batch size 1 is repeated *)
Theorem C87_rot_trans : forall junk r v b1 b2 f q, rotations r b1 f -> point2 v b2 q ->
  (b2 = b1 \/ b2 = 1%nat -> exists t, se2_from_rot_trans junk r v = Ok t /\ poses t b1 (fun i => se2_of (f i) (q (pick b2 i)))) /\
  (b2 <> b1 -> b2 <> 1%nat -> se2_from_rot_trans junk r v = Err RuntimeErr).
Proof.
  intros junk r v b1 b2 f q Hr [_ Hv]. unfold points2 in Hv. cbn [pten] in Hv. unfold se2_from_rot_trans.
  rewrite (rot_batch _ _ _ Hr).
  assert (C1 : is1 (col r 0) b1 (fun i => co (f i))) by (apply (col_is1 _ _ _ _ 0%nat Hr); lia).
  assert (S1 : is1 (col r 1) b1 (fun i => si (f i))) by (apply (col_is1 _ _ _ _ 1%nat Hr); lia).
  split.
  - intro D. assert (K : bcast b2 b1 b1) by (unfold bcast; lia).
    assert (J : is2 (new_empty junk [b1; 4%nat]) b1 4 (fun i j => junk [i; j])) by (split; reflexivity).
    destruct (set_cols_is2 _ _ _ _ _ _ _ J Hv K) as (t1 & E1 & H1). rewrite E1. cbn [rbind].
    destruct (set2_is2 _ _ _ _ 2%nat _ _ _ H1 C1 (bcast_same b1)) as (t2 & E2 & H2). rewrite E2. cbn [rbind].
    destruct (set2_is2 _ _ _ _ 3%nat _ _ _ H2 S1 (bcast_same b1)) as (t3 & E3 & H3). exists t3. split; [exact E3|].
    eapply is2_ext; [exact H3|]. intros i [|[|[|[|j]]]] Li Lj; try lia; cbn; picks; reflexivity.
  - intros N N'. unfold set_cols2. cbn [new_empty shp]. destruct Hv as [Sv _]. rewrite Sv.
    destruct (Nat.eqb_spec b2 b1), (Nat.eqb_spec b2 1); try contradiction. reflexivity.
Qed.

Lemma se2_compose_ok : forall junk g h b1 b2 B f k, poses g b1 f -> poses h b2 k -> bcast b1 b2 B ->
  exists t, se2_compose_b junk g h = Ok t /\ poses t B (fun i => se2_compose (f (pick b1 i)) (k (pick b2 i))).
Proof.
  intros junk g h b1 b2 B f k Hg Hh K. unfold se2_compose_b. cbv zeta.
  destruct (se2_translation_ok g b1 f Hg) as (t1 & E1 & H1). rewrite E1. cbn [rbind].
  destruct (se2_translation_ok h b2 k Hh) as (t2 & E2 & H2). rewrite E2. cbn [rbind].
  assert (R1 := se2_rotation_ok g b1 f Hg). assert (R2 := se2_rotation_ok h b2 k Hh).
  destruct (so2_compose_ok _ _ b1 b2 B _ _ R1 R2 K) as (nr & Enr & Hnr).
  unfold compose at 1. cbn [so2_group g_cmp]. rewrite Enr. cbn [rbind jextend].
  destruct (C87_rotate junk _ (PVec t2) b1 b2 B _ _ R1 (proj2 H2) K) as ((rt & Ert & Hrt & _) & _). rewrite Ert. cbn [rbind].
  destruct (C87_arith t1 rt CPoint2 CPoint2 b1 B B 2 _ _ (point2_holds _ _ _ H1) (point2_holds _ _ _ Hrt) (bcast_l _ _ _ K))
    as ((nt & Ent & Hnt) & _). unfold v_add in Ent.
  unfold compose. cbn [vec_group g_cmp]. rewrite Ent. cbn [rbind jextend].
  destruct (cat_is2 _ _ _ _ _ _ _ (holds_ten _ _ _ _ _ Hnt) Hnr) as (t & Et & Ht). rewrite Et. exists t. split; [reflexivity|].
  eapply is2_ext; [exact Ht|]. intros i [|[|[|[|j]]]] Li Lj; try lia; cbn; picks; reflexivity.
Qed.
Lemma se2_inverse_ok : forall junk g b f, poses g b f ->
  exists t, se2_inverse_b junk g = Ok t /\ poses t b (fun i => se2_inverse (f i)).
Proof.
  intros junk g b f Hg. unfold se2_inverse_b.
  destruct (so2_inverse_ok _ b _ (se2_rotation_ok g b f Hg)) as (ir & Eir & Hir). rewrite Eir. cbn [rbind].
  destruct (se2_translation_ok g b f Hg) as (t & Et & Ht). rewrite Et. cbn [rbind].
  destruct (C87_unary t CPoint2 b 2 _ (point2_holds _ _ _ Ht)) as ((nt & Ent & Hnt) & _). rewrite Ent. cbn [rbind].
  assert (Pn := holds_point2 _ _ _ Hnt).
  destruct (C87_rotate junk ir (PVec nt) b b b _ _ Hir (proj2 Pn) (bcast_same b)) as ((it & Eit & Hit & _) & _). rewrite Eit. cbn [rbind].
  destruct (C87_rot_trans junk ir it b b _ _ Hir Hit) as [X _]. destruct (X (or_introl eq_refl)) as (r & Er & Hr).
  exists r. split; [exact Er|]. eapply poses_ext; [exact Hr|]. intros i Li. cbv beta. picks. reflexivity.
Qed.
Lemma se2_adjoint_ok : forall junk g b f, poses g b f ->
  exists t, se2_adjoint_b junk g = Ok t /\ mats3 t b (fun i => se2_adjoint (f i)).
Proof.
  intros junk g b f Hg. unfold se2_adjoint_b. rewrite (pose_batch _ _ _ Hg).
  destruct (so2_matrix_ok junk _ b _ (se2_rotation_ok g b f Hg)) as (m & Em & Hm). rewrite Em. cbn [rbind].
  assert (X : is1 (col g 0) b (fun i => px (f i))) by (apply (col_is1 _ _ _ _ 0%nat Hg); lia).
  assert (Y : is1 (col g 1) b (fun i => py (f i))) by (apply (col_is1 _ _ _ _ 1%nat Hg); lia).
  destruct (set_block_is3 _ _ _ _ _ _ _ _ (zeros_is3 b 3 3) Hm (bcast_same b)) as (t1 & E1 & H1). rewrite E1. cbn [rbind].
  destruct (set3_is3 _ _ _ _ _ 0%nat 2%nat _ _ _ H1 Y (bcast_same b)) as (t2 & E2 & H2). rewrite E2. cbn [rbind].
  destruct (set3_is3 _ _ _ _ _ 1%nat 2%nat _ _ _ H2 (neg_is1 _ _ _ X) (bcast_same b)) as (t3 & E3 & H3). rewrite E3. cbn [rbind].
  eexists. split; [reflexivity|].
  eapply is3_ext; [exact (fill3_is3 _ _ _ _ _ 2%nat 2%nat 1 (fill3_is3 _ _ _ _ _ 2%nat 0%nat 0 H3))|].
  intros i [|[|[|r]]] [|[|[|c]]] Li Lr Lc; try lia; cbn; picks; reflexivity.
Qed.

(** SE2: compose, inverse and between with their Jacobians *)
Theorem C87_se2_group : forall junk g h b1 b2 B f k, poses g b1 f -> poses h b2 k -> bcast b1 b2 B ->
  (exists t j0 j1, compose (se2_group junk) g h (Some []) = Ok (t, Some [j0; j1]) /\
     poses t B (fun i => se2_compose (f (pick b1 i)) (k (pick b2 i))) /\
     mats3 j0 b2 (fun i => fst (se2_compose_jac (f (pick b1 i)) (k i))) /\ mats3 j1 b2 (fun _ => I3)) /\
  (exists t j0, inverse (se2_group junk) g (Some []) = Ok (t, Some [j0]) /\
     poses t b1 (fun i => se2_inverse (f i)) /\ mats3 j0 b1 (fun i => se2_inverse_jac (f i))) /\
  (exists t j0 j1, between (se2_group junk) g h (Some []) = Ok (t, Some [j0; j1]) /\
     poses t B (fun i => se2_between (f (pick b1 i)) (k (pick b2 i))) /\
     mats3 j0 B (fun i => fst (se2_between_jac (f (pick b1 i)) (k (pick b2 i)))) /\ mats3 j1 b2 (fun _ => I3)) /\
  (forall J l, compose (se2_group junk) g h (Some (J :: l)) = Err ValueErr /\
     inverse (se2_group junk) g (Some (J :: l)) = Err ValueErr /\
     between (se2_group junk) g h (Some (J :: l)) = Err ValueErr).
Proof.
  intros junk g h b1 b2 B f k Hg Hh K.
  destruct (se2_compose_ok junk g h b1 b2 B f k Hg Hh K) as (t & Et & Ht).
  destruct (se2_inverse_ok junk g b1 f Hg) as (gi & Egi & Hgi).
  destruct (se2_inverse_ok junk h b2 k Hh) as (hi & Ehi & Hhi).
  destruct (se2_compose_ok junk gi h b1 b2 B _ k Hgi Hh K) as (d & Ed & Hd).
  destruct (se2_adjoint_ok junk hi b2 _ Hhi) as (ah & Eah & Hah).
  destruct (se2_adjoint_ok junk g b1 _ Hg) as (ag & Eag & Hag).
  assert (Bh := pose_batch _ _ _ Hh).
  assert (EYE : forall b, mats3 (eye_rep 3 b) b (fun _ => I3)).
  { intro b. eapply is3_ext; [apply eye_is3|]. intros i [|[|[|r]]] [|[|[|c]]] Li Lr Lc; try lia; reflexivity. }
  assert (NEG := neg_is3 _ _ _ _ _ Hag).
  split; [|split; [|split]].
  - exists t, ah, (eye_rep 3 b2). split; [|split; [exact Ht|split; [exact Hah|apply EYE]]].
    unfold compose. cbn [se2_group g_cmp g_cjac]. rewrite Et. cbn [rbind jextend]. unfold generic_cjac. rewrite Ehi. cbn [rbind].
    rewrite Eah. cbn [rbind fst snd]. rewrite Bh. reflexivity.
  - exists gi, (tneg ag). split; [|split; [exact Hgi|]].
    + unfold inverse. cbn [se2_group g_inv]. rewrite Egi. cbn [rbind jextend]. unfold inverse_jacobian. cbn [se2_group g_adj]. rewrite Eag. reflexivity.
    + eapply is3_ext; [exact NEG|]. intros i [|[|[|r]]] [|[|[|c]]] Li Lr Lc; try lia; reflexivity.
  - destruct (matmul_is3 ah (tneg ag) b2 b1 B 3 3 3 _ _ Hah NEG (bcast_sym _ _ _ K)) as (j0 & E0 & H0).
    exists d, j0, (eye_rep 3 b2). split; [|split; [exact Hd|split; [|apply EYE]]].
    + unfold between. cbn [se2_group g_inv g_cmp g_cjac]. rewrite Egi. cbn [rbind]. rewrite Ed. cbn [rbind jextend].
      unfold generic_cjac. rewrite Ehi. cbn [rbind]. rewrite Eah. cbn [rbind fst snd]. unfold inverse_jacobian.
      cbn [se2_group g_adj]. rewrite Eag. cbn [rbind]. rewrite Bh, E0. reflexivity.
    + eapply is3_ext; [exact H0|]. intros i [|[|[|r]]] [|[|[|c]]] Li Lr Lc; try lia; cbn; ring.
  - intros J l. unfold between, compose, inverse. cbn [se2_group g_inv g_cmp]. rewrite Et, Egi. cbn [rbind]. rewrite Ed.
    cbn [rbind jextend]. repeat split; reflexivity.
Qed.

(** batches of rotations or poses that do not broadcast are refused *)
Theorem C87_group_raises : forall junk b1 b2, b1 <> b2 -> b1 <> 1%nat -> b2 <> 1%nat ->
  (forall g h f k J, rotations g b1 f -> rotations h b2 k ->
     compose so2_group g h J = Err RuntimeErr /\ between so2_group g h J = Err RuntimeErr) /\
  (forall g h f k J, poses g b1 f -> poses h b2 k ->
     compose (se2_group junk) g h J = Err RuntimeErr /\ between (se2_group junk) g h J = Err RuntimeErr).
Proof.
  intros junk b1 b2 N N1 N2.
  assert (K : forall B, ~ bcast b1 b2 B) by (unfold bcast; intros; lia).
  assert (X : forall g h f k, rotations g b1 f -> rotations h b2 k -> so2_compose_b g h = Err RuntimeErr).
  { intros g h f k [Sg _] [Sh _]. unfold so2_compose_b. cbv zeta. unfold ew2 at 1. cbn [col shp]. rewrite Sg, Sh. cbn [firstn].
    unfold bshape. cbn [rev app bsh_r]. rewrite (bdim_none _ _ K). reflexivity. }
  split.
  - intros g h f k J Hg Hh. destruct (so2_inverse_ok g b1 f Hg) as (gi & Egi & Hgi).
    unfold compose, between. cbn [so2_group g_inv g_cmp]. rewrite (X _ _ _ _ Hg Hh), Egi. cbn [rbind]. rewrite (X _ _ _ _ Hgi Hh). split; reflexivity.
  - assert (Y : forall g h f k, poses g b1 f -> poses h b2 k -> se2_compose_b junk g h = Err RuntimeErr).
    { intros g h f k Hg Hh. unfold se2_compose_b. cbv zeta.
      destruct (se2_translation_ok g b1 f Hg) as (t1 & E1 & H1). rewrite E1. cbn [rbind].
      destruct (se2_translation_ok h b2 k Hh) as (t2 & E2 & H2). rewrite E2. cbn [rbind].
      unfold compose at 1. cbn [so2_group g_cmp]. rewrite (X _ _ _ _ (se2_rotation_ok g b1 f Hg) (se2_rotation_ok h b2 k Hh)). reflexivity. }
    intros g h f k J Hg Hh. destruct (se2_inverse_ok junk g b1 f Hg) as (gi & Egi & Hgi).
    unfold compose, between. cbn [se2_group g_inv g_cmp]. rewrite (Y _ _ _ _ Hg Hh), Egi. cbn [rbind]. rewrite (Y _ _ _ _ Hgi Hh). split; reflexivity.
Qed.

(** a batch of translations with one rotation is refused, while a batch of
    rotations with one translation is accepted *)
Theorem C87_rot_trans_refuted : forall junk r v f q, rotations r 1 f -> point2 v 3 q ->
  se2_from_rot_trans junk r v = Err RuntimeErr /\
  forall r' v' f' q', rotations r' 3 f' -> point2 v' 1 q' ->
    exists t, se2_from_rot_trans junk r' v' = Ok t /\ poses t 3 (fun i => se2_of (f' i) (q' 0%nat)).
Proof.
  intros junk r v f q Hr Hv. split; [apply (proj2 (C87_rot_trans junk r v 1 3 f q Hr Hv)); lia|].
  intros r' v' f' q' Hr' Hv'. destruct (proj1 (C87_rot_trans junk r' v' 3 1 f' q' Hr' Hv')) as (t & E & H); [right; reflexivity|].
  exists t. split; [exact E|exact H].
Qed.

(** ---- the hypotheses are met: two poses, one of batch size 1 ---- *)
Example C87_planar_example :
  let g := T [1%nat; 4%nat] (fun i => match i with [_; j] => nth j [1; 2; 0; 1] 0 | _ => 0 end) in
  let h := T [2%nat; 4%nat] (fun i => match i with [k; j] => nth j [INR k; 0; 1; 0] 0 | _ => 0 end) in
  poses g 1 (fun _ => mkSE2 1 2 0 1) /\ poses h 2 (fun i => mkSE2 (INR i) 0 1 0) /\ bcast 1 2 2 /\
  exists t, se2_compose_b (fun _ => 7) g h = Ok t /\ at_ t [1%nat; 1%nat] = 3.
Proof.
  cbv zeta. match goal with |- poses ?g _ ?f /\ poses ?h _ ?k /\ _ =>
    assert (Hg : poses g 1 f) by (split; [reflexivity|intros i [|[|[|[|j]]]] Li Lj; try lia; reflexivity]);
    assert (Hh : poses h 2 k) by (split; [reflexivity|intros i [|[|[|[|j]]]] Li Lj; try lia; reflexivity]) end.
  assert (K : bcast 1 2 2) by (unfold bcast; lia).
  split; [exact Hg|]. split; [exact Hh|]. split; [exact K|].
  destruct (se2_compose_ok (fun _ => 7) _ _ _ _ _ _ _ Hg Hh K) as (t & E & _ & H). exists t. split; [exact E|].
  rewrite H by lia. cbn. lra.
Qed.
