(** C87: SO2 and SE2 on batches: every operation is the one-item operation of
    [SE2_model], item by item, batches of size 1 being repeated. *)
From Coq Require Import Reals List Arith Bool Lia Lra.
From Verif Require Import Geo_spec SE2_model Tb_model Tb_spec Tb_props Tb_vec.
Import ListNotations.
Local Open Scope R_scope.

Lemma points2_ext : forall p b f g, points2 p b f -> (forall i, (i < b)%nat -> f i = g i) -> points2 p b g.
Proof. intros p b f g H E. eapply is2_ext; [exact H|]. intros i j Li Lj. cbv beta. rewrite E by assumption. reflexivity. Qed.
Lemma point2_ext : forall v b f g, point2 v b f -> (forall i, (i < b)%nat -> f i = g i) -> point2 v b g.
Proof. intros v b f g [C H] E. split; [exact C|]. eapply points2_ext; eauto. Qed.
Lemma holds_point2 : forall v b f, holds v CPoint2 b 2 f -> point2 v b (fun i => mkV2 (f i 0%nat) (f i 1%nat)).
Proof.
  intros v b f (C & _ & _ & H). split; [exact C|]. unfold points2. cbn [pten]. eapply is2_ext; [exact H|].
  intros i [|[|j]] Li Lj; cbn; try reflexivity; lia.
Qed.
Lemma point2_holds : forall v b f, point2 v b f -> holds v CPoint2 b 2 (fun i j => if (j =? 0)%nat then a0 (f i) else a1 (f i)).
Proof. intros v b f [C H]. split; [exact C|]. split; [reflexivity|]. split; [discriminate|exact H]. Qed.

Lemma check_ok : forall b1 b2 B p f, points2 p b2 f -> bcast b1 b2 B -> shape_check b1 p = Ok tt.
Proof.
  intros b1 b2 B p f [S _] K. unfold shape_check.
  assert (X : (match p with PTen t => (length (shp t) =? 2)%nat && (nth 1 (shp t) 0 =? 2)%nat | PVec v => (vdof v =? 2)%nat end) = true).
  { destruct p; cbn [pten] in S; unfold vdof; rewrite S; reflexivity. }
  rewrite X. unfold batch. rewrite S. cbn [nth].
  destruct (Nat.eqb_spec b2 b1), (Nat.eqb_spec b2 1), (Nat.eqb_spec b1 1); cbn; try reflexivity. unfold bcast in K. lia.
Qed.
Lemma check_bad : forall b1 b2 p f, points2 p b2 f -> (forall B, ~ bcast b1 b2 B) -> shape_check b1 p = Err ValueErr.
Proof.
  intros b1 b2 p f [S _] K. unfold shape_check.
  assert (X : (match p with PTen t => (length (shp t) =? 2)%nat && (nth 1 (shp t) 0 =? 2)%nat | PVec v => (vdof v =? 2)%nat end) = true).
  { destruct p; cbn [pten] in S; unfold vdof; rewrite S; reflexivity. }
  rewrite X. unfold batch. rewrite S. cbn [nth].
  assert (b2 <> b1 /\ b2 <> 1%nat /\ b1 <> 1%nat) as (A & A' & A'').
  { split; [|split]; intro Z; subst; [apply (K b1)|apply (K b1)|apply (K b2)]; unfold bcast; lia. }
  destruct (Nat.eqb_spec b2 b1), (Nat.eqb_spec b2 1), (Nat.eqb_spec b1 1); try contradiction. reflexivity.
Qed.

Lemma rotate_cs_ok : forall p c s b1 b2 B f cf sf, points2 p b2 f -> is1 c b1 cf -> is1 s b1 sf -> bcast b1 b2 B ->
  exists w, rotate_cs p c s = Ok w /\ point2 w B (fun i => rotate_from_cos_sin (f (pick b2 i)) (cf (pick b1 i)) (sf (pick b1 i))).
Proof.
  intros p c s b1 b2 B f cf sf Hp Hc Hs K. unfold rotate_cs.
  assert (X : (match p with PTen t => (length (shp t) =? 2)%nat && (nth 1 (shp t) 0 =? 2)%nat | PVec _ => true end) = true).
  { destruct Hp as [S _]. destruct p; cbn [pten] in S; [reflexivity|]. rewrite S; reflexivity. }
  rewrite X. cbv zeta.
  assert (Hx : is1 (col (pten p) 0) b2 (fun i => a0 (f i))) by (apply (col_is1 _ _ _ _ 0%nat Hp); lia).
  assert (Hy : is1 (col (pten p) 1) b2 (fun i => a1 (f i))) by (apply (col_is1 _ _ _ _ 1%nat Hp); lia).
  destruct (ew2_is1 Rmult _ _ _ _ _ _ _ Hc Hx K) as (ta & Ea & Ha). rewrite Ea. cbn [rbind].
  destruct (ew2_is1 Rmult _ _ _ _ _ _ _ Hs Hy K) as (tb & Eb & Hb). rewrite Eb. cbn [rbind].
  destruct (ew2_is1 Rmult _ _ _ _ _ _ _ Hs Hx K) as (td & Ed & Hd). rewrite Ed. cbn [rbind].
  destruct (ew2_is1 Rmult _ _ _ _ _ _ _ Hc Hy K) as (te & Ee & He). rewrite Ee. cbn [rbind].
  destruct (ew2_is1 Rminus _ _ _ _ _ _ _ Ha Hb (bcast_same B)) as (tx & Ex & Htx). rewrite Ex. cbn [rbind].
  destruct (ew2_is1 Rplus _ _ _ _ _ _ _ Hd He (bcast_same B)) as (ty & Ey & Hty). rewrite Ey. cbn [rbind].
  destruct (stack_is2 _ _ _ _ _ Htx Hty) as (t & Et & Ht). rewrite Et. cbn [rbind].
  destruct (construct_ok CPoint2 t B 2 _ Ht ltac:(reflexivity) ltac:(discriminate)) as (w & Ew & Hw).
  exists w. split; [exact Ew|]. eapply point2_ext; [exact (holds_point2 _ _ _ Hw)|].
  intros i Li. cbn. picks. reflexivity.
Qed.

Lemma so2_matrix_ok : forall junk g b f, rotations g b f ->
  exists m, so2_to_matrix_b junk g = Ok m /\ mats2 m b (fun i => so2_to_matrix (f i)).
Proof.
  intros junk g b f H. unfold so2_to_matrix_b. cbv zeta. unfold batch. rewrite (proj1 H). cbn [nth].
  assert (Hc : is1 (col g 0) b (fun i => co (f i))) by (apply (col_is1 _ _ _ _ 0%nat H); lia).
  assert (Hs : is1 (col g 1) b (fun i => si (f i))) by (apply (col_is1 _ _ _ _ 1%nat H); lia).
  destruct (set3_junk junk b 2 2 0 0 _ _ _ Hc (bcast_same b)) as (m1 & E1 & H1). rewrite E1. cbn [rbind].
  destruct (set3_is3 _ _ _ _ _ 0%nat 1%nat _ _ _ H1 (neg_is1 _ _ _ Hs) (bcast_same b)) as (m2 & E2 & H2). rewrite E2. cbn [rbind].
  destruct (set3_is3 _ _ _ _ _ 1%nat 0%nat _ _ _ H2 Hs (bcast_same b)) as (m3 & E3 & H3). rewrite E3. cbn [rbind].
  destruct (set3_is3 _ _ _ _ _ 1%nat 1%nat _ _ _ H3 Hc (bcast_same b)) as (m4 & E4 & H4).
  exists m4. split; [exact E4|]. eapply is3_ext; [exact H4|].
  intros i [|[|r]] [|[|c]] Li Lr Lc; try lia; cbn; picks; reflexivity.
Qed.

(** SO2.rotate and SO2.unrotate, with the Jacobians with respect to the rotation
    and the point *)
Theorem C87_rotate : forall junk g p b1 b2 B f q, rotations g b1 f -> points2 p b2 q -> bcast b1 b2 B ->
  (exists w, so2_rotate_b junk g p None = Ok (w, None) /\ point2 w B (fun i => so2_rotate (f (pick b1 i)) (q (pick b2 i))) /\
   exists j0 j1, so2_rotate_b junk g p (Some []) = Ok (w, Some [j0; j1]) /\
     cols2 j0 B (fun i => so2_rotate_Jrot (f (pick b1 i)) (q (pick b2 i))) /\
     mats2 j1 B (fun i => so2_rotate_Jpnt (f (pick b1 i)))) /\
  (exists w, so2_unrotate_b junk g p None = Ok (w, None) /\ point2 w B (fun i => so2_unrotate (f (pick b1 i)) (q (pick b2 i))) /\
   exists j0 j1, so2_unrotate_b junk g p (Some []) = Ok (w, Some [j0; j1]) /\
     cols2 j0 B (fun i => so2_unrotate_Jrot (f (pick b1 i)) (q (pick b2 i))) /\
     mats2 j1 B (fun i => so2_unrotate_Jpnt (f (pick b1 i)))).
Proof.
  intros junk g p b1 b2 B f q Hg Hp K.
  assert (Hc : is1 (col g 0) b1 (fun i => co (f i))) by (apply (col_is1 _ _ _ _ 0%nat Hg); lia).
  assert (Hs : is1 (col g 1) b1 (fun i => si (f i))) by (apply (col_is1 _ _ _ _ 1%nat Hg); lia).
  assert (CK : shape_check (batch g) p = Ok tt).
  { unfold batch. rewrite (proj1 Hg). exact (check_ok _ _ _ _ _ Hp K). }
  destruct (so2_matrix_ok junk g b1 f Hg) as (m & Em & Hm).
  split.
  - destruct (rotate_cs_ok p _ _ b1 b2 B _ _ _ Hp Hc Hs K) as (w & Ew & Hw).
    exists w. unfold so2_rotate_b. rewrite CK. cbn [rbind]. rewrite Ew. cbn [rbind jextend].
    split; [reflexivity|]. split; [exact Hw|]. destruct Hw as [_ Hw].
    assert (Wx := col_is1 _ _ _ _ 0%nat Hw ltac:(lia)). assert (Wy := col_is1 _ _ _ _ 1%nat Hw ltac:(lia)). cbn [pten] in Wx, Wy. cbv beta in Wx, Wy. cbn [Nat.eqb] in Wx, Wy.
    destruct (stack_view_is3 _ _ _ _ _ (neg_is1 _ _ _ Wy) Wx) as (j0 & E0 & H0).
    destruct (expand_is3 m b1 B 2 2 _ Hm (bcast_l _ _ _ K)) as (j1 & E1 & H1).
    assert (VB : vbatch w = B) by (destruct Hw as [Sw _]; cbn [pten] in Sw; unfold vbatch; rewrite Sw; reflexivity).
    exists j0, j1. rewrite E0. cbn [rbind]. rewrite Em. cbn [rbind]. rewrite VB, E1. cbn [rbind]. split; [reflexivity|].
    split; [eapply is3_ext; [exact H0|]; intros i [|[|r]] c Li Lr Lc; try lia; reflexivity|exact H1].
  - destruct (rotate_cs_ok p _ _ b1 b2 B _ _ _ Hp Hc (neg_is1 _ _ _ Hs) K) as (w & Ew & Hw).
    exists w. unfold so2_unrotate_b. rewrite CK. cbn [rbind]. rewrite Ew. cbn [rbind jextend].
    split; [reflexivity|]. split; [exact Hw|]. destruct Hw as [_ Hw].
    assert (Wx := col_is1 _ _ _ _ 0%nat Hw ltac:(lia)). assert (Wy := col_is1 _ _ _ _ 1%nat Hw ltac:(lia)). cbn [pten] in Wx, Wy. cbv beta in Wx, Wy. cbn [Nat.eqb] in Wx, Wy.
    destruct (stack_view_is3 _ _ _ _ _ Wy (neg_is1 _ _ _ Wx)) as (j0 & E0 & H0).
    destruct (expand_is3 (trans21 m) b1 B 2 2 _ (trans_is3 _ _ _ _ _ Hm) (bcast_l _ _ _ K)) as (j1 & E1 & H1).
    assert (VB : vbatch w = B) by (destruct Hw as [Sw _]; cbn [pten] in Sw; unfold vbatch; rewrite Sw; reflexivity).
    exists j0, j1. rewrite E0. cbn [rbind]. rewrite Em. cbn [rbind]. rewrite VB, E1. cbn [rbind]. split; [reflexivity|].
    split; [eapply is3_ext; [exact H0|]; intros i [|[|r]] c Li Lr Lc; try lia; reflexivity|].
    eapply is3_ext; [exact H1|]. intros i [|[|r]] [|[|c]] Li Lr Lc; try lia; reflexivity.
Qed.

(** batches that do not broadcast, and points that are not planar, are refused
    by rotate, unrotate, transform_to and transform_from before anything is computed *)
Theorem C87_point_checks : forall junk g b1 k p J, shp g = [b1; k] ->
  (exists b2 f, points2 p b2 f /\ b1 <> b2 /\ b1 <> 1%nat /\ b2 <> 1%nat) \/
  (exists t, p = PTen t /\ ~ (exists b, shp t = [b; 2%nat])) \/
  (exists v b d, p = PVec v /\ shp (tn v) = [b; d] /\ d <> 2%nat) ->
  so2_rotate_b junk g p J = Err ValueErr /\ so2_unrotate_b junk g p J = Err ValueErr /\
  se2_transform_to_b g p J = Err ValueErr /\ se2_transform_from_b g p J = Err ValueErr.
Proof.
  intros junk g b1 k p J Sg H.
  assert (C : shape_check (batch g) p = Err ValueErr).
  { unfold batch. rewrite Sg. cbn [nth]. destruct H as [(b2 & f & Hp & N & N' & N'')|[(t & -> & N)|(v & b & d & -> & Sv & N)]].
    - apply (check_bad b1 b2 p f Hp). unfold bcast. intros; lia.
    - unfold shape_check. destruct (shp t) as [|x [|y [|z l]]] eqn:S; cbn [length Nat.eqb andb nth]; try reflexivity.
      destruct (Nat.eqb_spec y 2); [|reflexivity]. exfalso. apply N. exists x. subst; reflexivity.
    - unfold shape_check, vdof. rewrite Sv. cbn [nth]. destruct (Nat.eqb_spec d 2); [congruence|reflexivity]. }
  unfold so2_rotate_b, so2_unrotate_b, se2_transform_to_b, se2_transform_from_b. rewrite C. repeat split; reflexivity.
Qed.

(** SE2.transform_to and SE2.transform_from, with their Jacobians *)
Theorem C87_transform : forall g p b1 b2 B f q, poses g b1 f -> points2 p b2 q -> bcast b1 b2 B ->
  (exists w, se2_transform_to_b g p None = Ok (w, None) /\ point2 w B (fun i => se2_transform_to (f (pick b1 i)) (q (pick b2 i))) /\
   ((1 <= b1)%nat -> (1 <= b2)%nat -> exists jg jp, se2_transform_to_b g p (Some []) = Ok (w, Some [jg; jp]) /\
     mats23 jg B (fun i => se2_transform_to_Jg (f (pick b1 i)) (q (pick b2 i))) /\
     mats2 jp B (fun i => se2_transform_to_Jpnt (f (pick b1 i))))) /\
  (exists w, se2_transform_from_b g p None = Ok (w, None) /\ point2 w B (fun i => se2_transform_from (f (pick b1 i)) (q (pick b2 i))) /\
   ((1 <= b1)%nat -> (1 <= b2)%nat -> exists jg jp, se2_transform_from_b g p (Some []) = Ok (w, Some [jg; jp]) /\
     mats23 jg B (fun i => se2_transform_from_Jg (f (pick b1 i)) (q (pick b2 i))) /\
     mats2 jp B (fun i => se2_transform_from_Jpnt (f (pick b1 i))))).
Proof.
  intros g p b1 b2 B f q Hg Hp K.
  assert (Hc : is1 (col g 2) b1 (fun i => pc (f i))) by (apply (col_is1 _ _ _ _ 2%nat Hg); lia).
  assert (Hs : is1 (col g 3) b1 (fun i => ps (f i))) by (apply (col_is1 _ _ _ _ 3%nat Hg); lia).
  assert (Ht := slice_is2 _ _ _ _ 0%nat 2%nat Hg ltac:(lia)). cbv beta in Ht.
  assert (CK : shape_check (batch g) p = Ok tt).
  { unfold batch. rewrite (proj1 Hg). exact (check_ok _ _ _ _ _ Hp K). }
  assert (BM : (1 <= b1)%nat -> (1 <= b2)%nat -> Nat.max (batch g) (batch (pten p)) = B).
  { intros. unfold batch. rewrite (proj1 Hg), (proj1 Hp). cbn [nth]. apply (bcast_max _ _ _ K); assumption. }
  assert (K1 := bcast_l _ _ _ K). assert (KB := bcast_same B).
  split.
  - destruct (ew2_is2 Rminus _ _ _ _ _ _ _ _ _ _ Hp Ht (bcast_sym _ _ _ K) (bcast_same 2)) as (temp & Etp & Htp).
    assert (Hq : points2 (PTen temp) B (fun i => mkV2 (a0 (q (pick b2 i)) - px (f (pick b1 i))) (a1 (q (pick b2 i)) - py (f (pick b1 i))))).
    { eapply is2_ext; [exact Htp|]. intros i [|[|j]] Li Lj; try lia; reflexivity. }
    destruct (rotate_cs_ok (PTen temp) _ _ b1 B B _ _ _ Hq Hc (neg_is1 _ _ _ Hs) K1) as (w & Ew & Hw).
    assert (Hw' : point2 w B (fun i => se2_transform_to (f (pick b1 i)) (q (pick b2 i)))).
    { eapply point2_ext; [exact Hw|]. intros i Li. cbv beta. picks. reflexivity. }
    clear Hw. exists w. unfold se2_transform_to_b. rewrite CK. cbn [rbind]. cbv zeta. rewrite Etp. cbn [rbind]. rewrite Ew. cbn [rbind jextend].
    split; [reflexivity|]. split; [exact Hw'|]. intros L1 L2. rewrite (BM L1 L2).
    destruct Hw' as [_ Hw]. unfold points2 in Hw.
    assert (Wx := col_is1 _ _ _ _ 0%nat Hw ltac:(lia)). assert (Wy := col_is1 _ _ _ _ 1%nat Hw ltac:(lia)). cbn [pten] in Wx, Wy. cbv beta in Wx, Wy. cbn [Nat.eqb] in Wx, Wy.
    assert (G1 := fill3_is3 _ _ _ _ _ 1%nat 1%nat (-1) (fill3_is3 _ _ _ _ _ 0%nat 0%nat (-1) (zeros_is3 B 2 3))).
    destruct (set3_is3 _ _ _ _ _ 0%nat 2%nat _ _ _ G1 Wy KB) as (g2 & Eg2 & Hg2). rewrite Eg2. cbn [rbind].
    destruct (set3_is3 _ _ _ _ _ 1%nat 2%nat _ _ _ Hg2 (neg_is1 _ _ _ Wx) KB) as (g3 & Eg3 & Hg3). rewrite Eg3. cbn [rbind].
    destruct (set3_is3 _ _ _ _ _ 0%nat 0%nat _ _ _ (zeros_is3 B 2 2) Hc K1) as (p1 & Ep1 & Hp1). rewrite Ep1. cbn [rbind].
    destruct (set3_is3 _ _ _ _ _ 0%nat 1%nat _ _ _ Hp1 Hs K1) as (p2 & Ep2 & Hp2). rewrite Ep2. cbn [rbind].
    destruct (set3_is3 _ _ _ _ _ 1%nat 0%nat _ _ _ Hp2 (neg_is1 _ _ _ Hs) K1) as (p3 & Ep3 & Hp3). rewrite Ep3. cbn [rbind].
    destruct (set3_is3 _ _ _ _ _ 1%nat 1%nat _ _ _ Hp3 Hc K1) as (p4 & Ep4 & Hp4). rewrite Ep4. cbn [rbind].
    exists g3, p4. split; [reflexivity|]. split.
    + eapply is3_ext; [exact Hg3|]. intros i [|[|r]] [|[|[|c]]] Li Lr Lc; try lia; cbn; picks; reflexivity.
    + eapply is3_ext; [exact Hp4|]. intros i [|[|r]] [|[|c]] Li Lr Lc; try lia; reflexivity.
  - destruct (rotate_cs_ok p _ _ b1 b2 B _ _ _ Hp Hc Hs K) as (temp & Etp & Htp).
    destruct (ew2_is2 Rplus _ _ _ _ _ _ _ _ _ _ (proj2 Htp) Ht (bcast_r _ _ _ (bcast_sym _ _ _ K)) (bcast_same 2)) as (t & Et & Hti).
    destruct (construct_ok CPoint2 t B 2 _ Hti ltac:(reflexivity) ltac:(discriminate)) as (w & Ew & Hw).
    assert (Hw' : point2 w B (fun i => se2_transform_from (f (pick b1 i)) (q (pick b2 i)))).
    { eapply point2_ext; [exact (holds_point2 _ _ _ Hw)|]. intros i Li. cbn. picks. reflexivity. }
    clear Hw. exists w. unfold se2_transform_from_b. rewrite CK. cbn [rbind]. cbv zeta. rewrite Etp. cbn [rbind]. cbn [pten] in Et. rewrite Et. cbn [rbind]. rewrite Ew. cbn [rbind jextend].
    split; [reflexivity|]. split; [exact Hw'|]. intros L1 L2. rewrite (BM L1 L2).
    destruct Htp as [_ Hm]. unfold points2 in Hm.
    assert (Wx := col_is1 _ _ _ _ 0%nat Hm ltac:(lia)). assert (Wy := col_is1 _ _ _ _ 1%nat Hm ltac:(lia)). cbn [pten] in Wx, Wy. cbv beta in Wx, Wy. cbn [Nat.eqb] in Wx, Wy.
    destruct (set3_is3 _ _ _ _ _ 0%nat 0%nat _ _ _ (zeros_is3 B 2 3) Hc K1) as (g1 & Eg1 & Hg1). rewrite Eg1. cbn [rbind].
    destruct (set3_is3 _ _ _ _ _ 0%nat 1%nat _ _ _ Hg1 (neg_is1 _ _ _ Hs) K1) as (g2 & Eg2 & Hg2). rewrite Eg2. cbn [rbind].
    destruct (set3_is3 _ _ _ _ _ 1%nat 0%nat _ _ _ Hg2 Hs K1) as (g3 & Eg3 & Hg3). rewrite Eg3. cbn [rbind].
    destruct (set3_is3 _ _ _ _ _ 1%nat 1%nat _ _ _ Hg3 Hc K1) as (g4 & Eg4 & Hg4). rewrite Eg4. cbn [rbind].
    destruct (set3_is3 _ _ _ _ _ 0%nat 2%nat _ _ _ Hg4 (neg_is1 _ _ _ Wy) KB) as (g5 & Eg5 & Hg5). rewrite Eg5. cbn [rbind].
    destruct (set3_is3 _ _ _ _ _ 1%nat 2%nat _ _ _ Hg5 Wx KB) as (g6 & Eg6 & Hg6). rewrite Eg6. cbn [rbind].
    destruct (set3_is3 _ _ _ _ _ 0%nat 0%nat _ _ _ (zeros_is3 B 2 2) Hc K1) as (p1 & Ep1 & Hp1). rewrite Ep1. cbn [rbind].
    destruct (set3_is3 _ _ _ _ _ 0%nat 1%nat _ _ _ Hp1 (neg_is1 _ _ _ Hs) K1) as (p2 & Ep2 & Hp2). rewrite Ep2. cbn [rbind].
    destruct (set3_is3 _ _ _ _ _ 1%nat 0%nat _ _ _ Hp2 Hs K1) as (p3 & Ep3 & Hp3). rewrite Ep3. cbn [rbind].
    destruct (set3_is3 _ _ _ _ _ 1%nat 1%nat _ _ _ Hp3 Hc K1) as (p4 & Ep4 & Hp4). rewrite Ep4. cbn [rbind].
    exists g6, p4. split; [reflexivity|]. split.
    + eapply is3_ext; [exact Hg6|]. intros i [|[|r]] [|[|[|c]]] Li Lr Lc; try lia; cbn; picks; reflexivity.
    + eapply is3_ext; [exact Hp4|]. intros i [|[|r]] [|[|c]] Li Lr Lc; try lia; reflexivity.
Qed.

(** with an empty batch of points and one pose, the point is returned but asking
    for the Jacobians raises *)
Theorem C87_empty_batch_refuted : forall g p f q, poses g 1 f -> points2 p 0 q ->
  (exists w, se2_transform_to_b g p None = Ok (w, None) /\ vbatch w = 0%nat) /\
  se2_transform_to_b g p (Some []) = Err RuntimeErr.
Proof.
  intros g p f q Hg Hp.
  destruct (C87_transform g p 1 0 0 f q Hg Hp) as ((w & E & [Cw Hw] & _) & _); [unfold bcast; lia|].
  destruct Hw as [Sw Hw]. cbn [pten] in Sw.
  split; [exists w; split; [exact E|]; unfold vbatch; rewrite Sw; reflexivity|].
  revert E. unfold se2_transform_to_b. destruct (shape_check _ p); cbn [rbind]; [|discriminate]. cbv zeta.
  destruct (ew2 _ _ _) as [t|]; cbn [rbind]; [|discriminate]. destruct (rotate_cs _ _ _) as [r|]; cbn [rbind]; [|discriminate].
  cbn [jextend]. intro E. injection E as ->. unfold batch. rewrite (proj1 Hg), (proj1 Hp). cbn [nth Nat.max].
  unfold set3. cbn [fill3 shp new_zeros col firstn]. rewrite Sw. reflexivity.
Qed.
