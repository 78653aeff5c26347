(** C84, theorems: the written file read back, datasets and their batches *)
From Coq Require Import Reals Lra Psatz List Arith Lia Bool ZArith String Sorted.
From Verif Require Import Geo_spec Geo3_spec Geo4_spec SE2_model SO3_model SO3_quat SO3_log SO3_group SE3_model SE3_group SE3_local
  G2o_model G2o_spec G2o_props G2o_main.
Import ListNotations.
Local Open Scope R_scope.

(** a position and a quaternion say one pose *)
Lemma is_pose_from p q o : is_pose p q o -> o = se3_from_xyz_quaternion p q.
Proof.
  intros H. destruct (pose_of_says p q) as (o' & _ & E & H'). rewrite <- E. clear E.
  destruct H as [[N ->]|[N (k & -> & Rk & A)]], H' as [[N' ->]|[N' (k' & -> & Rk' & A')]]; try easy.
  f_equal. assert (X : forall x, add3 (rp k) (app3 (rr k) x) = add3 (rp k') (app3 (rr k') x)).
  { intros x. specialize (A x). rewrite A' in A. unfold qscal, qpure in A. cbn [qw qx qy qz] in A. injection A as A1 A2 A3.
    apply Rmult_eq_reg_l in A1; [|exact N]. apply Rmult_eq_reg_l in A2; [|exact N]. apply Rmult_eq_reg_l in A3; [|exact N].
    apply V3_ext; now symmetry. }
  destruct k as [[a00 a01 a02 a10 a11 a12 a20 a21 a22] [p0 p1 p2]], k' as [[c00 c01 c02 c10 c11 c12 c20 c21 c22] [r0 r1 r2]].
  pose proof (X (mkV3 0 0 0)) as X0. pose proof (X (mkV3 1 0 0)) as X1. pose proof (X (mkV3 0 1 0)) as X2. pose proof (X (mkV3 0 0 1)) as X3.
  unfold add3, app3 in X0, X1, X2, X3. cbn [rr rp b0 b1 b2 d00 d01 d02 d10 d11 d12 d20 d21 d22] in *.
  injection X0 as X01 X02 X03. injection X1 as X11 X12 X13. injection X2 as X21 X22 X23. injection X3 as X31 X32 X33.
  f_equal; [f_equal; lra|f_equal; lra].
Qed.
Lemma root_unique x o w : root_of (x * x) o -> w = Rabs x -> o = Some w.
Proof.
  intros H ->. destruct H as [[H _]|(v & -> & Hv & E)].
  - pose proof (Rle_0_sqr x). unfold Rsqr in *. lra.
  - f_equal. rewrite <- (sqrt_Rsqr_abs x), <- (sqrt_Rsqr v Hv). unfold Rsqr. now rewrite E.
Qed.

Lemma quat_toks_says d g q : so3_to_quaternion d (rr g) = Some q ->
  Forall2 writes (quat_toks d g) (xyzw (rp g) q).
Proof.
  intros E. unfold quat_toks, xyzw. rewrite E. repeat (apply Forall2_cons; [now left|]). apply Forall2_nil.
Qed.
Definition diag (w : list R) (r c : nat) : R := if (r =? c)%nat then nth r w 0 * nth r w 0 else 0.
Lemma info_toks_says w : List.length w = 6%nat -> exists ts, info_toks w = Ret ts /\ Forall2 writes ts (upper (diag w)).
Proof.
  intros L. destruct w as [|a [|b [|c [|d [|e [|f [|g w]]]]]]]; try discriminate L. eexists. split; [reflexivity|].
  unfold upper. cbn [flat_map seq Nat.sub map app diag Nat.eqb nth].
  repeat (apply Forall2_cons; [((left; reflexivity) || (right; exists 0%Z; now split))|]). apply Forall2_nil.
Qed.

Lemma mapE_says {A} (f : A -> exc (list tok)) (l : list A) (P : A -> entry -> Prop) :
  (forall x, In x l -> exists e t, f x = Ret t /\ line_says e t /\ P x e) ->
  exists ts es, mapE f l = Ret ts /\ Forall2 line_says es ts /\ Forall2 P l es.
Proof.
  induction l as [|x l IH]; intros H; [exists [], []; repeat constructor|].
  destruct (H x (or_introl eq_refl)) as (e & t & E & L & Px).
  destruct (IH (fun y Hy => H y (or_intror Hy))) as (ts & es & E2 & L2 & P2).
  exists (t :: ts), (e :: es). cbn [mapE]. rewrite E. cbn [ebind]. rewrite E2. repeat constructor; easy.
Qed.

Definition edge_entry d n (e : DEdge Rig (list R)) (c : entry) : Prop :=
  exists g q, nth_error (de_rel e) n = Some g /\ rigid3 g /\ so3_to_quaternion d (rr g) = Some q /\
    List.length (first_row e) = 6%nat /\
    c = Constraint (de_i e) (de_j e) (rp g) q (diag (first_row e)).
Definition vertex_entry d n (ip : nat * list Rig) (c : entry) : Prop :=
  exists g q, nth_error (snd ip) n = Some g /\ rigid3 g /\ so3_to_quaternion d (rr g) = Some q /\
    c = Vertex (Z.of_nat (fst ip)) (rp g) q.

Lemma combine_seq_in {A} (l : list A) k x a : In (k, x) (combine (seq a (List.length l)) l) <-> (a <= k)%nat /\ nth_error l (k - a) = Some x.
Proof.
  revert a. induction l as [|y l IH]; intros a; cbn [List.length seq combine].
  - split; [easy|]. intros [_ H]. now destruct (k - a)%nat.
  - cbn [In]. rewrite IH. split.
    + intros [E|[H1 H2]].
      * injection E as -> ->. rewrite Nat.sub_diag. now split.
      * split; [lia|]. replace (k - a)%nat with (S (k - S a)) by lia. exact H2.
    + intros [H1 H2]. destruct (Nat.eq_dec k a) as [->|Ne].
      * left. rewrite Nat.sub_diag in H2. injection H2 as ->. reflexivity.
      * right. split; [lia|]. replace (k - a)%nat with (S (k - S a)) in H2 by lia. exact H2.
Qed.

Lemma from_quat d g q : rigid3 g -> so3_to_quaternion d (rr g) = Some q -> se3_from_xyz_quaternion (rp g) q = Some g.
Proof.
  intros Hr Hq. destruct (C37_xyz_quaternion d zero3 q g) as (_ & _ & K).
  apply (K Hr (rp g) q). unfold se3_to_xyz_quaternion. rewrite Hq. reflexivity.
Qed.

Lemma Forall2_In_l {A B} (P : A -> B -> Prop) l m x : Forall2 P l m -> In x l -> exists y, In y m /\ P x y.
Proof.
  induction 1 as [|a b l m Pab F IH]; intros H; [easy|]. destruct H as [->|H].
  - exists b. split; [now left|exact Pab].
  - destruct (IH H) as (y & Hy & Py). exists y. split; [now right|exact Py].
Qed.
Lemma Forall2_In_r {A B} (P : A -> B -> Prop) l m y : Forall2 P l m -> In y m -> exists x, In x l /\ P x y.
Proof.
  induction 1 as [|a b l m Pab F IH]; intros H; [easy|]. destruct H as [->|H].
  - exists a. split; [now left|exact Pab].
  - destruct (IH H) as (x & Hx & Px). exists x. split; [now right|exact Px].
Qed.

(** Writing graph n of a dataset and reading the file back gives its poses in order, and its edges with
    the same ends and relative pose; the weight read back is the absolute value of the first row of the
    weight of the edge. The number of vertices is right when the edges join poses of the dataset. *)
Theorem C84_round_trip : forall d ds n, writable d ds n ->
  exists ls num vs edges, write_3D_g2o d ds n = Ret ls /\ read_3D_g2o_file ls = Ret (num, vs, edges) /\
    vs = map (fun ip => (Z.of_nat (fst ip), nth_error (snd ip) n)) (combine (seq 0 (List.length (ds_poses ds))) (ds_poses ds)) /\
    Forall2 (edge_back n) (ds_edges ds) edges /\
    (ds_poses ds <> [] ->
     (forall e, In e (ds_edges ds) -> (de_i e < Z.of_nat (List.length (ds_poses ds)))%Z /\ (de_j e < Z.of_nat (List.length (ds_poses ds)))%Z) ->
     num = Z.of_nat (List.length (ds_poses ds))).
Proof.
  intros d ds n [Wp We].
  destruct (mapE_says (edge_line d n) (ds_edges ds) (edge_entry d n)) as (t1 & e1 & E1 & L1 & P1).
  { intros e He. destruct (We e He) as ((g & Eg & Rg & Qg) & (w & rows & Ew & Lw)).
    destruct (so3_to_quaternion d (rr g)) as [q|] eqn:Eq; [|easy].
    destruct (info_toks_says w Lw) as (ts & Ei & Li).
    exists (Constraint (de_i e) (de_j e) (rp g) q (diag (first_row e))).
    exists (TWord "EDGE_SE3:QUAT" :: TInt (de_i e) :: TInt (de_j e) :: quat_toks d g ++ ts).
    unfold edge_line. rewrite Eg, Ew, Ei. split; [reflexivity|]. split.
    - cbn [line_says]. eexists. split; [reflexivity|]. apply Forall2_app; [now apply quat_toks_says|].
      unfold first_row. rewrite Ew. exact Li.
    - exists g, q. unfold first_row. rewrite Ew. split; [exact Eg|]. split; [exact Rg|]. split; [exact Eq|]. split; [exact Lw|reflexivity]. }
  destruct (mapE_says (vertex_line d n) (combine (seq 0 (List.length (ds_poses ds))) (ds_poses ds)) (vertex_entry d n)) as (t2 & e2 & E2 & L2 & P2).
  { intros [k p] Hp. assert (Hp' : In p (ds_poses ds)) by (eapply in_combine_r; exact Hp).
    destruct (Wp p Hp') as (g & Eg & Rg & Qg). destruct (so3_to_quaternion d (rr g)) as [q|] eqn:Eq; [|easy].
    exists (Vertex (Z.of_nat k) (rp g) q), (TWord "VERTEX_SE3:QUAT" :: TInt (Z.of_nat k) :: quat_toks d g).
    unfold vertex_line. cbn [snd fst]. rewrite Eg. split; [reflexivity|]. split.
    - cbn [line_says]. eexists. split; [reflexivity|]. now apply quat_toks_says.
    - exists g, q. split; [exact Eg|]. split; [exact Rg|]. split; [exact Eq|reflexivity]. }
  destruct (C84_read (e1 ++ e2) (t1 ++ t2)) as (num & vs & edges & Er & Nn & Sv & I1 & I2 & Fe & _); [now apply Forall2_app|].
  assert (E1v : forall e, In e e1 -> exists i j p q info, e = Constraint i j p q info).
  { intros e He. destruct (Forall2_In_r _ _ _ _ P1 He) as (x & _ & (g & q & _ & _ & _ & _ & ->)). repeat eexists. }
  assert (E2v : forall e, In e e2 -> exists i p q, e = Vertex i p q).
  { intros e He. destruct (Forall2_In_r _ _ _ _ P2 He) as (x & _ & (g & q & _ & _ & _ & ->)). repeat eexists. }
  assert (Ec : constraints (e1 ++ e2) = e1).
  { unfold constraints. rewrite filter_app.
    assert (A1 : filter (fun e => match e with Constraint _ _ _ _ _ => true | _ => false end) e1 = e1).
    { clear - E1v. induction e1 as [|a l IH]; [reflexivity|]. cbn [filter].
      destruct (E1v a (or_introl eq_refl)) as (i & j & p & q & info & ->). rewrite IH; [reflexivity|]. intros e He. apply E1v. now right. }
    assert (A2 : filter (fun e => match e with Constraint _ _ _ _ _ => true | _ => false end) e2 = []).
    { clear - E2v. induction e2 as [|a l IH]; [reflexivity|]. cbn [filter].
      destruct (E2v a (or_introl eq_refl)) as (i & p & q & ->). apply IH. intros e He. apply E2v. now right. }
    rewrite A1, A2. apply app_nil_r. }
  rewrite Ec in Fe.
  set (cs := combine (seq 0 (List.length (ds_poses ds))) (ds_poses ds)) in *.
  exists (t1 ++ t2), num, vs, edges. split; [unfold write_3D_g2o; rewrite E1; cbn [ebind]; fold cs; rewrite E2; reflexivity|].
  split; [exact Er|]. split; [|split].
  - apply sorted_unique; [exact Sv| |].
    + unfold cs. clear. generalize (ds_poses ds) as l, 0%nat as a.
      induction l as [|p l IH]; intros a; cbn [List.length seq combine map]; [constructor|]. constructor; [apply IH|].
      rewrite Forall_forall. intros [k o] H. apply in_map_iff in H. destruct H as ([k' p'] & E & H). injection E as <- _.
      apply combine_seq_in in H. cbn. lia.
    + intros [k o]. split.
      * intros H. destruct (I1 k o H) as (p & q & (a & b & Eab & _) & IP).
        assert (Hv : In (Vertex k p q) e2).
        { assert (Hv : In (Vertex k p q) (e1 ++ e2)) by (rewrite Eab; apply in_or_app; right; now left).
          apply in_app_or in Hv. destruct Hv as [Hv|Hv]; [|exact Hv]. destruct (E1v _ Hv) as (? & ? & ? & ? & ? & ?). discriminate. }
        destruct (Forall2_In_r _ _ _ _ P2 Hv) as ([k' p'] & Hk & (g & q' & Eg & Rg & Qg & Ev)). injection Ev as -> -> ->.
        apply in_map_iff. exists (k', p'). split; [|exact Hk]. cbn [fst snd] in *. f_equal. rewrite Eg.
        rewrite (is_pose_from _ _ _ IP). symmetry. now apply from_quat with d.
      * intros H. apply in_map_iff in H. destruct H as ([k' p'] & E & Hk). cbn [fst snd] in E. injection E as <- <-.
        destruct (Forall2_In_l _ _ _ _ P2 Hk) as (e & He & (g & q & Eg & Rg & Qg & ->)). cbn [fst snd] in *.
        destruct (I2 (Z.of_nat k') (rp g) q) as (o & Ho); [apply in_or_app; now right|].
        destruct (I1 _ _ Ho) as (p & q2 & (a & b & Eab & _) & IP).
        assert (Hv : In (Vertex (Z.of_nat k') p q2) e2).
        { assert (Hv : In (Vertex (Z.of_nat k') p q2) (e1 ++ e2)) by (rewrite Eab; apply in_or_app; right; now left).
          apply in_app_or in Hv. destruct Hv as [Hv|Hv]; [|exact Hv]. destruct (E1v _ Hv) as (? & ? & ? & ? & ? & ?). discriminate. }
        destruct (Forall2_In_r _ _ _ _ P2 Hv) as ([k2 p2] & Hk2 & (g2 & q3 & Eg2 & Rg2 & Qg2 & Ev)). cbn [fst snd] in *.
        injection Ev as Ek -> ->. apply Nat2Z.inj in Ek. subst k2.
        unfold cs in Hk, Hk2. apply combine_seq_in in Hk. apply combine_seq_in in Hk2. destruct Hk as [_ Hk], Hk2 as [_ Hk2].
        rewrite Hk in Hk2. injection Hk2 as <-. rewrite Eg in *. injection Eg2 as <-.
        rewrite (is_pose_from _ _ _ IP) in Ho. rewrite (from_quat d g q3 Rg Qg2) in Ho. exact Ho.
  - clear - P1 Fe. revert edges Fe. induction P1 as [|e c es cs Pc P1 IH]; intros edges Fe; inversion Fe as [|? e' ? es' S F]; subst; [constructor|].
    constructor; [|now apply IH]. destruct Pc as (g & q & Eg & Rg & Qg & L6 & ->). cbn [edge_says] in S.
    destruct S as (S1 & S2 & S3 & S4 & S5). unfold edge_back. split; [exact S1|]. split; [exact S2|]. split.
    + rewrite Eg, (is_pose_from _ _ _ S3). now apply from_quat with d.
    + apply nth_ext with (d := None) (d' := None); [rewrite map_length; congruence|]. intros k Hk. rewrite S4 in Hk.
      specialize (S5 k Hk). unfold diag in S5. rewrite Nat.eqb_refl in S5.
      rewrite (nth_indep (map _ _) None (Some (Rabs 0))) by (rewrite map_length; lia).
      rewrite map_nth with (f := fun w => Some (Rabs w)). now apply root_unique with (nth k (first_row e) 0).
  - intros NE Hi. rewrite Nn. unfold ids. rewrite flat_map_app. fold (ids e1). fold (ids e2).
    set (m := List.length (ds_poses ds)) in *.
    assert (Up : forall k, In k (ids e1 ++ ids e2) -> (k < Z.of_nat m)%Z).
    { intros k Hk. apply in_app_or in Hk. destruct Hk as [Hk|Hk]; unfold ids in Hk; apply in_flat_map in Hk; destruct Hk as (e & He & Hk).
      - destruct (Forall2_In_r _ _ _ _ P1 He) as (x & Hx & (g & q & _ & _ & _ & _ & ->)). destruct (Hi x Hx). cbn in Hk.
        destruct Hk as [<-|[<-|[]]]; assumption.
      - destruct (Forall2_In_r _ _ _ _ P2 He) as ([k' p'] & Hx & (g & q & _ & _ & _ & ->)). cbn in Hk. destruct Hk as [<-|[]].
        apply in_combine_l in Hx. apply in_seq in Hx. lia. }
    assert (M : (0 < m)%nat) by (unfold m; destruct (ds_poses ds); [easy|cbn; lia]).
    assert (Lo : In (Z.of_nat (m - 1)) (ids e1 ++ ids e2)).
    { destruct (nth_error (ds_poses ds) (m - 1)) as [p|] eqn:Ep; [|apply nth_error_None in Ep; lia].
      assert (Hc : In ((m - 1)%nat, p) cs) by (apply combine_seq_in; split; [lia|]; now rewrite Nat.sub_0_r).
      destruct (Forall2_In_l _ _ _ _ P2 Hc) as (e & He & (g & q & _ & _ & _ & ->)). apply in_or_app. right.
      unfold ids. apply in_flat_map. eexists. split; [exact He|]. now left. }
    revert Up Lo. generalize (ids e1 ++ ids e2). clear - M. intros l Up Lo.
    assert (A : (fold_right Z.max 0 l < Z.of_nat m)%Z).
    { clear Lo. induction l as [|a l IH]; cbn; [lia|]. specialize (IH (fun k Hk => Up k (or_intror Hk))). specialize (Up a (or_introl eq_refl)). lia. }
    assert (B : (Z.of_nat (m - 1) <= fold_right Z.max 0 l)%Z).
    { clear Up A. revert Lo. generalize (Z.of_nat (m - 1)). clear. induction l as [|a l IH]; cbn; intros z H; [easy|].
      destruct H as [<-|H]; [lia|]. specialize (IH z H). lia. }
    lia.
Qed.
