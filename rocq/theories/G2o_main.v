(** C84, theorems *)
From Coq Require Import Reals Lra Psatz List Arith Lia Bool ZArith String Sorted.
From Verif Require Import Geo_spec Geo3_spec Geo4_spec SE2_model SO3_model SO3_quat SO3_log SE3_model SE3_local G2o_model G2o_spec G2o_props.
Import ListNotations.
Local Open Scope R_scope.

(** Reading a 3D file: the number of vertices is one more than the largest id the file mentions, the
    vertices come in increasing order of id, each with the pose of the last line about it, the edges come
    in the order of the file with their ends, relative pose and the square roots of the diagonal of the
    information matrix; other lines are skipped. *)
Theorem C84_read : forall es ls, Forall2 line_says es ls ->
  exists num vs edges, read_3D_g2o_file ls = Ret (num, vs, edges) /\
    num = (1 + fold_right Z.max 0 (ids es))%Z /\
    StronglySorted by_id vs /\
    (forall i o, In (i, o) vs -> exists p q, last_vertex es i p q /\ is_pose p q o) /\
    (forall i p q, In (Vertex i p q) es -> exists o, In (i, o) vs) /\
    Forall2 edge_says (constraints es) edges /\
    (forall k e, nth_error edges k = Some e -> e_name e = k).
Proof.
  intros es ls F. destruct (read_all es ls F [] _ Inv_nil) as (s & E & [I1 I2 I3 I4 I5]). cbn [app] in *.
  exists (r_num s + 1)%Z, (sorted_items (r_verts s)), (r_edges s). split.
  { unfold read_3D_g2o_file. rewrite E. reflexivity. }
  split; [lia|]. split; [now apply sorted_items_sorted|]. split; [|split].
  - intros i o H. apply (proj1 (sorted_items_in _ _)) in H. apply I3 in H. destruct H as (p & q & H & ->). exists p, q. split; [exact H|].
    destruct (pose_of_says p q) as (o & _ & -> & P). exact P.
  - intros i p q H.
    assert (L : exists p q, last_vertex es i p q).
    { clear - H. induction es as [|e es IH] using rev_ind; [easy|].
      destruct (in_app_or _ _ _ H) as [H1|[H1|[]]].
      - assert (D : (exists p' q', e = Vertex i p' q') \/ forall p' q', e <> Vertex i p' q').
        { destruct e as [j p1 q1| |]; [|right; intros; discriminate|right; intros; discriminate].
          destruct (Z.eq_dec j i) as [->|Ne]; [left; now exists p1, q1|]. right. intros p' q' E. apply Ne. now injection E. }
        destruct D as [(p' & q' & ->)|D].
        + exists p', q'. apply last_vertex_snoc. now left.
        + destruct (IH H1) as (p' & q' & L). exists p', q'. apply last_vertex_snoc. right. now split.
      - exists p, q. apply last_vertex_snoc. now left. }
    destruct L as (p' & q' & L). exists (se3_from_xyz_quaternion p' q'). apply (proj2 (sorted_items_in _ _)). apply I3. now exists p', q'.
  - split; [exact I4|exact I5].
Qed.

Lemma sorted_unique {A} (l m : list (Z * A)) : StronglySorted (fun a b => (fst a < fst b)%Z) l ->
  StronglySorted (fun a b => (fst a < fst b)%Z) m -> (forall x, In x l <-> In x m) -> l = m.
Proof.
  revert m. induction l as [|a l IH]; intros m Sl Sm H.
  - destruct m as [|b m]; [reflexivity|]. exfalso. apply (H b). now left.
  - destruct m as [|b m]; [exfalso; apply (H a); now left|].
    inversion Sl as [|? ? S1 S2]; subst. inversion Sm as [|? ? T1 T2]; subst.
    rewrite Forall_forall in S2, T2.
    assert (E : a = b).
    { destruct (proj1 (H a) (or_introl eq_refl)) as [E|Ha]; [easy|].
      destruct (proj2 (H b) (or_introl eq_refl)) as [E|Hb]; [easy|].
      specialize (S2 b Hb). specialize (T2 a Ha). lia. }
    subst b. f_equal. apply IH; [easy|easy|]. intros x. split; intros Hx.
    + destruct (proj1 (H x) (or_intror Hx)) as [E|Hm]; [|exact Hm]. subst x. specialize (S2 a Hx). lia.
    + destruct (proj2 (H x) (or_intror Hx)) as [E|Hm]; [|exact Hm]. subst x. specialize (T2 a Hx). lia.
Qed.

Lemma sorted_keys_seq {A} (vs : list (Z * A)) m a : StronglySorted (fun a b => (fst a < fst b)%Z) vs ->
  (forall k, (exists o, In (k, o) vs) <-> (Z.of_nat a <= k < Z.of_nat a + Z.of_nat m)%Z) ->
  map fst vs = map Z.of_nat (seq a m).
Proof.
  revert m a. induction vs as [|[k o] vs IH]; intros m a S H.
  - destruct m as [|m]; [reflexivity|]. exfalso. destruct (proj2 (H (Z.of_nat a)) ltac:(lia)) as (o & []).
  - destruct m as [|m]; [exfalso; destruct (proj1 (H k) ltac:(exists o; now left)); lia|].
    inversion S as [|? ? S1 S2]; subst. rewrite Forall_forall in S2. cbn [map fst seq].
    assert (E : k = Z.of_nat a).
    { destruct (proj2 (H (Z.of_nat a)) ltac:(lia)) as (o' & [Ho|Ho]); [now injection Ho|].
      specialize (S2 _ Ho). cbn in S2. pose proof (proj1 (H k) ltac:(exists o; now left)). lia. }
    f_equal; [exact E|]. apply IH; [exact S1|]. intros j. split.
    + intros (o' & Ho). specialize (S2 _ Ho). cbn in S2. pose proof (proj1 (H j) ltac:(exists o'; now right)). lia.
    + intros Hj. destruct (proj2 (H j) ltac:(lia)) as (o' & [Ho|Ho]); [injection Ho; lia|now exists o'].
Qed.

(** When the vertices of a file are numbered 0 .. m-1, the pose at position k is the one of vertex k, so
    that the ends of an edge index its poses. *)
Theorem C84_indexing : forall es ls m, Forall2 line_says es ls ->
  (forall k, (exists p q, In (Vertex k p q) es) <-> (0 <= k < Z.of_nat m)%Z) ->
  (forall i j p q info, In (Constraint i j p q info) es -> (0 <= i < Z.of_nat m)%Z /\ (0 <= j < Z.of_nat m)%Z) ->
  (0 < m)%nat ->
  exists vs edges, read_3D_g2o_file ls = Ret (Z.of_nat m, vs, edges) /\ List.length vs = m /\
    (forall k i o, nth_error vs k = Some (i, o) -> i = Z.of_nat k) /\
    (forall e, In e edges -> (Z.to_nat (e_i e) < List.length vs)%nat /\ (Z.to_nat (e_j e) < List.length vs)%nat).
Proof.
  intros es ls m F V C M. destruct (C84_read es ls F) as (num & vs & edges & E & N & S & I1 & I2 & F2 & _).
  assert (K : map fst vs = map Z.of_nat (seq 0 m)).
  { apply sorted_keys_seq; [exact S|]. intros k. rewrite Z.add_0_l, <- V. split.
    - intros (o & H). destruct (I1 _ _ H) as (p & q & (a & b & Eab & _) & _). exists p, q. rewrite Eab. apply in_or_app. right. now left.
    - intros (p & q & H). now apply (I2 k p q). }
  assert (L : List.length vs = m). { rewrite <- (map_length fst), K, map_length, seq_length. reflexivity. }
  exists vs, edges. split; [|split; [exact L|split]].
  - rewrite E. do 2 f_equal. f_equal. rewrite N.
    assert (U : forall l, (forall k, In k l -> (k < Z.of_nat m)%Z) -> (0 < m)%nat -> (fold_right Z.max 0 l < Z.of_nat m)%Z).
    { clear. induction l as [|a l IH]; cbn; intros H M; [lia|].
      specialize (IH (fun k Hk => H k (or_intror Hk)) M). specialize (H a (or_introl eq_refl)). lia. }
    assert (U1 : (fold_right Z.max 0 (ids es) < Z.of_nat m)%Z).
    { apply U; [|exact M]. intros k Hk. unfold ids in Hk. apply in_flat_map in Hk. destruct Hk as (e & He & Hk).
      destruct e as [i p q|i j p q info|w]; cbn in Hk.
      - destruct Hk as [<-|[]]. apply V. now exists p, q.
      - destruct (C _ _ _ _ _ He). destruct Hk as [<-|[<-|[]]]; lia.
      - easy. }
    assert (U2 : (Z.of_nat (m - 1) <= fold_right Z.max 0 (ids es))%Z).
    { destruct (proj2 (V (Z.of_nat (m - 1))) ltac:(lia)) as (p & q & H).
      assert (Hi : In (Z.of_nat (m - 1)) (ids es)).
      { unfold ids. apply in_flat_map. exists (Vertex (Z.of_nat (m - 1)) p q). split; [exact H|]. now left. }
      revert Hi. generalize (ids es) (Z.of_nat (m - 1)). clear. induction l as [|a l IH]; cbn; intros z H; [easy|].
      destruct H as [<-|H]; [lia|]. specialize (IH z H). lia. }
    lia.
  - intros k i o H. assert (Ek : nth_error (map fst vs) k = Some i).
    { rewrite nth_error_map, H. reflexivity. }
    rewrite K, nth_error_map in Ek. destruct (nth_error (seq 0 m) k) as [j|] eqn:Ej; [|discriminate]. injection Ek as <-.
    assert (Hk : (k < m)%nat). { rewrite <- L. apply nth_error_Some. congruence. }
    apply nth_error_nth with (d := 0%nat) in Ej. rewrite seq_nth in Ej by exact Hk. lia.
  - intros e He. rewrite L.
    assert (G : exists c, In c (constraints es) /\ edge_says c e).
    { clear - F2 He. induction F2 as [|c e' cs edges S F2 IH]; [easy|]. destruct He as [->|He].
      - exists c. split; [now left|exact S].
      - destruct (IH He) as (c' & Hc & S'). exists c'. split; [now right|exact S']. }
    destruct G as (c & Hc & Sc). unfold constraints in Hc. apply filter_In in Hc. destruct Hc as [Hc _].
    destruct c as [| i j p q info|]; cbn in Sc; try easy. destruct Sc as (<- & <- & _). destruct (C _ _ _ _ _ Hc). lia.
Qed.

Definition unit_line (id : Z) : list tok :=
  TWord "VERTEX_SE3:QUAT" :: TInt id :: repeat (TInt 0) 6 ++ [TInt 1].
Definition edge_line01 (i j : Z) : list tok :=
  TWord "EDGE_SE3:QUAT" :: TInt i :: TInt j :: (repeat (TInt 0) 6 ++ [TInt 1]) ++ repeat (TInt 1) 21.
Lemma unit_says id : line_says (Vertex id zero3 (mkQ 1 0 0 0)) (unit_line id).
Proof.
  exists (repeat (TInt 0) 6 ++ [TInt 1]). split; [reflexivity|]. cbn.
  repeat (apply Forall2_cons; [right; ((exists 0%Z; now split) || (exists 1%Z; now split))|]); apply Forall2_nil.
Qed.
Lemma edge_says01 i j : line_says (Constraint i j zero3 (mkQ 1 0 0 0) (fun _ _ => 1)) (edge_line01 i j).
Proof.
  exists ((repeat (TInt 0) 6 ++ [TInt 1]) ++ repeat (TInt 1) 21). split; [reflexivity|]. cbn.
  repeat (apply Forall2_cons; [right; ((exists 0%Z; now split) || (exists 1%Z; now split))|]); apply Forall2_nil.
Qed.

(** Ids with gaps, which the format allows: the ends of an edge are ids, but the vertices are
    renumbered, so that an edge indexes the pose of another vertex, or no pose. *)
Theorem C84_indexing_refuted : exists es ls num vs edges, Forall2 line_says es ls /\
  (forall i j p q info, In (Constraint i j p q info) es ->
     (exists p q, In (Vertex i p q) es) /\ (exists p q, In (Vertex j p q) es)) /\
  read_3D_g2o_file ls = Ret (num, vs, edges) /\ num <> Z.of_nat (List.length vs) /\
  (exists e i o, In e edges /\ nth_error vs (Z.to_nat (e_j e)) = Some (i, o) /\ i <> e_j e) /\
  (exists e, In e edges /\ nth_error vs (Z.to_nat (e_j e)) = None).
Proof.
  set (es := [Vertex 0 zero3 (mkQ 1 0 0 0); Vertex 2 zero3 (mkQ 1 0 0 0); Vertex 5 zero3 (mkQ 1 0 0 0);
              Constraint 0 2 zero3 (mkQ 1 0 0 0) (fun _ _ => 1); Constraint 2 5 zero3 (mkQ 1 0 0 0) (fun _ _ => 1)]).
  set (ls := [unit_line 0; unit_line 2; unit_line 5; edge_line01 0 2; edge_line01 2 5]).
  assert (F : Forall2 line_says es ls).
  { unfold es, ls. repeat (apply Forall2_cons; [apply unit_says || apply edge_says01|]); apply Forall2_nil. }
  exists es, ls. unfold read_3D_g2o_file, ls. cbn. do 3 eexists. split; [exact F|]. split; [|split; [reflexivity|]].
  - intros i j p q info H. unfold es in *. cbn in H.
    destruct H as [H|[H|[H|[H|[H|[]]]]]]; try discriminate; injection H as <- <- <- <- <-;
    split; do 2 eexists; cbn; eauto.
  - cbn. split; [lia|]. split.
    + do 3 eexists. split; [left; reflexivity|]. cbn. split; [reflexivity|]. lia.
    + eexists. split; [right; left; reflexivity|]. reflexivity.
Qed.

(** a blank line, such as one at the end of the file, stops the reading *)
Theorem C84_blank_line_refuted : forall ls1 ls2 r, read_3D_g2o_file (ls1 ++ [] :: ls2) <> Ret r.
Proof.
  intros ls1 ls2 r. unfold read_3D_g2o_file. generalize (mkR 0 [] []).
  induction ls1 as [|l ls1 IH]; intros s; cbn [read_lines app]; [cbn; discriminate|].
  destruct (read_line s l) as [s'|]; cbn [ebind]; [apply IH|discriminate].
Qed.

(** No 2D file with an edge can be read. *)
Theorem C84_2d_refuted : forall ls i j rest, In (TWord "EDGE_SE2" :: TInt i :: TInt j :: rest) ls ->
  forall r, read_2D_g2o_file ls <> Ret r.
Proof.
  intros ls i j rest H r. unfold read_2D_g2o_file. generalize (mkR2 0 []).
  induction ls as [|l ls IH]; intros s; [easy|]. cbn [read_lines2]. destruct H as [->|H].
  - unfold read_line2. cbn [tok_at nth_error ebind]. cbn [String.eqb Ascii.eqb Bool.eqb]. cbn [tok_at nth_error ebind int_of].
    destruct (floats_of _); cbn [ebind]; [|discriminate]. destruct (pose2_of a); cbn [ebind]; discriminate.
  - destruct (read_line2 s l) as [s'|]; cbn [ebind]; [now apply IH|discriminate].
Qed.
