(** C84, lemmas *)
From Coq Require Import Reals Lra Psatz List Arith Lia Bool ZArith String Sorted Permutation.
From Verif Require Import Geo_spec Geo3_spec Geo4_spec SE2_model SO3_model SO3_quat SO3_log SE3_model SE3_local G2o_model G2o_spec.
Import ListNotations.
Local Open Scope R_scope.

(** the dictionary *)
Lemma dict_set_in {A} k (x : A) d : NoDup (map fst d) ->
  NoDup (map fst (dict_set k x d)) /\
  (forall i y, In (i, y) (dict_set k x d) <-> (i = k /\ y = x) \/ (i <> k /\ In (i, y) d)).
Proof.
  induction d as [|[k' z] d IH]; intros N; cbn [dict_set map fst].
  - split; [repeat constructor; easy|]. intros i y. cbn. split.
    + intros [E|[]]. injection E as -> ->. now left.
    + intros [[-> ->]|[_ []]]. now left.
  - inversion N as [|? ? N1 N2]; subst. destruct (IH N2) as [D1 D2]. destruct (Z.eqb_spec k k') as [E|E].
    + subst k'. cbn [map fst]. split; [now constructor|]. intros i y. cbn. split.
      * intros [E|H]; [injection E as -> ->; now left|]. right. split; [|now right].
        intros ->. apply N1. now apply (in_map fst) in H.
      * intros [[-> ->]|[Ne [E|H]]]; [now left| |now right]. injection E as -> ->. easy.
    + cbn [map fst]. split.
      * constructor; [|easy]. intros H. apply in_map_iff in H. destruct H as ([i y] & Ei & Hi). cbn in Ei. subst i.
        apply D2 in Hi. destruct Hi as [[Ek _]|[_ H]]; [now apply E|]. apply N1. now apply (in_map fst) in H.
      * intros i y. cbn. rewrite D2. split.
        -- intros [Ei|[H|[H1 H2]]]; [injection Ei as -> ->; right; split; [congruence|now left]|now left|right; split; [easy|now right]].
        -- intros [H|[Ne [Ei|H]]]; [right; now left|now left|right; right; now split].
Qed.

Lemma insert_key_in {A} (p q : Z * A) l : In q (insert_key p l) <-> q = p \/ In q l.
Proof.
  induction l as [|x l IH]; cbn; [intuition|]. destruct (fst p <? fst x)%Z; cbn; [intuition|]. rewrite IH. intuition.
Qed.
Lemma sorted_items_in {A} (l : list (Z * A)) q : In q (sorted_items l) <-> In q l.
Proof. induction l as [|p l IH]; cbn; [easy|]. rewrite insert_key_in, IH. intuition. Qed.
Lemma insert_key_sorted {A} (p : Z * A) l : StronglySorted (fun a b => (fst a < fst b)%Z) l -> (forall q, In q l -> fst q <> fst p) ->
  StronglySorted (fun a b => (fst a < fst b)%Z) (insert_key p l).
Proof.
  induction l as [|x l IH]; intros S N; cbn; [repeat constructor|].
  inversion S as [|? ? S1 S2]; subst. destruct (Z.ltb_spec (fst p) (fst x)).
  - constructor; [easy|]. constructor; [easy|]. rewrite Forall_forall in *. intros q Hq. specialize (S2 q Hq). lia.
  - constructor; [apply IH; [easy|]; intros q Hq; apply N; now right|].
    rewrite Forall_forall in *. intros q Hq. apply insert_key_in in Hq. destruct Hq as [->|Hq]; [|now apply S2].
    specialize (N x (or_introl eq_refl)). lia.
Qed.
Lemma sorted_items_sorted {A} (l : list (Z * A)) : NoDup (map fst l) -> StronglySorted (fun a b => (fst a < fst b)%Z) (sorted_items l).
Proof.
  induction l as [|p l IH]; intros N; cbn; [constructor|]. inversion N as [|? ? N1 N2]; subst.
  apply insert_key_sorted; [now apply IH|]. intros q Hq Eq. apply (proj1 (sorted_items_in l q)) in Hq. apply N1. rewrite <- Eq. now apply in_map.
Qed.

(** numbers *)
Lemma floats_of_says ts xs : Forall2 writes ts xs -> floats_of ts = Ret (map Some xs).
Proof.
  induction 1 as [|t x ts xs [E|(z & E & X)] F IH]; cbn [floats_of map]; [reflexivity| |]; subst; cbn [floats_of]; rewrite IH; reflexivity.
Qed.
Lemma Forall2_app_split {A B} (P : A -> B -> Prop) l m1 m2 : Forall2 P l (m1 ++ m2) ->
  Forall2 P (firstn (List.length m1) l) m1 /\ Forall2 P (skipn (List.length m1) l) m2.
Proof.
  revert l. induction m1 as [|x m1 IH]; intros l H; cbn; [now split|].
  inversion H; subst. destruct (IH _ H4) as [A1 A2]. split; [now constructor|easy].
Qed.

Lemma div_pos a n : n <> 0 -> div_ a n = Some (a / n).
Proof. intros H. unfold div_. destruct (Req_EM_T n 0); [easy|reflexivity]. Qed.
Lemma div_zero a : div_ a 0 = None.
Proof. unfold div_. destruct (Req_EM_T 0 0); [reflexivity|easy]. Qed.
Lemma pose_of_says p q : exists o, pose_of (map Some (xyzw p q)) = Ret o /\ o = se3_from_xyz_quaternion p q /\ is_pose p q o.
Proof.
  cbn [map xyzw pose_of]. cbv beta iota delta [bind].
  set (n2 := qx q * qx q + qy q * qy q + qz q * qz q + qw q * qw q).
  assert (Q : qnorm2 q = n2) by (unfold qnorm2, n2; ring).
  assert (P0 : 0 <= n2).
  { unfold n2. repeat apply Rplus_le_le_0_compat; apply Rle_0_sqr. }
  assert (EV : mkV3 (b0 p) (b1 p) (b2 p) = p) by (destruct p; reflexivity). rewrite EV.
  destruct (C37_xyz_quaternion F64 p q (mkRig I3 zero3)) as (K0 & K1 & _).
  eexists. split; [reflexivity|].
  destruct (Req_EM_T n2 0) as [Z|Z].
  - rewrite Z, sqrt_0, !div_zero. rewrite K0 by lra. split; [reflexivity|]. left. split; [lra|reflexivity].
  - assert (N : sqrt n2 <> 0).
    { intros H. apply Z. apply sqrt_eq_0 in H; easy. }
    rewrite !div_pos by exact N.
    assert (ES : se3_from_xyz_quaternion p (mkQ (qw q / sqrt n2) (qx q / sqrt n2) (qy q / sqrt n2) (qz q / sqrt n2))
               = se3_from_xyz_quaternion p q).
    { unfold se3_from_xyz_quaternion.
      replace (mkQ (qw q / sqrt n2) (qx q / sqrt n2) (qy q / sqrt n2) (qz q / sqrt n2)) with (qscal (/ sqrt n2) q)
        by (apply Quat_ext; unfold qscal; cbn [qw qx qy qz]; field; exact N).
      rewrite C36_quaternion_scale; [reflexivity|]. apply Rinv_neq_0_compat. exact N. }
    rewrite ES. split; [reflexivity|]. right. split; [lra|]. destruct (K1 ltac:(lra)) as (k & E & Rg & A). exists k. now split.
Qed.

Lemma sqrt_says x : root_of x (sqrt_ (Some x)).
Proof.
  unfold root_of, sqrt_. destruct (Rlt_dec x 0); [now left|]. right. exists (sqrt x).
  split; [reflexivity|]. split; [apply sqrt_pos|]. apply sqrt_sqrt. lra.
Qed.

Record Inv (es : list entry) (s : RState) : Prop := mkInv {
  inv_num : r_num s = fold_right Z.max 0%Z (ids es);
  inv_nodup : NoDup (map fst (r_verts s));
  inv_in : forall i o, In (i, o) (r_verts s) <-> exists p q, last_vertex es i p q /\ o = se3_from_xyz_quaternion p q;
  inv_edges : Forall2 edge_says (constraints es) (r_edges s);
  inv_names : forall k e, nth_error (r_edges s) k = Some e -> e_name e = k }.

Lemma Inv_nil : Inv [] (mkR 0 [] []).
Proof.
  constructor; cbn; try constructor; try easy.
  - intros (p & q & (a & b & E & _) & _). now destruct a.
  - intros k e. now destruct k.
Qed.
Lemma fold_max_app l m : fold_right Z.max 0%Z (l ++ m) = Z.max (fold_right Z.max 0%Z l) (fold_right Z.max 0%Z m).
Proof.
  induction l as [|a l IH]; cbn; [|rewrite IH; lia]. symmetry. apply Z.max_r. clear. induction m; cbn; lia.
Qed.
Lemma fold_max_nonneg l : (0 <= fold_right Z.max 0%Z l)%Z.
Proof. induction l; cbn; lia. Qed.

Lemma last_vertex_snoc es e i p q : last_vertex (es ++ [e]) i p q <->
  e = Vertex i p q \/ ((forall p' q', e <> Vertex i p' q') /\ last_vertex es i p q).
Proof.
  split.
  - intros (a & b & E & N).
    destruct b as [|x b] using rev_ind.
    + apply app_inj_tail in E. left. easy.
    + clear IHb. rewrite app_comm_cons, app_assoc in E. apply app_inj_tail in E. destruct E as [E1 E2]. subst x. right. split.
      * intros p' q' Ee. apply (N p' q'). apply in_or_app. right. left. easy.
      * exists a, b. split; [exact E1|]. intros p' q' H. apply (N p' q'). apply in_or_app. now left.
  - intros [->|[Ne (a & b & E & N)]].
    + exists es, []. split; [reflexivity|]. intros p' q' [].
    + exists a, (b ++ [e]). split; [rewrite E, <- app_assoc; reflexivity|]. intros p' q' H. apply in_app_or in H.
      destruct H as [H|[H|[]]]; [now apply (N p' q')|now apply (Ne p' q')].
Qed.

Lemma step es s e l : Inv es s -> line_says e l -> exists s', read_line s l = Ret s' /\ Inv (es ++ [e]) s'.
Proof.
  intros [I1 I2 I3 I4 I5] L. destruct e as [id p q|i j p q info|w]; cbn [line_says] in L.
  - destruct L as (ts & -> & F). destruct (pose_of_says p q) as (o & Eo & Eo2 & Po).
    unfold read_line. cbn [tok_at nth_error ebind]. cbn [String.eqb Ascii.eqb Bool.eqb]. cbn [tok_at nth_error ebind int_of skipn].
    rewrite (floats_of_says _ _ F). cbn [ebind]. rewrite Eo. cbn [ebind]. eexists. split; [reflexivity|].
    destruct (dict_set_in id o (r_verts s) I2) as [D1 D2].
    constructor; cbn [r_num r_verts r_edges].
    + unfold ids. rewrite flat_map_app, fold_max_app. fold (ids es). rewrite <- I1. cbn [flat_map app fold_right].
      pose proof (fold_max_nonneg (ids es)). lia.
    + exact D1.
    + intros i o'. rewrite D2, I3. split.
      * intros [[-> ->]|[Ne (p' & q' & H & E)]].
        -- exists p, q. split; [|exact Eo2]. apply last_vertex_snoc. now left.
        -- exists p', q'. split; [|exact E]. apply last_vertex_snoc. right. split; [|exact H]. intros ? ? Ee. apply Ne. now injection Ee.
      * intros (p' & q' & H & E). apply last_vertex_snoc in H. destruct H as [H|[Ne H]].
        -- injection H as -> -> ->. left. split; [reflexivity|]. congruence.
        -- right. split; [|now exists p', q']. intros ->. now apply (Ne p q).
    + unfold constraints. rewrite filter_app. cbn [filter]. rewrite app_nil_r. exact I4.
    + exact I5.
  - destruct L as (ts & -> & F). destruct (pose_of_says p q) as (o & Eo & Eo2 & Po).
    apply Forall2_app_split in F. destruct F as [F1 F2]. change (List.length (xyzw p q)) with 7%nat in F1, F2.
    unfold read_line. cbn [tok_at nth_error ebind]. cbn [String.eqb Ascii.eqb Bool.eqb]. cbn [tok_at nth_error ebind int_of].
    change (skipn 3 (TWord "EDGE_SE3:QUAT" :: TInt i :: TInt j :: ts)) with ts.
    change (skipn 10 (TWord "EDGE_SE3:QUAT" :: TInt i :: TInt j :: ts)) with (skipn 7 ts).
    rewrite (floats_of_says _ _ F1). cbn [ebind]. rewrite Eo. cbn [ebind]. rewrite (floats_of_says _ _ F2). cbn [ebind].
    cbn [upper flat_map seq Nat.sub map app gather nth_error ebind].
    eexists. split; [reflexivity|]. constructor; cbn [r_num r_verts r_edges].
    + unfold ids. rewrite flat_map_app, fold_max_app. fold (ids es). rewrite <- I1. cbn [flat_map app fold_right].
      pose proof (fold_max_nonneg (ids es)). lia.
    + exact I2.
    + intros i' o'. rewrite I3. split; intros (p' & q' & H & E); exists p', q'; (split; [|exact E]).
      * apply last_vertex_snoc. right. split; [intros; discriminate|exact H].
      * apply last_vertex_snoc in H. destruct H as [H|[_ H]]; [discriminate|exact H].
    + unfold constraints. rewrite filter_app. cbn [filter]. apply Forall2_app; [exact I4|]. constructor; [|constructor].
      cbn [edge_says e_i e_j e_pose e_weight]. split; [reflexivity|]. split; [reflexivity|]. split; [exact Po|]. split; [reflexivity|].
      intros k Hk. do 6 (destruct k as [|k]; [apply sqrt_says|]). lia.
    + intros k e H. destruct (Nat.lt_ge_cases k (List.length (r_edges s))) as [Lt|Ge].
      * rewrite nth_error_app1 in H by exact Lt. now apply I5.
      * rewrite nth_error_app2 in H by exact Ge. destruct (k - List.length (r_edges s))%nat as [|m] eqn:Em.
        -- injection H as <-. cbn [e_name]. lia.
        -- cbn in H. now destruct m.
  - destruct L as (N1 & N2 & ts & ->). exists s. split.
    + unfold read_line. cbn [tok_at nth_error ebind]. destruct (String.eqb_spec w "EDGE_SE3:QUAT"); [easy|].
      destruct (String.eqb_spec w "VERTEX_SE3:QUAT"); [easy|]. reflexivity.
    + constructor.
      * unfold ids. rewrite flat_map_app. cbn [flat_map]. rewrite app_nil_r. exact I1.
      * exact I2.
      * intros i' o'. rewrite I3. split; intros (p' & q' & H & E); exists p', q'; (split; [|exact E]).
        -- apply last_vertex_snoc. right. split; [intros; discriminate|exact H].
        -- apply last_vertex_snoc in H. destruct H as [H|[_ H]]; [discriminate|exact H].
      * unfold constraints. rewrite filter_app. cbn [filter]. rewrite app_nil_r. exact I4.
      * exact I5.
Qed.

Lemma read_all es ls : Forall2 line_says es ls -> forall es0 s, Inv es0 s ->
  exists s', read_lines s ls = Ret s' /\ Inv (es0 ++ es) s'.
Proof.
  induction 1 as [|e l es ls L F IH]; intros es0 s I; cbn [read_lines].
  - exists s. rewrite app_nil_r. now split.
  - destruct (step es0 s e l I L) as (s1 & E1 & I1). rewrite E1. cbn [ebind].
    destruct (IH _ _ I1) as (s2 & E2 & I2). exists s2. split; [exact E2|]. rewrite <- app_assoc in I2. exact I2.
Qed.
