(** C95: the objective of the tactile pose estimator. *)
From Coq Require Import Reals List String Ascii Arith Bool Lia Lra FinFun.
From Verif Require Import Geo_spec SE2_model Mp_model Mp_spec Mp_props Mp_main Tac_model Tac_spec Tac_win.
Import ListNotations.
Local Open Scope list_scope.

Section Obj.
Variables dflt sdf_d cell_d origin_d : dtype.
Variable c : params.
Hypothesis Hst : q_step c <> 0.
Notation dv := (dv dflt).
Notation window := (offs (q_min c) (q_max c) (q_step c)).
Definition ov (i : nat) : var := mkVar (Named (idx "obj_pose" i)) F64.
Definition ev (i : nat) : var := mkVar (Named (idx "eff_pose" i)) F64.
Lemma nth_seq_map {A} (f : nat -> A) n i : i < n -> nth_error (map f (seq 0 n)) i = Some (f i).
Proof.
  intros H. rewrite (map_nth_error f i (seq 0 n) (d := i)); [reflexivity|].
  assert (G : forall m a, i < m -> nth_error (seq a m) i = Some (a + i)).
  { clear. induction i; intros m a Hm; (destruct m; [lia|]); cbn; [f_equal; lia|].
    rewrite IHi by lia. f_equal. lia. }
  rewrite (G n 0 H). reflexivity.
Qed.
Lemma at_obj i : i < q_N c -> at_list (obj_poses c) i = Ok (ov i).
Proof. intros H. unfold at_list, obj_poses. now rewrite nth_seq_map. Qed.
Lemma at_eff i : i < q_N c -> at_list (eff_poses c) i = Ok (ev i).
Proof. intros H. unfold at_list, eff_poses. now rewrite nth_seq_map. Qed.
Lemma at_mc i : i < q_N c -> at_list (motion_captures dflt c) i = Ok (dv (idx "motion_capture" i)).
Proof. intros H. unfold at_list, motion_captures. now rewrite nth_seq_map. Qed.

Definition meas (p : nat * nat) : var := dv (idx2 "nn_measurement" (fst p - snd p) (fst p)).
Definition mf (p : nat * nat) : cfn :=
  let i := fst p in let j := i - snd p in
  mkCF CMovingFrameBetween (idx2 "mf_between" j i) [ov j; ov i; ev j; ev i] [meas p] (mf_between_weight dflt).
Definition start_cost : cfn := mkCF CDifference (idx "obj_priors" 0) [ov 0] [dv "obj_start_pose"] (mc_weight dflt).
Definition qsp_cost (i : nat) : cfn :=
  mkCF CQuasiStatic (idx "qsp" i) [ov i; ov (i + 1); ev i; ev (i + 1)] [mkVar (Named ("csquare_" ++ idx "qsp" i)) F64] (qsp_weight dflt).
Definition contact_cost (i : nat) : cfn :=
  mkCF CContact (idx "intersect" i) [ov i; ev i]
    [mkVar (Named "sdf_origin") origin_d; mkVar (Named "sdf_data") sdf_d; mkVar (Named "sdf_cell_size") cell_d; dv "eff_radius"]
    (intersect_weight dflt).
Definition eff_cost (i : nat) : cfn :=
  mkCF CDifference (idx "eff_priors" i) [ev i] [dv (idx "motion_capture" i)] (mc_weight dflt).
Definition pure_step (i : nat) : list cfn :=
  (if i =? 0 then [start_cost] else []) ++ (if i <? q_N c - 1 then [qsp_cost i] else [])
  ++ map mf (map (fun o => (i, o)) (window i)) ++ [contact_cost i; eff_cost i].

Lemma mf_costs_ok post i : i < q_N c -> forall os k, (forall o, In o os -> o <= i) ->
  forall pre', List.length pre' = k ->
  mf_costs dflt c (pre' ++ map meas (map (fun o => (i, o)) os) ++ post) i os k
  = Ok (map mf (map (fun o => (i, o)) os), k + List.length os).
Proof.
  intros Hi os. induction os as [|o os IH]; intros k Ho pre' L; [cbn; now rewrite Nat.add_0_r|].
  cbn [mf_costs map]. rewrite at_obj, (at_obj i), at_eff, (at_eff i) by lia. cbn [rbind].
  unfold at_list at 1. rewrite nth_error_app2 by lia. rewrite L, Nat.sub_diag. cbn [nth_error app rbind].
  replace (pre' ++ meas (i, o) :: map meas (map (fun o0 => (i, o0)) os) ++ post)
    with ((pre' ++ [meas (i, o)]) ++ map meas (map (fun o0 => (i, o0)) os) ++ post) by (now rewrite <- app_assoc).
  rewrite IH.
  - cbn [rbind fst snd]. f_equal. f_equal. cbn [List.length]. lia.
  - intros o' H. apply Ho. now right.
  - rewrite app_length, L. reflexivity.
Qed.
Lemma window_le i o : In o (window i) -> o <= i.
Proof. intros H. apply in_offs in H as [k [_ [_ H]]]; [lia|easy]. Qed.
Lemma step_ok i pre post k : i < q_N c -> List.length pre = k ->
  step_costs dflt sdf_d cell_d origin_d c (pre ++ map meas (map (fun o => (i, o)) (window i)) ++ post) i k
  = Ok (pure_step i, k + List.length (window i)).
Proof.
  intros Hi L. unfold step_costs. rewrite at_obj, at_eff, at_mc by easy. cbn [rbind].
  assert (Q : (if i <? q_N c - 1 then
      let! oj := at_list (obj_poses c) (i + 1) in let! ej := at_list (eff_poses c) (i + 1) in
      Ok [mkCF CQuasiStatic (idx "qsp" i) [ov i; oj; ev i; ej] [mkVar (Named ("csquare_" ++ idx "qsp" i)) F64] (qsp_weight dflt)]
    else Ok []) = Ok (if i <? q_N c - 1 then [qsp_cost i] else [])).
  { destruct (Nat.ltb_spec i (q_N c - 1)); [|reflexivity]. rewrite at_obj, at_eff by lia. reflexivity. }
  rewrite Q. cbn [rbind]. clear Q.
  assert (M : (if q_min c <=? i then
      let! os := offsets (q_min c) (q_max c) (q_step c) i in
      mf_costs dflt c (pre ++ map meas (map (fun o => (i, o)) (window i)) ++ post) i os k
    else Ok ([], k)) = Ok (map mf (map (fun o => (i, o)) (window i)), k + List.length (window i))).
  { destruct (Nat.leb_spec (q_min c) i).
    - rewrite offsets_ok by easy. cbn [rbind]. apply (mf_costs_ok post); [easy|apply window_le|easy].
    - rewrite offs_small by (lia || easy). cbn. now rewrite Nat.add_0_r. }
  rewrite M. cbn [rbind fst snd]. unfold pure_step. f_equal. f_equal. f_equal.
  destruct (Nat.eqb_spec i 0); [subst; reflexivity|reflexivity].
Qed.
Lemma loop_ok post : forall m a pre k, a + m <= q_N c -> List.length pre = k ->
  loop_costs dflt sdf_d cell_d origin_d c
    (pre ++ flat_map (fun i => map meas (map (fun o => (i, o)) (window i))) (seq a m) ++ post) (seq a m) k
  = Ok (flat_map pure_step (seq a m)).
Proof.
  induction m as [|m IH]; intros a pre k H L; [reflexivity|].
  cbn [seq flat_map loop_costs]. rewrite <- app_assoc. rewrite step_ok by (lia || easy). cbn [rbind fst snd].
  rewrite app_assoc. rewrite IH; [reflexivity|lia|].
  rewrite app_length, !map_length, L. reflexivity.
Qed.
Lemma cells_from_0 : pure_cells (q_N c) (q_min c) (q_max c) (q_step c)
  = flat_map (fun i => map (fun o => (i, o)) (window i)) (seq 0 (q_N c)).
Proof.
  unfold pure_cells. destruct (le_lt_dec (q_min c) (q_N c)) as [L|L].
  - replace (q_N c) with (q_min c + (q_N c - q_min c)) at 2 by lia. rewrite seq_app, flat_map_app. cbn [plus].
    assert (Z : flat_map (fun i => map (fun o => (i, o)) (window i)) (seq 0 (q_min c)) = []).
    { assert (G : forall l, (forall i, In i l -> i <= q_min c) -> flat_map (fun i => map (fun o => (i, o)) (window i)) l = []).
      { induction l as [|a l IH]; intros G; [reflexivity|]. cbn. rewrite offs_small; [|easy|apply G; now left]. cbn.
        apply IH. intros. apply G. now right. }
      apply G. intros i Hi. apply in_seq in Hi. lia. }
    now rewrite Z.
  - replace (q_N c - q_min c) with 0 by lia. cbn.
    assert (G : forall l, (forall i, In i l -> i <= q_min c) -> flat_map (fun i => map (fun o => (i, o)) (window i)) l = []).
    { induction l as [|a l IH]; intros G; [reflexivity|]. cbn. rewrite offs_small; [|easy|apply G; now left]. cbn.
      apply IH. intros. apply G. now right. }
    symmetry. apply G. intros i Hi. apply in_seq in Hi. lia.
Qed.
Definition all_costs : list cfn := flat_map pure_step (seq 0 (q_N c)) ++ reg_costs dflt c.
Lemma make_objective_eq :
  make_objective dflt sdf_d cell_d origin_d c = add_all (mkO dflt [] [] [] []) all_costs.
Proof.
  unfold make_objective, nn_measurements. rewrite cells_ok by easy. cbn [rbind].
  replace (map (fun '(i, o) => dv (idx2 "nn_measurement" (i - o) i)) (pure_cells (q_N c) (q_min c) (q_max c) (q_step c)))
    with ([] ++ flat_map (fun i => map meas (map (fun o => (i, o)) (window i))) (seq 0 (q_N c)) ++ []).
  - rewrite loop_ok; [reflexivity|lia|reflexivity].
  - cbn [app]. rewrite app_nil_r, cells_from_0. rewrite !flat_map_concat_map, concat_map. f_equal. rewrite map_map.
    apply map_ext. intros i. rewrite !map_map. reflexivity.
Qed.

(** ** membership *)
Lemma in_step f i : In f (pure_step i) <->
  (i = 0 /\ f = start_cost) \/ (i < q_N c - 1 /\ f = qsp_cost i)
  \/ (exists o, In o (window i) /\ f = mf (i, o)) \/ f = contact_cost i \/ f = eff_cost i.
Proof.
  unfold pure_step. rewrite !in_app_iff.
  destruct (Nat.eqb_spec i 0); destruct (Nat.ltb_spec i (q_N c - 1)); rewrite map_map, in_map_iff; cbn [In];
  split; intros K.
  all: repeat match goal with
       | H : _ \/ _ |- _ => destruct H
       | H : False |- _ => destruct H
       | H : exists _, _ |- _ => destruct H
       | H : _ /\ _ |- _ => destruct H end; subst; try lia; eauto 12.
Qed.
Lemma in_costs f : In f all_costs <->
  (0 < q_N c /\ f = start_cost) \/ (exists i, i + 1 < q_N c /\ f = qsp_cost i)
  \/ (exists i o, i < q_N c /\ In o (window i) /\ f = mf (i, o))
  \/ (exists i, i < q_N c /\ (f = contact_cost i \/ f = eff_cost i))
  \/ ((0 < q_reg c)%R /\ exists i, i < q_N c /\
        (f = mkCF CDifference ("reg_" ++ idx "obj_pose" i) [ov i] [dv "identity"] (reg_w c)
         \/ f = mkCF CDifference ("reg_" ++ idx "eff_pose" i) [ev i] [dv "identity"] (reg_w c))).
Proof.
  unfold all_costs. rewrite in_app_iff, in_flat_map.
  assert (R1 : In f (reg_costs dflt c) <-> ((0 < q_reg c)%R /\ exists i, i < q_N c /\
        (f = mkCF CDifference ("reg_" ++ idx "obj_pose" i) [ov i] [dv "identity"] (reg_w c)
         \/ f = mkCF CDifference ("reg_" ++ idx "eff_pose" i) [ev i] [dv "identity"] (reg_w c)))).
  { unfold reg_costs. destruct (gt0 (q_reg c)) eqn:G.
    - apply gt0_true in G. rewrite map_app, in_app_iff. unfold obj_poses, eff_poses. rewrite !map_map, !in_map_iff. split.
      + intros [[i [<- Hi]]|[i [<- Hi]]]; apply in_seq in Hi; (split; [easy|]); exists i; (split; [lia|]); [left|right]; reflexivity.
      + intros [_ [i [Hi [->| ->]]]]; [left|right]; exists i; (split; [reflexivity|]); apply in_seq; lia.
    - apply gt0_false in G. split; [intros []|]. intros [K _]. contradiction. }
  rewrite R1. clear R1. split.
  - intros [[i [Hi K]]|K]; [|auto 8]. apply in_seq in Hi. apply in_step in K.
    destruct K as [[-> ->]|[[A ->]|[[o [A ->]]|[->| ->]]]].
    + left. split; [lia|reflexivity].
    + right; left. exists i. split; [lia|reflexivity].
    + right; right; left. exists i, o. repeat split; [lia|easy].
    + do 3 right; left. exists i. split; [lia|auto].
    + do 3 right; left. exists i. split; [lia|auto].
  - intros [[A ->]|[[i [A ->]]|[[i [o [A [B ->]]]]|[[i [A B]]|K]]]]; [left|left|left|left|now right].
    + exists 0. split; [apply in_seq; lia|]. apply in_step. auto.
    + exists i. split; [apply in_seq; lia|]. apply in_step. right; left. split; [lia|easy].
    + exists i. split; [apply in_seq; lia|]. apply in_step. eauto 8.
    + exists i. split; [apply in_seq; lia|]. apply in_step. tauto.
Qed.

(** ** names are distinct *)
Lemma in_names s : In s (map f_name all_costs) -> exists f, In f all_costs /\ f_name f = s.
Proof. intros H. apply in_map_iff in H as [f [A B]]. eauto. Qed.
Lemma step_names_NoDup i : NoDup (map f_name (pure_step i)).
Proof.
  unfold pure_step. rewrite !map_app, !map_map.
  assert (W : NoDup (map (fun o => idx2 "mf_between" (i - o) i) (window i))).
  { pose proof (offs_NoDup (q_min c) (q_max c) (q_step c) i Hst) as ND.
    assert (L : forall o, In o (window i) -> o <= i) by (intros; now apply window_le).
    revert ND L. generalize (window i). induction l as [|o l IH]; intros ND L; [constructor|].
    inversion ND; subst. cbn [map]. constructor; [|apply IH; [easy|intros; apply L; now right]].
    intros K. apply in_map_iff in K as [o' [E K]]. apply idx2_inj in E as [E _].
    assert (o = o') by (pose proof (L o (or_introl eq_refl)); pose proof (L o' (or_intror K)); lia). subst. contradiction. }
  assert (E : NoDup (map (fun x => f_name (mf (i, x))) (window i) ++ map f_name [contact_cost i; eff_cost i])).
  { change (map (fun x => f_name (mf (i, x))) (window i)) with (map (fun o => idx2 "mf_between" (i - o) i) (window i)).
    revert W. generalize (window i). induction l as [|o l IH]; intros W; cbn [map app].
    - constructor; [|repeat constructor; intros []]. cbn. intros [K|[]]. discriminate.
    - inversion W; subst. constructor; [|now apply IH].
      rewrite in_app_iff. intros [K|K]; [contradiction|]. cbn in K. destruct K as [K|[K|[]]]; discriminate. }
  assert (Q : NoDup (map f_name (if i <? q_N c - 1 then [qsp_cost i] else [])
     ++ map (fun x => f_name (mf (i, x))) (window i) ++ map f_name [contact_cost i; eff_cost i])).
  { destruct (i <? q_N c - 1); [|exact E]. cbn [map app]. constructor; [|exact E].
    rewrite in_app_iff, in_map_iff. intros [[o [K _]]|K]; [discriminate|]. cbn in K. destruct K as [K|[K|[]]]; discriminate. }
  destruct (i =? 0); [|exact Q]. cbn [map app]. constructor; [|exact Q].
  rewrite !in_app_iff. intros [K|[K|K]]; [|apply in_map_iff in K as [o [K _]]; discriminate|cbn in K; destruct K as [K|[K|[]]]; discriminate].
  destruct (i <? q_N c - 1); cbn in K; [destruct K as [K|[]]; discriminate|contradiction].
Qed.
Lemma step_names_apart i j s : In s (map f_name (pure_step i)) -> In s (map f_name (pure_step j)) -> i = j.
Proof.
  intros A B. apply in_map_iff in A as [f [Ef A]]. apply in_map_iff in B as [g [Eg B]].
  apply in_step in A. apply in_step in B. subst s. revert Eg.
  destruct A as [[-> ->]|[[A ->]|[[o [A ->]]|[->| ->]]]]; destruct B as [[-> ->]|[[B ->]|[[o' [B ->]]|[->| ->]]]]; intros Eg.
  all: try reflexivity.
  all: try (unfold f_name in Eg; cbn in Eg; discriminate).
  all: first [ symmetry; exact (idx_inj _ _ _ Eg) | apply idx2_inj in Eg as [_ Eg]; now symmetry ].
Qed.
Lemma names_NoDup : NoDup (map f_name all_costs).
Proof.
  unfold all_costs. rewrite map_app.
  assert (A : NoDup (map f_name (flat_map pure_step (seq 0 (q_N c))))).
  { rewrite flat_map_concat_map, concat_map, map_map, <- flat_map_concat_map.
    apply NoDup_flat_map; [apply seq_NoDup| |].
    - intros i _. apply step_names_NoDup.
    - intros i j s _ _. apply step_names_apart. }
  assert (B : NoDup (map f_name (reg_costs dflt c))).
  { unfold reg_costs. destruct (gt0 (q_reg c)); [|constructor]. rewrite map_map. cbn [f_name].
    unfold obj_poses, eff_poses. rewrite map_app, !map_map. cbn [v_name vname_str].
    assert (G : forall p l, NoDup l -> NoDup (map (fun i => ("reg_" ++ idx p i)%string) l)).
    { intros p l. apply Injective_map_NoDup. intros x y E. apply append_inj in E. now apply idx_inj in E. }
    pose proof (G "obj_pose"%string _ (seq_NoDup (q_N c) 0)) as G1. pose proof (G "eff_pose"%string _ (seq_NoDup (q_N c) 0)) as G2.
    revert G1. generalize (seq 0 (q_N c)) at 1 2. induction l as [|a l IH]; intros G1; [exact G2|].
    inversion G1; subst. cbn [map app]. constructor; [|now apply IH].
    rewrite in_app_iff. intros [K|K]; [contradiction|]. apply in_map_iff in K as [x [K _]]. discriminate. }
  assert (C : forall s, In s (map f_name (flat_map pure_step (seq 0 (q_N c)))) -> ~ In s (map f_name (reg_costs dflt c))).
  { intros s H K. apply in_map_iff in H as [f [<- H]]. apply in_flat_map in H as [i [_ H]]. apply in_step in H.
    apply in_map_iff in K as [g [E K]]. unfold reg_costs in K. destruct (gt0 (q_reg c)); [|contradiction].
    apply in_map_iff in K as [v [<- _]]. cbn [f_name] in E.
    destruct H as [[-> ->]|[[_ ->]|[[o [_ ->]]|[->| ->]]]]; cbn in E; discriminate. }
  revert A C. generalize (map f_name (flat_map pure_step (seq 0 (q_N c)))). induction l as [|s l IH]; intros A C; [exact B|].
  inversion A; subst. cbn. constructor.
  - rewrite in_app_iff. intros [K|K]; [contradiction|]. apply (C s); [now left|easy].
  - apply IH; [easy|]. intros x Hx. apply C. now right.
Qed.
Lemma isopt_obj i : isopt (v_name (ov i)) = true.
Proof. unfold isopt, ov, idx. cbn. now destruct (dec i). Qed.
Lemma isopt_eff i : isopt (v_name (ev i)) = true.
Proof. unfold isopt, ev, idx. cbn. now destruct (dec i). Qed.
Lemma costs_sorted : Forall sorted_vars all_costs.
Proof.
  apply Forall_forall. intros f H. apply in_costs in H.
  destruct H as [[_ ->]|[[i [_ ->]]|[[i [o [_ [_ ->]]]]|[[i [_ [->| ->]]]|[_ [i [_ [->| ->]]]]]]]];
    split; unfold f_optim, f_aux, f_weight, w_aux; cbn -[isopt idx idx2]; repeat (apply Forall_cons; [first [apply isopt_obj | apply isopt_eff | reflexivity]|]); apply Forall_nil.
Qed.
End Obj.

Lemma dtypes_ok c : q_step c <> 0 -> dt_ok F64 (flat_map f_vars (all_costs F64 F64 F64 F64 c)).
Proof.
  intros H. apply Forall_forall. intros v Hv. apply in_flat_map in Hv as [f [Hf Hv]].
  apply in_costs in Hf; [|easy].
  destruct Hf as [[_ ->]|[[i [_ ->]]|[[i [o [_ [_ ->]]]]|[[i [_ [->| ->]]]|[_ [i [_ [->| ->]]]]]]]];
    cbn in Hv; repeat (destruct Hv as [<-|Hv]; [reflexivity|]); contradiction.
Qed.
Lemma objective_ok c : q_step c <> 0 ->
  make_objective F64 F64 F64 F64 c = Ok (after_all (mkO F64 [] [] [] []) (all_costs F64 F64 F64 F64 c)).
Proof.
  intros H. rewrite make_objective_eq by easy.
  apply add_all_ok.
  - split; constructor.
  - now apply costs_sorted.
  - cbn. now apply names_NoDup.
  - now apply dtypes_ok.
Qed.
