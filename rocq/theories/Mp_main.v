(** C90: the objective of the motion planner. *)
From Coq Require Import Reals List String Ascii Arith Bool Lia Lra.
From Verif Require Import Geo_spec SE2_model Emb_model Emb2_model Mp_model Mp_spec Mp_props.
Import ListNotations.
Local Open Scope list_scope.

Lemma gt0_true x : gt0 x = true <-> (0 < x)%R.
Proof. unfold gt0, lt_b. destruct (Rlt_dec 0 x); split; intros; try easy; try lra. Qed.
Lemma gt0_false x : gt0 x = false <-> ~ (0 < x)%R.
Proof. rewrite <- gt0_true. destruct (gt0 x); split; intros; try easy; congruence. Qed.
Lemma truthy_true x : truthy x = true <-> x <> 0%R.
Proof. unfold truthy. destruct (Req_EM_T x 0); split; intros; try easy; congruence. Qed.
Lemma truthy_false x : truthy x = false <-> x = 0%R.
Proof. unfold truthy. destruct (Req_EM_T x 0); split; intros; try easy; congruence. Qed.
Lemma dt_pos t n : n <> 0 -> (0 < t / INR n)%R <-> (0 < t)%R.
Proof.
  intros H. assert (K : (0 < INR n)%R) by (apply lt_0_INR; lia). unfold Rdiv. split; intros A.
  - replace t with (t * / INR n * INR n)%R by (field; lra). now apply Rmult_lt_0_compat.
  - apply Rmult_lt_0_compat; [easy|]. now apply Rinv_0_lt_compat.
Qed.

(** ** all cost functions *)
Definition all_costs (c : config) (dflt : dtype) : list cfn := boundary_costs c ++ loop_costs c dflt.

Lemma NoDup_flat_map {A B} (g : A -> list B) l :
  NoDup l -> (forall i, In i l -> NoDup (g i)) ->
  (forall i j x, In i l -> In j l -> In x (g i) -> In x (g j) -> i = j) -> NoDup (flat_map g l).
Proof.
  induction l as [|a l IH]; intros N G D; [constructor|].
  inversion N; subst. cbn.
  assert (H : forall x, In x (g a) -> ~ In x (flat_map g l)).
  { intros x Hx K. apply in_flat_map in K as [j [Hj Hx']].
    assert (a = j) by (eapply D; eauto; [now left|now right]). subst. contradiction. }
  assert (I2 : NoDup (flat_map g l)) by (apply IH; auto; intros; [apply G; now right | eapply D; eauto; now right]).
  assert (I1 : NoDup (g a)) by (apply G; now left).
  clear - H I1 I2. induction (g a) as [|y m IHm]; [exact I2|]. inversion I1; subst. cbn. constructor.
  - rewrite in_app_iff. intros [K|K]; [contradiction|]. apply (H y); [now left|easy].
  - apply IHm; [|easy]. intros x Hx. apply H. now right.
Qed.

Lemma cost_names_eq c dflt :
  map f_name (all_costs c dflt) = cost_names (c_num_time_steps c) (gt0 (c_nonholonomic_w c)) (truthy (c_positive_vel_w c)).
Proof.
  unfold all_costs, cost_names, loop_costs. rewrite map_app. f_equal.
  induction (seq 1 (c_num_time_steps c)) as [|i l IH]; [reflexivity|].
  cbn [flat_map]. rewrite map_app, IH. f_equal.
  unfold step_costs. destruct (gt0 _), (truthy _); reflexivity.
Qed.
Lemma step_names_in b1 b2 i x :
  In x ([idx "collision" i; idx "gp" i] ++ (if b1 : bool then [idx "nonholonomic" i] else []) ++ (if b2 : bool then [idx "positive_vel" i] else [])) ->
  x = idx "collision" i \/ x = idx "gp" i \/ x = idx "nonholonomic" i \/ x = idx "positive_vel" i.
Proof. rewrite !in_app_iff. destruct b1, b2; cbn -[idx]; intuition congruence. Qed.

Lemma cost_names_NoDup N b1 b2 : NoDup (cost_names N b1 b2).
Proof.
  unfold cost_names.
  assert (L : NoDup (flat_map (fun i => [idx "collision" i; idx "gp" i]
       ++ (if b1 then [idx "nonholonomic" i] else []) ++ (if b2 then [idx "positive_vel" i] else [])) (seq 1 N))).
  { apply NoDup_flat_map; [apply seq_NoDup| |].
    - intros i _. destruct b1, b2; cbn -[idx]; repeat constructor; cbn -[idx];
        intros K; repeat (destruct K as [K|K]; [discriminate K|]); exact K.
    - intros i j x _ _ Hi Hj. apply step_names_in in Hi. apply step_names_in in Hj.
      destruct Hi as [Hi|[Hi|[Hi|Hi]]]; subst x; destruct Hj as [Hj|[Hj|[Hj|Hj]]];
        try discriminate Hj; now apply idx_inj in Hj. }
  assert (D : forall x, In x ["pose_0"; "vel_0"; "pose_N"; "vel_N"]%string -> ~ In x (flat_map (fun i => [idx "collision" i; idx "gp" i]
       ++ (if b1 then [idx "nonholonomic" i] else []) ++ (if b2 then [idx "positive_vel" i] else [])) (seq 1 N))).
  { intros x Hx K. apply in_flat_map in K as [i [_ K]]. apply step_names_in in K.
    cbn in Hx. destruct K as [K|[K|[K|K]]]; subst x; repeat (destruct Hx as [Hx|Hx]; [discriminate Hx|]); exact Hx. }
  revert D L. generalize (flat_map (fun i => [idx "collision" i; idx "gp" i]
       ++ (if b1 then [idx "nonholonomic" i] else []) ++ (if b2 then [idx "positive_vel" i] else [])) (seq 1 N)).
  intros l D L. cbn [app].
  repeat (constructor; [cbn [In]; intros K;
     repeat (destruct K as [K|K]; [discriminate K|]); refine (D _ _ K); cbn; tauto|]).
  exact L.
Qed.

Lemma prefix_nil s : prefix "" s = true.
Proof. now destruct s. Qed.
Lemma isopt_pose c i : isopt (v_name (pose c i)) = true.
Proof. cbn. now rewrite prefix_nil. Qed.
Lemma isopt_vel c i : isopt (v_name (vel c i)) = true.
Proof. cbn. now rewrite prefix_nil. Qed.
#[local] Hint Resolve isopt_pose isopt_vel : core.
Lemma boundary_in c f : In f (boundary_costs c) -> sorted_vars f /\ dt_ok (c_dtype c) (f_vars f).
Proof.
  cbn. intros H.
  repeat (destruct H as [<-|H]; [split; [split|]; repeat constructor; first [apply isopt_pose | apply isopt_vel] |]). destruct H.
Qed.
Lemma step_sorted c dflt i f : In f (step_costs c dflt i) -> sorted_vars f.
Proof.
  unfold step_costs. rewrite !in_app_iff. intros [H|[H|H]].
  - cbn [In] in H. destruct H as [<-|[<-|[]]].
    + split; [repeat constructor; auto|]. cbn [f_aux f_weight]. unfold coll_w. destruct (c_single c); repeat constructor.
    + split; [repeat (constructor; auto)|repeat constructor].
  - destruct (gt0 _); [|easy]. destruct H as [<-|[]]. split; [repeat (constructor; auto)|repeat constructor].
  - destruct (truthy _); [|easy]. destruct H as [<-|[]]. split; [repeat (constructor; auto)|repeat constructor].
Qed.
Lemma all_sorted c dflt : Forall sorted_vars (all_costs c dflt).
Proof.
  apply Forall_forall. intros f H. apply in_app_or in H as [H|H].
  - now apply boundary_in in H.
  - apply in_flat_map in H as [i [_ H]]. now apply step_sorted in H.
Qed.
(** dtypes agree when the extra cost functions are of the objective's dtype *)
Lemma step_dt c dflt i f :
  (gt0 (c_nonholonomic_w c) = true -> dflt = c_dtype c) -> (truthy (c_positive_vel_w c) = true -> dflt = c_dtype c) ->
  In f (step_costs c dflt i) -> dt_ok (c_dtype c) (f_vars f).
Proof.
  intros A B. unfold step_costs. rewrite !in_app_iff. intros [H|[H|H]].
  - cbn [In] in H. destruct H as [<-|[<-|[]]]; [|repeat constructor].
    unfold f_vars. cbn [f_optim f_aux f_weight]. unfold coll_w. destruct (c_single c); repeat constructor.
  - destruct (gt0 _); [|easy]. destruct H as [<-|[]]. repeat constructor. cbn. auto.
  - destruct (truthy _); [|easy]. destruct H as [<-|[]]. repeat constructor; cbn; auto.
Qed.
Lemma all_dt c dflt :
  (gt0 (c_nonholonomic_w c) = true -> dflt = c_dtype c) -> (truthy (c_positive_vel_w c) = true -> dflt = c_dtype c) ->
  dt_ok (c_dtype c) (flat_map f_vars (all_costs c dflt)).
Proof.
  intros A B. apply Forall_forall. intros v H. apply in_flat_map in H as [f [H Hv]].
  apply in_app_or in H as [H|H].
  - apply boundary_in in H as [_ H]. unfold dt_ok in H. rewrite Forall_forall in H. auto.
  - apply in_flat_map in H as [i [_ H]]. apply step_dt in H; auto. unfold dt_ok in H. rewrite Forall_forall in H. auto.
Qed.

Definition empty (c : config) : obj := mkO (c_dtype c) [] [] [] [].
Lemma empty_sorted c : sorted (empty c).
Proof. split; constructor. Qed.
Lemma NoDup_app_l {A} (a b : list A) : NoDup (a ++ b) -> NoDup a.
Proof. induction a; cbn; intros H; [constructor|]. inversion H; subst. constructor; [rewrite in_app_iff in *; tauto|auto]. Qed.
Lemma boundary_added c : add_all (empty c) (boundary_costs c) = Ok (after_all (empty c) (boundary_costs c))
  /\ sorted (after_all (empty c) (boundary_costs c)).
Proof.
  apply add_all_ok.
  - apply empty_sorted.
  - apply Forall_forall. intros f H. now apply boundary_in in H.
  - change (o_cfs (empty c) ++ boundary_costs c) with (boundary_costs c).
    apply (NoDup_app_l _ (map f_name (loop_costs c F32))). rewrite <- map_app. fold (all_costs c F32). rewrite cost_names_eq. apply cost_names_NoDup.
  - apply Forall_forall. intros v H. apply in_flat_map in H as [f [H Hv]].
    apply boundary_in in H as [_ H]. unfold dt_ok in H. rewrite Forall_forall in H. auto.
Qed.

(** a successful construction: all the cost functions have been added *)
Lemma make_inv qc dflt c o : make_objective qc dflt c = Ok o -> o = after_all (empty c) (all_costs c dflt).
Proof.
  unfold make_objective.
  destruct (c_num_time_steps c =? 0); [discriminate|].
  destruct (negb _); [discriminate|]. destruct (negb qc); [discriminate|].
  fold (empty c). rewrite (proj1 (boundary_added c)). cbn [rbind].
  destruct (gt0 (c_nonholonomic_w c) && _); [discriminate|].
  destruct (gt0 (c_positive_vel_w c) && _); [discriminate|].
  destruct (truthy _ && _).
  - destruct (add_all _ _); discriminate.
  - intros H. apply add_all_inv in H. subst. unfold all_costs. now rewrite after_all_app.
Qed.

Lemma nonhol_step_dt c dflt o l :
  gt0 (c_nonholonomic_w c) = true ->
  add_all (after_all (empty c) (boundary_costs c)) (firstn 3 (step_costs c dflt 1) ++ l) = Ok o -> dflt = c_dtype c.
Proof.
  intros G. unfold step_costs. rewrite G. cbn [app firstn].
  cbn [add_all].
  destruct (add _ _) as [o1|] eqn:E1; [|discriminate]. cbn [rbind].
  destruct (add o1 _) as [o2|] eqn:E2; [|discriminate]. cbn [rbind].
  destruct (add o2 _) as [o3|] eqn:E3; [|discriminate]. intros _.
  apply add_inv in E1 as [-> _]. apply add_inv in E2 as [-> _].
  apply add_inv in E3 as [_ [_ [_ K]]].
  cbn [f_weight nonhol_w w_aux] in K.
  assert (Q : dt_ok (c_dtype c) [mkVar (Auto 4) dflt]).
  { refine (K _). unfold f_new, coll_w. destruct (c_single c); reflexivity. }
  inversion Q; subst. assumption.
Qed.

(** the constructor succeeds exactly for these arguments *)
Theorem C90_accepts qc dflt c : (exists o, make_objective qc dflt c = Ok o) <-> config_ok qc dflt c.
Proof.
  split.
  - intros [o H]. unfold make_objective in H. unfold config_ok.
    destruct (c_num_time_steps c =? 0) eqn:E0; [discriminate|]. apply Nat.eqb_neq in E0.
    destruct (gt0 (c_total_time c / INR (c_num_time_steps c))) eqn:E1; [|discriminate]. cbn [negb] in H.
    apply gt0_true in E1. apply dt_pos in E1; [|easy].
    destruct qc; [|discriminate]. cbn [negb] in H.
    fold (empty c) in H. rewrite (proj1 (boundary_added c)) in H. cbn [rbind] in H.
    split; [easy|]. split; [easy|]. split; [easy|].
    destruct (gt0 (c_nonholonomic_w c) && match c_pose_type c with PSE2 => false | _ => true end) eqn:E2; [discriminate|].
    destruct (gt0 (c_positive_vel_w c) && match c_pose_type c with PSE2 => false | _ => true end) eqn:E3; [discriminate|].
    destruct (truthy (c_positive_vel_w c) && negb (gt0 (c_positive_vel_w c))) eqn:E4;
      [destruct (add_all _ _); discriminate|].
    assert (ND : gt0 (c_nonholonomic_w c) = true -> dflt = c_dtype c).
    { intros G. unfold loop_costs in H.
      destruct (c_num_time_steps c) as [|n]; [easy|]. cbn [seq flat_map] in H.
      apply (nonhol_step_dt c dflt o (skipn 3 (step_costs c dflt 1) ++ flat_map (step_costs c dflt) (seq 2 n)) G).
      rewrite app_assoc, firstn_skipn. exact H. }
    split.
    + intros G. apply gt0_true in G. rewrite G in E2. cbn in E2.
      split; [destruct (c_pose_type c); congruence|auto].
    + intros T. apply truthy_true in T. rewrite T in E4. cbn in E4. apply negb_false_iff in E4.
      rewrite E4 in E3. cbn in E3. split; [now apply gt0_true|].
      split; [destruct (c_pose_type c); congruence|].
      apply add_all_inv_dt in H. unfold dt_ok in H. rewrite after_all_dtype in H. cbn [o_dtype empty] in H. rewrite Forall_forall in H.
      apply (H (mkVar (Named (idx "positive_vel" 1 ++ "__thres")%string) dflt)).
      apply in_flat_map. exists (mkCF CHinge (idx "positive_vel" 1) [vel c (1 - 1)]
              (map (fun s => mkVar (Named (idx "positive_vel" 1 ++ s)%string) dflt) ["__downlimit"; "__uplimit"; "__thres"]%string)
              (posvel_w c dflt)).
      split.
      * apply in_flat_map. exists 1. split; [apply in_seq; lia|]. unfold step_costs. rewrite T.
        apply in_or_app. right. apply in_or_app. right. now left.
      * apply in_or_app. right. cbn. tauto.
  - intros (H0 & H1 & H2 & H3 & H4). exists (after_all (empty c) (all_costs c dflt)).
    unfold make_objective. apply Nat.eqb_neq in H0. rewrite H0. apply Nat.eqb_neq in H0.
    rewrite (proj2 (gt0_true _)) by (now apply dt_pos). cbn [negb]. rewrite H2. cbn [negb].
    fold (empty c). destruct (boundary_added c) as [B BS]. rewrite B. cbn [rbind].
    replace (gt0 (c_nonholonomic_w c) && match c_pose_type c with PSE2 => false | _ => true end) with false.
    2:{ destruct (gt0 (c_nonholonomic_w c)) eqn:G; [|easy]. apply gt0_true in G. destruct (H3 G) as [-> _]. easy. }
    replace (gt0 (c_positive_vel_w c) && match c_pose_type c with PSE2 => false | _ => true end) with false.
    2:{ destruct (gt0 (c_positive_vel_w c)) eqn:G; [|easy]. apply gt0_true in G. destruct (H4 ltac:(lra)) as [_ [-> _]]. easy. }
    replace (truthy (c_positive_vel_w c) && negb (gt0 (c_positive_vel_w c))) with false.
    2:{ destruct (truthy (c_positive_vel_w c)) eqn:T; [|easy]. apply truthy_true in T. destruct (H4 T) as [G _].
        apply gt0_true in G. now rewrite G. }
    unfold all_costs. rewrite after_all_app. apply add_all_ok; auto.
    + apply Forall_forall. intros f Hf. apply in_flat_map in Hf as [i [_ Hf]]. now apply step_sorted in Hf.
    + rewrite after_all_cfs. cbn [o_cfs empty app]. fold (all_costs c dflt). rewrite cost_names_eq. apply cost_names_NoDup.
    + rewrite after_all_dtype. cbn [o_dtype empty].
      assert (D : dt_ok (c_dtype c) (flat_map f_vars (all_costs c dflt))).
      { apply all_dt; intros K; [apply gt0_true in K; now apply H3 | apply truthy_true in K; now apply H4]. }
      unfold all_costs in D. unfold dt_ok in *. rewrite flat_map_app in D. now apply Forall_app in D.
Qed.

(** the cost functions *)
Theorem C90_cost_functions qc dflt c o : make_objective qc dflt c = Ok o ->
  map f_name (o_cfs o) = cost_names (c_num_time_steps c) (gt0 (c_nonholonomic_w c)) (truthy (c_positive_vel_w c)).
Proof. intros H. apply make_inv in H. subst. rewrite after_all_cfs. cbn [o_cfs empty app]. apply cost_names_eq. Qed.

Lemma o_cfs_make qc dflt c o : make_objective qc dflt c = Ok o -> o_cfs o = all_costs c dflt.
Proof. intros H. apply make_inv in H. subst. now rewrite after_all_cfs. Qed.

(** what each of them connects, with which weight *)
Theorem C90_boundary qc dflt c o : make_objective qc dflt c = Ok o ->
  let N := c_num_time_steps c in
  exists w t0 tN,
  has_cost o "pose_0" CDifference [idx "pose" 0] [Named "start"] 100 [w]
  /\ has_cost o "vel_0" CDifference [idx "vel" 0] [t0] 100 [w]
  /\ has_cost o "pose_N" (match c_pose_type c with PPoint2 => CDifference | PSE2 => CXYDifference end) [idx "pose" N] [Named "goal"] 100 [w]
  /\ has_cost o "vel_N" CDifference [idx "vel" N] [tN] 100 [w]
  /\ t0 <> tN.
Proof.
  intros H N. exists (Auto 0), (Auto 1), (Auto 2). apply o_cfs_make in H. unfold has_cost. rewrite H.
  repeat split; try discriminate.
  - exists (nth 0 (boundary_costs c) (mkCF CHinge "" [] [] (boundary_w c))). repeat split. cbn. tauto.
  - exists (nth 1 (boundary_costs c) (mkCF CHinge "" [] [] (boundary_w c))). repeat split. cbn. tauto.
  - exists (nth 2 (boundary_costs c) (mkCF CHinge "" [] [] (boundary_w c))). repeat split. cbn. tauto.
  - exists (nth 3 (boundary_costs c) (mkCF CHinge "" [] [] (boundary_w c))). repeat split. cbn. tauto.
Qed.

Theorem C90_steps qc dflt c o i : make_objective qc dflt c = Ok o -> 1 <= i <= c_num_time_steps c ->
  has_cost o (idx "collision" i) CCollision2D [idx "pose" i] (map Named ["sdf_origin"; "sdf_data"; "cell_size"; "cost_eps"]%string)
    (c_collision_weight c) [Named (if c_single c then "collision_w" else idx "collision_w" i)]
  /\ (exists q, has_cost o (idx "gp" i) CGPMotionModel [idx "pose" (i - 1); idx "vel" (i - 1); idx "pose" i; idx "vel" i]
        [Named "dt"] 0 [q; Named "dt"])
  /\ ((0 < c_nonholonomic_w c)%R -> exists w, has_cost o (idx "nonholonomic" i) CNonholonomic [idx "pose" i; idx "vel" i] [] (c_nonholonomic_w c) [w])
  /\ ((0 < c_positive_vel_w c)%R -> exists w, has_cost o (idx "positive_vel" i) CHinge [idx "vel" (i - 1)]
        (map (fun e => Named (idx "positive_vel" i ++ e)%string) ["__downlimit"; "__uplimit"; "__thres"]%string) (c_positive_vel_w c) [w]).
Proof.
  intros H Hi. apply o_cfs_make in H. unfold has_cost. rewrite H.
  assert (S : forall f, In f (step_costs c dflt i) -> In f (all_costs c dflt)).
  { intros f Hf. apply in_or_app. right. apply in_flat_map. exists i. split; [apply in_seq; lia|easy]. }
  split; [|split; [|split]].
  - eexists. split; [apply S; unfold step_costs; cbn [app]; left; reflexivity|].
    unfold coll_w. destruct (c_single c); repeat split.
  - exists (Auto 3). eexists. split; [apply S; unfold step_costs; cbn [app]; right; left; reflexivity|]. repeat split.
  - intros G. apply gt0_true in G. exists (Auto 4). eexists. split; [apply S; unfold step_costs; rewrite G; cbn [app]; right; right; left; reflexivity|].
    repeat split.
  - intros G. assert (T : truthy (c_positive_vel_w c) = true) by (apply truthy_true; lra).
    exists (Auto 5). eexists. split.
    + apply S. unfold step_costs. rewrite T. apply in_or_app. right. apply in_or_app. right. left. reflexivity.
    + repeat split.
Qed.

(** ** optimization variables *)
Lemma loop_optim c dflt k : c_num_time_steps c <> 0 -> k <= c_num_time_steps c ->
  inserts (map v_name (flat_map f_optim (flat_map (step_costs c dflt) (seq 1 k)))) (time_vars 0 ++ time_vars (c_num_time_steps c))
  = time_vars 0 ++ time_vars (c_num_time_steps c) ++ flat_map time_vars (seq 1 (Nat.min k (c_num_time_steps c - 1))).
Proof.
  intros HN. set (N := c_num_time_steps c) in *.
  induction k as [|k IH]; intros Hk.
  { cbn. reflexivity. }
  rewrite seq_S, flat_map_app, flat_map_app, map_app, inserts_app. rewrite IH by lia. clear IH.
  assert (InP : forall p (P : p = "pose"%string \/ p = "vel"%string) j m, In (Named (idx p j)) (time_vars 0 ++ time_vars N ++ flat_map time_vars (seq 1 m)) <-> j = 0 \/ j = N \/ 1 <= j <= m).
  { intros p P j m. rewrite !in_app_iff, in_flat_map.
    assert (Q : forall i, In (Named (idx p j)) (time_vars i) <-> j = i).
    { intros i. unfold time_vars. destruct P; subst p; cbn [In]; split; intros K; try (subst; tauto);
        (destruct K as [K|[K|[]]]; [ first [discriminate K | injection K as K; symmetry; exact (idx_inj "pose" i j (f_equal (append "pose") (f_equal (append "_") K)))]
        | first [discriminate K | injection K as K; symmetry; exact (idx_inj "vel" i j (f_equal (append "vel") (f_equal (append "_") K)))]]). }
    rewrite !Q. split.
    - intros [A|[A|[i [A B]]]]; auto. apply Q in B. subst. apply in_seq in A. lia.
    - intros [A|[A|A]]; auto. right. right. exists j. split; [apply in_seq; lia|]. now apply Q. }
  cbn [flat_map]. rewrite app_nil_r.
  assert (EX : map v_name (flat_map f_optim (step_costs c dflt (1 + k)))
     = [Named (idx "pose" (1 + k)); Named (idx "pose" k); Named (idx "vel" k); Named (idx "pose" (1 + k)); Named (idx "vel" (1 + k))]
       ++ (if gt0 (c_nonholonomic_w c) then time_vars (1 + k) else []) ++ (if truthy (c_positive_vel_w c) then [Named (idx "vel" k)] else [])).
  { unfold step_costs. replace (1 + k - 1) with k by lia. destruct (gt0 _), (truthy _); reflexivity. }
  rewrite EX. clear EX. rewrite inserts_app.
  assert (M : inserts [Named (idx "pose" (1 + k)); Named (idx "pose" k); Named (idx "vel" k); Named (idx "pose" (1 + k)); Named (idx "vel" (1 + k))]
     (time_vars 0 ++ time_vars N ++ flat_map time_vars (seq 1 (Nat.min k (N - 1))))
     = time_vars 0 ++ time_vars N ++ flat_map time_vars (seq 1 (Nat.min (1 + k) (N - 1)))).
  { destruct (Nat.eq_dec (1 + k) N) as [E|E].
    - rewrite inserts_old.
      + replace (Nat.min (1 + k) (N - 1)) with (Nat.min k (N - 1)) by lia. reflexivity.
      + intros x Hx. cbn [In] in Hx. destruct Hx as [<-|[<-|[<-|[<-|[<-|[]]]]]]; apply InP; auto; lia.
    - replace (Nat.min k (N - 1)) with k by lia. replace (Nat.min (1 + k) (N - 1)) with (1 + k) by lia.
      cbn [inserts fold_left].
      set (L := time_vars 0 ++ time_vars N ++ flat_map time_vars (seq 1 k)).
      rewrite (insert_new (Named (idx "pose" (1 + k))) L) by (intros K; apply InP in K; [lia|auto]).
      assert (I1 : In (Named (idx "pose" k)) L) by (apply InP; auto; lia).
      assert (I2 : In (Named (idx "vel" k)) L) by (apply InP; auto; lia).
      assert (I3 : ~ In (Named (idx "vel" (1 + k))) L) by (intros K; apply InP in K; [lia|auto]).
      rewrite (insert_old (Named (idx "pose" k)) (L ++ _)) by (apply in_or_app; now left).
      rewrite (insert_old (Named (idx "vel" k)) (L ++ _)) by (apply in_or_app; now left).
      rewrite (insert_old (Named (idx "pose" (1 + k)))) by (apply in_or_app; right; now left).
      rewrite insert_new.
      + unfold L. replace (1 + k) with (S k) by lia. rewrite seq_S, flat_map_app. cbn [flat_map]. rewrite app_nil_r.
        unfold time_vars at 7. rewrite <- !app_assoc. reflexivity.
      + rewrite in_app_iff. intros [K|[K|[]]]; [contradiction|discriminate K]. }
  rewrite M. rewrite inserts_old; [reflexivity|].
  intros x Hx. apply in_app_or in Hx as [Hx|Hx].
  - destruct (gt0 _); [|destruct Hx]. cbn [In time_vars] in Hx. destruct Hx as [<-|[<-|[]]]; apply InP; auto; lia.
  - destruct (truthy _); [|destruct Hx]. destruct Hx as [<-|[]]. apply InP; auto; lia.
Qed.

(** the optimization variables: exactly the poses and velocities of the times
    0..N, in this order *)
Theorem C90_optim_vars qc dflt c o : make_objective qc dflt c = Ok o -> o_optim o = optim_order (c_num_time_steps c).
Proof.
  intros H. pose proof (ex_intro (fun o => make_objective qc dflt c = Ok o) o H) as A.
  apply C90_accepts in A as [HN _]. apply make_inv in H. subst.
  rewrite after_all_optim. unfold all_costs. rewrite flat_map_app, map_app, inserts_app.
  assert (B : inserts (map v_name (flat_map f_optim (boundary_costs c))) (o_optim (empty c)) = time_vars 0 ++ time_vars (c_num_time_steps c)).
  { cbn [boundary_costs flat_map f_optim app map v_name pose vel nv inserts fold_left empty o_optim].
    assert (E0 : idx "pose" 0 <> idx "pose" (c_num_time_steps c)) by (intros K; apply idx_inj in K; lia).
    assert (E1 : idx "vel" 0 <> idx "vel" (c_num_time_steps c)) by (intros K; apply idx_inj in K; lia).
    rewrite (insert_new (Named (idx "pose" 0))) by (intros []). cbn [app].
    rewrite (insert_new (Named (idx "vel" 0))) by (intros [K|[]]; discriminate K). cbn [app].
    rewrite (insert_new (Named (idx "pose" (c_num_time_steps c)))) by (intros [K|[K|[]]]; [injection K; exact E0 || congruence|discriminate K]). cbn [app].
    rewrite (insert_new (Named (idx "vel" (c_num_time_steps c)))) by (intros [K|[K|[K|[]]]]; [discriminate K|congruence|discriminate K]).
    reflexivity. }
  rewrite B. unfold loop_costs. rewrite loop_optim by lia. unfold optim_order.
  now rewrite Nat.min_r by lia.
Qed.
