(** C90: keys, error report, copies, trajectories of the motion planner. *)
From Coq Require Import Reals List String Ascii Arith Bool Lia Lra.
From Verif Require Import Geo_spec SE2_model Emb_model Emb2_model Mp_model Mp_spec Mp_props Mp_main.
Import ListNotations.
Local Open Scope list_scope.

(** ** the auxiliary variables *)
Lemma cost_weight_cases c dflt f : In f (all_costs c dflt) ->
  f_weight f = boundary_w c \/ f_weight f = gp_w c \/ (exists i, f_weight f = coll_w c i)
  \/ f_weight f = nonhol_w c dflt \/ f_weight f = posvel_w c dflt.
Proof.
  intros H. apply in_app_or in H as [H|H].
  - cbn in H. repeat (destruct H as [<-|H]; [now left|]). destruct H.
  - apply in_flat_map in H as [i [_ H]]. unfold step_costs in H. rewrite !in_app_iff in H.
    destruct H as [[<-|[<-|[]]]|[H|H]]; cbn [f_weight]; eauto.
    + destruct (gt0 _); [|easy]. destruct H as [<-|[]]. cbn. auto.
    + destruct (truthy _); [|easy]. destruct H as [<-|[]]. cbn. auto.
Qed.
Lemma all_consistent c dflt : w_consistent (all_costs c dflt).
Proof.
  intros f g Hf Hg. apply cost_weight_cases in Hf, Hg.
  destruct Hf as [-> |[-> |[[i ->]|[-> | ->]]]]; destruct Hg as [-> |[-> |[[j ->]|[-> | ->]]]]; intros E; try reflexivity;
    unfold coll_w in *; destruct (c_single c); try discriminate E; try reflexivity.
  apply (idx_inj "collision_w") in E. now subst.
Qed.

(** forward's keys besides poses and velocities *)
Theorem C90_keys qc dflt c o s : make_objective qc dflt c = Ok o ->
  (In (Named s) (o_aux o) <-> is_key (c_num_time_steps c) (c_single c) (truthy (c_positive_vel_w c)) s) /\ NoDup (o_aux o).
Proof.
  intros H. pose proof (ex_intro (fun o => make_objective qc dflt c = Ok o) o H) as A.
  apply C90_accepts in A as [HN _]. apply make_inv in H. subst o.
  split; [|apply after_all_aux_NoDup; constructor].
  destruct (after_all_aux_has (all_costs c dflt) (empty c)) as [_ B].
  { intros w []. }
  { apply all_consistent. }
  split.
  - intros I. apply after_all_aux_sub in I as [[]|I].
    apply in_map_iff in I as [v [E I]]. apply in_flat_map in I as [f [F I]].
    apply in_app_or in F as [F|F].
    + cbn in F. repeat (destruct F as [<-|F]; [cbn in I; repeat (destruct I as [<-|I]; [try discriminate E; injection E as <-; left; cbn; tauto|]); destruct I|]).
      destruct F.
    + apply in_flat_map in F as [i [Hi F]]. apply in_seq in Hi. unfold step_costs in F. rewrite !in_app_iff in F.
      destruct F as [[<-|[<-|[]]]|[F|F]].
      * cbn [f_aux f_weight] in I. apply in_app_or in I as [I|I].
        { cbn in I. repeat (destruct I as [<-|I]; [injection E as <-; left; cbn; tauto|]). destruct I. }
        unfold coll_w in I. unfold is_key. destruct (c_single c); destruct I as [<-|[]]; injection E as <-; right; left; [reflexivity|].
        exists i. split; [lia|reflexivity].
      * cbn in I. repeat (destruct I as [<-|I]; [try discriminate E; injection E as <-; left; cbn; tauto|]). destruct I.
      * destruct (gt0 _); [|easy]. destruct F as [<-|[]]. cbn in I. destruct I as [<-|[]]. discriminate E.
      * destruct (truthy _) eqn:T; [|easy]. destruct F as [<-|[]]. cbn [f_aux f_weight] in I. apply in_app_or in I as [I|I].
        { right. right. split; [easy|]. exists i. split; [lia|].
          apply in_map_iff in I as [e [<- I]]. injection E as <-. apply in_map_iff. exists e. now split. }
        destruct I as [<-|[]]. discriminate E.
  - intros K. apply B. apply in_map_iff.
    assert (first : forall f v, In f (all_costs c dflt) -> In v (f_aux f ++ w_aux (f_weight f)) -> v_name v = Named s ->
              exists x, v_name x = Named s /\ In x (flat_map (fun f => f_aux f ++ w_aux (f_weight f)) (all_costs c dflt))).
    { intros f v F V E. exists v. split; [easy|]. apply in_flat_map. exists f. now split. }
    assert (S : forall f i, 1 <= i <= c_num_time_steps c -> In f (step_costs c dflt i) -> In f (all_costs c dflt)).
    { intros f i Hi Hf. apply in_or_app. right. apply in_flat_map. exists i. split; [apply in_seq; lia|easy]. }
    destruct K as [K|[K|[T [i [Hi K]]]]].
    + cbn in K.
      assert (C1 : In (mkCF CCollision2D (idx "collision" 1) [pose c 1]
        [nv c "sdf_origin"; nv c "sdf_data"; nv c "cell_size"; nv c "cost_eps"] (coll_w c 1)) (all_costs c dflt)).
      { apply (S _ 1); [lia|]. unfold step_costs. cbn [app]. now left. }
      assert (G1 : In (mkCF CGPMotionModel (idx "gp" 1) [pose c (1 - 1); vel c (1 - 1); pose c 1; vel c 1] [nv c "dt"] (gp_w c)) (all_costs c dflt)).
      { apply (S _ 1); [lia|]. unfold step_costs. cbn [app]. right. now left. }
      destruct K as [K|[K|[K|[K|[K|[K|[K|[]]]]]]]]; subst s.
      * apply (first _ (nv c "sdf_origin") C1); [cbn; tauto|reflexivity].
      * apply (first (mkCF CDifference "pose_0" [pose c 0] [nv c "start"] (boundary_w c)) (nv c "start")); [cbn; tauto|cbn; tauto|reflexivity].
      * apply (first (nth 2 (boundary_costs c) (mkCF CHinge "" [] [] (boundary_w c))) (nv c "goal")); [cbn; tauto|cbn; tauto|reflexivity].
      * apply (first _ (nv c "cell_size") C1); [cbn; tauto|reflexivity].
      * apply (first _ (nv c "sdf_data") C1); [cbn; tauto|reflexivity].
      * apply (first _ (nv c "cost_eps") C1); [cbn; tauto|reflexivity].
      * apply (first _ (nv c "dt") G1); [cbn; tauto|reflexivity].
    + assert (C1 : forall i, 1 <= i <= c_num_time_steps c -> In (mkCF CCollision2D (idx "collision" i) [pose c i]
        [nv c "sdf_origin"; nv c "sdf_data"; nv c "cell_size"; nv c "cost_eps"] (coll_w c i)) (all_costs c dflt)).
      { intros i Hi. apply (S _ i); [lia|]. unfold step_costs. cbn [app]. now left. }
      destruct (c_single c) eqn:E.
      * subst s. apply (first _ (nv c "collision_w") (C1 1 ltac:(lia))); [|reflexivity].
        apply in_or_app. right. cbn [f_weight]. unfold coll_w. rewrite E. now left.
      * destruct K as [i [Hi ->]]. apply (first _ (nv c (idx "collision_w" i)) (C1 i Hi)); [|reflexivity].
        apply in_or_app. right. cbn [f_weight]. unfold coll_w. rewrite E. now left.
    + apply in_map_iff in K as [e [<- K]].
      apply (first (mkCF CHinge (idx "positive_vel" i) [vel c (i - 1)]
              (map (fun s => mkVar (Named (idx "positive_vel" i ++ s)%string) dflt) ["__downlimit"; "__uplimit"; "__thres"]%string)
              (posvel_w c dflt)) (mkVar (Named (idx "positive_vel" i ++ e)%string) dflt)).
      * apply (S _ i Hi). unfold step_costs. rewrite T. apply in_or_app. right. apply in_or_app. right. now left.
      * apply in_or_app. left. apply in_map_iff. exists e. now split.
      * reflexivity.
Qed.

(** The comment in MotionPlanner.__init__ says that "collision_w_0",
    "collision_w_1", ... are keys: the first never is, and by default none is. *)
Theorem C90_documented_keys_refuted qc dflt c o : make_objective qc dflt c = Ok o ->
  ~ In (Named "collision_w_0") (o_aux o ++ o_optim o)
  /\ (c_single c = true -> forall i, ~ In (Named (idx "collision_w" i)) (o_aux o ++ o_optim o)).
Proof.
  intros H.
  assert (P : forall i, is_key (c_num_time_steps c) (c_single c) (truthy (c_positive_vel_w c)) (idx "collision_w" i) ->
      c_single c = false /\ 1 <= i).
  { intros i K. destruct K as [K|[K|[_ [j [_ K]]]]].
    - cbn [In] in K. repeat (destruct K as [K|K]; [discriminate K|]). destruct K.
    - destruct (c_single c); [discriminate K|]. destruct K as [j [Hj K]]. apply (idx_inj "collision_w") in K. split; [easy|lia].
    - cbn [map In] in K. repeat (destruct K as [K|K]; [discriminate K|]). destruct K. }
  assert (Q : forall i, ~ In (Named (idx "collision_w" i)) (o_optim o)).
  { intros i. rewrite (C90_optim_vars _ _ _ _ H). unfold optim_order. rewrite !in_app_iff, in_flat_map.
    intros [K|[K|[j [_ K]]]]; cbn [time_vars In] in K; (destruct K as [K|[K|[]]]; discriminate K). }
  split.
  - rewrite in_app_iff. intros [K|K]; [|now apply (Q 0) in K].
    apply (proj1 (C90_keys _ _ _ _ _ H)) in K. apply (P 0) in K. lia.
  - intros S i. rewrite in_app_iff. intros [K|K]; [|now apply (Q i) in K].
    apply (proj1 (C90_keys _ _ _ _ _ H)) in K. apply P in K as [K _]. congruence.
Qed.

(** ** get_total_squared_errors *)
Definition sum (l : list R) : R := fold_right Rplus 0%R l.
Definition is_gp (f : cfn) : bool := match f_cls f with CGPMotionModel => true | _ => false end.
Definition is_collision (f : cfn) : bool := match f_cls f with CCollision2D => true | _ => false end.

Lemma not_digit_g : ~ digit "g"%char.
Proof. unfold digit. cbn. intros H. repeat (destruct H as [H|H]; [discriminate H|]). exact H. Qed.
Lemma not_digit_c : ~ digit "c"%char.
Proof. unfold digit. cbn. intros H. repeat (destruct H as [H|H]; [discriminate H|]). exact H. Qed.
Lemma contains_step p a s : contains p (String a s) = prefix p (String a s) || contains p s.
Proof. reflexivity. Qed.
Lemma contains_gp_dec i : contains "gp" (dec i) = false.
Proof. apply contains_digits; [apply dec_digits|apply not_digit_g]. Qed.
Lemma contains_coll_dec i : contains "collision" (dec i) = false.
Proof. apply contains_digits; [apply dec_digits|apply not_digit_c]. Qed.

Lemma names_classes c dflt f : In f (all_costs c dflt) ->
  contains "gp" (f_name f) = is_gp f /\ contains "collision" (f_name f) = is_collision f.
Proof.
  intros H. apply in_app_or in H as [H|H].
  - cbn in H. repeat (destruct H as [<-|H]; [unfold is_gp, is_collision; cbn; try (destruct (c_pose_type c)); split; reflexivity|]). destruct H.
  - apply in_flat_map in H as [i [_ H]]. unfold step_costs in H. rewrite !in_app_iff in H.
    destruct H as [[<-|[<-|[]]]|[H|H]];
      [| | destruct (gt0 _); [destruct H as [<-|[]]|easy] | destruct (truthy _); [destruct H as [<-|[]]|easy]];
      cbn [f_name is_gp is_collision f_cls]; unfold idx; cbn [append]; rewrite !contains_step; rewrite ?contains_gp_dec, ?contains_coll_dec;
      cbn [prefix ascii_dec]; split; try reflexivity; cbn; try reflexivity.
Qed.

(** the first number sums the Gaussian process cost functions and the second
    the collision cost functions *)
Theorem C90_total_squared_errors qc dflt c o mse : make_objective qc dflt c = Ok o ->
  total_squared_errors mse o = (sum (map mse (filter is_gp (o_cfs o))), sum (map mse (filter is_collision (o_cfs o)))).
Proof.
  intros H. apply o_cfs_make in H. unfold total_squared_errors. rewrite H.
  assert (G : forall l a b, (forall f, In f l -> contains "gp" (f_name f) = is_gp f /\ contains "collision" (f_name f) = is_collision f) ->
    fold_left (fun (acc : R * R) f =>
      let '(gp, coll) := acc in
      let gp := if contains "gp" (f_name f) then (gp + mse f)%R else gp in
      let coll := if contains "collision" (f_name f) then (coll + mse f)%R else coll in
      (gp, coll)) l (a, b) = ((a + sum (map mse (filter is_gp l)))%R, (b + sum (map mse (filter is_collision l)))%R)).
  { induction l as [|f l IH]; intros a b K; cbn [fold_left filter map sum fold_right].
    - now rewrite !Rplus_0_r.
    - destruct (K f (or_introl eq_refl)) as [K1 K2]. rewrite K1, K2.
      rewrite IH by (intros g Hg; apply K; now right).
      destruct (is_gp f), (is_collision f); cbn [map fold_right sum]; f_equal; unfold sum; cbn [fold_right]; ring. }
  rewrite G by (intros f Hf; now apply names_classes with c dflt). now rewrite !Rplus_0_l.
Qed.

(** ** copy *)
Definition with_weight (c : config) (w : R) : config :=
  mkC (c_map_size c) (c_epsilon_dist c) (c_total_time c) w (c_Qc_inv c) (c_num_time_steps c) (c_single c)
    (c_pose_type c) (c_dtype c) (c_nonholonomic_w c) (c_positive_vel_w c).

Theorem C90_copy qc dflt c p : make_planner qc dflt c = Ok p ->
  c_nonholonomic_w c = 0%R -> c_positive_vel_w c = 0%R ->
  copy_planner qc dflt p None = Ok p
  /\ forall w, w <> 0%R -> copy_planner qc dflt p (Some w) = make_planner qc dflt (with_weight c w).
Proof.
  unfold make_planner at 1. destruct (make_objective qc dflt c) as [o|] eqn:E; [|discriminate].
  cbn [rbind]. intros H. injection H as <-. intros H1 H2.
  unfold copy_planner, copy_config, with_weight. cbn [p_config].
  destruct c; cbn in *; subst. split.
  - unfold make_planner. rewrite E. reflexivity.
  - intros w Hw. unfold truthy. destruct (Req_EM_T w 0); [contradiction|]. reflexivity.
Qed.
(** copying always succeeds *)
Theorem C90_copy_succeeds qc dflt c p w : make_planner qc dflt c = Ok p -> exists p', copy_planner qc dflt p w = Ok p'.
Proof.
  unfold make_planner at 1. destruct (make_objective qc dflt c) as [o|] eqn:E; [|discriminate].
  cbn [rbind]. intros H. injection H as <-.
  assert (A : config_ok qc dflt c) by (apply C90_accepts; eauto).
  assert (B : config_ok qc dflt (copy_config c w)).
  { destruct A as (A0 & A1 & A2 & _). unfold config_ok. cbn.
    split; [easy|]. split; [easy|]. split; [easy|]. split; intros; lra. }
  apply C90_accepts in B as [o' B]. unfold copy_planner, make_planner. cbn [p_config]. rewrite B. cbn. eauto.
Qed.
(** The copy loses the nonholonomic and positive velocity costs ... *)
Theorem C90_copy_same_costs_refuted qc dflt c p w p' i : make_planner qc dflt c = Ok p -> copy_planner qc dflt p w = Ok p' ->
  ~ In (idx "nonholonomic" i) (map f_name (o_cfs (p_obj p'))) /\ ~ In (idx "positive_vel" i) (map f_name (o_cfs (p_obj p'))).
Proof.
  intros _. unfold copy_planner, make_planner. destruct (make_objective qc dflt (copy_config (p_config p) w)) as [o|] eqn:E; [|discriminate].
  cbn [rbind]. intros H. injection H as <-. cbn [p_obj]. rewrite (C90_cost_functions _ _ _ _ E).
  cbn [copy_config c_num_time_steps c_nonholonomic_w c_positive_vel_w].
  rewrite (proj2 (gt0_false 0)) by lra. rewrite (proj2 (truthy_false 0)) by easy.
  unfold cost_names. cbn [app]. split; cbn [In]; intros K;
    repeat (destruct K as [K|K]; [discriminate K|]); apply in_flat_map in K as [j [_ K]]; cbn [In] in K;
    repeat (destruct K as [K|K]; [discriminate K|]); exact K.
Qed.
(** ... and ignores a collision weight of zero *)
Theorem C90_copy_zero_weight_refuted qc dflt c p p' i : make_planner qc dflt c = Ok p -> copy_planner qc dflt p (Some 0%R) = Ok p' ->
  1 <= i <= c_num_time_steps c ->
  exists f, In f (o_cfs (p_obj p')) /\ f_name f = idx "collision" i /\ w_scale (f_weight f) = c_collision_weight c.
Proof.
  unfold make_planner at 1. destruct (make_objective qc dflt c) as [o|] eqn:E; [|discriminate].
  cbn [rbind]. intros H. injection H as <-. unfold copy_planner, make_planner. cbn [p_config].
  destruct (make_objective qc dflt (copy_config c (Some 0%R))) as [o'|] eqn:E'; [|discriminate].
  cbn [rbind]. intros H. injection H as <-. cbn [p_obj]. intros Hi.
  destruct (C90_steps _ _ _ _ i E' Hi) as [[f (A & B & _ & _ & _ & C & _)] _].
  exists f. split; [easy|]. split; [easy|]. rewrite C. cbn [copy_config c_collision_weight].
  rewrite (proj2 (truthy_false 0)) by easy. reflexivity.
Qed.
