(** Property theorems C01-C04, C41, C42 (objective registry). *)
From Coq Require Import List Arith Lia Bool.
Import ListNotations.
From Verif Require Import Dict Obj_model Obj_spec Obj_proofs Obj_proofs2.

(** A small concrete world used for satisfiability examples and refutations: variables are
    0,1,2,3; variable 2 has the same name as variable 0. *)
Definition ex_world : world := {|
  v_name := fun v => if v =? 2 then 0 else v;
  v_dtype_ok := fun v => negb (v =? 9);
  c_name := fun c => c;
  c_optim := fun c => nth c [[0; 1]; [1; 1; 3]; [2]; [1]; [5]; [6]] [];
  c_aux := fun c => nth c [[4]; [4; 7]; []; [0]; []; []] [];
  c_weight := fun c => nth c [0; 0; 1; 1; 2; 2] 1;
  w_optim := fun x => if x =? 2 then [8] else [];
  w_aux := fun x => if x =? 0 then [4] else [];
  allow_mixed := false |}.

(** C01.  After any history of calls none of which raised and none of which re-added a present
    cost function: the cost functions are the expected ones in order of addition, names are
    reported exactly when used, the objects returned are the ones used, and the connected
    functions are exactly the users, with multiplicity. *)
Theorem C01_registry_matches :
  forall (w : world) (ops : list op),
    allow_mixed w = false -> all_ok w ops init = true -> fresh w ops ->
    let s := run w ops init in
    let cs := present w ops in
    values (cost_functions s) = cs /\
    (forall n, has_cost_function s n = true <-> exists c, In c cs /\ c_name w c = n) /\
    (forall n v, get_optim_var s n = Some v <-> used_optim w cs v /\ v_name w v = n) /\
    (forall n v, get_aux_var s n = Some v <-> used_aux w cs v /\ v_name w v = n) /\
    (forall n, has_optim_var s n = true <-> exists v, used_optim w cs v /\ v_name w v = n) /\
    (forall n, has_aux_var s n = true <-> exists v, used_aux w cs v /\ v_name w v = n) /\
    (forall v, used_optim w cs v ->
       exists l, get_functions_connected_to_optim_var s (v_name w v) = Some l /\
                 forall f, count_occ fid_eq_dec l f = times_optim w cs v f) /\
    (forall v, used_aux w cs v ->
       exists l, get_functions_connected_to_aux_var s (v_name w v) = Some l /\
                 forall f, count_occ fid_eq_dec l f = times_aux w cs v f).
Proof.
  intros w ops Hm Hok Hfr s cs.
  assert (HI : Inv w s cs) by (apply run_Inv; auto; apply Inv_init).
  destruct HI as [HJ Hnd Hcf Hnm Hw Hwo Hcw].
  assert (Ho : forall n v, get_optim_var s n = Some v <-> used_optim w cs v /\ v_name w v = n).
  { intros n v. unfold get_optim_var. rewrite (J_o _ _ _ HJ).
    rewrite (J_uactive w s _ KOptim v ltac:(congruence) HJ), uses_active_optim. tauto. }
  assert (Ha : forall n v, get_aux_var s n = Some v <-> used_aux w cs v /\ v_name w v = n).
  { intros n v. unfold get_aux_var. rewrite (J_a _ _ _ HJ).
    rewrite (J_uactive w s _ KAux v ltac:(congruence) HJ), uses_active_aux. tauto. }
  repeat match goal with |- _ /\ _ => split end; auto.
  - unfold values. rewrite Hcf, map_map. apply map_id.
  - intros n. unfold has_cost_function. rewrite has_true, Hcf, lookup_In_keys, cf_keys, in_map_iff.
    split; intros (c & A & B); eauto.
  - intros n. unfold has_optim_var, has. fold (get_optim_var s n).
    split.
    + destruct (get_optim_var s n) as [v|] eqn:E; [|discriminate]. intros _. apply Ho in E. eauto.
    + intros [v Hv]. apply Ho in Hv. now rewrite Hv.
  - intros n. unfold has_aux_var, has. fold (get_aux_var s n).
    split.
    + destruct (get_aux_var s n) as [v|] eqn:E; [|discriminate]. intros _. apply Ha in E. eauto.
    + intros [v Hv]. apply Ha in Hv. now rewrite Hv.
  - intros v Hv. unfold get_functions_connected_to_optim_var, functions_connected.
    fold (get_optim_var s (v_name w v)). rewrite (proj2 (Ho (v_name w v) v)) by auto.
    destruct (J_fo _ _ _ HJ) as [_ F]. specialize (F v).
    assert (Hact : lookup v (fns_for_optim s) <> None)
      by (apply (J_uactive w s _ KOptim v ltac:(congruence) HJ); now apply uses_active_optim).
    destruct (lookup v (fns_for_optim s)) as [l|]; [|congruence]. exists l. split; [reflexivity|apply F].
  - intros v Hv. unfold get_functions_connected_to_aux_var, functions_connected.
    fold (get_aux_var s (v_name w v)). rewrite (proj2 (Ha (v_name w v) v)) by auto.
    destruct (J_fa _ _ _ HJ) as [_ F]. specialize (F v).
    assert (Hact : lookup v (fns_for_aux s) <> None)
      by (apply (J_uactive w s _ KAux v ltac:(congruence) HJ); now apply uses_active_aux).
    destruct (lookup v (fns_for_aux s)) as [l|]; [|congruence]. exists l. split; [reflexivity|apply F].
Qed.
Print Assumptions C01_registry_matches.

(** In such a state [add] of a new cost function is accepted exactly when the resulting set of
    cost functions is consistent (dtypes, one object per name, no dual use, no optimization
    variables in weights, distinct cost function names). *)
Theorem C01_add_accepted_iff_consistent :
  forall (w : world) (ops : list op) (c : cid),
    allow_mixed w = false -> all_ok w ops init = true -> fresh w ops -> ~ In c (present w ops) ->
    (ok (add w c (run w ops init)) = true <-> consistent w (present w ops ++ [c])).
Proof.
  intros w ops c Hm Hok Hfr Hnin.
  assert (HI : Inv w (run w ops init) (present w ops)) by (apply run_Inv; auto; apply Inv_init).
  split.
  - now apply add_fresh_ok_inv.
  - intros HC. destruct (add_fresh_ok w Hm _ _ c HI Hnin HC) as (s' & E & _). now rewrite E.
Qed.
Print Assumptions C01_add_accepted_iff_consistent.

(** [erase] never raises in such a state, whatever the name. *)
Theorem C01_erase_never_raises :
  forall (w : world) (ops : list op) (n : name),
    allow_mixed w = false -> all_ok w ops init = true -> fresh w ops ->
    ok (erase w n (run w ops init)) = true.
Proof.
  intros w ops n Hm Hok Hfr.
  assert (HI : Inv w (run w ops init) (present w ops)) by (apply run_Inv; auto; apply Inv_init).
  destruct (erase_ok w _ _ n HI) as (s' & E & _). now rewrite E.
Qed.
Print Assumptions C01_erase_never_raises.

Example C01_hypotheses_satisfiable :
  let ops := [Add 0; Add 1; Erase 0; Add 0; Erase 7] in
  allow_mixed ex_world = false /\ all_ok ex_world ops init = true /\ fresh ex_world ops /\
  present ex_world ops = [1; 0] /\
  get_functions_connected_to_optim_var (run ex_world ops init) 1 = Some [CF 1; CF 1; CF 0] /\
  get_functions_connected_to_aux_var (run ex_world ops init) 4 = Some [CW 0; CF 1; CF 0].
Proof.
  cbv zeta. split; [reflexivity|]. split; [reflexivity|]. split.
  - unfold fresh; simpl. repeat split; try exact I; vm_compute; intros H;
      repeat match type of H with _ \/ _ => destruct H as [H|H] end; discriminate || contradiction.
  - repeat split; reflexivity.
Qed.

(** C02.  Re-adding is not a no-op: the second [add] of the same object appends to the
    variable-to-function lists, and a later [erase] leaves the variables behind although no
    cost function is in the objective any more. *)
Theorem C02_readd_noop_refuted :
  exists (w : world) (c : cid),
    allow_mixed w = false /\
    all_ok w [Add c; Add c; Erase (c_name w c)] init = true /\
    let s1 := run w [Add c] init in
    let s2 := run w [Add c; Add c] init in
    let s3 := run w [Add c; Add c; Erase (c_name w c)] init in
    (exists n, get_functions_connected_to_optim_var s2 n <> get_functions_connected_to_optim_var s1 n) /\
    cost_functions s3 = [] /\ exists n, has_optim_var s3 n = true /\ has_aux_var s3 4 = true.
Proof.
  exists ex_world, 0. split; [reflexivity|]. split; [vm_compute; reflexivity|]. cbv zeta. split.
  - exists 1. vm_compute. discriminate.
  - split; [vm_compute; reflexivity|]. exists 1. vm_compute. auto.
Qed.
Print Assumptions C02_readd_noop_refuted.

(** What re-adding does preserve: it never raises, and the cost functions and all variable
    containers (names and objects) stay as they were. Missing w.r.t. C02: the lists of connected
    functions and the per-weight lists do change (see the refutation). *)
Theorem C02_readd_partial :
  forall (w : world) (ops : list op) (c : cid),
    allow_mixed w = false -> all_ok w ops init = true -> fresh w ops -> In c (present w ops) ->
    let s := run w ops init in
    exists s', add w c s = Ok s' /\
      cost_functions s' = cost_functions s /\ optim_vars s' = optim_vars s /\
      aux_vars s' = aux_vars s /\ all_vars s' = all_vars s /\ version s' = S (version s).
Proof.
  intros w ops c Hm Hok Hfr Hin. apply readd_ok with (cs := present w ops); auto.
  apply run_Inv; auto; apply Inv_init.
Qed.
Print Assumptions C02_readd_partial.

(** C03, for histories in which no call raised (re-adding allowed): a name denotes one object in
    all containers, and the object stored under a name has that name. *)
Theorem C03_one_object_per_name_partial :
  forall (w : world) (ops : list op),
    allow_mixed w = false -> all_ok w ops init = true ->
    let s := run w ops init in
    forall n v v',
      (lookup n (optim_vars s) = Some v \/ lookup n (aux_vars s) = Some v \/
       lookup n (cw_optim_vars s) = Some v \/ lookup n (all_vars s) = Some v) ->
      (lookup n (optim_vars s) = Some v' \/ lookup n (aux_vars s) = Some v' \/
       lookup n (cw_optim_vars s) = Some v' \/ lookup n (all_vars s) = Some v') ->
      v = v' /\ v_name w v = n.
Proof.
  intros w ops Hm Hok s n v v' H H'.
  assert (HI : Inv3 w s) by (apply run_Inv3; auto; apply Inv3_init).
  destruct HI as (u & HJ & Hcw & _).
  assert (Hall : forall x, (lookup n (optim_vars s) = Some x \/ lookup n (aux_vars s) = Some x \/
       lookup n (cw_optim_vars s) = Some x \/ lookup n (all_vars s) = Some x) ->
       lookup n (all_vars s) = Some x /\ v_name w x = n).
  { intros x [A|[A|[A|A]]].
    - apply (J_o _ _ _ HJ) in A as [A B]. split; [|exact A].
      apply (J_all _ _ _ HJ). split; [exact A|]. now left.
    - apply (J_a _ _ _ HJ) in A as [A B]. split; [|exact A].
      apply (J_all _ _ _ HJ). split; [exact A|]. now right.
    - rewrite Hcw in A. discriminate.
    - split; [exact A|]. now apply (J_all _ _ _ HJ) in A as [A _]. }
  apply Hall in H as [H1 H2]. apply Hall in H' as [H3 _]. split; congruence.
Qed.
Print Assumptions C03_one_object_per_name_partial.

Example C03_hypotheses_satisfiable :
  let ops := [Add 0; Add 0; Erase 0; Add 1; Add 0; Erase 1] in
  allow_mixed ex_world = false /\ all_ok ex_world ops init = true /\
  lookup 0 (optim_vars (run ex_world ops init)) = Some 0.
Proof. vm_compute. repeat split; reflexivity. Qed.

(** C03 at full strength (raising calls included) is false: [add] is not atomic, and after
    a raising [add], an [erase] and another raising [add], one name denotes two objects. *)
Theorem C03_one_object_per_name_refuted :
  exists (w : world) (ops : list op) (n : name) (v v' : vid),
    allow_mixed w = false /\
    get_optim_var (run w ops init) n = Some v /\ get_aux_var (run w ops init) n = Some v' /\ v <> v'.
Proof.
  exists ex_world, [Add 0; Add 3; Erase 0; Add 2], 0, 2, 0.
  vm_compute. repeat split; try reflexivity. discriminate.
Qed.
Print Assumptions C03_one_object_per_name_refuted.

(** C04.  Whatever calls are made, raising or not, from whatever state: the version never
    decreases, every [erase] and every [add] that gets past the cost-function name check increments
    it, and if an optimizer built before is allowed to run then the objective is exactly the one it was built on. *)
Theorem C04_version_strictly_increases :
  forall (w : world) (o : op) (s : state),
    (exists c c', o = Add c /\ lookup (c_name w c) (cost_functions s) = Some c' /\ c' <> c /\
       step w o s = Raise ValueError s)
    \/ version (final (step w o s)) = S (version s).
Proof.
  intros w [c|n] s; simpl; [|right; apply erase_version].
  destruct (add_version w c s) as [(c' & A & B & C)|H]; [|auto]. left. eauto 6.
Qed.
Print Assumptions C04_version_strictly_increases.

Theorem C04_stale_optimizer_never_runs :
  forall (w : world) (ops : list op) (s : state),
    version s <= version (run w ops s) /\ (optimize (make_optimizer s) (run w ops s) = Runs <-> run w ops s = s).
Proof.
  intros w ops s. split; [apply run_version_le|].
  unfold optimize, make_optimizer; simpl.
  destruct (version s =? version (run w ops s)) eqn:E.
  - apply Nat.eqb_eq in E. split; [|reflexivity]. intros _. apply run_version_eq. congruence.
  - split; [discriminate|]. intros H. rewrite H, Nat.eqb_refl in E. discriminate.
Qed.
Print Assumptions C04_stale_optimizer_never_runs.

Example C04_both_outcomes :
  let s := run ex_world [Add 0] init in
  optimize (make_optimizer s) (run ex_world [] s) = Runs /\
  optimize (make_optimizer s) (run ex_world [Add 1] s) = RaisesStale /\
  optimize (make_optimizer s) (run ex_world [Add 3] s) = RaisesStale /\
  ok (add ex_world 3 s) = false.
Proof. vm_compute. repeat split; reflexivity. Qed.

(** C41.  A raising [add] is not rolled back: the cost function stays in the objective, and a
    later [erase] of it can raise as well. *)
Theorem C41_add_atomic_refuted :
  exists (w : world) (ops : list op) (c : cid),
    allow_mixed w = false /\ all_ok w ops init = true /\ fresh w ops /\ ~ In c (present w ops) /\
    let s := run w ops init in
    ok (add w c s) = false /\
    has_cost_function (final (add w c s)) (c_name w c) = true /\
    ok (erase w (c_name w c) (final (add w c s))) = false.
Proof.
  exists ex_world, [Add 0], 3.
  split; [reflexivity|]. split; [vm_compute; reflexivity|]. split; [unfold fresh; simpl; tauto|].
  split; [vm_compute; intros [H|[]]; discriminate|]. vm_compute. repeat split; reflexivity.
Qed.
Print Assumptions C41_add_atomic_refuted.

(** What does hold: the only raising [add] that changes nothing at all is the cost-function name
    clash; every other raising [add] moves the version, so an existing optimizer will not run. *)
Theorem C41_raising_add_partial :
  forall (w : world) (c : cid) (s : state) (e : exn) (s' : state),
    add w c s = Raise e s' ->
    (s' = s /\ exists c', lookup (c_name w c) (cost_functions s) = Some c' /\ c' <> c) \/
    optimize (make_optimizer s) s' = RaisesStale.
Proof.
  intros w c s e s' H. destruct (add_version w c s) as [(c' & A & B & C)|Hv].
  - left. rewrite C in H. injection H as _ <-. eauto.
  - right. rewrite H in Hv. simpl in Hv. unfold optimize, make_optimizer. simpl. rewrite Hv.
    replace (version s =? S (version s)) with false; [reflexivity|].
    symmetry. apply Nat.eqb_neq. lia.
Qed.
Print Assumptions C41_raising_add_partial.

(** C42.  A cost weight with optimization variables is rejected only the first time: a second
    cost function using the same weight object is accepted. *)
Theorem C42_weight_with_optim_vars_rejected_refuted :
  exists (w : world) (c1 c2 : cid),
    allow_mixed w = false /\ c1 <> c2 /\ w_optim w (c_weight w c2) <> [] /\
    ok (add w c1 init) = false /\ ok (add w c2 (final (add w c1 init))) = true.
Proof.
  exists ex_world, 4, 5. vm_compute. repeat split; try reflexivity; discriminate.
Qed.
Print Assumptions C42_weight_with_optim_vars_rejected_refuted.

(** ... and is always rejected in histories without an earlier exception. *)
Theorem C42_weight_with_optim_vars_rejected_partial :
  forall (w : world) (ops : list op) (c : cid),
    allow_mixed w = false -> all_ok w ops init = true -> w_optim w (c_weight w c) <> [] ->
    ok (add w c (run w ops init)) = false.
Proof.
  intros w ops c Hm Hok Hw.
  assert (HI : Inv3 w (run w ops init)) by (apply run_Inv3; auto; apply Inv3_init).
  destruct (ok (add w c (run w ops init))) eqn:E; [|reflexivity]. exfalso.
  pose proof (add_Inv3 w Hm _ c HI E) as HI'.
  destruct HI' as (u & _ & _ & H). apply Hw. apply H.
  apply add_ok_has_weight. exact E.
Qed.
Print Assumptions C42_weight_with_optim_vars_rejected_partial.

Example C42_hypotheses_satisfiable :
  all_ok ex_world [Add 0; Add 1] init = true /\ w_optim ex_world (c_weight ex_world 4) <> [].
Proof. vm_compute. split; [reflexivity|discriminate]. Qed.
