(** C95: the factor graph of the tactile pose estimator. *)
From Coq Require Import Reals List String Ascii Arith Bool Lia Lra FinFun.
From Verif Require Import Geo_spec SE2_model Mp_model Mp_spec Mp_props Mp_main Tac_model Tac_spec Tac_win Tac_obj.
Import ListNotations.
Local Open Scope list_scope.

(** for every number of steps and every window, the objective consists of
    exactly the expected cost functions, each once *)
Theorem C95_costs : forall c, q_step c <> 0 -> exists o,
  make_objective F64 F64 F64 F64 c = Ok o
  /\ NoDup (map f_name (o_cfs o))
  /\ (forall f, In f (o_cfs o) -> exists vs, names (f_optim f) = map Named vs
        /\ expected c (f_name f) (f_cls f) vs (names (f_aux f)) (names (w_aux (f_weight f))))
  /\ (forall n k vs aux w, expected c n k vs aux w ->
        exists f, In f (o_cfs o) /\ of_cfn f = (n, k, map Named vs, aux, w)).
Proof.
  intros c H. eexists. split; [now apply objective_ok|]. rewrite after_all_cfs. cbn [o_cfs app].
  split; [now apply names_NoDup|]. split.
  - intros f Hf. apply in_costs in Hf; [|easy].
    destruct Hf as [[A ->]|[[i [A ->]]|[[i [o [A [B ->]]]]|[[i [A [->| ->]]]|[A [i [B [->| ->]]]]]]]].
    + exists [idx "obj_pose" 0]. split; [reflexivity|]. exact (Exp_start c A).
    + eexists [_; _; _; _]. split; [reflexivity|]. exact (Exp_qsp c i A).
    + eexists [_; _; _; _]. split; [reflexivity|].
      apply (Exp_mf c (i - o) i).
      apply in_offs in B as [k [-> [B C]]]; [|easy]. split; [lia|]. split; [easy|]. exists k. lia.
    + eexists [_; _]. split; [reflexivity|]. exact (Exp_contact c i A).
    + eexists [_]. split; [reflexivity|]. exact (Exp_eff c i A).
    + eexists [_]. split; [reflexivity|]. exact (Exp_reg c i _ A B (or_introl eq_refl)).
    + eexists [_]. split; [reflexivity|]. exact (Exp_reg c i _ A B (or_intror eq_refl)).
  - intros n k vs aux w E. destruct E as [A|i A|j i A|i A|i A|i p A B C].
    + exists (start_cost F64). split; [apply in_costs; auto|reflexivity].
    + exists (qsp_cost F64 i). split; [apply in_costs; eauto 8|reflexivity].
    + destruct A as [A [B [k [E L]]]].
      exists (mf F64 (i, q_min c + k * q_step c)). split.
      * apply in_costs; [easy|]. right; right; left. exists i, (q_min c + k * q_step c). repeat split; [easy|].
        apply in_offs; [easy|]. exists k. lia.
      * unfold of_cfn, mf, meas. cbn [fst snd f_name f_cls f_optim f_aux f_weight names map v_name ov ev].
        replace (i - (q_min c + k * q_step c)) with j by lia. reflexivity.
    + exists (contact_cost F64 F64 F64 F64 i). split; [apply in_costs; eauto 10|reflexivity].
    + exists (eff_cost F64 i). split; [apply in_costs; eauto 10|reflexivity].
    + destruct C as [->| ->]; eexists.
      * split; [apply in_costs; [easy|]; do 4 right; split; [exact A|]; exists i; split; [exact B|]; left; reflexivity|reflexivity].
      * split; [apply in_costs; [easy|]; do 4 right; split; [exact A|]; exists i; split; [exact B|]; right; reflexivity|reflexivity].
Qed.

(** the optimization variables are the object and effector poses of all steps *)
Theorem C95_optim_vars : forall c o, q_step c <> 0 -> make_objective F64 F64 F64 F64 c = Ok o ->
  NoDup (o_optim o)
  /\ (forall n, In n (o_optim o) <-> exists i, i < q_N c /\ (n = Named (idx "obj_pose" i) \/ n = Named (idx "eff_pose" i))).
Proof.
  intros c o H E. rewrite objective_ok in E by easy. injection E as <-. rewrite after_all_optim. cbn [o_optim].
  split; [apply inserts_NoDup; constructor|]. intros n. rewrite inserts_In. cbn [In]. rewrite in_map_iff. split.
  - intros [[v [<- K]]|[]]. apply in_flat_map in K as [f [Hf Hv]]. apply in_costs in Hf; [|easy].
    destruct Hf as [[A ->]|[[i [A ->]]|[[i [off [A [B ->]]]]|[[i [A [->| ->]]]|[_ [i [A [->| ->]]]]]]]];
      unfold f_optim in Hv; cbn -[ov ev] in Hv; repeat (destruct Hv as [Hv|Hv]); try contradiction; subst v;
      match goal with |- exists i0, _ /\ (v_name (_ ?k) = _ \/ _) => exists k; split; [lia|auto] end.
  - intros [i [A B]]. left.
    assert (K : In (contact_cost F64 F64 F64 F64 i) (all_costs F64 F64 F64 F64 c)) by (apply in_costs; eauto 10).
    destruct B as [->| ->]; [exists (ov i)|exists (ev i)]; (split; [reflexivity|]);
      apply in_flat_map; exists (contact_cost F64 F64 F64 F64 i); (split; [exact K|]); cbn; auto.
Qed.

Lemma weights_consistent c : q_step c <> 0 -> w_consistent (all_costs F64 F64 F64 F64 c).
Proof.
  intros H f g Hf Hg. apply in_costs in Hf; [|easy]. apply in_costs in Hg; [|easy].
  destruct Hf as [[_ ->]|[[i [_ ->]]|[[i [off [_ [_ ->]]]]|[[i [_ [->| ->]]]|[_ [i [_ [->| ->]]]]]]]];
  destruct Hg as [[_ ->]|[[i' [_ ->]]|[[i' [off' [_ [_ ->]]]]|[[i' [_ [->| ->]]]|[_ [i' [_ [->| ->]]]]]]]];
  cbn; intros E; try reflexivity; discriminate.
Qed.
Theorem C95_aux_vars : forall c o, q_step c <> 0 -> 0 < q_N c -> make_objective F64 F64 F64 F64 c = Ok o ->
  NoDup (o_aux o) /\ (forall s, In (Named s) (o_aux o) <-> is_aux c s).
Proof.
  intros c o H P E. rewrite objective_ok in E by easy. injection E as <-.
  split; [apply after_all_aux_NoDup; constructor|]. intros s. split.
  - intros K. apply after_all_aux_sub in K as [[]|K]. apply in_map_iff in K as [v [Ev K]].
    apply in_flat_map in K as [f [Hf Hv]]. apply in_costs in Hf; [|easy]. unfold is_aux.
    destruct Hf as [[A ->]|[[i [A ->]]|[[i [off [A [B ->]]]]|[[i [A [->| ->]]]|[C [i [A [->| ->]]]]]]]];
      unfold f_aux, f_weight, w_aux in Hv; cbn -[idx idx2 Tac_obj.meas append] in Hv; repeat (destruct Hv as [Hv|Hv]); try contradiction; subst v;
      try (injection Ev as <-); try discriminate Ev; auto 12.
    + do 8 right; left. exists i. auto.
    + do 8 right; left. exists i. auto.
    + do 9 right; left. exists (i - off), i. split; [|left; reflexivity].
      apply in_offs in B as [k [-> [B C]]]; [|easy]. split; [lia|]. split; [easy|]. exists k. lia.
    + do 9 right; left. exists (i - off), i. split; [|right; reflexivity].
      apply in_offs in B as [k [-> [B C]]]; [|easy]. split; [lia|]. split; [easy|]. exists k. lia.
    + do 7 right; left. exists i. auto.
  - destruct (after_all_aux_has (all_costs F64 F64 F64 F64 c) (mkO F64 [] [] [] [])) as [_ G];
      [intros w [] | cbn; now apply weights_consistent |].
    assert (first : forall f v, In f (all_costs F64 F64 F64 F64 c) -> In v (f_aux f ++ w_aux (f_weight f)) -> v_name v = Named s ->
        In (Named s) (o_aux (after_all (mkO F64 [] [] [] []) (all_costs F64 F64 F64 F64 c)))).
    { intros f v Hf Hv Es. apply G. rewrite <- Es. apply List.in_map. apply in_flat_map. eauto. }
    assert (C0 : In (contact_cost F64 F64 F64 F64 0) (all_costs F64 F64 F64 F64 c)) by (apply in_costs; eauto 10).
    assert (S0 : In (start_cost F64) (all_costs F64 F64 F64 F64 c)) by (apply in_costs; auto).
    intros K. unfold is_aux in K.
    repeat (destruct K as [K|K]).
    + subst. eapply first; [exact S0|cbn; left; reflexivity|reflexivity].
    + subst. eapply first; [exact S0|cbn; right; left; reflexivity|reflexivity].
    + subst. eapply first; [exact C0|cbn; do 4 right; left; reflexivity|reflexivity].
    + subst. eapply first; [exact C0|cbn; do 3 right; left; reflexivity|reflexivity].
    + subst. eapply first; [exact C0|cbn; left; reflexivity|reflexivity].
    + subst. eapply first; [exact C0|cbn; right; left; reflexivity|reflexivity].
    + subst. eapply first; [exact C0|cbn; do 2 right; left; reflexivity|reflexivity].
    + destruct K as [i [A ->]]. eapply (first (eff_cost F64 i)); [apply in_costs; eauto 10|cbn; left; reflexivity|reflexivity].
    + destruct K as [i [A [->| ->]]]; eapply (first (qsp_cost F64 i)); try (apply in_costs; eauto 10; fail);
        [cbn; left; reflexivity|reflexivity|cbn; right; left; reflexivity|reflexivity].
    + destruct K as [j [i [A B]]]. destruct A as [A1 [A2 [k [A3 A4]]]].
      assert (M : In (mf F64 (i, q_min c + k * q_step c)) (all_costs F64 F64 F64 F64 c)).
      { apply in_costs; [easy|]. right; right; left. exists i, (q_min c + k * q_step c). repeat split; [easy|].
        apply in_offs; [easy|]. exists k. lia. }
      destruct B as [->| ->].
      * eapply first; [exact M|cbn; left; reflexivity|]. unfold meas. cbn [v_name dv fst snd].
        replace (i - (q_min c + k * q_step c)) with j by lia. reflexivity.
      * eapply first; [exact M|cbn; right; left; reflexivity|reflexivity].
    + destruct K as [A ->]. eapply (first (mkCF CDifference ("reg_" ++ idx "obj_pose" 0) [ov 0] [dv F64 "identity"] (reg_w c)));
        [apply in_costs; [easy|]; do 4 right; split; [exact A|]; exists 0; auto|cbn; left; reflexivity|reflexivity].
Qed.

(** torch's default dtype must be double: otherwise no estimator can be made *)
Theorem C95_default_dtype_refuted : forall sdf_d cell_d origin_d c, q_step c <> 0 -> 0 < q_N c ->
  make_objective F32 sdf_d cell_d origin_d c = Err ValueErr.
Proof.
  intros sd cd od c H P. rewrite make_objective_eq by easy. unfold all_costs.
  replace (q_N c) with (S (q_N c - 1)) by lia. reflexivity.
Qed.
Theorem C95_step_zero : forall d a b e c, q_step c = 0 -> q_min c < q_N c -> make_objective d a b e c = Err ValueErr.
Proof.
  intros d a b e c H L. unfold make_objective, nn_measurements. rewrite H, cells_step0.
  destruct (Nat.ltb_spec (q_min c) (q_N c)); [reflexivity|lia].
Qed.
(** who is paired with whom: with the windows of the example (min 10, max 40,
    step 5) and 25 steps *)
Example pairs_example :
  map pair_of (pure_cells 25 10 40 5)
  = [(1,11);(2,12);(3,13);(4,14);(5,15);(6,16);(1,16);(7,17);(2,17);(8,18);(3,18);(9,19);(4,19);(10,20);(5,20);
     (11,21);(6,21);(1,21);(12,22);(7,22);(2,22);(13,23);(8,23);(3,23);(14,24);(9,24);(4,24)].
Proof. reflexivity. Qed.
Example objective_example : exists o, make_objective F64 F64 F64 F64 (mkPar 4 1 3 1 0) = Ok o.
Proof. destruct (C95_costs (mkPar 4 1 3 1 0)) as [o [H _]]; [cbn; lia|]. now exists o. Qed.
