(** C95: which values reach which variables of the tactile pose estimator. *)
From Coq Require Import Reals List String Ascii Arith Bool Lia Lra FinFun.
From Verif Require Import Geo_spec Geo3_spec SE2_model SE2_group Emb_model Mp_model Mp_spec Mp_props Mp_main Tac_model Tac_spec Tac_win Tac_obj Tac_props Tac_inp.
Import ListNotations.
Local Open Scope list_scope.

(** the measurement that belongs to the steps j, i of the episode e *)
Definition measured {F} (b : batch F) (model : option (F -> F -> SE2)) (e j i : nat) : SE2 :=
  match model with
  | Some m => m (b_img F b e j) (b_img F b e i)
  | None => oracle_row (b_eff F b e j) (b_eff F b e i) (b_obj F b e j) (b_obj F b e i)
  end.
Definition cells_of (c : params) : list (nat * nat) := pure_cells (q_N c) (q_min c) (q_max c) (q_step c).
(** the pairs in the order of the loops *)
Definition pairs_of (c : params) : list (nat * nat) := map pair_of (cells_of c).

(** rows per group and number of groups after the reshape *)
Definition width {F} (b : batch F) (model : option (F -> F -> SE2)) (c : params) : nat :=
  match model with Some _ => List.length (cells_of c) * b_n F b | None => List.length (cells_of c) end.
Definition groups {F} (b : batch F) (model : option (F -> F -> SE2)) : nat :=
  match model with Some _ => 1 | None => b_n F b end.

Lemma nn_inputs_ok {F} (b : batch F) model c : 1 <= b_n F b -> q_step c <> 0 -> cells_of c <> [] ->
  nn_inputs F b model (q_N c) (q_min c) (q_max c) (q_step c)
  = Ok (meas_dict b (fun p e => measured b model e (fst p - snd p) (fst p)) (cells_of c) (width b model c) (groups b model)).
Proof.
  intros Hn H Hc. destruct model as [m|].
  - rewrite nn_inputs_nn by easy. reflexivity.
  - rewrite nn_inputs_oracle by easy. reflexivity.
Qed.

Ltac key_clash K := let x := fresh in
  unfold keys in K; rewrite ?map_map in K;
  first [ apply in_map_iff in K as [x [K _]]; discriminate
        | cbn in K; repeat (destruct K as [K|K]); (discriminate || contradiction) ].

Lemma optim_keys {F} (b : batch F) N k : In k (keys (initial_optim_vars F b N)) <->
  exists s, s < N /\ (k = idx "obj_pose" s \/ k = idx "eff_pose" s).
Proof.
  unfold keys, initial_optim_vars. rewrite in_map_iff. split.
  - intros [[k' v] [<- K]]. apply in_flat_map in K as [s [Hs K]]. apply in_seq in Hs. exists s. split; [lia|].
    cbn -[idx] in K. destruct K as [K|[K|[]]]; injection K as <- _; auto.
  - intros [s [Hs K]]. destruct K as [->| ->]; eexists (_, _); (split; [reflexivity|]); apply in_flat_map;
      exists s; (split; [apply in_seq; lia|]); cbn; [left|right; left]; reflexivity.
Qed.
Lemma mc_keys {F} (b : batch F) N k : In k (keys (motion_capture_inputs F b N)) <-> exists s, s < N /\ k = idx "motion_capture" s.
Proof.
  unfold keys, motion_capture_inputs. rewrite map_map, in_map_iff. split.
  - intros [s [<- Hs]]. apply in_seq in Hs. exists s. split; [lia|reflexivity].
  - intros [s [Hs ->]]. exists s. split; [reflexivity|apply in_seq; lia].
Qed.
Lemma meas_keys {F} (b : batch F) g l m q k : In k (keys (meas_dict b g l m q)) <->
  exists p, In p l /\ k = idx2 "nn_measurement" (fst p - snd p) (fst p).
Proof.
  unfold keys, meas_dict. rewrite map_map, in_map_iff. split.
  - intros [[p k'] [<- K]]. exists p. split; [|reflexivity]. now apply in_combine_l in K.
  - intros [p [Hp ->]]. apply In_nth_error in Hp as [n Hn]. exists (p, n). split; [reflexivity|].
    assert (G : forall (l0 : list (nat*nat)) a k0, nth_error l0 k0 = Some p -> In (p, a + k0) (combine l0 (seq a (List.length l0)))).
    { induction l0 as [|x l0 IH]; intros a k0 K0; [destruct k0; discriminate|]. cbn [List.length seq combine].
      destruct k0 as [|k0]; [injection K0 as ->; left; f_equal; lia|]. right. cbn in K0.
      replace (a + S k0) with (S a + k0) by lia. now apply IH. }
    apply (G l 0 n Hn).
Qed.

(** the inputs can be made exactly when there is at least one pair *)
Theorem C95_inputs_fail : forall F (b : batch F) model c, 1 <= b_n F b -> q_step c <> 0 ->
  (theseus_inputs F b model c = Err RuntimeErr <-> q_N c <= q_min c + 1 \/ q_max c <= q_min c)
  /\ ((exists d, theseus_inputs F b model c = Ok d) <-> exists j i, is_pair c j i).
Proof.
  intros F b model c Hn H. unfold theseus_inputs.
  destruct (cells_of c) as [|p r] eqn:E.
  - unfold cells_of in E. rewrite nn_inputs_empty by easy. cbn [rbind]. split; split.
    + intros _. now apply no_cells.
    + reflexivity.
    + intros [d Hd]. discriminate.
    + intros [j [i P]]. apply in_pairs in P; [|easy]. rewrite E in P. contradiction.
  - rewrite nn_inputs_ok; [|easy|easy|rewrite E; discriminate]. cbn [rbind]. split; split.
    + discriminate.
    + intros D. apply no_cells in D; [|easy]. unfold cells_of in E. congruence.
    + intros _. exists (fst (pair_of p)), (snd (pair_of p)). apply in_pairs; [easy|]. fold (cells_of c). rewrite E. left. now destruct (pair_of p).
    + intros _. eexists. reflexivity.
Qed.

Lemma inputs_shape {F} (b : batch F) model c d : 1 <= b_n F b -> q_step c <> 0 -> theseus_inputs F b model c = Ok d ->
  cells_of c <> [] /\
  d = start_and_capture F b (q_N c)
      ++ [("sdf_data", VOther "sdf_data"); ("sdf_cell_size", VOther "sdf_cell_size"); ("sdf_origin", VOther "sdf_origin")]%string
      ++ meas_dict b (fun p e => measured b model e (fst p - snd p) (fst p)) (cells_of c) (width b model c) (groups b model)
      ++ motion_capture_inputs F b (q_N c) ++ cost_weight_inputs ++ initial_optim_vars F b (q_N c).
Proof.
  intros Hn H E. assert (NE : cells_of c <> []).
  { intros Z. assert (X : exists j i, is_pair c j i) by (apply (C95_inputs_fail F b model c Hn H); eauto).
    destruct X as [j [i P]]. apply in_pairs in P; [|easy]. unfold cells_of in Z. rewrite Z in P. contradiction. }
  split; [easy|]. unfold theseus_inputs in E. rewrite nn_inputs_ok in E by easy. cbn [rbind] in E. congruence.
Qed.

Lemma meas_value {F} (b : batch F) model c d k p : 1 <= b_n F b -> q_step c <> 0 -> theseus_inputs F b model c = Ok d ->
  nth_error (cells_of c) k = Some p ->
  lookup d (idx2 "nn_measurement" (fst p - snd p) (fst p))
  = Some (VPoses (map (fun g => let r := g * width b model c + k in
             let q := nth (r / b_n F b) (pairs_of c) (0, 0) in measured b model (r mod b_n F b) (fst q) (snd q))
           (seq 0 (groups b model)))).
Proof.
  intros Hn H E K. destruct (inputs_shape b model c d Hn H E) as [NE ->].
  rewrite !lookup_app.
  rewrite (lookup_none (initial_optim_vars F b (q_N c))) by (rewrite optim_keys; intros [s [_ [X|X]]]; discriminate).
  rewrite (lookup_none cost_weight_inputs) by (intros X; key_clash X).
  rewrite (lookup_none (motion_capture_inputs F b (q_N c))) by (rewrite mc_keys; intros [s [_ X]]; discriminate).
  rewrite (meas_lookup b _ (q_N c) (q_min c) (q_max c) (q_step c) _ _ k p H K).
  f_equal. f_equal. apply map_ext. intros g. cbv zeta. unfold pairs_of.
  rewrite (map_nth pair_of (cells_of c) (0, 0) _ : nth _ (map pair_of (cells_of c)) (0, 0) = _). reflexivity.
Qed.

(** one episode: every measurement is the one of its pair of steps *)
Theorem C95_single_episode : forall F (b : batch F) model c d, b_n F b = 1 -> q_step c <> 0 -> theseus_inputs F b model c = Ok d ->
  forall j i, is_pair c j i -> lookup d (idx2 "nn_measurement" j i) = Some (VPoses [measured b model 0 j i]).
Proof.
  intros F b model c d Hn H E j i P. apply in_pairs in P; [|easy]. fold (cells_of c) in P.
  apply in_map_iff in P as [p [Ep P]]. apply In_nth_error in P as [k K].
  pose proof (meas_value b model c d k p) as V. rewrite Hn in V. specialize (V (le_n 1) H E K).
  unfold pair_of in Ep. injection Ep as <- <-. rewrite V. f_equal. f_equal.
  assert (G : groups b model = 1) by (unfold groups; destruct model; easy). rewrite G. cbn [seq map]. cbv zeta.
  rewrite Nat.mul_0_l, Nat.add_0_l, Nat.div_1_r, Nat.mod_1_r. f_equal.
  assert (Z : nth k (pairs_of c) (0, 0) = pair_of p).
  { apply nth_error_nth. unfold pairs_of. now apply map_nth_error. }
  rewrite Z. reflexivity.
Qed.
(** any number B of episodes: with the network one measurement for all
    episodes, that of the pair number k / B and the episode k mod B; with the
    oracle the episode e gets that of the row e P + k *)
Theorem C95_measurements : forall F (b : batch F) model c, 1 <= b_n F b -> q_step c <> 0 ->
  exists l, NoDup l /\ (forall j i, In (j, i) l <-> is_pair c j i) /\
  forall d, theseus_inputs F b model c = Ok d ->
  forall k j i, nth_error l k = Some (j, i) ->
  lookup d (idx2 "nn_measurement" j i)
  = Some (VPoses (match model with
      | Some _ => let q := nth (k / b_n F b) l (0, 0) in [measured b model (k mod b_n F b) (fst q) (snd q)]
      | None => map (fun e => let r := e * List.length l + k in
          let q := nth (r / b_n F b) l (0, 0) in measured b model (r mod b_n F b) (fst q) (snd q)) (seq 0 (b_n F b))
      end)).
Proof.
  intros F b model c Hn H. exists (pairs_of c). split; [now apply pairs_NoDup|]. split; [intros; now apply in_pairs|].
  intros d E k j i K.
  unfold pairs_of in K. rewrite nth_error_map in K. destruct (nth_error (cells_of c) k) as [p|] eqn:Kp; [|discriminate].
  cbn in K. unfold pair_of in K. injection K as <- <-.
  rewrite (meas_value b model c d k p Hn H E Kp). f_equal. f_equal. unfold width, groups. destruct model; [reflexivity|].
  assert (Lq : List.length (pairs_of c) = List.length (cells_of c)) by apply map_length. rewrite Lq. reflexivity.
Qed.
(** so with two or more episodes the network's measurements are not given to
    their episodes: the variable has one row, which belongs to one episode *)
Theorem C95_batch_nn_refuted : forall c B, q_step c <> 0 -> 2 <= B -> (exists j i, is_pair c j i) ->
  exists (b : batch R) (model : R -> R -> SE2) d, b_n R b = B /\ theseus_inputs R b (Some model) c = Ok d
  /\ exists j i, is_pair c j i
     /\ lookup d (idx2 "nn_measurement" j i) = Some (VPoses [measured b (Some model) 0 j i])
     /\ measured b (Some model) 1 j i <> measured b (Some model) 0 j i.
Proof.
  intros c B H HB P.
  set (b := mkB R B (fun _ _ => mkV3 0 0 0) (fun _ _ => mkV3 0 0 0) (fun e _ => INR e)).
  set (model := fun x _ : R => mkSE2 x 0 1 0).
  assert (Hn : 1 <= b_n R b) by (cbn; lia).
  pose proof (C95_inputs_fail R b (Some model) c Hn H) as [_ W]. destruct (proj2 W P) as [d Hd].
  exists b, model, d. split; [reflexivity|]. split; [exact Hd|].
  destruct (C95_measurements R b (Some model) c Hn H) as [l [_ [M V]]]. specialize (V d Hd).
  destruct l as [|[j i] l]; [destruct P as [j [i P]]; apply M in P; contradiction|].
  exists j, i. split; [apply M; now left|]. split.
  - rewrite (V 0 j i eq_refl). rewrite Nat.div_0_l, Nat.mod_0_l by lia. reflexivity.
  - cbn. intros X. injection X as X. lra.
Qed.
(** the same without a network, if there are two or more pairs: a pair of
    steps of the episode 0 gets the measurement of the episode 1 *)
Theorem C95_batch_oracle_refuted : forall c B, q_step c <> 0 -> 2 <= B -> 1 <= q_min c ->
  (exists j i j' i', is_pair c j i /\ is_pair c j' i' /\ (j, i) <> (j', i')) ->
  exists (b : batch unit) d, b_n unit b = B /\ theseus_inputs unit b None c = Ok d
  /\ exists j i l, is_pair c j i /\ lookup d (idx2 "nn_measurement" j i) = Some (VPoses l)
     /\ nth_error l 0 <> Some (measured b None 0 j i).
Proof.
  intros c B H HB Hm P.
  set (b := mkB unit B (fun e t => mkV3 (INR e * INR t) 0 0) (fun _ _ => mkV3 0 0 0) (fun _ _ => tt)).
  assert (Hn : 1 <= b_n unit b) by (cbn; lia).
  assert (P0 : exists j i, is_pair c j i) by (destruct P as [j [i [_ [_ [P _]]]]]; eauto).
  pose proof (C95_inputs_fail unit b None c Hn H) as [_ W]. destruct (proj2 W P0) as [d Hd].
  exists b, d. split; [reflexivity|]. split; [exact Hd|].
  destruct (C95_measurements unit b None c Hn H) as [l [ND [M V]]]. specialize (V d Hd).
  destruct l as [|[j0 i0] [|[j i] l]].
  - destruct P0 as [j [i P0]]. apply M in P0. contradiction.
  - destruct P as [j [i [j' [i' [A [A' D]]]]]]. apply M in A. apply M in A'.
    destruct A as [A|[]]. destruct A' as [A'|[]]. congruence.
  - exists j, i. eexists. split; [apply M; right; now left|]. split; [apply (V 1 j i eq_refl)|].
    replace (b_n unit b) with (S (B - 1)) by (cbn; lia). cbn [seq map nth_error]. cbv zeta.
    replace ((0 * List.length ((j0, i0) :: (j, i) :: l) + 1) / S (B - 1)) with 0 by (symmetry; apply Nat.div_small; lia).
    replace ((0 * List.length ((j0, i0) :: (j, i) :: l) + 1) mod S (B - 1)) with 1 by (symmetry; rewrite Nat.mod_small; lia).
    cbn [nth fst snd]. intros X. apply (f_equal (fun o => match o with Some g => px g | None => 0%R end)) in X.
    assert (P1 : is_pair c j0 i0) by (apply M; now left).
    destruct P1 as [_ [_ [k [Ek _]]]].
    unfold measured, oracle_row, rel_pose, between, b_eff, b_obj, b in X.
    cbn in X. rewrite ?cos_0, ?sin_0 in X.
    assert (Lt : (INR j0 < INR i0)%R) by (apply lt_INR; nia).
    match type of X with ?a = ?b => assert (A : a = (INR i0 - INR j0)%R) by (unfold so2_unrotate, rotate_from_cos_sin; cbn; ring);
      assert (Bq : b = 0%R) by (unfold so2_unrotate, rotate_from_cos_sin; cbn; ring) end.
    lra.
Qed.

(** the other inputs *)
Theorem C95_values : forall F (b : batch F) model c d, 1 <= b_n F b -> q_step c <> 0 -> theseus_inputs F b model c = Ok d ->
  let episodes f := Some (VPoses (map f (seq 0 (b_n F b)))) in
  lookup d "obj_start_pose" = episodes (fun e => xycs (b_obj F b e 0))
  /\ (forall s, s < q_N c -> lookup d (idx "motion_capture" s) = episodes (fun e => xycs (b_eff F b e s)))
  (* all poses start at those of the first step *)
  /\ (forall s, s < q_N c -> lookup d (idx "obj_pose" s) = episodes (fun e => xycs (b_obj F b e 0)))
  /\ (forall s, s < q_N c -> lookup d (idx "eff_pose" s) = episodes (fun e => xycs (b_eff F b e 0))).
Proof.
  intros F b model c d Hn H E episodes. destruct (inputs_shape b model c d Hn H E) as [NE ->].
  assert (OPT : forall s, s < q_N c ->
    lookup (initial_optim_vars F b (q_N c)) (idx "obj_pose" s) = episodes (fun e => xycs (b_obj F b e 0))
    /\ lookup (initial_optim_vars F b (q_N c)) (idx "eff_pose" s) = episodes (fun e => xycs (b_eff F b e 0))).
  { intros s Hs.
    assert (ND : NoDup (keys (initial_optim_vars F b (q_N c)))).
    { unfold keys, initial_optim_vars. rewrite flat_map_concat_map, concat_map, map_map, <- flat_map_concat_map.
      apply NoDup_flat_map; [apply seq_NoDup| |].
      - intros i _. cbn. constructor; [|repeat constructor; intros []]. intros [K|[]]. discriminate.
      - intros i j x _ _ A B. cbn [map fst] in A, B. cbn [In] in A, B.
        destruct A as [<-|[<-|[]]]; destruct B as [B|[B|[]]]; try discriminate; symmetry; exact (idx_inj _ _ _ B). }
    split; (apply lookup_unique; [exact ND|]); apply in_flat_map; exists s; (split; [apply in_seq; lia|]); cbn; [left|right; left]; reflexivity. }
  split; [|split; [|split]].
  - rewrite !lookup_app.
    rewrite (lookup_none (initial_optim_vars F b (q_N c))) by (rewrite optim_keys; intros [s [_ [X|X]]]; discriminate).
    rewrite (lookup_none cost_weight_inputs) by (intros X; key_clash X).
    rewrite (lookup_none (motion_capture_inputs F b (q_N c))) by (rewrite mc_keys; intros [s [_ X]]; discriminate).
    rewrite lookup_none by (rewrite meas_keys; intros [p [_ X]]; discriminate).
    cbn [lookup String.eqb Ascii.eqb Bool.eqb]. unfold start_and_capture. cbn [lookup].
    rewrite lookup_none; [reflexivity|]. intros X. key_clash X.
  - intros s Hs. rewrite !lookup_app.
    rewrite (lookup_none (initial_optim_vars F b (q_N c))) by (rewrite optim_keys; intros [s' [_ [X|X]]]; discriminate).
    rewrite (lookup_none cost_weight_inputs) by (intros X; key_clash X).
    unfold motion_capture_inputs.
    rewrite (lookup_map (idx "motion_capture") (fun s => VPoses (over_batch F b (fun e => xycs (b_eff F b e s))))); [reflexivity|apply idx_inj|apply seq_NoDup|apply in_seq; lia].
  - intros s Hs. rewrite !lookup_app. destruct (OPT s Hs) as [-> _]. reflexivity.
  - intros s Hs. rewrite !lookup_app. destruct (OPT s Hs) as [_ ->]. reflexivity.
Qed.
(** every input is for a variable of the objective, and the variables without
    input are those that keep the values of the constructor *)
Theorem C95_keys : forall F (b : batch F) model c d o, 1 <= b_n F b -> q_step c <> 0 -> theseus_inputs F b model c = Ok d ->
  make_objective F64 F64 F64 F64 c = Ok o ->
  forall s, In s (keys d) <->
    (In (Named s) (o_optim o) \/ In (Named s) (o_aux o))
    /\ ~ (s = "mc_weight"%string \/ s = "intersect_weight"%string \/ s = "eff_radius"%string \/ s = "identity"%string
          \/ exists i, s = ("csquare_" ++ idx "qsp" i)%string).
Proof.
  intros F b model c d o Hn H E O s.
  destruct (inputs_shape b model c d Hn H E) as [NE ->].
  assert (PP : exists j i, is_pair c j i) by (apply (C95_inputs_fail F b model c Hn H); eauto).
  assert (N2 : 0 + 1 < q_N c) by (destruct PP as [j [i [A [B [k [C D]]]]]]; lia).
  destruct (C95_optim_vars c o H O) as [_ OV]. destruct (C95_aux_vars c o H ltac:(lia) O) as [_ AV].
  rewrite OV, AV. unfold is_aux. unfold keys. rewrite !map_app, !in_app_iff.
  fold (keys (initial_optim_vars F b (q_N c))). rewrite optim_keys.
  fold (keys (motion_capture_inputs F b (q_N c))). rewrite mc_keys.
  match goal with |- context [map fst (meas_dict ?a ?g ?l ?m ?q)] => fold (keys (meas_dict a g l m q)) end. rewrite meas_keys.
  assert (CP : forall p, In p (cells_of c) -> is_pair c (fst p - snd p) (fst p)).
  { intros p Hp. apply in_pairs; [easy|]. apply in_map_iff. exists p. split; [reflexivity|exact Hp]. }
  split.
  - intros K. destruct K as [K|[K|[K|[K|[K|K]]]]].
    + unfold start_and_capture in K. cbn [map fst] in K. destruct K as [<-|K].
      * split; [auto|]. intros X. repeat (destruct X as [X|X]); try discriminate. destruct X as [i X]. discriminate.
      * rewrite map_map in K. apply in_map_iff in K as [t [<- Ht]]. apply in_seq in Ht. cbn [fst]. split.
        -- right. do 7 right; left. exists t. split; [lia|reflexivity].
        -- intros X. repeat (destruct X as [X|X]); try discriminate. destruct X as [i X]. discriminate.
    + cbn in K. destruct K as [<-|[<-|[<-|[]]]]; (split; [tauto|]);
      intros X; repeat (destruct X as [X|X]); try discriminate; destruct X as [i X]; discriminate.
    + destruct K as [p [Hp ->]]. split.
      * right. do 9 right; left. exists (fst p - snd p), (fst p). auto.
      * intros X. repeat (destruct X as [X|X]); try discriminate. destruct X as [i X]. discriminate.
    + destruct K as [t [Ht ->]]. split; [right; do 7 right; left; eauto|].
      intros X. repeat (destruct X as [X|X]); try discriminate. destruct X as [i X]. discriminate.
    + cbn in K. destruct K as [<-|[<-|[]]].
      * split; [right; do 8 right; left; exists 0; auto|].
        intros X. repeat (destruct X as [X|X]); try discriminate. destruct X as [i X]. discriminate.
      * split; [right; do 9 right; left; destruct PP as [j [i PP]]; exists j, i; auto|].
        intros X. repeat (destruct X as [X|X]); try discriminate. destruct X as [i X]. discriminate.
    + destruct K as [t [Ht K]]. split.
      * left. exists t. split; [easy|]. destruct K as [->| ->]; auto.
      * intros X. destruct K as [->| ->]; repeat (destruct X as [X|X]); try discriminate; destruct X as [i X]; discriminate.
  - intros [[K|K] X].
    + destruct K as [t [Ht K]]. do 5 right. exists t. split; [easy|]. destruct K as [K|K]; injection K as ->; auto.
    + repeat (destruct K as [K|K]); subst; try (exfalso; apply X; auto; fail).
      * left. left. reflexivity.
      * right; left. cbn. auto.
      * right; left. cbn. auto.
      * right; left. cbn. auto.
      * do 3 right; left. destruct K as [i [A ->]]. eauto.
      * destruct K as [i [A [->| ->]]]; [exfalso; apply X; eauto 8|]. do 4 right; left. cbn. auto.
      * destruct K as [j [i [A [->| ->]]]].
        -- do 2 right; left. apply in_pairs in A; [|easy]. apply in_map_iff in A as [p [Ep A]]. exists p. split; [exact A|].
           unfold pair_of in Ep. injection Ep as <- <-. reflexivity.
        -- do 4 right; left. cbn. auto.
      * destruct K as [_ ->]. exfalso. apply X. auto.
Qed.

(** ** geometry *)
Lemma xycs_valid v : se2_valid (xycs v).
Proof. unfold se2_valid, xycs. cbn. pose proof (sin2_cos2 (b2 v)) as S. unfold Rsqr in S. lra. Qed.
(** the oracle's measurement is the true relative pose, and the cost function
    has no error at the true poses *)
Theorem C95_oracle_consistent : forall d e1 e2 o1 o2,
  oracle_row e1 e2 o1 o2 = rel_pose e1 e2 o1 o2
  /\ @mfb_error (se2_group d) (xycs o1) (xycs o2) (xycs e1) (xycs e2) (oracle_row e1 e2 o1 o2) = Some (mkV3 0 0 0).
Proof.
  intros d e1 e2 o1 o2.
  assert (V : se2_valid (rel_pose e1 e2 o1 o2)).
  { unfold rel_pose, between. cbn. destruct C34_se2_group as [_ [_ [C [I _]]]].
    repeat first [apply C | apply I | apply xycs_valid]. }
  assert (E : oracle_row e1 e2 o1 o2 = rel_pose e1 e2 o1 o2).
  { unfold oracle_row. cbv zeta. destruct (rel_pose e1 e2 o1 o2) as [x y c s]. unfold se2_valid in V. cbn in V.
    unfold se2_theta, so2_log_map, se2_rotation. cbn.
    destruct (atan2_spec c s) as [A [B _]]; [lra|]. now rewrite A, B. }
  split; [exact E|]. rewrite E. unfold mfb_error, local.
  change (@between (se2_group d) (@between (se2_group d) (xycs o1) (xycs e1)) (@between (se2_group d) (xycs o2) (xycs e2)))
    with (rel_pose e1 e2 o1 o2).
  unfold between. cbn [inverse compose log_map se2_group].
  destruct C34_se2_group as [_ [_ [_ [_ [_ [_ [I _]]]]]]]. destruct (I _ V) as [-> _].
  unfold se2_log_map, so2_log_map. cbn.
  assert (A0 : atan2 0 1 = 0%R).
  { rewrite <- sin_0 at 1. rewrite <- cos_0. apply atan2_angle. pose proof PI_RGT_0. lra. }
  rewrite A0. unfold where_, lt_b, div_. rewrite Rabs_R0.
  assert (P : (0 < se2_near_zero_eps d)%R) by (destruct d; cbn; lra).
  destruct (Rlt_dec 0 (se2_near_zero_eps d)) as [_|N]; [|contradiction].
  destruct (Req_EM_T 1 0) as [N|_]; [lra|]. cbn. f_equal. f_equal; ring.
Qed.
(** poses written by the estimator are read back as (x, y, theta) *)
Theorem C95_read_pose : forall v, (- PI < b2 v <= PI)%R -> read_pose (xycs v) = v.
Proof. intros [x y t] H. unfold read_pose, xycs. cbn in *. now rewrite atan2_angle. Qed.
Theorem C95_read_back : forall F (b : batch F) model c d, 1 <= b_n F b -> q_step c <> 0 -> theseus_inputs F b model c = Ok d ->
  (forall e t, (- PI < b2 (b_obj F b e t) <= PI)%R /\ (- PI < b2 (b_eff F b e t) <= PI)%R) ->
  poses_from_values d "obj" (q_N c) = Ok (map (fun _ => map (fun e => b_obj F b e 0) (seq 0 (b_n F b))) (seq 0 (q_N c)))
  /\ poses_from_values d "eff" (q_N c) = Ok (map (fun _ => map (fun e => b_eff F b e 0) (seq 0 (b_n F b))) (seq 0 (q_N c))).
Proof.
  intros F b model c d Hn H E A. destruct (C95_values F b model c d Hn H E) as [_ [_ [O1 E1]]].
  split; apply rmap_ok; intros t Ht; apply in_seq in Ht; cbn [append]; [rewrite O1 by lia|rewrite E1 by lia]; f_equal; rewrite map_map;
    apply map_ext; intros e; apply C95_read_pose; apply A.
Qed.
(** all values optimized are read, at the right step *)
Theorem C95_read_values : forall values kind N l, (forall t, t < N -> lookup values (idx (kind ++ "_pose") t) = Some (VPoses (l t))) ->
  poses_from_values values kind N = Ok (map (fun t => map read_pose (l t)) (seq 0 N)).
Proof.
  intros values kind N l A. apply rmap_ok. intros t Ht. apply in_seq in Ht. now rewrite A by lia.
Qed.

(** ** modes of the trainer *)
(** the mode without a measurement network cannot process any batch *)
Theorem C95_modes_refuted :
  (forall update, exists m, create_models WeightsOnly = Ok m /\ process_batch m update = AttributeErr)
  /\ create_models OtherMode = Err UnboundErr
  /\ (forall update, exists m, create_models WeightsAndNN = Ok m /\ process_batch m update = Done).
Proof. split; [|split]; [intros []; exists false; easy|reflexivity|intros []; exists true; easy]. Qed.

(** a case: two episodes of 4 steps, windows of length 1 and 2 *)
Example inputs_example : exists d,
  theseus_inputs (nat * nat) (mkB _ 2 (fun _ _ => mkV3 0 0 0) (fun _ _ => mkV3 0 0 0) (fun e t => (e, t)))
    (Some (fun x y => mkSE2 (INR (fst x)) (INR (snd x)) (INR (fst y)) (INR (snd y)))) (mkPar 4 1 3 1 0) = Ok d
  /\ lookup d "nn_measurement_1_2" = Some (VPoses [mkSE2 (INR 0) (INR 1) (INR 0) (INR 2)])
  /\ lookup d "nn_measurement_2_3" = Some (VPoses [mkSE2 (INR 1) (INR 1) (INR 1) (INR 2)])
  /\ lookup d "nn_measurement_1_3" = Some (VPoses [mkSE2 (INR 0) (INR 2) (INR 0) (INR 3)]).
Proof. eexists. split; [reflexivity|]. repeat split. Qed.
