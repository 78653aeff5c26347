From Coq Require Import List Bool String QArith.
Import ListNotations.
From Verif Require Import Gp_model Gp_spec.
Open Scope string_scope.

Lemma get_set o k v k' : getattr (setattr k v o) k' = if String.eqb k' k then Some v else getattr o k'.
Proof. unfold getattr, setattr. cbn. destruct (String.eqb k' k); reflexivity. Qed.
Lemma get_sets : forall l o k, getattr (setattrs l o) k = latest l k (getattr o k).
Proof.
  induction l as [|[k v] l IH]; intros o k'; [reflexivity|]. unfold setattrs. cbn [fold_left fst snd latest].
  change (fold_left _ l ?x) with (setattrs l x). rewrite IH, get_set. reflexivity.
Qed.
Lemma latest_app : forall l l' k d, latest (l ++ l')%list k d = latest l' k (latest l k d).
Proof. induction l as [|[k0 v] l IH]; intros; cbn; [reflexivity|]. apply IH. Qed.
Lemma latest_none : forall l k d, ~ In k (map fst l) -> latest l k d = d.
Proof.
  induction l as [|[k0 v] l IH]; intros k d H; cbn; [reflexivity|]. cbn in H. rewrite IH by tauto.
  destruct (String.eqb_spec k k0); [subst; tauto|reflexivity].
Qed.
Lemma latest_some : forall l k d, In k (map fst l) -> exists v, In (k, v) l /\ latest l k d = Some v.
Proof.
  induction l as [|[k0 v] l IH]; intros k d H; cbn in H; [contradiction|]. cbn [latest].
  destruct (in_dec string_dec k (map fst l)) as [I1|N1].
  - destruct (IH k (if String.eqb k k0 then Some v else d) I1) as (w & A & B). exists w. split; [now right|exact B].
  - destruct H as [<-|H]; [|contradiction]. rewrite String.eqb_refl. exists v. split; [now left|]. now apply latest_none.
Qed.

(** the names an object has *)
Definition names_are (o : obj) (table : attrs) : Prop := forall k, hasattr o k = true <-> known table k \/ k = "get_eps" \/ k = "reset".
Lemma hasattr_get o k : hasattr o k = true <-> getattr o k <> None.
Proof. unfold hasattr. destruct (getattr o k); split; congruence. Qed.
Lemma existsb_known table k : existsb (String.eqb k) (map fst table) = true <-> known table k.
Proof.
  unfold known. rewrite existsb_exists. split; [intros (x & A & B); apply String.eqb_eq in B; now subst|].
  intro H. exists k. split; [exact H|apply String.eqb_refl].
Qed.
Definition methods_ok (o : obj) : Prop := getattr o "get_eps" = Some (Method "get_eps") /\ getattr o "reset" = Some (Method "reset").
Lemma sets_names table l o : names_are o table -> (forall k, In k (map fst l) -> known table k) -> names_are (setattrs l o) table.
Proof.
  intros N H k. rewrite hasattr_get, get_sets. rewrite <- (N k), hasattr_get. destruct (in_dec string_dec k (map fst l)) as [I1|N1].
  - destruct (latest_some l k (getattr o k) I1) as (v & _ & ->). pose proof (proj2 (N k) (or_introl (H k I1))) as K. rewrite hasattr_get in K. split; congruence.
  - now rewrite latest_none.
Qed.
Lemma sets_methods l o : methods_ok o -> (forall k, In k (map fst l) -> not_method k) -> methods_ok (setattrs l o).
Proof.
  intros [A B] H. split; rewrite get_sets, latest_none; try assumption; intro K; destruct (H _ K); congruence.
Qed.
(** the loop of set_global_params on ordinary names *)
Lemma set_options_eff table : forall opts o, names_are o table -> (forall k, In k (map fst opts) -> not_method k) ->
  fst (set_options opts o) = setattrs (effective table opts) o /\
  (snd (set_options opts o) = Ok tt <-> forall k, In k (map fst opts) -> known table k) /\
  (snd (set_options opts o) = ValueError <-> exists k, In k (map fst opts) /\ ~ known table k) /\
  (snd (set_options opts o) = Ok tt \/ snd (set_options opts o) = ValueError).
Proof.
  induction opts as [|[k v] opts IH]; intros o N H; cbn [set_options effective map fst].
  - cbn. repeat split; auto; try discriminate; try contradiction. intros (k & [] & _).
  - pose proof (H k (or_introl eq_refl)) as [M1 M2]. destruct (hasattr o k) eqn:E.
    + assert (K : known table k) by (apply N in E; destruct E as [E|[E|E]]; [exact E|contradiction|contradiction]).
      rewrite (proj2 (existsb_known table k) K).
      assert (N' : names_are (setattr k v o) table).
      { change (setattr k v o) with (setattrs [(k, v)] o). apply sets_names; [exact N|]. intros k' [<-|[]]. exact K. }
      destruct (IH _ N' ltac:(intros; apply H; now right)) as (A & B & C & D). split; [exact A|]. split; [|split; [|exact D]].
      * rewrite B. cbn [In]. split; [intros Q k' [<-|K']; auto|auto].
      * rewrite C. cbn [In]. split; [intros (k' & Q1 & Q2); exists k'; auto|intros (k' & [<-|Q1] & Q2); [contradiction|eauto]].
    + assert (K : ~ known table k). { intro K. pose proof (proj2 (N k) (or_introl K)). congruence. }
      destruct (existsb (String.eqb k) (map fst table)) eqn:EX; [apply existsb_known in EX; contradiction|].
      cbn. split; [reflexivity|]. split; [split; [discriminate|intro Q; exfalso; apply K, Q; now left]|].
      split; [split; [intros _; exists k; auto|reflexivity]|now right].
Qed.
Lemma effective_known table : forall opts k, In k (map fst (effective table opts)) -> known table k /\ In k (map fst opts).
Proof.
  induction opts as [|[k v] opts IH]; intros k' H; cbn in H; [contradiction|].
  destruct (existsb (String.eqb k) (map fst table)) eqn:E; [|contradiction]. cbn in H. destruct H as [<-|H].
  - split; [now apply existsb_known|now left].
  - destruct (IH k' H). split; [assumption|now right].
Qed.
Ltac enum_names := intros ? ?H; cbn in H; repeat (destruct H as [<-|H]; [unfold known, not_method; cbn; try tauto; split; discriminate|]); contradiction.

Definition good (s : state) : Prop :=
  names_are (lie s) lie_options /\ names_are (th s) th_options /\ methods_ok (lie s) /\ methods_ok (th s).
Lemma init_names (values class table : attrs) :
  (forall k, In k (map fst values ++ map fst class)%list <-> known table k \/ k = "get_eps" \/ k = "reset") ->
  names_are (setattrs values (mkObj [] class)) table.
Proof.
  intros H k. rewrite <- H. rewrite hasattr_get, get_sets, in_app_iff.
  destruct (in_dec string_dec k (map fst values)) as [I1|N1].
  - destruct (latest_some values k (getattr (mkObj [] class) k) I1) as (v & _ & ->). split; [auto|discriminate].
  - rewrite latest_none by exact N1. unfold getattr. cbn [own cls find].
    assert (G : forall c : attrs, find c k <> None <-> In k (map fst c)).
    { clear. induction c as [|[k1 v] c IH]; cbn; [intuition|].
      destruct (String.eqb_spec k k1) as [->|N]; [split; [auto|discriminate]|]. rewrite IH. intuition congruence. }
    rewrite G. tauto.
Qed.
Lemma good_init : good init.
Proof.
  unfold good, init. cbn [lie th]. split; [|split; [|split]].
  - apply init_names. intro k. unfold known. cbn. split; intro H; repeat (destruct H as [H|H]); try contradiction; subst; auto 40.
  - apply init_names. intro k. unfold known. cbn. split; intro H; repeat (destruct H as [H|H]); try contradiction; subst; auto 40.
  - split; reflexivity.
  - split; reflexivity.
Qed.
Lemma step_good s e : good s -> ordinary e ->
  good (fst (step s e)) /\
  (forall k, getattr (lie (fst (step s e))) k = latest (lie_assignments e) k (getattr (lie s) k)) /\
  (forall k, getattr (th (fst (step s e))) k = latest (th_assignments e) k (getattr (th s) k)).
Proof.
  intros (NL & NT & ML & MT) O. destruct e as [opts|opts| |]; cbn [step lie_assignments th_assignments latest ordinary] in *.
  - unfold th_set_global_params. fold (mentions_lie opts). destruct (mentions_lie opts); [cbn; repeat split; auto; try apply NL; try apply NT; try apply ML; apply MT|].
    destruct (set_options_eff th_options opts (th s) NT O) as (A & _). destruct (set_options opts (th s)) as [o r]. cbn [fst] in A. subst o. cbn [fst lie th].
    split; [|split; [reflexivity|intro k; apply get_sets]].
    split; [exact NL|]. split; [apply sets_names; [exact NT|intros k K; apply (effective_known _ _ _ K)]|]. split; [exact ML|].
    apply sets_methods; [exact MT|]. intros k K. apply O, (effective_known _ _ _ K).
  - unfold lie_set_global_params. destruct (set_options_eff lie_options opts (lie s) NL O) as (A & _). destruct (set_options opts (lie s)) as [o r]. cbn [fst] in A. subst o. cbn [fst lie th].
    split; [|split; [intro k; apply get_sets|reflexivity]].
    split; [apply sets_names; [exact NL|intros k K; apply (effective_known _ _ _ K)]|]. split; [exact NT|]. split; [|exact MT].
    apply sets_methods; [exact ML|]. intros k K. apply O, (effective_known _ _ _ K).
  - unfold lie_reset_global_params, call_reset. rewrite (proj2 ML). cbn [fst lie th].
    split; [|split; [intro k; rewrite get_sets; reflexivity|reflexivity]].
    split; [apply sets_names; [exact NL|enum_names]|]. split; [exact NT|]. split; [|exact MT]. apply sets_methods; [exact ML|enum_names].
  - unfold call_reset. rewrite (proj2 MT). cbn [fst lie th].
    split; [|split; [reflexivity|]].
    + split; [exact NL|]. split; [apply sets_names; [exact NT|enum_names]|]. split; [exact ML|]. apply sets_methods; [exact MT|enum_names].
    + intro k. rewrite get_sets. cbn [th_reset_values latest filter th_options map fst snd String.eqb negb Ascii.eqb Bool.eqb].
      cbn. destruct (String.eqb k "so2_norm_eps_float32") eqn:E; [|reflexivity]. apply String.eqb_eq in E. subst k. reflexivity.
Qed.
Lemma run_good : forall h, Forall ordinary h ->
  good (run h) /\ (forall k, getattr (lie (run h)) k = latest (flat_map lie_assignments h) k (getattr lie_init k)) /\
  (forall k, getattr (th (run h)) k = latest (flat_map th_assignments h) k (getattr th_init k)).
Proof.
  intro h. unfold run. induction h as [|e h IH] using rev_ind; intro F.
  - split; [exact good_init|]. split; reflexivity.
  - apply Forall_app in F. destruct F as [F1 F2]. destruct (IH F1) as (A & B & C). pose proof (Forall_inv F2) as Oe.
    rewrite fold_left_app. cbn [fold_left]. destruct (step_good _ e A Oe) as (A' & B' & C'). split; [exact A'|].
    rewrite !flat_map_app. cbn [flat_map]. rewrite !app_nil_r. split; intro k.
    + rewrite B', latest_app, B. reflexivity.
    + rewrite C', latest_app, C. reflexivity.
Qed.

(** After any history of calls, an option has the value assigned to it last (its initial value if none),
    and theseus' options and torchlie's do not influence each other. *)
Theorem C93_history : forall h, Forall ordinary h ->
  (forall k d, In (k, d) lie_options -> getattr (lie (run h)) k = latest (flat_map lie_assignments h) k (Some d)) /\
  (forall k d, In (k, d) th_options -> getattr (th (run h)) k = latest (flat_map th_assignments h) k (Some d)).
Proof.
  intros h F. destruct (run_good h F) as (_ & A & B). split; intros k d H.
  - rewrite A. f_equal. cbn in H. repeat (destruct H as [H|H]; [injection H as <- <-; reflexivity|]). contradiction.
  - rewrite B. f_equal. cbn in H. repeat (destruct H as [H|H]; [injection H as <- <-; reflexivity|]). contradiction.
Qed.
(** A call succeeds exactly if all its names are options; then it assigns all of them. *)
Theorem C93_accepts : forall h opts, Forall ordinary h -> (forall k, In k (map fst opts) -> not_method k) ->
  (snd (step (run h) (LieSet opts)) = Ok tt <-> forall k, In k (map fst opts) -> known lie_options k) /\
  (snd (step (run h) (LieSet opts)) = Ok tt \/ snd (step (run h) (LieSet opts)) = ValueError) /\
  (snd (step (run h) (ThSet opts)) = Ok tt <-> forall k, In k (map fst opts) -> known th_options k) /\
  (snd (step (run h) (ThSet opts)) = RuntimeError <-> exists k, In k (map fst opts) /\ In k lie_fields) /\
  (snd (step (run h) (ThSet opts)) = ValueError <->
     (forall k, In k (map fst opts) -> ~ In k lie_fields) /\ exists k, In k (map fst opts) /\ ~ known th_options k).
Proof.
  intros h opts F O. destruct (run_good h F) as ((NL & NT & _ & _) & _). cbn [step]. unfold lie_set_global_params, th_set_global_params. fold (mentions_lie opts).
  destruct (set_options_eff lie_options opts _ NL O) as (_ & A & _ & B). destruct (set_options_eff th_options opts _ NT O) as (_ & A' & C' & B').
  assert (M : mentions_lie opts = true <-> exists k, In k (map fst opts) /\ In k lie_fields).
  { unfold mentions_lie. rewrite existsb_exists. split.
    - intros ([k v] & P1 & P2). apply existsb_exists in P2. destruct P2 as (x & P2 & P3). apply String.eqb_eq in P3. cbn in P3. subst x.
      exists k. split; [|exact P2]. change k with (fst (k, v)). now apply in_map.
    - intros (k & P1 & P2). apply in_map_iff in P1. destruct P1 as (p & <- & P1). exists p. split; [exact P1|].
      apply existsb_exists. exists (fst p). split; [exact P2|apply String.eqb_refl]. }
  destruct (set_options opts (lie (run h))) as [o r]. cbn [snd] in *.
  split; [exact A|]. split; [exact B|].
  assert (DJ : forall k, In k lie_fields -> ~ known th_options k).
  { intros k K1 K2. unfold known in K2. cbn in K1, K2. repeat (destruct K1 as [<-|K1]; [repeat (destruct K2 as [K2|K2]; [discriminate|]); exact K2|]). exact K1. }
  destruct (mentions_lie opts) eqn:EM.
  - destruct (proj1 M eq_refl) as (k & P1 & P2). cbn [snd]. split; [split; [discriminate|intro Q; exfalso; exact (DJ k P2 (Q k P1))]|].
    split; [split; [eauto|reflexivity]|]. split; [discriminate|]. intros [Q _]. exfalso. exact (Q k P1 P2).
  - destruct (set_options opts (th (run h))) as [o' r']. cbn [snd] in *. split; [exact A'|]. split.
    + split; [intros ->; destruct B'; discriminate|]. intro Q. apply M in Q. discriminate.
    + rewrite C'. split; [|tauto]. intro Q. split; [|exact Q]. intros k P1 P2. assert (false = true) by (apply M; eauto). discriminate.
Qed.
(** [get_eps] (theseus): torchlie's value if torchlie has the option, otherwise theseus'; unsupported
    dtypes are refused. *)
Theorem C93_get_eps : forall h ltype attr dtype, Forall ordinary h ->
  let name := attr_name ltype attr dtype in
  let s := run h in
  (dtype <> "float32" -> dtype <> "float64" -> th_get_eps (lie s) (th s) ltype attr dtype = ValueError) /\
  (dtype = "float32" \/ dtype = "float64" ->
     (forall v, getattr (lie s) name = Some v -> th_get_eps (lie s) (th s) ltype attr dtype = Ok v) /\
     (forall v, getattr (lie s) name = None -> getattr (th s) name = Some v -> th_get_eps (lie s) (th s) ltype attr dtype = Ok v) /\
     (getattr (lie s) name = None -> getattr (th s) name = None -> th_get_eps (lie s) (th s) ltype attr dtype = AttributeError)).
Proof.
  intros h lt at' dt F. cbv zeta. destruct (run_good h F) as ((_ & _ & (ML & _) & (MT & _)) & _). unfold th_get_eps, lie_get_eps. rewrite ML, MT. split.
  - intros A B. unfold supported. destruct (String.eqb_spec dt "float32"); [contradiction|]. destruct (String.eqb_spec dt "float64"); [contradiction|]. reflexivity.
  - intros D. assert (supported dt = true) as -> by (destruct D as [->| ->]; reflexivity). split; [|split].
    + intros v ->. reflexivity.
    + intros v -> ->. reflexivity.
    + intros -> ->. reflexivity.
Qed.
(** every tolerance the library asks for exists, after every history *)
Definition asked : list (string * string) :=
  [("so3", "near_zero"); ("so3", "near_pi"); ("so3", "to_quaternion_sqrt"); ("so2", "matrix"); ("so2", "norm"); ("se2", "near_zero");
   ("se2", "d_near_zero"); ("so3", "matrix"); ("so3", "hat"); ("so3", "quat"); ("so3", "d_near_zero"); ("se3", "hat")].
Theorem C93_asked_exist : forall h l a dtype, Forall ordinary h -> In (l, a) asked -> dtype = "float32" \/ dtype = "float64" ->
  exists v, th_get_eps (lie (run h)) (th (run h)) l a dtype = Ok v.
Proof.
  intros h l a dt F I1 D. destruct (run_good h F) as ((NL & NT & _ & _) & _). destruct (C93_get_eps h l a dt F) as [_ G]. specialize (G D). destruct G as (G1 & G2 & _).
  destruct (getattr (lie (run h)) (attr_name l a dt)) as [v|] eqn:E; [eauto|]. destruct (getattr (th (run h)) (attr_name l a dt)) as [v|] eqn:E'; [eauto|]. exfalso.
  assert (A : known lie_options (attr_name l a dt) \/ known th_options (attr_name l a dt)).
  { unfold known. destruct D as [-> | ->]; cbn in I1; repeat (destruct I1 as [I1|I1]; [injection I1 as <- <-; cbn; tauto|]); contradiction. }
  destruct A as [A|A].
  - pose proof (proj2 (NL _) (or_introl A)) as K. apply hasattr_get in K. congruence.
  - pose proof (proj2 (NT _) (or_introl A)) as K. apply hasattr_get in K. congruence.
Qed.
(** [reset_global_params] restores every torchlie tolerance, after every history ... *)
Theorem C93_reset : forall h k d, Forall ordinary h -> In (k, d) lie_options -> k <> "_allow_passthrough_ops" -> k <> "_faster_log_maps" ->
  getattr (lie (run (h ++ [LieReset])%list)) k = Some d.
Proof.
  intros h k d F H N1 N2. destruct (C93_history (h ++ [LieReset])%list) as [A _]; [apply Forall_app; split; [exact F|repeat constructor]|].
  rewrite (A k d H), flat_map_app, latest_app. cbn in H.
  repeat (destruct H as [H|H]; [injection H as <- <-; first [reflexivity|exfalso; now auto]|]). contradiction.
Qed.
(** ... but not the two flags. *)
Theorem C93_reset_flags_refuted : forall b h, Forall ordinary h ->
  getattr (lie (run (h ++ [LieSet [("_faster_log_maps", Flag b); ("_allow_passthrough_ops", Flag b)]; LieReset])%list)) "_faster_log_maps" = Some (Flag b) /\
  getattr (lie (run (h ++ [LieSet [("_faster_log_maps", Flag b); ("_allow_passthrough_ops", Flag b)]; LieReset])%list)) "_allow_passthrough_ops" = Some (Flag b).
Proof.
  intros b h F. assert (F' : Forall ordinary (h ++ [LieSet [("_faster_log_maps", Flag b); ("_allow_passthrough_ops", Flag b)]; LieReset])%list).
  { apply Forall_app. split; [exact F|]. constructor; [|repeat constructor]. intros k [<-|[<-|[]]]; split; discriminate. }
  destruct (run_good _ F') as (_ & A & _). rewrite !A, flat_map_app, !latest_app. split; reflexivity.
Qed.
(** theseus' reset does not restore the SO2 norm tolerance in float64, whose initial value is 0: no norm
    is below it *)
Theorem C93_so2_norm_refuted :
  th_get_eps (lie init) (th init) "so2" "norm" "float64" = Ok (Num 0) /\
  forall q h, Forall ordinary h -> getattr (th (run (h ++ [ThSet [("so2_norm_eps_float64", Num q)]; ThReset])%list)) "so2_norm_eps_float64" = Some (Num q).
Proof.
  split; [reflexivity|]. intros q h F. assert (F' : Forall ordinary (h ++ [ThSet [("so2_norm_eps_float64", Num q)]; ThReset])%list).
  { apply Forall_app. split; [exact F|]. constructor; [|repeat constructor]. intros k [<-|[]]; split; discriminate. }
  destruct (run_good _ F') as (_ & _ & A). rewrite A, flat_map_app, latest_app. reflexivity.
Qed.
(** Refuted: a call that raises changes nothing. The options before the unknown name are assigned. *)
Theorem C93_atomic_refuted : forall h q, Forall ordinary h ->
  let s := step (run h) (LieSet [("so3_hat_eps_float64", Num q); ("so3_hat_eps_float16", Num q)]) in
  snd s = ValueError /\ getattr (lie (fst s)) "so3_hat_eps_float64" = Some (Num q).
Proof.
  intros h q F. cbv zeta.
  set (o := [("so3_hat_eps_float64", Num q); ("so3_hat_eps_float16", Num q)]).
  assert (O : ordinary (LieSet o)) by (intros k [<-|[<-|[]]]; split; discriminate).
  destruct (run_good h F) as (G & _). split.
  - destruct G as (NL & _). cbn [step]. unfold lie_set_global_params. destruct (set_options_eff lie_options o _ NL O) as (_ & _ & C & _).
    destruct (set_options o (lie (run h))) as [x r]. cbn [snd] in *. apply C. exists "so3_hat_eps_float16". split; [cbn; auto|].
    intro K. unfold known in K. cbn in K. repeat (destruct K as [K|K]; [discriminate|]). exact K.
  - destruct (step_good _ (LieSet o) G O) as (_ & B & _). rewrite B. reflexivity.
Qed.
(** Refuted: theseus.set_global_params refers every torchlie tolerance to torchlie. The derivative
    tolerance is not a dataclass field, so the message is that the option does not exist. *)
Theorem C93_d_near_zero_refuted : forall q,
  snd (step init (ThSet [("so3_d_near_zero_eps_float64", Num q)])) = ValueError /\
  snd (step init (ThSet [("so3_near_zero_eps_float64", Num q)])) = RuntimeError /\
  snd (step init (LieSet [("so3_d_near_zero_eps_float64", Num q)])) = Ok tt.
Proof. intro q. repeat split. Qed.
(** Refuted: only options can be set. Methods can, and then nothing works any more. *)
Theorem C93_methods_refuted : forall n l a dtype,
  let s := run [LieSet [("get_eps", Other n); ("reset", Other n)]] in
  snd (step init (LieSet [("get_eps", Other n); ("reset", Other n)])) = Ok tt /\
  th_get_eps (lie s) (th s) l a dtype = TypeError /\ snd (step s LieReset) = TypeError.
Proof. intros. repeat split. Qed.
Example C93_example :
  getattr (lie (run [LieSet [("so3_hat_eps_float32", Num (1 # 2)); ("bad", Num 1); ("se3_hat_eps_float32", Num (1 # 3))];
     ThSet [("so2_matrix_eps_float64", Num (1 # 7))]; LieReset; LieSet [("so3_quat_eps_float32", Num (1 # 9))]])) "so3_quat_eps_float32" = Some (Num (1 # 9)).
Proof. reflexivity. Qed.
