(** C101: which exception, what a failed construction leaves behind, ignored options, LevenbergMarquardt's options. *)
From Coq Require Import List String Arith Bool Lia.
From Verif Require Import Opt_model Opt_main.
Import ListNotations.
Local Open Scope string_scope.
Local Open Scope list_scope.

Section Ref.
Context {V : Type}.
Variables (cuda lib : bool) (d_abs d_rel d_max d_step : V).
Notation make := (make_optimizer cuda lib d_abs d_rel d_max d_step).
Notation accepted := (accepted cuda lib).

Definition with_lin (g : @opt_args V) (l : option lincls) := mkArgs (g_solver g) (g_vectorize g) l (g_lin_kwargs g) (g_solver_kwargs g) (g_kwargs g).
Definition with_order (g : @opt_args V) (l : option (list string)) :=
  mkArgs (g_solver g) (g_vectorize g) (g_lin g) (mkLk l (lk_names (g_lin_kwargs g))) (g_solver_kwargs g) (g_kwargs g).
Definition with_solver_option (g : @opt_args V) (k : string) (v : V) :=
  mkArgs (g_solver g) (g_vectorize g) (g_lin g) (g_lin_kwargs g) ((k, v) :: g_solver_kwargs g) (g_kwargs g).
Definition with_option (g : @opt_args V) (k : string) (v : V) :=
  mkArgs (g_solver g) (g_vectorize g) (g_lin g) (g_lin_kwargs g) (g_solver_kwargs g) ((k, v) :: g_kwargs g).

Lemma make_via_solver : forall c o g e, (c <> OLinear -> ob_squared o = true) -> (c = OLinear -> g_solver g <> None) ->
  make_solver cuda lib (chosen g) (if g_vectorize g then vectorize o else o) (g_lin g) (g_lin_kwargs g) (g_solver_kwargs g) = inr e ->
  make c o g = ((if g_vectorize g then vectorize o else o), inr e).
Proof.
  intros c o g e M S E. unfold make_optimizer. cbv zeta. destruct c.
  1-3: rewrite M by discriminate; cbn [negb]; fold (chosen g); rewrite E; reflexivity.
  destruct (g_solver g) as [sc|] eqn:Es; [|exfalso; apply (S eq_refl); reflexivity].
  replace sc with (chosen g) by (unfold chosen; rewrite Es; reflexivity). rewrite E. reflexivity.
Qed.

(** a metric other than the squared norm: refused before anything happens *)
Theorem C101_metric : forall c o g, c <> OLinear -> ob_squared o = false -> make c o g = (o, inr ValueErr).
Proof. intros c o g N S. unfold make_optimizer. rewrite S. destruct c; try reflexivity. congruence. Qed.

(** what the arguments before the linearization is built have to satisfy *)
Lemma solver_pre : forall (g : @opt_args V) o lc lk,
  (forall k v, In (k, v) (g_solver_kwargs g) -> ~ In k own_args /\ (natural (chosen g) = LDense -> k = "check_singular")) ->
  (chosen g = SLUCuda -> cuda = true) ->
  make_solver cuda lib (chosen g) o lc lk (g_solver_kwargs g) =
  (let lcls := match lc with Some l => l | None => natural (chosen g) end in
   match is_dense (chosen g), lcls with
   | true, LDense | false, LSparse =>
     match make_linearization lcls o lk with
     | inr e => inr e
     | inl ln => if (match chosen g with SLUCuda | SBaspacho => negb lib && negb (Nat.eqb (ob_rows o) 0) | _ => false end) then inr RuntimeErr
                 else inl (mkS (chosen g) ln (filter (fun kv => mem (fst kv) (solver_options (chosen g))) (g_solver_kwargs g)))
     end
   | true, _ => inr RuntimeErr | false, _ => inr AttributeErr end).
Proof.
  intros g o lc lk K C. unfold make_solver.
  assert (A : existsb (fun kv : string * V => mem (fst kv) reserved) (g_solver_kwargs g) = false).
  { destruct (existsb (fun kv : string * V => mem (fst kv) reserved) (g_solver_kwargs g)) eqn:E; [|reflexivity].
    exfalso. apply existsb_exists in E. destruct E as ([k v] & I & M). apply mem_in in M. exact (proj1 (K k v I) M). }
  assert (B : is_dense (chosen g) && existsb (fun kv : string * V => negb (mem (fst kv) (solver_options (chosen g)))) (g_solver_kwargs g) = false).
  { destruct (is_dense (chosen g)) eqn:D; [|reflexivity]. cbn [andb]. pose proof D as D1. apply dense_natural in D.
    destruct (existsb (fun kv : string * V => negb (mem (fst kv) (solver_options (chosen g)))) (g_solver_kwargs g)) eqn:E; [|reflexivity].
    exfalso. apply existsb_exists in E. destruct E as ([k v] & I & M). pose proof (proj2 (K k v I) D) as ->. cbn [fst] in M.
    destruct (chosen g); discriminate D1 || discriminate M. }
  rewrite A, B.
  assert (Cc : (match chosen g with SLUCuda => negb cuda | _ => false end) = false) by (destruct (chosen g); try reflexivity; rewrite C; reflexivity).
  rewrite Cc. cbv zeta. replace (if is_dense (chosen g) then LDense else LSparse) with (natural (chosen g)) by (destruct (chosen g); reflexivity). reflexivity.
Qed.

(** an ordering that does not have as many variables as the objective *)
Theorem C101_ordering : forall c o g l, accepted c o (with_order g None) -> List.length l <> List.length (ob_vars o) ->
  snd (make c o (with_order g (Some l))) = inr ValueErr.
Proof.
  intros c o g l [M S K C Lc Lk Lo Li] N. cbn [with_order g_solver_kwargs g_lin g_lin_kwargs lk_names lk_ordering g_solver] in *.
  change (chosen (with_order g None)) with (chosen g) in *.
  rewrite (make_via_solver c o (with_order g (Some l)) ValueErr M S); [reflexivity|].
  change (chosen (with_order g (Some l))) with (chosen g). cbn [with_order g_solver_kwargs g_lin g_lin_kwargs g_vectorize].
  rewrite (solver_pre g _ _ _ K C). cbv zeta.
  assert (W : (match g_lin g with Some l => l | None => natural (chosen g) end) = natural (chosen g)) by (destruct Lc as [-> | ->]; reflexivity).
  rewrite W.
  assert (X : forall x, ob_vars x = ob_vars o -> make_linearization (natural (chosen g)) x (mkLk (Some l) (lk_names (g_lin_kwargs g))) = inr ValueErr).
  { intros x Ex. unfold make_linearization. cbn [lk_names lk_ordering]. change (existsb (String.eqb "objective") (lk_names (g_lin_kwargs g))) with (mem "objective" (lk_names (g_lin_kwargs g))).
    destruct (mem "objective" (lk_names (g_lin_kwargs g))) eqn:Q; [exfalso; apply Lk; apply mem_in; exact Q|]. rewrite Ex.
    destruct (Nat.eqb_spec (List.length l) (List.length (ob_vars o))); [contradiction|reflexivity]. }
  assert (Y : make_linearization (natural (chosen g)) (if g_vectorize g then vectorize o else o) (mkLk (Some l) (lk_names (g_lin_kwargs g))) = inr ValueErr) by (apply X; destruct (g_vectorize g); reflexivity).
  destruct (chosen g); cbn [is_dense natural] in *; rewrite Y; reflexivity.
Qed.
(** the wrong linearization class: RuntimeError from the dense solvers ... *)
Theorem C101_linearization_dense : forall c o g l, accepted c o (with_lin g None) -> natural (chosen g) = LDense -> l <> LDense ->
  snd (make c o (with_lin g (Some l))) = inr RuntimeErr.
Proof.
  intros c o g l [M S K C Lc Lk Lo Li] D N. change (chosen (with_lin g None)) with (chosen g) in *.
  rewrite (make_via_solver c o (with_lin g (Some l)) RuntimeErr M S); [reflexivity|].
  change (chosen (with_lin g (Some l))) with (chosen g). cbn [with_lin g_solver_kwargs g_lin g_lin_kwargs g_vectorize] in *.
  rewrite (solver_pre g _ _ _ K C). cbv zeta. apply dense_natural in D. rewrite D. destruct l; congruence.
Qed.
(** ... but the sparse ones, meant to do the same, raise AttributeError *)
Theorem C101_linearization_sparse_refuted : forall c o g l, accepted c o (with_lin g None) -> natural (chosen g) = LSparse -> l <> LSparse ->
  snd (make c o (with_lin g (Some l))) = inr AttributeErr.
Proof.
  intros c o g l [M S K C Lc Lk Lo Li] D N. change (chosen (with_lin g None)) with (chosen g) in *.
  rewrite (make_via_solver c o (with_lin g (Some l)) AttributeErr M S); [reflexivity|].
  change (chosen (with_lin g (Some l))) with (chosen g). cbn [with_lin g_solver_kwargs g_lin g_lin_kwargs g_vectorize] in *.
  rewrite (solver_pre g _ _ _ K C). cbv zeta. destruct (chosen g); try discriminate D; cbn [is_dense]; destruct l; congruence.
Qed.
(** a failed construction with vectorize=True leaves the objective vectorized (unless the metric was wrong) *)
Theorem C101_failed_vectorizes_refuted : forall c o g e, snd (make c o g) = inr e -> g_vectorize g = true ->
  (c <> OLinear -> ob_squared o = true) -> (c = OLinear -> g_solver g <> None) -> ob_vectorized (fst (make c o g)) = true.
Proof.
  intros c o g e H Ve M S. unfold make_optimizer in *. cbv zeta in *. rewrite Ve in *.
  destruct c; [rewrite M by discriminate..|]; cbn [negb];
  [destruct (make_solver _ _ _ (vectorize o) _ _ _); reflexivity..|].
  destruct (g_solver g); [|exfalso; apply (S eq_refl); reflexivity]. destruct (make_solver _ _ _ (vectorize o) _ _ _); reflexivity.
Qed.
Theorem C101_not_vectorized : forall c o g, g_vectorize g = false -> fst (make c o g) = o.
Proof.
  intros c o g Ve. unfold make_optimizer. cbv zeta. rewrite Ve.
  destruct c; [destruct (negb (ob_squared o)); [reflexivity|]; destruct (make_solver _ _ _ o _ _ _); reflexivity..|].
  destruct (g_solver g); [|reflexivity]. destruct (make_solver _ _ _ o _ _ _); reflexivity.
Qed.

(** options nobody knows: ignored by the optimizers ... *)
Theorem C101_unknown_option_refuted : forall c o g k v, ~ is_field k -> make c o (with_option g k v) = make c o g.
Proof.
  intros c o g k v N.
  assert (L : forall f d, get (field_name f) d ((k, v) :: g_kwargs g) = get (field_name f) d (g_kwargs g)).
  { intros f d. unfold get. cbn [lookup]. destruct (String.eqb_spec k (field_name f)) as [E|E]; [exfalso; apply N; exists f; exact E|reflexivity]. }
  pose proof (L FAbs) as L1. pose proof (L FRel) as L2. pose proof (L FMax) as L3. pose proof (L FStep) as L4. cbn [field_name] in L1, L2, L3, L4.
  unfold make_optimizer. cbn [with_option g_solver g_vectorize g_lin g_lin_kwargs g_solver_kwargs g_kwargs]. rewrite L1, L2, L3, L4. reflexivity.
Qed.
(** ... and by the sparse solvers, ... *)
Theorem C101_unknown_solver_option_refuted : forall c o g k v, natural (chosen g) = LSparse -> ~ uses (chosen g) k -> ~ In k own_args ->
  make c o (with_solver_option g k v) = make c o g.
Proof.
  intros c o g k v D U N.
  assert (L : forall x, make_solver cuda lib (chosen g) x (g_lin g) (g_lin_kwargs g) ((k, v) :: g_solver_kwargs g) =
                        make_solver cuda lib (chosen g) x (g_lin g) (g_lin_kwargs g) (g_solver_kwargs g)).
  { intros x. unfold make_solver. cbn [existsb fst filter].
    assert (M : mem k reserved = false). { destruct (mem k reserved) eqn:E; [|reflexivity]. exfalso. apply N. apply mem_in. exact E. }
    assert (Q : mem k (solver_options (chosen g)) = false). { destruct (mem k (solver_options (chosen g))) eqn:E; [|reflexivity]. exfalso. apply U. apply uses_opts. exact E. }
    rewrite M, Q. assert (Dn : is_dense (chosen g) = false) by (destruct (chosen g); try reflexivity; discriminate D). rewrite Dn. reflexivity. }
  unfold make_optimizer. cbn [with_solver_option g_solver g_vectorize g_lin g_lin_kwargs g_solver_kwargs g_kwargs]. cbv zeta.
  destruct c.
  1-3: fold (chosen g); rewrite L; reflexivity.
  destruct (g_solver g) as [sc|] eqn:Es; [|reflexivity].
  replace sc with (chosen g) by (unfold chosen; rewrite Es; reflexivity). rewrite L. reflexivity.
Qed.
(** ... but refused by the dense ones *)
Theorem C101_unknown_solver_option_dense : forall c o g k v, (c <> OLinear -> ob_squared o = true) -> (c = OLinear -> g_solver g <> None) ->
  natural (chosen g) = LDense -> k <> "check_singular" -> snd (make c o (with_solver_option g k v)) = inr TypeErr.
Proof.
  intros c o g k v M S D N. rewrite (make_via_solver c o (with_solver_option g k v) TypeErr M S); [reflexivity|].
  change (chosen (with_solver_option g k v)) with (chosen g). cbn [with_solver_option g_solver_kwargs g_lin g_lin_kwargs g_vectorize].
  unfold make_solver. destruct (existsb (fun kv : string * V => mem (fst kv) reserved) ((k, v) :: g_solver_kwargs g)); [reflexivity|].
  pose proof D as D1. apply dense_natural in D1. rewrite D1. cbn [andb existsb fst].
  assert (Q : mem k (solver_options (chosen g)) = false).
  { destruct (mem k (solver_options (chosen g))) eqn:E; [|reflexivity]. exfalso. apply uses_opts in E. apply N. destruct (chosen g); try discriminate D; exact E. }
  rewrite Q. reflexivity.
Qed.

(** ---- LevenbergMarquardt: adaptive_damping, ellipsoidal_damping, damping_eps ---- *)
Theorem C101_lm_options : forall o g op o' ad el (eps : option V) grad, make OLevenbergMarquardt o g = (o', inl op) -> NoDup (map fst (g_kwargs g)) ->
  (lm_start op ad el eps grad = Solves <-> chosen g <> SCholmod \/ (ad = false /\ el = false /\ eps = None)) /\
  (chosen g = SCholmod -> ad = true -> lm_start op ad el eps grad = Raises NotImplErr) /\
  (chosen g = SCholmod -> ad = false -> el = true \/ eps <> None -> grad = true -> lm_start op ad el eps grad = Raises RuntimeErr).
Proof.
  intros o g op o' ad el eps grad H D. destruct (C101_made cuda lib d_abs d_rel d_max d_step _ _ _ _ _ H D) as (_ & _ & _ & _ & _ & _ & _ & _ & _ & _ & F & A).
  unfold lm_start, lm_reset, lm_compute_delta. rewrite A. destruct (op_ellipsoidal op).
  - destruct (proj1 F eq_refl) as [_ N]. cbn [negb]. rewrite !andb_false_r. split; [|split; intros C; contradiction].
    split; [intros _; left; exact N|intros _; destruct eps; reflexivity].
  - assert (C : chosen g = SCholmod). { destruct (chosen g); try reflexivity; assert (T : false = true) by (apply F; split; [reflexivity|discriminate]); discriminate T. }
    cbn [negb]. rewrite !andb_true_r. split; [|split].
    + split.
      * intros E. right. destruct ad; [discriminate E|]. destruct el; [destruct grad; discriminate E|]. destruct eps; [destruct grad; discriminate E|]. auto.
      * intros [N|(-> & -> & ->)]; [contradiction|reflexivity].
    + intros _ ->. reflexivity.
    + intros _ -> E ->. destruct el; [reflexivity|]. destruct eps; [reflexivity|]. destruct E as [E|E]; [discriminate E|congruence].
Qed.
(** Without gradients the same unsupported options raise nothing: NotImplementedError is a RuntimeError, which the loop
    turns into a warning and the status FAIL of every element. *)
Theorem C101_lm_options_refuted : forall o g op o' el (eps : option V), make OLevenbergMarquardt o g = (o', inl op) -> NoDup (map fst (g_kwargs g)) ->
  chosen g = SCholmod -> el = true \/ eps <> None -> lm_start op false el eps false = AllFail.
Proof.
  intros o g op o' el eps H D C E. destruct (C101_made cuda lib d_abs d_rel d_max d_step _ _ _ _ _ H D) as (_ & _ & _ & _ & _ & _ & _ & _ & _ & _ & F & A).
  unfold lm_start, lm_reset, lm_compute_delta. rewrite A. destruct (op_ellipsoidal op); [destruct (proj1 F eq_refl) as [_ N]; contradiction|].
  cbn. destruct el; [reflexivity|]. destruct eps; [reflexivity|]. destruct E as [E|E]; [discriminate E|congruence].
Qed.
End Ref.

(** ---- concrete cases ---- *)
Definition ex_o : objective := mkOb true false ["x"; "y"] 4 3.
Definition ex_g (s : option solcls) (l : option lincls) (ord : option (list string)) (kw : list (string * nat)) : @opt_args nat :=
  mkArgs s true l (mkLk ord []) [] kw.
Definition ex_make := make_optimizer false true 10 8 20 1.
Example C101_ex_accepted : accepted false true OLevenbergMarquardt ex_o (ex_g (Some SCholmod) None (Some ["y"; "x"]) []).
Proof.
  constructor; cbn; try discriminate; try (intros k v []); auto.
  all: try (intros l H; injection H as <-; reflexivity).
Qed.
Example C101_ex_made : exists op, ex_make OGaussNewton ex_o (ex_g None None None [("max_iterations", 5)]) = (vectorize ex_o, inl op) /\
  op_order op = ["x"; "y"] /\ op_params op = Some (mkP 10 8 5 1 None) /\ so_cls (op_solver op) = SCholeskyDense.
Proof. eexists. split; [reflexivity|]. auto. Qed.
Example C101_ex_cuda : snd (ex_make ODogleg ex_o (ex_g (Some SLUCuda) None None [])) = inr RuntimeErr.
Proof. reflexivity. Qed.
Example C101_ex_set : set_params (mkP 10 8 20 1 None) [("step_size", 7); ("max_iterations", 3)] = (mkP 10 8 3 7 None, None).
Proof. reflexivity. Qed.
Example C101_ex_mode : resolve (KStr "Truncated") = inl TRUNCATED /\ resolve (KStr "truncate") = inr ValueErr.
Proof. split; reflexivity. Qed.
