(** C101: constructing optimizers and setting their parameters. *)
From Coq Require Import List String Ascii Arith Bool Lia.
From Verif Require Import Opt_model.
Import ListNotations.
Local Open Scope string_scope.
Local Open Scope list_scope.

(** ---- backward modes ---- *)
Definition mode_name (m : bmode) : string :=
  match m with UNROLL => "unroll" | IMPLICIT => "implicit" | TRUNCATED => "truncated" | DLM => "dlm" end.
(** the same string up to upper and lower case *)
Definition same_letter (a b : ascii) : Prop :=
  a = b \/ exists n, (97 <= n <= 122)%nat /\ ((a = ascii_of_nat n /\ b = ascii_of_nat (n - 32)) \/ (b = ascii_of_nat n /\ a = ascii_of_nat (n - 32))).
Fixpoint same_word (s t : string) : Prop :=
  match s, t with
  | EmptyString, EmptyString => True
  | String a r, String b q => same_letter a b /\ same_word r q
  | _, _ => False
  end.
Lemma up_char : forall a b, up a = up b <-> same_letter a b.
Proof.
  intros a b. split.
  - intros H. destruct (ascii_dec a b) as [E|N]; [left; exact E|right].
    unfold up in H.
    destruct ((97 <=? nat_of_ascii a)%nat && (nat_of_ascii a <=? 122)%nat) eqn:A;
    destruct ((97 <=? nat_of_ascii b)%nat && (nat_of_ascii b <=? 122)%nat) eqn:B.
    + exfalso. apply N. apply andb_true_iff in A, B. destruct A as [A1 A2], B as [B1 B2].
      apply Nat.leb_le in A1, A2, B1, B2.
      apply (f_equal nat_of_ascii) in H. rewrite !nat_ascii_embedding in H by lia.
      rewrite <- (ascii_nat_embedding a), <- (ascii_nat_embedding b). f_equal. lia.
    + apply andb_true_iff in A. destruct A as [A1 A2]. apply Nat.leb_le in A1, A2.
      exists (nat_of_ascii a). split; [lia|]. left. rewrite ascii_nat_embedding. auto.
    + apply andb_true_iff in B. destruct B as [B1 B2]. apply Nat.leb_le in B1, B2.
      exists (nat_of_ascii b). split; [lia|]. right. rewrite ascii_nat_embedding. auto.
    + contradiction.
  - assert (K : forall n, (97 <= n <= 122)%nat -> up (ascii_of_nat n) = ascii_of_nat (n - 32) /\ up (ascii_of_nat (n - 32)) = ascii_of_nat (n - 32)).
    { intros n Hn. unfold up. rewrite !nat_ascii_embedding by lia. split.
      - destruct (Nat.leb_spec 97 n); [|lia]. destruct (Nat.leb_spec n 122); [|lia]. reflexivity.
      - destruct (Nat.leb_spec 97 (n - 32)); [lia|]. reflexivity. }
    intros [->|(n & Hn & [[-> ->]|[-> ->]])]; [reflexivity| |]; destruct (K n Hn) as [K1 K2]; rewrite K1, K2; reflexivity.
Qed.
Lemma upper_same : forall s t, upper s = upper t <-> same_word s t.
Proof.
  induction s as [|a s IH]; intros [|b t]; cbn; split; intros H; try discriminate H; try contradiction; auto.
  - injection H as H1 H2. split; [apply up_char; exact H1|apply IH; exact H2].
  - destruct H as [H1 H2]. f_equal; [apply up_char; exact H1|apply IH; exact H2].
Qed.
Theorem C101_backward_mode : forall k m, resolve k = inl m <-> k = KMode m \/ exists s, k = KStr s /\ same_word s (mode_name m).
Proof.
  intros k m. destruct k as [m'|s|]; cbn [resolve].
  - split; [intros H; injection H as ->; left; reflexivity|]. intros [H|(s & H & _)]; [injection H as ->; reflexivity|discriminate H].
  - cbv zeta. split.
    + intros H. right. exists s. split; [reflexivity|]. apply upper_same.
      destruct (String.eqb_spec (upper s) "UNROLL"); [injection H as <-; assumption|].
      destruct (String.eqb_spec (upper s) "IMPLICIT"); [injection H as <-; assumption|].
      destruct (String.eqb_spec (upper s) "TRUNCATED"); [injection H as <-; assumption|].
      destruct (String.eqb_spec (upper s) "DLM"); [injection H as <-; assumption|discriminate H].
    + intros [H|(t & H & W)]; [discriminate H|]. injection H as <-. apply upper_same in W. rewrite W. destruct m; reflexivity.
  - split; [discriminate|]. intros [H|(s & H & _)]; discriminate H.
Qed.
Theorem C101_backward_mode_else : forall k, (forall m, k <> KMode m) -> (forall s m, k = KStr s -> ~ same_word s (mode_name m)) -> resolve k = inr ValueErr.
Proof.
  intros k H1 H2. destruct (resolve k) as [m|e] eqn:E.
  - exfalso. apply C101_backward_mode in E. destruct E as [E|(s & E & W)]; [exact (H1 m E)|exact (H2 s m E W)].
  - destruct k; cbn in E; [discriminate E| |congruence].
    repeat match type of E with context [if ?b then _ else _] => destruct b end; congruence.
Qed.

Section Main.
Context {V : Type}.
Variables (cuda lib : bool) (d_abs d_rel d_max d_step : V).
Notation make := (make_optimizer cuda lib d_abs d_rel d_max d_step).
Notation kwargs := (list (string * V)).

(** ---- set_params ---- *)
Inductive field := FAbs | FRel | FMax | FStep.
Definition field_name (f : field) : string :=
  match f with FAbs => "abs_err_tolerance" | FRel => "rel_err_tolerance" | FMax => "max_iterations" | FStep => "step_size" end.
Definition value (p : @params V) (f : field) : V := match f with FAbs => p_abs p | FRel => p_rel p | FMax => p_max p | FStep => p_step p end.
Definition is_field (k : string) : Prop := exists f, k = field_name f.
(** a record that differs from [p] in the fields given only *)
Definition sets (p p' : @params V) (kw : kwargs) : Prop :=
  p_update p' = p_update p /\
  forall f, (forall v, In (field_name f, v) kw -> value p' f = v) /\ (~ In (field_name f) (map fst kw) -> value p' f = value p f).

Lemma set_attr_field : forall (p : @params V) f v, exists p', set_attr p (field_name f) v = Some p' /\ p_update p' = p_update p /\
  value p' f = v /\ forall f', f' <> f -> value p' f' = value p f'.
Proof.
  intros p f v. destruct f; cbn; eexists; (split; [reflexivity|]); (split; [reflexivity|]); (split; [reflexivity|]); intros f' N; destruct f'; try reflexivity; congruence.
Qed.
Lemma set_attr_other : forall (p : @params V) k v, ~ is_field k -> k <> "update" -> set_attr p k v = None.
Proof.
  intros p k v N U. unfold set_attr.
  destruct (String.eqb_spec k "abs_err_tolerance"); [exfalso; apply N; exists FAbs; assumption|].
  destruct (String.eqb_spec k "rel_err_tolerance"); [exfalso; apply N; exists FRel; assumption|].
  destruct (String.eqb_spec k "max_iterations"); [exfalso; apply N; exists FMax; assumption|].
  destruct (String.eqb_spec k "step_size"); [exfalso; apply N; exists FStep; assumption|].
  destruct (String.eqb_spec k "update"); [contradiction|reflexivity].
Qed.
Lemma field_inj : forall f f', field_name f = field_name f' -> f = f'.
Proof. intros [] []; cbn; congruence || discriminate. Qed.
Lemma update_fields : forall kw p, NoDup (map fst kw) -> (forall k, In k (map fst kw) -> is_field k) ->
  exists p', params_update p kw = (p', None) /\ sets p p' kw.
Proof.
  induction kw as [|[k v] kw IH]; intros p D F.
  - exists p. split; [reflexivity|]. split; [reflexivity|]. intros f. split; [intros v []|reflexivity].
  - destruct (F k (or_introl eq_refl)) as [f ->]. destruct (set_attr_field p f v) as (p1 & E & U & Vf & O).
    cbn [map fst] in D. apply NoDup_cons_iff in D. destruct D as [N D'].
    destruct (IH p1 D' (fun k H => F k (or_intror H))) as (p' & E' & U' & S'). exists p'. cbn [params_update]. rewrite E. split; [exact E'|].
    split; [congruence|]. intros f'. destruct (S' f') as [S1 S2]. split.
    + intros v' [H|H]; [|apply S1; exact H]. injection H as H1 <-. apply field_inj in H1. subst f'. rewrite (S2 N). exact Vf.
    + intros M. rewrite S2 by (intro H; apply M; right; exact H). apply O. intros ->. apply M. left. reflexivity.
Qed.
(** set_params of parameter names: exactly the named ones change *)
Theorem C101_set_params : forall p (kw : kwargs), p_update p = None -> NoDup (map fst kw) -> (forall k, In k (map fst kw) -> is_field k) ->
  exists p', set_params p kw = (p', None) /\ sets p p' kw.
Proof. intros p kw U D F. unfold set_params. rewrite U. apply update_fields; assumption. Qed.
(** another name raises ValueError *)
Theorem C101_set_params_unknown : forall p (pre : kwargs) k v post, p_update p = None -> NoDup (map fst (pre ++ (k, v) :: post)) ->
  (forall k', In k' (map fst pre) -> is_field k') -> ~ is_field k -> k <> "update" ->
  exists p', set_params p (pre ++ (k, v) :: post) = (p', Some ValueErr) /\ sets p p' pre.
Proof.
  intros p pre k v post U D F N Nu.
  assert (Dp : NoDup (map fst pre)). { rewrite map_app in D. clear - D. induction (map fst pre) as [|x l IH]; [constructor|]. cbn in D. inversion D; subst. constructor; [|auto]. intro H; apply H1; apply in_or_app; left; exact H. }
  destruct (update_fields pre p Dp F) as (p' & E & S). exists p'. split; [|exact S]. unfold set_params. rewrite U.
  assert (G : forall l q q', params_update q l = (q', None) -> params_update q (l ++ (k, v) :: post) = (q', Some ValueErr)).
  { induction l as [|[k1 v1] l IH]; intros q q' H; cbn in *.
    - injection H as <-. rewrite (set_attr_other q k v N Nu). reflexivity.
    - destruct (set_attr q k1 v1); [apply IH; exact H|discriminate H]. }
  apply G. exact E.
Qed.
(** ... but what came before it in the call stays set: the call is not atomic *)
Theorem C101_set_params_atomic_refuted : forall (p : @params V) a b, a <> p_max p -> p_update p = None ->
  exists p', set_params p [("max_iterations", a); ("max_iteration", b)] = (p', Some ValueErr) /\ p_max p' = a /\ p' <> p.
Proof.
  intros p a b N U. unfold set_params. rewrite U. cbn. eexists. split; [reflexivity|]. split; [reflexivity|].
  intro E. apply N. rewrite <- E. reflexivity.
Qed.
(** set_params(update=...) is accepted and ends the use of set_params on this optimizer *)
Theorem C101_set_params_update_refuted : forall (p : @params V) v, p_update p = None ->
  exists p', set_params p [("update", v)] = (p', None) /\ forall kw, set_params p' kw = (p', Some TypeErr).
Proof. intros p v U. unfold set_params at 1. rewrite U. cbn. eexists. split; [reflexivity|]. intros kw. reflexivity. Qed.

(** ---- construction ---- *)
Definition chosen (g : @opt_args V) : solcls := match g_solver g with Some s => s | None => SCholeskyDense end.
Definition natural (s : solcls) : lincls := match s with SCholeskyDense | SLUDense => LDense | _ => LSparse end.
Definition own_args : list string := ["objective"; "linearization_cls"; "linearization_kwargs"].
(** the calls that give an optimizer *)
Record accepted (c : optcls) (o : objective) (g : @opt_args V) : Prop := {
  ac_metric : c <> OLinear -> ob_squared o = true;
  ac_solver : c = OLinear -> g_solver g <> None;
  ac_kwargs : forall k v, In (k, v) (g_solver_kwargs g) -> ~ In k own_args /\ (natural (chosen g) = LDense -> k = "check_singular");
  ac_cuda : chosen g = SLUCuda -> cuda = true;
  ac_lin : g_lin g = None \/ g_lin g = Some (natural (chosen g));
  ac_lin_kwargs : ~ In "objective" (lk_names (g_lin_kwargs g));
  ac_order : forall l, lk_ordering (g_lin_kwargs g) = Some l -> List.length l = List.length (ob_vars o);
  ac_lib : chosen g = SLUCuda \/ chosen g = SBaspacho -> ob_rows o = 0 \/ lib = true
}.
Definition uses (s : solcls) (k : string) : Prop :=
  match s with
  | SCholeskyDense | SLUDense => k = "check_singular"
  | SCholmod => k = "damping"
  | SLUCuda => k = "num_solver_contexts" \/ k = "batch_size" \/ k = "auto_reset"
  | SBaspacho => False
  end.

Lemma mem_in : forall k l, mem k l = true <-> In k l.
Proof.
  intros k l. unfold mem. rewrite existsb_exists. split.
  - intros (x & H & E). apply String.eqb_eq in E. subst x. exact H.
  - intros H. exists k. split; [exact H|apply String.eqb_refl].
Qed.
Lemma uses_opts : forall s k, mem k (solver_options s) = true <-> uses s k.
Proof. intros s k. rewrite mem_in. destruct s; cbn; intuition congruence. Qed.
Lemma dense_natural : forall s, is_dense s = true <-> natural s = LDense.
Proof. intros []; cbn; split; congruence || auto. Qed.

Lemma solver_made : forall s o lc lk (skw : kwargs),
  (exists so, make_solver cuda lib s o lc lk skw = inl so) <->
  ((forall k v, In (k, v) skw -> ~ In k own_args /\ (natural s = LDense -> k = "check_singular")) /\
   (s = SLUCuda -> cuda = true) /\ (lc = None \/ lc = Some (natural s)) /\ ~ In "objective" (lk_names lk) /\
   (forall l, lk_ordering lk = Some l -> List.length l = List.length (ob_vars o)) /\
   (s = SLUCuda \/ s = SBaspacho -> ob_rows o = 0 \/ lib = true)).
Proof.
  intros s o lc lk skw. unfold make_solver.
  assert (A : existsb (fun kv : string * V => mem (fst kv) reserved) skw = false <-> forall k v, In (k, v) skw -> ~ In k own_args).
  { split.
    - intros H k v I J. assert (T : existsb (fun kv : string * V => mem (fst kv) reserved) skw = true); [|congruence].
      apply existsb_exists. exists (k, v). split; [exact I|]. apply mem_in. exact J.
    - intros H. destruct (existsb _ skw) eqn:E; [|reflexivity]. exfalso. apply existsb_exists in E. destruct E as ([k v] & I & M).
      apply mem_in in M. exact (H k v I M). }
  assert (B : is_dense s && existsb (fun kv : string * V => negb (mem (fst kv) (solver_options s))) skw = false <->
              (natural s = LDense -> forall k v, In (k, v) skw -> k = "check_singular")).
  { split.
    - intros H N k v I. pose proof N as N0. apply dense_natural in N. rewrite N in H. cbn [andb] in H.
      destruct (mem k (solver_options s)) eqn:M.
      + apply uses_opts in M. destruct s; cbn in N0, M; congruence.
      + assert (T : existsb (fun kv : string * V => negb (mem (fst kv) (solver_options s))) skw = true); [|congruence].
        apply existsb_exists. exists (k, v). split; [exact I|]. cbn [fst]. rewrite M. reflexivity.
    - intros H. destruct (is_dense s) eqn:N; [|reflexivity]. cbn [andb]. pose proof N as N1. apply dense_natural in N.
      destruct (existsb (fun kv : string * V => negb (mem (fst kv) (solver_options s))) skw) eqn:E; [|reflexivity]. exfalso. apply existsb_exists in E. destruct E as ([k v] & I & M).
      specialize (H N k v I). subst k. cbn [fst] in M. destruct s; discriminate N1 || discriminate M. }
  destruct (existsb (fun kv : string * V => mem (fst kv) reserved) skw).
  { split; [intros [? H]; discriminate H|]. intros (H & _). exfalso. assert (T : true = false); [|discriminate T]. apply A. intros k v I. apply (H k v I). }
  destruct (is_dense s && existsb (fun kv : string * V => negb (mem (fst kv) (solver_options s))) skw).
  { split; [intros [? H]; discriminate H|]. intros (H & _). exfalso. assert (T : true = false); [|discriminate T]. apply B. intros N k v I. apply (H k v I). exact N. }
  assert (A' := proj1 A eq_refl). assert (B' := proj1 B eq_refl). clear A B.
  assert (L : (exists ln, make_linearization (natural s) o lk = inl ln) <-> ~ In "objective" (lk_names lk) /\ (forall l, lk_ordering lk = Some l -> List.length l = List.length (ob_vars o))).
  { unfold make_linearization. change (existsb (String.eqb "objective") (lk_names lk)) with (mem "objective" (lk_names lk)).
    destruct (mem "objective" (lk_names lk)) eqn:M.
    - apply mem_in in M. split; [intros [? H]; discriminate H|intros [H _]; contradiction].
    - assert (M' : ~ In "objective" (lk_names lk)) by (intro I; apply mem_in in I; congruence).
      destruct (lk_ordering lk) as [l|].
      + cbv zeta. destruct (Nat.eqb_spec (List.length l) (List.length (ob_vars o))) as [E|E].
        * split; [intros _; split; [exact M'|intros l' H; injection H as <-; exact E]|intros _; eexists; reflexivity].
        * split; [intros [? H]; discriminate H|intros [_ H]; exfalso; apply E; apply H; reflexivity].
      + cbv zeta. rewrite Nat.eqb_refl. split; [intros _; split; [exact M'|discriminate]|intros _; eexists; reflexivity]. }
  assert (AB : forall k v, In (k, v) skw -> ~ In k own_args /\ (natural s = LDense -> k = "check_singular")) by (intros k v I; split; [exact (A' k v I)|intros N; exact (B' N k v I)]).
  set (R := make_linearization (natural s) o lk) in *.
  split.
  - intros [so H]. split; [exact AB|].
    destruct s; cbn in H; try (destruct cuda; [|discriminate H]; cbn in H); destruct lc as [[]|]; cbn in H; try discriminate H;
      change (make_linearization _ o lk) with R in H; destruct R as [ln|e] eqn:ER; try discriminate H;
      (split; [congruence || (intros _; reflexivity)|]); (split; [auto|]);
      (assert (LL := proj1 L (ex_intro _ ln eq_refl)); destruct LL as [L1 L2]; split; [exact L1|]; split; [exact L2|]);
      intros [T|T]; try discriminate T; destruct lib; auto; destruct (ob_rows o); auto; discriminate H.
  - intros (_ & C & Lc & L1 & L2 & Li). destruct (proj2 L (conj L1 L2)) as [ln El]. clear L. unfold R in El. clear R.
    destruct Lc as [-> | ->]; destruct s; cbn [is_dense natural andb]; cbn [natural] in El;
      try (rewrite (C eq_refl); cbn [negb]);
      try rewrite El; try (eexists; reflexivity);
      (destruct (Li ltac:(auto)) as [-> | ->]; cbn; [destruct lib|]; cbn; eexists; reflexivity).
Qed.

Theorem C101_accepted : forall c o g, (exists op, snd (make c o g) = inl op) <-> accepted c o g.
Proof.
  intros c o g.
  assert (ST : forall o', ob_vars o' = ob_vars o -> ob_rows o' = ob_rows o ->
    ((exists so, make_solver cuda lib (chosen g) o' (g_lin g) (g_lin_kwargs g) (g_solver_kwargs g) = inl so) <->
     (exists so, make_solver cuda lib (chosen g) o (g_lin g) (g_lin_kwargs g) (g_solver_kwargs g) = inl so))).
  { intros o' E1 E2. rewrite !solver_made. rewrite E1, E2. reflexivity. }
  assert (SV : (exists so, make_solver cuda lib (chosen g) (if g_vectorize g then vectorize o else o) (g_lin g) (g_lin_kwargs g) (g_solver_kwargs g) = inl so) <->
     (exists so, make_solver cuda lib (chosen g) o (g_lin g) (g_lin_kwargs g) (g_solver_kwargs g) = inl so)) by (apply ST; destruct (g_vectorize g); reflexivity).
  assert (GO : (c <> OLinear -> ob_squared o = true) -> (c = OLinear -> g_solver g <> None) ->
     ((exists op, snd (make c o g) = inl op) <-> exists so, make_solver cuda lib (chosen g) (if g_vectorize g then vectorize o else o) (g_lin g) (g_lin_kwargs g) (g_solver_kwargs g) = inl so)).
  { intros M S. unfold make_optimizer. cbv zeta.
    destruct c; [rewrite M by discriminate..|]; cbn [negb];
    [fold (chosen g)|fold (chosen g)|fold (chosen g)|destruct (g_solver g) as [sc|] eqn:Es; [|exfalso; apply (S eq_refl); reflexivity]; replace sc with (chosen g) by (unfold chosen; rewrite Es; reflexivity)];
    (destruct (make_solver cuda lib (chosen g) (if g_vectorize g then vectorize o else o) (g_lin g) (g_lin_kwargs g) (g_solver_kwargs g)) as [so|e]; cbn [snd]; split; intros [x H]; try discriminate H; eexists; reflexivity). }
  split.
  - intros H.
    assert (M : c <> OLinear -> ob_squared o = true).
    { intros N. destruct (ob_squared o) eqn:E; [reflexivity|]. exfalso. destruct H as [op H]. unfold make_optimizer in H. rewrite E in H. destruct c; try discriminate H. congruence. }
    assert (S : c = OLinear -> g_solver g <> None).
    { intros -> E. destruct H as [op H]. unfold make_optimizer in H. rewrite E in H. discriminate H. }
    apply (GO M S) in H. apply SV in H. apply solver_made in H. destruct H as (H1 & H2 & H3 & H4 & H5 & H6). constructor; assumption.
  - intros [M S H1 H2 H3 H4 H5 H6]. apply (GO M S). apply SV. apply solver_made. auto 10.
Qed.

Lemma lookup_in : forall k (kw : kwargs) d, NoDup (map fst kw) ->
  (forall v, In (k, v) kw -> get k d kw = v) /\ (~ In k (map fst kw) -> get k d kw = d).
Proof.
  intros k kw d. unfold get. induction kw as [|[k' v'] kw IH]; intros D; cbn.
  - split; [intros v []|reflexivity].
  - inversion D as [|x l N D']; subst. specialize (IH D'). destruct (String.eqb_spec k' k) as [->|Ne].
    + split; [|intros H; exfalso; apply H; left; reflexivity]. intros v [H|H]; [congruence|]. exfalso. apply N. apply (in_map fst) in H. exact H.
    + split; [|intros H; apply IH; intro I; apply H; right; exact I]. intros v [H|H]; [congruence|apply IH; exact H].
Qed.
Definition default (f : field) : V := match f with FAbs => d_abs | FRel => d_rel | FMax => d_max | FStep => d_step end.

(** what the optimizer is *)
Theorem C101_made : forall c o g op o', make c o g = (o', inl op) -> NoDup (map fst (g_kwargs g)) ->
  o' = (if g_vectorize g then vectorize o else o) /\
  op_cls op = c /\ so_cls (op_solver op) = chosen g /\ ln_cls (so_lin (op_solver op)) = natural (chosen g) /\
  (forall k v, In (k, v) (so_opts (op_solver op)) <-> In (k, v) (g_solver_kwargs g) /\ uses (chosen g) k) /\
  op_order op = (match lk_ordering (g_lin_kwargs g) with Some l => l | None => ob_vars o end) /\
  List.length (op_order op) = List.length (ob_vars o) /\
  op_version op = ob_version o /\
  (c <> OLinear -> op_tmp op = op_order op) /\
  (c <> OLinear -> exists p, op_params op = Some p /\ p_update p = None /\
     forall f, (forall v, In (field_name f, v) (g_kwargs g) -> value p f = v) /\ (~ In (field_name f) (map fst (g_kwargs g)) -> value p f = default f)) /\
  (op_ellipsoidal op = true <-> c = OLevenbergMarquardt /\ chosen g <> SCholmod) /\ op_adaptive op = op_ellipsoidal op.
Proof.
  intros c o g op o' H D.
  assert (P : forall x so, make_solver cuda lib (chosen g) x (g_lin g) (g_lin_kwargs g) (g_solver_kwargs g) = inl so -> ob_vars x = ob_vars o ->
    so_cls so = chosen g /\ ln_cls (so_lin so) = natural (chosen g) /\
    (forall k v, In (k, v) (so_opts so) <-> In (k, v) (g_solver_kwargs g) /\ uses (chosen g) k) /\
    ln_order (so_lin so) = (match lk_ordering (g_lin_kwargs g) with Some l => l | None => ob_vars o end) /\
    List.length (ln_order (so_lin so)) = List.length (ob_vars o)).
  { intros x so E Ex. generalize (proj1 (solver_made (chosen g) x (g_lin g) (g_lin_kwargs g) (g_solver_kwargs g)) (ex_intro _ so E)).
    intros (_ & Cu & Lc & L1 & L2 & _).
    unfold make_solver in E. destruct (existsb _ _); [discriminate E|]. destruct (_ && existsb _ _); [discriminate E|].
    destruct (match chosen g with SLUCuda => negb cuda | _ => false end); [discriminate E|].
    assert (Ln : make_linearization (natural (chosen g)) x (g_lin_kwargs g) = inl (mkLin (natural (chosen g)) (match lk_ordering (g_lin_kwargs g) with Some l => l | None => ob_vars o end))).
    { unfold make_linearization. destruct (existsb (String.eqb "objective") (lk_names (g_lin_kwargs g))) eqn:M; [exfalso; apply L1; apply mem_in; exact M|].
      cbv zeta. rewrite Ex in *. destruct (lk_ordering (g_lin_kwargs g)) as [l|]; [rewrite (L2 l eq_refl)|]; rewrite Nat.eqb_refl; reflexivity. }
    assert (Es : so = mkS (chosen g) (mkLin (natural (chosen g)) (match lk_ordering (g_lin_kwargs g) with Some l => l | None => ob_vars o end))
                   (filter (fun kv => mem (fst kv) (solver_options (chosen g))) (g_solver_kwargs g))).
    { destruct Lc as [Lc|Lc]; rewrite Lc in E; destruct (chosen g); cbn [is_dense natural] in E, Ln; rewrite Ln in E;
      repeat match type of E with context [if ?b then _ else _] => destruct b end; first [discriminate E | injection E as <-; reflexivity]. }
    subst so. cbn [so_cls so_lin so_opts ln_cls ln_order]. split; [reflexivity|]. split; [reflexivity|]. split.
    { intros k v. rewrite filter_In. cbn [fst]. rewrite uses_opts. reflexivity. }
    split; [reflexivity|]. destruct (lk_ordering (g_lin_kwargs g)) as [l|] eqn:El; [|reflexivity]. rewrite <- Ex. apply L2. reflexivity. }
  assert (Q : forall so, let x := if g_vectorize g then vectorize o else o in
     make_solver cuda lib (chosen g) x (g_lin g) (g_lin_kwargs g) (g_solver_kwargs g) = inl so ->
     c <> OLinear -> make c o g = (x, inl (mkOpt c so (Some (mkP (get "abs_err_tolerance" d_abs (g_kwargs g)) (get "rel_err_tolerance" d_rel (g_kwargs g))
                 (get "max_iterations" d_max (g_kwargs g)) (get "step_size" d_step (g_kwargs g)) None)) (ln_order (so_lin so)) (ln_order (so_lin so)) (ob_version o)
          (match c with OLevenbergMarquardt => lm_allowed (so_cls so) | _ => false end) (match c with OLevenbergMarquardt => lm_allowed (so_cls so) | _ => false end))) \/ ob_squared o = false).
  { intros so x E N. destruct (ob_squared o) eqn:Sq; [left|right; reflexivity].
    unfold make_optimizer. rewrite Sq. cbn [negb]. fold (chosen g). fold x. destruct c; try congruence; rewrite E;
    replace (ob_version x) with (ob_version o) by (subst x; destruct (g_vectorize g); reflexivity); reflexivity. }
  assert (Xv : ob_vars (if g_vectorize g then vectorize o else o) = ob_vars o) by (destruct (g_vectorize g); reflexivity).
  assert (Xn : ob_version (if g_vectorize g then vectorize o else o) = ob_version o) by (destruct (g_vectorize g); reflexivity).
  assert (Ac : accepted c o g) by (apply C101_accepted; exists op; rewrite H; reflexivity).
  assert (LM : forall s, lm_allowed s = true <-> s <> SCholmod) by (intros []; cbn; split; congruence || auto).
  destruct (make_solver cuda lib (chosen g) (if g_vectorize g then vectorize o else o) (g_lin g) (g_lin_kwargs g) (g_solver_kwargs g)) as [so|e] eqn:E.
  2:{ exfalso. unfold make_optimizer in H. destruct c.
      1-3: rewrite (ac_metric _ _ _ Ac) in H by discriminate; cbn [negb] in H; fold (chosen g) in H; rewrite E in H; discriminate H.
      destruct (g_solver g) as [sc|] eqn:Es; [|discriminate H]. replace sc with (chosen g) in H by (unfold chosen; rewrite Es; reflexivity). rewrite E in H. discriminate H. }
  destruct (P _ so E Xv) as (P1 & P2 & P3 & P4 & P5).
  destruct (match c with OLinear => true | _ => false end) eqn:Li.
  - destruct c; try discriminate Li. unfold make_optimizer in H. destruct (g_solver g) as [sc|] eqn:Es; [|discriminate H].
    replace sc with (chosen g) in H by (unfold chosen; rewrite Es; reflexivity). rewrite E in H. injection H as <- <-.
    cbn [op_cls op_solver op_params op_order op_tmp op_version op_ellipsoidal op_adaptive]. rewrite Xn.
    repeat (split; [first [assumption|reflexivity|congruence]|]). split; [|reflexivity]. split; [discriminate|intros [T _]; discriminate T].
  - assert (N : c <> OLinear) by (destruct c; try discriminate; discriminate Li).
    destruct (Q so E N) as [Q'|Q']; [|rewrite (ac_metric _ _ _ Ac N) in Q'; discriminate Q']. rewrite H in Q'. injection Q' as -> ->.
    cbn [op_cls op_solver op_params op_order op_tmp op_version op_ellipsoidal op_adaptive].
    repeat (split; [first [assumption|reflexivity|congruence]|]). split.
    { intros _. eexists. split; [reflexivity|]. split; [reflexivity|]. intros []; apply (lookup_in _ _ _ D). }
    split; [|reflexivity]. rewrite P1. destruct c; try (split; [discriminate|intros [T _]; discriminate T]); try congruence. rewrite LM. intuition.
Qed.
End Main.
