(** Property theorems C11, C12 and the vectorized half of C08. *)
From Coq Require Import List Arith Lia Bool Permutation Reals Lra.
Import ListNotations.
From Verif Require Import Dict Obj_model Upd_model Upd_proofs Vec_model Vec_spec Vec_proofs Vec_proofs2.

(** Every cost function has a variable whose batch dimension is the objective's batch size. *)
Definition all_full_batch {E O} (st : vid -> list E) (b : nat) (cs : list (cfn E O)) : Prop :=
  forall c, In c cs -> exists v, In v (all_vars_of c) /\ length (st v) = b.

(** C11.  In FULL mode every cost function is served, in the order of addition, exactly what it
    computes on its own variables broadcast to the batch size (masking of zero weights included). *)
Theorem C11_vectorized_equals_own :
  forall {E O} (dE : E) (dO : O) vn st b (cs : list (cfn E O)),
    vec_ok vn st b cs -> NoDup (map cf_id cs) -> all_full_batch st b cs ->
    serve_full dE dO vn st b cs = Some (map (fun c => Some (own_result dE st b c)) cs).
Proof.
  intros E O dE dO vn st b cs Hok Hnd Hfull. unfold serve_full.
  rewrite (vectorize_spec dE dO vn st b cs Hok true). f_equal. apply map_ext_in. intros c Hc.
  rewrite (In_lookup (cf_id c) (own_result dE st (served_batch st b cs c) c)).
  - rewrite (served_batch_full vn st b cs Hok c Hc (Hfull c Hc)). reflexivity.
  - unfold keys. rewrite map_map. simpl. eapply Permutation_NoDup; [|exact Hnd].
    apply Permutation_sym. apply Permutation_map. apply grouped_perm.
  - apply in_map_iff. exists c. split; [reflexivity|].
    eapply Permutation_in; [apply Permutation_sym, grouped_perm|exact Hc].
Qed.
Print Assumptions C11_vectorized_equals_own.

(** Without the full-batch hypothesis: a cost function alone in its schema is served with the
    batch dimension of its own variables, every other one with the objective's. *)
Theorem C11_vectorized_equals_own_general :
  forall {E O} (dE : E) (dO : O) vn st b (cs : list (cfn E O)),
    vec_ok vn st b cs -> NoDup (map cf_id cs) ->
    serve_full dE dO vn st b cs =
    Some (map (fun c => Some (own_result dE st
            (match filter (fun c' => cf_sch c' =? cf_sch c) cs with [_] => own_batch st c | _ => b end) c)) cs).
Proof.
  intros E O dE dO vn st b cs Hok Hnd. unfold serve_full.
  rewrite (vectorize_spec dE dO vn st b cs Hok true). f_equal. apply map_ext_in. intros c Hc.
  rewrite (In_lookup (cf_id c) (own_result dE st (served_batch st b cs c) c)).
  - reflexivity.
  - unfold keys. rewrite map_map. simpl. eapply Permutation_NoDup; [|exact Hnd].
    apply Permutation_sym. apply Permutation_map. apply grouped_perm.
  - apply in_map_iff. exists c. split; [reflexivity|].
    eapply Permutation_in; [apply Permutation_sym, grouped_perm|exact Hc].
Qed.
Print Assumptions C11_vectorized_equals_own_general.

(** ---- examples ---- *)
(** row function: sum of the variables' entries; weight: product with the single weight entry *)
Definition ex_cf (i s : nat) (vs ws : list vid) : cfn nat nat :=
  {| cf_id := i; cf_sch := s; cf_vars := vs; cf_wvars := ws;
     cf_row := fun l => fold_right (fun x a => x + 10 * a) 0 l;
     cf_weigh := fun w o => nth 0 w 0 * o;
     cf_wzero := Some (fun w => nth 0 w 0 =? 0); cf_zero := 0 |}.
(** variables 0,1: batch 2; 2: batch 1; 3: batch 2 shared; 4: batch 1 shared; 8, 9: weights *)
Definition ex_st (v : vid) : list nat :=
  match v with
  | 0 => [1; 2] | 1 => [3; 4] | 2 => [5] | 3 => [6; 7] | 4 => [8]
  | 8 => [1; 0] | 9 => [2] | 5 => [5] | 6 => [6] | _ => [9; 9] end.
Definition ex_cs : list (cfn nat nat) :=
  [ex_cf 0 7 [0; 2; 4] [8]; ex_cf 1 5 [0; 3] [9]; ex_cf 2 7 [1; 0; 4] [9]; ex_cf 3 7 [2; 3; 4] [8]].

Example C11_hypotheses_satisfiable :
  vec_ok (fun v => v) ex_st 2 ex_cs /\ NoDup (map cf_id ex_cs) /\ all_full_batch ex_st 2 ex_cs /\
  serve_full 0 0 (fun v => v) ex_st 2 ex_cs =
  Some [Some [851; 0]; Some [122; 144]; Some [1626; 1648]; Some [865; 0]].
Proof.
  split; [constructor|split; [repeat constructor; simpl; intuition discriminate|split; [|vm_compute; reflexivity]]].
  - lia.
  - simpl. intros c [<-|[<-|[<-|[<-|[]]]]]; discriminate.
  - simpl. intros c v [<-|[<-|[<-|[<-|[]]]]]; simpl; intros H; decompose [or] H; subst; simpl; auto; contradiction.
  - auto.
  - simpl. intros c c' [<-|[<-|[<-|[<-|[]]]]] [<-|[<-|[<-|[<-|[]]]]]; simpl; intros H; try discriminate;
      repeat split; auto.
  - simpl. intros c [<-|[<-|[<-|[<-|[]]]]]; intros wz Hw; injection Hw as <-; intros ws x H; apply Nat.eqb_eq in H; simpl;
      rewrite H; reflexivity.
  - intros c Hc. simpl in Hc. decompose [or] Hc; subst; [exists 0|exists 0|exists 0|exists 3|contradiction]; simpl; auto.
Qed.

(** C11 refuted at full strength, 1: a cost function alone in its schema whose variables all
    have batch 1 is served with batch 1 instead of the batch size. *)
Theorem C11_singleton_not_broadcast_refuted :
  exists vn st b (cs : list (cfn nat nat)) c,
    vec_ok vn st b cs /\ NoDup (map cf_id cs) /\ In c cs /\
    serve_full 0 0 vn st b cs = Some [Some [1; 2]; Some [5]] /\
    own_result 0 st b c = [5; 5].
Proof.
  set (mk := fun i s v => {| cf_id := i; cf_sch := s; cf_vars := [v]; cf_wvars := [];
     cf_row := fun l => nth 0 l 0; cf_weigh := fun _ o => o; cf_wzero := None; cf_zero := 0 |} : cfn nat nat).
  exists (fun v => v), ex_st, 2, [mk 0 0 0; mk 1 1 2], (mk 1 1 2).
  split; [constructor|split; [repeat constructor; simpl; intuition discriminate|split; [simpl; auto|]]].
  - lia.
  - simpl. intros c [<-|[<-|[]]]; discriminate.
  - simpl. intros c v [<-|[<-|[]]]; simpl; intros [<-|[]]; simpl; auto.
  - auto.
  - simpl. intros c c' [<-|[<-|[]]] [<-|[<-|[]]]; simpl; intros H; try discriminate; repeat split.
  - simpl. intros c [<-|[<-|[]]]; intros wz Hw; discriminate.
  - split; vm_compute; reflexivity.
Qed.
Print Assumptions C11_singleton_not_broadcast_refuted.

(** C11, why the schema hypothesis is needed: the schema only holds class names and variable types,
    so two cost functions of one user class that differ in a non-variable attribute are merged, and the
    second is served the first one's function. *)
Theorem C11_schema_must_determine_function_refuted :
  exists vn st b (c1 c2 : cfn nat nat),
    cf_sch c1 = cf_sch c2 /\ NoDup (map cf_id [c1; c2]) /\ all_full_batch st b [c1; c2] /\
    exists r, serve_full 0 0 vn st b [c1; c2] = Some [Some (own_result 0 st b c1); Some r] /\
              r <> own_result 0 st b c2.
Proof.
  set (mk := fun i v k => {| cf_id := i; cf_sch := 0; cf_vars := [v]; cf_wvars := [];
     cf_row := fun l => nth 0 l 0 + k; cf_weigh := fun _ o => o; cf_wzero := None; cf_zero := 0 |} : cfn nat nat).
  exists (fun v => v), ex_st, 2, (mk 0 0 100), (mk 1 1 200).
  split; [reflexivity|]. split; [repeat constructor; simpl; intuition discriminate|]. split.
  - intros c Hc. simpl in Hc. decompose [or] Hc; subst; [exists 0|exists 1|contradiction]; simpl; auto.
  - eexists. split; [vm_compute; reflexivity|]. vm_compute. discriminate.
Qed.
Print Assumptions C11_schema_must_determine_function_refuted.

(** ---- C12 ---- *)
(** Masked evaluation of jacobians gives the same weighted result as evaluating every row. *)
Theorem C12_masking_exact :
  forall {E O} (dE : E) (dO : O) (c : cfn E O) (ts wts : list (list E)) (B : nat),
    (forall t, In t (ts ++ wts) -> length t = B) ->
    zero_weight_annihilates c ->
    eval_masked dE dO c ts wts = Some (eval_plain dE c ts wts).
Proof. intros. eapply eval_masked_plain; eauto. Qed.
Print Assumptions C12_masking_exact.

(** The unmasked rows are evaluated on exactly their own data; the masked ones are zero-filled. *)
Theorem C12_masked_rows :
  forall {E O} (dE : E) (dO : O) (c : cfn E O) (ts : list (list E)) (mask : list bool),
    (forall t, In t ts -> length t = length mask) ->
    exists out, masked_jacobians dE dO c ts mask = Some out /\ length out = length mask /\
      forall i, i < length mask ->
        nth_error out i = Some (if nth i mask false then cf_row c (map (fun t => nth i t dE) ts) else cf_zero c).
Proof.
  intros E O dE dO c ts mask H. eexists. split; [now apply masked_eq|].
  split; [now rewrite map_length, seq_length|].
  intros i Hi. erewrite nth_error_nth'; [|now rewrite map_length, seq_length].
  rewrite nth_map_seq by exact Hi. reflexivity.
Unshelve. exact dO.
Qed.
Print Assumptions C12_masked_rows.

(** The weights shipped with theseus annihilate when [is_zero] says so (over the reals).
    A row of results: one matrix per optimization variable, and the error. *)
Section Weights.
Open Scope R_scope.
Definition jerr := (list (list (list R)) * list R)%type.

(** cost_weight.py 75-90 [ScaleCostWeight]: is_zero, weight_jacobians_and_error on one row *)
Definition scale_of (ws : list (list R)) : R := nth 0 (nth 0 ws []) 0.
Definition scale_zero (ws : list (list R)) : bool := if Req_EM_T (scale_of ws) 0 then true else false.
Definition scale_weigh (ws : list (list R)) (o : jerr) : jerr :=
  (map (map (map (fun x => x * scale_of ws))) (fst o), map (fun x => x * scale_of ws) (snd o)).

(** cost_weight.py 118-136 [DiagonalCostWeight]; entry [i] of the diagonal, broadcast if it
    has a single entry *)
Definition diag_at (ws : list (list R)) (i : nat) : R :=
  let d := nth 0 ws [] in if Nat.eqb (length d) 1 then nth 0 d 0 else nth i d 0.
Definition diag_zero (ws : list (list R)) : bool :=
  forallb (fun x => if Req_EM_T x 0 then true else false) (nth 0 ws []).
Fixpoint mapi {A B} (f : nat -> A -> B) (i : nat) (l : list A) : list B :=
  match l with [] => [] | x :: r => f i x :: mapi f (S i) r end.
Definition diag_weigh (ws : list (list R)) (o : jerr) : jerr :=
  (map (mapi (fun i row => map (fun x => x * diag_at ws i) row) 0) (fst o),
   mapi (fun i x => x * diag_at ws i) 0 (snd o)).

(** double_integrator.py 128-129 [GPCostWeight.is_zero] *)
Definition gp_zero (ws : list (list R)) : bool := false.

Definition same_shape (o o' : jerr) : Prop :=
  map (map (@length R)) (fst o) = map (map (@length R)) (fst o') /\ length (snd o) = length (snd o').

Lemma map_zero_len (l l' : list R) : length l = length l' -> map (fun x => x * 0) l = map (fun x => x * 0) l'.
Proof.
  revert l'. induction l as [|x l IH]; intros [|y l'] H; simpl in *; try discriminate; [reflexivity|].
  f_equal; [lra|]. apply IH. lia.
Qed.

Lemma scale_annihilates ws o o' : scale_zero ws = true -> same_shape o o' -> scale_weigh ws o = scale_weigh ws o'.
Proof.
  unfold scale_zero, scale_weigh. destruct (Req_EM_T (scale_of ws) 0) as [Ez|]; [|discriminate].
  intros _ [H1 H2]. rewrite Ez. f_equal; [|now apply map_zero_len].
  revert H1. generalize (fst o) as l, (fst o') as l'. induction l as [|m l IH]; intros [|m' l'] H; simpl in *; try discriminate; [reflexivity|].
  injection H as Hm Hl. f_equal; [|now apply IH]. clear -Hm. revert m' Hm.
  induction m as [|r m IH]; intros [|r' m'] H; simpl in *; try discriminate; [reflexivity|].
  injection H as Hr Hm. f_equal; [now apply map_zero_len|now apply IH].
Qed.

Lemma diag_at_zero ws i : diag_zero ws = true -> diag_at ws i = 0.
Proof.
  unfold diag_zero, diag_at. intros H. rewrite forallb_forall in H.
  assert (Hz : forall x, In x (nth 0 ws []) -> x = 0).
  { intros x Hx. specialize (H x Hx). destruct (Req_EM_T x 0); [assumption|discriminate]. }
  assert (Hn : forall j, nth j (nth 0 ws []) 0 = 0).
  { intros j. destruct (nth_in_or_default j (nth 0 ws []) 0) as [Hi|Hd]; auto. }
  cbv zeta. destruct (Nat.eqb _ 1); apply Hn.
Qed.

Lemma diag_annihilates ws o o' : diag_zero ws = true -> same_shape o o' -> diag_weigh ws o = diag_weigh ws o'.
Proof.
  intros Hz [H1 H2]. unfold diag_weigh.
  assert (Hrow : forall k (l l' : list R), length l = length l' ->
     map (fun x => x * diag_at ws k) l = map (fun x => x * diag_at ws k) l').
  { intros k l l' H. rewrite diag_at_zero by exact Hz. now apply map_zero_len. }
  f_equal.
  - revert H1. generalize (fst o) as l, (fst o') as l'. induction l as [|m l IH]; intros [|m' l'] H; simpl in *; try discriminate; [reflexivity|].
    injection H as Hm Hl. f_equal; [|now apply IH]. clear -Hm Hrow. revert m' Hm. generalize 0%nat as k.
    induction m as [|r m IH]; intros k [|r' m'] H; simpl in *; try discriminate; [reflexivity|].
    injection H as Hr Hm. f_equal; [now apply Hrow|now apply IH].
  - revert H2. generalize (snd o) as l, (snd o') as l', 0%nat as k. induction l as [|x l IH]; intros [|y l'] k H; simpl in *; try discriminate; [reflexivity|].
    f_equal; [rewrite diag_at_zero by exact Hz; lra|]. apply IH. lia.
Qed.
End Weights.

(** C12 for the shipped weights: masking is exact for every row-wise cost function whose
    Jacobians and error always have the shape of the zero row. *)
Theorem C12_masking_exact_shipped_weights :
  forall {E} (dE : E) (dO : jerr) (c : cfn E jerr) (rd : E -> list R) (ts wts : list (list E)) (B : nat),
    (forall t, In t (ts ++ wts) -> length t = B) ->
    (forall x, same_shape (cf_row c x) (cf_zero c)) ->
    ((cf_weigh c = (fun ws => scale_weigh (map rd ws)) /\ cf_wzero c = Some (fun ws => scale_zero (map rd ws))) \/
     (cf_weigh c = (fun ws => diag_weigh (map rd ws)) /\ cf_wzero c = Some (fun ws => diag_zero (map rd ws))) \/
     (cf_wzero c = Some (fun ws => gp_zero (map rd ws)))) ->
    eval_masked dE dO c ts wts = Some (eval_plain dE c ts wts).
Proof.
  intros E dE dO c rd ts wts B HB Hsh Hw. eapply C12_masking_exact; [exact HB|].
  intros wz Hz ws x Hzero. destruct Hw as [[W Z]|[[W Z]|Z]]; rewrite Z in Hz; injection Hz as <-.
  - rewrite W. apply scale_annihilates; auto.
  - rewrite W. apply diag_annihilates; auto.
  - discriminate.
Qed.
Print Assumptions C12_masking_exact_shipped_weights.

(** [masked_variables] as a context manager (variable.py 134-148): [Body] is what the [with]
    block does to the tensors (it may also raise). *)
Section Ctx.
Context {E A : Type}.
Inductive ctx := CRet (a : A) (st : vid -> list E) | CExc (st : vid -> list E) | CAssert (st : vid -> list E).
Definition ctx_state (r : ctx) := match r with CRet _ s => s | CExc s => s | CAssert s => s end.
(** variable.py 141-144 *)
Fixpoint mv_enter (vars : list vid) (mask : list bool) (st : vid -> list E) : bool * (vid -> list E) :=
  match vars with
  | [] => (true, st)
  | v :: r => if length (st v) =? length mask then mv_enter r mask (upd st v (select mask (st v)))
              else (false, st)
  end.
(** variable.py 146-148 *)
Fixpoint mv_exit (vars : list vid) (orig : list (list E)) (st : vid -> list E) : vid -> list E :=
  match vars, orig with
  | v :: r, t :: o => mv_exit r o (upd st v t)
  | _, _ => st
  end.
Definition with_masked (vars : list vid) (mask : list bool) (body : (vid -> list E) -> ctx) (st : vid -> list E) : ctx :=
  let orig := map st vars in
  match mv_enter vars mask st with
  | (false, st') => CAssert st'
  | (true, st') =>
    match body st' with
    | CRet a s => CRet a (mv_exit vars orig s)
    | CExc s => CExc (mv_exit vars orig s)
    | CAssert s => CAssert (mv_exit vars orig s)
    end
  end.

Lemma mv_exit_spec vars : forall f st v,
  mv_exit vars (map f vars) st v = if existsb (Nat.eqb v) vars then f v else st v.
Proof.
  induction vars as [|x vars IH]; intros f st v; simpl; [reflexivity|].
  rewrite IH. unfold upd. destruct (v =? x) eqn:Ex; simpl.
  - apply Nat.eqb_eq in Ex. subst. destruct (existsb (Nat.eqb x) vars); reflexivity.
  - reflexivity.
Qed.

Lemma mv_enter_spec vars mask : forall st, NoDup vars -> (forall v, In v vars -> length (st v) = length mask) ->
  exists st', mv_enter vars mask st = (true, st') /\
    forall v, st' v = if existsb (Nat.eqb v) vars then select mask (st v) else st v.
Proof.
  induction vars as [|x vars IH]; intros st Hnd Hl; simpl; [exists st; auto|].
  inversion Hnd as [|? ? Hx Hnd']; subst. rewrite (Hl x) by (simpl; auto). rewrite Nat.eqb_refl.
  destruct (IH (upd st x (select mask (st x))) Hnd') as (st' & E1 & E2).
  - intros v Hv. unfold upd. destruct (v =? x) eqn:Ev; [|apply Hl; simpl; auto].
    apply Nat.eqb_eq in Ev. subst. contradiction.
  - exists st'. split; [exact E1|]. intros v. rewrite E2. unfold upd.
    destruct (v =? x) eqn:Ev; simpl; [|reflexivity]. apply Nat.eqb_eq in Ev. subst.
    replace (existsb (Nat.eqb x) vars) with false; [reflexivity|]. symmetry. apply not_true_is_false.
    intros H. apply existsb_exists in H as (y & Hy & Ey). apply Nat.eqb_eq in Ey. subst y. contradiction.
Qed.
End Ctx.
Arguments ctx E A : clear implicits.

(** Whatever the evaluation does, even if it raises, the variables hold their original tensors
    afterwards, and the evaluation saw exactly the selected rows. *)
Theorem C12_variables_restored :
  forall {E A} (vars : list vid) (mask : list bool) (body : (vid -> list E) -> ctx E A) (st : vid -> list E),
    NoDup vars -> (forall v, In v vars -> length (st v) = length mask) ->
    (forall v, In v vars -> ctx_state (with_masked vars mask body st) v = st v) /\
    exists st', (forall v, st' v = if existsb (Nat.eqb v) vars then select mask (st v) else st v) /\
      match with_masked vars mask body st, body st' with
      | CRet a _, CRet a' _ => a = a' | CExc _, CExc _ => True | CAssert _, CAssert _ => True | _, _ => False end.
Proof.
  intros E A vars mask body st Hnd Hl. destruct (mv_enter_spec vars mask st Hnd Hl) as (st' & E1 & E2).
  unfold with_masked. rewrite E1. split.
  - intros v Hv. assert (Hex : existsb (Nat.eqb v) vars = true) by (apply existsb_exists; exists v; split; [exact Hv|apply Nat.eqb_refl]).
    destruct (body st'); simpl; rewrite mv_exit_spec, Hex; reflexivity.
  - exists st'. split; [exact E2|]. destruct (body st'); auto.
Qed.
Print Assumptions C12_variables_restored.

(** If the batch sizes differ, [__enter__] raises after masking the first variables, and they stay
    masked ([__exit__] is not called).  Not reachable from [Vectorize], which expands every variable. *)
Theorem C12_mixed_batch_leaves_masked_refuted :
  exists vars mask (st : vid -> list nat) (body : (vid -> list nat) -> ctx nat nat) v,
    In v vars /\ ctx_state (with_masked vars mask body st) v <> st v.
Proof.
  exists [0; 2], [true; false], ex_st, (fun s => CRet 0 s), 0. split; [simpl; auto|]. vm_compute. discriminate.
Qed.
Print Assumptions C12_mixed_batch_leaves_masked_refuted.

Example C12_hypotheses_satisfiable :
  let c := ex_cf 0 0 [0; 1] [8] in
  (forall t, In t ([ex_st 0; ex_st 1] ++ [ex_st 8]) -> length t = 2) /\ zero_weight_annihilates c /\
  eval_masked 0 0 c [ex_st 0; ex_st 1] [ex_st 8] = Some [31; 0].
Proof.
  cbv zeta. split; [|split; [|reflexivity]].
  - intros t H. simpl in H. decompose [or] H; subst; reflexivity || contradiction.
  - intros wz Hw; injection Hw as <-; intros ws x H; apply Nat.eqb_eq in H; simpl; now rewrite H.
Qed.

(** ---- C08, vectorization on ---- *)
(** Half the squared norm of one row of the error vector (objective.py error_metric). *)
Definition half_sq (row : list R) : R := (fold_right (fun x a => x * x + a)%R 0%R row / 2)%R.

Lemma half_sq_app a b : half_sq (a ++ b) = (half_sq a + half_sq b)%R.
Proof.
  unfold half_sq. assert (H : fold_right (fun x a => x * x + a)%R 0%R (a ++ b) =
    (fold_right (fun x a => x * x + a) 0 a + fold_right (fun x a => x * x + a) 0 b)%R).
  { induction a as [|x a IH]; simpl; [lra|]. rewrite IH. lra. }
  rewrite H. lra.
Qed.

Lemma half_sq_perm l l' : Permutation l l' -> half_sq (concat l) = half_sq (concat l').
Proof.
  intros H. induction H; simpl; rewrite ?half_sq_app in *; try lra.
Qed.

Lemma cat_rows_blocks {E} (dE : E) (st : vid -> list E) b (l : list (cfn E (list R))) :
  l <> [] -> exists err, cat_dim1 (map (own_result dE st b) l) = Some err /\ length err = b /\
    forall r, nth r err [] = concat (map (fun c => nth r (own_result dE st b c) []) l).
Proof.
  intros Hne.
  assert (Hlen : forall c : cfn E (list R), length (own_result dE st b c) = b) by (intros; unfold own_result; now rewrite map_length, seq_length).
  destruct (cat_dim1_some (map (own_result dE st b) l) b) as [err He].
  - destruct l; [congruence|discriminate].
  - intros e He. apply in_map_iff in He as (c & <- & _). apply Hlen.
  - exists err. split; [exact He|]. apply cat_dim1_spec in He as (_ & A & B). split.
    + destruct l as [|c l]; [congruence|]. rewrite <- (A (own_result dE st b c)) by (simpl; auto). apply Hlen.
    + intros r. rewrite B, map_map. reflexivity.
Qed.

(** The vectorized error vector holds, row by row, the blocks of all cost functions, each exactly
    once, but grouped by schema (stably); the error metric equals the non-vectorized one.
    Missing: equality with the order of addition, which is false. *)
Theorem C08_vectorized_error_partial :
  forall {E} (dE : E) vn st b (cs : list (cfn E (list R))),
    vec_ok vn st b cs -> all_full_batch st b cs -> cs <> [] ->
    exists gs errs err err0,
      Permutation gs cs /\
      (forall s, filter (fun c => cf_sch c =? s) gs = filter (fun c => cf_sch c =? s) cs) /\
      serve_error dE [] vn st b cs = Some errs /\ cat_dim1 errs = Some err /\ length err = b /\
      (forall r, nth r err [] = concat (map (fun c => nth r (own_result dE st b c) []) gs)) /\
      cat_dim1 (map (own_result dE st b) cs) = Some err0 /\
      (forall r, half_sq (nth r err []) = half_sq (nth r err0 [])).
Proof.
  intros E dE vn st b cs Hok Hfull Hne. exists (grouped cs).
  assert (Hs : serve_error dE [] vn st b cs = Some (map (own_result dE st b) (grouped cs))).
  { unfold serve_error. rewrite (vectorize_spec dE [] vn st b cs Hok false). f_equal.
    unfold values. rewrite map_map. apply map_ext_in. intros c Hc. simpl.
    assert (Hin : In c cs) by (eapply Permutation_in; [apply grouped_perm|exact Hc]).
    now rewrite (served_batch_full vn st b cs Hok c Hin (Hfull c Hin)). }
  assert (Hgne : grouped cs <> []).
  { intros X. apply Hne. apply Permutation_nil. rewrite <- X. apply grouped_perm. }
  destruct (cat_rows_blocks dE st b (grouped cs) Hgne) as (err & H1 & H2 & H3).
  destruct (cat_rows_blocks dE st b cs Hne) as (err0 & K1 & K2 & K3).
  exists (map (own_result dE st b) (grouped cs)), err, err0.
  split; [apply grouped_perm|]. split; [intros s; apply grouped_stable|].
  repeat (split; [assumption|]). intros r. rewrite H3, K3. apply half_sq_perm.
  apply Permutation_map. apply grouped_perm.
Qed.
Print Assumptions C08_vectorized_error_partial.

(** The documented order (order of addition) is not kept when vectorization is on. *)
Theorem C08_vectorized_order_refuted :
  exists vn st b (cs : list (cfn nat (list nat))),
    vec_ok vn st b cs /\ NoDup (map cf_id cs) /\ all_full_batch st b cs /\
    exists errs, serve_error 0 [] vn st b cs = Some errs /\
      cat_dim1 errs = Some [[1; 3; 6]] /\
      cat_dim1 (map (own_result 0 st b) cs) = Some [[1; 6; 3]].
Proof.
  set (mk := fun i s v => {| cf_id := i; cf_sch := s; cf_vars := [v]; cf_wvars := [];
     cf_row := fun l => l; cf_weigh := fun _ o => o; cf_wzero := None; cf_zero := [0] |} : cfn nat (list nat)).
  exists (fun v => v), (fun v => [nth v [1; 3; 6] 0]), 1, [mk 0 0 0; mk 1 1 2; mk 2 0 1].
  split; [constructor|split; [repeat constructor; simpl; intuition discriminate|split]].
  - lia.
  - simpl. intros c [<-|[<-|[<-|[]]]]; discriminate.
  - auto.
  - auto.
  - simpl. intros c c' [<-|[<-|[<-|[]]]] [<-|[<-|[<-|[]]]]; simpl; intros H; try discriminate; repeat split.
  - simpl. intros c [<-|[<-|[<-|[]]]]; intros wz Hw; discriminate.
  - intros c Hc. simpl in Hc. decompose [or] Hc; subst; [exists 0|exists 2|exists 1|contradiction]; simpl; auto.
  - eexists. split; [vm_compute; reflexivity|]. split; vm_compute; reflexivity.
Qed.
Print Assumptions C08_vectorized_order_refuted.
