(** C73: ManifoldGaussian objects over arbitrary histories. *)
From Coq Require Import Reals List Arith Bool Lia Lra Psatz.
Import ListNotations.
From Verif Require Import RSum Mg_model Mg_spec Mg_inv Mg_props Mg_obj.

(** ---- specification ---- *)
(** every object refers to existing objects, and dof is the sum over the means *)
Definition wf (s : st) : Prop :=
  (forall v, v < length (vars s) -> v_tensor (var_of s v) < length (tens s))
  /\ (forall g, g < length (gs s) ->
       (forall v, In v (g_mean (gauss_of s g)) -> v < length (vars s)) /\ g_prec (gauss_of s g) < length (tens s)
       /\ g_dof (gauss_of s g) = total_dof s (g_mean (gauss_of s g))).
(** the operation names existing objects *)
Definition op_ok (s : st) (o : op) : Prop :=
  match o with
  | NewTensor _ => True
  | NewVar _ t => t < length (tens s)
  | Write t _ => t < length (tens s)
  | VarUpdate v t => v < length (vars s) /\ t < length (tens s)
  | New mean p => (forall v, In v mean -> v < length (vars s)) /\ (forall t, p = Some t -> t < length (tens s))
  | Update g mean p => g < length (gs s) /\ (forall v, In v mean -> v < length (vars s)) /\ p < length (tens s)
  | Copy g => g < length (gs s)
  | To g _ _ => g < length (gs s)
  end.
Fixpoint ops_ok (s : st) (l : list op) : Prop :=
  match l with [] => True | o :: r => op_ok s o /\ ops_ok (fst (step s o)) r end.

(** symmetric up to torch.allclose's tolerances *)
Definition symm (n B : nat) (p : tns) : Prop := forall b i j, b < B -> i < n -> j < n ->
  (Rabs (t_val p [b; i; j] - t_val p [b; j; i]) <= / 10 ^ 8 + / 10 ^ 5 * Rabs (t_val p [b; j; i]))%R.
(** a precision for n degrees of freedom and a mean whose first entry is m *)
Definition precision_for (m : tns) (n : nat) (p : tns) : Prop :=
  t_shape p = [hd 0 (t_shape m); n; n] /\ t_dtype p = t_dtype m /\ t_dev p = t_dev m /\ symm n (hd 0 (t_shape m)) p.
(** a usable Gaussian *)
Definition consistent (s : st) (g : gauss) : Prop :=
  exists m0 r, g_mean g = m0 :: r /\ precision_for (held s m0) (g_dof g) (tensor_of s (g_prec g)).
(** the variable v accepts the tensor t *)
Definition fits (s : st) (v : vid) (t : tns) : Prop :=
  length (t_shape t) = length (t_shape (held s v)) /\ tl (t_shape t) = tl (t_shape (held s v)) /\ t_dtype t = t_dtype (held s v).
(** the given variables are not the Gaussian's own at other positions, and these are distinct *)
Definition no_alias (self mean : list vid) : Prop :=
  NoDup self /\ forall i j, i < length self -> j < length mean -> i <> j -> nth i self 0 <> nth j mean 0.

(** ---- lists ---- *)
Lemma replace_length {A} n (x : A) l : length (replace n x l) = length l.
Proof. revert n; induction l as [|a l IH]; intros [|n]; cbn; auto. Qed.
Lemma nth_replace_eq {A} n (x : A) l d : n < length l -> nth n (replace n x l) d = x.
Proof. revert n; induction l as [|a l IH]; intros [|n] H; cbn in *; try lia; auto. apply IH; lia. Qed.
Lemma nth_replace_neq {A} n m (x : A) l d : n <> m -> nth m (replace n x l) d = nth m l d.
Proof. revert n m; induction l as [|a l IH]; intros [|n] [|m] H; cbn; try congruence; auto. Qed.
Lemma replace_same {A} n (l : list A) d : replace n (nth n l d) l = l.
Proof. revert n; induction l as [|a l IH]; intros [|n]; cbn; f_equal; auto. Qed.

Lemma var_set_eq s v t : v < length (vars s) -> var_of (set_var s v t) v = mkVar (v_dof (var_of s v)) t.
Proof. intro H. unfold var_of, set_var. cbn [vars]. now apply nth_replace_eq. Qed.
Lemma var_set_neq s v t w : v <> w -> var_of (set_var s v t) w = var_of s w.
Proof. intro H. unfold var_of, set_var. cbn [vars]. now apply nth_replace_neq. Qed.
Lemma shape_eqb_true a b : shape_eqb a b = true <-> a = b.
Proof. unfold shape_eqb. destruct (list_eq_dec Nat.eq_dec a b); split; congruence. Qed.
Lemma var_update_some s v t s' : var_update s v t = Some s' <-> fits s v (tensor_of s t) /\ s' = set_var s v t.
Proof.
  unfold var_update, fits. cbv zeta. destruct (_ || _) eqn:B.
  - apply orb_true_iff in B. rewrite !negb_true_iff in B. split; [discriminate|]. intros ((A1 & A2 & _) & _). exfalso. destruct B as [B|B].
    + apply Nat.eqb_neq in B. contradiction.
    + apply shape_eqb_true in A2. congruence.
  - apply orb_false_iff in B. rewrite !negb_false_iff in B. destruct B as [B1 B2]. apply Nat.eqb_eq in B1. apply shape_eqb_true in B2.
    destruct (Nat.eqb_spec (t_dtype (tensor_of s t)) (t_dtype (held s v))) as [E|E]; cbn [negb]; split.
    + intro H. injection H as <-. auto.
    + intros (_ & ->). reflexivity.
    + discriminate.
    + intros ((_ & _ & H) & _). contradiction.
Qed.
Lemma symm_true p n B : t_shape p = [B; n; n] -> (close_to_transpose p = true <-> symm n B p).
Proof.
  intro E. unfold close_to_transpose. rewrite E. unfold symm, allclose, transpose. rewrite forallb_forall. split.
  - intros F b i j Hb Hi Hj. specialize (F b ltac:(apply in_seq; lia)). cbv zeta in F. rewrite forallb_forall in F.
    specialize (F i ltac:(apply in_seq; lia)). rewrite forallb_forall in F. specialize (F j ltac:(apply in_seq; lia)).
    destruct (Rle_dec _ _) as [L|]; [exact L|discriminate].
  - intros F b Hb. apply in_seq in Hb. cbv zeta. apply forallb_forall. intros i Hi. apply in_seq in Hi.
    apply forallb_forall. intros j Hj. apply in_seq in Hj. destruct (Rle_dec _ _) as [L|L]; [reflexivity|]. exfalso. apply L, F; lia.
Qed.

(** ---- the loop over the means ---- *)
(** in s', the first k variables of [self] hold the tensors the given ones hold in s *)
Definition assigned (s s' : st) (self mean : list vid) (k : nat) : Prop :=
  tens s' = tens s /\ gs s' = gs s /\ length (vars s') = length (vars s)
  /\ (forall i, i < k -> i < length self -> i < length mean ->
        var_of s' (nth i self 0) = mkVar (v_dof (var_of s (nth i self 0))) (v_tensor (var_of s (nth i mean 0))))
  /\ (forall v, ~ In v (firstn k self) -> var_of s' v = var_of s v).

Lemma no_alias_tl a self b mean : no_alias (a :: self) (b :: mean) -> no_alias self mean.
Proof.
  intros [N H]. inversion N; subst. split; [assumption|]. intros i j Hi Hj D.
  apply (H (S i) (S j)); cbn; lia.
Qed.
Lemma held_tens s s' v : tens s' = tens s -> var_of s' v = var_of s v -> held s' v = held s v.
Proof. intros E1 E2. unfold held, tensor_of. now rewrite E1, E2. Qed.

Lemma update_means_spec : forall self mean s, (forall v, In v self -> v < length (vars s)) -> no_alias self mean -> length self = length mean ->
  match update_means s self mean with
  | Ok s' => assigned s s' self mean (length self) /\ (forall i, i < length self -> fits s (nth i self 0) (held s (nth i mean 0)))
  | Raise s' => exists k, k < length self /\ assigned s s' self mean k
      /\ (forall i, i < k -> fits s (nth i self 0) (held s (nth i mean 0))) /\ ~ fits s (nth k self 0) (held s (nth k mean 0))
  end.
Proof.
  induction self as [|a self IH]; intros [|b mean] s HI NA HL; try discriminate HL; cbn [update_means].
  - split; [|cbn; lia]. repeat split; cbn; auto; lia.
  - destruct (var_update s a (v_tensor (var_of s b))) as [s1|] eqn:E.
    + apply var_update_some in E. destruct E as (F & ->). set (t := v_tensor (var_of s b)) in *.
      assert (LA : a < length (vars s)) by (apply HI; left; reflexivity).
      assert (LV : length (vars (set_var s a t)) = length (vars s)) by (unfold set_var; cbn [vars]; apply replace_length).
      destruct NA as [ND NA]. inversion ND as [|? ? NI ND']; subst.
      assert (NS : forall i, i < length self -> a <> nth i self 0) by (intros i Hi Q; apply NI; rewrite Q; apply nth_In; exact Hi).
      assert (NM : forall i, i < length mean -> a <> nth i mean 0) by (intros i Hi; apply (NA 0 (S i)); cbn; lia).
      assert (FE : forall i, i < length self -> i < length mean ->
        fits (set_var s a t) (nth i self 0) (held (set_var s a t) (nth i mean 0)) <-> fits s (nth i self 0) (held s (nth i mean 0))).
      { intros i Hi Hj. unfold fits. rewrite !(held_tens s (set_var s a t)) by (try reflexivity; apply var_set_neq; auto). tauto. }
      assert (NAT : no_alias self mean) by (apply (no_alias_tl a self b mean); now split).
      assert (AS : forall s' k, assigned (set_var s a t) s' self mean k -> k <= length self -> assigned s s' (a :: self) (b :: mean) (S k)).
      { intros s' k (A1 & A2 & A3 & A4 & A5) Hk. split; [exact A1|]. split; [exact A2|]. split; [lia|]. split.
        - intros [|i] Hi1 Hi2 Hi3; cbn [nth].
          + rewrite A5 by (intro Q; apply NI; rewrite <- (firstn_skipn k self); apply in_or_app; now left). now apply var_set_eq.
          + cbn [length] in *. rewrite A4 by lia. rewrite !var_set_neq by (try apply NS; try apply NM; lia). reflexivity.
        - intros v Hv. cbn [firstn In] in Hv. rewrite A5 by tauto. apply var_set_neq. tauto. }
      cbn [length] in HL. specialize (IH mean (set_var s a t)). assert (HI' : forall v, In v self -> v < length (vars (set_var s a t))).
      { intros v Hv. rewrite LV. apply HI. now right. }
      specialize (IH HI' NAT ltac:(lia)). destruct (update_means (set_var s a t) self mean) as [s'|s'].
      * destruct IH as (A & G). split; [now apply AS|]. intros [|i] Hi; cbn [nth length] in *; [exact F|]. apply FE; [lia|lia|]. apply G. lia.
      * destruct IH as (k & Hk & A & G & NF). exists (S k). cbn [length nth]. split; [lia|]. split; [apply AS; [exact A|lia]|]. split.
        -- intros [|i] Hi; cbn [nth]; [exact F|]. apply FE; [lia|lia|]. apply G. lia.
        -- rewrite <- FE by lia. exact NF.
    + exists 0. cbn [length nth]. split; [lia|]. split; [|split; [lia|]].
      * repeat split; intros; auto; lia.
      * intro F. assert (X : var_update s a (v_tensor (var_of s b)) = Some (set_var s a (v_tensor (var_of s b)))) by (apply var_update_some; now split). congruence.
Qed.

(** ---- update ---- *)
(** When nothing is aliased, update succeeds exactly when the sequence has the
    right length, every given variable fits, and the precision is one for the
    first given variable; then the Gaussian's variables hold the given tensors,
    its precision is the given one, and nothing else changes. *)
Theorem C73_update : forall s g mean p, (forall v, In v (g_mean g) -> v < length (vars s)) -> no_alias (g_mean g) mean ->
  let good := length mean = length (g_mean g) /\ mean <> []
    /\ (forall i, i < length mean -> fits s (nth i (g_mean g) 0) (held s (nth i mean 0)))
    /\ precision_for (held s (nth 0 mean 0)) (g_dof g) (tensor_of s p) in
  match update s g mean p with
  | Ok (s', x) => good /\ x = mkGauss (g_mean g) (g_dof g) p /\ tens s' = tens s /\ gs s' = gs s
      /\ (forall i, i < length mean -> held s' (nth i (g_mean g) 0) = held s (nth i mean 0))
      /\ (forall v, ~ In v (g_mean g) -> var_of s' v = var_of s v)
      /\ (forall v, v_dof (var_of s' v) = v_dof (var_of s v))
      /\ length (vars s') = length (vars s)
      /\ consistent s' x
  | Raise s' => ~ good /\ tens s' = tens s /\ gs s' = gs s
      /\ (forall v, ~ In v (g_mean g) -> var_of s' v = var_of s v)
      /\ (length mean <> length (g_mean g) -> s' = s)
  end.
Proof.
  intros s g mean p HI NA good. unfold update. destruct (Nat.eqb_spec (length mean) (length (g_mean g))) as [L|L]; cbn [negb].
  2:{ split; [intros [X _]; contradiction|]. repeat split; auto. }
  pose proof (update_means_spec (g_mean g) mean s HI NA (eq_sym L)) as U.
  destruct (update_means s (g_mean g) mean) as [s'|s'].
  2:{ destruct U as (k & Hk & (A1 & A2 & A3 & A4 & A5) & _ & NF). split; [intros (_ & _ & F & _); apply NF, F; lia|].
      split; [exact A1|]. split; [exact A2|]. split; [|intro; contradiction]. intros v Hv. apply A5. intro Q. apply Hv.
      rewrite <- (firstn_skipn k (g_mean g)). apply in_or_app. now left. }
  destruct U as ((A1 & A2 & A3 & A4 & A5) & F). rewrite firstn_all in A5.
  assert (R5 : forall v, ~ In v (g_mean g) -> var_of s' v = var_of s v) by exact A5.
  destruct mean as [|m0 mean]; destruct (g_mean g) as [|self0 self] eqn:EG; cbn [length] in L; try lia.
  { split; [intros (_ & X & _); congruence|]. split; [exact A1|]. split; [exact A2|]. split; [exact A5|intro; cbn in *; lia]. }
  pose proof (A4 0 ltac:(cbn; lia) ltac:(cbn; lia) ltac:(cbn; lia)) as V0. cbn [nth] in V0.
  assert (H0 : held s' self0 = held s m0) by (unfold held, tensor_of; rewrite V0; cbn [v_tensor]; now rewrite A1).
  assert (HM : held s' m0 = held s m0).
  { destruct (in_dec Nat.eq_dec m0 (self0 :: self)) as [I|I]; [|apply held_tens; auto].
    apply In_nth with (d := 0) in I. destruct I as (i & Hi & E). destruct i as [|i].
    - cbn [nth] in E. subst self0. exact H0.
    - exfalso. destruct NA as [_ NA]. apply (NA (S i) 0); [exact Hi|cbn; lia|lia|exact E]. }
  assert (TP : tensor_of s' p = tensor_of s p) by (unfold tensor_of; now rewrite A1).
  unfold batch. rewrite HM, H0, TP. cbv zeta.
  assert (GP : good <-> precision_for (held s m0) (g_dof g) (tensor_of s p)).
  { unfold good. cbn [nth]. split; [intros (_ & _ & _ & X); exact X|]. intro X. split; [cbn; lia|]. split; [discriminate|]. split; [|exact X].
    intros i Hi. apply F. cbn in *. lia. }
  assert (RX : forall Q : Prop, (good -> Q) -> ~ Q -> ~ good /\ tens s' = tens s /\ gs s' = gs s
     /\ (forall v, ~ In v (self0 :: self) -> var_of s' v = var_of s v) /\ (length (m0 :: mean) <> length (self0 :: self) -> s' = s)).
  { intros Q GQ NQ. split; [tauto|]. split; [exact A1|]. split; [exact A2|]. split; [exact R5|]. cbn. intro. lia. }
  destruct (shape_eqb _ _) eqn:ES; cbn [negb].
  2:{ apply (RX (t_shape (tensor_of s p) = [hd 0 (t_shape (held s m0)); g_dof g; g_dof g])).
      - intro G. apply GP in G. apply G.
      - intro Q. apply shape_eqb_true in Q. congruence. }
  apply shape_eqb_true in ES.
  destruct (Nat.eqb_spec (t_dtype (tensor_of s p)) (t_dtype (held s m0))) as [ED|ED]; cbn [negb].
  2:{ apply (RX (t_dtype (tensor_of s p) = t_dtype (held s m0))); [|exact ED]. intro G. apply GP in G. apply G. }
  destruct (Nat.eqb_spec (t_dev (tensor_of s p)) (t_dev (held s m0))) as [EV|EV]; cbn [negb].
  2:{ apply (RX (t_dev (tensor_of s p) = t_dev (held s m0))); [|exact EV]. intro G. apply GP in G. apply G. }
  pose proof (symm_true _ _ _ ES) as SY.
  destruct (close_to_transpose (tensor_of s p)) eqn:EC; cbn [negb].
  2:{ apply (RX (symm (g_dof g) (hd 0 (t_shape (held s m0))) (tensor_of s p))); [|intro Q; apply SY in Q; discriminate]. intro G. apply GP in G. apply G. }
  assert (PF : precision_for (held s m0) (g_dof g) (tensor_of s p)) by (split; [exact ES|split; [exact ED|split; [exact EV|now apply SY]]]).
  split; [now apply GP|]. split; [reflexivity|]. split; [exact A1|]. split; [exact A2|]. split; [|split; [exact R5|split; [|split; [exact A3|]]]].
  - intros i Hi. unfold held, tensor_of. rewrite A4 by (cbn in *; lia). cbn [v_tensor]. now rewrite A1.
  - intro v. destruct (in_dec Nat.eq_dec v (self0 :: self)) as [I|I]; [|now rewrite R5].
    apply In_nth with (d := 0) in I. destruct I as (i & Hi & <-). rewrite A4 by (cbn in *; lia). reflexivity.
  - exists self0, self. cbn [g_mean g_dof g_prec]. split; [reflexivity|]. rewrite H0, TP. exact PF.
Qed.
