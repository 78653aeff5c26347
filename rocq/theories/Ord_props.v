(** Property C10: VariableOrdering. *)
From Coq Require Import List Arith Lia Bool Permutation.
Import ListNotations.
From Verif Require Import Dict Obj_model Ord_model.

(** What the user relies on, stated on observables only. *)
Definition positions_ok (vn : vid -> name) (s : ord) : Prop :=
  forall i v, nth_error (vorder s) i = Some v -> index_of s (vn v) = Some i.
(** [order] lists the objective's optimization variable names, each exactly once *)
Definition lists_all_names (vn : vid -> name) (ov : dict vid) (s : ord) : Prop :=
  Permutation (map vn (vorder s)) (keys ov).

(** An ordering built empty or with the default order. *)
Definition fresh_order (ov : dict vid) (s : ord) : Prop := s = ord_empty \/ s = ord_default ov.

(** Every [remove] in the history removes the last variable of the order at that moment. *)
Fixpoint removes_last (vn : vid -> name) (ov : dict vid) (s : ord) (ops : list oop) : Prop :=
  match ops with
  | [] => True
  | o :: r => (match o with
               | ORemove v => ~ In v (vorder s) \/ exists l, vorder s = l ++ [v]
               | _ => True end)
              /\ removes_last vn ov (final (ord_call vn ov s o)) r
  end.

Section P.
Variable vn : vid -> name.
Variable ov : dict vid.
(** the objective's dict maps names to variables of that name, keys are unique *)
Hypothesis Hnd : NoDup (keys ov).
Hypothesis Hname : forall n v, lookup n ov = Some v -> vn v = n.

Record WInv (s : ord) : Prop := {
  W_nd : NoDup (map vn (vorder s));
  W_keys : forall n, has n (vindex s) = true <-> In n (map vn (vorder s));
  W_in : forall n, In n (map vn (vorder s)) -> In n (keys ov);
  W_ndk : NoDup (keys (vindex s))
}.

Lemma has_keys {V} n (d : dict V) : has n d = true <-> In n (keys d).
Proof. unfold has. rewrite <- lookup_In_keys. destruct (lookup n d); split; congruence. Qed.

Lemma append_W s v : WInv s -> WInv (final (ord_append vn ov s v)).
Proof.
  intros [A B C D]. unfold ord_append.
  destruct (has (vn v) (vindex s)) eqn:E1; [simpl; constructor; auto|].
  destruct (has (vn v) ov) eqn:E2; simpl; [|constructor; auto].
  assert (Hn : ~ In (vn v) (map vn (vorder s))) by (rewrite <- B; congruence).
  constructor; simpl.
  - rewrite map_app. simpl. apply (Permutation_NoDup (l := vn v :: map vn (vorder s))).
    + apply Permutation_cons_append.
    + constructor; auto.
  - intros n. rewrite map_app, in_app_iff. simpl. rewrite <- B. unfold has. rewrite lookup_set.
    destruct (n =? vn v) eqn:En.
    + apply Nat.eqb_eq in En. subst. tauto.
    + apply Nat.eqb_neq in En. destruct (lookup n (vindex s)); [intuition|].
      split; [discriminate|]. intros [X|[X|[]]]; [discriminate|congruence].
  - intros n. rewrite map_app, in_app_iff. simpl. intros [X|[X|[]]]; [auto|].
    subst. now apply has_keys.
  - rewrite keys_set, E1. apply (Permutation_NoDup (l := vn v :: keys (vindex s))).
    + apply Permutation_cons_append.
    + constructor; auto. rewrite <- has_keys. congruence.
Qed.

Lemma extend_W vs : forall s, WInv s -> WInv (final (ord_extend vn ov s vs)).
Proof.
  unfold ord_extend. induction vs as [|v vs IH]; intros s H; simpl; auto.
  pose proof (append_W s v H) as H1. destruct (ord_append vn ov s v); simpl in *; auto.
Qed.

Lemma list_remove_split v l l' : list_remove v l = Some l' ->
  exists a b, l = a ++ v :: b /\ l' = a ++ b /\ ~ In v a.
Proof.
  revert l'. induction l as [|x l IH]; simpl; intros l' H; [discriminate|].
  destruct (x =? v) eqn:E.
  - injection H as <-. apply Nat.eqb_eq in E. subst. exists [], l. auto.
  - destruct (list_remove v l) as [r|]; [|discriminate]. injection H as <-.
    destruct (IH r eq_refl) as (a & b & -> & -> & Hn). exists (x :: a), b.
    split; [reflexivity|]. split; [reflexivity|]. simpl. apply Nat.eqb_neq in E. intuition.
Qed.

Lemma list_remove_None v l : list_remove v l = None <-> ~ In v l.
Proof.
  induction l as [|x l IH]; simpl; [tauto|].
  destruct (x =? v) eqn:E.
  - apply Nat.eqb_eq in E. split; [discriminate|tauto].
  - apply Nat.eqb_neq in E. destruct (list_remove v l); [split; [discriminate|]|].
    + intros H. exfalso. destruct IH as [_ IH]. discriminate IH. tauto.
    + split; [intros _|reflexivity]. destruct IH as [IH _]. specialize (IH eq_refl). tauto.
Qed.

Lemma has_del n m (d : dict nat) : NoDup (keys d) ->
  has n (del m d) = if n =? m then false else has n d.
Proof.
  intros Hd. induction d as [|[k x] r IH]; simpl.
  - destruct (n =? m); reflexivity.
  - inversion Hd as [|? ? Hk Hr]; subst. destruct (m =? k) eqn:Em.
    + apply Nat.eqb_eq in Em; subst k. unfold has at 2. simpl. destruct (n =? m) eqn:En; [|reflexivity].
      apply Nat.eqb_eq in En; subst. apply Bool.not_true_is_false. now rewrite has_keys.
    + unfold has. simpl. destruct (n =? k) eqn:Ek.
      * destruct (n =? m) eqn:En; [|reflexivity]. apply Nat.eqb_eq in Ek, En. subst.
        rewrite Nat.eqb_refl in Em. discriminate.
      * apply IH; assumption.
Qed.

Lemma NoDup_del m (d : dict nat) : NoDup (keys d) -> NoDup (keys (del m d)).
Proof.
  intros Hd. induction d as [|[k x] r IH]; simpl; auto.
  inversion Hd as [|? ? Hk Hr]; subst. destruct (m =? k); [assumption|].
  simpl. constructor; [|now apply IH]. intros Hin. apply Hk.
  clear -Hin. induction r as [|[j y] r IH]; simpl in *; [tauto|].
  destruct (m =? j); simpl in *; intuition.
Qed.

Lemma remove_W s v : WInv s -> WInv (final (ord_remove vn s v)).
Proof.
  intros [A B C D]. unfold ord_remove.
  destruct (list_remove v (vorder s)) as [o|] eqn:Er; [|simpl; constructor; auto].
  apply list_remove_split in Er as (a & b & Eo & -> & Hn).
  assert (Hin : has (vn v) (vindex s) = true).
  { apply B. rewrite Eo, map_app, in_app_iff. simpl. auto. }
  rewrite Hin. rewrite Eo, map_app in *. simpl in *.
  pose proof (NoDup_remove_1 _ _ _ A) as A1. pose proof (NoDup_remove_2 _ _ _ A) as A2.
  constructor; simpl; rewrite ?map_app in *; auto.
  - intros n. rewrite has_del by assumption. destruct (n =? vn v) eqn:En.
    + apply Nat.eqb_eq in En. subst. split; [discriminate|tauto].
    + apply Nat.eqb_neq in En. rewrite B, !in_app_iff. simpl. intuition congruence.
  - intros n Hi. apply C. rewrite in_app_iff in *. simpl. tauto.
  - now apply NoDup_del.
Qed.

Lemma call_W s o : WInv s -> WInv (final (ord_call vn ov s o)).
Proof. destruct o; simpl; [apply append_W|apply extend_W|apply remove_W]. Qed.

Lemma empty_W : WInv ord_empty.
Proof. constructor; simpl; try constructor; try tauto; intros H; discriminate || contradiction. Qed.

(** positions: strong invariant *)
Lemma append_P s v : WInv s -> positions_ok vn s -> positions_ok vn (final (ord_append vn ov s v)).
Proof.
  intros HW HP. unfold ord_append.
  destruct (has (vn v) (vindex s)) eqn:E1; [exact HP|].
  destruct (has (vn v) ov) eqn:E2; simpl; [|exact HP].
  intros i x Hx. unfold index_of. simpl in *. rewrite lookup_set.
  destruct (Nat.lt_ge_cases i (length (vorder s))) as [Hi|Hi].
  - rewrite nth_error_app1 in Hx by exact Hi. specialize (HP i x Hx).
    destruct (vn x =? vn v) eqn:En; [|exact HP]. apply Nat.eqb_eq in En.
    unfold has in E1. unfold index_of in HP. rewrite <- En, HP in E1. discriminate.
  - rewrite nth_error_app2 in Hx by exact Hi.
    destruct (i - length (vorder s)) eqn:Ei; simpl in Hx.
    + injection Hx as <-. rewrite Nat.eqb_refl, app_length. simpl. f_equal. lia.
    + destruct n; discriminate.
Qed.

Lemma extend_P vs : forall s, WInv s -> positions_ok vn s -> positions_ok vn (final (ord_extend vn ov s vs)).
Proof.
  unfold ord_extend. induction vs as [|v vs IH]; intros s H HP; simpl; auto.
  pose proof (append_W s v H) as H1. pose proof (append_P s v H HP) as H2.
  destruct (ord_append vn ov s v); simpl in *; auto.
Qed.

Lemma lookup_del n m (d : dict nat) : n <> m -> lookup n (del m d) = lookup n d.
Proof.
  intros Hn. induction d as [|[k x] r IH]; simpl; auto.
  destruct (m =? k) eqn:Em.
  - apply Nat.eqb_eq in Em; subst. apply Nat.eqb_neq in Hn. now rewrite Hn.
  - simpl. now rewrite IH.
Qed.

Lemma remove_last_P s v : WInv s -> positions_ok vn s ->
  (~ In v (vorder s) \/ exists l, vorder s = l ++ [v]) ->
  positions_ok vn (final (ord_remove vn s v)).
Proof.
  intros HW HP [Hn|[l El]]; unfold ord_remove.
  - apply list_remove_None in Hn. rewrite Hn. exact HP.
  - destruct (list_remove v (vorder s)) as [o|] eqn:Er; [|exact HP].
    apply list_remove_split in Er as (a & b & Eo & -> & Hna).
    assert (Hb : b = []).
    { destruct HW as [A _ _ _]. rewrite El in Eo, A. rewrite Eo in A. rewrite map_app in A. simpl in A.
      destruct b as [|y b] using rev_ind; [reflexivity|]. exfalso.
      replace (a ++ v :: b ++ [y]) with ((a ++ v :: b) ++ [y]) in Eo by (now rewrite <- app_assoc).
      apply app_inj_tail in Eo as [_ ->].
      apply NoDup_remove_2 in A. apply A. rewrite in_app_iff, map_app, in_app_iff. simpl. auto. }
    subst b. rewrite app_nil_r.
    destruct (has (vn v) (vindex s)) eqn:Eh; simpl.
    + intros i x Hx. simpl in Hx. unfold index_of. simpl.
      assert (Hx' : nth_error (vorder s) i = Some x).
      { rewrite Eo, nth_error_app1; [exact Hx|]. apply nth_error_Some. congruence. }
      rewrite lookup_del; [exact (HP i x Hx')|].
      destruct HW as [A _ _ _]. rewrite Eo, map_app in A. simpl in A. apply NoDup_remove_2 in A.
      intros Ex. apply A. rewrite in_app_iff. left. rewrite <- Ex. apply in_map.
      eapply nth_error_In; eauto.
    + exfalso. assert (has (vn v) (vindex s) = true); [|congruence].
      apply (W_keys _ HW). rewrite Eo, map_app, in_app_iff. simpl. auto.
Qed.

Lemma empty_P : positions_ok vn ord_empty.
Proof. intros [|i] v H; discriminate. Qed.

Lemma default_gen : forall pre rest,
  keys (pre ++ rest) = keys ov -> (forall n v, In (n, v) (pre ++ rest) -> vn v = n) ->
  forall s, vorder s = map snd pre -> keys (vindex s) = keys pre -> WInv s -> positions_ok vn s ->
  let s' := fold_left default_step rest s in
  vorder s' = map snd (pre ++ rest) /\ WInv s' /\ positions_ok vn s'.
Proof.
  intros pre rest. revert pre. induction rest as [|[n v] rest IH]; intros pre Hk Hn s Ho Hi HW HP; simpl.
  - rewrite app_nil_r. auto.
  - assert (Hh : has n (vindex s) = false).
    { apply Bool.not_true_is_false. rewrite has_keys, Hi. intros Hin.
      rewrite <- Hk in Hnd. unfold keys in Hnd, Hin. rewrite map_app in Hnd. simpl in Hnd.
      apply NoDup_remove_2 in Hnd. apply Hnd. rewrite in_app_iff. auto. }
    assert (Hv : vn v = n) by (apply (Hn n v); rewrite in_app_iff; simpl; auto).
    assert (Hov : has n ov = true).
    { rewrite has_keys, <- Hk. unfold keys. rewrite map_app, in_app_iff. simpl. auto. }
    assert (Es : default_step s (n, v) = final (ord_append vn ov s v)).
    { unfold default_step, ord_append. simpl. rewrite Hv, Hh, Hov. simpl. f_equal.
      rewrite app_length. simpl. f_equal. lia. }
    rewrite Es. replace (pre ++ (n, v) :: rest) with ((pre ++ [(n, v)]) ++ rest) by (now rewrite <- app_assoc).
    assert (Ev : final (ord_append vn ov s v) = {| vorder := vorder s ++ [v]; vindex := set n (length (vorder s ++ [v]) - 1) (vindex s) |}).
    { unfold ord_append. rewrite Hv, Hh, Hov. reflexivity. }
    apply IH.
    + rewrite <- app_assoc. exact Hk.
    + rewrite <- app_assoc. exact Hn.
    + rewrite Ev. simpl. rewrite map_app. simpl. congruence.
    + rewrite Ev. simpl. rewrite keys_set, Hh. unfold keys in *. rewrite map_app. simpl. congruence.
    + now apply append_W.
    + now apply append_P.
Qed.

Lemma default_ok : vorder (ord_default ov) = values ov /\ WInv (ord_default ov) /\ positions_ok vn (ord_default ov).
Proof.
  apply (default_gen [] ov); auto using empty_W, empty_P.
  simpl. intros n v Hin. apply Hname. now apply In_lookup.
Qed.

Lemma fresh_ok s : fresh_order ov s -> WInv s /\ positions_ok vn s.
Proof.
  intros [->| ->]; [split; [apply empty_W|apply empty_P]|]. apply default_ok.
Qed.

Lemma run_W ops : forall s, WInv s -> WInv (ord_run vn ov ops s).
Proof. induction ops as [|o ops IH]; intros s H; simpl; auto. apply IH. now apply call_W. Qed.

Lemma run_P ops : forall s, WInv s -> positions_ok vn s -> removes_last vn ov s ops ->
  positions_ok vn (ord_run vn ov ops s).
Proof.
  induction ops as [|o ops IH]; intros s HW HP Hr; simpl in *; auto.
  destruct Hr as [H1 H2]. apply IH; auto.
  - now apply call_W.
  - destruct o; simpl; [apply append_P|apply extend_P|apply remove_last_P]; auto.
Qed.

Lemma complete_iff s : WInv s -> ord_complete ov s = true <-> lists_all_names vn ov s.
Proof.
  intros [A B C D]. unfold ord_complete, lists_all_names. rewrite Nat.eqb_eq. split.
  - intros Hl. apply NoDup_Permutation_bis; auto. unfold keys. rewrite !map_length. lia.
  - intros Hp. apply Permutation_length in Hp. unfold keys in Hp. now rewrite !map_length in Hp.
Qed.
End P.

(** C10, all histories (raising calls included): names in the order are distinct, [index_of] is
    defined exactly for them, and [complete] is true exactly when the names in the order are a
    permutation of the objective's optimization variable names. *)
Theorem C10_complete_iff_permutation :
  forall (vn : vid -> name) (ov : dict vid) ops s0,
    NoDup (keys ov) -> (forall n v, lookup n ov = Some v -> vn v = n) ->
    fresh_order ov s0 ->
    let s := ord_run vn ov ops s0 in
    NoDup (map vn (vorder s)) /\
    (forall n, index_of s n <> None <-> In n (map vn (vorder s))) /\
    (ord_complete ov s = true <-> lists_all_names vn ov s).
Proof.
  intros vn ov ops s0 Hnd Hname Hf s.
  destruct (fresh_ok vn ov Hnd Hname s0 Hf) as [HW _].
  assert (H : WInv vn ov s) by (apply run_W; auto).
  split; [apply (W_nd _ _ _ H)|]. split.
  - intros n. rewrite <- (W_keys _ _ _ H). unfold index_of, has. destruct (lookup n (vindex s)); split; congruence.
  - now apply complete_iff.
Qed.
Print Assumptions C10_complete_iff_permutation.

(** C10, positions.  For every history in which [remove] is only called on the last variable
    (in particular: never), [index_of] is the position.  Missing: other removals, where it is false. *)
Theorem C10_index_is_position_partial :
  forall (vn : vid -> name) (ov : dict vid) ops s0,
    NoDup (keys ov) -> (forall n v, lookup n ov = Some v -> vn v = n) ->
    fresh_order ov s0 -> removes_last vn ov s0 ops ->
    let s := ord_run vn ov ops s0 in
    forall i v, nth_error (vorder s) i = Some v -> index_of s (vn v) = Some i.
Proof.
  intros vn ov ops s0 Hnd Hname Hf Hr s.
  destruct (fresh_ok vn ov Hnd Hname s0 Hf) as [HW HP]. apply run_P; auto.
Qed.
Print Assumptions C10_index_is_position_partial.

(** The default order lists the objective's variables in registration order. *)
Theorem C10_default_order :
  forall (vn : vid -> name) (ov : dict vid),
    NoDup (keys ov) -> (forall n v, lookup n ov = Some v -> vn v = n) ->
    vorder (ord_default ov) = values ov /\
    (forall i v, nth_error (values ov) i = Some v -> index_of (ord_default ov) (vn v) = Some i) /\
    ord_complete ov (ord_default ov) = true.
Proof.
  intros vn ov Hnd Hname. destruct (default_ok vn ov Hnd Hname) as (A & B & C).
  split; [exact A|]. split; [rewrite <- A; exact C|].
  unfold ord_complete. rewrite A. unfold values. rewrite map_length. apply Nat.eqb_refl.
Qed.
Print Assumptions C10_default_order.

(** C10 at full strength is false.  After removing a variable that is not the last one, the
    index of a later variable is stale; appending then makes two variables share an index. *)
Theorem C10_index_is_position_refuted :
  exists (vn : vid -> name) (ov : dict vid) ops,
    NoDup (keys ov) /\ (forall n v, lookup n ov = Some v -> vn v = n) /\
    let s := ord_run vn ov ops (ord_default ov) in
    (exists i v, nth_error (vorder s) i = Some v /\ index_of s (vn v) <> Some i) /\
    (exists v v', In v (vorder s) /\ In v' (vorder s) /\ v <> v' /\ index_of s (vn v) = index_of s (vn v')) /\
    ord_complete ov s = true.
Proof.
  exists (fun v => v), [(0, 0); (1, 1); (2, 2)], [ORemove 0; OAppend 0].
  split; [repeat constructor; simpl; intuition discriminate|]. split.
  - intros n v. simpl. destruct n as [|[|[|n]]]; simpl; congruence.
  - cbv zeta. split; [|split].
    + exists 0, 1. vm_compute. split; [reflexivity|discriminate].
    + exists 2, 0. vm_compute. intuition discriminate.
    + reflexivity.
Qed.
Print Assumptions C10_index_is_position_refuted.

(** [append] only checks the name: an order can be complete and contain a variable object that
    is not one of the objective's optimization variables. *)
Theorem C10_foreign_variable_accepted_refuted :
  exists (vn : vid -> name) (ov : dict vid) ops,
    NoDup (keys ov) /\ (forall n v, lookup n ov = Some v -> vn v = n) /\
    let s := ord_run vn ov ops ord_empty in
    ord_complete ov s = true /\ exists v, In v (vorder s) /\ ~ In v (values ov).
Proof.
  exists (fun v => match v with 7 => 0 | _ => v end), [(0, 0)], [OAppend 7].
  split; [repeat constructor; simpl; tauto|]. split.
  - intros [|n] v; simpl; intros H; [injection H as <-; reflexivity|discriminate].
  - vm_compute. split; [reflexivity|]. exists 7. intuition discriminate.
Qed.
Print Assumptions C10_foreign_variable_accepted_refuted.

Example C10_hypotheses_satisfiable :
  let vn := fun v : nat => v in let ov := [(3, 3); (1, 1); (2, 2)] in
  let ops := [OAppend 1; OExtend [3; 1; 2]; OAppend 9; ORemove 3; ORemove 9; OExtend [2; 3]] in
  NoDup (keys ov) /\ (forall n v, lookup n ov = Some v -> vn v = n) /\ removes_last vn ov ord_empty ops /\
  vorder (ord_run vn ov ops ord_empty) = [1; 2; 3].
Proof.
  cbv zeta. split; [repeat constructor; simpl; intuition discriminate|]. split.
  - intros n v. simpl. destruct n as [|[|[|[|n]]]]; simpl; congruence.
  - split; [|reflexivity]. cbn. repeat split.
    + right. exists [1]. reflexivity.
    + left. intuition discriminate.
Qed.
