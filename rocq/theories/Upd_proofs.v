From Coq Require Import List Arith Lia Bool Permutation.
Import ListNotations.
From Verif Require Import Dict Obj_model Upd_model.

(** ---- batch size ---- *)
Lemma nodup_two (l : list nat) a b : nodup Nat.eq_dec l = [a; b] ->
  a <> b /\ In a l /\ In b l /\ forall n, In n l -> n = a \/ n = b.
Proof.
  intros H. pose proof (NoDup_nodup Nat.eq_dec l) as Hnd. rewrite H in Hnd.
  inversion Hnd as [|? ? Hn _]; subst.
  assert (Hin : forall n, In n l <-> In n [a; b]) by (intros n; rewrite <- H; symmetry; apply nodup_In).
  split; [intros ->; apply Hn; simpl; auto|].
  split; [apply Hin; simpl; auto|]. split; [apply Hin; simpl; auto|].
  intros n Hn'. apply Hin in Hn'. simpl in Hn'. intuition congruence.
Qed.

Lemma get_batch_size_spec l b :
  (forall n, In n l -> 0 < n) ->
  (get_batch_size l = Some b <-> In b l /\ forall n, In n l -> n = 1 \/ n = b).
Proof.
  intros Hpos. unfold get_batch_size.
  assert (Hin : forall n, In n (nodup Nat.eq_dec l) <-> In n l) by apply nodup_In.
  pose proof (NoDup_nodup Nat.eq_dec l) as Hnd.
  destruct (nodup Nat.eq_dec l) as [|x [|y [|z r]]] eqn:E.
  - split; [discriminate|]. intros [H _]. apply Hin in H. destruct H.
  - assert (Hall : forall n, In n l -> n = x).
    { intros n Hn. apply Hin in Hn. simpl in Hn. intuition congruence. }
    assert (Hx : In x l) by (apply Hin; simpl; auto).
    destruct l as [|c l]; [destruct Hx|].
    assert (c = x) by (apply Hall; simpl; auto). subst c.
    split.
    + intros H; injection H as <-. split; [simpl; auto|]. intros n Hn. right. auto.
    + intros [H1 _]. f_equal. symmetry. auto.
  - destruct (nodup_two l x y E) as (Hne & Hx & Hy & Hall).
    pose proof (Hpos x Hx) as P1. pose proof (Hpos y Hy) as P2.
    destruct (Nat.min x y =? 1) eqn:Em.
    + apply Nat.eqb_eq in Em. split.
      * intros H; injection H as <-. destruct (Nat.max_spec x y) as [[A ->]|[A ->]].
        -- split; [exact Hy|]. intros n Hn. destruct (Hall n Hn); lia.
        -- split; [exact Hx|]. intros n Hn. destruct (Hall n Hn); lia.
      * intros [H1 H2]. f_equal. pose proof (H2 x Hx). pose proof (H2 y Hy).
        destruct (Hall b H1); lia.
    + apply Nat.eqb_neq in Em. split; [discriminate|]. intros [H1 H2].
      pose proof (H2 x Hx). pose proof (H2 y Hy). destruct (Hall b H1); lia.
  - split; [discriminate|]. intros [H1 H2]. exfalso.
    inversion Hnd as [|? ? A B]; subst. inversion B as [|? ? C D]; subst. simpl in A, C.
    assert (Hx : In x l) by (apply Hin; simpl; auto).
    assert (Hy : In y l) by (apply Hin; simpl; auto).
    assert (Hz : In z l) by (apply Hin; simpl; auto).
    pose proof (H2 x Hx). pose proof (H2 y Hy). pose proof (H2 z Hz).
    assert (x <> y) by (intros ->; apply A; auto).
    assert (x <> z) by (intros ->; apply A; auto).
    assert (y <> z) by (intros ->; apply C; auto).
    lia.
Qed.

Lemma get_batch_size_perm l l' : Permutation l l' -> get_batch_size l = get_batch_size l'.
Proof.
  intros HP. unfold get_batch_size.
  assert (Hin : forall n, In n (nodup Nat.eq_dec l) <-> In n l) by apply nodup_In.
  assert (Hin' : forall n, In n (nodup Nat.eq_dec l') <-> In n l') by apply nodup_In.
  assert (HPn : Permutation (nodup Nat.eq_dec l) (nodup Nat.eq_dec l')).
  { apply NoDup_Permutation; try apply NoDup_nodup. intros n. rewrite Hin, Hin'.
    split; apply Permutation_in; [exact HP|now apply Permutation_sym]. }
  pose proof (Permutation_length HPn) as HL.
  destruct (nodup Nat.eq_dec l) as [|x [|y [|z r]]] eqn:E;
    destruct (nodup Nat.eq_dec l') as [|x' [|y' [|z' r']]] eqn:E'; simpl in HL; try lia; try reflexivity.
  - (* singletons *)
    assert (x' = x).
    { assert (In x' [x]) by (eapply Permutation_in; [apply Permutation_sym; exact HPn|simpl; auto]).
      simpl in H; intuition congruence. }
    subst x'.
    destruct l as [|c l]; [discriminate|]. destruct l' as [|c' l']; [discriminate|].
    assert (In c [x]) by (apply Hin; simpl; auto).
    assert (In c' [x]) by (apply Hin'; simpl; auto).
    simpl in *. f_equal. intuition congruence.
  - assert (H1 : In x [x'; y']) by (eapply Permutation_in; [exact HPn|simpl; auto]).
    assert (H2 : In y [x'; y']) by (eapply Permutation_in; [exact HPn|simpl; auto]).
    pose proof (NoDup_nodup Nat.eq_dec l) as Hnd. rewrite E in Hnd.
    inversion Hnd as [|? ? A B]; subst. simpl in A.
    simpl in H1, H2.
    destruct H1 as [<-|[<-|[]]], H2 as [<-|[<-|[]]]; try tauto; try reflexivity.
    rewrite Nat.min_comm, Nat.max_comm. reflexivity.
Qed.

Section P.
Context {E : Type}.
Implicit Types (o : ostate E) (t : tensor E).

Lemma brow_mask_length {A} (l : list A) i m : length l = 1 \/ length l = m -> i < m ->
  brow l i <> None.
Proof.
  intros Hl Hi. unfold brow. destruct (length l =? 1) eqn:E1.
  - apply Nat.eqb_eq in E1. destruct l; simpl in *; [lia|congruence].
  - apply Nat.eqb_neq in E1. apply nth_error_Some. lia.
Qed.

Lemma sequence_map_Some {A B} (f : A -> option B) (l : list A) :
  (forall x, In x l -> f x <> None) ->
  exists r, sequence (map f l) = Some r /\ length r = length l /\
    forall i, nth_error r i = match nth_error l i with Some x => f x | None => None end.
Proof.
  induction l as [|x l IH]; simpl; intros H.
  - exists []. split; [reflexivity|]. split; [reflexivity|]. intros [|i]; reflexivity.
  - destruct (f x) as [y|] eqn:Ef; [|exfalso; eapply H; eauto].
    destruct IH as (r & Er & Hl & Hn); [intros z Hz; apply H; auto|].
    exists (y :: r). rewrite Er. split; [reflexivity|]. split; [simpl; lia|].
    intros [|i]; simpl; [now rewrite Ef|apply Hn].
Qed.

Lemma bcast_spec a b n : bcast a b = Some n -> (a = 1 \/ a = n) /\ (b = 1 \/ b = n).
Proof.
  unfold bcast. destruct (a =? b) eqn:E1.
  - apply Nat.eqb_eq in E1; subst. intros H; injection H as <-. auto.
  - destruct (a =? 1) eqn:E2.
    + apply Nat.eqb_eq in E2. intros H; injection H as <-. auto.
    + destruct (b =? 1) eqn:E3; [|discriminate].
      apply Nat.eqb_eq in E3. intros H; injection H as <-. auto.
Qed.

Lemma nth_error_seq m i : nth_error (seq 0 m) i = if i <? m then Some i else None.
Proof.
  destruct (i <? m) eqn:Ei.
  - apply Nat.ltb_lt in Ei. rewrite nth_error_nth' with (d := 0) by now rewrite seq_length.
    now rewrite seq_nth.
  - apply Nat.ltb_ge in Ei. apply nth_error_None. now rewrite seq_length.
Qed.

Lemma where_rows_spec (mask : list bool) (old new : list E) n m :
  bcast (length mask) (length old) = Some n -> bcast n (length new) = Some m ->
  exists r, where_rows mask old new = Some r /\ length r = m /\
    forall i, i < m -> nth_error r i =
      match brow mask i with Some true => brow old i | Some false => brow new i | None => None end.
Proof.
  intros B1 B2. unfold where_rows. rewrite B1, B2.
  destruct (bcast_spec _ _ _ B1) as [P1 P2]. destruct (bcast_spec _ _ _ B2) as [P3 P4].
  destruct (sequence_map_Some (where_row mask old new) (seq 0 m)) as (r & Er & Hl & Hn).
  { intros i Hi. apply in_seq in Hi. unfold where_row.
    assert (M : brow mask i <> None) by (apply brow_mask_length with (m := m); [lia|lia]).
    destruct (brow mask i) as [[]|]; [| |congruence]; apply brow_mask_length with (m := m); lia. }
  exists r. split; [exact Er|]. split; [now rewrite Hl, seq_length|].
  intros i Hi. rewrite Hn, nth_error_seq. apply Nat.ltb_lt in Hi. now rewrite Hi.
Qed.

(** ---- update ---- *)
Lemma update_one_frame mask o n t : let r := update_one mask o (n, t) in
  reg (rstate r) = reg o /\ bsize (rstate r) = bsize o /\
  o_dtype (rstate r) = o_dtype o /\ o_dev (rstate r) = o_dev o /\
  forall v, find_var (reg o) n <> Some v -> store (rstate r) v = store o v /\ nupd (rstate r) v = nupd o v.
Proof.
  cbv zeta. unfold update_one. destruct (length (t_shape t) =? 0); simpl; [repeat split; auto|].
  destruct ((t_dev t =? o_dev o) && (t_dtype t =? o_dtype o)); simpl; [|repeat split; auto].
  destruct (find_var (reg o) n) as [x|] eqn:Ef; simpl; [|repeat split; auto].
  destruct (var_update (store o x) t mask); simpl; [|repeat split; auto].
  do 4 (split; [reflexivity|]). intros v H. unfold upd.
  destruct (v =? x) eqn:Ev; [apply Nat.eqb_eq in Ev; congruence|auto].
Qed.

Lemma update_all_frame mask l : forall o, let r := update_all mask o l in
  reg (rstate r) = reg o /\ bsize (rstate r) = bsize o /\
  o_dtype (rstate r) = o_dtype o /\ o_dev (rstate r) = o_dev o /\
  forall v, (forall n t, In (n, t) l -> find_var (reg o) n <> Some v) ->
    store (rstate r) v = store o v /\ nupd (rstate r) v = nupd o v.
Proof.
  induction l as [|[n t] l IH]; intros o; simpl.
  - repeat split; auto.
  - pose proof (update_one_frame mask o n t) as (R & B & D & V & S).
    destruct (update_one mask o (n, t)) as [[] o'|e o']; simpl in *.
    + specialize (IH o'). simpl in IH. destruct IH as (R' & B' & D' & V' & S').
 do 4 (split; [congruence|]). intros v H.
      destruct (S v) as [S1 S2]; [eapply H; left; reflexivity|].
      destruct (S' v) as [S3 S4]; [intros n' t' Hin; rewrite R; eapply H; right; exact Hin|].
      split; congruence.
    + do 4 (split; [assumption|]). intros v H. apply S; eapply H; left; reflexivity.
Qed.

(** acceptability of one input tensor *)
Definition acceptable (o : ostate E) (mask : option (list bool)) (nt : name * tensor E) : Prop :=
  let (n, t) := nt in
  t_shape t <> [] /\ t_dev t = o_dev o /\ t_dtype t = o_dtype o /\
  forall v, find_var (reg o) n = Some v ->
    exists t', var_update (store o v) t mask = inl t'.

Lemma update_one_ok mask o n t : acceptable o mask (n, t) ->
  update_one mask o (n, t) = RetV tt (match find_var (reg o) n with
    | None => o
    | Some v => match var_update (store o v) t mask with inl t' => with_tensor o v t' | inr _ => o end
    end).
Proof.
  intros (A & B & C & D). unfold update_one.
  destruct (length (t_shape t) =? 0) eqn:E0.
  { apply Nat.eqb_eq in E0. destruct (t_shape t); [congruence|discriminate]. }
  rewrite B, C, !Nat.eqb_refl. simpl.
  destruct (find_var (reg o) n) as [v|]; [|reflexivity].
  destruct (D v eq_refl) as [t' ->]. reflexivity.
Qed.

Lemma update_one_rejected mask o n t : ~ acceptable o mask (n, t) ->
  exists e, update_one mask o (n, t) = Exc e o.
Proof.
  intros H. unfold update_one.
  destruct (length (t_shape t) =? 0) eqn:E0; [eauto|].
  destruct (t_dev t =? o_dev o) eqn:E1; simpl; [|eauto].
  destruct (t_dtype t =? o_dtype o) eqn:E2; simpl; [|eauto].
  destruct (find_var (reg o) n) as [v|] eqn:Ef.
  - destruct (var_update (store o v) t mask) eqn:Eu; [|eauto].
    exfalso. apply H. apply Nat.eqb_neq in E0. apply Nat.eqb_eq in E1, E2.
    split; [intros X; rewrite X in E0; simpl in E0; lia|]. split; [auto|]. split; [auto|].
    intros v' Hv. rewrite Ef in Hv. injection Hv as <-. eauto.
  - exfalso. apply H. apply Nat.eqb_neq in E0. apply Nat.eqb_eq in E1, E2.
    split; [intros X; rewrite X in E0; simpl in E0; lia|]. split; [auto|]. split; [auto|].
    intros v' Hv. congruence.
Qed.

Definition new_tensor (o : ostate E) mask (v : vid) (t : tensor E) : tensor E :=
  match var_update (store o v) t mask with inl t' => t' | inr _ => store o v end.

Lemma update_all_ok mask l : forall o,
  NoDup (map fst l) ->
  (forall n n' v, find_var (reg o) n = Some v -> find_var (reg o) n' = Some v -> n = n') ->
  (forall nt, In nt l -> acceptable o mask nt) ->
  exists o', update_all mask o l = RetV tt o' /\ reg o' = reg o /\ bsize o' = bsize o /\
    (forall n t v, In (n, t) l -> find_var (reg o) n = Some v ->
       store o' v = new_tensor o mask v t /\ nupd o' v = S (nupd o v)) /\
    (forall v, (forall n t, In (n, t) l -> find_var (reg o) n <> Some v) ->
       store o' v = store o v /\ nupd o' v = nupd o v).
Proof.
  induction l as [|[n t] l IH]; intros o Hnd Hinj Hacc; simpl.
  - exists o. repeat split; try contradiction; auto.
  - inversion Hnd as [|? ? Hnotin Hnd']; subst. simpl in *.
    rewrite update_one_ok by (apply Hacc; auto).
    set (o1 := match find_var (reg o) n with
      | None => o
      | Some v => match var_update (store o v) t mask with inl t' => with_tensor o v t' | inr _ => o end
      end).
    assert (Hreg : reg o1 = reg o /\ bsize o1 = bsize o /\ o_dtype o1 = o_dtype o /\ o_dev o1 = o_dev o).
    { unfold o1. destruct (find_var (reg o) n); auto. destruct (var_update _ _ _); auto. }
    destruct Hreg as (Hr & Hb & Hd & Hv).
    assert (Hstore : forall v, find_var (reg o) n <> Some v -> store o1 v = store o v /\ nupd o1 v = nupd o v).
    { intros v Hne. unfold o1. destruct (find_var (reg o) n) as [x|]; [|auto].
      destruct (var_update _ _ _); [|auto]. simpl. unfold upd.
      destruct (v =? x) eqn:Ex; [apply Nat.eqb_eq in Ex; congruence|auto]. }
    assert (Hother : forall n' t' v, In (n', t') l -> find_var (reg o) n' = Some v ->
                       find_var (reg o) n <> Some v).
    { intros n' t' v Hin Hf Hf'. assert (n = n') by eauto. subst n'.
      apply Hnotin. change n with (fst (n, t')). now apply in_map. }
    destruct (IH o1) as (o' & Eo & R' & B' & S1 & S2).
    + exact Hnd'.
    + rewrite Hr. exact Hinj.
    + intros [n' t'] Hin. destruct (Hacc (n', t')) as (A & B & C & D); [auto|].
      split; [exact A|]. split; [congruence|]. split; [congruence|].
      rewrite Hr. intros v Hf. destruct (Hstore v) as [Es _]; [eauto|].
      rewrite Es. auto.
    + rewrite Hr in *. exists o'. split; [exact Eo|]. split; [congruence|]. split; [congruence|]. split.
      * intros n' t' v [Heq|Hin] Hf.
        -- injection Heq as <- <-.
           destruct (S2 v) as [T1 T2].
           { intros n2 t2 Hin2 Hf2. eapply Hother; eauto. }
           rewrite T1, T2. unfold o1. rewrite Hf.
           destruct (Hacc (n, t)) as (_ & _ & _ & D); [auto|]. destruct (D v Hf) as [t' Ht].
           unfold new_tensor. rewrite Ht. simpl. unfold upd. rewrite Nat.eqb_refl. auto.
        -- destruct (S1 n' t' v Hin Hf) as [T1 T2].
           destruct (Hstore v) as [U1 U2]; [eauto|].
           rewrite T1, T2, U2. split; [|reflexivity]. unfold new_tensor. now rewrite U1.
      * intros v Hne. destruct (S2 v) as [T1 T2]; [eauto|].
        destruct (Hstore v) as [U1 U2]; [eauto|]. split; congruence.
Qed.

(** "some input is not acceptable" makes the call raise *)
Lemma update_all_rejected mask l : forall o,
  NoDup (map fst l) ->
  (forall n n' v, find_var (reg o) n = Some v -> find_var (reg o) n' = Some v -> n = n') ->
  (exists nt, In nt l /\ ~ acceptable o mask nt) ->
  exists e o', update_all mask o l = Exc e o'.
Proof.
  induction l as [|[n t] l IH]; intros o Hnd Hinj (nt & Hin & Hbad); [destruct Hin|].
  inversion Hnd as [|? ? Hnotin Hnd']; subst. simpl in *.
  destruct (update_one mask o (n, t)) as [[] o1|e o1] eqn:E1; [|eauto].
  destruct Hin as [<-|Hin].
  { destruct (update_one_rejected mask o n t Hbad) as [e He]. congruence. }
  pose proof (update_one_frame mask o n t) as (R & B & D & V & S). rewrite E1 in *. simpl in *.
  apply (IH o1 Hnd').
  - rewrite R. exact Hinj.
  - exists nt. split; [exact Hin|]. intros Hacc. apply Hbad. destruct nt as [n' t'].
    destruct Hacc as (A1 & A2 & A3 & A4). split; [exact A1|]. split; [congruence|]. split; [congruence|].
    intros v Hf. rewrite R in A4. destruct (A4 v Hf) as [t2 Ht2]. exists t2.
    destruct (S v) as [Es _]; [|now rewrite <- Es].
    intros Hf'. assert (n = n') by eauto. subst n'. apply Hnotin.
    change n with (fst (n, t')). now apply in_map.
Qed.
End P.

(** ---- error ---- *)
Section Err.
Context {E F : Type}.
Variable we : cid -> (vid -> tensor E) -> list (list F).

Lemma cat_rows_length (a b : list (list F)) : length a = length b -> length (cat_rows a b) = length a.
Proof.
  revert b; induction a as [|x a IH]; intros [|y b] H; simpl in *; try lia.
  rewrite IH; lia.
Qed.

Lemma cat_rows_nth (a b : list (list F)) i : length a = length b ->
  nth i (cat_rows a b) [] = nth i a [] ++ nth i b [].
Proof.
  revert b i; induction a as [|x a IH]; intros [|y b] i H; simpl in *; try lia.
  - destruct i; reflexivity.
  - destruct i; [reflexivity|]. apply IH; lia.
Qed.

Lemma fold_cat r : forall e : list (list F),
  (forall e', In e' r -> length e' = length e) ->
  length (fold_left cat_rows r e) = length e /\
  forall i, nth i (fold_left cat_rows r e) [] = nth i e [] ++ concat (map (fun e' => nth i e' []) r).
Proof.
  induction r as [|x r IH]; intros e H; simpl.
  - split; [reflexivity|]. intros i. now rewrite app_nil_r.
  - assert (Hx : length x = length e) by (apply H; simpl; auto).
    assert (Hl : length (cat_rows e x) = length e) by (apply cat_rows_length; lia).
    destruct (IH (cat_rows e x)) as [A B].
    { intros e' He. rewrite Hl. apply H; simpl; auto. }
    split; [lia|]. intros i. rewrite B, cat_rows_nth by lia. now rewrite app_assoc.
Qed.

Lemma cat_dim1_spec (l : list (list (list F))) r :
  cat_dim1 l = Some r ->
  l <> [] /\ (forall e, In e l -> length e = length r) /\
  forall i, nth i r [] = concat (map (fun e => nth i e []) l).
Proof.
  unfold cat_dim1. destruct l as [|e l]; [discriminate|].
  destruct (forallb _ l) eqn:Ef; [|discriminate]. intros H; injection H as <-.
  rewrite forallb_forall in Ef.
  assert (Hl : forall e', In e' l -> length e' = length e).
  { intros e' He. apply Nat.eqb_eq. auto. }
  destruct (fold_cat l e Hl) as [A B].
  split; [congruence|]. split.
  - intros e' [<-|He]; [lia|]. rewrite A. auto.
  - intros i. rewrite B. reflexivity.
Qed.

Lemma cat_dim1_some (l : list (list (list F))) b :
  l <> [] -> (forall e, In e l -> length e = b) -> exists r, cat_dim1 l = Some r.
Proof.
  intros Hne Hl. destruct l as [|e l]; [congruence|]. simpl.
  replace (forallb (fun e' => length e' =? length e) l) with true; [eauto|].
  symmetry. apply forallb_forall. intros x Hx. apply Nat.eqb_eq.
  rewrite (Hl x), (Hl e); simpl; auto.
Qed.

Lemma var_update_same_meta (old new t : tensor E) mask : var_update old new mask = inl t ->
  t_shape t = t_shape old /\ t_dtype t = t_dtype old.
Proof.
  unfold var_update, shape_eqb.
  destruct (list_eq_dec Nat.eq_dec (t_shape new) (t_shape old)) as [Es|]; [|discriminate]. simpl.
  destruct (t_dtype new =? t_dtype old) eqn:Ed; [|discriminate]. simpl. apply Nat.eqb_eq in Ed.
  destruct mask as [m|].
  - destruct (existsb _ m).
    + destruct (where_rows _ _ _); [|discriminate]. intros H; injection H as <-. auto.
    + intros H; injection H as <-. auto.
  - intros H; injection H as <-. auto.
Qed.

(** restoring saved tensors succeeds and gives back exactly the saved tensor *)
Lemma var_update_restore (cur old : tensor E) :
  t_shape cur = t_shape old -> t_dtype cur = t_dtype old -> var_update cur old None = inl old.
Proof.
  intros Es Ed. unfold var_update, shape_eqb.
  destruct (list_eq_dec Nat.eq_dec (t_shape old) (t_shape cur)); [|congruence]. simpl.
  rewrite Ed, Nat.eqb_refl. reflexivity.
Qed.

Lemma update_all_meta mask l : forall o : ostate E, let o' := rstate (update_all mask o l) in
  forall v, t_shape (store o' v) = t_shape (store o v) /\ t_dtype (store o' v) = t_dtype (store o v).
Proof.
  induction l as [|[n t] l IH]; intros o; cbn [update_all]; [simpl; auto|].
  cbv zeta. intros v.
  assert (H1 : t_shape (store (rstate (update_one mask o (n, t))) v) = t_shape (store o v) /\
               t_dtype (store (rstate (update_one mask o (n, t))) v) = t_dtype (store o v)).
  { unfold update_one. destruct (length (t_shape t) =? 0); [simpl; auto|].
    destruct (_ && _); [|simpl; auto]. cbn [negb].
    destruct (find_var (reg o) n) as [x|]; [|simpl; auto].
    destruct (var_update (store o x) t mask) as [t'|] eqn:Eu; [|simpl; auto].
    simpl. unfold upd. destruct (v =? x) eqn:Ex; [|auto].
    apply Nat.eqb_eq in Ex; subst. now apply var_update_same_meta in Eu. }
  destruct (update_one mask o (n, t)) as [[] o1|e o1]; simpl in H1 |- *; [|exact H1].
  cbv zeta in IH. destruct (IH o1 v) as [A B], H1 as [C D].
  split; [rewrite A; exact C|rewrite B; exact D].
Qed.
End Err.
