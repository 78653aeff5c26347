(** Lemmas about names and about adding cost functions to the objective of
    the motion planner. *)
From Coq Require Import Reals List String Ascii Arith Bool DecimalString DecimalNat Lia Lra.
From Verif Require Import Geo_spec SE2_model Emb_model Emb2_model Mp_model.
Import ListNotations.
Local Open Scope list_scope.

(** ** names *)
Lemma dec_inj i j : dec i = dec j -> i = j.
Proof.
  unfold dec. intros E.
  assert (H : Some (Nat.to_uint i) = Some (Nat.to_uint j)).
  { rewrite <- !NilEmpty.usu. now rewrite E. }
  injection H as H. rewrite <- (Unsigned.of_to i), <- (Unsigned.of_to j). now rewrite H.
Qed.
Lemma append_inj p a b : (p ++ a)%string = (p ++ b)%string -> a = b.
Proof. induction p; simpl; intros E; [easy | injection E; auto]. Qed.
Lemma idx_inj p i j : idx p i = idx p j -> i = j.
Proof. intros E. apply append_inj in E. apply append_inj in E. now apply dec_inj. Qed.

Definition digit (c : ascii) : Prop := In c (list_ascii_of_string "0123456789").
Fixpoint all_digits (s : string) : Prop := match s with EmptyString => True | String c r => digit c /\ all_digits r end.
Lemma dec_digits i : all_digits (dec i).
Proof.
  unfold dec. generalize (Nat.to_uint i). induction u; cbn -[digit]; auto; split; auto; unfold digit; cbn; tauto.
Qed.
Lemma contains_digits c p s : all_digits s -> ~ digit c -> contains (String c p) s = false.
Proof.
  intros H N. induction s as [|a s IH]; [reflexivity|].
  destruct H as [Ha Hs]. cbn [contains]. rewrite (IH Hs), orb_false_r.
  cbn [prefix]. destruct (ascii_dec c a); [subst; contradiction | reflexivity].
Qed.

(** ** adding variables *)
Lemma mem_In n l : mem n l = true <-> In n l.
Proof. unfold mem. destruct (in_dec vname_dec n l); split; intros; try easy; tauto. Qed.
Lemma mem_nIn n l : mem n l = false <-> ~ In n l.
Proof. rewrite <- mem_In. destruct (mem n l); split; intros; try easy; congruence. Qed.
Lemma insert_In n m l : In n (insert m l) <-> n = m \/ In n l.
Proof.
  unfold insert. destruct (mem m l) eqn:E.
  - apply mem_In in E. split; [tauto|]. intros [->|]; auto.
  - rewrite in_app_iff. cbn. intuition congruence.
Qed.
Lemma insert_old n l : In n l -> insert n l = l.
Proof. intros H. apply mem_In in H. unfold insert. now rewrite H. Qed.
Lemma insert_new n l : ~ In n l -> insert n l = l ++ [n].
Proof. intros H. apply mem_nIn in H. unfold insert. now rewrite H. Qed.
Lemma insert_NoDup n l : NoDup l -> NoDup (insert n l).
Proof.
  intros H. unfold insert. destruct (mem n l) eqn:E; [easy|].
  apply mem_nIn in E. apply NoDup_Add with (a := n) (l := l); [|easy].
  rewrite <- (app_nil_r l) at 1. apply Add_app.
Qed.
Definition inserts (ns : list vname) (l : list vname) : list vname := fold_left (fun l n => insert n l) ns l.
Lemma inserts_In n ns : forall l, In n (inserts ns l) <-> In n ns \/ In n l.
Proof.
  induction ns as [|m ns IH]; intros l; cbn; [tauto|].
  unfold inserts in IH. rewrite IH, insert_In. intuition congruence.
Qed.
Lemma inserts_NoDup ns : forall l, NoDup l -> NoDup (inserts ns l).
Proof. induction ns; intros l H; cbn; [easy|]. apply IHns. now apply insert_NoDup. Qed.
Lemma inserts_app a b l : inserts (a ++ b) l = inserts b (inserts a l).
Proof. apply fold_left_app. Qed.
Lemma inserts_old ns : forall l, incl ns l -> inserts ns l = l.
Proof.
  induction ns as [|n ns IH]; intros l H; cbn; [easy|].
  rewrite insert_old by (apply H; now left). apply IH. intros x Hx. apply H. now right.
Qed.

Lemma dtype_eqb_eq a b : dtype_eqb a b = true <-> a = b.
Proof. destruct a, b; cbn; split; congruence. Qed.
Definition dt_ok (d : dtype) (vs : list var) : Prop := Forall (fun v => v_dtype v = d) vs.
Lemma add_vars_ok d vs : forall l, dt_ok d vs -> add_vars d vs l = Ok (inserts (map v_name vs) l).
Proof.
  induction vs as [|v vs IH]; intros l H; cbn; [easy|].
  inversion H; subst. rewrite (proj2 (dtype_eqb_eq _ _) eq_refl). now apply IH.
Qed.
Lemma add_vars_inv d vs : forall l l', add_vars d vs l = Ok l' -> dt_ok d vs /\ l' = inserts (map v_name vs) l.
Proof.
  induction vs as [|v vs IH]; intros l l' H; cbn in *; [injection H as <-; split; [constructor|easy]|].
  destruct (dtype_eqb (v_dtype v) d) eqn:E; [|discriminate].
  apply dtype_eqb_eq in E. destruct (IH _ _ H) as [A B]. split; [constructor|]; auto.
Qed.
Lemma add_vars_err d vs : forall l, ~ dt_ok d vs -> add_vars d vs l = Err ValueErr.
Proof.
  induction vs as [|v vs IH]; intros l H; cbn; [exfalso; apply H; constructor|].
  destruct (dtype_eqb (v_dtype v) d) eqn:E; [|easy].
  apply dtype_eqb_eq in E. apply IH. intros K. apply H. now constructor.
Qed.

(** the names of the optimization variables of the planner and of the tactile
    pose estimator *)
Definition isopt (n : vname) : bool :=
  match n with
  | Named s => prefix "pose_" s || prefix "vel_" s || prefix "obj_pose_" s || prefix "eff_pose_" s
  | Auto _ => false end.
Definition f_vars (f : cfn) : list var := f_optim f ++ f_aux f ++ w_aux (f_weight f).
(** a cost function of the planner: optimization variables are poses and
    velocities, auxiliary ones are not *)
Definition sorted_vars (f : cfn) : Prop :=
  Forall (fun v => isopt (v_name v) = true) (f_optim f)
  /\ Forall (fun v => isopt (v_name v) = false) (f_aux f ++ w_aux (f_weight f)).
Definition sorted (o : obj) : Prop :=
  Forall (fun n => isopt n = true) (o_optim o) /\ Forall (fun n => isopt n = false) (o_aux o).

Definition f_new (o : obj) (f : cfn) : bool := negb (existsb (String.eqb (w_id (f_weight f))) (o_weights o)).
Definition after_add (o : obj) (f : cfn) : obj :=
  mkO (o_dtype o) (o_cfs o ++ [f]) (inserts (map v_name (f_optim f)) (o_optim o))
    (let aux := inserts (map v_name (f_aux f)) (o_aux o) in
     if f_new o f then inserts (map v_name (w_aux (f_weight f))) aux else aux)
    (if f_new o f then o_weights o ++ [w_id (f_weight f)] else o_weights o).

Lemma Forall_inserts P ns l : Forall P ns -> Forall P l -> Forall P (inserts ns l).
Proof. rewrite !Forall_forall. intros A B x Hx. apply inserts_In in Hx as [Hx|Hx]; auto. Qed.
Lemma Forall_names (P : vname -> Prop) vs : Forall (fun v => P (v_name v)) vs -> Forall P (map v_name vs).
Proof. rewrite Forall_map. easy. Qed.

Lemma after_add_sorted o f : sorted o -> sorted_vars f -> sorted (after_add o f).
Proof.
  intros [A B] [C D]. apply Forall_app in D as [D E].
  apply (Forall_names (fun n => isopt n = true)) in C.
  apply (Forall_names (fun n => isopt n = false)) in D.
  apply (Forall_names (fun n => isopt n = false)) in E.
  split; cbn.
  - now apply Forall_inserts.
  - destruct (f_new o f); repeat apply Forall_inserts; assumption.
Qed.

Lemma existsb_false {A} (p : A -> bool) l : (forall x, In x l -> p x = false) -> existsb p l = false.
Proof. induction l as [|a l IH]; cbn; intros H; [easy|]. rewrite (H a) by (now left). cbn. apply IH. intros x Hx. apply H. now right. Qed.
Lemma existsb_name_true o f : existsb (fun g => String.eqb (f_name g) (f_name f)) (o_cfs o) = true <-> In (f_name f) (map f_name (o_cfs o)).
Proof.
  rewrite existsb_exists, in_map_iff. split; intros [g H]; exists g.
  - destruct H as [A B]. apply String.eqb_eq in B. auto.
  - destruct H as [A B]. split; [easy|]. now apply String.eqb_eq.
Qed.

Lemma add_ok o f :
  sorted o -> sorted_vars f -> ~ In (f_name f) (map f_name (o_cfs o)) ->
  dt_ok (o_dtype o) (f_vars f) -> add o f = Ok (after_add o f).
Proof.
  intros S V N D. unfold f_vars, dt_ok in D. apply Forall_app in D as [D1 D]. apply Forall_app in D as [D2 D3].
  unfold add.
  destruct (existsb (fun g => String.eqb (f_name g) (f_name f)) (o_cfs o)) eqn:E;
    [apply existsb_name_true in E; contradiction|].
  rewrite (add_vars_ok _ _ _ D1). cbn [rbind]. rewrite (add_vars_ok _ _ _ D2). cbn [rbind].
  fold (f_new o f).
  assert (R : (if f_new o f then add_vars (o_dtype o) (w_aux (f_weight f)) (inserts (map v_name (f_aux f)) (o_aux o))
               else Ok (inserts (map v_name (f_aux f)) (o_aux o))) = Ok (o_aux (after_add o f))).
  { unfold after_add. cbn [o_aux]. destruct (f_new o f); [now apply add_vars_ok|reflexivity]. }
  rewrite R. cbn [rbind]. clear R.
  pose proof (after_add_sorted o f S V) as [SA SB].
  rewrite (existsb_false (fun v => mem (v_name v) (o_aux (after_add o f)))).
  - rewrite (existsb_false (fun v => mem (v_name v) (inserts (map v_name (f_optim f)) (o_optim o)))); [reflexivity|].
    intros v Hv. apply mem_nIn. intros Hi.
    destruct V as [_ V]. rewrite Forall_forall in V. specialize (V _ Hv).
    cbn [o_optim after_add] in SA. rewrite Forall_forall in SA. specialize (SA _ Hi). congruence.
  - intros v Hv. apply mem_nIn. intros Hi.
    destruct V as [V _]. rewrite Forall_forall in V. specialize (V _ Hv).
    rewrite Forall_forall in SB. specialize (SB _ Hi). congruence.
Qed.

Lemma add_inv o f o' :
  add o f = Ok o' -> o' = after_add o f /\ ~ In (f_name f) (map f_name (o_cfs o))
    /\ dt_ok (o_dtype o) (f_optim f ++ f_aux f) /\ (f_new o f = true -> dt_ok (o_dtype o) (w_aux (f_weight f))).
Proof.
  unfold add. destruct (existsb (fun g => String.eqb (f_name g) (f_name f)) (o_cfs o)) eqn:E; [discriminate|].
  destruct (add_vars (o_dtype o) (f_optim f) (o_optim o)) as [opt|] eqn:E1; [|discriminate]. cbn [rbind].
  destruct (add_vars (o_dtype o) (f_aux f) (o_aux o)) as [aux|] eqn:E2; [|discriminate]. cbn [rbind].
  apply add_vars_inv in E1 as [D1 ->]. apply add_vars_inv in E2 as [D2 ->].
  fold (f_new o f).
  assert (NI : ~ In (f_name f) (map f_name (o_cfs o))) by (intros K; apply existsb_name_true in K; congruence).
  assert (D12 : dt_ok (o_dtype o) (f_optim f ++ f_aux f)) by (apply Forall_app; auto).
  destruct (f_new o f) eqn:EN.
  - destruct (add_vars (o_dtype o) (w_aux (f_weight f)) _) as [aux|] eqn:E3; [|discriminate]. cbn [rbind].
    apply add_vars_inv in E3 as [D3 ->].
    destruct (_ || _); [discriminate|]. intros H. injection H as <-.
    unfold after_add. rewrite EN. auto.
  - cbn [rbind]. destruct (_ || _); [discriminate|]. intros H. injection H as <-.
    unfold after_add. rewrite EN. split; [reflexivity|]. split; [easy|]. split; [easy|discriminate].
Qed.

Definition after_all (o : obj) (l : list cfn) : obj := fold_left after_add l o.
Lemma after_all_cfs l : forall o, o_cfs (after_all o l) = o_cfs o ++ l.
Proof. induction l; intros o; cbn; [now rewrite app_nil_r|]. unfold after_all in IHl. rewrite IHl. cbn. now rewrite <- app_assoc. Qed.
Lemma after_all_optim l : forall o, o_optim (after_all o l) = inserts (map v_name (flat_map f_optim l)) (o_optim o).
Proof.
  induction l; intros o; [reflexivity|]. cbn [flat_map after_all fold_left]. unfold after_all in IHl.
  rewrite IHl, map_app, inserts_app. reflexivity.
Qed.
Lemma after_all_dtype l : forall o, o_dtype (after_all o l) = o_dtype o.
Proof. induction l; intros o; [reflexivity|]. cbn. unfold after_all in IHl. now rewrite IHl. Qed.
Lemma after_all_app a b o : after_all o (a ++ b) = after_all (after_all o a) b.
Proof. apply fold_left_app. Qed.

Lemma add_all_ok l : forall o,
  sorted o -> Forall sorted_vars l -> NoDup (map f_name (o_cfs o ++ l)) ->
  dt_ok (o_dtype o) (flat_map f_vars l) -> add_all o l = Ok (after_all o l) /\ sorted (after_all o l).
Proof.
  induction l as [|f l IH]; intros o S V N D; [now split|].
  cbn [add_all after_all fold_left]. inversion V; subst.
  cbn in D. apply Forall_app in D as [D1 D2].
  rewrite add_ok; auto.
  - cbn [rbind]. apply IH; auto.
    + now apply after_add_sorted.
    + cbn [o_cfs after_add]. rewrite <- app_assoc. exact N.
  - rewrite map_app in N. cbn in N. apply NoDup_remove_2 in N. intros K. apply N. apply in_or_app. now left.
Qed.
Lemma add_all_inv l : forall o o', add_all o l = Ok o' -> o' = after_all o l.
Proof.
  induction l as [|f l IH]; intros o o' H; cbn in *; [congruence|].
  destruct (add o f) as [o1|] eqn:E; [|discriminate]. cbn in H.
  apply add_inv in E as [-> _]. now apply IH.
Qed.
(** the dtypes of a successful sequence *)
Lemma add_all_inv_dt l : forall o o', add_all o l = Ok o' -> dt_ok (o_dtype o) (flat_map (fun f => f_optim f ++ f_aux f) l).
Proof.
  induction l as [|f l IH]; intros o o' H; [constructor|].
  cbn [add_all] in H. destruct (add o f) as [o1|] eqn:E; [|discriminate]. cbn [rbind] in H.
  apply add_inv in E as [-> [_ [A _]]]. cbn [flat_map]. apply Forall_app. split; [easy|].
  apply IH in H. exact H.
Qed.

(** auxiliary variables *)
Lemma after_all_aux_sub n l : forall o, In n (o_aux (after_all o l)) ->
  In n (o_aux o) \/ In n (map v_name (flat_map (fun f => f_aux f ++ w_aux (f_weight f)) l)).
Proof.
  induction l as [|f l IH]; intros o H; [now left|].
  cbn [after_all fold_left] in H. apply IH in H as [H|H].
  - cbn [o_aux after_add] in H. cbn [flat_map]. rewrite !map_app, !in_app_iff.
    destruct (f_new o f); repeat (apply inserts_In in H as [H|H]); auto.
  - right. cbn [flat_map]. rewrite map_app, in_app_iff. auto.
Qed.
Definition w_consistent (fs : list cfn) : Prop :=
  forall f g, In f fs -> In g fs -> w_id (f_weight f) = w_id (f_weight g) -> w_aux (f_weight f) = w_aux (f_weight g).
Definition w_known (o : obj) : Prop :=
  forall w, In w (o_weights o) -> exists f, In f (o_cfs o) /\ w_id (f_weight f) = w /\ incl (map v_name (w_aux (f_weight f))) (o_aux o).
Lemma after_add_aux_mono o f : incl (o_aux o) (o_aux (after_add o f)).
Proof. intros n H. cbn. destruct (f_new o f); rewrite ?inserts_In; auto. Qed.
Lemma f_new_false o f : f_new o f = false <-> In (w_id (f_weight f)) (o_weights o).
Proof.
  unfold f_new. rewrite negb_false_iff, existsb_exists. split.
  - intros [x [A B]]. apply String.eqb_eq in B. now subst.
  - intros H. exists (w_id (f_weight f)). split; [easy|]. apply String.eqb_refl.
Qed.
Lemma after_add_known o f : w_known o -> w_known (after_add o f).
Proof.
  intros K w H. cbn [o_weights after_add] in H.
  assert (old : In w (o_weights o) -> exists g, In g (o_cfs (after_add o f)) /\ w_id (f_weight g) = w /\ incl (map v_name (w_aux (f_weight g))) (o_aux (after_add o f))).
  { intros Hw. destruct (K _ Hw) as [g [A [B C]]]. exists g. split; [cbn; apply in_or_app; now left|]. split; [easy|].
    eapply incl_tran; [exact C|]. apply after_add_aux_mono. }
  destruct (f_new o f) eqn:E; [|auto].
  apply in_app_or in H as [H|H]; [auto|]. cbn in H. destruct H as [<-|[]].
  exists f. split; [cbn; apply in_or_app; right; now left|]. split; [easy|].
  cbn [o_aux after_add]. rewrite E. intros n Hn. apply inserts_In. now left.
Qed.
Lemma after_add_has o f : w_known o -> w_consistent (o_cfs o ++ [f]) ->
  incl (map v_name (f_aux f ++ w_aux (f_weight f))) (o_aux (after_add o f)).
Proof.
  intros K C n H. rewrite map_app in H. apply in_app_or in H as [H|H]; cbn [o_aux after_add].
  - destruct (f_new o f); rewrite !inserts_In; auto.
  - destruct (f_new o f) eqn:E; [rewrite inserts_In; now left|].
    rewrite inserts_In. right. apply f_new_false in E. destruct (K _ E) as [g [A [B D]]].
    apply D. rewrite (C g f); auto; apply in_or_app; [now left| right; now left].
Qed.
Lemma after_all_aux_has l : forall o, w_known o -> w_consistent (o_cfs o ++ l) ->
  incl (o_aux o) (o_aux (after_all o l)) /\
  incl (map v_name (flat_map (fun f => f_aux f ++ w_aux (f_weight f)) l)) (o_aux (after_all o l)).
Proof.
  induction l as [|f l IH]; intros o K C; [split; [apply incl_refl | intros x []]|].
  cbn [after_all fold_left]. destruct (IH (after_add o f)) as [A B].
  - now apply after_add_known.
  - cbn [o_cfs after_add]. now rewrite <- app_assoc.
  - split; [eapply incl_tran; [apply after_add_aux_mono|exact A]|].
    cbn [flat_map]. rewrite map_app. apply incl_app; [|exact B].
    eapply incl_tran; [|exact A]. apply after_add_has; [easy|].
    intros f1 f2 H1 H2. apply C.
    + apply in_app_or in H1 as [H1|[<-|[]]]; apply in_or_app; [now left|right; now left].
    + apply in_app_or in H2 as [H2|[<-|[]]]; apply in_or_app; [now left|right; now left].
Qed.
Lemma after_all_aux_NoDup l : forall o, NoDup (o_aux o) -> NoDup (o_aux (after_all o l)).
Proof.
  induction l as [|f l IH]; intros o H; [easy|]. cbn [after_all fold_left]. apply IH. cbn.
  destruct (f_new o f); repeat apply inserts_NoDup; easy.
Qed.
