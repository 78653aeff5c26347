(** Lemmas about attributes, registration and the copying of variables (C99). *)
From Coq Require Import List String Ascii Arith Bool Lia.
From Verif Require Import Mp_model Acf_model Acf_spec.
Import ListNotations.
Local Open Scope string_scope.
Local Open Scope list_scope.
Local Open Scope nat_scope.

Lemma mem_In : forall s l, mem s l = true <-> In s l.
Proof.
  intros s l. unfold mem. rewrite existsb_exists. split.
  - intros [x [H E]]. apply String.eqb_eq in E. subst. exact H.
  - intros H. exists s. split; [exact H|apply String.eqb_refl].
Qed.
Lemma mem_notIn : forall s l, mem s l = false <-> ~ In s l.
Proof. intros s l. rewrite <- mem_In. destruct (mem s l); split; intros H; try discriminate; try reflexivity; try (intro K; discriminate); exfalso; apply H; reflexivity. Qed.

Lemma assoc_app : forall A (l1 l2 : list (string * A)) k, assoc (l1 ++ l2) k = match assoc l1 k with Some v => Some v | None => assoc l2 k end.
Proof. induction l1 as [|[k' a] l1 IH]; intros l2 k; cbn [app assoc]; [reflexivity|]. destruct (String.eqb k' k); [reflexivity|apply IH]. Qed.
Lemma assoc_none : forall A (l : list (string * A)) k, ~ In k (map fst l) -> assoc l k = None.
Proof.
  induction l as [|[k' a] l IH]; intros k H; cbn [assoc]; [reflexivity|].
  destruct (String.eqb_spec k' k) as [->|N]; [exfalso; apply H; left; reflexivity|apply IH; intro K; apply H; right; exact K].
Qed.
Lemma assoc_in : forall A (l : list (string * A)) k a, NoDup (map fst l) -> In (k, a) l -> assoc l k = Some a.
Proof.
  induction l as [|[k' a'] l IH]; intros k a N H; [destruct H|]. cbn [assoc]. cbn [map fst] in N. apply NoDup_cons_iff in N. destruct N as [N1 N2].
  destruct H as [E|H].
  - injection E as -> ->. rewrite String.eqb_refl. reflexivity.
  - destruct (String.eqb_spec k' k) as [->|D]; [|apply IH; assumption].
    exfalso. apply N1. apply in_map_iff. exists (k, a). split; [reflexivity|exact H].
Qed.
Lemma assoc_some_in : forall A (l : list (string * A)) k a, assoc l k = Some a -> In (k, a) l.
Proof.
  induction l as [|[k' a'] l IH]; intros k a H; [discriminate|]. cbn [assoc] in H.
  destruct (String.eqb_spec k' k) as [->|D]; [injection H as ->; left; reflexivity|right; apply IH; exact H].
Qed.
Lemma assoc_ex : forall A (l : list (string * A)) k, In k (map fst l) -> exists a, assoc l k = Some a.
Proof.
  induction l as [|[k' a'] l IH]; intros k H; [destruct H|]. cbn [assoc].
  destruct (String.eqb_spec k' k) as [->|D]; [exists a'; reflexivity|]. apply IH. destruct H as [H|H]; [contradiction|exact H].
Qed.
Lemma copy_ne : forall s, String.eqb (s ++ "_copy")%string "" = false.
Proof. intros [|c s]; reflexivity. Qed.
(** a name with "_copy" appended is none of the listed ones *)
Fixpoint last5 (s : string) : bool :=
  match s with
  | EmptyString => false
  | String _ s' => String.eqb s "_copy" || last5 s'
  end.
Lemma last5_copy : forall s, last5 (s ++ "_copy")%string = true.
Proof. induction s as [|c s IH]; [reflexivity|]. cbn [append last5]. rewrite IH. apply orb_true_r. Qed.
Lemma copy_not_in : forall s l, forallb (fun x => negb (last5 x)) l = true -> ~ In (s ++ "_copy")%string l.
Proof. intros s l H K. rewrite forallb_forall in H. specialize (H _ K). rewrite last5_copy in H. discriminate. Qed.
Lemma app_inj : forall s t u, (s ++ u)%string = (t ++ u)%string -> s = t.
Proof.
  intros s t u. assert (L : forall a b, String.length (a ++ b)%string = String.length a + String.length b).
  { intros a b. induction a as [|c a IH]; [reflexivity|]. cbn [append String.length]. rewrite IH. reflexivity. }
  revert t. induction s as [|c s IH]; intros [|d t] H; [reflexivity| | |].
  - exfalso. apply (f_equal String.length) in H. cbn [append String.length] in H. rewrite L in H. lia.
  - exfalso. apply (f_equal String.length) in H. cbn [append String.length] in H. rewrite L in H. lia.
  - cbn [append] in H. injection H as -> H. f_equal. apply IH; exact H.
Qed.

Section Base.
Variables T F : Type.
Implicit Types (w : world T F) (o : cobj F).

(** ** register_vars *)
Definition cell (p : nat * string) : string * val F := (snd p, PVar (fst p)).
Definition regs_in o : Prop := forall k, In k (o_optim o ++ o_aux o) -> In k (map fst (o_dict o)).
Lemma reg_vars_spec : forall vs o b, regs_in o ->
  match register_vars o vs b with
  | inl o' => NoDup (map snd vs) /\ Forall (fun s => hasattr o s = false) (map snd vs) /\
      o' = mkObj (o_cls o) (rev (map cell vs) ++ o_dict o)
             (o_optim o ++ (if b then map snd vs else [])) (o_aux o ++ (if b then [] else map snd vs))
  | inr e => e = RuntimeErr /\ ~ (NoDup (map snd vs) /\ Forall (fun s => hasattr o s = false) (map snd vs))
  end.
Proof.
  induction vs as [|[v s] vs IH]; intros o b RI; cbn [register_vars map snd].
  - split; [constructor|]. split; [constructor|]. cbn [rev map app]. destruct o as [cc dd oo aa]; destruct b; cbn [o_cls o_dict o_optim o_aux]; rewrite !app_nil_r; reflexivity.
  - destruct (hasattr o s) eqn:Hh.
    { split; [reflexivity|]. intros [_ FF]. apply Forall_inv in FF. congruence. }
    assert (Hs : ~ In s (map fst (o_dict o))).
    { unfold hasattr in Hh. apply orb_false_iff in Hh. apply mem_notIn. apply Hh. }
    assert (Hno : mem s (o_optim (setattr o s (PVar v))) = false /\ mem s (o_aux (setattr o s (PVar v))) = false).
    { split; apply mem_notIn; intro K; apply Hs; apply RI; apply in_or_app; [left|right]; exact K. }
    destruct Hno as [N1 N2].
    set (o1 := if b then mkObj (o_cls o) ((s, PVar v) :: o_dict o) (o_optim o ++ [s]) (o_aux o)
               else mkObj (o_cls o) ((s, PVar v) :: o_dict o) (o_optim o) (o_aux o ++ [s])).
    assert (E : (if b then register_optim_var (setattr o s (PVar v)) s else register_aux_var (setattr o s (PVar v)) s) = inl o1).
    { unfold o1. destruct b; [unfold register_optim_var|unfold register_aux_var]; rewrite N1, N2; reflexivity. }
    rewrite E.
    assert (RI1 : regs_in o1).
    { intros k Hk. unfold o1 in *. destruct b; cbn [o_optim o_aux o_dict map fst] in *.
      - apply in_app_or in Hk. destruct Hk as [Hk|Hk]; [apply in_app_or in Hk; destruct Hk as [Hk|Hk]|].
        + right. apply RI. apply in_or_app. left. exact Hk.
        + destruct Hk as [->|[]]. left. reflexivity.
        + right. apply RI. apply in_or_app. right. exact Hk.
      - apply in_app_or in Hk. destruct Hk as [Hk|Hk]; [|apply in_app_or in Hk; destruct Hk as [Hk|Hk]].
        + right. apply RI. apply in_or_app. left. exact Hk.
        + right. apply RI. apply in_or_app. right. exact Hk.
        + destruct Hk as [->|[]]. left. reflexivity. }
    assert (HA : forall k, hasattr o1 k = (String.eqb k s || hasattr o k)%bool).
    { intros k. unfold hasattr. assert (D : o_dict o1 = (s, PVar v) :: o_dict o) by (unfold o1; destruct b; reflexivity). rewrite D.
      cbn [map fst]. unfold mem at 2. cbn [existsb]. fold (mem k (map fst (o_dict o))).
      destruct (mem k class_attrs), (String.eqb k s); reflexivity. }
    assert (FE : forall l, Forall (fun x => hasattr o1 x = false) l <-> (~ In s l /\ Forall (fun x => hasattr o x = false) l)).
    { induction l as [|x l IHl]; [split; [intros _; split; [intros []|constructor]|constructor]|].
      rewrite !Forall_cons_iff, IHl, HA, orb_false_iff, String.eqb_neq. cbn [In]. split.
      - intros [[A B] [C D]]. split; [intros [K|K]; [apply A; exact K|apply C; exact K]|split; assumption].
      - intros [A [B C]]. split; [split; [intro K; apply A; left; exact K|exact B]|split; [intro K; apply A; right; exact K|exact C]]. }
    specialize (IH o1 b RI1). destruct (register_vars o1 vs b) as [o'|e].
    + destruct IH as [A [B C]]. apply FE in B. destruct B as [B1 B2].
      split; [constructor; assumption|]. split; [constructor; assumption|].
      rewrite C. unfold o1. destruct b; cbn [o_cls o_dict o_optim o_aux map rev]; rewrite <- !app_assoc; cbn [app]; rewrite ?app_nil_r; reflexivity.
    + destruct IH as [A B]. split; [exact A|]. intros [C D]. apply B. apply NoDup_cons_iff in C. apply Forall_cons_iff in D.
      split; [apply C|]. apply FE. split; [apply C|apply D].
Qed.
Lemma cells_keys : forall vs, map fst (map cell vs) = map snd vs.
Proof. intros vs. rewrite map_map. apply map_ext. intros [v s]. reflexivity. Qed.
Lemma cells_assoc : forall vs v s, NoDup (map snd vs) -> In (v, s) vs -> assoc (rev (map cell vs)) s = Some (PVar v).
Proof.
  intros vs v s N H. apply assoc_in.
  - rewrite map_rev, cells_keys. apply NoDup_rev. exact N.
  - apply in_rev. rewrite rev_involutive. apply in_map_iff. exists (v, s). split; [reflexivity|exact H].
Qed.
Lemma cells_none : forall vs s, ~ In s (map snd vs) -> assoc (rev (map cell vs)) s = None.
Proof. intros vs s H. apply assoc_none. rewrite map_rev, cells_keys. rewrite <- in_rev. exact H. Qed.
Lemma attr_vals_vars : forall o vs, (forall v s, In (v, s) vs -> getattr o s = Some (PVar v)) -> attr_vals o (map snd vs) = Some (map PVar (map fst vs)).
Proof.
  induction vs as [|[v s] vs IH]; intros H; [reflexivity|]. cbn [map snd fst attr_vals fold_right].
  fold (attr_vals o (map snd vs)). rewrite (H v s) by (left; reflexivity). rewrite IH; [reflexivity|]. intros v' s' K. apply H. right. exact K.
Qed.
Lemma attr_vals_each : forall o ks l, attr_vals o ks = Some l -> forall k, In k ks -> exists x, getattr o k = Some x /\ In x l.
Proof.
  induction ks as [|k ks IH]; intros l H k' Hk; [destruct Hk|]. cbn [attr_vals fold_right] in H. fold (attr_vals o ks) in H.
  destruct (getattr o k) as [x|] eqn:G; [|discriminate]. destruct (attr_vals o ks) as [l'|] eqn:A; [|discriminate]. injection H as <-.
  destruct Hk as [<-|Hk]; [exists x; split; [exact G|left; reflexivity]|].
  destruct (IH l' eq_refl k' Hk) as [y [Y1 Y2]]. exists y. split; [exact Y1|right; exact Y2].
Qed.
Lemma attr_vals_map : forall o ks l, attr_vals o ks = Some l -> List.length l = List.length ks /\
  (forall n k x, nth_error ks n = Some k -> nth_error l n = Some x -> getattr o k = Some x).
Proof.
  induction ks as [|k ks IH]; intros l H.
  - cbn in H. injection H as <-. split; [reflexivity|]. intros [|n] k x A; discriminate A.
  - cbn [attr_vals fold_right] in H. fold (attr_vals o ks) in H.
    destruct (getattr o k) as [x|] eqn:G; [|discriminate]. destruct (attr_vals o ks) as [l'|] eqn:A; [|discriminate]. injection H as <-.
    destruct (IH l' eq_refl) as [L R]. split; [cbn [List.length]; rewrite L; reflexivity|].
    intros [|n] k' x' A1 A2; cbn [nth_error] in *; [injection A1 as <-; injection A2 as <-; exact G|apply (R n); assumption].
Qed.
Lemma setattrs_dict : forall l o, setattrs o l = mkObj (o_cls o) (rev l ++ o_dict o) (o_optim o) (o_aux o).
Proof.
  induction l as [|[k x] l IH]; intros o; cbn [setattrs rev]; [destruct o as [cc dd oo aa]; reflexivity|].
  rewrite IH. unfold setattr. cbn [o_cls o_dict o_optim o_aux]. rewrite <- app_assoc. reflexivity.
Qed.

(** ** variables *)
Definition copy_of (x : var T) : var T := mkVar (v_name x ++ "_copy")%string (v_dt x) (v_val x).
Definition var0 w (v : nat) (d : var T) : var T := nth v (w_vars w) d.
Definition got w (v : nat) : list (var T) := match nth_error (w_vars w) v with Some x => [copy_of x] | None => [] end.
Lemma copy_vars_eq : forall vs w, exist w vs ->
  mapM copy_var vs w = Ret (set_vars w (w_vars w ++ flat_map (got w) vs)) (seq (List.length (w_vars w)) (List.length vs))
  /\ List.length (flat_map (got w) vs) = List.length vs.
Proof.
  induction vs as [|v vs IH]; intros w E.
  - split; [|reflexivity]. cbn [mapM flat_map List.length seq]. rewrite app_nil_r. destruct w; reflexivity.
  - assert (GV : forall x, nth_error (w_vars w) v = Some x -> got w v = [copy_of x]) by (intros x X; unfold got; rewrite X; reflexivity).
    cbn [mapM flat_map]. unfold bind at 1. unfold copy_var at 1.
    destruct (nth_error (w_vars w) v) as [x|] eqn:X; [|exfalso; apply nth_error_None in X; specialize (E v (or_introl eq_refl)); lia].
    rewrite (GV x eq_refl). clear GV. cbn [app]. unfold new_var. rewrite copy_ne. fold (copy_of x).
    set (w1 := set_vars w (w_vars w ++ [copy_of x])).
    assert (E1 : exist w1 vs). { intros u Hu. unfold w1. cbn [set_vars w_vars]. rewrite app_length. specialize (E u (or_intror Hu)). cbn [List.length]. lia. }
    destruct (IH w1 E1) as [A B].
    assert (G : flat_map (got w1) vs = flat_map (got w) vs).
    { clear A B IH E1. assert (E' : exist w vs) by (intros u Hu; apply E; right; exact Hu). clear E. revert E'. unfold w1. clear w1.
      induction vs as [|u vs IH']; intros E'; [reflexivity|]. cbn [flat_map]. rewrite IH' by (intros z Hz; apply E'; right; exact Hz). f_equal.
      unfold got. cbn [set_vars w_vars]. rewrite nth_error_app1 by (apply E'; left; reflexivity). reflexivity. }
    unfold bind. rewrite A. cbn [ret]. rewrite G in *. split; [|cbn [List.length]; rewrite B; reflexivity].
    unfold w1. cbn [set_vars w_vars w_wts w_objs w_fid]. rewrite <- app_assoc. cbn [app List.length seq].
    rewrite app_length. cbn [List.length]. rewrite Nat.add_1_r. reflexivity.
Qed.
Lemma names_of_eq : forall vs w, exist w vs -> names_of vs w = Ret w (combine vs (names w vs)).
Proof.
  intros vs w. unfold names_of.
  assert (G : forall l w', exist w l ->
     mapM (fun v w' => match nth_error (w_vars w) v with Some x => Ret w' (v, v_name x) | None => Exn w' AttrErr end) l w' = Ret w' (combine l (names w l))).
  { induction l as [|v l IH]; intros w' E; [reflexivity|]. cbn [mapM]. unfold bind at 1.
    unfold names. cbn [map combine]. unfold name_at at 1.
    destruct (nth_error (w_vars w) v) as [x|] eqn:X; [|exfalso; apply nth_error_None in X; specialize (E v (or_introl eq_refl)); lia].
    unfold bind. rewrite IH by (intros u Hu; apply E; right; exact Hu). reflexivity. }
  intros E. apply G. exact E.
Qed.
Lemma combine_fst : forall A B (l : list A) (l' : list B), List.length l = List.length l' -> map fst (combine l l') = l.
Proof. induction l as [|a l IH]; intros [|b l'] H; try discriminate; [reflexivity|]. cbn [combine map fst]. rewrite IH by (cbn in H; lia). reflexivity. Qed.
Lemma combine_snd : forall A B (l : list A) (l' : list B), List.length l = List.length l' -> map snd (combine l l') = l'.
Proof. induction l as [|a l IH]; intros [|b l'] H; try discriminate; [reflexivity|]. cbn [combine map snd]. rewrite IH by (cbn in H; lia). reflexivity. Qed.
Lemma names_len : forall w vs, List.length (names w vs) = List.length vs.
Proof. intros. apply map_length. Qed.
End Base.
