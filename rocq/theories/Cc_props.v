(** Lemmas for C97: preparations, copies of attributes, checks. *)
From Coq Require Import Reals List String Arith Bool Lia Lra.
From Verif Require Import Mp_model Cc_model Cc_spec.
Import ListNotations.
Local Open Scope string_scope.
Local Open Scope nat_scope.

Lemma setv_length h v x : List.length (setv h v x) = List.length h.
Proof. revert v; induction h as [|y h IH]; intros [|v]; cbn; auto. Qed.
Lemma getv_setv_same h v x : v < List.length h -> getv (setv h v x) v = x.
Proof. unfold getv. revert v; induction h as [|y h IH]; intros [|v] L; cbn in *; try lia; auto. apply IH; lia. Qed.
Lemma getv_setv_other h v x u : u <> v -> getv (setv h v x) u = getv h u.
Proof. unfold getv. revert v u; induction h as [|y h IH]; intros [|v] [|u] N; cbn in *; try lia; auto. Qed.
Lemma setv_getv h v : setv h v (getv h v) = h.
Proof. unfold getv. revert v; induction h as [|y h IH]; intros [|v]; cbn; auto. now rewrite IH. Qed.
Lemma setv_app h k v x : List.length h <= v -> setv (h ++ k)%list v x = (h ++ setv k (v - List.length h) x)%list.
Proof.
  revert v; induction h as [|y h IH]; intros v L; cbn in *; [now rewrite Nat.sub_0_r|].
  destruct v as [|v]; [lia|]. cbn. rewrite IH by lia. reflexivity.
Qed.
Lemma getv_app_l h k v : v < List.length h -> getv (h ++ k)%list v = getv h v.
Proof. unfold getv. intros; now apply app_nth1. Qed.
Lemma getv_app_r h k v : List.length h <= v -> getv (h ++ k)%list v = getv k (v - List.length h).
Proof. unfold getv. intros; now apply app_nth2. Qed.
Lemma var_eta x : mkV (v_cls x) (v_name x) (v_tensor x) = x.
Proof. now destruct x. Qed.
Lemma append_copy_neq s : String.eqb (s ++ "_copy") "" = false.
Proof. destruct s; reflexivity. Qed.
Lemma copy_name_neq nn s : String.eqb (copy_name nn s) "" = false.
Proof.
  unfold copy_name. destruct nn as [t|]; [|apply append_copy_neq].
  destruct (String.eqb t "") eqn:E; [apply append_copy_neq|exact E].
Qed.
Lemma fn_name_some cn id nn s : fn_name cn id (Some (copy_name nn s)) = copy_name nn s.
Proof. unfold fn_name. now rewrite copy_name_neq. Qed.

(** inversion of the monad *)
Lemma bind_ret {A B} (m : M A) (k : A -> M B) h h' b :
  bind m k h = Ret h' b -> exists h1 a, m h = Ret h1 a /\ k a h1 = Ret h' b.
Proof. unfold bind. destruct (m h) as [h1 a|h1 e]; [eauto | discriminate]. Qed.
Lemma check_ret o h h' u : check o h = Ret h' u -> o = None /\ h' = h.
Proof. destruct o; cbn; [discriminate|]. unfold ret. intros [= <-]; auto. Qed.

Lemma Forall2_weaken {A B} (P Q : A -> B -> Prop) l l' : Forall2 P l l' -> (forall a b, In a l -> P a b -> Q a b) -> Forall2 Q l l'.
Proof. induction 1 as [|a b l l' H F IH]; intros W; constructor; [apply W; cbn; auto|apply IH; intros; apply W; cbn; auto]. Qed.

Section Props.
Variable chol_ok : tensor -> bool.
Notation run_prep := (run_prep chol_ok).
Notation run_preps := (run_preps chol_ok).

(** the part of a preparation's demands that does not depend on the batch size or the values *)
Definition shape_ok (p : prep) (x : var) : Prop :=
  let s := t_shape (v_tensor x) in
  match p with
  | PKeep | PLimit _ | PCalib _ | PScalar => True
  | PCol | PView | PPosCol => exists n, s = [n; 1]
  | POrigin => subclass (v_cls x) KPoint2 = true
  | PSdf => List.length s = 3
  | PCell => List.length s = 1 \/ (List.length s = 2 /\ nth 1 s 0 = 1)
  | PDiag => 2 <= List.length s
  | PQc => List.length s = 3 /\ nth 1 s 0 = nth 2 s 0
  end.
(** the part that does *)
Definition value_ok (p : prep) (x : var) : Prop :=
  let t := v_tensor x in
  match p with
  | PScalar => squeeze_ndim t <= 1
  | PDiag => squeeze_ndim t < 3
  | PPosCol => all_pos t = true
  | PQc => chol_ok t = true
  | _ => True
  end.

Lemma squeeze_col n : squeeze_ndim (mkT [n; 1] []) <= 1.
Proof. unfold squeeze_ndim; cbn. destruct (n =? 1); cbn; lia. Qed.
Lemma view_col_id t n : t_shape t = [n; 1] -> wf t -> view_col t = t.
Proof. destruct t as [s d]; cbn. intros -> W. unfold view_col, wf in *; cbn in *. now rewrite W, Nat.mul_1_r. Qed.
Lemma squeeze_shape t n : t_shape t = [n; 1] -> squeeze_ndim t <= 1.
Proof. intros E. unfold squeeze_ndim. rewrite E. apply squeeze_col. Qed.

(** a variable that meets the demands is taken as it is *)
Lemma prep_stable sn name vd b p v h : wf (v_tensor (getv h v)) ->
  shape_ok p (getv h v) -> value_ok p (getv h v) -> run_prep sn name vd b p (AV v) h = Ret h v.
Proof.
  intros W S V.
  assert (SET : forall n, t_shape (v_tensor (getv h v)) = [n; 1] ->
    set_tensor v (view_col (v_tensor (getv h v))) h = Ret h tt).
  { intros n E. unfold set_tensor. rewrite (view_col_id _ n E W), var_eta, setv_getv. reflexivity. }
  destruct p; cbn [Cc_model.run_prep as_variable]; unfold bind, ret, get; cbn [shape_ok value_ok] in S, V; auto.
  - destruct S as [n E]. assert (Q := squeeze_shape _ n E). replace (1 <? _) with false by (symmetry; apply Nat.ltb_ge; lia).
    now rewrite (SET n E).
  - destruct S as [n E]. now rewrite (SET n E).
  - replace (1 <? _) with false by (symmetry; apply Nat.ltb_ge; lia). reflexivity.
  - now rewrite S.
  - unfold ndim. now rewrite S.
  - unfold ndim. destruct S as [-> | [-> ->]]; reflexivity.
  - destruct S as [n E]. assert (Q := squeeze_shape _ n E). replace (1 <? _) with false by (symmetry; apply Nat.ltb_ge; lia).
    rewrite (SET n E). now rewrite V.
  - assert (E : (squeeze_ndim (v_tensor (getv h v)) <? 3) = true) by (apply Nat.ltb_lt; lia). rewrite E. cbn [negb].
    unfold ndim. destruct (List.length _) as [|[|n]]; [lia|lia|]. reflexivity.
  - destruct S as [E3 E]. unfold ndim. rewrite E3. cbn [Nat.eqb orb negb Nat.sub]. rewrite E, Nat.eqb_refl. cbn [negb].
    unfold set_tensor. rewrite var_eta, setv_getv. now rewrite V.
Qed.

(** what a successful preparation leaves behind *)
Definition new_or (h : heap) (a : arg) (v : nat) : Prop := a = AV v \/ List.length h <= v.
Lemma as_variable_ret nm a h h' v : as_variable nm a h = Ret h' v ->
  (forall u, a = AV u -> u < List.length h) ->
  v < List.length h' /\ List.length h <= List.length h' /\ new_or h a v /\
  (forall u, u < List.length h -> getv h' u = getv h u).
Proof.
  unfold as_variable, alloc, ret, raise, new_or. intros E A.
  destruct a as [u|x|t|]; try discriminate; injection E as <- <-; rewrite ?app_length; cbn [List.length].
  - assert (u < List.length h) by now apply A. repeat split; auto.
  - repeat split; try lia. intros u L. now apply getv_app_l.
  - repeat split; try lia. intros u L. now apply getv_app_l.
Qed.
Lemma alloc_ret c nm t h h' v : alloc c nm t h = Ret h' v ->
  v = List.length h /\ List.length h' = S (List.length h) /\ v_cls (getv h' v) = c /\ v_tensor (getv h' v) = t /\
  (forall u, u < List.length h -> getv h' u = getv h u).
Proof.
  unfold alloc. intros [= <- <-]. rewrite app_length; cbn [List.length].
  repeat split; try lia.
  - rewrite getv_app_r, Nat.sub_diag by lia; reflexivity.
  - rewrite getv_app_r, Nat.sub_diag by lia; reflexivity.
  - intros u L. now apply getv_app_l.
Qed.
Lemma set_tensor_ret v t h h' u : v < List.length h -> set_tensor v t h = Ret h' u ->
  List.length h' = List.length h /\ v_tensor (getv h' v) = t /\ v_cls (getv h' v) = v_cls (getv h v) /\
  (forall w, w <> v -> getv h' w = getv h w).
Proof.
  unfold set_tensor. intros L [= <- _]. rewrite setv_length, getv_setv_same by auto. repeat split; auto.
  intros w N. now apply getv_setv_other.
Qed.

Definition effect (h h' : heap) (a : arg) (p : prep) (v : nat) : Prop :=
  v < List.length h' /\ List.length h <= List.length h' /\ new_or h a v /\ shape_ok p (getv h' v) /\
  (forall u, u < List.length h -> u <> v -> getv h' u = getv h u) /\
  (p = PKeep -> a = AV v /\ getv h' v = getv h v).

Lemma prep_effect sn name vd b p a h h' v : (forall u, a = AV u -> u < List.length h) ->
  run_prep sn name vd b p a h = Ret h' v -> effect h h' a p v.
Proof.
  intros A E. unfold effect.
  destruct p; cbn [Cc_model.run_prep] in E.
  - destruct a; try discriminate. injection E as <- <-. assert (L := A _ eq_refl). unfold new_or, shape_ok. repeat split; auto.
  - apply bind_ret in E as (h1 & v1 & E1 & E). apply as_variable_ret in E1 as (L1 & L2 & N1 & K1); auto.
    unfold bind at 1, get in E. destruct (1 <? _); [discriminate|].
    apply bind_ret in E as (h2 & [] & E2 & E). injection E as <- <-.
    apply set_tensor_ret in E2 as (L3 & T & C & K2); auto.
    repeat split; try (rewrite ?L3; lia); try discriminate; auto.
    + unfold shape_ok. rewrite T. cbn. eauto.
    + intros u Lu Nu. rewrite K2 by auto. now apply K1.
  - apply bind_ret in E as (h1 & v1 & E1 & E). apply as_variable_ret in E1 as (L1 & L2 & N1 & K1); auto.
    unfold bind at 1, get in E.
    apply bind_ret in E as (h2 & [] & E2 & E). injection E as <- <-.
    apply set_tensor_ret in E2 as (L3 & T & C & K2); auto.
    repeat split; try (rewrite ?L3; lia); try discriminate; auto.
    + unfold shape_ok. rewrite T. cbn. eauto.
    + intros u Lu Nu. rewrite K2 by auto. now apply K1.
  - apply bind_ret in E as (h1 & v1 & E1 & E). apply as_variable_ret in E1 as (L1 & L2 & N1 & K1); auto.
    unfold bind at 1, get in E. destruct (1 <? _); [discriminate|]. injection E as <- <-.
    repeat split; auto; discriminate.
  - destruct a as [u|x|t|]; try discriminate.
    + unfold bind, get in E. destruct (subclass _ _) eqn:S; [|discriminate]. injection E as <- <-.
      assert (L := A _ eq_refl). unfold new_or, shape_ok. repeat split; auto; discriminate.
    + assert (Q : exists t', alloc KPoint2 None t' h = Ret h' v).
      { repeat (match type of E with context[match ?x with _ => _ end] => destruct x end); try discriminate; eauto. }
      destruct Q as (t' & Q). apply alloc_ret in Q as (-> & L & C & T & K).
      unfold new_or, shape_ok. rewrite C, L. repeat split; auto; try lia; try discriminate.
  - assert (E' : (let* v := as_variable None a in let* x := get v in
             if ndim (v_tensor x) =? 3 then ret v else raise ValueErr) h = Ret h' v) by (destruct a; auto; discriminate).
    clear E. apply bind_ret in E' as (h1 & v1 & E1 & E). apply as_variable_ret in E1 as (L1 & L2 & N1 & K1); auto.
    unfold bind at 1, get in E. destruct (_ =? 3) eqn:S; [|discriminate]. injection E as <- <-. apply Nat.eqb_eq in S.
    repeat split; auto; discriminate.
  - assert (E' : (let* v := as_variable None a in let* x := get v in
             if (ndim (v_tensor x) =? 1) || ((ndim (v_tensor x) =? 2) && (nth 1 (t_shape (v_tensor x)) 0 =? 1))
             then ret v else raise ValueErr) h = Ret h' v) by (destruct a; auto; discriminate).
    clear E. apply bind_ret in E' as (h1 & v1 & E1 & E). apply as_variable_ret in E1 as (L1 & L2 & N1 & K1); auto.
    unfold bind at 1, get in E. destruct (_ || _) eqn:S; [|discriminate]. injection E as <- <-.
    apply Bool.orb_true_iff in S. rewrite Bool.andb_true_iff, !Nat.eqb_eq in S.
    repeat split; auto; discriminate.
  - assert (Q : (exists u, a = AV u /\ h' = h /\ v = u) \/ exists nm t, alloc KVariable nm t h = Ret h' v).
    { destruct a; try discriminate; eauto. injection E as <- <-; eauto. }
    destruct Q as [(u & -> & -> & ->)|(nm & t & Q)].
    + assert (L := A _ eq_refl). unfold new_or, shape_ok. repeat split; auto; discriminate.
    + apply alloc_ret in Q as (-> & L & C & T & K). unfold new_or, shape_ok. rewrite L. repeat split; auto; try lia; discriminate.
  - assert (Q : (exists u, a = AV u /\ h' = h /\ v = u) \/ exists nm t, alloc KVector nm t h = Ret h' v).
    { destruct a; try discriminate; eauto. injection E as <- <-; eauto. }
    destruct Q as [(u & -> & -> & ->)|(nm & t & Q)].
    + assert (L := A _ eq_refl). unfold new_or, shape_ok. repeat split; auto; discriminate.
    + apply alloc_ret in Q as (-> & L & C & T & K). unfold new_or, shape_ok. rewrite L. repeat split; auto; try lia; discriminate.
  - apply bind_ret in E as (h1 & v1 & E1 & E). apply as_variable_ret in E1 as (L1 & L2 & N1 & K1); auto.
    unfold bind at 1, get in E. destruct (1 <? _); [discriminate|].
    apply bind_ret in E as (h2 & [] & E2 & E). destruct (all_pos _); [|discriminate]. injection E as <- <-.
    apply set_tensor_ret in E2 as (L3 & T & C & K2); auto.
    repeat split; try (rewrite ?L3; lia); try discriminate; auto.
    + unfold shape_ok. rewrite T. cbn. eauto.
    + intros u Lu Nu. rewrite K2 by auto. now apply K1.
  - apply bind_ret in E as (h1 & v1 & E1 & E). apply as_variable_ret in E1 as (L1 & L2 & N1 & K1); auto.
    unfold bind at 1, get in E. cbv zeta in E. destruct (negb _); [discriminate|].
    destruct (ndim (v_tensor (getv h1 v1)) =? 0) eqn:D0; [|destruct (ndim (v_tensor (getv h1 v1)) =? 1) eqn:D1].
    + apply bind_ret in E as (h2 & [] & E2 & E). injection E as <- <-.
      apply set_tensor_ret in E2 as (L3 & T & C & K2); auto.
      repeat split; try (rewrite ?L3; lia); try discriminate; auto.
      * unfold shape_ok. rewrite T. cbn. lia.
      * intros u Lu Nu. rewrite K2 by auto. now apply K1.
    + apply bind_ret in E as (h2 & [] & E2 & E). injection E as <- <-.
      apply set_tensor_ret in E2 as (L3 & T & C & K2); auto.
      repeat split; try (rewrite ?L3; lia); try discriminate; auto.
      * unfold shape_ok. rewrite T. cbn. lia.
      * intros u Lu Nu. rewrite K2 by auto. now apply K1.
    + injection E as <- <-. apply Nat.eqb_neq in D0, D1. unfold ndim in *.
      repeat split; try discriminate; auto. unfold shape_ok. lia.
  - apply bind_ret in E as (h1 & v1 & E1 & E). apply as_variable_ret in E1 as (L1 & L2 & N1 & K1); auto.
    unfold bind at 1, get in E. cbv zeta in E.
    destruct (negb _) eqn:D; [discriminate|]. destruct (negb (nth _ _ _ =? _)) eqn:Q; [discriminate|].
    apply bind_ret in E as (h2 & [] & E2 & E). destruct (chol_ok _); [|discriminate]. injection E as <- <-.
    apply set_tensor_ret in E2 as (L3 & T & C & K2); auto.
    apply Bool.negb_false_iff in D, Q. apply Nat.eqb_eq in Q. apply Bool.orb_true_iff in D. rewrite !Nat.eqb_eq in D.
    repeat split; try (rewrite ?L3; lia); try discriminate; auto.
    + unfold ndim in *. destruct D as [D|D]; rewrite D in T, Q; cbn in T; rewrite T; cbn; [now rewrite D | exact D].
    + unfold ndim in *. destruct D as [D|D]; rewrite D in T, Q; cbn in T; rewrite T; cbn in *; auto.
    + intros u Lu Nu. rewrite K2 by auto. now apply K1.
Qed.

(** all the preparations of a class *)
Definition prep_ids (args : list (string * arg)) (ps : list (string * prep)) : list nat :=
  flat_map (fun kp => match arg_of args (fst kp) with AV v => [v] | _ => [] end) ps.
Definition prepared (h h' : heap) (args : list (string * arg)) (kp : string * prep) (kv : string * nat) : Prop :=
  fst kv = fst kp /\ snd kv < List.length h' /\ shape_ok (snd kp) (getv h' (snd kv)) /\ new_or h (arg_of args (fst kp)) (snd kv) /\
  (snd kp = PKeep -> arg_of args (fst kp) = AV (snd kv) /\ getv h' (snd kv) = getv h (snd kv)).
Lemma preps_effect sn name vd b args ps : forall h h' l, NoDup (prep_ids args ps) ->
  (forall u, In u (prep_ids args ps) -> u < List.length h) ->
  run_preps sn name vd b args ps h = Ret h' l ->
  List.length h <= List.length h' /\ Forall2 (prepared h h' args) ps l /\
  (forall u, u < List.length h -> ~ In u (prep_ids args ps) -> getv h' u = getv h u).
Proof.
  induction ps as [|[k p] ps IH]; intros h h' l ND V E.
  { cbn in E. injection E as <- <-. auto. }
  cbn [Cc_model.run_preps] in E.
  apply bind_ret in E as (h1 & v & E1 & E). apply bind_ret in E as (h2 & l2 & E2 & E). injection E as <- <-.
  cbn [prep_ids flat_map fst] in ND, V. fold (prep_ids args ps) in ND, V.
  apply prep_effect in E1 as (Lv & L1 & N1 & S1 & K1 & P1).
  2:{ intros u Eu. apply V. rewrite Eu. now left. }
  assert (NDps : NoDup (prep_ids args ps)).
  { destruct (arg_of args k); auto; now inversion ND. }
  assert (NI : ~ In v (prep_ids args ps)).
  { destruct N1 as [N1|N1]; [rewrite N1 in ND; now inversion ND|].
    intros I. assert (v < List.length h) by (apply V; apply in_or_app; now right). lia. }
  apply IH in E2 as (L2 & F2 & K2); auto.
  2:{ intros u I. assert (u < List.length h) by (apply V; apply in_or_app; now right). lia. }
  split; [lia|]. split.
  - constructor.
    + unfold prepared; cbn [fst snd]. rewrite (K2 v Lv NI).
      split; [auto|]. split; [lia|]. split; [auto|]. split; [auto|]. exact P1.
    + apply (Forall2_weaken _ _ _ _ F2). intros kp kv I (A1 & A2 & A3 & A4 & A5). unfold prepared.
      split; [auto|]. split; [auto|]. split; [auto|]. split.
      * destruct A4 as [A4|A4]; [now left|]. right. lia.
      * intros P. destruct (A5 P) as [Q1 Q2]. split; auto. rewrite Q2.
        assert (I' : In (snd kv) (prep_ids args ps)).
        { unfold prep_ids. apply in_flat_map. exists kp. split; auto. rewrite Q1. now left. }
        apply K1; [apply V; apply in_or_app; now right|]. intros Eq. rewrite Eq in I'. contradiction.
  - intros u Lu Nu. cbn [prep_ids flat_map fst] in Nu. fold (prep_ids args ps) in Nu.
    rewrite K2; [apply K1; auto|lia|].
    + intros ->. apply Nu. destruct N1 as [N1|N1]; [rewrite N1; now left | lia].
    + intros I. apply Nu. apply in_or_app. now right.
Qed.
End Props.
