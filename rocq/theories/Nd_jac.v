(** C88: what numeric_jacobian returns. *)
From Coq Require Import Reals List Arith Bool ZArith Lra Lia.
From Verif Require Import Geo_spec Geo3_spec Geo4_spec RSum SE2_model SO3_model SE3_model Emb_model Emb_spec Nd_model Nd_spec Nd_props.
Import ListNotations.
Local Open Scope R_scope.

Lemma bind_Some : forall A B (e : option A) (f : A -> option B) y, bind e f = Some y -> exists x, e = Some x /\ f x = Some y.
Proof. intros A B [x|] f y H; [eauto|discriminate]. Qed.
Lemma mapM_Some : forall A B (f : A -> option B) l m, mapM f l = Some m -> Forall2 (fun x y => f x = Some y) l m.
Proof.
  intros A B f l. induction l as [|x l IH]; intros m H; cbn [mapM] in H; [injection H as <-; constructor|].
  apply bind_Some in H. destruct H as (y & E & H). apply bind_Some in H. destruct H as (r & E2 & H). injection H as <-. constructor; auto.
Qed.
Lemma F2_length : forall A B (P : A -> B -> Prop) l m, Forall2 P l m -> length l = length m.
Proof. induction 1; cbn; congruence. Qed.
Lemma F2_nth : forall A B (P : A -> B -> Prop) l m, Forall2 P l m -> forall i x y, nth_error l i = Some x -> nth_error m i = Some y -> P x y.
Proof.
  intros A B P l m H. induction H as [|a b l m Hab H IH]; intros [|i] x y X Y; cbn in *; try discriminate.
  - injection X as <-. injection Y as <-. exact Hab.
  - now apply (IH i).
Qed.
Lemma F2_nth_l : forall A B (P : A -> B -> Prop) l m, Forall2 P l m -> forall i x, nth_error l i = Some x -> exists y, nth_error m i = Some y /\ P x y.
Proof.
  intros A B P l m H. induction H as [|a b l m Hab H IH]; intros [|i] x X; cbn in *; try discriminate.
  - injection X as <-. eauto.
  - now apply (IH i).
Qed.
Lemma set_nth_err_same : forall A (l : list A) i v, (i < length l)%nat -> nth_error (set_nth l i v) i = Some v.
Proof. intros A l. induction l as [|x l IH]; intros [|i] v H; cbn in *; try lia; auto. apply IH. lia. Qed.
Lemma set_nth_err_other : forall A (l : list A) i j v, i <> j -> nth_error (set_nth l i v) j = nth_error l j.
Proof. intros A l. induction l as [|x l IH]; intros [|i] [|j] v H; cbn; try reflexivity; try congruence. apply IH. congruence. Qed.
Lemma delta_axis : forall n d t, (d < n)%nat -> set_nth (repeat 0 n) d t = axis n d t.
Proof.
  intros n d t H. unfold axis. apply nth_ext_R; [now rewrite set_nth_length, repeat_length, map_length, seq_length|].
  intros i Hi. rewrite set_nth_length, repeat_length in Hi.
  rewrite (nth_indep (map _ _) 0 ((fun i => if Nat.eqb i d then t else 0) 0%nat)) by now rewrite map_length, seq_length.
  rewrite (map_nth (fun i => if Nat.eqb i d then t else 0)), seq_nth by exact Hi. cbn [plus].
  destruct (Nat.eqb i d) eqn:E.
  - apply Nat.eqb_eq in E. subst. apply set_nth_same. now rewrite repeat_length.
  - apply Nat.eqb_neq in E. rewrite set_nth_other by congruence. apply nth_repeat.
Qed.
Lemma neg_axis : forall n d t, map Ropp (axis n d t) = axis n d (- t).
Proof. intros. unfold axis. rewrite map_map. apply map_ext. intro i. destruct (Nat.eqb i d); [reflexivity|apply Ropp_0]. Qed.

Lemma retract_moved : forall args k a d t b, nth_error args k = Some a -> ga_retract a (axis (ng_dof (ga_ng a)) d t) = Some b ->
  moved args k d t (set_nth args k b).
Proof.
  intros args k a d t b N H. unfold ga_retract in H. apply bind_Some in H. destruct H as (v & E & H). injection H as <-.
  assert (K : (k < length args)%nat) by (apply nth_error_Some; congruence).
  split; [apply set_nth_length|]. split; [intros m Hm; apply set_nth_err_other; congruence|].
  exists a, v. split; [exact N|]. split; [now apply set_nth_err_same|]. exact (mapM_Some _ _ _ _ _ E).
Qed.

Lemma bzip_nth : forall A B (l : list A) (m : list B) r, bzip l m = Some r ->
  forall b x y, of_batch r b = Some (x, y) -> of_batch l b = Some x /\ of_batch m b = Some y.
Proof.
  intros A B l m r H b x y O. unfold bzip in H. destruct (Nat.eqb (length l) (length m)) eqn:E.
  - apply Nat.eqb_eq in E. injection H as <-. destruct l as [|x0 [|x1 l]], m as [|y0 [|y1 m]]; try discriminate E.
    + destruct b; discriminate O.
    + cbn in O. injection O as <- <-. split; reflexivity.
    + cbn [combine of_batch] in O. unfold of_batch.
      change ((x0, y0) :: (x1, y1) :: combine l m) with (combine (x0 :: x1 :: l) (y0 :: y1 :: m)) in O.
      revert O. clear. generalize (x0 :: x1 :: l) (y0 :: y1 :: m). clear.
      induction b as [|b IH]; intros [|a l] [|c m] O; cbn in *; try discriminate.
      * injection O as <- <-. auto.
      * now apply IH.
  - assert (S : forall A' B' (f : A' -> B') (l' : list A') w, of_batch (map f l') b = Some w -> exists z, of_batch l' b = Some z /\ f z = w).
    { clear. intros A' B' f l' w O. destruct l' as [|z [|z' l']].
      - destruct b; discriminate O.
      - cbn in O. injection O as <-. exists z. auto.
      - cbn [map of_batch] in O. cbn [of_batch]. change (f z :: f z' :: map f l') with (map f (z :: z' :: l')) in O.
        rewrite nth_error_map in O. destruct (nth_error (z :: z' :: l') b) as [u|]; [|discriminate]. injection O as <-. eauto. }
    destruct l as [|x0 [|x1 l]].
    + destruct m as [|y0 [|y1 m]]; try discriminate. injection H as <-. destruct b; discriminate O.
    + injection H as <-. destruct (S _ _ _ _ _ O) as (z & Z1 & Z2). injection Z2 as <- <-. split; [reflexivity|exact Z1].
    + destruct m as [|y0 [|y1 m]]; try discriminate. injection H as <-.
      destruct (S _ _ (fun x => (x, y0)) (x0 :: x1 :: l) _ O) as (z & Z1 & Z2). injection Z2 as <- <-. split; [exact Z1|reflexivity].
Qed.

(** ** one column *)
Definition col_good (o : NGroup) (f : list garg -> option (list (elt (ng o)))) (args : list garg) (k : nat) (h : R) (j : jacT) (d : nat) : Prop :=
  exists am ap fm fp, moved args k d (- h) am /\ moved args k d h ap /\ f am = Some fm /\ f ap = Some fp /\
    (ng_dof o = j_r j \/ ng_dof o = 1%nat) /\
    forall b i, (b < j_b j)%nat -> (i < j_r j)%nat -> exists gm gp u, of_batch fm b = Some gm /\ of_batch fp b = Some gp /\
      local gm gp = Some u /\ j_at j b i d = ng_coord o u (if Nat.eqb (ng_dof o) 1 then 0%nat else i) / (2 * h).
Lemma of_batch_at : forall A (l : list A) b n, (b < n)%nat -> length l = n \/ length l = 1%nat ->
  exists x, of_batch l b = Some x.
Proof.
  intros A l b n Hb H. destruct l as [|x [|y l]]; cbn [length] in H; [lia|exists x; reflexivity|].
  cbn [of_batch]. destruct (nth_error (x :: y :: l) b) as [z|] eqn:E; [eauto|]. apply nth_error_None in E. cbn [length] in E. lia.
Qed.
Lemma step_good : forall o f args k a h j d j', nth_error args k = Some a -> (d < ng_dof (ga_ng a))%nat ->
  nj_step o f args k a h (Some j) d = Some j' ->
  j_b j' = j_b j /\ j_r j' = j_r j /\ j_c j' = j_c j /\ (forall b i c, c <> d -> j_at j' b i c = j_at j b i c) /\
  col_good o f args k h j' d.
Proof.
  intros o f args k a h j d j' N Hd H. unfold nj_step in H. cbn [bind] in H. cbv zeta in H. rewrite delta_axis in H by exact Hd. rewrite neg_axis in H.
  apply bind_Some in H. destruct H as (gp & Ep & H). apply bind_Some in H. destruct H as (gm & Em & H).
  apply bind_Some in H. destruct H as (fm & Fm & H). apply bind_Some in H. destruct H as (fp & Fp & H).
  apply bind_Some in H. destruct H as (diff & L & H). unfold set_column in H.
  set (m := map (map (fun x => x / (2 * h))) diff) in *.
  destruct ((Nat.eqb (length m) (j_b j) || Nat.eqb (length m) 1) && (Nat.eqb (ng_dof o) (j_r j) || Nat.eqb (ng_dof o) 1))%bool eqn:E; [|discriminate].
  injection H as <-. cbn [j_b j_r j_c j_at]. split; [reflexivity|]. split; [reflexivity|]. split; [reflexivity|].
  apply andb_true_iff in E. destruct E as [E1 E2]. apply orb_true_iff in E1, E2. rewrite !Nat.eqb_eq in E1, E2.
  split; [intros b i c Hc; replace (Nat.eqb c d) with false by (symmetry; now apply Nat.eqb_neq); reflexivity|].
  exists (set_nth args k gm), (set_nth args k gp), fm, fp.
  split; [eapply retract_moved; eassumption|]. split; [eapply retract_moved; eassumption|]. split; [exact Fm|]. split; [exact Fp|].
  split; [exact E2|]. cbn [j_b j_r j_at]. intros b i Hb Hi. rewrite Nat.eqb_refl.
  unfold ng_local in L. apply bind_Some in L. destruct L as (ps & Z & L). apply mapM_Some in L.
  pose proof (F2_length _ _ _ _ _ L) as Len. assert (Lm : length m = length ps) by (unfold m; now rewrite map_length).
  rewrite Lm in *.
  destruct (of_batch_at _ ps b (j_b j) Hb E1) as ((x, y) & Oxy).
  destruct (bzip_nth _ _ _ _ _ Z b x y Oxy) as [Ox Oy].
  exists x, y.
  assert (Q : exists bb, nth_error ps bb = Some (x, y) /\ bb = (if Nat.eqb (length ps) 1 then 0%nat else b)).
  { destruct ps as [|p [|p' ps]]; cbn [of_batch length Nat.eqb] in *.
    - destruct b; discriminate.
    - exists 0%nat. split; [exact Oxy|reflexivity].
    - exists b. split; [exact Oxy|reflexivity]. }
  destruct Q as (bb & Nb & <-).
  destruct (F2_nth_l _ _ _ _ _ L bb (x, y) Nb) as (row & Nr & Hrow). apply bind_Some in Hrow. destruct Hrow as (u & Lu & Hrow). injection Hrow as <-.
  exists u. split; [exact Ox|]. split; [exact Oy|]. split; [exact Lu|].
  assert (NM : nth bb m [] = map (fun x => x / (2 * h)) (map (ng_coord o u) (seq 0 (ng_dof o)))).
  { unfold m. apply nth_error_nth. rewrite nth_error_map, Nr. reflexivity. }
  rewrite NM. rewrite map_map.
  set (q := if Nat.eqb (ng_dof o) 1 then 0%nat else i).
  assert (Hq : (q < ng_dof o)%nat). { unfold q. destruct (Nat.eqb (ng_dof o) 1) eqn:E; [apply Nat.eqb_eq in E; lia|apply Nat.eqb_neq in E; lia]. }
  rewrite (nth_indep _ 0 ((fun x => ng_coord o u x / (2 * h)) 0%nat)) by now rewrite map_length, seq_length.
  rewrite (map_nth (fun x => ng_coord o u x / (2 * h))), seq_nth by exact Hq. reflexivity.
Qed.
Lemma fold_none : forall o f args k a h l, fold_left (nj_step o f args k a h) l None = None.
Proof. intros. induction l; cbn; auto. Qed.
Lemma col_good_ext : forall o f args k h j j' d, j_b j' = j_b j -> j_r j' = j_r j -> (forall b i, j_at j' b i d = j_at j b i d) ->
  col_good o f args k h j d -> col_good o f args k h j' d.
Proof.
  intros o f args k h j j' d B R0 A (am & ap & fm & fp & M1 & M2 & F1 & F2 & D & H).
  exists am, ap, fm, fp. rewrite B, R0. split; [exact M1|]. split; [exact M2|]. split; [exact F1|]. split; [exact F2|]. split; [exact D|].
  intros b i Hb Hi. destruct (H b i Hb Hi) as (gm & gp & u & X). exists gm, gp, u. rewrite A. exact X.
Qed.
Lemma fold_good : forall o f args k a h n s j j', nth_error args k = Some a -> (s + n <= ng_dof (ga_ng a))%nat ->
  fold_left (nj_step o f args k a h) (seq s n) (Some j) = Some j' ->
  j_b j' = j_b j /\ j_r j' = j_r j /\ j_c j' = j_c j /\ (forall b i c, (c < s)%nat -> j_at j' b i c = j_at j b i c) /\
  forall d, (s <= d < s + n)%nat -> col_good o f args k h j' d.
Proof.
  intros o f args k a h n. induction n as [|n IH]; intros s j j' N L H; cbn [seq fold_left] in H.
  - injection H as <-. split; [reflexivity|]. split; [reflexivity|]. split; [reflexivity|]. split; [reflexivity|]. intros d Hd. lia.
  - destruct (nj_step o f args k a h (Some j) s) as [j1|] eqn:E; [|rewrite fold_none in H; discriminate].
    destruct (step_good o f args k a h j s j1 N ltac:(lia) E) as (B1 & R1 & C1 & A1 & G1).
    destruct (IH (S s) j1 j' N ltac:(lia) H) as (B2 & R2 & C2 & A2 & G2).
    split; [congruence|]. split; [congruence|]. split; [congruence|].
    split; [intros b i c Hc; rewrite A2 by lia; apply A1; lia|].
    intros d Hd. destruct (Nat.eq_dec d s) as [->|D].
    + eapply col_good_ext; [exact B2|exact R2|intros b i; apply A2; lia|exact G1].
    + apply G2. lia.
Qed.
Lemma mapM_nth : forall A B (f : A -> option B) l m i x, mapM f l = Some m -> nth_error l i = Some x -> exists y, nth_error m i = Some y /\ f x = Some y.
Proof. intros A B f l m i x H N. exact (F2_nth_l _ _ _ _ _ (mapM_Some _ _ _ _ _ H) i x N). Qed.
Lemma list_max_spec : forall l, l <> [] -> In (list_max l) l /\ forall x, In x l -> (x <= list_max l)%nat.
Proof.
  intros l. induction l as [|a [|b l] IH]; intro H; [congruence| |].
  - cbn. rewrite Nat.max_0_r. split; [now left|]. intros x [->|[]]. lia.
  - destruct IH as [I J]; [discriminate|]. change (list_max (a :: b :: l)) with (Nat.max a (list_max (b :: l))). split.
    + destruct (Nat.max_spec a (list_max (b :: l))) as [[_ ->]|[_ ->]]; [right; exact I|now left].
    + intros x [->|Hx]; [lia|]. specialize (J x Hx). lia.
Qed.

(** One Jacobian per argument, of shape (largest batch, function_dim or dof, dof); column d is
    the difference local(f(minus), f(plus)) / (2 h), where only this argument is moved, by h along
    its axis d, and element b of the outputs is used for element b of the Jacobian. *)
Theorem C88_jacobian_entries : forall o f args function_dim h js, numeric_jacobian o f args function_dim h = Some js ->
  length js = length args /\
  forall k a, nth_error args k = Some a -> exists j, nth_error js k = Some j /\
    ((exists a', In a' args /\ length (ga_val a') = j_b j) /\ forall a', In a' args -> (length (ga_val a') <= j_b j)%nat) /\
    j_r j = rows_asked function_dim (ng_dof (ga_ng a)) /\ j_c j = ng_dof (ga_ng a) /\
    forall d, (d < ng_dof (ga_ng a))%nat ->
      exists am ap fm fp, moved args k d (- h) am /\ moved args k d h ap /\ f am = Some fm /\ f ap = Some fp /\
        (ng_dof o = j_r j \/ ng_dof o = 1%nat) /\
        forall b i, (b < j_b j)%nat -> (i < j_r j)%nat -> exists gm gp u, of_batch fm b = Some gm /\ of_batch fp b = Some gp /\
          local gm gp = Some u /\ j_at j b i d = ng_coord o u (if Nat.eqb (ng_dof o) 1 then 0%nat else i) / (2 * h).
Proof.
  intros o f args fd h js H. unfold numeric_jacobian in H. apply bind_Some in H. destruct H as (B & MB & H).
  split; [rewrite <- (F2_length _ _ _ _ _ (mapM_Some _ _ _ _ _ H)); apply seq_length|].
  intros k a N. assert (K : (k < length args)%nat) by (apply nth_error_Some; congruence).
  assert (S : nth_error (seq 0 (length args)) k = Some k).
  { rewrite (nth_error_nth' _ 0%nat) by now rewrite seq_length. now rewrite seq_nth. }
  destruct (mapM_nth _ _ _ _ _ _ _ H S) as (j & Nj & C). exists j. split; [exact Nj|].
  unfold nj_compute in C. rewrite N in C. cbn [bind] in C. cbv zeta in C.
  destruct (fold_good o f args k a h (ng_dof (ga_ng a)) 0 _ j N (Nat.le_refl _) C) as (B1 & R1 & C1 & _ & G).
  cbn [zeros3 j_b j_r j_c] in B1, R1, C1.
  assert (MX : args <> [] /\ B = list_max (map (fun a => length (ga_val a)) args)).
  { unfold max_batch in MB. destruct args; [discriminate|]. injection MB as <-. split; [discriminate|reflexivity]. }
  destruct MX as [NE ->].
  assert (NE' : map (fun a => length (ga_val a)) args <> []) by (destruct args; [congruence|discriminate]).
  destruct (list_max_spec _ NE') as [I J]. rewrite <- B1 in I, J.
  split; [split|].
  - apply in_map_iff in I. destruct I as (a' & E & I). exists a'. auto.
  - intros a' I'. apply J. apply in_map_iff. exists a'. auto.
  - split; [rewrite R1; unfold rows_asked; destruct fd as [[|n]|]; reflexivity|]. split; [exact C1|].
    intros d Hd. exact (G d (conj (Nat.le_0_l d) Hd)).
Qed.

(** No arguments: max() of an empty list raises. *)
Theorem C88_jacobian_no_args : forall o f fd h, numeric_jacobian o f [] fd h = None.
Proof. reflexivity. Qed.
(** function_dim = 0 is function_dim = None. *)
Theorem C88_jacobian_dim_zero : forall o f args h, numeric_jacobian o f args (Some 0%nat) h = numeric_jacobian o f args None h.
Proof. reflexivity. Qed.
(** An output whose dimension is neither the number of rows nor 1 raises. *)
Theorem C88_jacobian_wrong_dim : forall o f args function_dim h k a, nth_error args k = Some a -> (0 < ng_dof (ga_ng a))%nat ->
  ng_dof o <> rows_asked function_dim (ng_dof (ga_ng a)) -> ng_dof o <> 1%nat -> numeric_jacobian o f args function_dim h = None.
Proof.
  intros o f args fd h k a N P D1 D2. destruct (numeric_jacobian o f args fd h) as [js|] eqn:E; [|reflexivity]. exfalso.
  destruct (C88_jacobian_entries o f args fd h js E) as [_ H]. destruct (H k a N) as (j & _ & _ & R1 & _ & G).
  destruct (G 0%nat P) as (_ & _ & _ & _ & _ & _ & _ & _ & D & _). rewrite R1 in D. tauto.
Qed.
(** Refuted: a wrong number of rows always raises.  The derivative of a function with values in a
    group of dimension 1 is copied into however many rows were asked for: without function_dim, as
    many as the argument has degrees of freedom. *)
Theorem C88_jacobian_rows_refuted : forall o f args function_dim h js k a j, numeric_jacobian o f args function_dim h = Some js ->
  ng_dof o = 1%nat -> nth_error args k = Some a -> nth_error js k = Some j ->
  j_r j = rows_asked function_dim (ng_dof (ga_ng a)) /\
  forall b i i' d, (b < j_b j)%nat -> (i < j_r j)%nat -> (i' < j_r j)%nat -> (d < j_c j)%nat -> j_at j b i d = j_at j b i' d.
Proof.
  intros o f args fd h js k a j H O N Nj. destruct (C88_jacobian_entries o f args fd h js H) as [_ Q].
  destruct (Q k a N) as (j' & Nj' & _ & R1 & C1 & G). rewrite Nj in Nj'. injection Nj' as <-. split; [exact R1|].
  intros b i i' d Hb Hi Hi' Hd. rewrite C1 in Hd. destruct (G d Hd) as (am & ap & fm & fp & _ & _ & _ & _ & _ & X).
  destruct (X b i Hb Hi) as (gm & gp & u & A1 & A2 & A3 & A4). destruct (X b i' Hb Hi') as (gm' & gp' & u' & B1 & B2 & B3 & B4).
  rewrite A1 in B1. injection B1 as <-. rewrite A2 in B2. injection B2 as <-. rewrite A3 in B3. injection B3 as <-.
  rewrite A4, B4, O. reflexivity.
Qed.
