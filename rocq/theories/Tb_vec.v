(** C87: Vector, Point2 and Point3 on batches. *)
From Coq Require Import Reals List Arith Bool Lia Lra.
From Verif Require Import Geo_spec SE2_model Tb_model Tb_spec Tb_props.
Import ListNotations.
Local Open Scope R_scope.

Ltac picks := repeat match goal with
  | H : (?i < ?b)%nat |- context [pick ?b ?i] => rewrite (pick_id b i H) end.

(** + , - , * and / act item by item, a batch of size 1 being repeated; the
    result has the class of the left operand *)
Theorem C87_arith : forall u v c c' b1 b2 B d f g,
  holds u c b1 d f -> holds v c' b2 d g -> bcast b1 b2 B ->
  (exists w, v_add u v = Ok w /\ holds w c B d (fun i j => f (pick b1 i) j + g (pick b2 i) j)) /\
  (exists w, v_sub u v = Ok w /\ holds w c B d (fun i j => f (pick b1 i) j - g (pick b2 i) j)) /\
  (exists w, v_mul u (OVec v) = Ok w /\ holds w c B d (fun i j => f (pick b1 i) j * g (pick b2 i) j)) /\
  ((forall i j, (i < b2)%nat -> (j < d)%nat -> g i j <> 0) ->
   exists w, v_div u (OVec v) = Ok w /\ holds w c B d (fun i j => f (pick b1 i) j / g (pick b2 i) j)).
Proof.
  intros u v c c' b1 b2 B d f g Hu Hv HB. pose proof (holds_ten _ _ _ _ _ Hv) as Tv.
  assert (X : forall h, exists w, (let! t := ew2 h (tn u) (tn v) in construct (cls u) t) = Ok w /\
     holds w c B d (fun i j => h (f (pick b1 i) j) (g (pick b2 i) j))).
  { intro h. destruct (elementwise_ok h u v c (cls v) b1 b2 B d d d f g Hu Tv eq_refl HB (bcast_same d)) as (w & E & H).
    exists w. split; [exact E|]. eapply holds_ext; [exact H|]. intros i j Li Lj. cbv beta. picks. reflexivity. }
  split; [exact (X Rplus)|]. split; [exact (X Rminus)|]. split; [exact (X Rmult)|]. intros _. exact (X Rdiv).
Qed.

(** operands whose batch sizes differ and are both not 1, or whose numbers of
    components differ and are both not 1, are refused *)
Theorem C87_arith_raises : forall u v c c' b1 b2 d1 d2 f g,
  holds u c b1 d1 f -> holds v c' b2 d2 g ->
  (b1 <> b2 /\ b1 <> 1%nat /\ b2 <> 1%nat) \/ (d1 <> d2 /\ d1 <> 1%nat /\ d2 <> 1%nat) ->
  v_add u v = Err RuntimeErr /\ v_sub u v = Err RuntimeErr /\
  v_mul u (OVec v) = Err RuntimeErr /\ v_div u (OVec v) = Err RuntimeErr /\ v_dot u v = Err RuntimeErr /\
  v_mul u OOther = Err ValueErr /\ v_div u OOther = Err ValueErr.
Proof.
  intros u v c c' b1 b2 d1 d2 f g (_ & _ & _ & Su & _) (_ & _ & _ & Sv & _) H.
  assert (K : (forall B, ~ bcast b1 b2 B) \/ (forall D, ~ bcast d1 d2 D)) by (unfold bcast; destruct H; [left|right]; intros; lia).
  assert (X : forall h, ew2 h (tn u) (tn v) = Err RuntimeErr) by (intro h; exact (ew2_err2 h _ _ _ _ _ _ Su Sv K)).
  unfold v_add, v_compose_impl, v_sub, v_mul, v_div, v_dot. rewrite !X. repeat split; reflexivity.
Qed.

(** nothing checks that the operands have the same number of components: one
    component is added to all of them *)
Theorem C87_dof_refuted : forall u v c b f g, holds u c b 3 f -> holds v CVector b 1 g ->
  exists w, v_add u v = Ok w /\ vdof u <> vdof v /\ holds w c b 3 (fun i j => f i j + g i 0%nat).
Proof.
  intros u v c b f g Hu Hv.
  destruct (elementwise_ok Rplus u v c (cls v) b b b 3 1 3 f g Hu (holds_ten _ _ _ _ _ Hv) eq_refl (bcast_same b))
    as (w & E & H); [unfold bcast; lia|].
  exists w. split; [exact E|]. split; [rewrite (holds_dof _ _ _ _ _ Hu), (holds_dof _ _ _ _ _ Hv); lia|].
  eapply holds_ext; [exact H|]. intros i j Li Lj. cbv beta. picks. reflexivity.
Qed.

(** -u, abs(u), and products with a scalar tensor *)
Theorem C87_unary : forall u c b d f, holds u c b d f ->
  (exists w, v_neg u = Ok w /\ holds w c b d (fun i j => - f i j)) /\
  (exists w, v_abs u = Ok w /\ holds w c b d (fun i j => Rabs (f i j))) /\
  (forall s x, is0 s x -> exists w, v_mul u (OTen s) = Ok w /\ holds w c b d (fun i j => f i j * x)).
Proof.
  intros u c b d f (Cu & P2 & P3 & Hu).
  split; [|split].
  - unfold v_neg, v_inverse_impl, tneg. rewrite Cu. exact (construct_ok c _ b d _ (ew1_is2 Ropp _ _ _ _ Hu) P2 P3).
  - unfold v_abs. rewrite Cu. exact (construct_ok c _ b d _ (ew1_is2 Rabs _ _ _ _ Hu) P2 P3).
  - intros s x [Ss Es]. cbn [v_mul]. rewrite Cu. unfold ew2. destruct Hu as [Su Eu]. rewrite Su, Ss.
    cbn [bshape rev app bsh_r option_map rbind].
    apply construct_ok; [|exact P2|exact P3]. split; [reflexivity|]. intros i j Li Lj. cbn [at_].
    unfold clip. cbn [rev app clip_r]. fold (pick b i) (pick d j). picks. rewrite Eu, Es by assumption. reflexivity.
Qed.

Lemma sumf_ext : forall n f g, (forall k, (k < n)%nat -> f k = g k) -> sumf n f = sumf n g.
Proof. induction n as [|n IH]; intros f g H; cbn [sumf]; [reflexivity|]. rewrite (IH f g), (H n) by auto with arith. reflexivity. Qed.

(** products: dot, outer, self @ M, M @ self; bmm does not broadcast *)
Theorem C87_products : forall u v c c' b1 b2 B d d' f g,
  holds u c b1 d f -> holds v c' b2 d' g -> bcast b1 b2 B ->
  (d = d' -> exists t, v_dot u v = Ok t /\ is1 t B (fun i => sumf d (fun j => f (pick b1 i) j * g (pick b2 i) j))) /\
  (exists t, v_outer u v = Ok t /\ is3 t B d d' (fun i r s => f (pick b1 i) r * g (pick b2 i) s)) /\
  (forall M k m, is3 M b1 d k m ->
     exists t, v_matmul u (OTen M) = Ok t /\ is2 t b1 k (fun i s => sumf d (fun j => f i j * m i j s))) /\
  (forall M k m, is3 M b1 k d m ->
     exists t, v_rmatmul (OTen M) u = Ok t /\ is2 t b1 k (fun i s => sumf d (fun j => m i s j * f i j))) /\
  (forall M n k m, is3 M n d k m -> n <> b1 -> v_matmul u (OTen M) = Err RuntimeErr) /\
  (forall M n k m, is3 M n k d m -> n <> b1 -> v_rmatmul (OTen M) u = Err RuntimeErr) /\
  v_matmul u (OVec v) = Err ValueErr.
Proof.
  intros u v c c' b1 b2 B d d' f g Hu Hv HB.
  pose proof (holds_ten _ _ _ _ _ Hu) as Tu. pose proof (holds_ten _ _ _ _ _ Hv) as Tv.
  assert (Su := proj1 Tu). assert (Eu := proj2 Tu). assert (Sv := proj1 Tv). assert (Ev := proj2 Tv).
  split; [|split; [|split; [|split; [|split; [|split]]]]].
  - intros <-. destruct (ew2_is2 Rmult _ _ _ _ _ _ _ _ _ _ Tu Tv HB (bcast_same d)) as (t & E & St & Et).
    unfold v_dot. rewrite E. cbn [rbind]. eexists. split; [reflexivity|]. split; [cbn [sumlast shp]; rewrite St; reflexivity|].
    intros i Li. cbn [sumlast at_ app]. rewrite St. cbn [last]. apply sumf_ext. intros j Lj. rewrite Et by assumption. picks. reflexivity.
  - unfold v_outer.
    assert (A : is3 (unsq 2 (tn u)) b1 d 1 (fun i r _ => f i r)).
    { split; [cbn [unsq shp]; rewrite Su; reflexivity|]. intros i r s Li Lr Ls. cbn [unsq at_ firstn skipn app]. apply Eu; assumption. }
    assert (A' : is3 (unsq 1 (tn v)) b2 1 d' (fun i _ s => g i s)).
    { split; [cbn [unsq shp]; rewrite Sv; reflexivity|]. intros i r s Li Lr Ls. cbn [unsq at_ firstn skipn app]. apply Ev; assumption. }
    destruct (matmul_is3 _ _ _ _ _ _ _ _ _ _ A A' HB) as (t & E & H). exists t. split; [exact E|].
    eapply is3_ext; [exact H|]. intros i r s Li Lr Ls. cbn [sumf]. ring.
  - intros M k m [SM EM]. cbn [v_matmul]. rewrite SM. cbn [length Nat.eqb negb].
    unfold bmm. rewrite SM. cbn [unsq shp]. rewrite Su. cbn [firstn skipn app]. rewrite !Nat.eqb_refl. cbn [andb rbind].
    eexists. split; [reflexivity|]. unfold sq. cbn [shp nth]. cbn [Nat.eqb]. split; [reflexivity|].
    intros i s Li Ls. cbn [at_ firstn skipn app]. apply sumf_ext. intros j Lj. rewrite EM by assumption.
    cbn [unsq at_ firstn skipn app]. rewrite Eu by assumption. reflexivity.
  - intros M k m [SM EM]. cbn [v_rmatmul]. rewrite SM. cbn [length Nat.eqb negb].
    unfold bmm. rewrite SM. cbn [unsq shp]. rewrite Su. cbn [firstn skipn app]. rewrite !Nat.eqb_refl. cbn [andb rbind].
    eexists. split; [reflexivity|]. unfold sq. cbn [shp nth]. cbn [Nat.eqb]. split; [reflexivity|].
    intros i s Li Ls. cbn [at_ firstn skipn app]. apply sumf_ext. intros j Lj. rewrite EM by assumption.
    cbn [unsq at_ firstn skipn app]. rewrite Eu by assumption. reflexivity.
  - intros M n k m [SM _] N. cbn [v_matmul]. rewrite SM. cbn [length Nat.eqb negb].
    unfold bmm. rewrite SM. cbn [unsq shp]. rewrite Su. cbn [firstn skipn app].
    destruct (Nat.eqb_spec b1 n); [congruence|]. reflexivity.
  - intros M n k m [SM _] N. cbn [v_rmatmul]. rewrite SM. cbn [length Nat.eqb negb].
    unfold bmm. rewrite SM. cbn [unsq shp]. rewrite Su. cbn [firstn skipn app].
    destruct (Nat.eqb_spec n b1); [congruence|]. reflexivity.
  - reflexivity.
Qed.

(** norm(dim=1) is the Euclidean norm of each item; norm() is one number for the
    whole batch *)
Theorem C87_norm : forall u c b d f, holds u c b d f ->
  is1 (v_norm_rows u) b (fun i => sqrt (sumf d (fun j => f i j * f i j))) /\
  is0 (v_norm_all u) (sqrt (sumf b (fun i => sumf d (fun j => f i j * f i j)))).
Proof.
  intros u c b d f H. pose proof (holds_dof _ _ _ _ _ H) as D. pose proof (holds_batch _ _ _ _ _ H) as Bt.
  destruct (holds_ten _ _ _ _ _ H) as [_ E]. split.
  - split; [cbn; rewrite Bt; reflexivity|]. intros i Li. cbn [v_norm_rows at_ app]. rewrite D. f_equal. apply sumf_ext.
    intros j Lj. rewrite E by assumption. reflexivity.
  - split; [reflexivity|]. cbn [v_norm_all at_]. rewrite D, Bt. f_equal. apply sumf_ext. intros i Li. apply sumf_ext.
    intros j Lj. rewrite E by assumption. reflexivity.
Qed.
(** so norm() of a batch is not the norm of its items *)
Theorem C87_norm_refuted : exists u f, holds u CPoint2 2 2 f /\
  (forall i, (i < 2)%nat -> sqrt (sumf 2 (fun j => f i j * f i j)) = 5) /\
  exists x, is0 (v_norm_all u) x /\ x <> 5.
Proof.
  set (f := fun (i j : nat) => if (j =? 0)%nat then 3 else 4).
  set (u := Vc CPoint2 (T [2%nat; 2%nat] (fun i => match i with [a; b] => f a b | _ => 0 end))).
  exists u, f. assert (H : holds u CPoint2 2 2 f) by (repeat split; cbn; congruence).
  split; [exact H|]. split.
  - intros i _. cbn. replace (0 + 3 * 3 + 4 * 4) with (5 * 5) by ring. apply sqrt_square. lra.
  - eexists. split; [exact (proj2 (C87_norm _ _ _ _ _ H))|]. cbn. intro E.
    assert (X : sqrt (0 + (0 + 3 * 3 + 4 * 4) + (0 + 3 * 3 + 4 * 4)) * sqrt (0 + (0 + 3 * 3 + 4 * 4) + (0 + 3 * 3 + 4 * 4))
                = 0 + (0 + 3 * 3 + 4 * 4) + (0 + 3 * 3 + 4 * 4)) by (apply sqrt_sqrt; lra).
    rewrite E in X. lra.
Qed.

(** cat: the components of self followed by those of each argument, as a Vector *)
Fixpoint cat_fun (d : nat) (f : nat -> nat -> R) (l : list (nat * (nat -> nat -> R))) (i j : nat) : R :=
  match l with
  | [] => f i j
  | (e, g) :: l' => cat_fun (d + e) (fun i j => if (j <? d)%nat then f i j else g i (j - d)%nat) l' i j
  end.
Fixpoint cat_dof (d : nat) (l : list (nat * (nat -> nat -> R))) : nat :=
  match l with [] => d | (e, _) :: l' => cat_dof (d + e) l' end.
Lemma cat1_is2 : forall vs l a b d f, is2 a b d f ->
  Forall2 (fun v x => is2 (tn v) b (fst x) (snd x)) vs l ->
  exists t, cat1 a (map tn vs) = Ok t /\ is2 t b (cat_dof d l) (cat_fun d f l).
Proof.
  induction vs as [|v vs IH]; intros l a b d f Ha HF; inversion HF as [|? x ? l' Hx Hl]; subst; cbn [map].
  - exists a. split; [reflexivity|exact Ha].
  - destruct x as [e g]. cbn [fst snd] in Hx. destruct (cat_is2 _ _ _ _ _ _ _ Ha Hx) as (t & E & Ht).
    cbn [cat1] in E |- *. rewrite (proj1 Ha), (proj1 Hx), Nat.eqb_refl in E |- *. injection E as E. rewrite E.
    exact (IH l' t b (d + e)%nat _ Ht Hl).
Qed.
Theorem C87_cat : forall u c b d f vs l, holds u c b d f ->
  Forall2 (fun v x => exists c', holds v c' b (fst x) (snd x)) vs l ->
  exists w, v_cat u vs = Ok w /\ holds w CVector b (cat_dof d l) (cat_fun d f l).
Proof.
  intros u c b d f vs l Hu HF.
  destruct (cat1_is2 vs l (tn u) b d f (holds_ten _ _ _ _ _ Hu)) as (t & E & Ht).
  { clear Hu. induction HF as [|v x vs l [c' H] _ IH]; constructor; [exact (holds_ten _ _ _ _ _ H)|exact IH]. }
  unfold v_cat. rewrite E. cbn [rbind]. apply construct_ok; [exact Ht|discriminate|discriminate].
Qed.
(** with one argument: components below d come from self, the others from it *)
Theorem C87_cat_two : forall u v c c' b d e f g, holds u c b d f -> holds v c' b e g ->
  exists w, v_cat u [v] = Ok w /\ cls w = CVector /\
    holds w CVector b (d + e) (fun i j => if (j <? d)%nat then f i j else g i (j - d)%nat).
Proof.
  intros u v c c' b d e f g Hu Hv.
  destruct (C87_cat u c b d f [v] [(e, g)] Hu) as (w & E & H); [constructor; [exists c'; exact Hv|constructor]|].
  exists w. split; [exact E|]. split; [exact (proj1 H)|]. exact H.
Qed.
(** cat does not broadcast: the batch sizes must be equal *)
Theorem C87_cat_raises : forall u v c c' b b' d e f g, holds u c b d f -> holds v c' b' e g -> b <> b' ->
  forall vs, v_cat u (v :: vs) = Err RuntimeErr.
Proof.
  intros u v c c' b b' d e f g (_ & _ & _ & Su & _) (_ & _ & _ & Sv & _) N vs. unfold v_cat. cbn [map cat1].
  rewrite Su, Sv. destruct (Nat.eqb_spec b b'); [congruence|reflexivity].
Qed.

(** constructors: a tensor with one dimension becomes a batch of one; Point2 and
    Point3 refuse tensors with another number of columns; more dimensions are
    refused *)
Theorem C87_construct : forall t,
  (forall n f, is1 t n f -> exists v, construct CVector t = Ok v /\ holds v CVector 1 n (fun _ j => f j)) /\
  (forall f, is1 t 2 f -> exists v, construct CPoint2 t = Ok v /\ holds v CPoint2 1 2 (fun _ j => f j)) /\
  (forall f, is1 t 3 f -> exists v, construct CPoint3 t = Ok v /\ holds v CPoint3 1 3 (fun _ j => f j)) /\
  (forall b d f, is2 t b d f -> exists v, construct CVector t = Ok v /\ holds v CVector b d f) /\
  (forall b f, is2 t b 2 f -> exists v, construct CPoint2 t = Ok v /\ holds v CPoint2 b 2 f) /\
  (forall b f, is2 t b 3 f -> exists v, construct CPoint3 t = Ok v /\ holds v CPoint3 b 3 f) /\
  (forall b d f, is2 t b d f -> (d <> 2%nat -> construct CPoint2 t = Err ValueErr) /\
                                (d <> 3%nat -> construct CPoint3 t = Err ValueErr)) /\
  ((3 <= length (shp t))%nat -> forall c, construct c t = Err ValueErr).
Proof.
  intro t.
  assert (V1 : forall n f, is1 t n f -> is2 (view1 t n) 1 n (fun _ j => f j)).
  { intros n f [S E]. split; [reflexivity|]. intros i j Li Lj. cbn [view1 at_ tl]. apply E. exact Lj. }
  split; [|split; [|split; [|split; [|split; [|split; [|split]]]]]].
  - intros n f H. exists (Vc CVector (view1 t n)). split.
    + unfold construct, vector_init. cbn [class_dof]. rewrite (proj1 H). reflexivity.
    + repeat split; cbn; try congruence. apply (V1 n f H).
  - intros f H. exists (Vc CPoint2 (view1 t 2)). split.
    + unfold construct, prepare. cbn [class_dof]. rewrite (proj1 H). reflexivity.
    + repeat split; cbn; try congruence. apply (V1 2%nat f H).
  - intros f H. exists (Vc CPoint3 (view1 t 3)). split.
    + unfold construct, prepare. cbn [class_dof]. rewrite (proj1 H). reflexivity.
    + repeat split; cbn; try congruence. apply (V1 3%nat f H).
  - intros b d f H. apply construct_ok; [exact H|discriminate|discriminate].
  - intros b f H. apply construct_ok; [exact H|reflexivity|discriminate].
  - intros b f H. apply construct_ok; [exact H|discriminate|reflexivity].
  - intros b d f [S _]. unfold construct, prepare. cbn [class_dof]. rewrite S. split; intro N.
    + destruct (Nat.eqb_spec d 2); [congruence|reflexivity].
    + destruct (Nat.eqb_spec d 3); [congruence|reflexivity].
  - intros L c. destruct (shp t) as [|a [|b [|d l]]] eqn:S; cbn in L; try lia.
    unfold construct, prepare, vector_init. destruct c; cbn [class_dof]; rewrite S; [reflexivity| |].
    + destruct (b =? 2)%nat; [|reflexivity]. cbn [rbind]. rewrite S. reflexivity.
    + destruct (b =? 3)%nat; [|reflexivity]. cbn [rbind]. rewrite S. reflexivity.
Qed.

(** ** the group operations of vectors, with their Jacobians *)
Lemma delta_neg_delta : forall d r c, (r < d)%nat -> (c < d)%nat ->
  sumf d (fun k => delta r k * - delta k c) = - delta r c.
Proof.
  intros d r c Lr Lc.
  assert (X : forall l, sumf l (fun k => delta r k * - delta k c) = if (r <? l)%nat then - delta r c else 0).
  { induction l as [|l IH]; cbn [sumf]; [reflexivity|]. rewrite IH. unfold delta.
    destruct (Nat.ltb_spec r l), (Nat.ltb_spec r (S l)), (Nat.eqb_spec r l); try lia; try ring.
    subst. ring. }
  rewrite X. destruct (Nat.ltb_spec r d); [reflexivity|lia].
Qed.
Lemma neg_delta_delta : forall d r c, (r < d)%nat -> (c < d)%nat ->
  sumf d (fun k => - delta r k * delta k c) = - delta r c.
Proof. intros. rewrite <- (delta_neg_delta d r c) by assumption. apply sumf_ext. intros. ring. Qed.

Theorem C87_vector_group : forall u v c c' b1 b2 B d f g,
  holds u c b1 d f -> holds v c' b2 d g -> bcast b1 b2 B ->
  (exists w j0 j1, compose vec_group u v (Some []) = Ok (w, Some [j0; j1]) /\
     holds w c B d (fun i j => f (pick b1 i) j + g (pick b2 i) j) /\
     is3 j0 b1 d d (fun _ r s => delta r s) /\ is3 j1 b1 d d (fun _ r s => delta r s)) /\
  (exists w j0, inverse vec_group u (Some []) = Ok (w, Some [j0]) /\
     holds w c b1 d (fun i j => - f i j) /\ is3 j0 b1 d d (fun _ r s => - delta r s)) /\
  (exists w j0 j1, between vec_group u v (Some []) = Ok (w, Some [j0; j1]) /\
     holds w c B d (fun i j => g (pick b2 i) j - f (pick b1 i) j) /\
     is3 j0 b1 d d (fun _ r s => - delta r s) /\ is3 j1 b1 d d (fun _ r s => delta r s)) /\
  (exists t j0 j1, local vec_group v_log u v (Some []) = Ok (t, Some [j0; j1]) /\
     is2 t B d (fun i j => g (pick b2 i) j - f (pick b1 i) j) /\
     is3 j0 B d d (fun _ r s => - delta r s) /\ is3 j1 B d d (fun _ r s => delta r s)) /\
  (forall J l, compose vec_group u v (Some (J :: l)) = Err ValueErr /\
     inverse vec_group u (Some (J :: l)) = Err ValueErr /\
     between vec_group u v (Some (J :: l)) = Err ValueErr /\
     local vec_group v_log u v (Some (J :: l)) = Err ValueErr).
Proof.
  intros u v c c' b1 b2 B d f g Hu Hv HB.
  assert (Du := holds_dof _ _ _ _ _ Hu). assert (Bu := holds_batch _ _ _ _ _ Hu).
  destruct (C87_arith u v c c' b1 b2 B d f g Hu Hv HB) as ((w & Ew & Hw) & _). unfold v_add in Ew.
  destruct (C87_unary u c b1 d f Hu) as ((n & En & Hn) & _). unfold v_neg in En.
  assert (Dn := holds_dof _ _ _ _ _ Hn). assert (Bn := holds_batch _ _ _ _ _ Hn).
  destruct (C87_arith n v c c' b1 b2 B d _ g Hn Hv HB) as ((m & Em & Hm) & _). unfold v_add in Em. cbv beta in Hm.
  assert (Dm := holds_dof _ _ _ _ _ Hm). assert (Bm := holds_batch _ _ _ _ _ Hm).
  destruct (C87_unary m c B d _ Hm) as ((mi & Emi & Hmi) & _). unfold v_neg in Emi.
  assert (Dmi := holds_dof _ _ _ _ _ Hmi). assert (Bmi := holds_batch _ _ _ _ _ Hmi).
  destruct (matmul_is3 (eye_rep d b1) (tneg (eye_rep d b1)) b1 b1 b1 d d d _ _ (eye_is3 d b1)
      (neg_is3 _ _ _ _ _ (eye_is3 d b1)) (bcast_same b1)) as (j0 & E0 & H0).
  destruct (matmul_is3 (tneg (eye_rep d B)) (eye_rep d B) B B B d d d _ _
      (neg_is3 _ _ _ _ _ (eye_is3 d B)) (eye_is3 d B) (bcast_same B)) as (j1 & E1 & H1).
  split; [|split; [|split; [|split]]].
  - exists w, (eye_rep d b1), (eye_rep d b1). split; [|split; [exact Hw|split; apply eye_is3]].
    unfold compose. cbn [vec_group g_cmp g_cjac]. rewrite Ew. cbn [rbind jextend v_cjac fst snd]. rewrite Du, Bu. reflexivity.
  - exists n, (tneg (eye_rep d b1)). split; [|split; [exact Hn|apply neg_is3, eye_is3]].
    unfold inverse. cbn [vec_group g_inv]. rewrite En. cbn [rbind jextend inverse_jacobian vec_group g_adj v_adjoint].
    unfold inverse_jacobian. cbn [vec_group g_adj v_adjoint rbind]. rewrite Du, Bu. reflexivity.
  - exists m, j0, (eye_rep d b1). split; [|split; [|split; [|apply eye_is3]]].
    + unfold between. cbn [vec_group g_inv g_cmp g_cjac]. rewrite En. cbn [rbind]. rewrite Em. cbn [rbind jextend v_cjac fst snd].
      unfold inverse_jacobian. cbn [vec_group g_adj v_adjoint rbind]. rewrite Du, Bu, Dn, Bn, E0. reflexivity.
    + eapply holds_ext; [exact Hm|]. intros. cbv beta. ring.
    + eapply is3_ext; [exact H0|]. intros i r s Li Lr Ls. cbv beta. apply delta_neg_delta; assumption.
  - exists (tn m), j1, (eye_rep d B). split; [|split; [|split; [|apply eye_is3]]].
    + unfold local, between, inverse. cbn [vec_group g_inv g_cmp g_cjac]. rewrite En. cbn [rbind]. rewrite Em.
      cbn [rbind jextend v_log fst snd]. rewrite Emi. cbn [rbind g_adj vec_group v_adjoint]. rewrite Dmi, Bmi, Dm, Bm, E1. reflexivity.
    + eapply is2_ext; [exact (holds_ten _ _ _ _ _ Hm)|]. intros. cbv beta. ring.
    + eapply is3_ext; [exact H1|]. intros i r s Li Lr Ls. cbv beta. apply neg_delta_delta; assumption.
  - intros J l. unfold local, between, compose, inverse. cbn [vec_group g_inv g_cmp]. rewrite Ew, En. cbn [rbind]. rewrite Em.
    cbn [rbind jextend]. repeat split; reflexivity.
Qed.

(** local and retract undo each other, also when one side is a batch of one *)
Theorem C87_vector_retract : forall u c b1 b2 B d f, holds u c b1 d f -> bcast b1 b2 B ->
  (forall delta e, is2 delta b2 d e -> exists w t, v_retract u delta = Ok w /\ cls w = c /\
     local vec_group v_log u w None = Ok (t, None) /\ is2 t B d (fun i j => e (pick b2 i) j)) /\
  (forall v c' g, holds v c' b2 d g -> exists t w, local vec_group v_log u v None = Ok (t, None) /\
     v_retract u t = Ok w /\ holds w c B d (fun i j => g (pick b2 i) j)).
Proof.
  intros u c b1 b2 B d f Hu HB. split.
  - intros dl e He.
    destruct (elementwise_ok Rplus u (Vc CVector dl) c CVector b1 b2 B d d d f e Hu He eq_refl HB (bcast_same d)) as (w & Ew & Hw).
    cbn [tn] in Ew. destruct (C87_vector_group u w c c b1 B B d f _ Hu Hw (bcast_l _ _ _ HB)) as (_ & _ & _ & (t & j0 & j1 & E & Ht & _) & _).
    exists w, t. split; [exact Ew|]. split; [exact (proj1 Hw)|]. split.
    + revert E. unfold local, inverse. destruct (between vec_group u w None) as [[df x]|e']; cbn [rbind]; [|discriminate].
      cbn [jextend]. intro E. destruct (g_inv vec_group df) as [gi|]; cbn [rbind] in E |- *; [|discriminate].
      destruct (g_adj vec_group gi) as [a|]; cbn [rbind] in E |- *; [|discriminate].
      destruct (matmul3 _ _) as [mm|]; cbn [rbind] in E |- *; [|discriminate]. injection E as E _ _. cbn [v_log fst snd] in *. rewrite E. reflexivity.
    + eapply is2_ext; [exact Ht|]. intros i j Li Lj. cbv beta. picks. ring.
  - intros v c' g Hv.
    destruct (C87_vector_group u v c c' b1 b2 B d f g Hu Hv HB) as (_ & _ & _ & (t & j0 & j1 & E & Ht & _) & _).
    destruct (elementwise_ok Rplus u (Vc CVector t) c CVector b1 B B d d d f _ Hu Ht eq_refl (bcast_l _ _ _ HB) (bcast_same d)) as (w & Ew & Hw).
    exists t, w. split; [|split; [exact Ew|]].
    + revert E. unfold local, inverse. destruct (between vec_group u v None) as [[df x]|e']; cbn [rbind]; [|discriminate].
      cbn [jextend]. intro E. destruct (g_inv vec_group df) as [gi|]; cbn [rbind] in E |- *; [|discriminate].
      destruct (g_adj vec_group gi) as [a|]; cbn [rbind] in E |- *; [|discriminate].
      destruct (matmul3 _ _) as [mm|]; cbn [rbind] in E |- *; [|discriminate]. injection E as E _ _. cbn [v_log fst snd] in *. rewrite E. reflexivity.
    + eapply holds_ext; [exact Hw|]. intros i j Li Lj. cbv beta. picks. ring.
Qed.

(** the Jacobians of compose and between have self's batch size, not the result's *)
Theorem C87_compose_jac_batch_refuted : forall u v c c' b2 d f g,
  holds u c 1 d f -> holds v c' b2 d g -> (2 <= b2)%nat ->
  exists w j0 j1, compose vec_group u v (Some []) = Ok (w, Some [j0; j1]) /\ vbatch w = b2 /\
    nth 0 (shp j0) 0%nat = 1%nat /\ nth 0 (shp j1) 0%nat = 1%nat.
Proof.
  intros u v c c' b2 d f g Hu Hv L.
  destruct (C87_vector_group u v c c' 1 b2 b2 d f g Hu Hv) as ((w & j0 & j1 & E & Hw & [S0 _] & [S1 _]) & _); [unfold bcast; lia|].
  exists w, j0, j1. split; [exact E|]. split; [exact (holds_batch _ _ _ _ _ Hw)|]. rewrite S0, S1. split; reflexivity.
Qed.

(** exp_map and log_map copy; project returns the gradient when its last
    dimensions are those of the vector *)
Theorem C87_exp_log : forall c t b d f, is2 t b d f -> (c = CPoint2 -> d = 2%nat) -> (c = CPoint3 -> d = 3%nat) ->
  (exists v j, v_exp c t (Some []) = Ok (v, Some [j]) /\ holds v c b d f /\ is3 j b d d (fun _ r s => delta r s) /\
     is2 (fst (v_log v)) b d f /\ is3 (snd (v_log v)) b d d (fun _ r s => delta r s)) /\
  (forall J l, v_exp c t (Some (J :: l)) = Err ValueErr).
Proof.
  intros c t b d f H P2 P3. destruct (construct_ok c t b d f H P2 P3) as (v & E & Hv).
  assert (X : (match class_dof c with None => true | Some e => (d =? e)%nat end) = true).
  { destruct c; cbn [class_dof]; [reflexivity|rewrite (P2 eq_refl); reflexivity|rewrite (P3 eq_refl); reflexivity]. }
  split.
  - exists v, (eye_rep d b). split; [unfold v_exp; rewrite (proj1 H), X; cbn [jextend rbind]; rewrite E; reflexivity|].
    split; [exact Hv|]. split; [apply eye_is3|]. split; [exact (holds_ten _ _ _ _ _ Hv)|].
    cbn [v_log snd]. rewrite (holds_dof _ _ _ _ _ Hv), (holds_batch _ _ _ _ _ Hv). apply eye_is3.
  - intros J l. unfold v_exp. rewrite (proj1 H), X. reflexivity.
Qed.
Theorem C87_project : forall u c b d f grad s, holds u c b d f ->
  (v_project u grad s = Ok grad <-> exists l, shp grad = l ++ (if s then [d] else [b; d])) /\
  (v_project u grad s = Ok grad \/ v_project u grad s = Err ValueErr).
Proof.
  intros u c b d f grad s H. pose proof (proj1 (holds_ten _ _ _ _ _ H)) as Su. unfold v_project.
  replace (skipn (2 - (if s then 1 else 2)) (shp (tn u))) with (if s then [d] else [b; d]) by (rewrite Su; destruct s; reflexivity).
  destruct (list_eq_dec _ _ _) as [E|E].
  - split; [|left; reflexivity]. split; [intros _|reflexivity].
    exists (firstn (length (shp grad) - (if s then 1 else 2)) (shp grad)). rewrite <- E. symmetry. apply firstn_skipn.
  - split; [|right; reflexivity]. split; [discriminate|]. intros (l & El). exfalso. apply E. rewrite El, app_length.
    replace (length l + length (if s then [d] else [b; d]) - (if s then 1 else 2))%nat with (length l) by (destruct s; cbn; lia).
    rewrite skipn_app, skipn_all, Nat.sub_diag. reflexivity.
Qed.

(** ---- the hypotheses are met ---- *)
Example C87_example :
  let u := Vc CPoint2 (T [1%nat; 2%nat] (fun i => match i with [_; j] => if (j =? 0)%nat then 1 else 2 | _ => 0 end)) in
  let v := Vc CVector (T [3%nat; 2%nat] (fun i => match i with [k; _] => INR k | _ => 0 end)) in
  holds u CPoint2 1 2 (fun _ j => if (j =? 0)%nat then 1 else 2) /\ holds v CVector 3 2 (fun i _ => INR i) /\ bcast 1 3 3 /\
  exists w, v_add u v = Ok w /\ at_ (tn w) [2%nat; 1%nat] = 4.
Proof.
  cbv zeta. match goal with |- holds ?u _ _ _ ?f /\ holds ?v _ _ _ ?g /\ _ => 
    assert (Hu : holds u CPoint2 1 2 f) by (repeat split; cbn; congruence);
    assert (Hv : holds v CVector 3 2 g) by (repeat split; cbn; congruence) end.
  split; [exact Hu|]. split; [exact Hv|]. assert (K : bcast 1 3 3) by (unfold bcast; lia). split; [exact K|].
  destruct (C87_arith _ _ _ _ _ _ _ _ _ _ Hu Hv K) as ((w & E & _ & _ & _ & _ & H) & _). exists w. split; [exact E|].
  rewrite H by lia. cbn. lra.
Qed.
