(** C87, proofs: what each tensor operation returns. *)
From Coq Require Import Reals List Arith Bool Lia Lra.
From Verif Require Import Geo_spec SE2_model Tb_model Tb_spec.
Import ListNotations.
Local Open Scope R_scope.

Lemma pick_id : forall b i, (i < b)%nat -> pick b i = i.
Proof. intros b i H. unfold pick. destruct (Nat.eqb_spec b 1); lia. Qed.
Lemma pick_lt : forall b1 b2 B i, bcast b1 b2 B -> (i < B)%nat -> (pick b1 i < b1)%nat.
Proof. intros b1 b2 B i H L. unfold pick, bcast in *. destruct (Nat.eqb_spec b1 1); lia. Qed.
Lemma bcast_sym : forall a b B, bcast a b B -> bcast b a B.
Proof. unfold bcast. intros; lia. Qed.
Lemma bcast_same : forall b, bcast b b b.
Proof. unfold bcast. intros; lia. Qed.
Lemma bcast_l : forall a b B, bcast a b B -> bcast a B B.
Proof. unfold bcast. intros; lia. Qed.
Lemma bcast_r : forall a b B, bcast a b B -> bcast B b B.
Proof. unfold bcast. intros; lia. Qed.
Lemma bcast_max : forall a b B, bcast a b B -> (1 <= a)%nat -> (1 <= b)%nat -> Nat.max a b = B.
Proof. unfold bcast. intros; lia. Qed.
Lemma bcast_fun : forall a b B B', bcast a b B -> bcast a b B' -> B = B'.
Proof. unfold bcast. intros; lia. Qed.
Lemma bdim_some : forall a b B, bcast a b B -> bdim a b = Some B.
Proof.
  unfold bcast, bdim. intros a b B H. destruct (Nat.eqb_spec a b); [f_equal; lia|].
  destruct (Nat.eqb_spec a 1); [f_equal; lia|]. destruct (Nat.eqb_spec b 1); [f_equal; lia|lia].
Qed.
Lemma bdim_none : forall a b, (forall B, ~ bcast a b B) -> bdim a b = None.
Proof.
  unfold bcast, bdim. intros a b H. destruct (Nat.eqb_spec a b); [exfalso; apply (H a); lia|].
  destruct (Nat.eqb_spec a 1); [exfalso; apply (H b); lia|]. destruct (Nat.eqb_spec b 1); [exfalso; apply (H a); lia|reflexivity].
Qed.
Lemma bcast_dec : forall a b, (exists B, bcast a b B) \/ (forall B, ~ bcast a b B).
Proof.
  intros a b. destruct (Nat.eq_dec a b); [left; exists a; unfold bcast; lia|].
  destruct (Nat.eq_dec a 1); [left; exists b; unfold bcast; lia|].
  destruct (Nat.eq_dec b 1); [left; exists a; unfold bcast; lia|]. right. unfold bcast; lia.
Qed.

(** ** elementwise operations *)
Lemma ew2_is1 : forall h a b n m k f g, is1 a n f -> is1 b m g -> bcast n m k ->
  exists t, ew2 h a b = Ok t /\ is1 t k (fun i => h (f (pick n i)) (g (pick m i))).
Proof.
  intros h a b n m k f g [Sa Ea] [Sb Eb] K. unfold ew2. rewrite Sa, Sb. unfold bshape. cbn [rev app bsh_r option_map].
  rewrite (bdim_some _ _ _ K). cbn [option_map rev app]. eexists. split; [reflexivity|]. split; [reflexivity|].
  intros i L. cbn [at_]. unfold clip. cbn [rev app clip_r]. fold (pick n i) (pick m i).
  rewrite Ea, Eb by (eauto using pick_lt, bcast_sym). reflexivity.
Qed.
Lemma ew2_is2 : forall h a b n m k d e q f g, is2 a n d f -> is2 b m e g -> bcast n m k -> bcast d e q ->
  exists t, ew2 h a b = Ok t /\ is2 t k q (fun i j => h (f (pick n i) (pick d j)) (g (pick m i) (pick e j))).
Proof.
  intros h a b n m k d e q f g [Sa Ea] [Sb Eb] K K'. unfold ew2. rewrite Sa, Sb. unfold bshape. cbn [rev app bsh_r option_map].
  rewrite (bdim_some _ _ _ K), (bdim_some _ _ _ K'). cbn [option_map rev app]. eexists. split; [reflexivity|]. split; [reflexivity|].
  intros i j L L'. cbn [at_]. unfold clip. cbn [rev app clip_r]. fold (pick n i) (pick m i) (pick d j) (pick e j).
  rewrite Ea, Eb by (eauto using pick_lt, bcast_sym). reflexivity.
Qed.
Lemma ew2_err2 : forall h a b n m d e, shp a = [n; d] -> shp b = [m; e] ->
  (forall B, ~ bcast n m B) \/ (forall D, ~ bcast d e D) -> ew2 h a b = Err RuntimeErr.
Proof.
  intros h a b n m d e Sa Sb H. unfold ew2. rewrite Sa, Sb. unfold bshape. cbn [rev app bsh_r option_map].
  destruct H as [H|H]; rewrite (bdim_none _ _ H); [destruct (bdim d e); reflexivity|reflexivity].
Qed.
Lemma is1_ext : forall t n f g, is1 t n f -> (forall i, (i < n)%nat -> f i = g i) -> is1 t n g.
Proof. intros t n f g [S E] H. split; [exact S|]. intros. rewrite E; auto. Qed.
Lemma is2_ext : forall t n d f g, is2 t n d f -> (forall i j, (i < n)%nat -> (j < d)%nat -> f i j = g i j) -> is2 t n d g.
Proof. intros t n d f g [S E] H. split; [exact S|]. intros. rewrite E; auto. Qed.
Lemma is3_ext : forall t n p q f g, is3 t n p q f ->
  (forall i r c, (i < n)%nat -> (r < p)%nat -> (c < q)%nat -> f i r c = g i r c) -> is3 t n p q g.
Proof. intros t n p q f g [S E] H. split; [exact S|]. intros. rewrite E; auto. Qed.
Lemma ew1_is1 : forall h a n f, is1 a n f -> is1 (ew1 h a) n (fun i => h (f i)).
Proof. intros h a n f [S E]. split; [exact S|]. intros. cbn [ew1 at_]. rewrite E; auto. Qed.
Lemma ew1_is2 : forall h a n d f, is2 a n d f -> is2 (ew1 h a) n d (fun i j => h (f i j)).
Proof. intros h a n d f [S E]. split; [exact S|]. intros. cbn [ew1 at_]. rewrite E; auto. Qed.
Lemma ew1_is3 : forall h a n p q f, is3 a n p q f -> is3 (ew1 h a) n p q (fun i r c => h (f i r c)).
Proof. intros h a n p q f [S E]. split; [exact S|]. intros. cbn [ew1 at_]. rewrite E; auto. Qed.
Lemma neg_is1 : forall a n f, is1 a n f -> is1 (tneg a) n (fun i => - f i).
Proof. intros. apply ew1_is1. assumption. Qed.
Lemma neg_is3 : forall a n p q f, is3 a n p q f -> is3 (tneg a) n p q (fun i r c => - f i r c).
Proof. intros. apply ew1_is3. assumption. Qed.

(** ** constructors *)
Lemma construct_ok : forall c t b d f, is2 t b d f -> (c = CPoint2 -> d = 2%nat) -> (c = CPoint3 -> d = 3%nat) ->
  exists v, construct c t = Ok v /\ holds v c b d f.
Proof.
  intros c t b d f H P2 P3. exists (Vc c t). split.
  - destruct H as [S _]. unfold construct, prepare, vector_init. destruct c; cbn [class_dof].
    + rewrite S. reflexivity.
    + rewrite S, (P2 eq_refl). cbn [Nat.eqb rbind]. rewrite S. reflexivity.
    + rewrite S, (P3 eq_refl). cbn [Nat.eqb rbind]. rewrite S. reflexivity.
  - repeat split; cbn; auto; apply H.
Qed.
Lemma holds_ext : forall v c b d f g, holds v c b d f ->
  (forall i j, (i < b)%nat -> (j < d)%nat -> f i j = g i j) -> holds v c b d g.
Proof. intros v c b d f g (A & P & Q & H) E. split; [exact A|]. split; [exact P|]. split; [exact Q|]. eapply is2_ext; eauto. Qed.
Lemma holds_ten : forall v c b d f, holds v c b d f -> is2 (tn v) b d f.
Proof. intros v c b d f (_ & _ & _ & H). exact H. Qed.
Lemma holds_dof : forall v c b d f, holds v c b d f -> vdof v = d.
Proof. intros v c b d f (_ & _ & _ & S & _). unfold vdof. rewrite S. reflexivity. Qed.
Lemma holds_batch : forall v c b d f, holds v c b d f -> vbatch v = b.
Proof. intros v c b d f (_ & _ & _ & S & _). unfold vbatch. rewrite S. reflexivity. Qed.

(** the dof of the result of an operation of a point with something broadcastable *)
Lemma class_bcast : forall c d e q, (c = CPoint2 -> d = 2%nat) -> (c = CPoint3 -> d = 3%nat) -> bcast d e q ->
  (e = d \/ e = 1%nat \/ d = 1%nat) /\ (c = CPoint2 -> q = 2%nat) /\ (c = CPoint3 -> q = 3%nat).
Proof. unfold bcast. intros c d e q A B H. split; [lia|]. split; intro Ec; [specialize (A Ec)|specialize (B Ec)]; lia. Qed.

Lemma elementwise_ok : forall h u v c c' b1 b2 B d1 d2 D f g,
  holds u c b1 d1 f -> is2 (tn v) b2 d2 g -> cls v = c' -> bcast b1 b2 B -> bcast d1 d2 D ->
  exists w, (let! t := ew2 h (tn u) (tn v) in construct (cls u) t) = Ok w /\
    holds w c B D (fun i j => h (f (pick b1 i) (pick d1 j)) (g (pick b2 i) (pick d2 j))).
Proof.
  intros h u v c c' b1 b2 B d1 d2 D f g (Cu & P2 & P3 & Hu) Hv Cv HB HD.
  destruct (ew2_is2 h _ _ _ _ _ _ _ _ _ _ Hu Hv HB HD) as (t & E & I). rewrite E. cbn [rbind].
  destruct (class_bcast c d1 d2 D P2 P3 HD) as (_ & Q2 & Q3). rewrite Cu.
  exact (construct_ok c t B D _ I Q2 Q3).
Qed.

(** ** columns, slices, stacking, assignment *)
Lemma col_is1 : forall t b d f j, is2 t b d f -> (j < d)%nat -> is1 (col t j) b (fun i => f i j).
Proof. intros t b d f j [S E] L. split; [cbn [col shp]; rewrite S; reflexivity|]. intros i Li. cbn [col at_ app]. apply E; assumption. Qed.
Lemma slice_is2 : forall t b d f lo w, is2 t b d f -> (lo + w <= d)%nat -> is2 (slice2 t lo w) b w (fun i j => f i (lo + j)%nat).
Proof.
  intros t b d f lo w [S E] L. split; [cbn [slice2 shp]; rewrite S; reflexivity|]. intros i j Li Lj. cbn [slice2 at_].
  apply E; lia.
Qed.
Lemma stack_is2 : forall a b n f g, is1 a n f -> is1 b n g ->
  exists t, stack1 a b = Ok t /\ is2 t n 2 (fun i j => if (j =? 0)%nat then f i else g i).
Proof.
  intros a b n f g [Sa Ea] [Sb Eb]. unfold stack1. rewrite Sa, Sb, Nat.eqb_refl. eexists. split; [reflexivity|].
  split; [reflexivity|]. intros i j Li Lj. cbn [at_]. destruct (j =? 0)%nat; auto.
Qed.
Lemma stack_view_is3 : forall a b n f g, is1 a n f -> is1 b n g ->
  exists t, stack_view a b = Ok t /\ is3 t n 2 1 (fun i r _ => if (r =? 0)%nat then f i else g i).
Proof.
  intros a b n f g A B. destruct (stack_is2 _ _ _ _ _ A B) as (t & E & S & H). unfold stack_view. rewrite E. cbn [rbind].
  eexists. split; [reflexivity|]. split; [cbn [shp]; rewrite S; reflexivity|]. intros i r c Li Lr Lc. cbn [at_ removelast].
  rewrite H by assumption. reflexivity.
Qed.
Lemma set3_is3 : forall t b p q f r c src k g, is3 t b p q f -> is1 src k g -> bcast k b b ->
  exists t', set3 t r c src = Ok t' /\
    is3 t' b p q (fun i y z => if (y =? r)%nat && (z =? c)%nat then g (pick k i) else f i y z).
Proof.
  intros t b p q f r c src k g [S E] [Ss Es] K. unfold set3. rewrite S, Ss.
  assert (X : (k =? b)%nat || (k =? 1)%nat = true).
  { unfold bcast in K. apply Bool.orb_true_iff. destruct (Nat.eqb_spec k b), (Nat.eqb_spec k 1); auto. lia. }
  rewrite X. eexists. split; [reflexivity|]. split; [reflexivity|].
  intros i y z Li Ly Lz. cbn [at_]. fold (pick k i).
  destruct ((y =? r)%nat && (z =? c)%nat); [apply Es; eapply pick_lt; eauto|apply E; assumption].
Qed.
Lemma set3_junk : forall junk b p q r c src k g, is1 src k g -> bcast k b b ->
  exists t', set3 (new_empty junk [b; p; q]) r c src = Ok t' /\
    is3 t' b p q (fun i y z => if (y =? r)%nat && (z =? c)%nat then g (pick k i) else junk [i; y; z]).
Proof.
  intros. apply (set3_is3 _ b p q (fun i y z => junk [i; y; z]) r c src k g); auto. split; reflexivity.
Qed.
Lemma fill3_is3 : forall t b p q f r c v, is3 t b p q f ->
  is3 (fill3 t r c v) b p q (fun i y z => if (y =? r)%nat && (z =? c)%nat then v else f i y z).
Proof. intros t b p q f r c v [S E]. split; [exact S|]. intros. cbn [fill3 at_]. destruct ((r0 =? r)%nat && (c0 =? c)%nat); auto. Qed.
Lemma set_block_is3 : forall t b p q f src k g, is3 t b p q f -> is3 src k 2 2 g -> bcast k b b ->
  exists t', set_block3 t src = Ok t' /\
    is3 t' b p q (fun i y z => if (y <? 2)%nat && (z <? 2)%nat then g (pick k i) y z else f i y z).
Proof.
  intros t b p q f src k g [S E] [Ss Es] K. unfold set_block3. rewrite S, Ss.
  assert (X : (k =? b)%nat || (k =? 1)%nat = true).
  { unfold bcast in K. apply Bool.orb_true_iff. destruct (Nat.eqb_spec k b), (Nat.eqb_spec k 1); auto. lia. }
  rewrite X. eexists. split; [reflexivity|]. split; [reflexivity|].
  intros i y z Li Ly Lz. cbn [at_]. fold (pick k i).
  destruct (Nat.ltb_spec y 2), (Nat.ltb_spec z 2); cbn [andb]; [apply Es; try assumption; eapply pick_lt; eauto|apply E; assumption..].
Qed.
Lemma set2_is2 : forall t b p f c src k g, is2 t b p f -> is1 src k g -> bcast k b b ->
  exists t', set2 t c src = Ok t' /\ is2 t' b p (fun i y => if (y =? c)%nat then g (pick k i) else f i y).
Proof.
  intros t b p f c src k g [S E] [Ss Es] K. unfold set2. rewrite S, Ss.
  assert (X : (k =? b)%nat || (k =? 1)%nat = true).
  { unfold bcast in K. apply Bool.orb_true_iff. destruct (Nat.eqb_spec k b), (Nat.eqb_spec k 1); auto. lia. }
  rewrite X. eexists. split; [reflexivity|]. split; [reflexivity|].
  intros i y Li Ly. cbn [at_]. fold (pick k i). destruct (y =? c)%nat; [apply Es; eapply pick_lt; eauto|apply E; assumption].
Qed.
Lemma set_cols_is2 : forall t b p f src k g, is2 t b p f -> is2 src k 2 g -> bcast k b b ->
  exists t', set_cols2 t src = Ok t' /\ is2 t' b p (fun i y => if (y <? 2)%nat then g (pick k i) y else f i y).
Proof.
  intros t b p f src k g [S E] [Ss Es] K. unfold set_cols2. rewrite S, Ss.
  assert (X : (k =? b)%nat || (k =? 1)%nat = true).
  { unfold bcast in K. apply Bool.orb_true_iff. destruct (Nat.eqb_spec k b), (Nat.eqb_spec k 1); auto. lia. }
  rewrite X. eexists. split; [reflexivity|]. split; [reflexivity|].
  intros i y Li Ly. cbn [at_]. fold (pick k i). destruct (Nat.ltb_spec y 2); [apply Es; auto; eapply pick_lt; eauto|apply E; assumption].
Qed.
Lemma expand_is3 : forall t k n p q f, is3 t k p q f -> bcast k n n ->
  exists t', expand3 n t = Ok t' /\ is3 t' n p q (fun i r c => f (pick k i) r c).
Proof.
  intros t k n p q f [S E] K. unfold expand3. rewrite S. destruct (Nat.eqb_spec k n) as [->|H].
  - exists t. split; [reflexivity|]. split; [exact S|]. intros. rewrite pick_id by assumption. auto.
  - destruct (Nat.eqb_spec k 1) as [->|]; [|unfold bcast in K; lia]. eexists. split; [reflexivity|]. split; [reflexivity|].
    intros. cbn [at_]. apply E; auto.
Qed.
Lemma trans_is3 : forall t k p q f, is3 t k p q f -> is3 (trans21 t) k q p (fun i r c => f i c r).
Proof. intros t k p q f [S E]. unfold trans21. rewrite S. split; [reflexivity|]. intros. cbn [at_]. apply E; assumption. Qed.
Lemma cat_is2 : forall a b n p q f g, is2 a n p f -> is2 b n q g ->
  exists t, cat1 a [b] = Ok t /\ is2 t n (p + q) (fun i j => if (j <? p)%nat then f i j else g i (j - p)%nat).
Proof.
  intros a b n p q f g [Sa Ea] [Sb Eb]. cbn [cat1]. rewrite Sa, Sb, Nat.eqb_refl. eexists. split; [reflexivity|].
  split; [reflexivity|]. intros i j Li Lj. cbn [at_]. destruct (Nat.ltb_spec j p); [apply Ea|apply Eb]; lia.
Qed.
Lemma matmul_is3 : forall a b n m B p q r f g, is3 a n p q f -> is3 b m q r g -> bcast n m B ->
  exists t, matmul3 a b = Ok t /\ is3 t B p r (fun i y z => sumf q (fun k => f (pick n i) y k * g (pick m i) k z)).
Proof.
  intros a b n m B p q r f g [Sa Ea] [Sb Eb] K. unfold matmul3. rewrite Sa, Sb, (bdim_some _ _ _ K), Nat.eqb_refl.
  eexists. split; [reflexivity|]. split; [reflexivity|]. intros i y z Li Ly Lz. cbn [at_]. fold (pick n i) (pick m i).
  assert (X : forall l, (l <= q)%nat ->
     sumf l (fun k => at_ a [pick n i; y; k] * at_ b [pick m i; k; z]) = sumf l (fun k => f (pick n i) y k * g (pick m i) k z)).
  { induction l as [|l IH]; intro L; cbn [sumf]; [reflexivity|]. rewrite IH by lia.
    rewrite Ea, Eb by (try lia; eauto using pick_lt, bcast_sym). reflexivity. }
  apply X. lia.
Qed.
Lemma eye_is3 : forall d b, is3 (eye_rep d b) b d d (fun _ r c => delta r c).
Proof. intros. split; reflexivity. Qed.
Lemma zeros_is3 : forall b p q, is3 (new_zeros [b; p; q]) b p q (fun _ _ _ => 0).
Proof. intros. split; reflexivity. Qed.
