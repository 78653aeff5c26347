(** C96: the dataset of the tactile example. *)
From Coq Require Import Reals List Arith Bool ZArith Lia Lra Permutation Sorting.Sorted.
From Verif Require Import Mp_model Tds_model.
Import ListNotations.
Local Open Scope list_scope.

Section P.
Variable A : Type.
Notation row := (row A).
Implicit Types file : list row.

(** specification: the pieces of L consecutive rows of an episode *)
Definition piece file (L e k : nat) : list row := firstn L (skipn (k * L) (rows_of A file e)).
Definition pieces file (L : nat) (split : bool) (e : nat) : list (list row) :=
  map (piece file L e) (seq 0 (if split then List.length (rows_of A file e) / L else 1)).
Definition long_enough file (L e : nat) : bool := L <=? List.length (rows_of A file e).

Lemma firstn_app_le {B} (l : list B) a m : a + m <= List.length l -> forall q, a + m <= q -> firstn m (skipn a (firstn q l)) = firstn m (skipn a l).
Proof.
  revert l. induction a; intros l H q Hq.
  - cbn. rewrite firstn_firstn. f_equal. lia.
  - destruct l; [destruct q; reflexivity|]. destruct q; [lia|]. cbn. apply IHa; [cbn in H; lia|lia].
Qed.
Lemma splits_ok rows L : L <> 0 ->
  splits A rows L = Ok (map (fun k => firstn L (skipn (k * L) rows)) (seq 0 (List.length rows / L))).
Proof.
  intros H. unfold splits. destruct (Nat.eqb_spec L 0); [contradiction|]. f_equal. apply map_ext_in.
  intros k Hk. apply in_seq in Hk.
  assert (List.length rows / L * L <= List.length rows) by (rewrite Nat.mul_comm; now apply Nat.mul_div_le).
  assert (k * L + L <= List.length rows / L * L) by nia.
  apply firstn_app_le; lia.
Qed.

(** ** loading *)
Lemma loop_inv file L mx split eps : L <> 0 -> forall data0 data,
  load_loop A file L mx split eps data0 = Ok data ->
  exists p q, eps = p ++ q /\ data = data0 ++ flat_map (pieces file L split) (filter (long_enough file L) p)
  /\ (q = [] \/ mx <= List.length data)
  /\ (forall p' e p'', p = p' ++ e :: p'' -> List.length (data0 ++ flat_map (pieces file L split) (filter (long_enough file L) p')) < mx)
  /\ (forall e, In e p -> List.length (rows_of A file e) <> 1).
Proof.
  intros HL. induction eps as [|e r IH]; intros data0 data E.
  - injection E as <-. exists [], []. cbn. rewrite app_nil_r. repeat split; auto; intros; try contradiction. destruct p'; discriminate.
  - cbn [load_loop] in E. destruct (Nat.leb_spec mx (List.length data0)) as [M|M].
    + injection E as <-. exists [], (e :: r). cbn. rewrite app_nil_r. repeat split; auto; intros; try contradiction. destruct p'; discriminate.
    + destruct (Nat.eqb_spec (List.length (rows_of A file e)) 1) as [|N1]; [discriminate|].
      assert (S : (if split then splits A (rows_of A file e) L else Ok [firstn L (rows_of A file e)]) = Ok (pieces file L split e)).
      { unfold pieces, piece. destruct split; [now apply splits_ok|reflexivity]. }
      destruct (Nat.ltb_spec (List.length (rows_of A file e)) L) as [W|W].
      * apply IH in E as [p [q [-> [-> [D1 [D2 D3]]]]]].
        assert (LE : long_enough file L e = false) by (apply Nat.leb_gt; lia).
        exists (e :: p), q. cbn [filter app]. rewrite LE. repeat split; auto.
        -- intros p' e' p'' X. destruct p' as [|x p']; [cbn; rewrite app_nil_r; exact M|].
           injection X as <- X. cbn [filter]. rewrite LE. exact (D2 _ _ _ X).
        -- intros e' [<-|He']; auto.
      * rewrite S in E. cbn [rbind] in E. apply IH in E as [p [q [-> [-> [D1 [D2 D3]]]]]].
        assert (LE : long_enough file L e = true) by (apply Nat.leb_le; lia).
        exists (e :: p), q. cbn [filter app]. rewrite LE. cbn [flat_map]. rewrite app_assoc. repeat split; auto.
        -- intros p' e' p'' X. destruct p' as [|x p']; [cbn; rewrite app_nil_r; exact M|].
           injection X as <- X. cbn [filter]. rewrite LE. cbn [flat_map]. rewrite app_assoc. exact (D2 _ _ _ X).
        -- intros e' [<-|He']; auto.
Qed.

Lemma in_unique l e : In e (unique l) <-> In e l.
Proof.
  unfold unique. rewrite filter_In, existsb_exists. split.
  - intros [_ [x [Hx K]]]. apply Nat.eqb_eq in K. now subst.
  - intros H. split; [|exists e; split; [easy|apply Nat.eqb_refl]]. apply in_seq. split; [lia|].
    assert (G : e <= list_max l); [|lia].
    pose proof (proj1 (list_max_le l (list_max l)) (le_n _)) as F. rewrite Forall_forall in F. now apply F.
Qed.
Lemma unique_NoDup l : NoDup (unique l).
Proof. apply NoDup_filter, seq_NoDup. Qed.
(** increasing *)
Lemma seq_sorted n : forall a, StronglySorted lt (seq a n).
Proof.
  induction n; intros a; cbn; constructor; auto. apply Forall_forall. intros x Hx. apply in_seq in Hx. lia.
Qed.
Lemma filter_sorted (f : nat -> bool) l : StronglySorted lt l -> StronglySorted lt (filter f l).
Proof.
  induction 1 as [|a l H IH F]; cbn; [constructor|]. destruct (f a); [|easy]. constructor; [easy|].
  apply Forall_forall. intros x Hx. apply filter_In in Hx as [Hx _]. rewrite Forall_forall in F. now apply F.
Qed.
Lemma unique_sorted l : StronglySorted lt (unique l).
Proof. apply filter_sorted, seq_sorted. Qed.

(** which pieces of which episodes are loaded: those of the episodes that are
    long enough, in increasing order, until there are max_episodes *)
Theorem C96_loaded : forall file L max_episodes split data, L <> 0 ->
  load A file L max_episodes split = Ok data ->
  exists episodes rest, StronglySorted lt (episodes ++ rest)
  /\ (forall e, In e (episodes ++ rest) <-> In e (map fst file))
  /\ data = flat_map (pieces file L split) (filter (long_enough file L) episodes)
  /\ (rest = [] \/ max_episodes <= List.length data)
  /\ (forall p e r, episodes = p ++ e :: r ->
        List.length (flat_map (pieces file L split) (filter (long_enough file L) p)) < max_episodes)
  /\ data <> [].
Proof.
  intros file L mx split data HL E. unfold load in E.
  destruct (load_loop A file L mx split (unique (map fst file)) []) as [d|] eqn:D; [|discriminate]. cbn [rbind] in E.
  apply loop_inv in D as [p [q [Eu [Ed [D1 [D2 _]]]]]]; [|easy].
  assert (d = data /\ data <> []) as [<- NE] by (destruct d; [discriminate|injection E as <-; split; [reflexivity|discriminate]]).
  exists p, q. rewrite <- Eu. split; [apply unique_sorted|]. split; [intros; apply in_unique|].
  repeat split; auto.
Qed.
(** every loaded item has L rows, of one episode, consecutive in that episode *)
Theorem C96_items : forall file L max_episodes split data, L <> 0 ->
  load A file L max_episodes split = Ok data ->
  forall item, In item data -> List.length item = L
    /\ exists e k, item = firstn L (skipn (k * L) (rows_of A file e)) /\ (split = false -> k = 0)
    /\ forall r, In r item -> fst r = e /\ In r file.
Proof.
  intros file L mx split data HL E item Hi.
  apply C96_loaded in E as [p [q [_ [_ [-> _]]]]]; [|easy].
  apply in_flat_map in Hi as [e [He Hi]]. apply filter_In in He as [_ He]. apply Nat.leb_le in He.
  unfold pieces in Hi. apply in_map_iff in Hi as [k [<- Hk]]. apply in_seq in Hk. unfold piece. split.
  - rewrite firstn_length, skipn_length. destruct split; [|lia].
    assert (List.length (rows_of A file e) / L * L <= List.length (rows_of A file e)) by (rewrite Nat.mul_comm; now apply Nat.mul_div_le).
    assert (k * L + L <= List.length (rows_of A file e) / L * L) by nia. lia.
  - exists e, k. split; [reflexivity|]. split; [intros ->; lia|].
    intros r Hr.
    assert (X : In r (rows_of A file e)).
    { rewrite <- (firstn_skipn (k * L) (rows_of A file e)). apply in_or_app. right.
      rewrite <- (firstn_skipn L (skipn (k * L) (rows_of A file e))). apply in_or_app. now left. }
    unfold rows_of in X. apply filter_In in X as [X1 X2]. apply Nat.eqb_eq in X2. auto.
Qed.
(** no row is used twice *)
Lemma concat_pieces (l : list row) L : L <> 0 -> forall q, q * L <= List.length l ->
  List.concat (map (fun k => firstn L (skipn (k * L) l)) (seq 0 q)) = firstn (q * L) l.
Proof.
  intros HL q. induction q as [|q IH]; intros H; [reflexivity|].
  rewrite seq_S, map_app, concat_app, IH by lia. cbn [map List.concat plus]. rewrite app_nil_r.
  rewrite <- (firstn_skipn (q * L) l) at 3. rewrite firstn_app, firstn_length, Nat.min_l by lia.
  replace (S q * L - q * L) with L by lia. f_equal. rewrite firstn_firstn. f_equal. lia.
Qed.
Lemma NoDup_firstn_row m : forall l : list row, NoDup l -> NoDup (firstn m l).
Proof.
  induction m; intros l H; [constructor|]. destruct l as [|a l]; [constructor|]. inversion H; subst. cbn. constructor; [|now apply IHm].
  intros K. apply H2. rewrite <- (firstn_skipn m l). apply in_or_app. now left.
Qed.
Lemma episode_pieces_NoDup file L split e : L <> 0 -> NoDup file -> L <= List.length (rows_of A file e) ->
  NoDup (List.concat (pieces file L split e)) /\ (forall r, In r (List.concat (pieces file L split e)) -> fst r = e).
Proof.
  intros HL N H. unfold pieces, piece.
  assert (Q : (if split then List.length (rows_of A file e) / L else 1) * L <= List.length (rows_of A file e)).
  { destruct split; [rewrite Nat.mul_comm; now apply Nat.mul_div_le|lia]. }
  rewrite concat_pieces by easy. split.
  - apply NoDup_firstn_row, NoDup_filter, N.
  - intros r Hr. assert (X : In r (rows_of A file e)).
    { rewrite <- (firstn_skipn ((if split then List.length (rows_of A file e) / L else 1) * L) (rows_of A file e)). apply in_or_app. now left. }
    unfold rows_of in X. apply filter_In in X as [_ X]. now apply Nat.eqb_eq in X.
Qed.
Theorem C96_rows_once : forall file L max_episodes split data, L <> 0 -> NoDup file ->
  load A file L max_episodes split = Ok data -> NoDup (List.concat data).
Proof.
  intros file L mx split data HL N E. apply C96_loaded in E as [p [q [S [_ [-> _]]]]]; [|easy].
  assert (ND : NoDup p).
  { clear - S. induction p as [|a p IH]; [constructor|]. cbn in S. inversion S; subst. constructor; [|now apply IH].
    intros K. rewrite Forall_forall in H2. assert (X : a < a) by (apply H2; apply in_or_app; now left). lia. }
  clear S. assert (G : NoDup (List.concat (flat_map (pieces file L split) (filter (long_enough file L) p)))
      /\ forall r, In r (List.concat (flat_map (pieces file L split) (filter (long_enough file L) p))) -> In (fst r) p).
  { induction p as [|e p IH]; [split; [constructor|intros r []]|].
    inversion ND; subst. destruct (IH H2) as [I1 I2]. cbn [filter].
    destruct (long_enough file L e) eqn:LE; [|split; [easy|intros r Hr; right; now apply I2]].
    apply Nat.leb_le in LE. destruct (episode_pieces_NoDup file L split e HL N LE) as [J1 J2].
    cbn [flat_map]. rewrite concat_app. split.
    - revert J1 J2. generalize (List.concat (pieces file L split e)). intros l. induction l as [|r l IHl]; intros J1 J2; [exact I1|].
      inversion J1; subst. cbn. constructor.
      + rewrite in_app_iff. intros [K|K]; [contradiction|]. apply I2 in K. rewrite (J2 r (or_introl eq_refl)) in K. contradiction.
      + apply IHl; [easy|]. intros; apply J2; now right.
    - intros r Hr. apply in_app_or in Hr as [Hr|Hr]; [left; symmetry; now apply J2|right; now apply I2]. }
  exact (proj1 G).
Qed.
(** the limit on the number of episodes holds if they are not split *)
Theorem C96_max_episodes : forall file L max_episodes data, L <> 0 ->
  load A file L max_episodes false = Ok data -> List.length data <= max_episodes.
Proof.
  intros file L mx data HL E. apply C96_loaded in E as [p [q [_ [_ [-> [_ [B _]]]]]]]; [|easy].
  assert (G : forall l, List.length (flat_map (pieces file L false) l) = List.length l).
  { induction l; [reflexivity|]. cbn. now rewrite IHl. }
  rewrite G. destruct p as [|a p _] using rev_ind; [cbn; lia|].
  specialize (B p a [] eq_refl). rewrite G in B. rewrite filter_app, app_length. cbn. destruct (long_enough file L a); cbn; lia.
Qed.
End P.
