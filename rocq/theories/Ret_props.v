(** C14: vectorized retraction equals sequential retraction. *)
From Coq Require Import List Arith Bool Lia Permutation ZArith.
Import ListNotations.
From Verif Require Import Dict Obj_model Upd_model Upd_proofs Vec_proofs Group Ret_model.

Lemma NoDup_app_parts {A} (l m : list A) : NoDup (l ++ m) ->
  NoDup l /\ NoDup m /\ forall x, In x l -> ~ In x m.
Proof.
  induction l as [|a l IH]; simpl; intros H; [repeat split; [constructor|exact H|easy]|].
  inversion H as [|? ? Hn Hd]; subst. destruct (IH Hd) as (A1 & A2 & A3).
  rewrite in_app_iff in Hn. repeat split; [constructor; tauto|exact A2|].
  intros x [<-|Hx]; [tauto|auto].
Qed.

Section RetP.
Context {E S : Type}.
Variable dE : E.
Variable v_kind : vid -> nat.
Variable kdof : nat -> nat.
Variable retr : nat -> E -> list S -> E.

Notation vdof := (Ret_model.vdof v_kind kdof).
Notation rbase := (retract_base dE v_kind kdof retr).
Notation rvec := (retract_vectorized dE v_kind kdof retr).

(** ---- specification, independent of the model's helpers ---- *)
(** row [i] is under the ignore mask *)
Definition frozen (mask : option (list bool)) (force : bool) (i : nat) : bool :=
  match mask with Some m => negb force && nth i m false | None => false end.

(** [t'] is the tensor [t] of variable [v] retracted, row by row, along its own columns of delta *)
Definition retracted_alone (mask : option (list bool)) (force : bool) (delta : list (list S))
    (off : nat) (v : vid) (t t' : list E) : Prop :=
  length t' = length t /\
  forall i, i < length t ->
    nth i t' dE = if frozen mask force i then nth i t dE
                  else retr (v_kind v) (nth i t dE) (firstn (vdof v) (skipn off (nth i delta []))).

(** ---- proofs ---- *)
Section B.
Variable b : nat.
Variable mask : option (list bool).
Variable force : bool.
Hypothesis Hmask : match mask with Some m => length m = b | None => True end.

Definition rspec (k : nat) (t : list E) (sl : list (list S)) : list E :=
  map (fun i => if frozen mask force i then nth i t dE else retr k (nth i t dE) (nth i sl [])) (seq 0 b).

Lemma rspec_length k t sl : length (rspec k t sl) = b.
Proof. unfold rspec. now rewrite map_length, seq_length. Qed.

Lemma nth_map_seq {A} (d : A) f n i : i < n -> nth i (map f (seq 0 n)) d = f i.
Proof.
  intros Hi. rewrite nth_indep with (d' := f 0) by now rewrite map_length, seq_length.
  rewrite map_nth, seq_nth by exact Hi. reflexivity.
Qed.

Lemma brow_nth {A} (d : A) (l : list A) i : length l = b -> i < b -> brow l i = Some (nth i l d).
Proof.
  intros Hl Hi. unfold brow. destruct (length l =? 1) eqn:E1.
  - apply Nat.eqb_eq in E1. assert (i = 0) by lia. subst i. apply nth_error_nth'. lia.
  - apply nth_error_nth'. lia.
Qed.

Lemma bcast_same n : bcast n n = Some n.
Proof. unfold bcast. now rewrite Nat.eqb_refl. Qed.

Lemma map_seq_ext {A} (f g : nat -> A) n : (forall i, i < n -> f i = g i) -> map f (seq 0 n) = map g (seq 0 n).
Proof. intros H. apply map_ext_in. intros i Hi. apply in_seq in Hi. apply H. lia. Qed.

Lemma list_eq_map_seq {A} (d : A) (l : list A) n : length l = n -> l = map (fun i => nth i l d) (seq 0 n).
Proof.
  intros Hl. apply (nth_ext _ _ d d); [now rewrite map_length, seq_length|].
  intros i Hi. rewrite nth_map_seq by lia. reflexivity.
Qed.

Lemma masked_set_spec (old new : list E) : length old = b -> length new = b ->
  masked_set mask force old new =
  Some (map (fun i => if frozen mask force i then nth i old dE else nth i new dE) (seq 0 b)).
Proof.
  intros Ho Hn. unfold masked_set, frozen. destruct mask as [m|].
  2:{ f_equal. now apply list_eq_map_seq. }
  destruct force; cbn [negb andb].
  { f_equal. now apply list_eq_map_seq. }
  destruct (existsb (fun b => b) m) eqn:Ex.
  - destruct (where_rows_spec m old new b b) as (r & Er & Hl & Hr).
    { rewrite Hmask, Ho. apply bcast_same. } { rewrite Hn. apply bcast_same. }
    rewrite Er. f_equal. rewrite (list_eq_map_seq dE r b Hl). apply map_seq_ext.
    intros i Hi. specialize (Hr i Hi). rewrite (brow_nth false m i Hmask Hi) in Hr.
    destruct (nth i m false).
    + rewrite (brow_nth dE) in Hr by assumption. now apply nth_error_nth.
    + rewrite (brow_nth dE) in Hr by assumption. now apply nth_error_nth.
  - f_equal. rewrite (list_eq_map_seq dE new b Hn) at 1. apply map_seq_ext. intros i Hi.
    assert (Hf : nth i m false = false).
    { destruct (nth i m false) eqn:En; [|reflexivity].
      rewrite <- Ex. symmetry. apply existsb_exists. exists (nth i m false).
      split; [apply nth_In; lia|exact En]. }
    now rewrite Hf.
Qed.

Lemma browd_nth {A} (d : A) l i n : length l = n -> i < n -> browd d l i = nth i l d.
Proof.
  intros Hl Hi. unfold browd. destruct (length l =? 1) eqn:E1; [|reflexivity].
  apply Nat.eqb_eq in E1. f_equal. lia.
Qed.

Lemma retract_rows_spec n k t dl : length t = n -> length dl = n ->
  retract_rows dE retr k t dl = Some (map (fun i => retr k (nth i t dE) (nth i dl [])) (seq 0 n)).
Proof.
  intros Ht Hd. unfold retract_rows. rewrite Ht, Hd, bcast_same. f_equal. apply map_seq_ext.
  intros i Hi. now rewrite (browd_nth dE t i n), (browd_nth [] dl i n).
Qed.

Lemma step_spec k t dl : length t = b -> length dl = b ->
  match retract_rows dE retr k t dl with None => None | Some new => masked_set mask force t new end
  = Some (rspec k t dl).
Proof.
  intros Ht Hd. rewrite (retract_rows_spec b) by assumption. rewrite masked_set_spec; [|exact Ht|now rewrite map_length, seq_length].
  f_equal. apply map_seq_ext. intros i Hi. now rewrite nth_map_seq.
Qed.

Lemma slice_cols_length i n (delta : list (list S)) : length (slice_cols i n delta) = length delta.
Proof. unfold slice_cols. now rewrite map_length. Qed.

Lemma ret_items_vars (delta : list (list S)) o : forall i, map fst (ret_items v_kind kdof delta o i) = o.
Proof. induction o as [|v o IH]; intros i; simpl; [reflexivity|]. now rewrite IH. Qed.

Lemma ret_items_slices (delta : list (list S)) o : forall i it, In it (ret_items v_kind kdof delta o i) -> length (snd it) = length delta.
Proof.
  induction o as [|v o IH]; intros i it; simpl; [easy|].
  intros [<-|Hin]; [apply slice_cols_length|eauto].
Qed.

(** sequential *)
Lemma base_spec delta : length delta = b -> forall o i st, NoDup o ->
  (forall v, In v o -> length (st v) = b) ->
  exists st', rbase delta mask force o i st = Some st' /\
    (forall it, In it (ret_items v_kind kdof delta o i) -> st' (fst it) = rspec (v_kind (fst it)) (st (fst it)) (snd it)) /\
    (forall v, ~ In v o -> st' v = st v).
Proof.
  intros Hd. induction o as [|v o IH]; intros i st Hnd Hlen; simpl.
  { exists st. repeat split; easy. }
  inversion Hnd as [|? ? Hni Hnd']; subst.
  pose proof (step_spec (v_kind v) (st v) (slice_cols i (vdof v) delta)) as Hs.
  rewrite slice_cols_length in Hs. specialize (Hs (Hlen v (or_introl eq_refl)) Hd).
  destruct (retract_rows dE retr (v_kind v) (st v) (slice_cols i (vdof v) delta)) as [new|]; [|discriminate].
  rewrite Hs.
  destruct (IH (i + vdof v) (upd st v (rspec (v_kind v) (st v) (slice_cols i (vdof v) delta))) Hnd')
    as (st' & E1 & E2 & E3).
  { intros w Hw. unfold upd. destruct (Nat.eqb_spec w v) as [->|]; [easy|]. apply Hlen; now right. }
  exists st'. split; [exact E1|]. split.
  - intros it [<-|Hin].
    + simpl. rewrite E3 by exact Hni. unfold upd. now rewrite Nat.eqb_refl.
    + rewrite E2 by exact Hin. unfold upd.
      assert (Hw : In (fst it) o) by (rewrite <- (ret_items_vars delta o (i + vdof v)); now apply in_map).
      destruct (Nat.eqb_spec (fst it) v) as [Hev|]; [|reflexivity]. rewrite Hev in Hw. contradiction.
  - intros w Hw. rewrite E3 by tauto. unfold upd. destruct (Nat.eqb_spec w v) as [->|]; [|reflexivity].
    exfalso. tauto.
Qed.

Lemma firstn_skipn_map_seq {A} (f : nat -> A) s n N : s + n <= N ->
  firstn n (skipn s (map f (seq 0 N))) = map (fun i => f (s + i)) (seq 0 n).
Proof.
  intros Hle. apply (nth_ext _ _ (f 0) (f 0)).
  - rewrite firstn_length, skipn_length, !map_length, !seq_length. lia.
  - intros i Hi. rewrite firstn_length, skipn_length, map_length, seq_length in Hi.
    rewrite nth_map_seq by lia.
    assert (Hn : forall (l : list A) n i d, i < n -> nth i (firstn n l) d = nth i l d).
    { clear. induction l as [|x l IH]; intros n i d H; destruct n, i; simpl; try lia; try reflexivity. apply IH. lia. }
    assert (Hk : forall (l : list A) n i d, nth i (skipn n l) d = nth (n + i) l d).
    { clear. induction l as [|x l IH]; intros n i d; destruct n, i; simpl; try reflexivity; apply IH. }
    rewrite Hn by lia. rewrite Hk. apply nth_map_seq. lia.
Qed.

Lemma scatter_spec (F : nat -> E) N : forall vars start st, NoDup vars ->
  (forall v, In v vars -> length (st v) = b) -> start + length vars * b <= N ->
  exists st', ret_scatter b mask force vars start (map F (seq 0 N)) st = Some st' /\
    (forall j v, nth_error vars j = Some v ->
       st' v = map (fun i => if frozen mask force i then nth i (st v) dE else F (start + j * b + i)) (seq 0 b)) /\
    (forall v, ~ In v vars -> st' v = st v).
Proof.
  induction vars as [|v vars IH]; intros start st Hnd Hlen Hle; simpl.
  { exists st. split; [reflexivity|]. split; [intros [|j]; discriminate|reflexivity]. }
  simpl in Hle. inversion Hnd as [|? ? Hni Hnd']; subst.
  rewrite firstn_skipn_map_seq by lia.
  rewrite masked_set_spec; [|apply Hlen; now left|now rewrite map_length, seq_length].
  edestruct (IH (start + b) (upd st v
    (map (fun i => if frozen mask force i then nth i (st v) dE
                   else nth i (map (fun i0 => F (start + i0)) (seq 0 b)) dE) (seq 0 b))) Hnd') as (st' & E1 & E2 & E3).
  { intros w Hw. unfold upd. destruct (Nat.eqb_spec w v) as [->|]; [easy|]. apply Hlen. now right. }
  { lia. }
  exists st'. split; [exact E1|]. split.
  - intros [|j] w Hj; simpl in Hj.
    + injection Hj as <-. rewrite E3 by exact Hni. unfold upd. rewrite Nat.eqb_refl.
      apply map_seq_ext. intros i Hi. rewrite nth_map_seq by exact Hi.
      replace (start + 0 * b + i) with (start + i) by lia. reflexivity.
    + rewrite (E2 j w Hj). apply map_seq_ext. intros i Hi. unfold upd.
      destruct (Nat.eqb_spec w v) as [->|].
      { exfalso. apply Hni. eapply nth_error_In; eauto. }
      replace (start + b + j * b + i) with (start + Datatypes.S j * b + i) by (simpl; lia). reflexivity.
  - intros w Hw. rewrite E3 by tauto. unfold upd. destruct (Nat.eqb_spec w v) as [->|]; [tauto|reflexivity].
Qed.

Lemma group_spec k items st : NoDup (map fst items) ->
  (forall it, In it items -> length (st (fst it)) = b /\ length (snd it) = b) ->
  exists st', ret_group dE retr b mask force k items st = Some st' /\
    (forall it, In it items -> st' (fst it) = rspec k (st (fst it)) (snd it)) /\
    (forall v, ~ In v (map fst items) -> st' v = st v).
Proof.
  intros Hnd Hlen. unfold ret_group.
  assert (H1 : forall x, In x (map (fun it => st (fst it)) items) -> length x = b).
  { intros x Hx. apply in_map_iff in Hx as (it & <- & Hi). now apply Hlen. }
  assert (H2 : forall x, In x (map snd items) -> length x = b).
  { intros x Hx. apply in_map_iff in Hx as (it & <- & Hi). now apply Hlen. }
  pose proof (Vec_proofs.concat_length b _ H1) as L1. rewrite map_length in L1.
  pose proof (Vec_proofs.concat_length b _ H2) as L2. rewrite map_length in L2.
  rewrite L1, L2, !Nat.eqb_refl. cbn [negb].
  rewrite (retract_rows_spec (length items * b)) by assumption.
  edestruct (scatter_spec (fun i => retr k (nth i (concat (map (fun it => st (fst it)) items)) dE)
                                           (nth i (concat (map snd items)) [])) (length items * b) (map fst items) 0 st)
    as (st' & E1 & E2 & E3).
  { exact Hnd. }
  { intros v Hv. apply in_map_iff in Hv as (it & <- & Hi). now apply Hlen. }
  { rewrite map_length. lia. }
  exists st'. split; [exact E1|]. split; [|exact E3].
  intros it Hit. apply In_nth_error in Hit as [j Hj].
  rewrite (E2 j (fst it)) by (now apply map_nth_error). unfold rspec.
  apply map_seq_ext. intros i Hi. destruct (frozen mask force i); [reflexivity|]. simpl (0 + _).
  assert (Hjl : j < length items) by (apply nth_error_Some; congruence).
  rewrite (nth_concat_blocks dE b) by (auto; now rewrite map_length).
  rewrite (nth_concat_blocks [] b) by (auto; now rewrite map_length).
  rewrite (nth_error_nth _ j [] (map_nth_error (fun it => st (fst it)) j items Hj)).
  rewrite (nth_error_nth _ j [] (map_nth_error snd j items Hj)). reflexivity.
Qed.

Lemma groups_spec : forall gs st, NoDup (map fst (concat (values gs))) ->
  (forall it, In it (concat (values gs)) -> length (st (fst it)) = b /\ length (snd it) = b) ->
  (forall k g it, In (k, g) gs -> In it g -> v_kind (fst it) = k) ->
  exists st', ret_groups dE retr b mask force gs st = Some st' /\
    (forall it, In it (concat (values gs)) -> st' (fst it) = rspec (v_kind (fst it)) (st (fst it)) (snd it)) /\
    (forall v, ~ In v (map fst (concat (values gs))) -> st' v = st v).
Proof.
  induction gs as [|[k g] gs IH]; intros st Hnd Hlen Hk; simpl.
  { exists st. repeat split; easy. }
  simpl in Hnd, Hlen. rewrite map_app in Hnd. apply NoDup_app_parts in Hnd as (N1 & N2 & N3).
  destruct (group_spec k g st N1) as (s1 & E1 & E2 & E3).
  { intros it Hi. apply Hlen. apply in_app_iff. now left. }
  rewrite E1.
  assert (Hkeep : forall it, In it (concat (values gs)) -> s1 (fst it) = st (fst it)).
  { intros it Hi. apply E3. intros Hin. apply (N3 (fst it) Hin). now apply in_map. }
  destruct (IH s1 N2) as (s2 & F1 & F2 & F3).
  { intros it Hi. rewrite Hkeep by exact Hi. apply Hlen. apply in_app_iff. now right. }
  { intros k' g' it H1 H2. apply (Hk k' g' it); [now right|exact H2]. }
  exists s2. split; [exact F1|]. split.
  - intros it Hi. apply in_app_iff in Hi as [Hi|Hi].
    + rewrite F3. { rewrite E2 by exact Hi. now rewrite (Hk k g it (or_introl eq_refl) Hi). }
      intros Hin. apply (N3 (fst it)); [now apply in_map|exact Hin].
    + rewrite F2 by exact Hi. now rewrite Hkeep.
  - intros v Hv. rewrite map_app, in_app_iff in Hv. rewrite F3 by tauto. apply E3. tauto.
Qed.
End B.

Lemma ret_items_at (delta : list (list S)) : forall pre v post i,
  In (v, slice_cols (i + list_sum (map vdof pre)) (vdof v) delta) (ret_items v_kind kdof delta (pre ++ v :: post) i).
Proof.
  induction pre as [|w pre IH]; intros v post i; simpl.
  - left. now rewrite Nat.add_0_r.
  - right. rewrite Nat.add_assoc. apply IH.
Qed.

(** C14. For every ordering of distinct variables of one common batch size, every delta with that
    many rows and every mask: both procedures succeed, give the same tensors, and every variable
    gets exactly its own tensor retracted along its own columns of delta, rows under the mask and
    variables outside the ordering unchanged. *)
Theorem C14_vectorized_retract_equals_sequential :
  forall (b : nat) (delta : list (list S)) (mask : option (list bool)) (force : bool)
         (ordering : list vid) (st : vid -> list E),
  NoDup ordering -> (forall v, In v ordering -> length (st v) = b) -> length delta = b ->
  match mask with Some m => length m = b | None => True end ->
  exists st1 st2,
    rbase delta mask force ordering 0 st = Some st1 /\
    rvec delta mask force ordering st = Some st2 /\
    (forall v, st1 v = st2 v) /\
    (forall pre v post, ordering = pre ++ v :: post ->
       retracted_alone mask force delta (list_sum (map vdof pre)) v (st v) (st2 v)) /\
    (forall v, ~ In v ordering -> st2 v = st v).
Proof.
  intros b delta mask force o st Hnd Hlen Hd Hm.
  destruct (base_spec b mask force Hm delta Hd o 0 st Hnd Hlen) as (s1 & A1 & A2 & A3).
  assert (Hv : exists s2, rvec delta mask force o st = Some s2 /\
    (forall it, In it (ret_items v_kind kdof delta o 0) ->
       s2 (fst it) = rspec b mask force (v_kind (fst it)) (st (fst it)) (snd it)) /\
    (forall v, ~ In v o -> s2 v = st v)).
  { unfold rvec, retract_vectorized. destruct o as [|v0 o0] eqn:Eo.
    { exists st. repeat split; easy. }
    rewrite <- Eo in *. cbv zeta.
    assert (Hb : length (st v0) = b) by (apply Hlen; rewrite Eo; now left). rewrite Hb.
    assert (Hall : forallb (fun v => length (st v) =? b) o = true).
    { apply forallb_forall. intros v Hin. apply Nat.eqb_eq. now apply Hlen. }
    rewrite Hall.
    set (key := fun it : vid * list (list S) => v_kind (fst it)).
    set (its := ret_items v_kind kdof delta o 0).
    pose proof (group_by_perm key its) as Hp.
    destruct (groups_spec b mask force Hm (group_by key its) st) as (s2 & B1 & B2 & B3).
    - apply (Permutation_NoDup (l := map fst its)); [now apply Permutation_map, Permutation_sym|].
      unfold its. now rewrite ret_items_vars.
    - intros it Hi. apply (Permutation_in _ Hp) in Hi. split.
      + apply Hlen. rewrite <- (ret_items_vars delta o 0). now apply in_map.
      + rewrite (ret_items_slices delta o 0 it Hi). exact Hd.
    - intros k g it Hg Hi. apply group_by_entry in Hg as [-> _].
      apply filter_In in Hi as [_ Hs]. unfold sel, key in Hs. now apply Nat.eqb_eq in Hs.
    - exists s2. split; [exact B1|]. split.
      + intros it Hi. apply B2. now apply (Permutation_in _ (Permutation_sym Hp)).
      + intros v Hn. apply B3. intros Hin. apply Hn.
        rewrite <- (ret_items_vars delta o 0). now apply (Permutation_in _ (Permutation_map fst Hp)). }
  destruct Hv as (s2 & B1 & B2 & B3).
  assert (Heq : forall v, s1 v = s2 v).
  { intros v. destruct (in_dec Nat.eq_dec v o) as [Hin|Hn].
    - rewrite <- (ret_items_vars delta o 0) in Hin. apply in_map_iff in Hin as (it & <- & Hi).
      now rewrite A2, B2.
    - now rewrite A3, B3. }
  exists s1, s2. repeat split; try assumption.
  - subst o. pose proof (B2 _ (ret_items_at delta pre v post 0)) as HB. cbn [fst snd] in HB. rewrite HB.
    rewrite rspec_length. symmetry. apply Hlen. apply in_app_iff. right. now left.
  - intros i Hi. subst o. pose proof (B2 _ (ret_items_at delta pre v post 0)) as HB. cbn [fst snd] in HB. rewrite HB.
    rewrite Hlen in Hi by (apply in_app_iff; right; now left).
    unfold rspec. rewrite nth_map_seq by exact Hi. destruct (frozen mask force i); [reflexivity|].
    f_equal. unfold slice_cols. simpl (0 + _).
    erewrite nth_error_nth; [reflexivity|]. rewrite nth_error_map.
    rewrite (nth_error_nth' delta []) by lia. reflexivity.
Qed.
End RetP.

(** A concrete case: two kinds of variables (dof 1 and 2) interleaved, batch 2, one masked row. *)
Definition ex_kind (v : vid) : nat := match v with 0 => 0 | 1 => 1 | 2 => 0 | _ => 1 end.
Definition ex_dof (k : nat) : nat := Datatypes.S k.
Definition ex_retr (k : nat) (x : Z) (d : list Z) : Z := (Z.of_nat (10 * k) + x + fold_right Z.add 0%Z d)%Z.
Definition ex_st (v : vid) : list Z := [Z.of_nat v; (100 * Z.of_nat v)%Z].
Definition ex_delta : list (list Z) := [[1;2;3;4]; [10;20;30;40]]%Z.
Definition ex_res v := match retract_vectorized 0%Z ex_kind ex_dof ex_retr ex_delta (Some [false;true]) false [2;1;0] ex_st with
                       | Some s => s v | None => [] end.
Example C14_nonvacuous :
  NoDup [2;1;0] /\ (forall v, length (ex_st v) = 2) /\ length ex_delta = 2 /\
  map ex_res [2;1;0;3] = [[3;200]; [16;100]; [4;0]; [3;300]]%Z.
Proof.
  split; [repeat constructor; simpl; intuition lia|]. split; [reflexivity|].
  split; [reflexivity|]. vm_compute. reflexivity.
Qed.

(** The hypothesis on the batch sizes is needed: with an optimization variable of batch 1 and a
    delta of batch 2, the sequential retraction broadcasts and the vectorized one raises. *)
Theorem C14_batch_one_variable_refuted :
  exists (delta : list (list Z)) (ordering : list vid) (st : vid -> list Z),
    NoDup ordering /\ (forall v, In v ordering -> length (st v) = 1) /\
    (exists s, retract_base 0%Z ex_kind ex_dof ex_retr delta None false ordering 0 st = Some s /\ length (s 0) = 2) /\
    retract_vectorized 0%Z ex_kind ex_dof ex_retr delta None false ordering st = None.
Proof.
  exists ex_delta, [0;1], (fun v => [Z.of_nat v]).
  split; [repeat constructor; simpl; intuition lia|]. split; [reflexivity|].
  split; [eexists; split; [reflexivity|reflexivity]|reflexivity].
Qed.
