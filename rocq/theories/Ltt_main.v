(** C89: theorems about programs that use LieTensors. *)
From Coq Require Import Reals List Arith Bool Lia.
From Verif Require Import Ltt_model Ltt_spec Ltt_props.
Import ListNotations.

(** ** one elementary change *)
Lemma get_app1 : forall st os eu ck ss i, (i < length (s_objs st))%nat -> get (mkSt ss (s_objs st ++ os) eu ck) i = get st i.
Proof. intros. unfold get. cbn [s_objs]. now apply nth_error_app1. Qed.
Lemma nth_app_store : forall (a b : list (tdtype * list R)) i d, (i < length a)%nat -> nth i (a ++ b) d = nth i a d.
Proof. intros. now apply app_nth1. Qed.
Lemma nth_upd_same : forall A (l : list A) i v d, (i < length l)%nat -> nth i (upd l i v) d = v.
Proof. intros A l. induction l as [|x l IH]; intros [|i] v d H; cbn in *; try lia; [reflexivity|]. apply IH. lia. Qed.
Lemma nth_upd_other : forall A (l : list A) i j v d, i <> j -> nth j (upd l i v) d = nth j l d.
Proof. intros A l. induction l as [|x l IH]; intros [|i] [|j] v d H; cbn; try reflexivity; try congruence. apply IH. congruence. Qed.
Lemma get_app_inv : forall st o ss eu ck i oi, get (mkSt ss (s_objs st ++ [o]) eu ck) i = Some oi -> get st i = Some oi \/ (i = length (s_objs st) /\ oi = o).
Proof.
  intros st o ss eu ck i oi H. destruct (Nat.lt_ge_cases i (length (s_objs st))) as [L|L].
  - left. rewrite get_app1 in H by exact L. exact H.
  - right. unfold get in H. cbn [s_objs] in H. rewrite nth_error_app2 in H by exact L.
    destruct (i - length (s_objs st))%nat as [|k] eqn:E; [|destruct k; discriminate]. injection H as <-. split; [lia|reflexivity].
Qed.
Lemma obj_ok_app : forall st o os x eu ck, obj_ok st o -> obj_ok (mkSt (s_stores st ++ [x]) os eu ck) o.
Proof.
  intros st o os x eu ck (A & B & C). unfold obj_ok. cbn [s_stores]. rewrite app_length, nth_app_store by exact A. split; [cbn; lia|]. split; [exact B|exact C].
Qed.
Lemma obj_ok_new : forall st os k m t eu ck, fits_kind k (t_shape t) -> ten_ok t ->
  obj_ok (mkSt (s_stores st ++ [(t_dtype t, t_data t)]) os eu ck) (mkObj k m (length (s_stores st)) 0 (t_shape t)).
Proof.
  intros st os k m t eu ck FK TK. unfold obj_ok. cbn [s_stores o_store o_kind o_shape o_off]. rewrite app_length.
  rewrite app_nth2 by lia. rewrite Nat.sub_diag. cbn [nth snd]. split; [cbn; lia|]. split; [exact FK|]. unfold ten_ok in TK. lia.
Qed.
Lemma obj_ok_stores : forall st st' o, s_stores st' = s_stores st -> obj_ok st o -> obj_ok st' o.
Proof. intros st st' o E H. unfold obj_ok in *. now rewrite E. Qed.
Lemma get_set_inv : forall st i o' j oj, get (set_obj st i o') j = Some oj -> (j = i /\ oj = o') \/ get st j = Some oj.
Proof.
  intros st i o' j oj H. destruct (Nat.eq_dec i j) as [<-|N]; [|right; rewrite get_upd_other in H by exact N; exact H].
  left. split; [reflexivity|]. destruct (get st i) as [o|] eqn:G; [rewrite (get_upd_same _ _ _ _ G) in H; congruence|].
  exfalso. unfold get, set_obj in *. cbn [s_objs] in H. apply nth_error_None in G. assert (X : nth_error (upd (s_objs st) i o') i = None) by (apply nth_error_None; rewrite upd_length; exact G). congruence.
Qed.
Lemma write_length : forall (old d : list R) off n, length d = n -> (off + n <= length old)%nat ->
  length (firstn off old ++ d ++ skipn (off + n) old) = length old.
Proof. intros. rewrite !app_length, firstn_length, skipn_length. lia. Qed.

Lemma micro_bounded : forall st l st', micro st l st' -> bounded st -> bounded st'.
Proof.
  intros st l st' M B. destruct M as [st k t FK TK|st k src o off shape G FK D|st i o G|st i o l t G K FT DT TK|st i o src o' l G G' K K' DT|st x o dt old d G K N L|st a b].
  - cbv beta iota zeta delta [alloc fst]. intros i o H. apply get_app_inv in H. destruct H as [H|[-> ->]].
    + apply obj_ok_app. exact (B i o H).
    + now apply obj_ok_new.
  - cbv beta iota zeta delta [alias fst]. intros i oi H. apply get_app_inv in H. destruct H as [H|[-> ->]].
    + eapply obj_ok_stores; [|exact (B i oi H)]. reflexivity.
    + destruct (B src o G) as (A1 & A2 & A3). unfold obj_ok. cbn [s_stores o_store o_kind o_shape o_off]. split; [exact A1|]. split; [exact FK|].
      apply D. exact A3.
  - intros j oj H. apply get_set_inv in H. destruct H as [[-> ->]|H].
    + eapply obj_ok_stores; [|exact (B i o G)]. reflexivity.
    + eapply obj_ok_stores; [|exact (B j oj H)]. reflexivity.
  - intros j oj H. unfold do_set in H. apply get_set_inv in H. destruct H as [[-> ->]|H].
    + eapply obj_ok_stores; [|apply (obj_ok_new st (s_objs st) (o_kind o) (o_mark o) t (s_eucl st) (s_checks st)); [rewrite K; exact FT|exact TK]]. reflexivity.
    + eapply obj_ok_stores; [|apply (obj_ok_app st oj (s_objs st) (t_dtype t, t_data t) (s_eucl st) (s_checks st)); exact (B j oj H)]. reflexivity.
  - intros j oj H. unfold do_set in H. apply get_set_inv in H. destruct H as [[-> ->]|H].
    + destruct (B src o' G') as (A1 & A2 & A3). unfold obj_ok. cbn [s_stores set_obj o_store o_kind o_shape o_off]. split; [exact A1|]. split; [rewrite K; rewrite K' in A2; exact A2|exact A3].
    + eapply obj_ok_stores; [|exact (B j oj H)]. reflexivity.
  - intros j oj H. change (get st j = Some oj) in H. destruct (B j oj H) as (A1 & A2 & A3). destruct (B x o G) as (B1 & B2 & B3).
    unfold obj_ok. cbn [s_stores]. rewrite upd_length. split; [exact A1|]. split; [exact A2|].
    destruct (Nat.eq_dec (o_store o) (o_store oj)) as [E|E].
    + rewrite <- E, nth_upd_same by exact B1. rewrite <- E, N in A3. rewrite N in B3. cbn [snd] in *. rewrite write_length by (assumption || lia). exact A3.
    + rewrite nth_upd_other by exact E. exact A3.
  - intros j oj H. exact (B j oj H).
Qed.
(** what happens to one object *)
Definition changes (l : label) (i : nat) : Prop := match l with LSetNew j _ | LSetFrom j _ => j = i | _ => False end.
Definition is_write (l : label) : Prop := match l with LWrite _ _ => True | _ => False end.
Lemma value_app : forall st o x os eu ck, (o_store o < length (s_stores st))%nat -> value (mkSt (s_stores st ++ [x]) os eu ck) o = value st o.
Proof. intros. unfold value. cbn [s_stores]. now rewrite nth_app_store. Qed.
Lemma dtype_app : forall st o x os eu ck, (o_store o < length (s_stores st))%nat -> dtype_of (mkSt (s_stores st ++ [x]) os eu ck) o = dtype_of st o.
Proof. intros. unfold dtype_of. cbn [s_stores]. now rewrite nth_app_store. Qed.
Lemma micro_object : forall st l st' i o, micro st l st' -> bounded st -> get st i = Some o ->
  exists o', get st' i = Some o' /\ o_kind o' = o_kind o /\ dtype_of st' o' = dtype_of st o /\ (o_mark o = true -> o_mark o' = true) /\
    (~ changes l i -> o_store o' = o_store o /\ o_off o' = o_off o /\ o_shape o' = o_shape o) /\
    (~ changes l i -> ~ is_write l -> value st' o' = value st o).
Proof.
  intros st l st' i o M B G. pose proof (get_lt st i o G) as IL. pose proof (proj1 (B i o G)) as SL.
  destruct M as [st k t FK TK|st k src os off shape Gs FK D|st j oj Gj|st j oj l t Gj K FT DT TK|st j oj src os l Gj Gs K K' DT|st x ox dt old d Gx K N L|st a b].
  - exists o. cbv beta iota zeta delta [alloc fst]. rewrite get_app1 by exact IL. rewrite value_app, dtype_app by exact SL. auto 10.
  - exists o. cbv beta iota zeta delta [alias fst]. rewrite get_app1 by exact IL. split; [exact G|]. split; [reflexivity|]. split; [reflexivity|]. auto.
  - destruct (Nat.eq_dec j i) as [->|N].
    + rewrite G in Gj. injection Gj as <-. eexists. split; [exact (get_upd_same _ _ _ _ G)|]. cbn. split; [reflexivity|]. split; [reflexivity|]. split; [reflexivity|]. auto.
    + exists o. rewrite get_upd_other by exact N. split; [exact G|]. split; [reflexivity|]. split; [reflexivity|]. auto.
  - unfold do_set. destruct (Nat.eq_dec j i) as [->|N].
    + rewrite G in Gj. injection Gj as <-. eexists. split; [apply (get_upd_same (new_store st t) i o); exact G|]. cbn [o_kind o_mark o_store o_off o_shape].
      split; [reflexivity|]. split.
      * unfold dtype_of, set_obj, new_store. cbn [s_stores o_store]. rewrite app_nth2, Nat.sub_diag by lia. exact DT.
      * split; [auto|]. split; intros H; exfalso; apply H; reflexivity.
    + exists o. rewrite get_upd_other by exact N. split; [exact G|]. split; [reflexivity|].
      split; [apply (dtype_app st o (t_dtype t, t_data t) (s_objs st) (s_eucl st) (s_checks st)); exact SL|].
      split; [auto|]. split; [auto|]. intros _ _. apply (value_app st o (t_dtype t, t_data t) (s_objs st) (s_eucl st) (s_checks st)). exact SL.
  - unfold do_set. destruct (Nat.eq_dec j i) as [->|N].
    + rewrite G in Gj. injection Gj as <-. eexists. split; [apply (get_upd_same st i o); exact G|]. cbn [o_kind o_mark o_store o_off o_shape].
      split; [reflexivity|]. split; [exact DT|]. split; [auto|]. split; intros H; exfalso; apply H; reflexivity.
    + exists o. rewrite get_upd_other by exact N. split; [exact G|]. split; [reflexivity|]. split; [reflexivity|]. auto.
  - exists o. split; [exact G|]. split; [reflexivity|]. split.
    + unfold dtype_of. cbn [s_stores]. destruct (Nat.eq_dec (o_store ox) (o_store o)) as [E|E].
      * rewrite <- E, nth_upd_same by exact (proj1 (B x ox Gx)). now rewrite N.
      * now rewrite nth_upd_other.
    + split; [auto|]. split; [auto|]. intros _ H. exfalso. apply H. exact I.
  - exists o. split; [exact G|]. split; [reflexivity|]. split; [reflexivity|]. auto.
Qed.
(** unshared objects under changes that do not mention them *)
Definition touches (l : label) (i : nat) : Prop :=
  match l with
  | LAlias _ src _ _ => src = i | LMark j => j = i | LSetNew j _ => j = i | LSetFrom j src => j = i \/ src = i | LWrite x _ => x = i | _ => False
  end.
Lemma micro_unshared : forall st l st' i o, micro st l st' -> bounded st -> get st i = Some o -> ~ touches l i ->
  (forall j oj, j <> i -> get st j = Some oj -> o_store oj <> o_store o) ->
  get st' i = Some o /\ value st' o = value st o /\ (forall j oj, j <> i -> get st' j = Some oj -> o_store oj <> o_store o).
Proof.
  intros st l st' i o M B G T U. pose proof (get_lt st i o G) as IL. pose proof (proj1 (B i o G)) as SL.
  destruct M as [st k t FK TK|st k src os off shape Gs FK D|st j oj Gj|st j oj l t Gj K FT DT TK|st j oj src os l Gj Gs K K' DT|st x ox dt old d Gx K N L|st a b]; cbn [touches] in T.
  - cbv beta iota zeta delta [alloc fst]. rewrite get_app1 by exact IL. rewrite value_app by exact SL. split; [exact G|]. split; [reflexivity|].
    intros j oj N H. apply get_app_inv in H. destruct H as [H|[-> ->]]; [exact (U j oj N H)|cbn; lia].
  - cbv beta iota zeta delta [alias fst]. rewrite get_app1 by exact IL. split; [exact G|]. split; [reflexivity|].
    intros j oj N H. apply get_app_inv in H. destruct H as [H|[-> ->]]; [exact (U j oj N H)|]. cbn. exact (U src os T Gs).
  - rewrite get_upd_other by exact T. split; [exact G|]. split; [reflexivity|].
    intros k ok N H. apply get_set_inv in H. destruct H as [[-> ->]|H]; [cbn; exact (U j oj N Gj)|exact (U k ok N H)].
  - unfold do_set. rewrite get_upd_other by exact T. split; [exact G|].
    split; [apply (value_app st o (t_dtype t, t_data t) (s_objs st) (s_eucl st) (s_checks st)); exact SL|].
    intros k ok N H. apply get_set_inv in H. destruct H as [[-> ->]|H]; [cbn; lia|exact (U k ok N H)].
  - unfold do_set. assert (T1 : j <> i) by tauto. assert (T2 : src <> i) by tauto. rewrite get_upd_other by exact T1. split; [exact G|]. split; [reflexivity|].
    intros k ok N H. apply get_set_inv in H. destruct H as [[-> ->]|H]; [cbn; exact (U src os T2 Gs)|exact (U k ok N H)].
  - split; [exact G|]. split; [|exact U]. unfold value. cbn [s_stores]. rewrite nth_upd_other by exact (U x ox T Gx). reflexivity.
  - split; [exact G|]. split; [reflexivity|exact U].
Qed.

(** ** programs *)
Lemma micros_bounded : forall st ls st', micros st ls st' -> bounded st -> bounded st'.
Proof. induction 1; auto. intro B. apply IHmicros. eapply micro_bounded; eauto. Qed.
Lemma step_bounded : forall F st c, lib_ok F -> op_ok c -> bounded st -> bounded (fst (step F st c)).
Proof. intros F st c LO OK B. destruct (step_reaches F st c LO OK B) as (ls & M & _). eapply micros_bounded; eauto. Qed.
Lemma run_bounded : forall F cs st, lib_ok F -> Forall op_ok cs -> bounded st -> bounded (run F st cs).
Proof.
  intros F cs. induction cs as [|c cs IH]; intros st LO H B; cbn [run]; [exact B|]. inversion H; subst. apply IH; auto. now apply step_bounded.
Qed.
Lemma init_bounded : bounded init.
Proof. intros i o H. destruct i; discriminate. Qed.
Lemma reachable_bounded : forall F st, lib_ok F -> reachable F st -> bounded st.
Proof. intros F st LO (cs & OK & ->). apply run_bounded; auto. exact init_bounded. Qed.

(** T1: in every state of a program a LieTensor has the shape of its ltype, and every tensor as
    many numbers as its shape says *)
Theorem C89_shapes : forall F st i o, lib_ok F -> reachable F st -> get st i = Some o ->
  length (t_data (value st o)) = numel (o_shape o) /\
  match o_kind o with KLie LSE3 => last2 (o_shape o) = [3; 4]%nat | KLie LSO3 => last2 (o_shape o) = [3; 3]%nat | _ => True end.
Proof.
  intros F st i o LO RE G. pose proof (reachable_bounded F st LO RE i o G) as OK. split.
  - pose proof (value_ok st o OK) as V. unfold ten_ok in V. now rewrite value_shape in V.
  - destruct OK as (_ & FK & _). destruct (o_kind o) as [|[]|]; exact FK.
Qed.

Lemma micros_object : forall st ls st' i o, micros st ls st' -> bounded st -> get st i = Some o ->
  exists o', get st' i = Some o' /\ o_kind o' = o_kind o /\ dtype_of st' o' = dtype_of st o /\ (o_mark o = true -> o_mark o' = true) /\
    (Forall (fun l => ~ changes l i /\ ~ is_write l) ls -> value st' o' = value st o).
Proof.
  intros st ls st' i o M. revert i o. induction M as [st|st l st1 ls st2 M1 M2 IH]; intros i o B G.
  - exists o. auto.
  - destruct (micro_object st l st1 i o M1 B G) as (o1 & G1 & K1 & D1 & MK1 & _ & V1).
    destruct (IH i o1 (micro_bounded _ _ _ M1 B) G1) as (o2 & G2 & K2 & D2 & MK2 & V2).
    exists o2. split; [exact G2|]. split; [congruence|]. split; [congruence|]. split; [auto|].
    intro H. inversion H as [|? ? [Ha Hb] Hc]; subst. rewrite V2 by exact Hc. now apply V1.
Qed.
Lemma allowed_quiet : forall c l i, allowed c l -> ~ writes c -> ~ updates c i -> ~ changes l i /\ ~ is_write l.
Proof.
  intros c l i A W U. destruct l; cbn in *; split; try tauto; intros ->; tauto.
Qed.
Lemma step_object : forall F st c i o, lib_ok F -> op_ok c -> bounded st -> get st i = Some o ->
  exists o', get (fst (step F st c)) i = Some o' /\ o_kind o' = o_kind o /\ dtype_of (fst (step F st c)) o' = dtype_of st o /\ (o_mark o = true -> o_mark o' = true) /\
    (~ writes c -> ~ updates c i -> value (fst (step F st c)) o' = value st o).
Proof.
  intros F st c i o LO OK B G. destruct (step_reaches F st c LO OK B) as (ls & M & A).
  destruct (micros_object st ls _ i o M B G) as (o' & G' & K & D & MK & V). exists o'. split; [exact G'|]. split; [exact K|]. split; [exact D|]. split; [exact MK|].
  intros W U. apply V. eapply Forall_impl; [|exact A]. intros l HA. now apply (allowed_quiet c).
Qed.
Lemma run_object : forall F cs st i o, lib_ok F -> Forall op_ok cs -> bounded st -> get st i = Some o ->
  exists o', get (run F st cs) i = Some o' /\ o_kind o' = o_kind o /\ dtype_of (run F st cs) o' = dtype_of st o /\ (o_mark o = true -> o_mark o' = true) /\
    (Forall (fun c => ~ writes c /\ ~ updates c i) cs -> value (run F st cs) o' = value st o).
Proof.
  intros F cs. induction cs as [|c cs IH]; intros st i o LO OK B G; cbn [run].
  - exists o. auto.
  - inversion OK as [|? ? OK1 OK2]; subst. destruct (step_object F st c i o LO OK1 B G) as (o1 & G1 & K1 & D1 & MK1 & V1).
    destruct (IH _ i o1 LO OK2 (step_bounded F st c LO OK1 B) G1) as (o2 & G2 & K2 & D2 & MK2 & V2).
    exists o2. split; [exact G2|]. split; [congruence|]. split; [congruence|]. split; [auto|].
    intro H. inversion H as [|? ? [Ha Hb] Hc]; subst. rewrite V2 by exact Hc. now apply V1.
Qed.

(** T2: an object keeps its class, its ltype and its dtype for ever *)
Theorem C89_type_is_fixed : forall F st cs i o, lib_ok F -> reachable F st -> Forall op_ok cs -> get st i = Some o ->
  exists o', get (run F st cs) i = Some o' /\ o_kind o' = o_kind o /\ t_dtype (value (run F st cs) o') = t_dtype (value st o).
Proof.
  intros F st cs i o LO RE OK G. destruct (run_object F cs st i o LO OK (reachable_bounded F st LO RE) G) as (o' & G' & K & D & _).
  exists o'. split; [exact G'|]. split; [exact K|]. revert D. unfold dtype_of, value. destruct (nth (o_store o') _ _), (nth (o_store o) _ _). cbn. auto.
Qed.
(** T3: as long as nobody writes into plain tensors, the contents of an object change only through
    set_, add_, addcdiv_ and addcmul_ called on that object *)
Theorem C89_own_updates_only : forall F st cs i t, lib_ok F -> reachable F st -> Forall op_ok cs ->
  Forall (fun c => ~ writes c /\ ~ updates c i) cs -> contents st i = Some t -> contents (run F st cs) i = Some t.
Proof.
  intros F st cs i t LO RE OK Q H. unfold contents in *. destruct (get st i) as [o|] eqn:G; [|discriminate]. cbn in H. injection H as <-.
  destruct (run_object F cs st i o LO OK (reachable_bounded F st LO RE) G) as (o' & -> & _ & _ & _ & V). cbn. now rewrite V.
Qed.
(** T4: an object that shares its memory with no other keeps its contents in every program that
    does not mention it *)
Lemma micros_unshared : forall st ls st' i o, micros st ls st' -> bounded st -> get st i = Some o -> Forall (fun l => ~ touches l i) ls ->
  (forall j oj, j <> i -> get st j = Some oj -> o_store oj <> o_store o) ->
  get st' i = Some o /\ value st' o = value st o /\ (forall j oj, j <> i -> get st' j = Some oj -> o_store oj <> o_store o).
Proof.
  intros st ls st' i o M. induction M as [st|st l st1 ls st2 M1 M2 IH]; intros B G T U; [auto|].
  pose proof (Forall_inv T) as T1. pose proof (Forall_inv_tail T) as T2.
  destruct (micro_unshared st l st1 i o M1 B G T1 U) as (G1 & V1 & U1).
  destruct (IH (micro_bounded _ _ _ M1 B) G1 T2 U1) as (G2 & V2 & U2). split; [exact G2|]. split; [congruence|exact U2].
Qed.
Lemma updates_mentions : forall c i, updates c i -> mentions c i.
Proof. intros c i0. destruct c; cbn; tauto. Qed.
Lemma allowed_untouched : forall c l i, allowed c l -> ~ mentions c i -> ~ touches l i.
Proof.
  intros c l i A N. destruct l; cbn in *; try tauto; try (intros ->; tauto).
  - intros ->. apply N. now apply updates_mentions.
  - intros [->| ->]; [apply N; apply updates_mentions; tauto|tauto].
Qed.
Lemma run_unshared : forall F cs st i o, lib_ok F -> Forall op_ok cs -> bounded st -> get st i = Some o -> Forall (fun c => ~ mentions c i) cs ->
  (forall j oj, j <> i -> get st j = Some oj -> o_store oj <> o_store o) ->
  get (run F st cs) i = Some o /\ value (run F st cs) o = value st o /\ (forall j oj, j <> i -> get (run F st cs) j = Some oj -> o_store oj <> o_store o).
Proof.
  intros F cs. induction cs as [|c cs IH]; intros st i o LO OK B G T U; cbn [run]; [auto|].
  pose proof (Forall_inv OK) as OK1. pose proof (Forall_inv T) as T1.
  destruct (step_reaches F st c LO OK1 B) as (ls & M & A).
  assert (Q : Forall (fun l => ~ touches l i) ls) by (eapply Forall_impl; [|exact A]; intros l HA; now apply (allowed_untouched c)).
  destruct (micros_unshared st ls _ i o M B G Q U) as (G1 & V1 & U1).
  destruct (IH _ i o LO (Forall_inv_tail OK) (step_bounded F st c LO OK1 B) G1 (Forall_inv_tail T) U1) as (G2 & V2 & U2).
  split; [exact G2|]. split; [congruence|exact U2].
Qed.
Theorem C89_unshared_is_private : forall F st cs i t, lib_ok F -> reachable F st -> Forall op_ok cs -> unshared st i ->
  Forall (fun c => ~ mentions c i) cs -> contents st i = Some t -> contents (run F st cs) i = Some t /\ unshared (run F st cs) i.
Proof.
  intros F st cs i t LO RE OK (o & G & U) T H.
  destruct (run_unshared F cs st i o LO OK (reachable_bounded F st LO RE) G T U) as (G2 & V2 & U2).
  unfold contents in *. rewrite G in H. cbn in H. injection H as <-. rewrite G2. cbn. split; [now rewrite V2|]. exists o. auto.
Qed.
