(** C95: the inputs of the tactile pose estimator. *)
From Coq Require Import Reals List String Ascii Arith Bool Lia Lra FinFun.
From Verif Require Import Geo_spec Geo3_spec SE2_model SE2_group Emb_model Mp_model Mp_spec Mp_props Mp_main Tac_model Tac_spec Tac_win Tac_obj Tac_props.
Import ListNotations.
Local Open Scope list_scope.

(** ** dictionaries *)
Lemma lookup_app a b k : lookup (a ++ b) k = match lookup b k with Some w => Some w | None => lookup a k end.
Proof.
  induction a as [|[k' v] a IH]; cbn; [now destruct (lookup b k)|]. rewrite IH. destruct (lookup b k); reflexivity.
Qed.
Lemma lookup_none d k : ~ In k (keys d) -> lookup d k = None.
Proof.
  induction d as [|[k' v] d IH]; intros H; [reflexivity|]. cbn in *. rewrite IH by tauto.
  destruct (String.eqb_spec k' k); [subst; tauto|reflexivity].
Qed.
Lemma lookup_unique d k v : NoDup (keys d) -> In (k, v) d -> lookup d k = Some v.
Proof.
  induction d as [|[k' w] d IH]; intros N H; [contradiction|]. cbn in N. inversion N; subst.
  destruct H as [H|H]; cbn [lookup].
  - injection H as -> ->. rewrite lookup_none by easy. now rewrite String.eqb_refl.
  - now rewrite IH.
Qed.
Lemma lookup_map {A} (f : A -> string) (g : A -> val) l a :
  (forall x y, f x = f y -> x = y) -> NoDup l -> In a l -> lookup (map (fun x => (f x, g x)) l) (f a) = Some (g a).
Proof.
  intros Hf N H. apply lookup_unique.
  - unfold keys. rewrite map_map. cbn. now apply Injective_map_NoDup.
  - apply in_map_iff. eauto.
Qed.

(** ** rows *)
Lemma nth_rows {A B} (f : A -> list B) n l : (forall x, In x l -> List.length (f x) = n) -> forall k e x, nth_error l k = Some x -> e < n ->
  nth_error (List.concat (map f l)) (k * n + e) = nth_error (f x) e.
Proof.
  induction l as [|a l IH]; intros L k e x K He; [destruct k; discriminate|].
  cbn [map List.concat]. destruct k as [|k].
  - injection K as <-. cbn [Nat.mul plus]. apply nth_error_app1. rewrite L; [easy|now left].
  - rewrite nth_error_app2; rewrite (L a) by (now left); [|cbn; lia].
    replace (S k * n + e - n) with (k * n + e) by (cbn; lia). apply IH; auto. intros y Hy. apply L. now right.
Qed.
Lemma rows_length {A B} (f : A -> list B) n l : (forall x, In x l -> List.length (f x) = n) ->
  List.length (List.concat (map f l)) = List.length l * n.
Proof.
  induction l as [|a l IH]; intros L; [reflexivity|]. cbn. rewrite app_length, L by (now left).
  rewrite IH; [reflexivity|]. intros; apply L; now right.
Qed.
Lemma nth_firstn {A} (l : list A) m : forall k, k < m -> nth_error (firstn m l) k = nth_error l k.
Proof.
  revert l. induction m; intros l k H; [lia|]. destruct l; [now destruct k|]. destruct k; [reflexivity|]. cbn. apply IHm. lia.
Qed.
Lemma nth_skipn {A} (l : list A) m : forall k, nth_error (skipn m l) k = nth_error l (m + k).
Proof. revert l. induction m; intros l k; [reflexivity|]. destruct l; [now destruct k|]. cbn. apply IHm. Qed.

Section Meas.
Variable F : Type.
Variable b : batch F.
Hypothesis Hn : 1 <= b_n F b.
Notation n := (b_n F b).
(** what is computed for the cell p and the episode e *)
Variable g : nat * nat -> nat -> SE2.
Definition rows (l : list (nat * nat)) : list SE2 := List.concat (map (fun p => over_batch F b (g p)) l).
Lemma over_len {A} (h : nat -> A) : List.length (over_batch F b h) = n.
Proof. unfold over_batch. now rewrite map_length, seq_length. Qed.
Lemma over_nth {A} (h : nat -> A) e : e < n -> nth_error (over_batch F b h) e = Some (h e).
Proof. apply nth_seq_map. Qed.
(** row r belongs to the cell r / n and to the episode r mod n *)
Lemma rows_nth l r : r < List.length l * n ->
  nth_error (rows l) r = Some (g (nth (r / n) l (0, 0)) (r mod n)).
Proof.
  intros H. assert (E : r = r / n * n + r mod n) by (rewrite Nat.mul_comm; apply Nat.div_mod; lia).
  rewrite E at 1.
  assert (Q : r / n < List.length l) by (apply Nat.div_lt_upper_bound; lia).
  unfold rows. rewrite (nth_rows _ n) with (x := nth (r / n) l (0, 0)).
  - apply over_nth. apply Nat.mod_upper_bound. lia.
  - intros; apply over_len.
  - now apply nth_error_nth'.
  - apply Nat.mod_upper_bound. lia.
Qed.
Lemma rows_len l : List.length (rows l) = List.length l * n.
Proof. apply rows_length. intros; apply over_len. Qed.

(** reshape to groups of m rows, m dividing the number of rows *)
Lemma reshape_ok {A} (t : list A) m q : m <> 0 -> List.length t = q * m ->
  reshape t m = Ok (map (fun e => firstn m (skipn (e * m) t)) (seq 0 q)).
Proof.
  intros Hm L. unfold reshape. rewrite L.
  destruct (Nat.eqb_spec m 0); [contradiction|]. rewrite Nat.mod_mul by easy. cbn. now rewrite Nat.div_mul.
Qed.
Lemma column_ok l m q k : m <> 0 -> List.length l * n = q * m -> k < m ->
  column (map (fun e => firstn m (skipn (e * m) (rows l))) (seq 0 q)) k
  = Ok (map (fun e => g (nth ((e * m + k) / n) l (0, 0)) ((e * m + k) mod n)) (seq 0 q)).
Proof.
  intros Hm L Hk. unfold column.
  assert (G : forall r, In r (map (fun e => firstn m (skipn (e * m) (rows l))) (seq 0 q)) ->
     exists e, e < q /\ r = firstn m (skipn (e * m) (rows l))).
  { intros r Hr. apply in_map_iff in Hr as [e [<- He]]. apply in_seq in He. exists e. split; [lia|reflexivity]. }
  clear G. assert (G : forall s, (forall e, In e s -> e < q) ->
    rmap (fun r => match nth_error r k with Some a => Ok a | None => Err IndexErr end)
      (map (fun e => firstn m (skipn (e * m) (rows l))) s)
    = Ok (map (fun e => g (nth ((e * m + k) / n) l (0, 0)) ((e * m + k) mod n)) s)).
  { induction s as [|e s IH]; intros Hs; [reflexivity|]. cbn [map rmap].
    rewrite nth_firstn, nth_skipn, rows_nth by (easy || (specialize (Hs e (or_introl eq_refl)); nia)).
    cbn [rbind]. rewrite IH by (intros; apply Hs; now right). reflexivity. }
  apply G. intros e He. apply in_seq in He. lia.
Qed.
Lemma set_ok l m q : m <> 0 -> List.length l * n = q * m -> List.length l <= m ->
  forall l' k, k + List.length l' <= m ->
  set_measurements (map (fun e => firstn m (skipn (e * m) (rows l))) (seq 0 q)) l' k
  = Ok (map (fun '(p, k) => (idx2 "nn_measurement" (fst p - snd p) (fst p),
              VPoses (map (fun e => g (nth ((e * m + k) / n) l (0, 0)) ((e * m + k) mod n)) (seq 0 q))))
         (combine l' (seq k (List.length l')))).
Proof.
  intros Hm L Lm l'. induction l' as [|[i o] l' IH]; intros k Hk; [reflexivity|].
  cbn [set_measurements]. cbn [List.length] in Hk. rewrite column_ok by (easy || lia). cbn [rbind].
  rewrite IH by lia. cbn [rbind List.length seq combine map fst snd]. do 4 f_equal. all: now rewrite Nat.add_1_r.
Qed.
End Meas.

(** the measurement dictionaries of both branches *)
Definition meas_dict {F} (b : batch F) (g : nat * nat -> nat -> SE2) (l : list (nat * nat)) (m q : nat) : dict :=
  map (fun '(p, k) => (idx2 "nn_measurement" (fst p - snd p) (fst p),
         VPoses (map (fun e => g (nth ((e * m + k) / b_n F b) l (0, 0)) ((e * m + k) mod b_n F b)) (seq 0 q))))
      (combine l (seq 0 (List.length l))).
Definition nn_row {F} (b : batch F) (m : F -> F -> SE2) (p : nat * nat) (e : nat) : SE2 :=
  m (b_img F b e (fst p - snd p)) (b_img F b e (fst p)).
Definition or_row {F} (b : batch F) (p : nat * nat) (e : nat) : SE2 :=
  oracle_row (b_eff F b e (fst p - snd p)) (b_eff F b e (fst p)) (b_obj F b e (fst p - snd p)) (b_obj F b e (fst p)).
Lemma combine_app2 {A B} (a a' : list A) (b b' : list B) : List.length a = List.length b ->
  combine (a ++ a') (b ++ b') = combine a b ++ combine a' b'.
Proof. revert b. induction a; intros [|y b] L; try discriminate; [reflexivity|]. cbn. f_equal. apply IHa. now injection L. Qed.
Lemma nn_rows_eq {F} (b : batch F) m l :
  map (fun p => m (fst p) (snd p))
    (combine (List.concat (map (fun '(i, o) => over_batch F b (fun e => b_img F b e (i - o))) l))
             (List.concat (map (fun '(i, o) => over_batch F b (fun e => b_img F b e i)) l)))
  = rows F b (nn_row b m) l.
Proof.
  induction l as [|[i o] l IH]; [reflexivity|]. cbn [map List.concat]. unfold rows in *. cbn [map List.concat].
  rewrite combine_app2 by (now rewrite !over_len). rewrite map_app, IH. f_equal.
  unfold over_batch. generalize (seq 0 (b_n F b)). induction l0; [reflexivity|]. cbn. now rewrite IHl0.
Qed.
Lemma nn_inputs_nn {F} (b : batch F) m N mn mx st : 1 <= b_n F b -> st <> 0 -> pure_cells N mn mx st <> [] ->
  let l := pure_cells N mn mx st in
  nn_inputs F b (Some m) N mn mx st = Ok (meas_dict b (nn_row b m) l (List.length l * b_n F b) 1).
Proof.
  intros Hn H Hc l. unfold nn_inputs. rewrite cells_ok by easy. cbn [rbind]. fold l. fold l in Hc.
  assert (C : forall f : nat * nat -> list F, cat (map f l) = Ok (List.concat (map f l))).
  { intros f. destruct l; [contradiction|reflexivity]. }
  rewrite !C. cbn [rbind]. rewrite nn_rows_eq.
  rewrite (rows_length _ (b_n F b)) by (intros [i o] _; apply over_len).
  assert (Lp : List.length l <> 0) by (destruct l; [contradiction|cbn; lia]).
  rewrite (reshape_ok _ _ 1); [|nia|rewrite rows_len; lia].
  cbn [rbind]. rewrite set_ok; [reflexivity|lia|nia|nia|nia|nia].
Qed.
Lemma nn_inputs_oracle {F} (b : batch F) N mn mx st : 1 <= b_n F b -> st <> 0 -> pure_cells N mn mx st <> [] ->
  let l := pure_cells N mn mx st in
  nn_inputs F b None N mn mx st = Ok (meas_dict b (or_row b) l (List.length l) (b_n F b)).
Proof.
  intros Hn H Hc l. unfold nn_inputs. rewrite cells_ok by easy. cbn [rbind]. fold l. fold l in Hc.
  assert (C : forall f : nat * nat -> list SE2, cat (map f l) = Ok (List.concat (map f l))).
  { intros f. destruct l; [contradiction|reflexivity]. }
  rewrite C. cbn [rbind].
  replace (List.concat (map (fun '(i, o) => over_batch F b (fun e =>
             oracle_row (b_eff F b e (i - o)) (b_eff F b e i) (b_obj F b e (i - o)) (b_obj F b e i))) l))
    with (rows F b (or_row b) l).
  2:{ unfold rows. f_equal. apply map_ext. intros [i o]. reflexivity. }
  assert (Lp : List.length l <> 0) by (destruct l; [contradiction|cbn; lia]).
  rewrite map_length. rewrite (reshape_ok _ _ (b_n F b)); [|easy|rewrite rows_len; lia].
  cbn [rbind]. rewrite set_ok; [reflexivity|lia|easy|lia|lia|lia].
Qed.
(** without windows there is nothing to concatenate *)
Lemma nn_inputs_empty {F} (b : batch F) m N mn mx st : st <> 0 -> pure_cells N mn mx st = [] ->
  nn_inputs F b m N mn mx st = Err RuntimeErr.
Proof. intros H E. unfold nn_inputs. rewrite cells_ok, E by easy. destruct m; reflexivity. Qed.

Lemma meas_lookup {F} (b : batch F) g N mn mx st m q k p : st <> 0 ->
  let l := pure_cells N mn mx st in
  nth_error l k = Some p ->
  lookup (meas_dict b g l m q) (idx2 "nn_measurement" (fst p - snd p) (fst p))
  = Some (VPoses (map (fun e => g (nth ((e * m + k) / b_n F b) l (0, 0)) ((e * m + k) mod b_n F b)) (seq 0 q))).
Proof.
  intros H l K. apply lookup_unique.
  - unfold keys, meas_dict. rewrite map_map.
    assert (E : map (fun x => fst (let '(p0, k0) := x in (idx2 "nn_measurement" (fst p0 - snd p0) (fst p0),
       VPoses (map (fun e => g (nth ((e * m + k0) / b_n F b) l (0, 0)) ((e * m + k0) mod b_n F b)) (seq 0 q)))))
       (combine l (seq 0 (List.length l))) = map (fun x => idx2 "nn_measurement" (fst x) (snd x)) (map pair_of l)).
    { assert (G : forall (l0 : list (nat*nat)) (s : list nat), List.length l0 = List.length s -> map (fun x => fst (let '(p0, k0) := x in (idx2 "nn_measurement" (fst p0 - snd p0) (fst p0),
       VPoses (map (fun e => g (nth ((e * m + k0) / b_n F b) l (0, 0)) ((e * m + k0) mod b_n F b)) (seq 0 q)))))
       (combine l0 s) = map (fun x => idx2 "nn_measurement" (fst x) (snd x)) (map pair_of l0)).
      { induction l0 as [|a l0 IH]; intros [|y s] L; try discriminate; [reflexivity|]. cbn [combine map fst]. f_equal.
        apply IH. now injection L. }
      apply G. now rewrite seq_length. }
    rewrite E. clear E. apply Injective_map_NoDup; [|now apply pairs_NoDup].
    intros [x y] [x' y'] E. cbn [fst snd] in E. apply idx2_inj in E as [-> ->]. reflexivity.
  - unfold meas_dict. apply in_map_iff. exists (p, k). split; [reflexivity|].
    assert (G : forall (l0 : list (nat*nat)) a k0, nth_error l0 k0 = Some p -> In (p, a + k0) (combine l0 (seq a (List.length l0)))).
    { induction l0 as [|x l0 IH]; intros a k0 K0; [destruct k0; discriminate|]. cbn [List.length seq combine].
      destruct k0 as [|k0]; [injection K0 as ->; left; f_equal; lia|]. right. cbn in K0.
      replace (a + S k0) with (S a + k0) by lia. now apply IH. }
    apply (G l 0 k K).
Qed.
