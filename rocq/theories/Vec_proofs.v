(** Lemmas about the vectorizer model. *)
From Coq Require Import List Arith Lia Bool.
Import ListNotations.
From Verif Require Import Dict Obj_model Upd_model Vec_model Vec_spec.

Lemma nth_concat_blocks {A} (d : A) b (l : list (list A)) :
  (forall x, In x l -> length x = b) ->
  forall k r, k < length l -> r < b -> nth (k * b + r) (concat l) d = nth r (nth k l []) d.
Proof.
  intros Hl. induction l as [|x l IH]; intros k r Hk Hr; simpl in *; [lia|].
  assert (Hx : length x = b) by auto. destruct k as [|k]; simpl.
  - rewrite app_nth1 by lia. reflexivity.
  - rewrite app_nth2 by lia. replace (b + k * b + r - length x) with (k * b + r) by lia.
    apply IH; auto; lia.
Qed.

Lemma concat_length {A} b (l : list (list A)) :
  (forall x, In x l -> length x = b) -> length (concat l) = length l * b.
Proof.
  induction l as [|x l IH]; simpl; intros H; [reflexivity|].
  rewrite app_length, IH by auto. rewrite (H x) by auto. reflexivity.
Qed.

Lemma skipn_seq n a m : skipn n (seq a m) = seq (a + n) (m - n).
Proof.
  revert a m. induction n as [|n IH]; intros a m; simpl.
  - rewrite Nat.add_0_r, Nat.sub_0_r. reflexivity.
  - destruct m as [|m]; [reflexivity|]. simpl. rewrite IH. f_equal. lia.
Qed.

Lemma firstn_seq n a m : firstn n (seq a m) = seq a (Nat.min n m).
Proof.
  revert a m. induction n as [|n IH]; intros a m; simpl; [reflexivity|].
  destruct m as [|m]; [reflexivity|]. simpl. now rewrite IH.
Qed.

Lemma slice_map_seq {B} (f : nat -> B) b n k : k < n ->
  firstn b (skipn (k * b) (map f (seq 0 (n * b)))) = map (fun r => f (k * b + r)) (seq 0 b).
Proof.
  intros Hk. rewrite skipn_map, firstn_map, skipn_seq, firstn_seq. simpl.
  assert (n * b >= (k + 1) * b) by (apply Nat.mul_le_mono_r; lia).
  replace (Nat.min b (n * b - k * b)) with b by lia.
  replace (seq (k * b) b) with (map (fun r => k * b + r) (seq 0 b)).
  - now rewrite map_map.
  - clear. generalize (k * b) as a. intros a.
    assert (Hgen : forall m z, map (fun r => a + r) (seq z m) = seq (a + z) m).
    { induction m as [|m IH]; intros z; simpl; [reflexivity|]. f_equal. rewrite IH. f_equal. lia. }
    rewrite Hgen. f_equal. lia.
Qed.

Lemma nth_map_seq {B} (f : nat -> B) n i d : i < n -> nth i (map f (seq 0 n)) d = f i.
Proof.
  intros Hi. rewrite (nth_indep _ d (f 0)) by (rewrite map_length, seq_length; exact Hi).
  rewrite map_nth. now rewrite seq_nth.
Qed.

Section V.
Context {E O : Type}.
Variable dE : E.
Variable dO : O.
Variable vn : vid -> name.
Notation cf := (cfn E O).
Notation rowat := (rowat dE).
Notation rows_at := (rows_at dE).

Lemma vkey_eqb_eq a b : vkey_eqb a b = true <-> a = b.
Proof.
  destruct a, b; simpl; split; intros H; try discriminate; try (apply Nat.eqb_eq in H; congruence);
  injection H as ->; apply Nat.eqb_refl.
Qed.
Lemma vkey_eqb_neq a b : vkey_eqb a b = false <-> a <> b.
Proof. rewrite <- vkey_eqb_eq. destruct (vkey_eqb a b); split; congruence. Qed.

Lemma ntt_get_push k k' t (d : ntt (E := E)) :
  ntt_get k (ntt_push k' t d) =
  if vkey_eqb k k' then Some (match ntt_get k' d with Some l => l ++ [t] | None => [t] end)
  else ntt_get k d.
Proof.
  induction d as [|[j l] d IH]; simpl.
  - reflexivity.
  - destruct (vkey_eqb k' j) eqn:E1; simpl.
    + apply vkey_eqb_eq in E1; subst j. destruct (vkey_eqb k k') eqn:E2; reflexivity.
    + destruct (vkey_eqb k j) eqn:E2.
      * destruct (vkey_eqb k k') eqn:E3; [|reflexivity].
        apply vkey_eqb_eq in E2, E3. subst. exfalso. apply vkey_eqb_neq in E1. congruence.
      * exact IH.
Qed.

Lemma nodup_single n (l : list nat) : nodup Nat.eq_dec l = [n] <-> l <> [] /\ forall m, In m l -> m = n.
Proof.
  split.
  - intros H. split.
    + intros ->. discriminate.
    + intros m Hm. apply (nodup_In Nat.eq_dec) in Hm. rewrite H in Hm. simpl in Hm. intuition.
  - intros [Hne H]. pose proof (NoDup_nodup Nat.eq_dec l) as Hnd.
    assert (Hn : In n (nodup Nat.eq_dec l)).
    { apply nodup_In. destruct l as [|m l]; [congruence|]. rewrite <- (H m); simpl; auto. }
    assert (Hall : forall m, In m (nodup Nat.eq_dec l) -> m = n) by (intros m Hm; apply H; now apply nodup_In in Hm).
    destruct (nodup Nat.eq_dec l) as [|a [|c r]]; simpl in *.
    + contradiction.
    + f_equal. apply Hall. auto.
    + exfalso. inversion Hnd as [|? ? X Y]; subst. apply X. rewrite (Hall a), (Hall c) by auto. simpl. auto.
Qed.

Lemma batch_of_const (l : list (list E)) n : l <> [] -> (forall t, In t l -> length t = n) -> batch_of l = n.
Proof.
  intros Hne H. unfold batch_of. induction l as [|t l IH]; [congruence|]. simpl.
  rewrite (H t) by (simpl; auto). destruct l as [|t' l]; [simpl; lia|].
  rewrite IH; [lia|discriminate|]. intros x Hx. apply H. simpl. auto.
Qed.

(** selecting rows by mask, then reading row [i], is reading the i-th selected row *)
Lemma scatter_map (zeroO : O) (h : nat -> O) mask : forall a,
  scatter dO zeroO mask (map h (select mask (seq a (length mask)))) =
  map (fun i => if nth (i - a) mask false then h i else zeroO) (seq a (length mask)).
Proof.
  induction mask as [|m mask IH]; intros a; simpl; [reflexivity|].
  assert (Htail : map (fun i => if nth (i - S a) mask false then h i else zeroO) (seq (S a) (length mask)) =
    map (fun i => if match i - a with 0 => m | S n => nth n mask false end then h i else zeroO) (seq (S a) (length mask))).
  { apply map_ext_in. intros i Hi. apply in_seq in Hi. replace (i - a) with (S (i - S a)) by lia. reflexivity. }
  rewrite Nat.sub_diag. rewrite <- Htail, <- IH. destruct m; reflexivity.
Qed.

Lemma select_nth {A} (d : A) mask : forall (t : list A) a, length t = length mask ->
  select mask t = map (fun i => nth (i - a) t d) (select mask (seq a (length mask))).
Proof.
  induction mask as [|m mask IH]; intros [|x t] a H; simpl in *; try lia; [reflexivity|].
  assert (Htail : select mask t = map (fun i => nth (i - a) (x :: t) d) (select mask (seq (S a) (length mask)))).
  { rewrite (IH t (S a)) by lia. apply map_ext_in. intros i Hi.
    assert (S a <= i).
    { clear -Hi. revert Hi. generalize (S a) as z. generalize (length mask) as n. intros n. revert mask.
      induction n as [|n IH]; intros mask z Hi; destruct mask as [|m mask]; simpl in Hi; try tauto.
      destruct m; simpl in Hi.
      - destruct Hi as [<-|Hi]; [lia|]. specialize (IH mask (S z) Hi). lia.
      - specialize (IH mask (S z) Hi). lia. }
    replace (i - a) with (S (i - S a)) by lia. reflexivity. }
  destruct m.
  - simpl. rewrite Nat.sub_diag. f_equal. exact Htail.
  - exact Htail.
Qed.

Lemma select_length {A} mask : forall (t : list A), length t = length mask ->
  length (select mask t) = length (filter (fun b => b) mask).
Proof.
  induction mask as [|m mask IH]; intros [|x t] H; simpl in *; try discriminate; [reflexivity|].
  destruct m; simpl; rewrite IH by lia; reflexivity.
Qed.

Lemma masked_eq (base : cf) mask (l : list (list E)) : (forall t, In t l -> length t = length mask) ->
  masked_jacobians dE dO base l mask =
  Some (map (fun i => if nth i mask false then cf_row base (map (fun t => nth i t dE) l) else cf_zero base) (seq 0 (length mask))).
Proof.
  intros Hl. unfold masked_jacobians.
  replace (forallb (fun t => length t =? length mask) l) with true.
  2:{ symmetry. apply forallb_forall. intros t Ht. apply Nat.eqb_eq. auto. }
  cbv zeta. f_equal.
  set (sel := select mask (seq 0 (length mask))).
  assert (Hs : length sel = length (filter (fun b => b) mask)) by (apply select_length; now rewrite seq_length).
  transitivity (scatter dO (cf_zero base) mask (map (fun i => cf_row base (map (fun t => nth i t dE) l)) sel)).
  - f_equal. rewrite <- Hs.
    assert (Hrow : forall j, j < length sel ->
       map (fun t => nth j t dE) (map (select mask) l) = map (fun t => nth (nth j sel 0) t dE) l).
    { intros j Hj. rewrite map_map. apply map_ext_in. intros t Ht.
      rewrite (select_nth dE mask t 0) by auto. fold sel.
      rewrite (nth_indep _ dE (nth (0 - 0) t dE)) by (now rewrite map_length).
      rewrite (map_nth (fun i => nth (i - 0) t dE) sel 0 j). now rewrite Nat.sub_0_r. }
    clearbody sel. clear Hs. revert Hrow. generalize (map (select mask) l) as ml. intros ml Hrow.
    transitivity (map (fun j => cf_row base (map (fun t => nth (nth j sel 0) t dE) l)) (seq 0 (length sel))).
    + apply map_ext_in. intros j Hj. apply in_seq in Hj. rewrite Hrow by lia. reflexivity.
    + clear Hrow. induction sel as [|x sel IH]; simpl; [reflexivity|]. f_equal.
      rewrite <- seq_shift, map_map. exact IH.
  - unfold sel. rewrite scatter_map. apply map_ext. intros i. now rewrite Nat.sub_0_r.
Qed.


(** masking never changes the result when all tensors have the same batch size *)
Lemma eval_masked_plain (c : cf) (ts wts : list (list E)) (N : nat) :
  (forall t, In t (ts ++ wts) -> length t = N) -> zero_weight_annihilates c ->
  eval_masked dE dO c ts wts = Some (eval_plain dE c ts wts).
Proof.
  intros HN Hz. unfold eval_masked. destruct (cf_wzero c) as [wz|] eqn:Ez; [|reflexivity].
  cbv zeta. rewrite map_length, seq_length.
  destruct (1 <? batch_of wts) eqn:E1; [|reflexivity]. apply Nat.ltb_lt in E1.
  assert (Hne : wts <> []) by (intros ->; cbv in E1; lia).
  assert (Hw : forall t, In t wts -> length t = N) by (intros; apply HN; apply in_app_iff; auto).
  assert (Ht : forall t, In t ts -> length t = N) by (intros; apply HN; apply in_app_iff; auto).
  assert (Hbw : batch_of wts = N) by (apply batch_of_const; auto).
  assert (Hb : batch_of (ts ++ wts) = N).
  { apply batch_of_const; auto. intros X. apply app_eq_nil in X. tauto. }
  rewrite Hbw in *. set (mask := map _ (seq 0 N)).
  assert (Hm : length mask = N) by (unfold mask; now rewrite map_length, seq_length).
  assert (Hrow : forall l q, (forall t, In t l -> length t = N) -> rows_at l q = map (fun t => nth q t dE) l).
  { intros l q Hl. apply map_ext_in. intros t Hin. unfold Vec_model.rowat. rewrite (Hl t Hin).
    replace (N =? 1) with false; [reflexivity|]. symmetry. apply Nat.eqb_neq. lia. }
  rewrite (masked_eq c mask ts) by (intros t Hin; rewrite Hm; auto).
  unfold eval_plain. rewrite Hb.
  f_equal. apply map_ext_in. intros q Hq. apply in_seq in Hq. rewrite Hm, nth_map_seq by lia.
  rewrite (Hrow wts), (Hrow ts) by assumption.
  unfold mask. rewrite nth_map_seq by lia.
  destruct (wz (map (fun t => nth q t dE) wts)) eqn:Ew; simpl; [|reflexivity].
  symmetry. apply (Hz wz Ez). exact Ew.
Qed.

(** ---- one group of cost functions of the same schema ---- *)
Section Group.
Variable g : list cf.
Variable base : cf.
Variable rest : list cf.
Hypothesis Hg : g = base :: rest.
Variable st : vid -> list E.
Variable b : nat.
Hypothesis Hb : 1 <= b.
Let nv := length (all_vars_of base).
Hypothesis Hnv : forall c, In c g -> length (all_vars_of c) = nv.
Hypothesis Hst : forall c v, In c g -> In v (all_vars_of c) -> length (st v) = 1 \/ length (st v) = b.
Hypothesis Hinj : forall c c' v v', In c g -> In c' g -> In v (all_vars_of c) -> In v' (all_vars_of c') ->
  vn v = vn v' -> v = v'.

Let var (c : cf) (i : nat) : vid := nth i (all_vars_of c) 0.
Let key (i : nat) := key_at vn g i.

Lemma var_in c i : In c g -> i < nv -> In (var c i) (all_vars_of c).
Proof. intros Hc Hi. unfold var. apply nth_In. rewrite Hnv; auto. Qed.

Lemma base_in : In base g.
Proof. rewrite Hg. simpl. auto. Qed.

Lemma key_shared i n : key i = Shared n -> forall c, In c g -> vn (var c i) = n.
Proof.
  unfold key, key_at. intros H c Hc.
  destruct (nodup Nat.eq_dec (names_at vn g i)) as [|m [|? ?]] eqn:En; try discriminate.
  injection H as ->. apply nodup_single in En as [_ En]. apply En.
  unfold names_at. apply in_map_iff. exists c. auto.
Qed.

Lemma key_pos i j : key i = Pos j -> j = i.
Proof.
  unfold key, key_at. destruct (nodup Nat.eq_dec (names_at vn g i)) as [|m [|? ?]]; congruence.
Qed.

Lemma shared_var i j n : i < nv -> j < nv -> key i = Shared n -> key j = Shared n ->
  forall c c', In c g -> In c' g -> var c i = var c' j.
Proof.
  intros Hi Hj Ki Kj c c' Hc Hc'. apply (Hinj c c'); auto using var_in.
  rewrite (key_shared i n), (key_shared j n); auto.
Qed.

(** what [names_to_tensors] holds for position [i] after the cost functions [pre] *)
Definition texp (t : list E) : list E := if (1 <? length t) || (b =? 1) then t else expand dE t b.
Definition ex (pre : list cf) (i : nat) : option (list (list E)) :=
  match pre with
  | [] => None
  | _ => Some (if is_shared (key i)
               then let t := st (var base i) in if length t =? 1 then [t] else repeat t (length pre)
               else map (fun c => texp (st (var c i))) pre)
  end.

Lemma ex_nonempty pre i : pre <> [] ->
  ex pre i = Some (if is_shared (key i)
               then let t := st (var base i) in if length t =? 1 then [t] else repeat t (length pre)
               else map (fun c => texp (st (var c i))) pre).
Proof. destruct pre; [congruence|reflexivity]. Qed.

Lemma ex_key pre i j : i < nv -> j < nv -> key i = key j -> ex pre i = ex pre j.
Proof.
  intros Hi Hj Hk. unfold ex. destruct pre; [reflexivity|]. rewrite Hk.
  destruct (key j) as [n|m] eqn:Kj; simpl is_shared; cbv iota.
  - rewrite (shared_var i j n Hi Hj Hk Kj base base base_in base_in). reflexivity.
  - apply key_pos in Kj, Hk. now subst.
Qed.

Definition donej (j i : nat) : bool := existsb (fun j' => vkey_eqb (key j') (key i)) (seq 0 j).

Lemma is_shared_ex k : is_shared k = true -> exists n, k = Shared n.
Proof. destruct k; [eauto|discriminate]. Qed.

Lemma donej_S j i : donej (S j) i = donej j i || vkey_eqb (key j) (key i).
Proof.
  unfold donej. rewrite seq_S. rewrite existsb_app. simpl. now rewrite orb_false_r.
Qed.

Lemma repeat_snoc {A} (x : A) n : repeat x n ++ [x] = repeat x (S n).
Proof. induction n as [|n IH]; simpl; [reflexivity|]. now rewrite IH. Qed.

Lemma ex_snoc_push pre c i : In c g -> i < nv -> incl pre g ->
  (is_shared (key i) = true -> length (st (var base i)) = 1 -> pre = []) ->
  Some (match ex pre i with Some l => l ++ [if (1 <? length (st (var c i))) || (b =? 1) || is_shared (key i) then st (var c i) else expand dE (st (var c i)) b]
        | None => [if (1 <? length (st (var c i))) || (b =? 1) || is_shared (key i) then st (var c i) else expand dE (st (var c i)) b] end)
  = ex (pre ++ [c]) i.
Proof.
  intros Hc Hi Hincl Hsh. destruct (key i) as [n|m] eqn:Ki; simpl is_shared in *.
  - rewrite orb_true_r. rewrite (shared_var i i n Hi Hi Ki Ki c base Hc base_in).
    unfold ex. rewrite Ki. simpl is_shared. cbv iota.
    destruct (length (st (var base i)) =? 1) eqn:El.
    + apply Nat.eqb_eq in El. rewrite (Hsh eq_refl El). reflexivity.
    + destruct pre as [|p pre]; cbn [app]; cbv zeta.
      * reflexivity.
      * replace (length (p :: pre ++ [c])) with (S (length (p :: pre))) by (cbn; rewrite app_length; cbn; lia).
        now rewrite repeat_snoc.
  - rewrite orb_false_r. unfold ex. rewrite Ki. simpl is_shared. cbv iota.
    destruct pre as [|p pre]; simpl; [reflexivity|]. rewrite map_app. reflexivity.
Qed.

Lemma gather_vars_spec pre c : In c g -> incl pre g ->
  forall m j, j + m = nv -> forall seen (d : ntt),
  (forall k, existsb (vkey_eqb k) seen = true -> exists j', j' < j /\ key j' = k) ->
  (forall j', j' < j -> existsb (vkey_eqb (key j')) seen = false ->
     is_shared (key j') = true /\ length (st (var base j')) = 1) ->
  (forall i, i < nv -> ntt_get (key i) d = if donej j i then ex (pre ++ [c]) i else ex pre i) ->
  forall i, i < nv ->
  ntt_get (key i) (gather_vars dE st b (combine (map key (seq j m)) (skipn j (all_vars_of c))) seen d)
  = ex (pre ++ [c]) i.
Proof.
  intros Hc Hincl. induction m as [|m IH]; intros j Hjm seen d Hseen Hns Hd i Hi.
  - simpl. rewrite Hd by exact Hi.
    replace (donej j i) with true; [reflexivity|]. symmetry. unfold donej. apply existsb_exists.
    exists i. split; [apply in_seq; lia|]. now apply vkey_eqb_eq.
  - assert (Hj : j < nv) by lia.
    assert (Hsk : skipn j (all_vars_of c) = var c j :: skipn (S j) (all_vars_of c)).
    { clear -Hj Hc Hnv. specialize (Hnv c Hc). unfold var. revert Hj. rewrite <- Hnv. generalize (all_vars_of c).
      clear. induction j as [|j IH]; intros [|x l] Hl; simpl in *; try lia; [reflexivity|]. apply IH. lia. }
    rewrite Hsk. cbn [seq map combine gather_vars].
    assert (Hex_same : is_shared (key j) = true -> length (st (var base j)) = 1 -> pre <> [] ->
              forall i', i' < nv -> key i' = key j -> ex (pre ++ [c]) i' = ex pre i').
    { intros Hs Hl Hp i' Hi' Hk. rewrite (ex_key _ i' j), (ex_key pre i' j) by assumption.
      unfold ex. rewrite Hs. cbv zeta. rewrite Hl. simpl.
      destruct pre; [congruence|]. reflexivity. }
    (* generic step: skip *)
    assert (Hskip : (forall i', i' < nv -> key i' = key j -> donej j i' = true \/ ex (pre ++ [c]) i' = ex pre i') ->
       (existsb (vkey_eqb (key j)) seen = false -> is_shared (key j) = true /\ length (st (var base j)) = 1) ->
       ntt_get (key i) (gather_vars dE st b (combine (map key (seq (S j) m)) (skipn (S j) (all_vars_of c))) seen d)
       = ex (pre ++ [c]) i).
    { intros Hsk1 Hsk2. apply IH; auto; try lia.
      - intros k Hk. destruct (Hseen k Hk) as (j' & Hj' & E'). exists j'. split; [lia|exact E'].
      - intros j' Hj' Hf. destruct (Nat.eq_dec j' j) as [->|Hne]; [auto|]. apply Hns; [lia|exact Hf].
      - intros i' Hi'. rewrite donej_S. rewrite Hd by exact Hi'.
        destruct (donej j i') eqn:Ed; simpl; [reflexivity|].
        destruct (vkey_eqb (key j) (key i')) eqn:Ek; [|reflexivity].
        apply vkey_eqb_eq in Ek. destruct (Hsk1 i' Hi' (eq_sym Ek)); congruence. }
    destruct (existsb (vkey_eqb (key j)) seen) eqn:Es.
    + apply Hskip; [|congruence]. intros i' Hi' Hk. left. destruct (Hseen _ Es) as (j' & Hj' & E').
      unfold donej. apply existsb_exists. exists j'. split; [apply in_seq; lia|]. apply vkey_eqb_eq. congruence.
    + cbv zeta.
      destruct ((match ntt_get (key j) d with Some _ => true | None => false end) && is_shared (key j)
                && (length (st (var c j)) =? 1)) eqn:Econt.
      * apply andb_true_iff in Econt as [Econt El]. apply andb_true_iff in Econt as [Eg Esh].
        apply Nat.eqb_eq in El. destruct (is_shared_ex _ Esh) as [n Kj].
        rewrite (shared_var j j n Hj Hj Kj Kj c base Hc base_in) in El.
        apply Hskip; [|auto].
        intros i' Hi' Hk. destruct (donej j i') eqn:Ed; [auto|]. right.
        apply Hex_same; auto.
        intros ->. rewrite <- Hk, Hd, Ed in Eg by exact Hi'. discriminate.
      * (* push *)
        set (t' := if (1 <? length (st (var c j))) || (b =? 1) || is_shared (key j) then st (var c j)
                   else expand dE (st (var c j)) b).
        assert (Hnd : donej j j = false \/ (is_shared (key j) = true /\ length (st (var base j)) = 1 /\ donej j j = true)).
        { destruct (donej j j) eqn:Ed; [|auto]. right. unfold donej in Ed. apply existsb_exists in Ed as (j' & Hj' & Ek).
          apply in_seq in Hj'. apply vkey_eqb_eq in Ek. destruct (Hns j') as [A B]; [lia|rewrite Ek; exact Es|].
          rewrite Ek in A. split; [exact A|]. split; [|reflexivity].
          destruct (is_shared_ex _ A) as [n Kj].
          rewrite <- (shared_var j' j n ltac:(lia) Hj ltac:(congruence) Kj base base base_in base_in). exact B. }
        assert (Hnd' : donej j j = false).
        { destruct Hnd as [|(A & B & C)]; [assumption|exfalso].
          pose proof (Hd j Hj) as Hdj. rewrite C in Hdj.
          destruct (is_shared_ex _ A) as [n Kj].
          rewrite Hdj in Econt. rewrite A in Econt. rewrite (shared_var j j n Hj Hj Kj Kj c base Hc base_in), B in Econt.
          unfold ex in Econt. destruct (pre ++ [c]) eqn:Ep; [destruct pre; discriminate|]. simpl in Econt. discriminate. }
        apply IH; auto; try lia.
        -- intros k Hk. simpl in Hk. apply orb_true_iff in Hk as [Hk|Hk].
           ++ apply vkey_eqb_eq in Hk. exists j. split; [lia|auto].
           ++ destruct (Hseen k Hk) as (j' & Hj' & E'). exists j'. split; [lia|exact E'].
        -- intros j' Hj' Hf. simpl in Hf. apply orb_false_iff in Hf as [Hf1 Hf2].
           destruct (Nat.eq_dec j' j) as [->|Hne].
           ++ apply vkey_eqb_neq in Hf1. congruence.
           ++ apply Hns; [lia|exact Hf2].
        -- intros i' Hi'. rewrite ntt_get_push, donej_S.
           destruct (vkey_eqb (key i') (key j)) eqn:Ek.
           ++ apply vkey_eqb_eq in Ek. replace (vkey_eqb (key j) (key i')) with true by (symmetry; apply vkey_eqb_eq; auto).
              rewrite orb_true_r. rewrite (Hd j Hj), Hnd'. rewrite (ex_key (pre ++ [c]) i' j) by assumption.
              unfold t'. apply ex_snoc_push; auto.
              intros Hsh Hl. destruct pre as [|p pre']; [reflexivity|exfalso].
              rewrite (Hd j Hj), Hnd' in Econt. simpl in Econt. rewrite Hsh in Econt.
              destruct (is_shared_ex _ Hsh) as [n Kj].
              rewrite (shared_var j j n Hj Hj Kj Kj c base Hc base_in), Hl in Econt. simpl in Econt. discriminate.
           ++ replace (vkey_eqb (key j) (key i')) with false.
              ** rewrite orb_false_r. now apply Hd.
              ** symmetry. apply vkey_eqb_neq. apply vkey_eqb_neq in Ek. congruence.
Qed.

Lemma gather_spec i : i < nv ->
  ntt_get (key i) (gather dE st b (var_keys vn g) g) = ex g i.
Proof.
  intros Hi. unfold gather.
  assert (Hk : var_keys vn g = map key (seq 0 nv)) by (unfold var_keys; rewrite Hg at 1; reflexivity).
  rewrite Hk.
  assert (Hgen : forall l pre d, incl pre g -> incl l g ->
     (forall i, i < nv -> ntt_get (key i) d = ex pre i) ->
     forall i, i < nv -> ntt_get (key i) (fold_left (fun d c => gather_vars dE st b (combine (map key (seq 0 nv)) (all_vars_of c)) [] d) l d) = ex (pre ++ l) i).
  { induction l as [|c l IH]; intros pre d Hp Hl Hd i' Hi'; simpl.
    - rewrite app_nil_r. auto.
    - replace (pre ++ c :: l) with ((pre ++ [c]) ++ l) by (now rewrite <- app_assoc).
      apply IH; auto.
      + intros x Hx. apply in_app_iff in Hx as [Hx|[->|[]]]; [auto|apply Hl; simpl; auto].
      + intros x Hx. apply Hl. simpl; auto.
      + intros j Hj. apply (gather_vars_spec pre c) with (m := nv) (j := 0); auto.
        * apply Hl; simpl; auto.
        * intros k Hk'. discriminate.
        * intros j' Hj'. lia. }
  apply (Hgen g []); auto.
  - intros x [].
  - apply incl_refl.
Qed.

Lemma expand_length t n : length t = 1 -> length (expand dE t n) = n.
Proof. intros H. unfold expand. rewrite H. simpl. apply repeat_length. Qed.

Lemma texp_spec t : length t = 1 \/ length t = b -> length (texp t) = b /\ forall r, r < b -> nth r (texp t) dE = rowat t r.
Proof.
  intros H. unfold texp, rowat, Vec_model.rowat.
  destruct (1 <? length t) eqn:E1; simpl.
  - apply Nat.ltb_lt in E1. split; [lia|]. intros r Hr.
    replace (length t =? 1) with false; [reflexivity|]. symmetry. apply Nat.eqb_neq. lia.
  - apply Nat.ltb_ge in E1. destruct (b =? 1) eqn:E2.
    + apply Nat.eqb_eq in E2. split; [lia|]. intros r Hr. assert (r = 0) by lia. subst r.
      replace (length t =? 1) with true; [reflexivity|]. symmetry. apply Nat.eqb_eq. lia.
    + apply Nat.eqb_neq in E2. assert (Hl : length t = 1) by lia.
      split; [now apply expand_length|]. intros r Hr. unfold expand. rewrite Hl. simpl.
      clear -Hr. revert r Hr. generalize b. intros n. induction n as [|n IH]; intros r Hr; [lia|].
      destruct r; simpl; [reflexivity|]. apply IH. lia.
Qed.

Lemma nth_repeat_in {A} (x d : A) n r : r < n -> nth r (repeat x n) d = x.
Proof. revert r. induction n as [|n IH]; intros [|r] H; simpl; try lia; [reflexivity|]. apply IH. lia. Qed.

Hypothesis Hn2 : 2 <= length g.

(** the vectorized tensor of position [i] holds, in rows [k*b, (k+1)*b), the rows of the
    [k]-th cost function's variable, broadcast to [b] *)
Lemma vec_tensor_spec i : i < nv ->
  let t := vec_tensor dE (gather dE st b (var_keys vn g) g) b (length g) (key i) in
  length t = length g * b /\
  forall k c r, nth_error g k = Some c -> r < b -> nth (k * b + r) t dE = rowat (st (var c i)) r.
Proof.
  intros Hi. cbv zeta. unfold vec_tensor. rewrite gather_spec by exact Hi.
  replace (length g =? 1) with false by (symmetry; apply Nat.eqb_neq; lia).
  assert (Hne : g <> []) by (rewrite Hg; discriminate).
  rewrite (ex_nonempty g i Hne).
  destruct (key i) as [n|m] eqn:Ki; simpl is_shared; cbv iota zeta.
  - set (t := st (var base i)).
    assert (Ht : length t = 1 \/ length t = b) by (apply (Hst base); auto using base_in, var_in).
    assert (Hv : forall k c, nth_error g k = Some c -> st (var c i) = t).
    { intros k c Hc. unfold t. f_equal. apply (shared_var i i n Hi Hi Ki Ki); auto using base_in. eapply nth_error_In; eauto. }
    destruct (length t =? 1) eqn:El.
    + simpl nth. rewrite El. simpl andb. cbv iota. apply Nat.eqb_eq in El. split.
      * rewrite expand_length by exact El. lia.
      * intros k c r Hc Hr. rewrite (Hv k c Hc). unfold expand, rowat, Vec_model.rowat. rewrite El. simpl.
        apply nth_repeat_in. assert (k < length g) by (apply nth_error_Some; congruence). nia.
    + assert (Hfirst : nth 0 (repeat t (length g)) [] = t) by (apply nth_repeat_in; lia).
      rewrite Hfirst, El. simpl andb. cbv iota. apply Nat.eqb_neq in El. assert (Hl : length t = b) by lia.
      assert (Hall : forall x, In x (repeat t (length g)) -> length x = b) by (intros x Hx; apply repeat_spec in Hx; congruence).
      split; [rewrite (concat_length b) by exact Hall; now rewrite repeat_length|].
      intros k c r Hc Hr. assert (Hk : k < length g) by (apply nth_error_Some; congruence).
      rewrite (nth_concat_blocks dE b) by (auto; now rewrite repeat_length).
      rewrite nth_repeat_in by exact Hk. rewrite (Hv k c Hc). unfold rowat, Vec_model.rowat.
      apply Nat.eqb_neq in El. now rewrite El.
  - assert (Hall : forall x, In x (map (fun c => texp (st (var c i))) g) -> length x = b).
    { intros x Hx. apply in_map_iff in Hx as (c & <- & Hc). apply texp_spec. apply (Hst c); auto using var_in. }
    cbn [andb]. cbv iota.
    split; [rewrite (concat_length b) by exact Hall; now rewrite map_length|].
    intros k c r Hc Hr. assert (Hk : k < length g) by (apply nth_error_Some; congruence).
    rewrite (nth_concat_blocks dE b) by (auto; now rewrite map_length).
    rewrite (nth_error_nth _ k [] (map_nth_error (fun c => texp (st (var c i))) k g Hc)).
    apply texp_spec; [|exact Hr]. apply (Hst c); [eapply nth_error_In; eauto|].
    apply var_in; [eapply nth_error_In; eauto|exact Hi].
Qed.

Hypothesis Hnv0 : 0 < nv.
Hypothesis Hsame : forall c, In c g -> same_function c base.

Let vts := map (vec_tensor dE (gather dE st b (var_keys vn g) g) b (length g)) (var_keys vn g).
Let N := length g * b.

Lemma var_keys_eq : var_keys vn g = map key (seq 0 nv).
Proof. unfold var_keys. rewrite Hg at 1. reflexivity. Qed.

Lemma vts_eq : vts = map (fun i => vec_tensor dE (gather dE st b (var_keys vn g) g) b (length g) (key i)) (seq 0 nv).
Proof.
  transitivity (map (vec_tensor dE (gather dE st b (var_keys vn g) g) b (length g)) (map key (seq 0 nv))).
  - unfold vts. f_equal. apply var_keys_eq.
  - apply map_map.
Qed.

Lemma vts_len : length vts = nv.
Proof. now rewrite vts_eq, map_length, seq_length. Qed.

Lemma vts_tensor_len t : In t vts -> length t = N.
Proof.
  rewrite vts_eq. intros H. apply in_map_iff in H as (i & <- & Hi).
  apply in_seq in Hi. apply vec_tensor_spec. lia.
Qed.

Lemma N_ge2 : 2 <= N.
Proof. unfold N. nia. Qed.

Lemma vts_rows k c r : nth_error g k = Some c -> r < b ->
  map (fun t => nth (k * b + r) t dE) vts = map (fun v => rowat (st v) r) (all_vars_of c).
Proof.
  intros Hc Hr. assert (Hin : In c g) by (eapply nth_error_In; eauto).
  rewrite vts_eq, map_map.
  replace (all_vars_of c) with (map (var c) (seq 0 nv)) at 1.
  - rewrite map_map. apply map_ext_in. intros i Hi. apply in_seq in Hi.
    apply vec_tensor_spec; auto; lia.
  - unfold var. rewrite <- (Hnv c Hin). clear. generalize (all_vars_of c) as l.
    induction l as [|x l IH]; simpl; [reflexivity|]. f_equal. rewrite <- seq_shift, map_map. exact IH.
Qed.

Let nc := length (cf_vars base).
Let ts := firstn nc vts.
Let wts := skipn nc vts.

Lemma ts_rows k c r : nth_error g k = Some c -> r < b ->
  map (fun t => nth (k * b + r) t dE) ts = map (fun v => rowat (st v) r) (cf_vars c) /\
  map (fun t => nth (k * b + r) t dE) wts = map (fun v => rowat (st v) r) (cf_wvars c).
Proof.
  intros Hc Hr. pose proof (vts_rows k c r Hc Hr) as H.
  destruct (Hsame c) as (L1 & L2 & _ & _); [eapply nth_error_In; eauto|].
  unfold ts, wts. rewrite <- firstn_map, <- skipn_map, H. unfold all_vars_of. rewrite map_app.
  unfold nc. rewrite <- L1, <- (map_length (fun v => rowat (st v) r) (cf_vars c)).
  rewrite firstn_app, firstn_all, Nat.sub_diag, skipn_app, skipn_all, Nat.sub_diag. simpl.
  split; [apply app_nil_r|reflexivity].
Qed.

Lemma rows_at_nth (l : list (list E)) q : (forall t, In t l -> length t = N) ->
  rows_at l q = map (fun t => nth q t dE) l.
Proof.
  intros H. apply map_ext_in. intros t Ht. unfold Vec_model.rowat. rewrite (H t Ht).
  pose proof N_ge2. replace (N =? 1) with false; [reflexivity|]. symmetry. apply Nat.eqb_neq. lia.
Qed.

Lemma ts_sub t : In t ts -> length t = N.
Proof. intros H. apply vts_tensor_len. unfold ts in H. rewrite <- (firstn_skipn nc vts). apply in_app_iff. auto. Qed.
Lemma wts_sub t : In t wts -> length t = N.
Proof. intros H. apply vts_tensor_len. unfold wts in H. rewrite <- (firstn_skipn nc vts). apply in_app_iff. auto. Qed.

Lemma batch_vts : batch_of (ts ++ wts) = N.
Proof.
  unfold ts, wts. rewrite firstn_skipn. apply batch_of_const.
  - intros H. pose proof vts_len as Hl. rewrite H in Hl. simpl in Hl. lia.
  - apply vts_tensor_len.
Qed.

(** evaluating row q of the vectorized cost function *)
Definition vrow (q : nat) : O :=
  cf_weigh base (map (fun t => nth q t dE) wts) (cf_row base (map (fun t => nth q t dE) ts)).

Lemma eval_plain_vrow : eval_plain dE base ts wts = map vrow (seq 0 N).
Proof.
  unfold eval_plain. rewrite batch_vts. apply map_ext. intros q. unfold vrow.
  rewrite (rows_at_nth ts), (rows_at_nth wts); auto using ts_sub, wts_sub.
Qed.

Lemma nth_error_split_k q : q < N -> exists k r c, q = k * b + r /\ r < b /\ nth_error g k = Some c.
Proof.
  intros Hq. unfold N in Hq. exists (q / b), (q mod b).
  assert (Hk : q / b < length g) by (apply Nat.div_lt_upper_bound; lia).
  destruct (nth_error g (q / b)) as [c|] eqn:Ec; [|apply nth_error_None in Ec; lia].
  exists c. split; [|split; [apply Nat.mod_upper_bound; lia|reflexivity]].
  rewrite (Nat.div_mod q b) at 1 by lia. lia.
Qed.

Lemma slices_own : map (fun k => firstn b (skipn (k * b) (map vrow (seq 0 N)))) (seq 0 (length g)) =
  map (own_result dE st b) g.
Proof.
  assert (Hgen : forall k, k < length g -> firstn b (skipn (k * b) (map vrow (seq 0 N))) =
      match nth_error g k with Some c => own_result dE st b c | None => [] end).
  { intros k Hk. unfold N. rewrite slice_map_seq by exact Hk.
    destruct (nth_error g k) as [c|] eqn:Ec; [|apply nth_error_None in Ec; lia].
    unfold own_result. apply map_ext_in. intros r Hr. apply in_seq in Hr. unfold vrow.
    destruct (ts_rows k c r Ec) as [-> ->]; [lia|].
    destruct (Hsame c) as (_ & _ & F1 & F2); [eapply nth_error_In; eauto|]. now rewrite F1, F2. }
  rewrite (map_ext_in _ (fun k => match nth_error g k with Some c => own_result dE st b c | None => [] end)).
  - clear. generalize (fun c : cf => own_result dE st b c) as f. intros f. generalize g as l. clear.
    induction l as [|x l IH]; simpl; [reflexivity|]. f_equal. rewrite <- seq_shift, map_map. exact IH.
  - intros k Hk. apply in_seq in Hk. apply Hgen. lia.
Qed.

Hypothesis Hzero : zero_weight_annihilates base.

Lemma eval_masked_vrow : eval_masked dE dO base ts wts = Some (map vrow (seq 0 N)).
Proof.
  rewrite (eval_masked_plain base ts wts N); [now rewrite eval_plain_vrow| |exact Hzero].
  intros t Ht. apply in_app_iff in Ht as [Ht|Ht]; auto using ts_sub, wts_sub.
Qed.

Lemma run_group_spec full : run_group dE dO vn full st b g = Some (map (own_result dE st b) g).
Proof.
  assert (Hr : run_group dE dO vn full st b g =
    match (if full then eval_masked dE dO base ts wts else Some (eval_plain dE base ts wts)) with
    | None => None
    | Some out => Some (map (fun k => firstn b (skipn (k * b) out)) (seq 0 (length g)))
    end).
  { unfold run_group. rewrite Hg at 1. reflexivity. }
  rewrite Hr. destruct full.
  - rewrite eval_masked_vrow. f_equal. apply slices_own.
  - rewrite eval_plain_vrow. f_equal. apply slices_own.
Qed.
End Group.
End V.
