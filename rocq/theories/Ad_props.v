(** AutoDiffCostFunction returns the exact Jacobians: proofs. *)
From Coq Require Import List Arith Reals Lia Lra.
From Coquelicot Require Import Derive.
Import ListNotations.
From Verif Require Import RSum Adj_props Ad_model Ad_spec.
Local Open Scope R_scope.

(** ---- lists ---- *)
Lemma mapi_seq {A B} (d : A) (f : nat -> A -> B) l : mapi f l = map (fun i => f i (nth i l d)) (seq 0 (length l)).
Proof.
  unfold mapi. assert (G : forall s (g : nat -> A -> B), map (fun p => g (fst p) (snd p)) (combine (seq s (length l)) l) = map (fun i => g (s + i)%nat (nth i l d)) (seq 0 (length l))).
  { induction l as [|x l IH]; intros s g; [reflexivity|]. cbn [length seq combine map]. f_equal; [cbn; now rewrite Nat.add_0_r|].
    rewrite (IH (S s) g). rewrite <- seq_shift, map_map. apply map_ext. intro i. cbn [nth]. f_equal. lia. }
  rewrite (G 0%nat f). reflexivity.
Qed.
Lemma length_mapi {A B} (f : nat -> A -> B) l : length (mapi f l) = length l.
Proof. unfold mapi. rewrite map_length, combine_length, seq_length. lia. Qed.
Lemma nth_map_seq {B} (d : B) (f : nat -> B) n i : (i < n)%nat -> nth i (map f (seq 0 n)) d = f i.
Proof.
  intro H. rewrite (nth_indep _ d (f (nth i (seq 0 n) 0%nat))) by (rewrite map_length, seq_length; exact H).
  rewrite map_nth, seq_nth by exact H. reflexivity.
Qed.
Lemma sequence_map {A B} (f : A -> option B) (g : A -> B) l : (forall x, In x l -> f x = Some (g x)) -> sequence (map f l) = Some (map g l).
Proof.
  induction l as [|x l IH]; intro H; [reflexivity|]. cbn. rewrite (H x) by now left. rewrite IH; [reflexivity|].
  intros y Hy. apply H. now right.
Qed.
Lemma sequence_none {A B} (f : A -> option B) l x : In x l -> f x = None -> sequence (map f l) = None.
Proof.
  induction l as [|y l IH]; intros [] E; cbn.
  - subst. now rewrite E.
  - destruct (f y); [rewrite IH; trivial|reflexivity].
Qed.
Lemma length_modify {A} n (f : A -> A) l : length (modify n f l) = length l.
Proof. revert n; induction l as [|x l IH]; intros [|n]; cbn; auto. Qed.
Lemma nth_modify {A} n (f : A -> A) l i d : (n < length l)%nat -> nth i (modify n f l) d = if (i =? n)%nat then f (nth i l d) else nth i l d.
Proof.
  revert n i; induction l as [|x l IH]; intros n i Hn; [cbn in Hn; lia|].
  destruct n as [|n], i as [|i]; cbn; auto. apply IH. cbn in Hn. lia.
Qed.
Lemma modify_ext_nth {A} n (f g : A -> A) l d : (n < length l)%nat -> f (nth n l d) = g (nth n l d) -> modify n f l = modify n g l.
Proof.
  revert n; induction l as [|x l IH]; intros n Hn E; [cbn in Hn; lia|].
  destruct n as [|n]; cbn in *; [now rewrite E|]. f_equal. apply IH; [lia|exact E].
Qed.
Lemma map_modify {A B} (h : A -> B) n (f : A -> A) (f' : B -> B) l d : (n < length l)%nat -> h (f (nth n l d)) = f' (h (nth n l d)) -> map h (modify n f l) = modify n f' (map h l).
Proof.
  revert n; induction l as [|x l IH]; intros n Hn E; [cbn in Hn; lia|].
  destruct n as [|n]; cbn in *; [now rewrite E|]. f_equal. apply IH; [lia|exact E].
Qed.
Lemma map_modify_same {A B} (h : A -> B) n (f : A -> A) l d : (n < length l)%nat -> h (f (nth n l d)) = h (nth n l d) -> map h (modify n f l) = map h l.
Proof.
  revert n; induction l as [|x l IH]; intros n Hn E; [cbn in Hn; lia|].
  destruct n as [|n]; cbn in *; [now rewrite E|]. f_equal. apply IH; [lia|exact E].
Qed.
Lemma Forall2_nth {A B} (P : A -> B -> Prop) la lb da db k : Forall2 P la lb -> (k < length lb)%nat -> P (nth k la da) (nth k lb db).
Proof. intro H. revert k. induction H; intros [|k] Hk; cbn in *; try lia; auto. apply IHForall2. lia. Qed.
Lemma Forall2_modify {A B} (P : A -> B -> Prop) la lb k f : Forall2 P la lb -> (forall x y, P x y -> P x (f y)) -> Forall2 P la (modify k f lb).
Proof. intros H Hf. revert k. induction H; intros [|k]; cbn; constructor; auto. Qed.
Lemma Forall2_map_r {A B C} (P : A -> C -> Prop) (h : B -> C) la lb : Forall2 (fun a b => P a (h b)) la lb -> Forall2 P la (map h lb).
Proof. induction 1; cbn; constructor; auto. Qed.
Lemma Forall2_weak {A B} (P Q : A -> B -> Prop) la lb : (forall a b, In b lb -> P a b -> Q a b) -> Forall2 P la lb -> Forall2 Q la lb.
Proof. intros H F. induction F; constructor; [apply H; [now left|assumption]|apply IHF; intros; apply H; [now right|assumption]]. Qed.

Lemma in_modify {A} k (f : A -> A) l x : In x (modify k f l) -> In x l \/ exists y, In y l /\ x = f y.
Proof.
  revert k; induction l as [|y l IH]; intros [|k] H; cbn in H; try contradiction.
  - destruct H as [<-|H]; [right; exists y; split; [now left|reflexivity]|left; now right].
  - destruct H as [<-|H]; [left; now left|]. destruct (IH _ H) as [H'|(z & H' & ->)]; [left; now right|right; exists z; split; [now right|reflexivity]].
Qed.

(** ---- broadcasting ---- *)
Lemma wide_modify ws ts k b j t : wide ws ts -> wide ws (modify k (modify b (modify j (Rplus t))) ts).
Proof.
  intro H. apply Forall2_modify; [exact H|]. intros w x Hx r Hr. apply in_modify in Hr. destruct Hr as [Hr|(y & Hy & ->)]; [auto|].
  rewrite length_modify. auto.
Qed.
Lemma broadcast_modify ts k b j t aus n : broadcast (ts ++ aus) n -> broadcast (modify k (modify b (modify j (Rplus t))) ts ++ aus) n.
Proof.
  intros [(x & Hx & Hl) H]. split.
  - apply in_app_or in Hx. destruct Hx as [Hx|Hx]; [|exists x; split; [apply in_or_app; now right|exact Hl]].
    destruct (In_nth _ _ [] Hx) as (i & Hi & E). exists (nth i (modify k (modify b (modify j (Rplus t))) ts) []). split.
    + apply in_or_app. left. apply nth_In. now rewrite length_modify.
    + destruct (Nat.lt_ge_cases k (length ts)) as [Hk|Hk].
      * rewrite nth_modify by exact Hk. destruct (i =? k)%nat; [rewrite length_modify|]; subst x; exact Hl.
      * replace (modify k (modify b (modify j (Rplus t))) ts) with ts; [subst x; exact Hl|].
        clear - Hk. revert k Hk. induction ts as [|y ts IH]; intros [|k] Hk; cbn in *; auto; try lia. f_equal. apply IH. lia.
  - intros y Hy. apply in_app_or in Hy. destruct Hy as [Hy|Hy]; [|apply H, in_or_app; now right].
    apply in_modify in Hy. destruct Hy as [Hy|(z & Hz & ->)]; [apply H, in_or_app; now left|].
    rewrite length_modify. apply H, in_or_app. now left.
Qed.

Section Rowwise.
Variables (F : list tensor -> list tensor -> option tensor) (E : list row -> list row -> row) (wo wa : list nat) (dim : nat).
Hypothesis RW : rowwise F E wo wa dim.

(** the partial derivatives of one row of the error *)
Definition partial (os aus : list row) (k i j : nat) : R := Derive (fun t => nth i (E (modify k (modify j (Rplus t)) os) aus) 0) 0.
(** the Euclidean Jacobians every mode should compute *)
Definition raw (os aus : list tensor) (n : nat) : list (list (list row)) :=
  map (fun k => map (fun b => map (fun i => map (fun j => partial (map (brow b) os) (map (brow b) aus) k i j)
    (seq 0 (nth k wo 0%nat))) (seq 0 dim)) (seq 0 n)) (seq 0 (length os)).

Lemma wide_rows ws (ts : list tensor) n b : wide ws ts -> (forall t, In t ts -> length t = n \/ length t = 1%nat) -> (b < n)%nat -> Forall2 (fun w r => length r = w) ws (map (brow b) ts).
Proof.
  intros H L Hb. apply Forall2_map_r. eapply Forall2_weak; [|exact H]. cbn. intros w t Ht Hw. apply Hw. unfold brow.
  destruct (Nat.eqb_spec (length t) 1) as [E1|E1]; apply nth_In; [lia|]. destruct (L t Ht); lia.
Qed.
Lemma E_length os aus n b : wide wo os -> wide wa aus -> broadcast (os ++ aus) n -> (b < n)%nat -> length (E (map (brow b) os) (map (brow b) aus)) = dim.
Proof.
  intros Wo Wa [_ B] Hb. apply (proj2 RW); eapply wide_rows; try eassumption; intros t Ht; apply B, in_or_app; auto.
Qed.

(** ---- VMAP ---- *)
Lemma singles_wide ws rs : Forall2 (fun w r => length r = w) ws rs -> wide ws (map (fun r : row => [r]) rs).
Proof. intro H. apply Forall2_map_r. eapply Forall2_weak; [|exact H]. cbn. intros w r _ Hw r' [<-|[]]. exact Hw. Qed.
Lemma singles_broadcast os aus : os <> [] -> broadcast (map (fun r : row => [r]) os ++ map (fun r : row => [r]) aus) 1.
Proof.
  intro Ho. destruct os as [|o os]; [congruence|]. split; [exists [o]; split; [now left|reflexivity]|].
  intros t Ht. right. apply in_app_or in Ht. destruct Ht as [Ht|Ht]; apply in_map_iff in Ht; destruct Ht as (r & <- & _); reflexivity.
Qed.
Lemma singles_row os : map (brow 0) (map (fun r : row => [r]) os) = os.
Proof. rewrite map_map. cbn. apply map_id. Qed.
Lemma jac_fn_vmap_row os aus : os <> [] -> Forall2 (fun w r => length r = w) wo os -> Forall2 (fun w r => length r = w) wa aus ->
  jac_fn_vmap F aus os = Some (E os aus).
Proof.
  intros Ho Wo Wa. unfold jac_fn_vmap. rewrite (proj1 RW _ _ 1%nat); [|now apply singles_wide|now apply singles_wide|now apply singles_broadcast].
  cbn [seq map]. now rewrite !singles_row.
Qed.
Lemma jacrev_row os aus : os <> [] -> Forall2 (fun w r => length r = w) wo os -> Forall2 (fun w r => length r = w) wa aus ->
  jacrev (jac_fn_vmap F aus) os = Some (map (fun k => map (fun i => map (fun j => partial os aus k i j) (seq 0 (nth k wo 0%nat))) (seq 0 dim)) (seq 0 (length os))).
Proof.
  intros Ho Wo Wa. unfold jacrev. rewrite jac_fn_vmap_row by assumption. f_equal. rewrite (mapi_seq []). apply map_ext_in. intros k Hk. apply in_seq in Hk.
  rewrite (mapi_seq 0). rewrite (proj2 RW) by assumption. apply map_ext_in. intros i Hi. rewrite (mapi_seq 0).
  rewrite <- (Forall2_nth _ _ _ 0%nat [] k Wo) by lia. apply map_ext_in. intros j Hj. unfold partial. apply Derive_ext. intro t.
  rewrite jac_fn_vmap_row; [reflexivity| |..]; trivial.
  - intro Hn. apply Ho. destruct os; [reflexivity|]. destruct k; discriminate.
  - apply Forall2_modify; [exact Wo|]. intros w r Hr. now rewrite length_modify.
Qed.

Lemma nodup_le1 (n : nat) l : (forall x, In x l -> x = n \/ x = 1%nat) -> (length (nodup Nat.eq_dec l) <= 2)%nat.
Proof.
  intro H. assert (I : incl (nodup Nat.eq_dec l) [n; 1%nat]). { intros x Hx. apply nodup_In in Hx. destruct (H x Hx) as [->| ->]; cbn; auto. }
  apply (NoDup_incl_length (NoDup_nodup Nat.eq_dec l)) in I. exact I.
Qed.
Lemma sizes_fine ts n : (1 <= n)%nat -> broadcast ts n -> sizes_ok ts = true /\ batch_size ts = n.
Proof.
  intros Hn [(t0 & H0 & L0) B]. unfold sizes_ok, batch_size, sizes_of. set (l := map (@length row) ts).
  assert (Hin : In n l) by (apply in_map_iff; exists t0; split; [exact L0|exact H0]).
  assert (Hl : forall x, In x l -> x = n \/ x = 1%nat). { intros x Hx. apply in_map_iff in Hx. destruct Hx as (t & <- & Ht). auto. }
  split.
  - pose proof (nodup_le1 n l Hl) as H2. destruct (nodup Nat.eq_dec l) as [|x [|y [|z r]]] eqn:En.
    + apply (nodup_In Nat.eq_dec) in Hin. rewrite En in Hin. destruct Hin.
    + reflexivity.
    + pose proof (NoDup_nodup Nat.eq_dec l) as ND. rewrite En in ND. apply NoDup_cons_iff in ND. destruct ND as [Hxy ND'].
      assert (Hx : x = n \/ x = 1%nat) by (apply Hl, (nodup_In Nat.eq_dec); rewrite En; now left).
      assert (Hy : y = n \/ y = 1%nat) by (apply Hl, (nodup_In Nat.eq_dec); rewrite En; right; now left).
      assert (x <> y) by (intros ->; apply Hxy; now left).
      assert (x = 1%nat \/ y = 1%nat) by lia. cbn. destruct (Nat.eqb_spec x 1), (Nat.eqb_spec y 1); try lia; cbn;
        destruct x, y; trivial; lia.
    + clear - H2; cbn [length] in H2; lia.
  - apply Nat.le_antisymm.
    + apply list_max_le, Forall_forall. intros x Hx. apply nodup_In in Hx. destruct (Hl x Hx); lia.
    + assert (Hin' : In n (nodup Nat.eq_dec l)) by now apply nodup_In.
      pose proof (proj1 (list_max_le (nodup Nat.eq_dec l) _) (le_n _)) as Hm. rewrite Forall_forall in Hm. now apply Hm.
Qed.

Lemma nth_repeat_lt {A} (x d : A) n b : (b < n)%nat -> nth b (repeat x n) d = x.
Proof. revert b; induction n as [|n IH]; intros [|b] H; cbn; try lia; trivial. apply IH. lia. Qed.
Lemma expand_row (ts : list tensor) n b : (forall t, In t ts -> length t = n \/ length t = 1%nat) -> (b < n)%nat -> map (fun t => nth b t []) (expand_all ts n) = map (brow b) ts.
Proof.
  intros L Hb. unfold expand_all. rewrite map_map. apply map_ext_in. intros t Ht. change (nth b (if (@length row t =? n)%nat then t else repeat (nth 0 t []) n) [] = brow b t).
  unfold brow. destruct (Nat.eqb_spec (@length row t) n) as [E1|E1].
  - destruct (Nat.eqb_spec (length t) 1) as [E2|_]; [|reflexivity]. pose proof (eq_trans (eq_sym E1) E2) as E3. f_equal; lia.
  - destruct (L t Ht) as [E2|E2]; [contradiction|]. rewrite E2. cbn [Nat.eqb]. apply nth_repeat_lt. exact Hb.
Qed.

Lemma stack_map n N (f : nat -> nat -> list row) : stack_by_var N (map (fun b => map (fun k => f k b) (seq 0 N)) (seq 0 n)) = map (fun k => map (f k) (seq 0 n)) (seq 0 N).
Proof.
  unfold stack_by_var. apply map_ext_in. intros k Hk. apply in_seq in Hk. rewrite map_map. apply map_ext_in. intros b Hb. apply (nth_map_seq [] (fun k0 => f k0 b)). lia.
Qed.

Theorem vmap_raw os aus n : os <> [] -> (1 <= n)%nat -> wide wo os -> wide wa aus -> broadcast (os ++ aus) n -> jacobian_vmap F os aus = Some (raw os aus n).
Proof.
  intros Ho Hn Wo Wa B. unfold jacobian_vmap. destruct (sizes_fine _ _ Hn B) as [-> ->].
  assert (Lo : forall t, In t os -> length t = n \/ length t = 1%nat) by (intros; apply B, in_or_app; now left).
  assert (La : forall t, In t aus -> length t = n \/ length t = 1%nat) by (intros; apply B, in_or_app; now right).
  rewrite (sequence_map _ (fun b => map (fun k => map (fun i => map (fun j => partial (map (brow b) os) (map (brow b) aus) k i j) (seq 0 (nth k wo 0%nat))) (seq 0 dim)) (seq 0 (length os)))).
  - rewrite stack_map. reflexivity.
  - intros b Hb. apply in_seq in Hb. rewrite !(expand_row _ n b) by (trivial; lia). rewrite jacrev_row.
    + now rewrite map_length.
    + intro H. apply map_eq_nil in H. congruence.
    + apply (wide_rows _ _ n); trivial; lia.
    + apply (wide_rows _ _ n); trivial; lia.
Qed.

(** ---- one call to autograd.functional.jacobian ---- *)
Lemma autograd_rows os aus n : (1 <= n)%nat -> (1 <= dim)%nat -> wide wo os -> wide wa aus -> broadcast (os ++ aus) n ->
  autograd (fun o => F o aus) os = Some (map (fun k => map (fun b => map (fun i => map (fun b' => map (fun j =>
    Derive (fun t => nth i (E (map (brow b) (modify k (modify b' (modify j (Rplus t))) os)) (map (brow b) aus)) 0) 0)
    (seq 0 (nth k wo 0%nat))) (seq 0 (length (nth k os [])))) (seq 0 dim)) (seq 0 n)) (seq 0 (length os))).
Proof.
  intros Hn Hd Wo Wa B. unfold autograd. rewrite (proj1 RW _ _ _ Wo Wa B).
  set (y := map (fun b => E (map (brow b) os) (map (brow b) aus)) (seq 0 n)).
  assert (Ly : length y = n) by (unfold y; now rewrite map_length, seq_length).
  assert (Lb : forall b, (b < n)%nat -> length (nth b y []) = dim) by (intros b Hb; unfold y; rewrite nth_map_seq by exact Hb; now apply (E_length _ _ n)).
  assert (Hc : (length (concat y) =? 0)%nat = false).
  { apply Nat.eqb_neq. destruct y as [|r y']; [cbn in Ly; lia|]. cbn. rewrite app_length. specialize (Lb 0%nat). cbn in Lb. lia. }
  rewrite Hc. f_equal. rewrite (mapi_seq []). apply map_ext_in. intros k Hk. apply in_seq in Hk.
  rewrite (mapi_seq ([] : row)). replace (length y) with n by (symmetry; exact Ly). apply map_ext_in. intros b Hb. apply in_seq in Hb.
  rewrite (mapi_seq 0). replace (length (nth b y [])) with dim by (symmetry; apply Lb; lia). apply map_ext_in. intros i Hi. rewrite (mapi_seq []). apply map_ext_in. intros b' Hb'. apply in_seq in Hb'. rewrite (mapi_seq 0).
  replace (length (nth b' (nth k os []) [])) with (nth k wo 0%nat).
  2:{ symmetry. apply (Forall2_nth _ _ _ 0%nat [] k Wo); [lia|]. apply nth_In. lia. }
  apply map_ext_in. intros j Hj. apply Derive_ext. intro t.
  rewrite (proj1 RW _ _ n) by (first [exact Wa | now apply wide_modify | now apply broadcast_modify]).
  rewrite nth_map_seq by lia. reflexivity.
Qed.
Lemma autograd_empty os aus : wide wo os -> wide wa aus -> broadcast (os ++ aus) 0 -> autograd (fun o => F o aus) os = None.
Proof. intros Wo Wa B. unfold autograd. now rewrite (proj1 RW _ _ _ Wo Wa B). Qed.

Lemma bump_same_row os k b j t n : (k < length os)%nat -> length (nth k os []) = n -> (b < n)%nat ->
  map (brow b) (modify k (modify b (modify j (Rplus t))) os) = modify k (modify j (Rplus t)) (map (brow b) os).
Proof.
  intros Hk L Hb. apply (map_modify _ _ _ _ _ []); [exact Hk|]. unfold brow. rewrite length_modify, L.
  destruct (Nat.eqb_spec n 1) as [->|_].
  - assert (b = 0%nat) by lia. subst b. rewrite nth_modify by lia. reflexivity.
  - rewrite nth_modify by lia. now rewrite Nat.eqb_refl.
Qed.

(** ---- DENSE ---- *)
Lemma pick_map n w (f : nat -> nat -> nat -> row) (nb : nat) : (n <= nb)%nat ->
  pick n (map (fun b => map (fun i => map (fun b' => f b i b') (seq 0 nb)) (seq 0 w)) (seq 0 n)) = Some (map (fun b => map (fun i => f b i b) (seq 0 w)) (seq 0 n)).
Proof.
  intro Hn. unfold pick. apply sequence_map. intros b Hb. apply in_seq in Hb.
  rewrite nth_error_map. replace (nth_error (seq 0 n) b) with (Some b).
  2:{ symmetry. rewrite (nth_error_nth' _ 0%nat) by (rewrite seq_length; lia). f_equal. apply seq_nth. lia. }
  cbn [option_map]. rewrite map_map. apply sequence_map. intros i Hi. rewrite nth_error_map.
  replace (nth_error (seq 0 nb) b) with (Some b); [reflexivity|].
  symmetry. rewrite (nth_error_nth' _ 0%nat) by (rewrite seq_length; lia). f_equal. apply seq_nth. lia.
Qed.
Theorem dense_raw os aus n err : os <> [] -> (1 <= n)%nat -> (1 <= dim)%nat -> wide wo os -> wide wa aus -> broadcast (os ++ aus) n ->
  length err = n -> (forall t, In t os -> length t = n) -> jacobian_dense F err os aus = Some (raw os aus n).
Proof.
  intros Ho Hn Hd Wo Wa B Le Lo. unfold jacobian_dense. rewrite (autograd_rows os aus n) by assumption. rewrite Le. rewrite map_map.
  apply sequence_map. intros k Hk. apply in_seq in Hk. assert (Lk : length (nth k os []) = n) by (apply Lo, nth_In; lia). rewrite Lk.
  rewrite pick_map by lia. f_equal. apply map_ext_in. intros b Hb. apply in_seq in Hb. apply map_ext_in. intros i Hi. apply map_ext_in. intros j Hj.
  unfold partial. apply Derive_ext. intro t. rewrite (bump_same_row _ _ _ _ _ n); trivial; lia.
Qed.
(** a batch-1 optimization variable in a larger batch: IndexError *)
Theorem dense_raises os aus n err t : (2 <= n)%nat -> (1 <= dim)%nat -> wide wo os -> wide wa aus -> broadcast (os ++ aus) n ->
  length err = n -> In t os -> length t = 1%nat -> jacobian_dense F err os aus = None.
Proof.
  intros Hn Hd Wo Wa B Le Ht L1. unfold jacobian_dense. rewrite (autograd_rows os aus n) by (trivial; lia). rewrite Le, map_map.
  destruct (In_nth _ _ [] Ht) as (k & Hk & E1). apply (sequence_none _ _ k); [apply in_seq; lia|]. rewrite E1, L1.
  unfold pick. apply (sequence_none _ _ 1%nat); [apply in_seq; lia|]. rewrite nth_error_map.
  replace (nth_error (seq 0 n) 1) with (Some 1%nat).
  2:{ symmetry. rewrite (nth_error_nth' _ 0%nat) by (rewrite seq_length; lia). f_equal. apply seq_nth. lia. }
  cbn [option_map]. rewrite map_map. apply (sequence_none _ _ 0%nat); [apply in_seq; lia|]. reflexivity.
Qed.

(** ---- LOOP_BATCH ---- *)
Lemma slice1_row t n : (n < length t)%nat -> slice1 n t = [nth n t []].
Proof. unfold slice1. revert n. induction t as [|x t IH]; intros [|n] H; cbn in *; try lia; [reflexivity|]. apply IH. lia. Qed.
Lemma slice1_out t n : (length t <= n)%nat -> slice1 n t = [].
Proof. intro H. unfold slice1. rewrite skipn_all2 by exact H. reflexivity. Qed.
Lemma slice_wide ws ts n : wide ws ts -> wide ws (map (slice1 n) ts).
Proof.
  intro H. apply Forall2_map_r. eapply Forall2_weak; [|exact H]. cbn beta. intros w t _ Hw r Hr.
  destruct (Nat.lt_ge_cases n (length t)) as [Hl|Hl].
  - rewrite slice1_row in Hr by exact Hl. destruct Hr as [<-|[]]. apply Hw, nth_In. exact Hl.
  - rewrite slice1_out in Hr by exact Hl. destruct Hr.
Qed.
Lemma slices_row ts n N : (forall t, In t ts -> length t = N) -> (n < N)%nat -> map (brow 0) (map (slice1 n) ts) = map (brow n) ts.
Proof.
  intros L Hn. rewrite map_map. apply map_ext_in. intros t Ht. rewrite slice1_row by (rewrite (L t Ht); exact Hn). unfold brow. cbn.
  destruct (Nat.eqb_spec (length t) 1) as [E1|E1]; [|reflexivity]. f_equal. rewrite (L t Ht) in E1. lia.
Qed.
Lemma pick0_map (f : nat -> nat -> row) nb n w : (1 <= nb)%nat ->
  pick0 (map (fun b => map (fun i => map (fun b' => f i b') (seq 0 nb)) (seq 0 w)) (seq 0 n)) = Some (map (fun _ => map (fun i => f i 0%nat) (seq 0 w)) (seq 0 n)).
Proof.
  intro Hn. unfold pick0. rewrite map_map. apply sequence_map. intros b Hb. rewrite map_map. apply sequence_map. intros i Hi.
  rewrite nth_error_map. destruct nb; [lia|]. reflexivity.
Qed.
Lemma loop_one_row os aus N n : os <> [] -> (n < N)%nat -> (1 <= dim)%nat -> wide wo os -> wide wa aus -> (forall t, In t (os ++ aus) -> length t = N) ->
  loop_one F os aus n = Some (map (fun k => [map (fun i => map (fun j => partial (map (brow n) os) (map (brow n) aus) k i j) (seq 0 (nth k wo 0%nat))) (seq 0 dim)]) (seq 0 (length os))).
Proof.
  intros Ho Hn Hd Wo Wa L. unfold loop_one.
  assert (Lo : forall t, In t os -> length t = N) by (intros; apply L, in_or_app; now left).
  assert (La : forall t, In t aus -> length t = N) by (intros; apply L, in_or_app; now right).
  rewrite (autograd_rows _ _ 1%nat); [|lia|exact Hd|now apply slice_wide|now apply slice_wide|].
  2:{ split.
      - destruct os as [|o os']; [congruence|]. exists (slice1 n o). split; [now left|]. rewrite slice1_row by (rewrite (Lo o) by (now left); exact Hn). reflexivity.
      - intros t Ht. right. rewrite <- map_app in Ht. apply in_map_iff in Ht. destruct Ht as (t' & <- & Ht'). rewrite slice1_row by (rewrite (L t' Ht'); exact Hn). reflexivity. }
  rewrite map_map, map_length. apply sequence_map. intros k Hk. apply in_seq in Hk. cbn [seq map].
  assert (Lk : length (nth k (map (slice1 n) os) []) = 1%nat).
  { rewrite (nth_indep _ [] (slice1 n [])) by (rewrite map_length; lia). rewrite map_nth. rewrite slice1_row; [reflexivity|]. rewrite Lo; [exact Hn|]. apply nth_In. lia. }
  rewrite Lk. cbn [seq map]. unfold pick0. cbn [map]. rewrite map_map. cbn [nth_error].
  rewrite (sequence_map _ (fun i => map (fun j => partial (map (brow n) os) (map (brow n) aus) k i j) (seq 0 (nth k wo 0%nat)))); [reflexivity|].
  intros i Hi. f_equal. apply map_ext_in. intros j Hj. unfold partial. apply Derive_ext. intro t.
  rewrite (bump_same_row _ _ _ _ _ 1%nat) by (try rewrite map_length; trivial; lia). now rewrite !(slices_row _ n N) by assumption.
Qed.
Lemma concat_single {A} (f : nat -> A) l : concat (map (fun x => [f x]) l) = map f l.
Proof. induction l; cbn; [reflexivity|]. now f_equal. Qed.
Theorem loop_raw os aus n : os <> [] -> (1 <= n)%nat -> (1 <= dim)%nat -> wide wo os -> wide wa aus -> (forall t, In t (os ++ aus) -> length t = n) ->
  jacobian_loop F os aus = Some (raw os aus n).
Proof.
  intros Ho Hn Hd Wo Wa L. unfold jacobian_loop.
  assert (L0 : length (nth 0 os []) = n) by (destruct os as [|o os']; [congruence|apply L; now left]).
  rewrite L0. rewrite (sequence_map _ (fun b => map (fun k => [map (fun i => map (fun j => partial (map (brow b) os) (map (brow b) aus) k i j) (seq 0 (nth k wo 0%nat))) (seq 0 dim)]) (seq 0 (length os)))).
  - destruct n as [|n']; [lia|]. cbn [seq map]. f_equal. unfold raw. apply map_ext_in. intros k Hk. apply in_seq in Hk.
    rewrite <- (concat_single (fun b => map (fun i => map (fun j => partial (map (brow b) os) (map (brow b) aus) k i j) (seq 0 (nth k wo 0%nat))) (seq 0 dim))). f_equal.
    set (g := fun b k0 : nat => [map (fun i => map (fun j => partial (map (brow b) os) (map (brow b) aus) k0 i j) (seq 0 (nth k0 wo 0%nat))) (seq 0 dim)]).
    transitivity (map (fun b => nth k (map (g b) (seq 0 (length os))) []) (seq 0 (S n'))).
    + cbn [seq map]. f_equal. rewrite map_map. reflexivity.
    + apply map_ext. intro b. rewrite nth_map_seq by lia. reflexivity.
  - intros b Hb. apply in_seq in Hb. now apply (loop_one_row _ _ n); trivial; lia.
Qed.
(** a batch-1 variable next to a first optimization variable with more rows: the second pass slices it to nothing *)
Theorem loop_raises os aus n t : (2 <= n)%nat -> wide wo os -> wide wa aus -> length (nth 0 os []) = n ->
  (forall t, In t (os ++ aus) -> length t = n \/ length t = 1%nat) -> In t (os ++ aus) -> length t = 1%nat -> jacobian_loop F os aus = None.
Proof.
  intros Hn Wo Wa L0 L Ht L1. unfold jacobian_loop. rewrite (sequence_none _ _ 1%nat); [reflexivity|apply in_seq; lia|].
  unfold loop_one. rewrite autograd_empty; [reflexivity|now apply slice_wide|now apply slice_wide|].
  rewrite <- map_app. split.
  - exists (slice1 1 t). split; [now apply in_map|]. rewrite slice1_out by lia. reflexivity.
  - intros s Hs. apply in_map_iff in Hs. destruct Hs as (s' & <- & Hs'). destruct (L s' Hs') as [E1|E1].
    + right. rewrite slice1_row by lia. reflexivity.
    + left. rewrite slice1_out by lia. reflexivity.
Qed.
End Rowwise.
