(** C26: the dense and the sparse linearization represent the same Jacobian and error. *)
From Coq Require Import List Arith Bool Reals Lra Lia Permutation Sorted.
From Verif Require Import RSum Csr_spec Lin_model Lin_proofs Lin_proofs2.
Import ListNotations.
Local Open Scope nat_scope.

(** ---- specification ---- *)
(** The rows of cost function [k] start at [row_of cfs k], the sum of the dimensions of the cost
    functions before it; the columns of the variable at place [q] of the ordering start at
    [col_of o q] (Lin_proofs.v). *)

(** [csr_entry] and [csr_wf] are in Csr_spec.v. *)

(** what is assumed of an objective and its ordering: distinct variables; every cost function has
    distinct variables, all of them ordered, and Jacobians with one column per degree of freedom *)
Definition well_formed (o : ordering) (cfs : list cost) : Prop :=
  NoDup (map fst o) /\ forall cf, In cf cfs ->
    NoDup (k_vars cf) /\ (forall v, In v (k_vars cf) -> In v (map fst o)) /\
    forall p v d, nth_error (k_vars cf) p = Some v -> In (v, d) o -> k_jcols cf p = d.

(** ---- auxiliary ---- *)
Lemma wf_ok o cfs : well_formed o cfs -> Forall (cf_ok o) cfs.
Proof.
  intros [No H]. apply Forall_forall. intros cf Hin. destruct (H cf Hin) as (Hn & Hv & Hj). split; [exact Hn|].
  intros p v Hp. destruct (proj2 (index_of_some_iff v o)) as [q Hq]; [apply Hv; eapply nth_error_In; eauto|].
  destruct (index_of_sound _ _ _ Hq) as [d Hd]. rewrite (dof_of_eq v o q d Hq Hd). apply (Hj p v d Hp). eapply nth_error_In; eauto.
Qed.
Lemma wf_slices o cfs : well_formed o cfs -> Forall (fun cf => exists sl, col_slices o 0 (k_vars cf) = Some sl) cfs.
Proof. intros [No H]. apply Forall_forall. intros cf Hin. apply col_slices_some. now apply H. Qed.
Lemma sum_find {X} (f : X -> nat) (l : list X) : forall r, r < list_sum (map f l) ->
  exists k x i, nth_error l k = Some x /\ i < f x /\ r = list_sum (map f (firstn k l)) + i.
Proof.
  induction l as [|y t IH]; intros r Hr; [simpl in Hr; lia|].
  change (list_sum (map f (y :: t))) with (f y + list_sum (map f t)) in Hr.
  destruct (Nat.lt_ge_cases r (f y)) as [L|L].
  - exists 0, y, r. auto.
  - destruct (IH (r - f y)) as (k & x & i & H1 & H2 & H3); [lia|]. exists (S k), x, i. split; [exact H1|split; [exact H2|]].
    change (list_sum (map f (firstn (S k) (y :: t)))) with (f y + list_sum (map f (firstn k t))). lia.
Qed.
Lemma row_find cfs r : r < num_rows cfs -> exists k cf i, nth_error cfs k = Some cf /\ i < k_dim cf /\ r = row_of cfs k + i.
Proof. intros H. rewrite num_rows_of in H. unfold row_of in H. rewrite firstn_all in H. exact (sum_find k_dim cfs r H). Qed.

(** ---- theorems ---- *)

(** Rows and columns: every row of the matrix is a row of exactly one cost function, every column a
    column of exactly one variable. *)
Theorem C26_rows_and_columns : forall o cfs,
  (forall r, r < num_rows cfs -> exists k cf i, nth_error cfs k = Some cf /\ i < k_dim cf /\ r = row_of cfs k + i) /\
  (forall c, c < num_cols o -> exists q v d j, nth_error o q = Some (v, d) /\ j < d /\ c = col_of o q + j) /\
  (forall k cf k' cf' i i', nth_error cfs k = Some cf -> nth_error cfs k' = Some cf' -> i < k_dim cf -> i' < k_dim cf' ->
     row_of cfs k + i = row_of cfs k' + i' -> k = k' /\ i = i') /\
  (forall q x q' x' j j', nth_error o q = Some x -> nth_error o q' = Some x' -> j < snd x -> j' < snd x' ->
     col_of o q + j = col_of o q' + j' -> q = q' /\ j = j') /\
  (forall k cf i, nth_error cfs k = Some cf -> i < k_dim cf -> row_of cfs k + i < num_rows cfs) /\
  (forall q x j, nth_error o q = Some x -> j < snd x -> col_of o q + j < num_cols o).
Proof.
  intros o cfs. split; [apply row_find|]. split; [|split; [|split; [|split]]].
  - intros c Hc. rewrite num_cols_of in Hc. unfold col_of in Hc. rewrite firstn_all in Hc.
    destruct (sum_find snd o c Hc) as (q & [v d] & j & H1 & H2 & H3). exists q, v, d, j. auto.
  - intros k cf k' cf' i i' Hk Hk' Hi Hi' E.
    pose proof (row_of_disjoint cfs k k' cf Hk). pose proof (row_of_disjoint cfs k' k cf' Hk').
    destruct (Nat.lt_trichotomy k k') as [L|[->|L]]; [lia| |lia]. split; [reflexivity|lia].
  - intros q [v d] q' [v' d'] j j' Hk Hk' Hi Hi' E. simpl in *.
    pose proof (col_of_disjoint o q q' v d Hk). pose proof (col_of_disjoint o q' q v' d' Hk').
    destruct (Nat.lt_trichotomy q q') as [L|[->|L]]; [lia| |lia]. split; [reflexivity|lia].
  - intros k cf i Hk Hi. rewrite num_rows_of. pose proof (row_of_disjoint cfs k (length cfs) cf Hk).
    assert (k < length cfs) by (apply nth_error_Some; congruence). lia.
  - intros q [v d] j Hq Hj. rewrite num_cols_of. pose proof (col_of_disjoint o q (length o) v d Hq).
    assert (q < length o) by (apply nth_error_Some; congruence). simpl in *. lia.
Qed.

(** The dense linearization: the block of cost function [k] and variable [v] is the Jacobian the
    cost function returned for [v], zero if [v] is not one of its variables; [b] is the negated error. *)
Theorem C26_dense_blocks : forall o cfs, well_formed o cfs ->
  exists A b, dense_linearize o cfs = Some (A, b) /\
  forall k cf i, nth_error cfs k = Some cf -> i < k_dim cf ->
    b (row_of cfs k + i) = (- k_err cf i)%R /\
    forall q v d j, nth_error o q = Some (v, d) -> j < d ->
      (forall p, nth_error (k_vars cf) p = Some v -> A (row_of cfs k + i) (col_of o q + j) = k_jac cf p i j) /\
      (~ In v (k_vars cf) -> A (row_of cfs k + i) (col_of o q + j) = 0%R).
Proof.
  intros o cfs Hwf. pose proof Hwf as [No _].
  destruct (dense_cfs_some o cfs 0 (fun _ _ => 0%R) (fun _ => 0%R) (wf_slices o cfs Hwf)) as (A & b & HD).
  exists A, b. split; [exact HD|]. intros k cf i Hk Hi.
  destruct (dense_cfs_spec o No cfs 0 _ _ A b (wf_ok o cfs Hwf) HD (fun _ _ _ => eq_refl) k cf Hk) as (sl & Hsl & HA).
  destruct (HA i Hi) as [Hb HA']. simpl in Hb, HA'. split; [exact Hb|]. intros q v d j Hq Hj.
  assert (Hok : cf_ok o cf). { pose proof (wf_ok o cfs Hwf) as F. rewrite Forall_forall in F. apply F. eapply nth_error_In; eauto. }
  destruct (col_slices_spec o No _ _ _ (proj1 Hok) Hsl) as (Hl & Hn & Hf). rewrite HA'. split.
  - intros p Hp. assert (Lp : p < length sl) by (rewrite Hl; apply nth_error_Some; congruence).
    apply nth_error_Some in Lp. destruct (nth_error sl p) as [x|] eqn:Ex; [|congruence].
    destruct (Hn p x Ex) as (v' & q' & d' & H1 & H2 & H3 & ->). rewrite Hp in H1. injection H1 as <-.
    rewrite (index_of_complete v d o q No Hq) in H2. injection H2 as <-. rewrite Hq in H3. injection H3 as <-.
    assert (Hc : contains (col_of o q + j) (col_of o q, col_of o q + d, 0 + p)) by (unfold contains; simpl; lia).
    rewrite (lsum_hit _ _ _ _ Hf (nth_error_In _ _ Ex) Hc), (slice_val_in _ _ _ _ _ Hc). simpl. f_equal. lia.
  - intros Hv. apply lsum_out. intros x Hx Hc. apply In_nth_error in Hx. destruct Hx as [m Hm].
    destruct (Hn m x Hm) as (v' & q' & d' & H1 & H2 & H3 & ->). unfold contains in Hc. simpl in Hc.
    assert (Hqq : q <> q'). { intros ->. rewrite Hq in H3. injection H3 as -> _. apply Hv. eapply nth_error_In; eauto. }
    pose proof (col_of_disjoint o q q' v d Hq). pose proof (col_of_disjoint o q' q v' d' H3). lia.
Qed.

(** The sparse linearization is well formed and represents the same matrix and the same vector;
    every value that it allocates uninitialised is written. *)
Theorem C26_sparse_equals_dense : forall o cfs, well_formed o cfs ->
  exists A b st val bs, dense_linearize o cfs = Some (A, b) /\ build_structure o cfs = Some st /\
    sparse_linearize cfs st = Some (val, bs) /\
    (forall k, k < length (st_col_ind st) -> val k <> None) /\
    forall r, r < num_rows cfs -> bs r = Some (b r) /\
      forall c, csr_entry (st_row_ptr st) (st_col_ind st) (fun k => match val k with Some x => x | None => 0%R end) r c = A r c.
Proof.
  intros o cfs Hwf. pose proof Hwf as [No _]. pose proof (wf_ok o cfs Hwf) as Hok. pose proof (wf_slices o cfs Hwf) as Hs.
  destruct (dense_cfs_some o cfs 0 (fun _ _ => 0%R) (fun _ => 0%R) Hs) as (A & b & HD).
  destruct (build_some o cfs (mkStruct [] [] [0]) Hs) as [st HB].
  destruct (build_spec o cfs _ st HB 0 eq_refl eq_refl) as (_ & _ & L1 & L2 & css & Hc1 & Hc2 & Hc3 & Hc4).
  cbn [st_cfs app] in Hc1.
  assert (HF : forall k cf cs, nth_error cfs k = Some cf -> nth_error css k = Some cs -> forall v, exists v', fill_vars cf cs 0 (k_vars cf) v = Some v').
  { intros k cf cs H1 H2 v. destruct (Hc3 k cf cs H1 H2) as [(sl & B1 & B2 & B3 & _) _].
    eapply (fill_ok o cf cs sl No); eauto. rewrite Forall_forall in Hok. apply Hok. eapply nth_error_In; eauto. }
  destruct (fill_cfs_some cfs css 0 (fun _ => None) (fun _ => None) Hc2 HF) as (val & bs & HV).
  exists A, b, st, val, bs. split; [exact HD|split; [exact HB|split; [unfold sparse_linearize; rewrite Hc1; exact HV|]]].
  assert (Hrow : forall k cf i, nth_error cfs k = Some cf -> i < k_dim cf ->
     exists cs sl, nth_error css k = Some cs /\ block_ok o cf cs (row_of cfs k) (st_col_ind st) (st_row_ptr st) /\
       col_slices o 0 (k_vars cf) = Some sl /\ bs (row_of cfs k + i) = Some (- k_err cf i)%R /\
       (forall x, x < s_stride cs -> val (s_start cs + (i * s_stride cs + x)) <> None) /\
       (forall c, rsum (s_stride cs) (fun x => if Nat.eqb (nth x (col_ind_of (sort_slices sl)) 0) c
           then match val (s_start cs + (i * s_stride cs + x)) with Some y => y | None => 0%R end else 0%R)
         = lsum (slice_val (fun p => k_jac cf p i) c) sl)).
  { intros k cf i Hk Hi. assert (Lk : k < length css) by (rewrite Hc2; apply nth_error_Some; congruence).
    apply nth_error_Some in Lk. destruct (nth_error css k) as [cs|] eqn:Ecs; [|congruence].
    destruct (Hc3 k cf cs Hk Ecs) as [Hblk _]. pose proof Hblk as (sl & B1 & B2 & B3 & B4 & B5).
    destruct (fill_cfs_at cfs css 0 _ _ val bs HV Hc4 k cf cs Hk Ecs) as [(v0 & v1 & F1 & F2) F3].
    assert (Hokk : cf_ok o cf). { rewrite Forall_forall in Hok. apply Hok. eapply nth_error_In; eauto. }
    assert (Hin : forall x, x < s_stride cs -> s_start cs <= s_start cs + (i * s_stride cs + x) < s_start cs + s_stride cs * k_dim cf).
    { intros x Hx. split; [lia|]. apply Nat.add_lt_mono_l. apply Nat.lt_le_trans with (S i * s_stride cs); [simpl; lia|].
      rewrite (Nat.mul_comm (s_stride cs)). apply Nat.mul_le_mono_r. lia. }
    exists cs, sl. split; [reflexivity|split; [exact Hblk|split; [exact B1|split; [exact (F3 i Hi)|split]]]].
    - intros x Hx. rewrite (F2 _ (Hin x Hx)).
      destruct (fill_total o cf cs sl No Hokk B1 B2 B3 v0 v1 i x F1 Hi Hx) as [y ->]. discriminate.
    - intros c. rewrite <- (fill_row o cf cs sl No Hokk B1 B2 B3 v0 v1 i c F1 Hi). apply rsum_ext. intros x Hx.
      rewrite (F2 _ (Hin x Hx)). reflexivity. }
  split.
  - intros a Ha. cbn [Nat.add] in L1, L2.
    assert (G : exists k cf cs i x, nth_error cfs k = Some cf /\ nth_error css k = Some cs /\ i < k_dim cf /\ x < s_stride cs /\ a = s_start cs + (i * s_stride cs + x)).
    { (* the row that contains place [a] *)
      assert (Hz : nth 0 (st_row_ptr st) 0 = 0).
      { destruct (build_spec o cfs _ st HB 0 eq_refl eq_refl) as (_ & (Y & HY) & _). rewrite HY. reflexivity. }
      assert (K : forall n, n <= num_rows cfs -> a < nth n (st_row_ptr st) 0 -> exists r, r < n /\ nth r (st_row_ptr st) 0 <= a < nth (S r) (st_row_ptr st) 0).
      { induction n as [|n IHn]; intros Hn H; [rewrite Hz in H; lia|].
        destruct (Nat.lt_ge_cases a (nth n (st_row_ptr st) 0)) as [L|L]; [|exists n; lia].
        destruct (IHn ltac:(lia) L) as (r & Hr & Hr'). exists r. split; [lia|exact Hr']. }
      destruct (K (num_rows cfs)) as (r & Hr & Hr'); [lia| |].
      { rewrite num_rows_of. unfold row_of. rewrite firstn_all, L2. exact Ha. }
      destruct (row_find cfs r Hr) as (k & cf & i & Hk & Hi & ->).
      destruct (Hrow k cf i Hk Hi) as (cs & sl & Hcs & (sl' & _ & _ & _ & _ & B5) & _). destruct (B5 i Hi) as (R1 & R2 & _).
      rewrite R1, R2 in Hr'. exists k, cf, cs, i, (a - (s_start cs + i * s_stride cs)). simpl in Hr'. repeat split; auto; lia. }
    destruct G as (k & cf & cs & i & x & Hk & Hcs & Hi & Hx & ->).
    destruct (Hrow k cf i Hk Hi) as (cs' & sl & Hcs' & _ & _ & _ & H5 & _). rewrite Hcs in Hcs'. injection Hcs' as <-. now apply H5.
  - intros r Hr. destruct (row_find cfs r Hr) as (k & cf & i & Hk & Hi & ->).
    destruct (Hrow k cf i Hk Hi) as (cs & sl & Hcs & (sl' & B1 & B2 & B3 & B4 & B5) & Hsl & Hbs & _ & Hsum).
    rewrite Hsl in B1. injection B1 as <-. destruct (B5 i Hi) as (R1 & R2 & R3).
    destruct (dense_cfs_spec o No cfs 0 _ _ A b Hok HD (fun _ _ _ => eq_refl) k cf Hk) as (sl2 & Hsl2 & HA).
    rewrite Hsl in Hsl2. injection Hsl2 as <-. destruct (HA i Hi) as [Hb HA']. simpl in Hb, HA'. split.
    + now rewrite Hbs, Hb.
    + intros c. rewrite HA', <- Hsum. unfold csr_entry. rewrite R1, R2.
      replace (s_start cs + S i * s_stride cs - (s_start cs + i * s_stride cs)) with (s_stride cs) by (simpl; lia).
      apply rsum_ext. intros x Hx. rewrite <- Nat.add_assoc, (R3 x Hx). reflexivity.
Qed.

Theorem C26_csr_well_formed : forall o cfs, well_formed o cfs ->
  exists st, build_structure o cfs = Some st /\ csr_wf (num_rows cfs) (num_cols o) (st_row_ptr st) (st_col_ind st).
Proof.
  intros o cfs Hwf. pose proof Hwf as [No _]. pose proof (wf_ok o cfs Hwf) as Hok. pose proof (wf_slices o cfs Hwf) as Hs.
  destruct (build_some o cfs (mkStruct [] [] [0]) Hs) as [st HB]. exists st. split; [exact HB|].
  destruct (build_spec o cfs _ st HB 0 eq_refl eq_refl) as (_ & (Y & HY) & L1 & L2 & css & Hc1 & Hc2 & Hc3 & Hc4).
  cbn [Nat.add] in L1, L2.
  assert (En : num_rows cfs = list_sum (map k_dim cfs)) by (rewrite num_rows_of; unfold row_of; now rewrite firstn_all).
  assert (Hrow : forall r, r < num_rows cfs -> exists a ci, nth r (st_row_ptr st) 0 = a /\ nth (S r) (st_row_ptr st) 0 = a + length ci /\
     (forall x, x < length ci -> nth (a + x) (st_col_ind st) 0 = nth x ci 0) /\ StronglySorted lt ci /\ Forall (fun c => c < num_cols o) ci).
  { intros r Hr. destruct (row_find cfs r Hr) as (k & cf & i & Hk & Hi & ->).
    assert (Lk : k < length css) by (rewrite Hc2; apply nth_error_Some; congruence).
    apply nth_error_Some in Lk. destruct (nth_error css k) as [cs|] eqn:Ecs; [|congruence].
    destruct (Hc3 k cf cs Hk Ecs) as [(sl & B1 & B2 & B3 & B4 & B5) _]. destruct (B5 i Hi) as (R1 & R2 & R3).
    assert (Hokk : cf_ok o cf). { rewrite Forall_forall in Hok. apply Hok. eapply nth_error_In; eauto. }
    exists (s_start cs + i * s_stride cs), (col_ind_of (sort_slices sl)). rewrite <- B3.
    split; [exact R1|split; [cbn [Nat.add] in R2; rewrite R2; simpl; lia|split]].
    - intros x Hx. rewrite <- Nat.add_assoc. now apply R3.
    - eapply row_cols; eauto. }
  assert (Hmono : forall r, r < num_rows cfs -> nth r (st_row_ptr st) 0 <= nth (S r) (st_row_ptr st) 0).
  { intros r Hr. destruct (Hrow r Hr) as (a & ci & H1 & H2 & _). lia. }
  constructor; auto.
  - now rewrite En.
  - rewrite HY. reflexivity.
  - now rewrite En.
  - intros a Ha.
    assert (K : forall n, n <= num_rows cfs -> a < nth n (st_row_ptr st) 0 -> exists r, r < n /\ nth r (st_row_ptr st) 0 <= a < nth (S r) (st_row_ptr st) 0).
    { induction n as [|n IHn]; intros Hn H; [rewrite HY in H; simpl in H; lia|].
      destruct (Nat.lt_ge_cases a (nth n (st_row_ptr st) 0)) as [L|L]; [|exists n; lia].
      destruct (IHn ltac:(lia) L) as (r & Hr & Hr'). exists r. split; [lia|exact Hr']. }
    destruct (K (num_rows cfs)) as (r & Hr & Hr'); [lia|rewrite En, L2; exact Ha|].
    destruct (Hrow r Hr) as (a0 & ci & H1 & H2 & H3 & _ & H5).
    replace a with (a0 + (a - a0)) by lia. rewrite H3 by lia. rewrite Forall_forall in H5. apply H5. apply nth_In. lia.
  - intros r k k' Hr H1 H2 H3. destruct (Hrow r Hr) as (a0 & ci & E1 & E2 & E3 & E4 & _).
    replace k with (a0 + (k - a0)) by lia. replace k' with (a0 + (k' - a0)) by lia. rewrite !E3 by lia.
    assert (G : forall l, StronglySorted lt l -> forall i j, i < j -> j < length l -> nth i l 0 < nth j l 0).
    { clear. induction 1 as [|x l S IH F]; intros i j Hij Hj; simpl in Hj; [lia|]. destruct i as [|i], j as [|j]; try lia; simpl.
      - rewrite Forall_forall in F. apply F. apply nth_In. lia.
      - apply IH; lia. }
    apply G; [exact E4|lia|lia].
Qed.

(** A variable that is not in the ordering is an error in both. *)
Theorem C26_unordered_variable_raises : forall o cfs cf v, In cf cfs -> In v (k_vars cf) -> ~ In v (map fst o) ->
  dense_linearize o cfs = None /\ build_structure o cfs = None.
Proof.
  intros o cfs cf v Hin Hv Hno. pose proof (col_slices_none o v (k_vars cf) 0 Hv Hno) as Hn. split.
  - destruct (dense_linearize o cfs) as [[A b]|] eqn:E; [|reflexivity]. exfalso.
    pose proof (dense_cfs_slices o cfs _ _ _ _ _ E) as F. rewrite Forall_forall in F. destruct (F cf Hin) as [sl Hs]. congruence.
  - destruct (build_structure o cfs) as [st|] eqn:E; [|reflexivity]. exfalso.
    pose proof (build_slices o cfs _ _ E) as F. rewrite Forall_forall in F. destruct (F cf Hin) as [sl Hs]. congruence.
Qed.

(** ---- a case with two cost functions, reordered variables of sizes 2, 1, 3 ---- *)
Definition ex_o : ordering := [(7, 2); (5, 1); (9, 3)].
Definition ex_cfs : list cost :=
  [mkCost 2 [9; 7] (fun p => nth p [3; 2] 0) (fun p r c => INR (100 * p + 10 * r + c + 1)) (fun r => INR r);
   mkCost 1 [5] (fun _ => 1) (fun _ _ _ => 4%R) (fun _ => 3%R)].
Lemma C26_example : well_formed ex_o ex_cfs /\ num_rows ex_cfs = 3 /\ num_cols ex_o = 6 /\
  match build_structure ex_o ex_cfs with
  | Some st => st_col_ind st = [0; 1; 3; 4; 5; 0; 1; 3; 4; 5; 2] /\ st_row_ptr st = [0; 5; 10; 11]
  | None => False
  end.
Proof.
  split; [|vm_compute; auto].
  split; [unfold ex_o; simpl; constructor; [simpl; intuition congruence|]; constructor; [simpl; intuition congruence|]; constructor; [simpl; tauto|constructor]|].
  assert (N2 : forall a b : nat, a <> b -> NoDup [a; b]).
  { intros a b H. constructor; [simpl; intuition congruence|]. constructor; [simpl; tauto|constructor]. }
  intros cf [<-|[<-|[]]]; cbn [k_vars k_jcols].
  - split; [apply N2; lia|split].
    + intros v Hv. simpl in *. intuition.
    + intros p v d H1 H2. destruct p as [|[|p]]; simpl in H1.
      * injection H1 as <-. simpl in *. intuition congruence.
      * injection H1 as <-. simpl in *. intuition congruence.
      * destruct p; discriminate.
  - split; [constructor; [simpl; tauto|constructor]|split].
    + intros v Hv. simpl in *. intuition.
    + intros p v d H1 H2. destruct p as [|p]; simpl in H1.
      * injection H1 as <-. simpl in *. intuition congruence.
      * destruct p; discriminate.
Qed.
