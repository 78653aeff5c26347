(** The numbering of links and joints by torchkin's Robot, and the caches of
    ancestors. *)
From Coq Require Import Reals List Arith Bool Lia Permutation.
Import ListNotations.
From Verif Require Import Geo_spec Geo3_spec Geo4_spec SE2_model SO3_model SE3_model Kin_spec Kin_model Kin_tree.
Local Open Scope nat_scope.

Section N.
Variable u : Urdf.
Variable root : nat.
Variable depth : nat -> nat.
Hypothesis WF : tree_of u root depth.
Variable t : Tree.
Hypothesis OK : tree_ok u root depth t.
Hypothesis FLAT : forall j f, j < length (u_joints u) -> f < length (u_joints u) -> joint_fixed u f = true -> t_jparent t j <> joint_child u f.
Notation nj := (length (u_joints u)).
Notation child := (joint_child u).
Notation nonf := (filter (fun j => negb (joint_fixed u j))).

Lemma get_root_ok : get_root u = Some root.
Proof.
  unfold get_root. destruct WF as (Rr & _ & W & _).
  assert (E : forall l, NoDup l -> (forall x, In x l -> x < u_nlinks u) -> In root l ->
    filter (fun l => negb (existsb (Nat.eqb l) (map uj_child (u_joints u)))) l = [root]).
  { assert (Fr : negb (existsb (Nat.eqb root) (map uj_child (u_joints u))) = true).
    { apply negb_true_iff. destruct (existsb _ _) eqn:Q; [|reflexivity]. apply existsb_In in Q. apply (W root Rr) in Q. congruence. }
    assert (Fo : forall x, x < u_nlinks u -> x <> root -> negb (existsb (Nat.eqb x) (map uj_child (u_joints u))) = false).
    { intros x Lx Nx. apply negb_false_iff. apply existsb_In. apply (W x Lx). exact Nx. }
    induction l as [|x l IH]; intros N B I; [destruct I|]. inversion N as [|? ? Nx N']; subst. cbn [filter].
    destruct (Nat.eq_dec x root) as [->|Q].
    - rewrite Fr. f_equal.
      assert (G : forall l, ~ In root l -> (forall x, In x l -> x < u_nlinks u) ->
        filter (fun l => negb (existsb (Nat.eqb l) (map uj_child (u_joints u)))) l = []).
      { induction l0 as [|y l0 IH0]; intros A Bd; [reflexivity|]. cbn [filter]. rewrite Fo.
        - apply IH0; [intro; apply A; right; assumption|intros; apply Bd; right; assumption].
        - apply Bd. left. reflexivity.
        - intros ->. apply A. left. reflexivity. }
      apply G; [exact Nx|intros y Iy; apply B; right; exact Iy].
    - rewrite Fo; [|apply B; left; reflexivity|exact Q]. apply IH; [exact N'|intros y Iy; apply B; right; exact Iy|].
      destruct I as [I|I]; [congruence|exact I]. }
  rewrite E; [reflexivity|apply seq_NoDup|intros x I; apply in_seq in I; lia|apply in_seq; lia].
Qed.

Definition num_ok (n : Num) (V : list nat) :=
  n_joints n = V /\ n_links n = root :: map child V
  /\ (forall i j, nth_error V i = Some j -> n_jid n j = Some i /\ n_lid n (child j) = Some (S i))
  /\ (forall j, ~ In j V -> n_jid n j = None) /\ n_lid n root = Some 0.

Lemma number_joint_ok n V j : num_ok n V -> (forall k, In k V -> k < nj) -> j < nj -> ~ In j V -> num_ok (number_joint u n j) (V ++ [j]).
Proof.
  intros (A & B & C & D & E) HV Hj Nj. unfold number_joint. split; [cbn; rewrite A; reflexivity|]. split.
  { cbn. rewrite B, map_app. reflexivity. }
  cbn [n_jid n_lid]. split; [|split].
  - intros i k Ek. destruct (Nat.lt_ge_cases i (length V)) as [Li|Li].
    + rewrite nth_error_app1 in Ek by exact Li. assert (Ik := nth_error_In _ _ Ek). rewrite !upd_other.
      * apply C. exact Ek.
      * intro Q. apply (child_inj u root depth WF) in Q; [congruence|apply HV; exact Ik|exact Hj].
      * intros ->. contradiction.
    + rewrite nth_error_app2 in Ek by exact Li. destruct (i - length V) as [|m] eqn:Em; [|destruct m; discriminate].
      cbn in Ek. injection Ek as <-. rewrite !upd_same, A, B. cbn [length]. rewrite map_length.
      replace i with (length V) by lia. auto.
  - intros k Ik. rewrite upd_other; [apply D|]; intro Q; apply Ik; apply in_or_app; [left; exact Q|right; left; congruence].
  - rewrite upd_other; [exact E|]. intro Q. symmetry in Q. revert Q. apply (child_not_root u root depth WF). exact Hj.
Qed.

(** parents come before their children *)
Definition ordered (V : list nat) := forall i j, nth_error V i = Some j -> In (t_jparent t j) (root :: map child (firstn i V)).
Lemma ordered_snoc V j : ordered V -> In (t_jparent t j) (root :: map child V) -> ordered (V ++ [j]).
Proof.
  intros H I i k E. destruct (Nat.lt_ge_cases i (length V)) as [L|L].
  - rewrite nth_error_app1 in E by exact L. rewrite firstn_app. replace (i - length V) with 0 by lia. rewrite app_nil_r. apply H. exact E.
  - rewrite nth_error_app2 in E by exact L. destruct (i - length V) as [|m] eqn:Em; [|destruct m; discriminate]. cbn in E. injection E as <-.
    rewrite firstn_app, Em. rewrite firstn_all2 by lia. rewrite app_nil_r. exact I.
Qed.

Lemma filter_snoc {A} f (l : list A) x : filter f (l ++ [x]) = filter f l ++ (if f x then [x] else []).
Proof. rewrite filter_app. reflexivity. Qed.

Lemma bfs_ok : forall fuel D queue n,
  NoDup (D ++ queue) -> (forall j, In j (D ++ queue) <-> j < nj /\ In (t_jparent t j) (root :: map child (nonf D))) ->
  ordered (nonf D) -> num_ok n (nonf D) -> n_dof n = length (nonf D) -> nj <= fuel + length D ->
  exists D' n', bfs fuel u t queue n = Some n' /\ NoDup D'
   /\ (forall j, In j D' <-> j < nj /\ In (t_jparent t j) (root :: map child (nonf D')))
   /\ ordered (nonf D') /\ num_ok n' (nonf D') /\ n_dof n' = length (nonf D').
Proof.
  induction fuel as [|fuel IH]; intros D queue n ND HI HO HN Hd Hf.
  - destruct queue as [|j rest].
    + exists D, n. rewrite app_nil_r in *. cbn. auto 8.
    + exfalso. assert (L : length (D ++ j :: rest) <= nj) by (apply nodup_bounded; [exact ND|intros x I; apply HI in I; tauto]).
      rewrite app_length in L. cbn [length] in L. lia.
  - destruct queue as [|j rest].
    + exists D, n. rewrite app_nil_r in *. cbn. auto 8.
    + cbn [bfs].
      assert (Ij : In j (D ++ j :: rest)) by (apply in_or_app; right; left; reflexivity).
      destruct (proj1 (HI j) Ij) as (Lj & Pj).
      assert (NjD : ~ In j D) by (apply NoDup_remove_2 in ND; intro Q; apply ND; apply in_or_app; left; exact Q).
      assert (EA : forall l, D ++ j :: l = (D ++ [j]) ++ l) by (intros; rewrite <- app_assoc; reflexivity).
      destruct (joint_fixed u j) eqn:Ej.
      * assert (EV : nonf (D ++ [j]) = nonf D) by (rewrite filter_snoc, Ej; cbn; apply app_nil_r).
        rewrite EA in ND, HI. apply (IH (D ++ [j]) rest n); rewrite ?EV; try assumption. rewrite app_length. cbn. lia.
      * assert (EV : nonf (D ++ [j]) = nonf D ++ [j]) by (rewrite filter_snoc, Ej; reflexivity).
        assert (HVl : forall k, In k (nonf D) -> k < nj).
        { intros k Ik. apply filter_In in Ik. apply (HI k). apply in_or_app. left. tauto. }
        assert (NjV : ~ In j (nonf D)) by (intro Q; apply filter_In in Q; tauto).
        assert (Nc : ~ In (child j) (root :: map child (nonf D))).
        { intros [Q|Q]; [symmetry in Q; revert Q; apply (child_not_root u root depth WF); exact Lj|].
          apply in_map_iff in Q. destruct Q as (k & Q & Ik). apply (child_inj u root depth WF) in Q; [congruence|apply HVl; exact Ik|exact Lj]. }
        destruct OK as (OC & ON & _).
        apply (IH (D ++ [j]) (rest ++ t_children t (child j)) (number_joint u n j)); rewrite ?EV.
        -- rewrite app_assoc, <- EA. apply nodup_app; [exact ND|apply ON|]. intros x Ix Ix2. apply HI in Ix. apply OC in Ix2. destruct Ix2 as (_ & Q).
           rewrite Q in Ix. tauto.
        -- intros k. rewrite app_assoc, in_app_iff, <- EA, HI, OC, map_app. cbn [map In]. rewrite in_app_iff. cbn [In]. intuition congruence.
        -- apply ordered_snoc; assumption.
        -- apply number_joint_ok; assumption.
        -- cbn [number_joint n_dof]. unfold joint_dof. rewrite Ej, Hd, app_length. reflexivity.
        -- rewrite app_length. cbn. lia.
Qed.

Lemma build_tree_ok : exists V F n, build_tree u t = Some n
  /\ NoDup (V ++ F) /\ (forall j, In j (V ++ F) <-> j < nj)
  /\ (forall j, In j V -> joint_fixed u j = false) /\ (forall j, In j F -> joint_fixed u j = true)
  /\ ordered (V ++ F) /\ num_ok n (V ++ F) /\ n_dof n = length V.
Proof.
  unfold build_tree. rewrite get_root_ok. cbn [bind]. destruct OK as (OC & ON & OD & OP & OR).
  destruct (bfs_ok nj [] (t_children t root) (mkNum [] [root] 0 (fun _ => None) (upd (fun _ => None) root (Some 0)))) as (D & n & E & ND & HI & HO & HN & Hd).
  - apply ON.
  - intros j. cbn. rewrite OC. intuition congruence.
  - intros i j Q. destruct i; discriminate.
  - split; [reflexivity|]. split; [reflexivity|]. split; [intros [|i] j Q; discriminate|]. split; [reflexivity|]. cbn. apply upd_same.
  - reflexivity.
  - cbn. lia.
  - rewrite E. cbn [bind]. clear E.
    (* every joint was reached *)
    assert (All : forall m j, j < nj -> depth (child j) <= m -> In j D).
    { induction m as [|m IH]; intros j Lj Hm; [pose proof (proj2 (OD j Lj)); lia|].
      apply HI. split; [exact Lj|]. destruct (Nat.eq_dec (t_jparent t j) root) as [Q|Q]; [left; congruence|].
      right. destruct (child_exists u root depth WF (t_jparent t j) (proj1 (OD j Lj)) Q) as (k & Lk & Ek). rewrite <- Ek. apply in_map, filter_In.
      split; [apply IH; [exact Lk|]; rewrite Ek; pose proof (proj2 (OD j Lj)); lia|].
      apply negb_true_iff. destruct (joint_fixed u k) eqn:Fk; [|reflexivity]. exfalso. apply (FLAT j k Lj Lk Fk). congruence. }
    set (V := nonf D) in *.
    assert (HV : forall j, In j V <-> j < nj /\ joint_fixed u j = false).
    { intros j. unfold V. rewrite filter_In, negb_true_iff. split; [intros (A & B); apply HI in A; tauto|]. intros (A & B). split; [|exact B].
      apply (All (depth (child j))); [exact A|lia]. }
    assert (NV : NoDup V) by (apply NoDup_filter; exact ND).
    assert (PV : forall j, j < nj -> In (t_jparent t j) (root :: map child V)).
    { intros j Lj. apply HI. apply (All (depth (child j))); [exact Lj|lia]. }
    (* the fixed joints *)
    assert (H : forall m, m <= nj -> exists n', fold_left (number_rest u) (seq 0 m) (Some n) = Some n'
      /\ num_ok n' (V ++ filter (joint_fixed u) (seq 0 m)) /\ n_dof n' = length V
      /\ ordered (V ++ filter (joint_fixed u) (seq 0 m))).
    { induction m as [|m IH]; intros Hm.
      - exists n. cbn. rewrite app_nil_r. auto.
      - destruct (IH ltac:(lia)) as (n' & E & HN' & Hd' & HO'). rewrite seq_S, fold_left_app, E, filter_snoc. cbn [fold_left number_rest bind Nat.add].
        destruct (joint_fixed u m) eqn:Fm.
        + assert (Nm : ~ In m (V ++ filter (joint_fixed u) (seq 0 m))).
          { rewrite in_app_iff, HV, filter_In, in_seq. intros [(_ & Q)|(Q & _)]; [congruence|lia]. }
          destruct HN' as (A & B & C & Dn & R). rewrite (Dn m Nm). eexists. split; [reflexivity|]. rewrite app_assoc. split; [|split].
          * apply number_joint_ok; [split; auto| |lia|exact Nm].
            intros k. rewrite in_app_iff, HV, filter_In, in_seq. intros [(Q & _)|(Q & _)]; lia.
          * cbn. unfold joint_dof. rewrite Fm, Hd'. lia.
          * apply ordered_snoc; [exact HO'|]. destruct (PV m ltac:(lia)) as [Q|Q]; [left; exact Q|right]. rewrite map_app. apply in_or_app. left. exact Q.
        + rewrite app_nil_r. assert (Im : In m (V ++ filter (joint_fixed u) (seq 0 m))) by (apply in_or_app; left; apply HV; split; [lia|exact Fm]).
          apply In_nth_error in Im. destruct Im as (i & Im). destruct HN' as (A & B & C & Dn & R).
          rewrite (proj1 (C i m Im)). exists n'. split; [reflexivity|]. split; [split; auto|auto]. }
    destruct (H nj (Nat.le_refl _)) as (n' & E & HN' & Hd' & HO').
    exists V, (filter (joint_fixed u) (seq 0 nj)), n'. split; [exact E|]. split; [|split; [|split; [|split; [|auto]]]].
    + apply nodup_app; [exact NV|apply NoDup_filter, seq_NoDup|]. intros x Ix Iy. apply HV in Ix. apply filter_In in Iy. destruct Ix, Iy. congruence.
    + intros j. rewrite in_app_iff, HV, filter_In, in_seq. destruct (joint_fixed u j); intuition (try lia; try congruence).
    + intros j Ij. apply HV in Ij. tauto.
    + intros j Ij. apply filter_In in Ij. tauto.
Qed.

(** ** the caches *)
(** chains of links in the tree: [chain l a c]: l's ancestors, nearest last, and the non-fixed joints on the way *)
Inductive chain : nat -> list nat -> list nat -> Prop :=
| ch_root : chain root [] []
| ch_joint : forall j a c, j < nj -> chain (t_jparent t j) a c ->
    chain (child j) (a ++ [t_jparent t j]) (if joint_fixed u j then c else c ++ [j]).

Lemma cache_ok n V F : NoDup (V ++ F) -> (forall j, In j (V ++ F) <-> j < nj) -> ordered (V ++ F) -> num_ok n (V ++ F) ->
  exists r, fold_left (cache_link u) (n_links n) (Some (mkRobot t n (fun _ => []) (fun _ => []))) = Some r
  /\ r_tree r = t /\ r_num r = n
  /\ forall l, l < u_nlinks u -> exists a c, chain l a c /\ r_anc r l = a
       /\ (forall i, In i (r_ancj r l) <-> exists j, In j c /\ n_jid n j = Some i) .
Proof.
  intros ND HI HO HN. assert (HN' := HN). destruct HN' as (A & B & C & Dn & R). rewrite B. cbn [fold_left]. destruct OK as (OC & ON & OD & OP & OR).
  assert (E0 : cache_link u (Some (mkRobot t n (fun _ => []) (fun _ => []))) root = Some (mkRobot t n (fun _ => []) (fun _ => []))).
  { unfold cache_link. cbn [bind r_tree]. rewrite OR. reflexivity. }
  rewrite E0.
  assert (H : forall m, m <= length (V ++ F) -> exists r,
    fold_left (cache_link u) (map child (firstn m (V ++ F))) (Some (mkRobot t n (fun _ => []) (fun _ => []))) = Some r
    /\ r_tree r = t /\ r_num r = n
    /\ forall l, In l (root :: map child (firstn m (V ++ F))) -> exists a c, chain l a c /\ r_anc r l = a
       /\ (forall i, In i (r_ancj r l) <-> exists j, In j c /\ n_jid n j = Some i)).
  { induction m as [|m IH]; intros Hm.
    - eexists. split; [reflexivity|]. split; [reflexivity|]. split; [reflexivity|]. cbn. intros l [<-|[]].
      exists [], []. split; [constructor|]. split; [reflexivity|]. intros i. split; [intros []|intros (j & [] & _)].
    - destruct (IH ltac:(lia)) as (r & E & Et & En & Hr).
      assert (Lm : m < length (V ++ F)) by lia. apply nth_error_Some in Lm. destruct (nth_error (V ++ F) m) as [j|] eqn:Ej; [clear Lm|congruence].
      assert (E2 : firstn (S m) (V ++ F) = firstn m (V ++ F) ++ [j]).
      { clear -Ej. revert m Ej. generalize (V ++ F). induction l as [|x l IH]; intros [|m] E; try discriminate; cbn in *; [congruence|]. f_equal. apply IH. exact E. }
      rewrite E2, map_app, fold_left_app, E. cbn [map fold_left]. unfold cache_link. cbn [bind].
      assert (Ij : In j (V ++ F)) by (eapply nth_error_In; exact Ej).
      assert (Lj : j < nj) by (apply HI; exact Ij).
      rewrite Et, En, (OP j Lj), (proj1 (C m j Ej)). cbn [bind].
      eexists. split; [reflexivity|]. split; [reflexivity|]. split; [reflexivity|]. cbn [r_anc r_ancj].
      assert (Nc : ~ In (child j) (root :: map child (firstn m (V ++ F)))).
      { intros [Q|Q]; [symmetry in Q; revert Q; apply (child_not_root u root depth WF); exact Lj|].
        apply in_map_iff in Q. destruct Q as (k & Q & Ik).
        assert (Ik2 : In k (V ++ F)) by (rewrite <- (firstn_skipn m (V ++ F)); apply in_or_app; left; exact Ik).
        apply (child_inj u root depth WF) in Q; [|apply HI; exact Ik2|exact Lj]. subst k.
        apply In_nth_error in Ik. destruct Ik as (i & Ei).
        assert (Li : i < m) by (assert (Q : nth_error (firstn m (V ++ F)) i <> None) by congruence; apply nth_error_Some in Q; rewrite firstn_length in Q; lia).
        assert (Ei2 : nth_error (V ++ F) i = Some j).
        { rewrite <- (firstn_skipn m (V ++ F)). rewrite nth_error_app1; [exact Ei|]. apply nth_error_Some. congruence. }
        assert (i = m); [|lia]. apply (proj1 (NoDup_nth_error _) ND); [apply nth_error_Some; congruence|congruence]. }
      intros l Il. destruct (Nat.eq_dec l (child j)) as [->|Nl].
      + destruct (Hr (t_jparent t j) (HO m j Ej)) as (a & c & Hc & Ha & Hj).
        exists (a ++ [t_jparent t j]), (if joint_fixed u j then c else c ++ [j]). split; [constructor; assumption|].
        rewrite !upd_same, Ha. split; [reflexivity|]. intros i. destruct (joint_fixed u j); [apply Hj|].
        rewrite in_app_iff, Hj. split.
        * intros [(k & Ik & Ek)|[<-|[]]]; [exists k; split; [apply in_or_app; left; exact Ik|exact Ek]|].
          exists j. split; [apply in_or_app; right; left; reflexivity|apply (C m j Ej)].
        * intros (k & Ik & Ek). apply in_app_iff in Ik. destruct Ik as [Ik|[<-|[]]]; [left; exists k; auto|].
          right. left. rewrite (proj1 (C m j Ej)) in Ek. congruence.
      + rewrite !upd_other by exact Nl. apply Hr. destruct Il as [Il|Il]; [left; exact Il|right].
        rewrite in_app_iff in Il. destruct Il as [Il|[Il|[]]]; [exact Il|congruence]. }
  destruct (H (length (V ++ F)) (Nat.le_refl _)) as (r & E & Et & En & Hr). rewrite firstn_all in *. exists r. split; [exact E|]. split; [exact Et|].
  split; [exact En|]. intros l Ll. apply Hr. destruct (Nat.eq_dec l root) as [->|Nl]; [left; reflexivity|right].
  destruct (child_exists u root depth WF l Ll Nl) as (j & Lj & Ej). rewrite <- Ej. apply in_map. apply HI. exact Lj.
Qed.
End N.
