(** Lemmas about grouping by schema and about the whole vectorization run. *)
From Coq Require Import List Arith Lia Bool Permutation.
Import ListNotations.
From Verif Require Import Dict Obj_model Upd_model Vec_model Vec_spec Vec_proofs.

Section G.
Context {E O : Type}.
Variable dE : E.
Variable dO : O.
Variable vn : vid -> name.
Notation cf := (cfn E O).

Definition same_sch (s : nat) (c : cf) : bool := cf_sch c =? s.

Lemma groups_snoc (cs : list cf) c : groups (cs ++ [c]) = group_add (groups cs) c.
Proof. unfold groups. now rewrite fold_left_app. Qed.

Lemma groups_lookup (cs : list cf) s :
  lookup s (groups cs) = match filter (same_sch s) cs with [] => None | f => Some f end.
Proof.
  induction cs as [|c cs IH] using rev_ind; [reflexivity|].
  rewrite groups_snoc. unfold group_add. rewrite lookup_set, filter_app. simpl. unfold same_sch at 2.
  rewrite (Nat.eqb_sym (cf_sch c) s).
  destruct (s =? cf_sch c) eqn:Es.
  - apply Nat.eqb_eq in Es. subst s. rewrite IH.
    destruct (filter (same_sch (cf_sch c)) cs) as [|x l]; reflexivity.
  - rewrite app_nil_r. exact IH.
Qed.

Lemma groups_keys (cs : list cf) : NoDup (keys (groups cs)).
Proof.
  induction cs as [|c cs IH] using rev_ind; [constructor|].
  rewrite groups_snoc. unfold group_add. rewrite keys_set.
  destruct (has (cf_sch c) (groups cs)) eqn:Eh; [exact IH|].
  apply (Permutation_NoDup (l := cf_sch c :: keys (groups cs))); [apply Permutation_cons_append|].
  constructor; [|exact IH]. unfold has in Eh. 
  rewrite <- lookup_In_keys. destruct (lookup (cf_sch c) (groups cs)); congruence.
Qed.

Lemma groups_value (cs : list cf) g : In g (values (groups cs)) ->
  exists s, g = filter (same_sch s) cs /\ g <> [].
Proof.
  unfold values. intros H. apply in_map_iff in H as ([s l] & El & Hin). simpl in El. subst l.
  apply In_lookup in Hin; [|apply groups_keys]. rewrite groups_lookup in Hin.
  exists s. destruct (filter (same_sch s) cs); [discriminate|]. injection Hin as <-. split; [reflexivity|discriminate].
Qed.

Lemma concat_set_some (d : dict (list cf)) k l c : lookup k d = Some l ->
  Permutation (concat (values (Dict.set k (l ++ [c]) d))) (concat (values d) ++ [c]).
Proof.
  induction d as [|[j m] d IH]; simpl; [discriminate|]. destruct (k =? j) eqn:Ej.
  - intros H. injection H as ->. simpl. rewrite <- !app_assoc. apply Permutation_app_head.
    apply Permutation_app_comm.
  - intros H. simpl. rewrite <- app_assoc. apply Permutation_app_head. now apply IH.
Qed.

Lemma values_set_none (d : dict (list cf)) k l : lookup k d = None -> values (Dict.set k l d) = values d ++ [l].
Proof.
  induction d as [|[j m] d IH]; simpl; [reflexivity|]. destruct (k =? j); [discriminate|].
  intros H. simpl. now rewrite IH.
Qed.

Definition grouped (cs : list cf) : list cf := concat (values (groups cs)).

Lemma grouped_perm (cs : list cf) : Permutation (grouped cs) cs.
Proof.
  unfold grouped. induction cs as [|c cs IH] using rev_ind; [constructor|].
  rewrite groups_snoc. unfold group_add.
  destruct (lookup (cf_sch c) (groups cs)) as [l|] eqn:El.
  - rewrite (concat_set_some _ _ _ _ El). now apply Permutation_app_tail.
  - rewrite values_set_none by exact El. rewrite concat_app. simpl.
    now apply Permutation_app_tail.
Qed.

Lemma filter_same_sch_all s (cs : list cf) : filter (same_sch s) (filter (same_sch s) cs) = filter (same_sch s) cs.
Proof.
  induction cs as [|c cs IH]; simpl; [reflexivity|]. destruct (same_sch s c) eqn:Es; simpl; [|exact IH].
  now rewrite Es, IH.
Qed.
Lemma filter_other_sch s s' (cs : list cf) : s <> s' -> filter (same_sch s) (filter (same_sch s') cs) = [].
Proof.
  intros H. induction cs as [|c cs IH]; simpl; [reflexivity|]. destruct (same_sch s' c) eqn:Es; simpl; [|exact IH].
  unfold same_sch in *. apply Nat.eqb_eq in Es. replace (cf_sch c =? s) with false; [exact IH|].
  symmetry. apply Nat.eqb_neq. congruence.
Qed.

(** within one schema the order of addition is kept *)
Lemma grouped_stable (cs : list cf) s : filter (same_sch s) (grouped cs) = filter (same_sch s) cs.
Proof.
  unfold grouped.
  assert (Hgen : forall d : dict (list cf), NoDup (keys d) -> 
     (forall k l, In (k, l) d -> l = filter (same_sch k) cs) ->
     filter (same_sch s) (concat (values d)) = match lookup s d with Some l => l | None => [] end).
  { induction d as [|[k l] d IH]; intros Hnd Hv; simpl; [reflexivity|].
    inversion Hnd as [|? ? Hk Hnd']; subst. rewrite filter_app.
    rewrite IH by (auto; intros; apply Hv; simpl; auto).
    rewrite (Hv k l) by (simpl; auto). destruct (s =? k) eqn:Ek.
    - apply Nat.eqb_eq in Ek. subst k. rewrite filter_same_sch_all.
      destruct (lookup s d) eqn:El; [|apply app_nil_r]. exfalso. apply Hk. apply lookup_In_keys. congruence.
    - apply Nat.eqb_neq in Ek. rewrite filter_other_sch by exact Ek. reflexivity. }
  rewrite Hgen.
  - rewrite groups_lookup. destruct (filter (same_sch s) cs); reflexivity.
  - apply groups_keys.
  - intros k l Hin. apply In_lookup in Hin; [|apply groups_keys]. rewrite groups_lookup in Hin.
    destruct (filter (same_sch k) cs); congruence.
Qed.

(** ---- the whole run ---- *)
Variable st : vid -> list E.
Variable b : nat.
Variable cs : list cf.

(** batch dimension of what the cost function computes alone *)
Definition own_batch (c : cf) : nat := batch_of (map st (all_vars_of c)).

Record vec_ok : Prop := {
  V_b : 1 <= b;
  V_vars : forall c, In c cs -> all_vars_of c <> [];
  V_size : forall c v, In c cs -> In v (all_vars_of c) -> length (st v) = 1 \/ length (st v) = b;
  V_names : forall c c' v v', In c cs -> In c' cs -> In v (all_vars_of c) -> In v' (all_vars_of c') ->
             vn v = vn v' -> v = v';
  V_schema : forall c c', In c cs -> In c' cs -> cf_sch c = cf_sch c' -> same_function c c';
  V_zero : forall c, In c cs -> zero_weight_annihilates c
}.

(** the batch dimension served for [c]: the objective's batch size, except that a cost function
    alone in its schema keeps its own *)
Definition served_batch (c : cf) : nat :=
  match filter (same_sch (cf_sch c)) cs with [_] => own_batch c | _ => b end.

Lemma run_single_own c : run_single dE st c = own_result dE st (own_batch c) c.
Proof.
  unfold run_single, eval_plain, own_result, own_batch, all_vars_of. rewrite map_app.
  apply map_ext. intros i. unfold rows_at. now rewrite !map_map.
Qed.

Hypothesis Hok : vec_ok.

Lemma run_schema_spec full g : In g (values (groups cs)) ->
  run_schema dE dO vn full st b g = Some (map (fun c => own_result dE st (served_batch c) c) g).
Proof.
  intros Hg. destruct (groups_value cs g Hg) as (s & Eg & Hne).
  assert (Hin : forall c, In c g -> In c cs /\ cf_sch c = s).
  { intros c Hc. rewrite Eg in Hc. apply filter_In in Hc as [A B]. split; [exact A|]. now apply Nat.eqb_eq. }
  assert (Hsb : forall c, In c g -> served_batch c = match g with [_] => own_batch c | _ => b end).
  { intros c Hc. unfold served_batch. destruct (Hin c Hc) as [_ ->]. now rewrite <- Eg. }
  destruct g as [|c0 [|c1 g']]; [congruence| |].
  - simpl. rewrite run_single_own. unfold own_batch. rewrite Hsb by (simpl; auto). reflexivity.
  - set (g := c0 :: c1 :: g') in *.
    transitivity (run_group dE dO vn full st b g); [reflexivity|].
    rewrite (run_group_spec dE dO vn g c0 (c1 :: g') eq_refl st b (V_b Hok)).
    + f_equal. apply map_ext_in. intros c Hc. rewrite Hsb by exact Hc. reflexivity.
    + intros c Hc. destruct (Hin c Hc) as [A B], (Hin c0) as [A0 B0]; [simpl; auto|].
      destruct (V_schema Hok c c0 A A0) as (L1 & L2 & _); [congruence|].
      unfold all_vars_of. rewrite !app_length. congruence.
    + intros c v Hc Hv. apply (V_size Hok c); [apply Hin; exact Hc|exact Hv].
    + intros c c' v v' Hc Hc' Hv Hv' Ev. apply (V_names Hok c c'); auto; apply Hin; assumption.
    + simpl. lia.
    + assert (Hv : all_vars_of c0 <> []) by (apply (V_vars Hok); apply Hin; simpl; auto).
      destruct (all_vars_of c0); [congruence|simpl; lia].
    + intros c Hc. destruct (Hin c Hc) as [A B], (Hin c0) as [A0 B0]; [simpl; auto|].
      apply (V_schema Hok); congruence.
    + apply (V_zero Hok). apply Hin. simpl. auto.
Qed.

Lemma combine_map_pair {A B C} (f : A -> B) (h : A -> C) l : combine (map f l) (map h l) = map (fun x => (f x, h x)) l.
Proof. induction l as [|x l IH]; simpl; [reflexivity|]. now rewrite IH. Qed.

Lemma vectorize_spec full : vectorize dE dO vn full st b cs =
  Some (map (fun c => (cf_id c, own_result dE st (served_batch c) c)) (grouped cs)).
Proof.
  unfold vectorize, grouped.
  assert (H : forall gs, incl gs (values (groups cs)) ->
    run_all dE dO vn full st b gs = Some (map (fun c => (cf_id c, own_result dE st (served_batch c) c)) (concat gs))).
  { induction gs as [|g gs IH]; intros Hi; simpl; [reflexivity|].
    rewrite run_schema_spec by (apply Hi; simpl; auto).
    rewrite IH by (intros x Hx; apply Hi; simpl; auto).
    rewrite combine_map_pair, map_app. reflexivity. }
  apply H. apply incl_refl.
Qed.

Lemma own_batch_full c : In c cs -> (exists v, In v (all_vars_of c) /\ length (st v) = b) -> own_batch c = b.
Proof.
  intros Hc (v & Hv & Hl). unfold own_batch, batch_of.
  pose proof (fun v => V_size Hok c v Hc) as Hs. pose proof (V_b Hok) as Hb1.
  revert Hv Hs. generalize (all_vars_of c). induction l as [|x l IH]; intros Hv Hs; [contradiction|]. simpl.
  assert (Hle : forall l', (forall v, In v l' -> length (st v) = 1 \/ length (st v) = b) ->
     fold_right Nat.max 0 (map (@length E) (map st l')) <= b).
  { clear -Hb1. induction l' as [|y l' IH]; intros H; simpl; [lia|].
    specialize (IH (fun v Hv => H v (or_intror Hv))). destruct (H y); simpl; auto; lia. }
  assert (Hlx : length (st x) = 1 \/ length (st x) = b) by (apply Hs; simpl; auto).
  specialize (Hle l (fun v Hv => Hs v (or_intror Hv))).
  destruct Hv as [->|Hv]; [lia|]. rewrite IH; auto; [lia|]. intros; apply Hs; simpl; auto.
Qed.

Lemma served_batch_full c : In c cs -> (exists v, In v (all_vars_of c) /\ length (st v) = b) -> served_batch c = b.
Proof.
  intros Hc Hv. unfold served_batch. destruct (filter _ cs) as [|? [|? ?]]; auto. now apply own_batch_full.
Qed.
End G.
Arguments vec_ok {E O} vn st b cs.
Arguments served_batch {E O} st b cs c.
Arguments own_batch {E O} st c.
