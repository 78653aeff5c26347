(** Insertion-ordered dictionaries (Python [dict] / [OrderedDict]) keyed by [nat],
    as association lists.  Keys of this development are object ids or names, which the
    modelled code only ever compares for equality. *)
From Coq Require Import List Arith Lia Bool.
Import ListNotations.

Section Dict.
Context {V : Type}.
Definition dict := list (nat * V).

(** [d.get(k)] *)
Fixpoint lookup (k : nat) (d : dict) : option V :=
  match d with
  | [] => None
  | (k', v) :: r => if k =? k' then Some v else lookup k r
  end.

(** [k in d] *)
Definition has (k : nat) (d : dict) : bool :=
  match lookup k d with Some _ => true | None => false end.

(** [d[k] = v]: overwrites in place, or appends at the end. *)
Fixpoint set (k : nat) (v : V) (d : dict) : dict :=
  match d with
  | [] => [(k, v)]
  | (k', v') :: r => if k =? k' then (k, v) :: r else (k', v') :: set k v r
  end.

(** [del d[k]] (the caller checks membership; Python raises KeyError otherwise). *)
Fixpoint del (k : nat) (d : dict) : dict :=
  match d with
  | [] => []
  | (k', v') :: r => if k =? k' then r else (k', v') :: del k r
  end.

Definition keys (d : dict) : list nat := map fst d.
Definition values (d : dict) : list V := map snd d.

Lemma lookup_set k k' v d :
  lookup k (set k' v d) = if k =? k' then Some v else lookup k d.
Proof.
  induction d as [|[j w] r IH]; simpl.
  - reflexivity.
  - destruct (k' =? j) eqn:E1; simpl.
    + apply Nat.eqb_eq in E1; subst j. destruct (k =? k') eqn:E; reflexivity.
    + destruct (k =? j) eqn:E2; simpl.
      * apply Nat.eqb_eq in E2; subst j.
        destruct (k =? k') eqn:E3; [|reflexivity].
        apply Nat.eqb_eq in E3; subst. rewrite Nat.eqb_refl in E1; discriminate.
      * exact IH.
Qed.

Lemma lookup_set_eq k v d : lookup k (set k v d) = Some v.
Proof. now rewrite lookup_set, Nat.eqb_refl. Qed.

Lemma lookup_set_ne k k' v d : k <> k' -> lookup k (set k' v d) = lookup k d.
Proof. intros H. rewrite lookup_set. apply Nat.eqb_neq in H. now rewrite H. Qed.

Lemma lookup_In_keys k d : lookup k d <> None <-> In k (keys d).
Proof.
  induction d as [|[j w] r IH]; simpl.
  - split; [congruence|tauto].
  - destruct (k =? j) eqn:E.
    + apply Nat.eqb_eq in E; subst. split; [auto|congruence].
    + apply Nat.eqb_neq in E. rewrite IH. split; [auto|]. intros [H|H]; [congruence|auto].
Qed.

Lemma lookup_None_keys k d : lookup k d = None <-> ~ In k (keys d).
Proof.
  rewrite <- lookup_In_keys. destruct (lookup k d); split; intros H; try congruence.
  exfalso; apply H; congruence.
Qed.

Lemma keys_set k v d : keys (set k v d) = if has k d then keys d else keys d ++ [k].
Proof.
  unfold has. induction d as [|[j w] r IH]; simpl; [reflexivity|].
  destruct (k =? j) eqn:E; simpl.
  - apply Nat.eqb_eq in E; now subst.
  - rewrite IH. destruct (lookup k r); reflexivity.
Qed.

Lemma NoDup_keys_set k v d : NoDup (keys d) -> NoDup (keys (set k v d)).
Proof.
  intros H. rewrite keys_set. unfold has.
  destruct (lookup k d) eqn:E; [exact H|].
  apply lookup_None_keys in E.
  apply NoDup_Add with (a := k) (l := keys d).
  - rewrite <- (app_nil_r (keys d)) at 1. apply Add_app.
  - now split.
Qed.

Lemma In_keys_del k k' d : In k (keys (del k' d)) -> In k (keys d).
Proof.
  induction d as [|[j w] r IH]; simpl; [tauto|].
  destruct (k' =? j); simpl; tauto.
Qed.

Lemma NoDup_keys_del k d : NoDup (keys d) -> NoDup (keys (del k d)).
Proof.
  induction d as [|[j w] r IH]; simpl; intros H; [constructor|].
  inversion H as [|? ? Hn Hr]; subst. destruct (k =? j); [exact Hr|].
  simpl. constructor; [|auto]. intros Hin. apply Hn. eapply In_keys_del; eauto.
Qed.

Lemma lookup_del_eq k d : NoDup (keys d) -> lookup k (del k d) = None.
Proof.
  induction d as [|[j w] r IH]; simpl; intros H; [reflexivity|].
  inversion H as [|? ? Hn Hr]; subst. destruct (k =? j) eqn:E.
  - apply Nat.eqb_eq in E; subst. now apply lookup_None_keys.
  - simpl. rewrite E. auto.
Qed.

Lemma lookup_del_ne k k' d : k <> k' -> lookup k (del k' d) = lookup k d.
Proof.
  intros Hne. induction d as [|[j w] r IH]; simpl; [reflexivity|].
  destruct (k' =? j) eqn:E.
  - apply Nat.eqb_eq in E; subst j. apply Nat.eqb_neq in Hne. now rewrite Hne.
  - simpl. destruct (k =? j); auto.
Qed.

Lemma lookup_del k k' d : NoDup (keys d) ->
  lookup k (del k' d) = if k =? k' then None else lookup k d.
Proof.
  intros H. destruct (k =? k') eqn:E.
  - apply Nat.eqb_eq in E; subst. now apply lookup_del_eq.
  - apply Nat.eqb_neq in E. now apply lookup_del_ne.
Qed.

Lemma has_true k d : has k d = true <-> lookup k d <> None.
Proof. unfold has. destruct (lookup k d); split; intros H; congruence. Qed.

Lemma has_false k d : has k d = false <-> lookup k d = None.
Proof. unfold has. destruct (lookup k d); split; intros H; congruence. Qed.

Lemma set_present_keys k v d : lookup k d <> None -> keys (set k v d) = keys d.
Proof. intros H. rewrite keys_set. apply has_true in H. now rewrite H. Qed.

Lemma set_absent k v d : lookup k d = None -> set k v d = d ++ [(k, v)].
Proof.
  induction d as [|[j w] r IH]; simpl; [reflexivity|].
  destruct (k =? j); [discriminate|]. intros H. now rewrite IH.
Qed.

Lemma set_same k v d : lookup k d = Some v -> set k v d = d.
Proof.
  induction d as [|[j w] r IH]; simpl; [discriminate|].
  destruct (k =? j) eqn:E.
  - intros H; injection H as ->. apply Nat.eqb_eq in E; now subst.
  - intros H; now rewrite IH.
Qed.

Lemma lookup_Some_In k v d : lookup k d = Some v -> In (k, v) d.
Proof.
  induction d as [|[j w] r IH]; simpl; [discriminate|].
  destruct (k =? j) eqn:E.
  - apply Nat.eqb_eq in E; subst. intros H; injection H as ->; auto.
  - auto.
Qed.

Lemma In_lookup k v d : NoDup (keys d) -> In (k, v) d -> lookup k d = Some v.
Proof.
  induction d as [|[j w] r IH]; simpl; [tauto|]. intros Hnd [H|H].
  - injection H as -> ->. now rewrite Nat.eqb_refl.
  - inversion Hnd as [|? ? Hn Hr]; subst. destruct (k =? j) eqn:E.
    + apply Nat.eqb_eq in E; subst. exfalso. apply Hn.
      change j with (fst (j, v)). now apply in_map.
    + auto.
Qed.

End Dict.
Arguments dict V : clear implicits.
