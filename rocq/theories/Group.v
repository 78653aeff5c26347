(** Grouping a list by a key into an insertion-ordered dict of lists (Python
    [d[key].append(x)]). *)
From Coq Require Import List Arith Lia Bool Permutation.
Import ListNotations.
From Verif Require Import Dict.

Section G.
Context {A : Type}.
Variable key : A -> nat.

Definition gadd (d : dict (list A)) (x : A) : dict (list A) :=
  Dict.set (key x) (match lookup (key x) d with Some l => l ++ [x] | None => [x] end) d.
Definition group_by (xs : list A) : dict (list A) := fold_left gadd xs [].

Definition sel (k : nat) (x : A) : bool := key x =? k.

Lemma group_by_snoc xs x : group_by (xs ++ [x]) = gadd (group_by xs) x.
Proof. unfold group_by. now rewrite fold_left_app. Qed.

Lemma group_by_lookup xs k :
  lookup k (group_by xs) = match filter (sel k) xs with [] => None | f => Some f end.
Proof.
  induction xs as [|x xs IH] using rev_ind; [reflexivity|].
  rewrite group_by_snoc. unfold gadd. rewrite lookup_set, filter_app. simpl. unfold sel at 2.
  rewrite (Nat.eqb_sym (key x) k).
  destruct (k =? key x) eqn:Es.
  - apply Nat.eqb_eq in Es. subst k. rewrite IH. destruct (filter (sel (key x)) xs); reflexivity.
  - rewrite app_nil_r. exact IH.
Qed.

Lemma group_by_keys xs : NoDup (keys (group_by xs)).
Proof.
  induction xs as [|x xs IH] using rev_ind; [constructor|].
  rewrite group_by_snoc. unfold gadd. rewrite keys_set.
  destruct (has (key x) (group_by xs)) eqn:Eh; [exact IH|].
  apply (Permutation_NoDup (l := key x :: keys (group_by xs))); [apply Permutation_cons_append|].
  constructor; [|exact IH]. unfold has in Eh.
  rewrite <- lookup_In_keys. destruct (lookup (key x) (group_by xs)); congruence.
Qed.

Lemma group_by_entry xs k g : In (k, g) (group_by xs) -> g = filter (sel k) xs /\ g <> [].
Proof.
  intros Hin. apply In_lookup in Hin; [|apply group_by_keys]. rewrite group_by_lookup in Hin.
  destruct (filter (sel k) xs); [discriminate|]. injection Hin as <-. split; [reflexivity|discriminate].
Qed.

Lemma gconcat_set_some (d : dict (list A)) k l x : lookup k d = Some l ->
  Permutation (concat (values (Dict.set k (l ++ [x]) d))) (concat (values d) ++ [x]).
Proof.
  induction d as [|[j m] d IH]; simpl; [discriminate|]. destruct (k =? j) eqn:Ej.
  - intros H. injection H as ->. simpl. rewrite <- !app_assoc. apply Permutation_app_head.
    apply Permutation_app_comm.
  - intros H. simpl. rewrite <- app_assoc. apply Permutation_app_head. now apply IH.
Qed.

Lemma gvalues_set_none (d : dict (list A)) k l : lookup k d = None -> values (Dict.set k l d) = values d ++ [l].
Proof.
  induction d as [|[j m] d IH]; simpl; [reflexivity|]. destruct (k =? j); [discriminate|].
  intros H. simpl. now rewrite IH.
Qed.

Lemma group_by_perm xs : Permutation (concat (values (group_by xs))) xs.
Proof.
  induction xs as [|x xs IH] using rev_ind; [constructor|].
  rewrite group_by_snoc. unfold gadd.
  destruct (lookup (key x) (group_by xs)) as [l|] eqn:El.
  - rewrite (gconcat_set_some _ _ _ _ El). now apply Permutation_app_tail.
  - rewrite gvalues_set_none by exact El. rewrite concat_app. simpl.
    now apply Permutation_app_tail.
Qed.
End G.
