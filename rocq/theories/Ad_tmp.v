(** AutoDiffCostFunction's temporary variables in VMAP mode: what they hold after any history of calls. *)
From Coq Require Import List Arith Bool Lia.
Import ListNotations.

(** What a temporary variable holds: a regular tensor, or a tensor created inside a functorch transform, which cannot be used
    after the transform has ended (comment in cost_function.py 346-353). *)
Inductive cell := Plain | Dead.

(** cost_function.py 310-322: the body of jac_fn updates the variables one after the other; [done] of them were updated when it
    returned or raised *)
Definition body (done : nat) (c : list cell) : list cell := repeat Dead (Nat.min done (length c)) ++ skipn done c.
(** cost_function.py 182-188 [_tmp_tensors]: saves the tensors, yields, restores them; there is no [finally], so an exception in the
    body skips the restoring *)
Definition tmp_tensors (raised : bool) (done : nat) (c : list cell) : list cell := if raised then body done c else c.

(** one call of jacobians() in VMAP mode: whether err_fn raises inside the transform, and after how many updates *)
Record call := mkCall { c_raised : bool; c_done : nat }.
(** cost_function.py 354-359 *)
Definition jacobians_call (k : call) (c : list cell) : list cell := tmp_tensors (c_raised k) (c_done k) c.
(** cost_function.py 411-423 [to()]: calls to() on every temporary variable; [None] = it raises *)
Definition is_plain (x : cell) : bool := match x with Plain => true | Dead => false end.
Definition to_call (c : list cell) : option (list cell) := if forallb is_plain c then Some c else None.

Definition history (ks : list call) (c : list cell) : list cell := fold_left (fun c k => jacobians_call k c) ks c.

(** As long as no call raises, the variables hold what they held before. *)
Theorem C71_tmp_kept : forall ks c, (forall k, In k ks -> c_raised k = false) -> history ks c = c.
Proof.
  induction ks as [|k ks IH]; intros c H; [reflexivity|]. cbn. unfold jacobians_call at 2, tmp_tensors. rewrite (H k) by now left.
  apply IH. intros; apply H; now right.
Qed.

Lemma body_dead done c : (1 <= done)%nat -> c <> [] -> In Dead (body done c).
Proof. intros Hd Hc. unfold body. destruct done; [lia|]. destruct c; [congruence|]. cbn. now left. Qed.
Lemma body_dead_kept done c : In Dead c -> In Dead (body done c).
Proof.
  intro H. unfold body. destruct (Nat.le_gt_cases (length c) done) as [Hl|Hl].
  - apply in_or_app. left. rewrite Nat.min_r by exact Hl. destruct c; [destruct H|]. cbn. now left.
  - rewrite Nat.min_l by lia. apply in_or_app. rewrite <- (firstn_skipn done c) in H. apply in_app_or in H. destruct H as [H|H]; [|now right].
    left. destruct done; [destruct H|]. cbn. now left.
Qed.
(** Once a call has raised inside the transform, the cost function can never be moved with to() again, whatever is called later. *)
Theorem C71_tmp_refuted : forall ks k ks' c, c <> [] -> c_raised k = true -> (1 <= c_done k)%nat -> to_call (history (ks ++ k :: ks') c) = None.
Proof.
  intros ks k ks' c Hc Hr Hd. unfold to_call, history. rewrite fold_left_app. cbn. fold (history ks c).
  assert (Hne : history ks c <> []).
  { revert c Hc. induction ks as [|k0 ks IH]; intros c Hc; [exact Hc|]. cbn. apply IH. unfold jacobians_call, tmp_tensors. destruct (c_raised k0); [|exact Hc].
    intro H. apply (f_equal (@length _)) in H. unfold body in H. rewrite app_length, repeat_length, skipn_length in H. destruct c; [congruence|]. cbn in H. destruct (c_done k0); cbn in H; lia. }
  assert (D : In Dead (jacobians_call k (history ks c))) by (unfold jacobians_call, tmp_tensors; rewrite Hr; now apply body_dead).
  assert (D' : In Dead (fold_left (fun c0 k0 => jacobians_call k0 c0) ks' (jacobians_call k (history ks c)))).
  { revert D. generalize (jacobians_call k (history ks c)). induction ks' as [|k' ks' IH]; intros c0 D; [exact D|]. cbn. apply IH.
    unfold jacobians_call, tmp_tensors. destruct (c_raised k'); [now apply body_dead_kept|exact D]. }
  destruct (forallb is_plain _) eqn:F; [|reflexivity]. exfalso. rewrite forallb_forall in F. specialize (F _ D'). discriminate.
Qed.
Example C71_tmp_example : to_call (history [mkCall false 2; mkCall true 2; mkCall false 2] [Plain; Plain]) = None.
Proof. reflexivity. Qed.
