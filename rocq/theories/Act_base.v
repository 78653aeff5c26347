(** Sums over shapes, index arithmetic, and what the torch operations of Act_model do, block by block. *)
From Coq Require Import List Arith Bool ZArith Reals Lra Lia.
From Verif Require Import RSum Act_model.
Import ListNotations.
Local Open Scope nat_scope.

(** [x] is an index of a tensor of shape [s] *)
Definition inr (s x : list nat) : Prop := Forall2 (fun n i => i < n) s x.

Lemma inr_len s x : inr s x -> length x = length s.
Proof. induction 1; cbn; congruence. Qed.
Lemma inr_app a b x y : inr a x -> inr b y -> inr (a ++ b) (x ++ y).
Proof. apply Forall2_app. Qed.
Lemma inr_two r c i j : i < r -> j < c -> inr [r; c] [i; j].
Proof. intros; repeat constructor; assumption. Qed.

Lemma isum_ext s f g : (forall x, inr s x -> f x = g x) -> isum s f = isum s g.
Proof.
  revert f g; induction s as [|n s IH]; intros f g H; cbn [isum]; [apply H; constructor|].
  apply rsum_ext; intros i Hi; apply IH; intros x Hx; apply H; constructor; assumption.
Qed.
Lemma isum_app a b f : isum (a ++ b) f = isum a (fun x => isum b (fun y => f (x ++ y))).
Proof. revert f; induction a as [|n a IH]; intros f; cbn [isum app]; [reflexivity|]. apply rsum_ext; intros i _; apply (IH (fun x => f (i :: x))). Qed.
Lemma isum_rsum s n f : isum s (fun x => rsum n (fun k => f x k)) = rsum n (fun k => isum s (fun x => f x k)).
Proof.
  revert f; induction s as [|m s IH]; intros f; cbn [isum]; [reflexivity|].
  rewrite rsum_exch. apply rsum_ext; intros i _. apply (IH (fun x k => f (i :: x) k)).
Qed.
Lemma isum_exch a b f : isum a (fun x => isum b (fun y => f x y)) = isum b (fun y => isum a (fun x => f x y)).
Proof.
  revert f; induction a as [|m a IH]; intros f; cbn [isum]; [reflexivity|].
  rewrite isum_rsum. apply rsum_ext; intros i _. apply (IH (fun x y => f (i :: x) y)).
Qed.
Lemma isum_plus s f g : isum s (fun x => (f x + g x)%R) = (isum s f + isum s g)%R.
Proof.
  revert f g; induction s as [|n s IH]; intros f g; cbn [isum]; [reflexivity|].
  rewrite <- rsum_plus. apply rsum_ext; intros i _. apply (IH (fun x => f (i :: x)) (fun x => g (i :: x))).
Qed.
Lemma isum_scal_r s f c : isum s (fun x => (f x * c)%R) = (isum s f * c)%R.
Proof.
  revert f; induction s as [|n s IH]; intros f; cbn [isum]; [reflexivity|].
  rewrite <- rsum_scal_r. apply rsum_ext; intros i _. apply (IH (fun x => f (i :: x))).
Qed.
Lemma isum_scal s f c : isum s (fun x => (c * f x)%R) = (c * isum s f)%R.
Proof. rewrite Rmult_comm, <- isum_scal_r. apply isum_ext; intros; ring. Qed.
Lemma isum_zero s f : (forall x, inr s x -> f x = 0%R) -> isum s f = 0%R.
Proof.
  revert f; induction s as [|n s IH]; intros f H; cbn [isum]; [apply H; constructor|].
  apply rsum_0; intros i Hi; apply IH; intros x Hx; apply H; constructor; assumption.
Qed.
Lemma isum_one n f : isum [n] f = rsum n (fun i => f [i]).
Proof. reflexivity. Qed.
Lemma isum_two r c f : isum [r; c] f = rsum r (fun i => rsum c (fun j => f [i; j])).
Proof. reflexivity. Qed.

Lemma list_eqb_eq a b : list_eqb a b = true <-> a = b.
Proof.
  revert b; induction a as [|x a IH]; destruct b as [|y b]; cbn; split; intros H; try discriminate; try reflexivity.
  - apply andb_true_iff in H; destruct H as [H1 H2]. apply Nat.eqb_eq in H1. apply IH in H2. congruence.
  - injection H as -> ->. rewrite Nat.eqb_refl. cbn. apply IH; reflexivity.
Qed.
Lemma isum_delta s k (d : list nat -> R) : inr s k -> isum s (fun x => if list_eqb k x then d x else 0%R) = d k.
Proof.
  intros H; revert d; induction H as [|n i s k Hi H IH]; intros d; cbn [isum]; [reflexivity|].
  transitivity (rsum n (fun i0 => if i0 =? i then d (i0 :: k) else 0%R)).
  - apply rsum_ext; intros i0 _. cbn [list_eqb]. rewrite (Nat.eqb_sym i i0). destruct (i0 =? i) eqn:E.
    + cbn. apply (IH (fun x => d (i0 :: x))).
    + cbn. apply isum_zero; reflexivity.
  - rewrite (rsum_delta n i (fun i0 => d (i0 :: k))). destruct (Nat.ltb_spec i n); [reflexivity|lia].
Qed.

(** ** broadcasting *)
Lemma bzip_len a b c : bzip a b = Some c -> length a = length c /\ length b = length c.
Proof.
  revert b c; induction a as [|x a IH]; destruct b as [|y b]; intros c H; cbn in H; try discriminate; [injection H as <-; auto|].
  destruct (if x =? y then Some x else if x =? 1 then Some y else if y =? 1 then Some x else None); [|discriminate].
  destruct (bzip a b) eqn:E; [|discriminate]. injection H as <-. cbn. destruct (IH _ _ E); lia.
Qed.
Lemma bzip_app a b c a' b' c' : bzip a b = Some c -> bzip a' b' = Some c' -> bzip (a ++ a') (b ++ b') = Some (c ++ c').
Proof.
  revert b c; induction a as [|x a IH]; destruct b as [|y b]; intros c H H'; cbn in H; try discriminate; [injection H as <-; exact H'|].
  destruct (if x =? y then Some x else if x =? 1 then Some y else if y =? 1 then Some x else None) eqn:E0; [|discriminate].
  destruct (bzip a b) eqn:E; [|discriminate]. injection H as <-. cbn. rewrite E0, (IH _ _ E H'). reflexivity.
Qed.
Lemma bzip_refl a : bzip a a = Some a.
Proof. induction a as [|x a IH]; cbn; [reflexivity|]. rewrite Nat.eqb_refl, IH; reflexivity. Qed.
Lemma bzip_ones_l b : bzip (repeat 1 (length b)) b = Some b.
Proof. induction b as [|x b IH]; cbn [repeat length bzip]; [reflexivity|]. rewrite IH, Nat.eqb_refl. destruct (1 =? x) eqn:E; [apply Nat.eqb_eq in E; subst|]; reflexivity. Qed.
Lemma bzip_sym a b : bzip a b = bzip b a.
Proof.
  revert b; induction a as [|x a IH]; destruct b as [|y b]; cbn; try reflexivity. rewrite IH, (Nat.eqb_sym y x).
  destruct (x =? y) eqn:E; [apply Nat.eqb_eq in E; subst; reflexivity|].
  destruct (x =? 1) eqn:E1, (y =? 1) eqn:E2; try reflexivity. apply Nat.eqb_eq in E1, E2; subst; reflexivity.
Qed.
(** each argument broadcasts to the result *)
Lemma bzip_absorb a b c : bzip a b = Some c -> bzip a c = Some c.
Proof.
  revert b c; induction a as [|x a IH]; destruct b as [|y b]; intros c H; cbn in H; try discriminate; [injection H as <-; reflexivity|].
  destruct (x =? y) eqn:E; [|destruct (x =? 1) eqn:E1; [|destruct (y =? 1) eqn:E2; [|discriminate]]];
    (destruct (bzip a b) eqn:E3; [|discriminate]); injection H as <-; cbn; rewrite (IH _ _ E3), ?Nat.eqb_refl, ?E1, ?E; reflexivity.
Qed.
Lemma bsel_inr a b x : bzip a b = Some b -> inr b x -> inr a (bsel a x).
Proof.
  revert b x; induction a as [|n a IH]; destruct b as [|m b]; intros x H Hx; cbn in H; try discriminate; [constructor|].
  inversion Hx as [|? i ? x' Hi Hx']; subst.
  destruct (n =? m) eqn:E; [|destruct (n =? 1) eqn:E1; [|destruct (m =? 1) eqn:E2; [|discriminate]]];
    (destruct (bzip a b) eqn:E3; [|discriminate]); injection H as H1; subst; cbn.
  - apply Nat.eqb_eq in E; subst. constructor; [destruct (m =? 1); lia|]. eapply IH; eauto.
  - apply Nat.eqb_eq in E1; subst. constructor; [cbn; lia|]. eapply IH; eauto.
  - rewrite Nat.eqb_refl in E; discriminate.
Qed.
Lemma bsel_id s x : inr s x -> bsel s x = x.
Proof. induction 1 as [|n i s x Hi H IH]; cbn; [reflexivity|]. rewrite IH. destruct (n =? 1) eqn:E; [apply Nat.eqb_eq in E; subst; f_equal; lia|reflexivity]. Qed.
Lemma bsel_app a b x y : length x = length a -> bsel (a ++ b) (x ++ y) = bsel a x ++ bsel b y.
Proof. revert x; induction a as [|n a IH]; destruct x as [|i x]; cbn; intros H; try discriminate; [reflexivity|]. rewrite IH by lia. reflexivity. Qed.
Lemma bsel_len s x : length s <= length x -> length (bsel s x) = length s.
Proof. revert x; induction s as [|n s IH]; destruct x as [|i x]; cbn; intros H; try lia. rewrite IH; lia. Qed.
Lemma bsel_ones k x : length x = k -> bsel (repeat 1 k) x = repeat 0 k.
Proof. intros <-; induction x as [|i x IH]; cbn; [reflexivity|]. rewrite IH; reflexivity. Qed.
Lemma skipn_app_exact {A} (a b : list A) n : n = length a -> skipn n (a ++ b) = b.
Proof. intros ->. rewrite skipn_app, skipn_all, Nat.sub_diag. reflexivity. Qed.
Lemma firstn_app_exact {A} (a b : list A) n : n = length a -> firstn n (a ++ b) = a.
Proof. intros ->. rewrite firstn_app, firstn_all, Nat.sub_diag. cbn. apply app_nil_r. Qed.
(** a leading block of the index that the shape does not have is ignored *)
Lemma bidx_skip s x y : length s <= length y -> bidx s (x ++ y) = bidx s y.
Proof.
  intros H. unfold bidx. rewrite app_length. replace (length x + length y - length s) with (length x + (length y - length s)) by lia.
  rewrite skipn_app, (skipn_all2 x) by lia. cbn. f_equal. f_equal. lia.
Qed.
Lemma bidx_tail s m x y : inr m y -> length s <= length x -> bidx (s ++ m) (x ++ y) = bidx s x ++ y.
Proof.
  intros H Hl. pose proof (inr_len _ _ H) as L. unfold bidx. rewrite !app_length, L.
  replace (length x + length m - (length s + length m)) with (length x - length s) by lia.
  rewrite skipn_app. replace (length x - length s - length x) with 0 by lia. cbn [skipn].
  rewrite bsel_app by (rewrite skipn_length; lia). rewrite (bsel_id m y H). reflexivity.
Qed.
Lemma bidx_head a s x y : inr a x -> length y = length s -> bidx (a ++ s) (x ++ y) = x ++ bidx s y.
Proof.
  intros H L. unfold bidx. rewrite !app_length, (inr_len _ _ H), L, !Nat.sub_diag. cbn [skipn].
  rewrite bsel_app by (apply inr_len; exact H). rewrite (bsel_id _ _ H). reflexivity.
Qed.
Lemma bidx_len s x : length s <= length x -> length (bidx s x) = length s.
Proof. intros H; unfold bidx. apply bsel_len. rewrite skipn_length; lia. Qed.
(** [pad] does not change which entry is read *)
Lemma bidx_pad n s x : n = length x -> length s <= n -> bidx (pad n s) x = repeat 0 (n - length s) ++ bidx s x.
Proof.
  intros -> H. unfold bidx, pad. rewrite app_length, repeat_length.
  replace (length x - (length x - length s + length s)) with 0 by lia. cbn [skipn].
  rewrite <- (firstn_skipn (length x - length s) x) at 2. rewrite bsel_app by (rewrite repeat_length, firstn_length; lia).
  rewrite bsel_ones by (rewrite firstn_length; lia). reflexivity.
Qed.
Lemma pad_len n s : length s <= n -> length (pad n s) = n.
Proof. intros; unfold pad; rewrite app_length, repeat_length; lia. Qed.
Lemma pad_app n a b : length a <= n -> pad (n + length b) (a ++ b) = pad n a ++ b.
Proof. intros; unfold pad. rewrite app_length. replace (n + length b - (length a + length b)) with (n - length a) by lia. apply app_assoc. Qed.
Lemma pad_id n s : n <= length s -> pad n s = s.
Proof. intros; unfold pad. replace (n - length s) with 0 by lia. reflexivity. Qed.
Lemma pad_shift n o s : length s <= n -> bzip (pad (length o + n) s) (o ++ pad n s) = Some (o ++ pad n s).
Proof.
  intros H. replace (pad (length o + n) s) with (repeat 1 (length o) ++ pad n s).
  - apply bzip_app; [apply bzip_ones_l|apply bzip_refl].
  - unfold pad. rewrite app_assoc, <- repeat_app. f_equal. f_equal. lia.
Qed.

(** expandability, as autograd checks it *)
Definition expands (s b : list nat) : Prop := length s <= length b /\ bzip (pad (length b) s) b = Some b.
Lemma expands_refl s : expands s s.
Proof. split; [lia|]. rewrite pad_id by lia. apply bzip_refl. Qed.
Lemma expands_tail s b m : expands s b -> expands (s ++ m) (b ++ m).
Proof.
  intros [H1 H2]. split; [rewrite !app_length; lia|]. rewrite app_length, pad_app by lia. apply bzip_app; [exact H2|apply bzip_refl].
Qed.
Lemma bidx_inr s b x : expands s b -> inr b x -> inr s (bidx s x).
Proof.
  intros [H1 H2] Hx. pose proof (bsel_inr _ _ _ H2 Hx) as H. pose proof (inr_len _ _ Hx) as L.
  pose proof (bidx_pad (length b) s x (eq_sym L) H1) as E. unfold bidx at 1 in E. rewrite pad_len, L, Nat.sub_diag in E by exact H1. cbn [skipn] in E.
  rewrite E in H. unfold pad in H. apply Forall2_app_inv_l in H. destruct H as (u & v & Hu & Hv & Ex).
  pose proof (inr_len _ _ Hu) as Lu. rewrite repeat_length in Lu.
  apply (f_equal (skipn (length b - length s))) in Ex. rewrite !skipn_app_exact in Ex by (rewrite ?repeat_length; lia). rewrite Ex. exact Hv.
Qed.
Lemma bcast_expands a b c : bcast a b = Some c -> expands a c /\ expands b c.
Proof.
  unfold bcast; intros H. pose proof (bzip_len _ _ _ H) as [La Lb]. unfold pad in La, Lb; rewrite app_length, repeat_length in La, Lb.
  assert (length c = max (length a) (length b)) by lia. split; split; try lia; rewrite H0.
  - eapply bzip_absorb; exact H.
  - eapply bzip_absorb; rewrite bzip_sym; exact H.
Qed.
Lemma reduce_adjoint s g : expands s (sh g) -> exists r, reduce s g = Some r /\ sh r = s /\
  forall d, isum s (fun x => (dat r x * d x)%R) = isum (sh g) (fun y => (dat g y * d (bidx s y))%R).
Proof.
  intros E. unfold reduce. destruct E as [E1 E2]. destruct (Nat.leb_spec (length s) (ndim g)); [|lia]. rewrite E2.
  rewrite (proj2 (list_eqb_eq (sh g) (sh g)) eq_refl). eexists; split; [reflexivity|]. split; [reflexivity|]. intros d; cbn [dat].
  transitivity (isum s (fun x => isum (sh g) (fun y => if list_eqb (bidx s y) x then (dat g y * d x)%R else 0%R))).
  - apply isum_ext; intros x _. rewrite <- isum_scal_r. apply isum_ext; intros y _. destruct (list_eqb _ _); ring.
  - rewrite isum_exch. apply isum_ext; intros y Hy. apply (isum_delta s (bidx s y) (fun x => (dat g y * d x)%R)).
    apply bidx_inr with (b := sh g); [split; assumption|exact Hy].
Qed.
