(** What the torch operations of Grp_model do, block by block. *)
From Coq Require Import List Arith Bool ZArith Reals Lra Lia.
From Verif Require Import RSum Act_model Act_base Act_ops Act_props Act_raise Grp_model Grp_spec.
Import ListNotations.
Local Open Scope nat_scope.

Lemma bcast_sym a b : bcast a b = bcast b a.
Proof. unfold bcast. rewrite (Nat.max_comm (length b)). apply bzip_sym. Qed.
Lemma bcast_expand_r g s : expands g s -> bcast s g = Some s.
Proof. intros H. rewrite bcast_sym. apply bcast_expand; exact H. Qed.
Lemma bidx_id s x : inr s x -> bidx s x = x.
Proof. intros H. unfold bidx. rewrite (inr_len _ _ H), Nat.sub_diag. cbn [skipn]. apply bsel_id; exact H. Qed.

Lemma vec_lead t B n : sh t = B ++ [n] -> lead t = B /\ last_dim t = n /\ ndim t = length B + 1.
Proof.
  intros E. unfold lead, last_dim. rewrite E. destruct (idx_split1 B n) as (-> & -> & ->). rewrite app_length. auto.
Qed.
Lemma mat_lead t A r c : sh t = A ++ [r; c] -> lead t = A ++ [r] /\ last_dim t = c /\ ndim t = length A + 2.
Proof.
  intros E. assert (E' : sh t = (A ++ [r]) ++ [c]) by (rewrite E, <- app_assoc; reflexivity). destruct (vec_lead _ _ _ E') as (H1 & H2 & H3).
  rewrite H1, H2, H3, app_length. cbn [length]. repeat split; lia.
Qed.
Lemma unsqueeze_blocks t B n : sh t = B ++ [n] -> sh (unsqueeze t) = B ++ [n; 1] /\ forall x i j, dat (unsqueeze t) (x ++ [i; j]) = dat t (x ++ [i]).
Proof.
  intros E. unfold unsqueeze; cbn [sh dat]. rewrite E, <- app_assoc. split; [reflexivity|]. intros x i j.
  replace (x ++ [i; j]) with ((x ++ [i]) ++ [j]) by (rewrite <- app_assoc; reflexivity). destruct (idx_split1 (x ++ [i]) j) as (-> & -> & _). reflexivity.
Qed.
Lemma squeeze_blocks t B n : sh t = B ++ [n; 1] -> sh (squeeze t) = B ++ [n] /\ forall x i, dat (squeeze t) (x ++ [i]) = dat t (x ++ [i; 0]).
Proof.
  intros E. destruct (mat_lead _ _ _ _ E) as (H1 & H2 & H3). unfold squeeze. rewrite H2, Nat.eqb_refl. cbn [sh dat]. split; [exact H1|].
  intros x i. rewrite <- app_assoc. reflexivity.
Qed.
Lemma cols_from_blocks k t A r c : sh t = A ++ [r; c] -> sh (cols_from k t) = A ++ [r; c - k] /\ forall x i j, dat (cols_from k t) (x ++ [i; j]) = dat t (x ++ [i; k + j]).
Proof.
  intros E. destruct (mat_bsh _ _ _ _ E) as (H0 & H1 & H2 & H3). unfold cols_from; cbn [sh dat]. rewrite H0, H1, H2. split; [reflexivity|].
  intros x i j. replace (x ++ [i; j]) with ((x ++ [i]) ++ [j]) by (rewrite <- app_assoc; reflexivity).
  destruct (idx_split1 (x ++ [i]) j) as (-> & -> & ->). rewrite <- app_assoc. reflexivity.
Qed.
Lemma bcast_tail A B S m : bcast A B = Some S -> bcast (A ++ m) (B ++ m) = Some (S ++ m).
Proof.
  unfold bcast. intros H. rewrite !app_length. replace (max (length A + length m) (length B + length m)) with (max (length A) (length B) + length m) by lia.
  rewrite !pad_app by lia. apply bzip_app; [exact H|apply bzip_refl].
Qed.
Lemma bcast_tail_inv A B m s : bcast (A ++ m) (B ++ m) = Some s -> exists S, bcast A B = Some S.
Proof.
  unfold bcast. rewrite !app_length. replace (max (length A + length m) (length B + length m)) with (max (length A) (length B) + length m) by lia.
  rewrite !pad_app by lia. assert (L : length (pad (max (length A) (length B)) A) = length (pad (max (length A) (length B)) B)) by (rewrite !pad_len by lia; reflexivity).
  revert L s. generalize (pad (max (length A) (length B)) A) as a, (pad (max (length A) (length B)) B) as b. clear.
  induction a as [|x a IH]; destruct b as [|y b]; cbn [length]; intros L s H; try discriminate; [eexists; reflexivity|]. cbn [app bzip] in H |- *.
  destruct (if x =? y then _ else _); [|discriminate]. destruct (bzip (a ++ m) (b ++ m)) eqn:E; [|discriminate]. destruct (IH b ltac:(lia) _ E) as [S ->]. eauto.
Qed.
Lemma zipw_blocks op a b A B S m : sh a = A ++ m -> sh b = B ++ m -> bcast A B = Some S -> exists q, zipw op a b = Some q /\ sh q = S ++ m /\
  forall x y, inr S x -> inr m y -> dat q (x ++ y) = op (dat a (bidx A x ++ y)) (dat b (bidx B x ++ y)).
Proof.
  intros Ea Eb H. unfold zipw. rewrite Ea, Eb, (bcast_tail _ _ _ m H). eexists. split; [reflexivity|]. split; [reflexivity|]. intros x y Hx Hy. cbn [dat].
  destruct (bcast_expands _ _ _ H) as [[L1 _] [L2 _]]. pose proof (inr_len _ _ Hx). rewrite !bidx_tail by (assumption || lia). reflexivity.
Qed.
Lemma cat_blocks a b S r c d : sh a = S ++ [r; c] -> sh b = S ++ [r; d] -> exists q, cat_cols a b = Some q /\ sh q = S ++ [r; c + d] /\
  forall x i j, dat q (x ++ [i; j]) = if j <? c then dat a (x ++ [i; j]) else dat b (x ++ [i; j - c]).
Proof.
  intros Ea Eb. destruct (mat_lead _ _ _ _ Ea) as (a1 & _ & a3). destruct (mat_lead _ _ _ _ Eb) as (b1 & _ & b3).
  destruct (mat_bsh _ _ _ _ Ea) as (_ & _ & a2 & _). destruct (mat_bsh _ _ _ _ Eb) as (_ & _ & b2 & _).
  unfold cat_cols. rewrite a1, a2, a3, b1, b2, b3. rewrite (proj2 (list_eqb_eq (S ++ [r]) (S ++ [r])) eq_refl).
  replace (2 <=? length S + 2) with true by (symmetry; apply Nat.leb_le; lia). cbn [andb]. eexists. split; [reflexivity|]. cbn [sh dat]. split; [rewrite <- app_assoc; reflexivity|].
  intros x i j. replace (x ++ [i; j]) with ((x ++ [i]) ++ [j]) by (rewrite <- app_assoc; reflexivity).
  destruct (idx_split1 (x ++ [i]) j) as (-> & -> & ->). rewrite <- !app_assoc. reflexivity.
Qed.
(** view *)
Lemma numel_app a b : numel (a ++ b) = numel a * numel b.
Proof. induction a as [|n a IH]; cbn [app numel]; [lia|]. rewrite IH. ring. Qed.
Lemma ravel_app a b x y : length x = length a -> ravel (a ++ b) (x ++ y) = ravel a x * numel b + ravel b y.
Proof.
  revert x; induction a as [|n a IH]; destruct x as [|i x]; cbn [length app ravel]; intros H; try discriminate; [lia|]. rewrite IH by lia. rewrite numel_app. ring.
Qed.
Lemma ravel_lt s x : inr s x -> ravel s x < numel s.
Proof.
  induction 1 as [|n i s x Hi H IH]; cbn [ravel numel]; [lia|]. assert (S i * numel s <= n * numel s) by (apply Nat.mul_le_mono_r; lia). cbn in H0. lia.
Qed.
Lemma unravel_ravel s x : inr s x -> unravel s (ravel s x) = x.
Proof.
  induction 1 as [|n i s x Hi H IH]; cbn [ravel unravel]; [reflexivity|]. pose proof (ravel_lt _ _ H).
  rewrite Nat.div_add_l, (Nat.div_small (ravel s x)), Nat.add_0_r by lia. rewrite Nat.add_comm, Nat.mod_add, Nat.mod_small, IH by lia. reflexivity.
Qed.
Lemma view_blocks t B n m : sh t = B ++ n -> numel m = numel n -> exists p, view (B ++ m) t = Some p /\ sh p = B ++ m /\
  forall x y z, inr B x -> inr n z -> ravel m y = ravel n z -> dat p (x ++ y) = dat t (x ++ z).
Proof.
  intros E N. unfold view. rewrite E, !numel_app, N, Nat.eqb_refl. eexists. split; [reflexivity|]. split; [reflexivity|]. intros x y z Hx Hz Er. cbn [dat].
  f_equal. rewrite <- (unravel_ravel (B ++ n) (x ++ z)) by (apply inr_app; assumption). f_equal.
  rewrite !ravel_app by (apply inr_len; assumption). rewrite N, Er. reflexivity.
Qed.
Lemma expand_blocks t B S m : sh t = B ++ m -> expands B S -> exists q, expand (S ++ m) t = Some q /\ sh q = S ++ m /\
  forall x y, inr S x -> inr m y -> dat q (x ++ y) = dat t (bidx B x ++ y).
Proof.
  intros E H. destruct (expands_tail _ _ m H) as [L1 L2]. unfold expand. rewrite E. destruct (Nat.leb_spec (length (B ++ m)) (length (S ++ m))); [|lia].
  rewrite L2, (proj2 (list_eqb_eq _ _) eq_refl). eexists. split; [reflexivity|]. split; [reflexivity|]. intros x y Hx Hy. cbn [dat].
  destruct H as [H _]. pose proof (inr_len _ _ Hx). rewrite bidx_tail by (assumption || lia). reflexivity.
Qed.
Lemma eyes_blocks S n x i j : dat (eyes S n) (x ++ [i; j]) = if i =? j then 1%R else 0%R.
Proof. unfold eyes; cbn [dat]. destruct (idx_split x i j) as (-> & _ & -> & ->). reflexivity. Qed.
Lemma lift_blocks t B : sh t = B ++ [3] -> sh (lift_so3 t) = B ++ [3; 3] /\ forall x i j, i < 3 -> j < 3 -> dat (lift_so3 t) (x ++ [i; j]) = cross (fun c => dat t (x ++ [c])) i j.
Proof.
  intros E. destruct (vec_lead _ _ _ E) as (H1 & _). unfold lift_so3; cbn [sh dat]. unfold lead in H1. rewrite H1. split; [reflexivity|].
  intros x i j Hi Hj. destruct (idx_split x i j) as (-> & -> & -> & ->).
  destruct i as [|[|[|i]]]; [| | |lia]; (destruct j as [|[|[|j]]]; [| | |lia]); reflexivity.
Qed.
Lemma check_transform_ok t B : sh t = B ++ [3] -> check_transform t = true.
Proof.
  intros E. destruct (vec_lead _ _ _ E) as (_ & H2 & H3). unfold check_transform. rewrite H2, H3, Nat.eqb_refl.
  replace (1 <=? length B + 1) with true by (symmetry; apply Nat.leb_le; lia). reflexivity.
Qed.
Lemma check_transform_inv t : check_transform t = true -> exists B, sh t = B ++ [3].
Proof.
  unfold check_transform. rewrite andb_true_iff, Nat.leb_le, Nat.eqb_eq. intros [H1 H2]. destruct (exists_last (l := sh t)) as (B & n & E).
  { intros E; rewrite E in H1; cbn in H1; lia. }
  destruct (vec_lead _ _ _ E) as (_ & H3 & _). rewrite H2 in H3. subst n. exists B; exact E.
Qed.
Lemma check_group_inv c g : check_group_shape c g = true -> exists A, sh g = A ++ [3; c].
Proof.
  unfold check_group_shape. rewrite !andb_true_iff, Nat.leb_le, !Nat.eqb_eq. intros [[H1 H2] H3]. destruct (split_mat (sh g) H1) as [A E].
  unfold rows, cols in H2, H3. rewrite H2, H3 in E. exists A; exact E.
Qed.

(** ** forward *)
Section Forward.
Variables (A B S : list nat) (g t : nd).
Hypothesis H : bcast A B = Some S.
Let XA : expands A S := proj1 (bcast_expands _ _ _ H).
Let XB : expands B S := proj2 (bcast_expands _ _ _ H).
Let SA : bcast S A = Some S := bcast_expand_r _ _ XA.
Let AS : bcast A S = Some S := bcast_expand _ _ XA.

Lemma block_inr bi : inr S bi -> inr A (bidx A bi) /\ inr B (bidx B bi).
Proof. intros Hb. split; eapply bidx_inr; eassumption. Qed.

Lemma forward k : sh g = A ++ gdims k -> sh t = B ++ tdims k -> exists r, op_of k g t = Some r /\ holds_blocks k A B S g t r.
Proof.
  intros Eg Et. unfold holds_blocks, block. destruct k; cbn [op_of gdims tdims is_compose] in *.
  - unfold compose_so3. rewrite (check_group_ok _ _ _ Eg), (check_group_ok _ _ _ Et). cbn [andb].
    destruct (matmul_blocks g t A B S 3 3 3 Eg Et H) as (r & R1 & R2 & R3). exists r. split; [exact R1|]. split; [exact R2|].
    intros bi y Hb Hy. destruct (inr_mat _ _ _ Hy) as (i & j & -> & Hi & Hj). apply R3.
  - unfold transform_so3. rewrite (check_group_ok _ _ _ Eg), (check_transform_ok _ _ Et). cbn [andb].
    destruct (unsqueeze_blocks t B 3 Et) as [U1 U2]. destruct (matmul_blocks g _ A B S 3 3 1 Eg U1 H) as (r & R1 & R2 & R3). rewrite R1. cbn [opt_bind].
    destruct (squeeze_blocks r S 3 R2) as [Q1 Q2]. exists (squeeze r). split; [reflexivity|]. split; [exact Q1|].
    intros bi y Hb Hy. destruct (inr_vec _ _ Hy) as (i & -> & Hi). rewrite Q2, R3. cbn [formula]. apply rsum_ext; intros l _. rewrite U2. reflexivity.
  - unfold untransform_so3. rewrite (check_group_ok _ _ _ Eg), (check_transform_ok _ _ Et). cbn [andb].
    destruct (unsqueeze_blocks t B 3 Et) as [U1 U2]. destruct (transpose_blocks g _ _ _ Eg) as [T1 T2].
    destruct (matmul_blocks _ _ A B S 3 3 1 T1 U1 H) as (r & R1 & R2 & R3). rewrite R1. cbn [opt_bind].
    destruct (squeeze_blocks r S 3 R2) as [Q1 Q2]. exists (squeeze r). split; [reflexivity|]. split; [exact Q1|].
    intros bi y Hb Hy. destruct (inr_vec _ _ Hy) as (i & -> & Hi). rewrite Q2, R3. cbn [formula]. apply rsum_ext; intros l _. rewrite U2, T2. reflexivity.
  - unfold compose_se3. rewrite (check_group_ok _ _ _ Eg), (check_group_ok _ _ _ Et). cbn [andb].
    destruct (first_cols_blocks g A 4 Eg) as [F1 F2]; [lia|]. destruct (first_cols_blocks t B 4 Et) as [F3 F4]; [lia|].
    destruct (cols_from_blocks 3 g A 3 4 Eg) as [C1 C2]. destruct (cols_from_blocks 3 t B 3 4 Et) as [C3 C4]. cbn [Nat.sub] in C1, C3.
    destruct (matmul_blocks _ _ A B S 3 3 3 F1 F3 H) as (r & R1 & R2 & R3). rewrite R1. cbn [opt_bind].
    destruct (matmul_blocks _ _ A B S 3 3 1 F1 C3 H) as (u & U1 & U2 & U3). rewrite U1. cbn [opt_bind].
    destruct (zipw_blocks Rplus u (cols_from 3 g) S A S [3; 1] U2 C1 SA) as (w & W1 & W2 & W3). rewrite W1. cbn [opt_bind].
    destruct (cat_blocks r w S 3 3 1 R2 W2) as (q & Q1 & Q2 & Q3). exists q. split; [exact Q1|]. split; [exact Q2|].
    intros bi y Hb Hy. destruct (inr_mat _ _ _ Hy) as (i & j & -> & Hi & Hj). rewrite Q3. cbn [formula]. destruct (Nat.ltb_spec j 3).
    + rewrite R3, F2, F4. destruct (Nat.eqb_spec j 3); [lia|]. rewrite Rplus_0_r. reflexivity.
    + assert (j = 3) by lia. subst j. cbn [Nat.sub Nat.eqb]. rewrite W3 by (try apply inr_two; (assumption || lia)). rewrite (bidx_id S) by exact Hb. rewrite U3, C2, F2.
      f_equal. apply rsum_ext; intros l _. rewrite C4. reflexivity.
  - unfold transform_se3. rewrite (check_group_ok _ _ _ Eg), (check_transform_ok _ _ Et). cbn [andb].
    destruct (first_cols_blocks g A 4 Eg) as [F1 F2]; [lia|]. destruct (cols_from_blocks 3 g A 3 4 Eg) as [C1 C2]. cbn [Nat.sub] in C1.
    destruct (unsqueeze_blocks t B 3 Et) as [U1 U2]. destruct (matmul_blocks _ _ A B S 3 3 1 F1 U1 H) as (r & R1 & R2 & R3). rewrite R1. cbn [opt_bind].
    destruct (zipw_blocks Rplus (cols_from 3 g) r A S S [3; 1] C1 R2 AS) as (w & W1 & W2 & W3). rewrite W1. cbn [opt_bind].
    destruct (squeeze_blocks w S 3 W2) as [Q1 Q2]. exists (squeeze w). split; [reflexivity|]. split; [exact Q1|].
    intros bi y Hb Hy. destruct (inr_vec _ _ Hy) as (i & -> & Hi). rewrite Q2, W3 by (try apply inr_two; (assumption || lia)). rewrite (bidx_id S) by exact Hb. rewrite R3, C2, F2.
    cbn [formula Nat.add]. rewrite Rplus_comm. f_equal. apply rsum_ext; intros l _. rewrite U2. reflexivity.
  - unfold untransform_se3. rewrite (check_group_ok _ _ _ Eg), (check_transform_ok _ _ Et). cbn [andb].
    destruct (first_cols_blocks g A 4 Eg) as [F1 F2]; [lia|]. destruct (cols_from_blocks 3 g A 3 4 Eg) as [C1 C2]. cbn [Nat.sub] in C1.
    destruct (unsqueeze_blocks t B 3 Et) as [U1 U2]. pose proof H as H'. rewrite bcast_sym in H'.
    destruct (zipw_blocks Rminus (unsqueeze t) (cols_from 3 g) B A S [3; 1] U1 C1 H') as (w & W1 & W2 & W3). rewrite W1. cbn [opt_bind].
    destruct (transpose_blocks _ _ _ _ F1) as [T1 T2].
    destruct (matmul_blocks _ _ A S S 3 3 1 T1 W2 AS) as (r & R1 & R2 & R3). rewrite R1. cbn [opt_bind].
    destruct (squeeze_blocks r S 3 R2) as [Q1 Q2]. exists (squeeze r). split; [reflexivity|]. split; [exact Q1|].
    intros bi y Hb Hy. destruct (inr_vec _ _ Hy) as (i & -> & Hi). rewrite Q2, R3. cbn [formula]. apply rsum_ext; intros l Hl. rewrite T2, F2.
    rewrite (bidx_id S) by exact Hb. rewrite W3 by (try apply inr_two; (assumption || lia)). rewrite U2, C2. reflexivity.
Qed.
End Forward.

Lemma returns_fits k g t r : op_of k g t = Some r -> exists A B S, fits k A B S g t.
Proof.
  unfold fits. destruct k; cbn [op_of gdims tdims is_compose]; intros H.
  - unfold compose_so3 in H. destruct (check_group_shape 3 g && check_group_shape 3 t) eqn:C; [|discriminate]. apply andb_true_iff in C. destruct C as [C1 C2].
    destruct (check_group_inv _ _ C1) as [A Eg]. destruct (check_group_inv _ _ C2) as [B Et]. destruct (matmul_bcast _ _ _ _ _ _ _ _ _ Eg Et H) as [S E]. exists A, B, S; auto.
  - unfold transform_so3 in H. destruct (check_group_shape 3 g && check_transform t) eqn:C; [|discriminate]. apply andb_true_iff in C. destruct C as [C1 C2].
    destruct (check_group_inv _ _ C1) as [A Eg]. destruct (check_transform_inv _ C2) as [B Et]. destruct (unsqueeze_blocks t B 3 Et) as [U1 _].
    destruct (matmul g (unsqueeze t)) eqn:M; [|discriminate]. destruct (matmul_bcast _ _ _ _ _ _ _ _ _ Eg U1 M) as [S E]. exists A, B, S; auto.
  - unfold untransform_so3 in H. destruct (check_group_shape 3 g && check_transform t) eqn:C; [|discriminate]. apply andb_true_iff in C. destruct C as [C1 C2].
    destruct (check_group_inv _ _ C1) as [A Eg]. destruct (check_transform_inv _ C2) as [B Et]. destruct (unsqueeze_blocks t B 3 Et) as [U1 _].
    destruct (transpose_blocks g _ _ _ Eg) as [T1 _].
    destruct (matmul (transpose g) (unsqueeze t)) eqn:M; [|discriminate]. destruct (matmul_bcast _ _ _ _ _ _ _ _ _ T1 U1 M) as [S E]. exists A, B, S; auto.
  - unfold compose_se3 in H. destruct (check_group_shape 4 g && check_group_shape 4 t) eqn:C; [|discriminate]. apply andb_true_iff in C. destruct C as [C1 C2].
    destruct (check_group_inv _ _ C1) as [A Eg]. destruct (check_group_inv _ _ C2) as [B Et].
    destruct (first_cols_blocks g A 4 Eg) as [F1 _]; [lia|]. destruct (first_cols_blocks t B 4 Et) as [F3 _]; [lia|].
    destruct (matmul (first_cols 3 g) (first_cols 3 t)) eqn:M; [|discriminate]. destruct (matmul_bcast _ _ _ _ _ _ _ _ _ F1 F3 M) as [S E]. exists A, B, S; auto.
  - unfold transform_se3 in H. destruct (check_group_shape 4 g && check_transform t) eqn:C; [|discriminate]. apply andb_true_iff in C. destruct C as [C1 C2].
    destruct (check_group_inv _ _ C1) as [A Eg]. destruct (check_transform_inv _ C2) as [B Et]. destruct (unsqueeze_blocks t B 3 Et) as [U1 _].
    destruct (first_cols_blocks g A 4 Eg) as [F1 _]; [lia|].
    destruct (matmul (first_cols 3 g) (unsqueeze t)) eqn:M; [|discriminate]. destruct (matmul_bcast _ _ _ _ _ _ _ _ _ F1 U1 M) as [S E]. exists A, B, S; auto.
  - unfold untransform_se3 in H. destruct (check_group_shape 4 g && check_transform t) eqn:C; [|discriminate]. apply andb_true_iff in C. destruct C as [C1 C2].
    destruct (check_group_inv _ _ C1) as [A Eg]. destruct (check_transform_inv _ C2) as [B Et]. destruct (unsqueeze_blocks t B 3 Et) as [U1 _].
    destruct (cols_from_blocks 3 g A 3 4 Eg) as [D1 _]. cbn [Nat.sub] in D1. unfold zipw in H. rewrite U1, D1 in H.
    destruct (bcast (B ++ [3; 1]) (A ++ [3; 1])) eqn:E; [|discriminate]. destruct (bcast_tail_inv _ _ _ _ E) as [S E']. rewrite bcast_sym in E'. exists A, B, S; auto.
Qed.
