(** The hand-written backward functions are the gradients. *)
From Coq Require Import List Arith Bool ZArith Reals Lra Lia.
From Verif Require Import RSum Act_model Act_base Act_ops Act_props Act_raise Grp_model Grp_spec Grp_base.
Import ListNotations.
Local Open Scope nat_scope.

(** the velocity and the rest of each formula *)
Definition dformula (k : kind) (G T dG dT : list nat -> R) (y : list nat) : R :=
  match k, y with
  | Compose3, [i; j] => rsum 3 (fun l => dG [i; l] * T [l; j] + G [i; l] * dT [l; j])%R
  | Compose4, [i; j] => (rsum 3 (fun l => dG [i; l] * T [l; j] + G [i; l] * dT [l; j]) + (if j =? 3 then dG [i; 3%nat] else 0))%R
  | Transform3, [i] => rsum 3 (fun l => dG [i; l] * T [l] + G [i; l] * dT [l])%R
  | Transform4, [i] => (rsum 3 (fun l => dG [i; l] * T [l] + G [i; l] * dT [l]) + dG [i; 3%nat])%R
  | Untransform3, [i] => rsum 3 (fun l => dG [l; i] * T [l] + G [l; i] * dT [l])%R
  | Untransform4, [i] => rsum 3 (fun l => dG [l; i] * (T [l] - G [l; 3%nat]) + G [l; i] * (dT [l] - dG [l; 3%nat]))%R
  | _, _ => 0%R
  end.
Definition qformula (k : kind) (dG dT : list nat -> R) (y : list nat) : R :=
  match k, y with
  | (Compose3 | Compose4), [i; j] => rsum 3 (fun l => dG [i; l] * dT [l; j])%R
  | (Transform3 | Transform4), [i] => rsum 3 (fun l => dG [i; l] * dT [l])%R
  | Untransform3, [i] => rsum 3 (fun l => dG [l; i] * dT [l])%R
  | Untransform4, [i] => rsum 3 (fun l => dG [l; i] * (dT [l] - dG [l; 3%nat]))%R
  | _, _ => 0%R
  end.
Lemma formula_moves k G T dG dT e y : formula k (fun z => G z + e * dG z)%R (fun z => T z + e * dT z)%R y =
  (formula k G T y + e * dformula k G T dG dT y + e * e * qformula k dG dT y)%R.
Proof.
  destruct y as [|i [|j [|m y]]]; destruct k; cbn [formula dformula qformula rsum]; try (destruct (j =? 3)); ring.
Qed.

Lemma gradient_blocks k A B S g t r : fits k A B S g t -> holds_blocks k A B S g t r ->
  (forall grad, sh grad = S ++ tdims k -> exists jg jt, bwd_of k g t grad = reduced g t (jg, jt) /\ sh jg = S ++ gdims k /\ sh jt = S ++ tdims k /\
     forall bi, inr S bi -> forall dG dT, isum (tdims k) (fun y => dat grad (bi ++ y) * dformula k (block g A bi) (block t B bi) dG dT y)%R =
       (isum (gdims k) (fun z => dat jg (bi ++ z) * dG z) + isum (tdims k) (fun z => dat jt (bi ++ z) * dT z))%R) ->
  gradient_of (op_of k) (bwd_of k) g t r.
Proof.
  intros (Eg & Et & HS) [Er Vr] Hb grad Egr. rewrite Er in Egr. destruct (Hb grad Egr) as (jg & jt & E1 & E2 & E3 & E4).
  destruct (bcast_expands _ _ _ HS) as [XA XB].
  destruct (reduce_adjoint (sh g) jg) as (a & A1 & A2 & A3); [rewrite E2, Eg; apply expands_tail; exact XA|].
  destruct (reduce_adjoint (sh t) jt) as (b & B1 & B2 & B3); [rewrite E3, Et; apply expands_tail; exact XB|].
  exists a, b. split; [rewrite E1; unfold reduced; cbn [fst snd]; rewrite A1; cbn [opt_bind]; rewrite B1; reflexivity|]. split; [exact A2|]. split; [exact B2|].
  intros dG dT.
  set (nS := length S).
  exists (fun x => let bi := firstn nS x in let y := skipn nS x in dformula k (block g A bi) (block t B bi) (fun z => dG (bidx A bi ++ z)) (fun z => dT (bidx B bi ++ z)) y).
  exists (fun x => let bi := firstn nS x in let y := skipn nS x in qformula k (fun z => dG (bidx A bi ++ z)) (fun z => dT (bidx B bi ++ z)) y).
  split.
  - intros e. set (g' := mkNd (sh g) (fun x => dat g x + e * dG x)%R). set (t' := mkNd (sh t) (fun x => dat t x + e * dT x)%R).
    destruct (forward A B S g' t' HS k Eg Et) as (re & R1 & R2 & R3). exists re. split; [exact R1|]. split; [rewrite R2, Er; reflexivity|].
    intros x Hx. rewrite Er in Hx. apply Forall2_app_inv_l in Hx. destruct Hx as (bi & y & Hbi & Hy & ->).
    assert (L : nS = length bi) by (symmetry; apply inr_len; exact Hbi). rewrite firstn_app_exact, skipn_app_exact by exact L. cbv zeta.
    rewrite (R3 bi y Hbi Hy), (Vr bi y Hbi Hy). exact (formula_moves k (block g A bi) (block t B bi) (fun z => dG (bidx A bi ++ z)) (fun z => dT (bidx B bi ++ z)) e y).
  - rewrite Er, A3, B3, E2, E3, !isum_app. rewrite <- isum_plus. apply isum_ext; intros bi Hbi.
    assert (L : nS = length bi) by (symmetry; apply inr_len; exact Hbi). destruct XA as [LA _], XB as [LB _]. fold nS in LA, LB. rewrite Eg, Et.
    transitivity (isum (gdims k) (fun z => dat jg (bi ++ z) * dG (bidx A bi ++ z)) + isum (tdims k) (fun z => dat jt (bi ++ z) * dT (bidx B bi ++ z)))%R.
    + rewrite <- (E4 bi Hbi (fun z => dG (bidx A bi ++ z)) (fun z => dT (bidx B bi ++ z))). apply isum_ext; intros y Hy.
      rewrite firstn_app_exact, skipn_app_exact by exact L. reflexivity.
    + f_equal; apply isum_ext; intros y Hy; rewrite bidx_tail by (assumption || lia); reflexivity.
Qed.

Section Grad.
Variables (A B S : list nat) (g t : nd).
Hypothesis H : bcast A B = Some S.
Let XA : expands A S := proj1 (bcast_expands _ _ _ H).
Let XB : expands B S := proj2 (bcast_expands _ _ _ H).
Let SA : bcast S A = Some S := bcast_expand_r _ _ XA.
Let AS : bcast A S = Some S := bcast_expand _ _ XA.
Let SB : bcast S B = Some S := bcast_expand_r _ _ XB.
Let BS : bcast B S = Some S := bcast_expand _ _ XB.

(** entries of the isum over the last dimensions *)
Ltac expl := cbn [isum rsum gdims tdims is_compose app].

Lemma grad_compose3 grad : sh g = A ++ [3; 3] -> sh t = B ++ [3; 3] -> sh grad = S ++ [3; 3] ->
  exists jg jt, compose_backward_so3 g t grad = reduced g t (jg, jt) /\ sh jg = S ++ [3; 3] /\ sh jt = S ++ [3; 3] /\
     forall bi, inr S bi -> forall dG dT, isum (tdims Compose3) (fun y => dat grad (bi ++ y) * dformula Compose3 (block g A bi) (block t B bi) dG dT y)%R =
       (isum (gdims Compose3) (fun z => dat jg (bi ++ z) * dG z) + isum (tdims Compose3) (fun z => dat jt (bi ++ z) * dT z))%R.
Proof.
  intros Eg Et Egr. unfold compose_backward_so3.
  destruct (transpose_blocks t _ _ _ Et) as [T1 T2]. destruct (transpose_blocks g _ _ _ Eg) as [T3 T4].
  destruct (matmul_blocks grad _ S B S 3 3 3 Egr T1 SB) as (a & A1 & A2 & A3). rewrite A1. cbn [opt_bind].
  destruct (matmul_blocks _ grad A S S 3 3 3 T3 Egr AS) as (b & B1 & B2 & B3). rewrite B1. cbn [opt_bind].
  exists a, b. split; [reflexivity|]. split; [exact A2|]. split; [exact B2|]. intros bi Hbi dG dT.
  expl. cbn [dformula rsum]. rewrite !A3, !B3. cbn [rsum]. rewrite !T2, !T4, !(bidx_id S) by exact Hbi. unfold block. ring.
Qed.
Lemma grad_transform3 grad : sh g = A ++ [3; 3] -> sh t = B ++ [3] -> sh grad = S ++ [3] ->
  exists jg jt, transform_backward_so3 g t grad = reduced g t (jg, jt) /\ sh jg = S ++ [3; 3] /\ sh jt = S ++ [3] /\
     forall bi, inr S bi -> forall dG dT, isum (tdims Transform3) (fun y => dat grad (bi ++ y) * dformula Transform3 (block g A bi) (block t B bi) dG dT y)%R =
       (isum (gdims Transform3) (fun z => dat jg (bi ++ z) * dG z) + isum (tdims Transform3) (fun z => dat jt (bi ++ z) * dT z))%R.
Proof.
  intros Eg Et Egr. unfold transform_backward_so3. destruct (vec_lead _ _ _ Et) as (-> & _).
  destruct (unsqueeze_blocks grad S 3 Egr) as [U1 U2]. destruct (view_blocks t B [3] [1; 3] Et eq_refl) as (p & P1 & P2 & P3). rewrite P1. cbn [opt_bind].
  destruct (matmul_blocks _ p S B S 3 1 3 U1 P2 SB) as (a & A1 & A2 & A3). rewrite A1. cbn [opt_bind].
  destruct (first_cols_blocks g A 3 Eg) as [F1 F2]; [lia|]. destruct (transpose_blocks _ _ _ _ F1) as [T1 T2].
  destruct (matmul_blocks _ _ A S S 3 3 1 T1 U1 AS) as (b & B1 & B2 & B3). rewrite B1. cbn [opt_bind].
  destruct (squeeze_blocks b S 3 B2) as [Q1 Q2].
  exists a, (squeeze b). split; [reflexivity|]. split; [exact A2|]. split; [exact Q1|]. intros bi Hbi dG dT.
  assert (P : forall j, j < 3 -> dat p (bidx B bi ++ [0; j]) = dat t (bidx B bi ++ [j])).
  { intros j Hj. apply P3; [eapply bidx_inr; [exact XB|exact Hbi]|constructor; [exact Hj|constructor]|cbn; lia]. }
  expl. cbn [dformula rsum]. rewrite !A3, !Q2, !B3. cbn [rsum]. rewrite !U2, !T2, !F2, !(bidx_id S), !P by (exact Hbi || lia). unfold block. ring.
Qed.
Lemma grad_untransform3 grad : sh g = A ++ [3; 3] -> sh t = B ++ [3] -> sh grad = S ++ [3] ->
  exists jg jt, untransform_backward_so3 g t grad = reduced g t (jg, jt) /\ sh jg = S ++ [3; 3] /\ sh jt = S ++ [3] /\
     forall bi, inr S bi -> forall dG dT, isum (tdims Untransform3) (fun y => dat grad (bi ++ y) * dformula Untransform3 (block g A bi) (block t B bi) dG dT y)%R =
       (isum (gdims Untransform3) (fun z => dat jg (bi ++ z) * dG z) + isum (tdims Untransform3) (fun z => dat jt (bi ++ z) * dT z))%R.
Proof.
  intros Eg Et Egr. unfold untransform_backward_so3. destruct (vec_lead _ _ _ Et) as (-> & _).
  destruct (unsqueeze_blocks grad S 3 Egr) as [U1 U2]. destruct (view_blocks t B [3] [3; 1] Et eq_refl) as (p & P1 & P2 & P3). rewrite P1. cbn [opt_bind].
  destruct (transpose_blocks _ _ _ _ U1) as [T1 T2].
  destruct (matmul_blocks p _ B S S 3 1 3 P2 T1 BS) as (a & A1 & A2 & A3). rewrite A1. cbn [opt_bind].
  destruct (first_cols_blocks g A 3 Eg) as [F1 F2]; [lia|].
  destruct (matmul_blocks _ _ A S S 3 3 1 F1 U1 AS) as (b & B1 & B2 & B3). rewrite B1. cbn [opt_bind].
  destruct (squeeze_blocks b S 3 B2) as [Q1 Q2].
  exists a, (squeeze b). split; [reflexivity|]. split; [exact A2|]. split; [exact Q1|]. intros bi Hbi dG dT.
  assert (P : forall j, j < 3 -> dat p (bidx B bi ++ [j; 0]) = dat t (bidx B bi ++ [j])).
  { intros j Hj. apply P3; [eapply bidx_inr; [exact XB|exact Hbi]|constructor; [exact Hj|constructor]|cbn; lia]. }
  expl. cbn [dformula rsum]. rewrite !A3, !Q2, !B3. cbn [rsum]. rewrite !T2, !U2, !F2, !(bidx_id S), !P by (exact Hbi || lia). unfold block. ring.
Qed.
Lemma grad_compose4 grad : sh g = A ++ [3; 4] -> sh t = B ++ [3; 4] -> sh grad = S ++ [3; 4] ->
  exists jg jt, compose_backward_se3 g t grad = reduced g t (jg, jt) /\ sh jg = S ++ [3; 4] /\ sh jt = S ++ [3; 4] /\
     forall bi, inr S bi -> forall dG dT, isum (tdims Compose4) (fun y => dat grad (bi ++ y) * dformula Compose4 (block g A bi) (block t B bi) dG dT y)%R =
       (isum (gdims Compose4) (fun z => dat jg (bi ++ z) * dG z) + isum (tdims Compose4) (fun z => dat jt (bi ++ z) * dT z))%R.
Proof.
  intros Eg Et Egr. unfold compose_backward_se3.
  destruct (transpose_blocks t _ _ _ Et) as [T1 T2]. destruct (cols_from_blocks 3 grad S 3 4 Egr) as [C1 C2]. cbn [Nat.sub] in C1.
  destruct (matmul_blocks grad _ S B S 3 4 3 Egr T1 SB) as (m & M1 & M2 & M3). rewrite M1. cbn [opt_bind].
  destruct (cat_blocks m (cols_from 3 grad) S 3 3 1 M2 C1) as (a & A1 & A2 & A3). rewrite A1. cbn [opt_bind].
  destruct (first_cols_blocks g A 4 Eg) as [F1 F2]; [lia|]. destruct (transpose_blocks _ _ _ _ F1) as [T3 T4].
  destruct (matmul_blocks _ grad A S S 3 3 4 T3 Egr AS) as (b & B1 & B2 & B3). rewrite B1. cbn [opt_bind].
  exists a, b. split; [reflexivity|]. split; [exact A2|]. split; [exact B2|]. intros bi Hbi dG dT.
  expl. cbn [dformula rsum]. rewrite !A3, !B3. cbn [rsum Nat.ltb Nat.leb Nat.sub Nat.eqb]. rewrite !M3, !C2. cbn [rsum Nat.add]. rewrite !T2, !T4, !F2, !(bidx_id S) by exact Hbi. unfold block. ring.
Qed.
Lemma grad_transform4 grad : sh g = A ++ [3; 4] -> sh t = B ++ [3] -> sh grad = S ++ [3] ->
  exists jg jt, transform_backward_se3 g t grad = reduced g t (jg, jt) /\ sh jg = S ++ [3; 4] /\ sh jt = S ++ [3] /\
     forall bi, inr S bi -> forall dG dT, isum (tdims Transform4) (fun y => dat grad (bi ++ y) * dformula Transform4 (block g A bi) (block t B bi) dG dT y)%R =
       (isum (gdims Transform4) (fun z => dat jg (bi ++ z) * dG z) + isum (tdims Transform4) (fun z => dat jt (bi ++ z) * dT z))%R.
Proof.
  intros Eg Et Egr. unfold transform_backward_se3. destruct (vec_lead _ _ _ Et) as (-> & _).
  destruct (unsqueeze_blocks grad S 3 Egr) as [U1 U2]. destruct (view_blocks t B [3] [1; 3] Et eq_refl) as (p & P1 & P2 & P3). rewrite P1. cbn [opt_bind].
  destruct (matmul_blocks _ p S B S 3 1 3 U1 P2 SB) as (m & M1 & M2 & M3). rewrite M1. cbn [opt_bind].
  destruct (cat_blocks m (unsqueeze grad) S 3 3 1 M2 U1) as (a & A1 & A2 & A3). rewrite A1. cbn [opt_bind].
  destruct (first_cols_blocks g A 4 Eg) as [F1 F2]; [lia|]. destruct (transpose_blocks _ _ _ _ F1) as [T1 T2].
  destruct (matmul_blocks _ _ A S S 3 3 1 T1 U1 AS) as (b & B1 & B2 & B3). rewrite B1. cbn [opt_bind].
  destruct (squeeze_blocks b S 3 B2) as [Q1 Q2].
  exists a, (squeeze b). split; [reflexivity|]. split; [exact A2|]. split; [exact Q1|]. intros bi Hbi dG dT.
  assert (P : forall j, j < 3 -> dat p (bidx B bi ++ [0; j]) = dat t (bidx B bi ++ [j])).
  { intros j Hj. apply P3; [eapply bidx_inr; [exact XB|exact Hbi]|constructor; [exact Hj|constructor]|cbn; lia]. }
  expl. cbn [dformula rsum]. rewrite !A3, !Q2, !B3. cbn [rsum Nat.ltb Nat.leb Nat.sub]. rewrite !M3. cbn [rsum]. rewrite !U2, !T2, !F2, !(bidx_id S), !P by (exact Hbi || lia). unfold block. ring.
Qed.
(** the points moved into the frame, and their view in the shape of the points *)
Lemma expands_numel s b : bzip s b = Some b -> numel s = numel b -> numel b <> 0 -> s = b.
Proof.
  revert b; induction s as [|x s IH]; destruct b as [|y b]; intros E N Z; cbn in E; try discriminate; [reflexivity|].
  cbn [numel] in N, Z.
  assert (L : forall s b, bzip s b = Some b -> numel b <> 0 -> numel s <= numel b).
  { clear. induction s as [|x s IH]; destruct b as [|y b]; intros E Z; cbn in E; try discriminate; [lia|]. cbn [numel] in *.
    destruct (bzip s b) as [w|] eqn:E3; [|destruct (if x =? y then Some x else if x =? 1 then Some y else if y =? 1 then Some x else None); discriminate].
    assert (w = b) by (destruct (x =? y), (x =? 1), (y =? 1); congruence). subst w.
    assert (numel s <= numel b) by (apply IH; [exact E3|intros Q; rewrite Q in Z; lia]).
    assert (x <= y). { destruct (Nat.eqb_spec x y); [lia|]. destruct (Nat.eqb_spec x 1); [|destruct (Nat.eqb_spec y 1); [assert (x = y) by congruence; lia|discriminate]]. destruct y; [lia|lia]. }
    apply Nat.mul_le_mono; assumption. }
  destruct (bzip s b) as [w|] eqn:E3; [|destruct (if x =? y then Some x else if x =? 1 then Some y else if y =? 1 then Some x else None); discriminate].
  assert (w = b) by (destruct (x =? y), (x =? 1), (y =? 1); congruence). subst w.
  assert (Zb : numel b <> 0) by (intros Q; rewrite Q in Z; lia). pose proof (L s b E3 Zb) as Lsb.
  assert (Exy : x <= y). { destruct (Nat.eqb_spec x y); [lia|]. destruct (Nat.eqb_spec x 1); [|destruct (Nat.eqb_spec y 1); [assert (x = y) by congruence; lia|discriminate]]. destruct y; [lia|lia]. }
  assert (numel s = numel b /\ x = y) as [N1 ->]; [|f_equal; apply IH; assumption].
  destruct (Nat.eq_dec x y) as [->|Nx]; [split; [|reflexivity]; apply Nat.mul_cancel_l in N; [exact N|intros ->; lia]|].
  exfalso. assert (x < y) by lia. assert (x * numel s <= x * numel b) by (apply Nat.mul_le_mono_l; exact Lsb).
  assert (x * numel b < y * numel b) by (apply Nat.mul_lt_mono_pos_r; lia). lia.
Qed.
Lemma no_index s x : numel s = 0 -> inr s x -> False.
Proof. intros N Hx. pose proof (ravel_lt _ _ Hx). lia. Qed.

Lemma grad_untransform4 grad : numel S = numel B -> sh g = A ++ [3; 4] -> sh t = B ++ [3] -> sh grad = S ++ [3] ->
  exists jg jt, untransform_backward_se3 g t grad = reduced g t (jg, jt) /\ sh jg = S ++ [3; 4] /\ sh jt = S ++ [3] /\
     forall bi, inr S bi -> forall dG dT, isum (tdims Untransform4) (fun y => dat grad (bi ++ y) * dformula Untransform4 (block g A bi) (block t B bi) dG dT y)%R =
       (isum (gdims Untransform4) (fun z => dat jg (bi ++ z) * dG z) + isum (tdims Untransform4) (fun z => dat jt (bi ++ z) * dT z))%R.
Proof.
  intros N Eg Et Egr. unfold untransform_backward_se3. destruct (vec_lead _ _ _ Et) as (-> & _).
  destruct (unsqueeze_blocks t B 3 Et) as [V1 V2]. destruct (cols_from_blocks 3 g A 3 4 Eg) as [C1 C2]. cbn [Nat.sub] in C1. pose proof H as H'. rewrite bcast_sym in H'.
  destruct (zipw_blocks Rminus (unsqueeze t) (cols_from 3 g) B A S [3; 1] V1 C1 H') as (w & W1 & W2 & W3). rewrite W1. cbn [opt_bind].
  destruct (unsqueeze_blocks grad S 3 Egr) as [U1 U2].
  destruct (first_cols_blocks g A 4 Eg) as [F1 F2]; [lia|].
  destruct (matmul_blocks _ _ A S S 3 3 1 F1 U1 AS) as (b & B1 & B2 & B3). rewrite B1. cbn [opt_bind].
  assert (P : exists p, view (B ++ [3; 1]) w = Some p /\ sh p = B ++ [3; 1] /\ forall bi i, inr S bi -> i < 3 -> dat p (bidx B bi ++ [i; 0]) = dat w (bi ++ [i; 0])).
  { unfold view. rewrite W2, !numel_app, N, Nat.eqb_refl. eexists. split; [reflexivity|]. split; [reflexivity|]. intros bi i Hbi Hi. cbn [dat].
    destruct (Nat.eq_dec (numel S) 0) as [Z|Z]; [destruct (no_index _ _ Z Hbi)|].
    destruct XB as [LB EB]. assert (numel (pad (length S) B) = numel B) as NP.
    { unfold pad. rewrite numel_app. clear. induction (length S - length B) as [|m IH]; cbn [repeat numel]; lia. }
    assert (ES : pad (length S) B = S) by (apply expands_numel; [exact EB|congruence|exact Z]).
    f_equal. rewrite <- (unravel_ravel (S ++ [3; 1]) (bi ++ [i; 0])) by (apply inr_app; [exact Hbi|apply inr_two; lia]). f_equal.
    pose proof (inr_len _ _ Hbi) as Lb. rewrite !ravel_app by (rewrite ?bidx_len; lia). f_equal. f_equal.
    assert (Ebi : bi = repeat 0 (length S - length B) ++ bidx B bi).
    { rewrite <- (bidx_pad (length S) B bi) by lia. rewrite ES. symmetry; apply bidx_id; exact Hbi. }
    rewrite Ebi at 2. rewrite <- ES at 1. unfold pad. symmetry. clear. induction (length S - length B) as [|m IH]; cbn [repeat app ravel numel]; [reflexivity|]. rewrite IH. lia. }
  destruct P as (p & P1 & P2 & P3). rewrite P1. cbn [opt_bind]. destruct (transpose_blocks _ _ _ _ U1) as [T1 T2].
  destruct (matmul_blocks p _ B S S 3 1 3 P2 T1 BS) as (m & M1 & M2 & M3). rewrite M1. cbn [opt_bind].
  assert (N1 : sh (neg b) = S ++ [3; 1]) by exact B2. assert (N2 : forall x, dat (neg b) x = (- dat b x)%R) by reflexivity.
  destruct (cat_blocks m (neg b) S 3 3 1 M2 N1) as (a & A1 & A2 & A3). rewrite A1. cbn [opt_bind].
  destruct (squeeze_blocks b S 3 B2) as [Q1 Q2].
  exists a, (squeeze b). split; [reflexivity|]. split; [exact A2|]. split; [exact Q1|]. intros bi Hbi dG dT.
  assert (P : forall i, i < 3 -> dat p (bidx B bi ++ [i; 0]) = (dat t (bidx B bi ++ [i]) - dat g (bidx A bi ++ [i; 3%nat]))%R).
  { intros i Hi. rewrite P3 by assumption. rewrite W3 by (try apply inr_two; (assumption || lia)). rewrite V2, C2. reflexivity. }
  expl. cbn [dformula rsum]. rewrite !A3, !Q2. cbn [rsum Nat.ltb Nat.leb Nat.sub]. rewrite !N2, !M3, !B3. cbn [rsum]. rewrite !T2, !U2, !F2, !(bidx_id S), !P by (exact Hbi || lia). unfold block. ring.
Qed.
End Grad.
