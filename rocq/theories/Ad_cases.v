(** C71: the geometry classes satisfy the hypothesis on project(); a complete example; batch sizes for which LOOP_BATCH is wrong. *)
From Coq Require Import List Arith Bool Reals Lia Lra.
From Coquelicot Require Import Coquelicot.
Import List ListNotations.
From Verif Require Import Geo_spec Geo3_spec Geo4_spec SE2_model SE2_group SE2_exp SE2_jac SO3_model SO3_exp SO3_jexp SO3_group SO3_quat SO3_ops
  SE3_model SE3_exp SE3_jexp SE3_group RSum Adj_props Ad_model Ad_spec Ad_props Ad_main.
Local Open Scope R_scope.

Definition e_ (i : nat) (j : nat) : R := if (i =? j)%nat then 1 else 0.
Ltac below H := repeat (destruct H as [|H]; [|apply le_S_n in H]); try lia.

(** ---- Vector(dof): retract adds, project clones ---- *)
Definition vector_manifold (n : nat) : manifold := mkManifold n n (fun x l t => modify l (Rplus t) x).
Theorem C71_vector : forall n rows x, length x = n -> projects (vector_manifold n) (mkVar rows None) x.
Proof.
  intros n rows x Hx. exists (fun l j => if (j =? l)%nat then 1 else 0). cbn. split; [auto|]. intros l Hl. split; [|split; [|split]].
  - clear - Hx Hl. subst n. revert l Hl. induction x as [|y x IH]; intros [|l] Hl; cbn in *; try lia; [now rewrite Rplus_0_l|]. f_equal. apply IH. lia.
  - intro t. now rewrite length_modify.
  - intros j Hj. eapply der_ext_loc with (fun t => if (j =? l)%nat then t + nth j x 0 else nth j x 0).
    { exists 1. split; [lra|]. intros t _. rewrite nth_modify by (rewrite Hx; exact Hl). reflexivity. }
    destruct (j =? l)%nat; [|apply derivable_pt_lim_const]. apply der_eq with (1 + 0); [|ring].
    apply derivable_pt_lim_plus; [apply derivable_pt_lim_id|apply derivable_pt_lim_const].
  - intros g Hg. rewrite (rsum_ext _ _ (fun j => if (j =? l)%nat then nth j g 0 else 0)) by (intros; destruct (i =? l)%nat; ring).
    rewrite rsum_delta. destruct (Nat.ltb_spec l n); [reflexivity|lia].
Qed.

(** ---- SO2: rows are [cos, sin] ---- *)
Definition so2_of (r : row) : SO2 := mkSO2 (nth 0 r 0) (nth 1 r 0).
Definition so2_row (g : SO2) : row := [co g; si g].
Definition so2_manifold : manifold := mkManifold 2 1 (fun x _ t => so2_row (so2_retract (so2_of x) t)).
Definition so2_proj (x g : row) : row := [so2_project (so2_of x) (mkV2 (nth 0 g 0) (nth 1 g 0))].
Theorem C71_so2 : forall rows x, length x = 2%nat -> projects so2_manifold (mkVar rows (Some so2_proj)) x.
Proof.
  intros rows [|c [|s [|]]] Hx; cbn in Hx; try lia.
  exists (fun _ j => nth j [- s; c] 0). cbn -[so2_proj]. split; [reflexivity|]. intros l Hl. split; [|split; [|split]].
  - unfold so2_row, so2_retract, so2_compose, so2_exp_map, so2_of. cbn [co si nth]. rewrite cos_0, sin_0. f_equal; [ring|f_equal; ring].
  - reflexivity.
  - intros j Hj. destruct j as [|[|j]]; try lia; cbn; apply is_derive_Reals; auto_derive; trivial; rewrite cos_0, sin_0; ring.
  - intros g Hg. assert (l = 0%nat) by lia. subst l. unfold so2_proj, so2_project, so2_of; cbn [nth rsum co si a0 a1]. ring.
Qed.

(** ---- SE2: rows are [x, y, cos, sin] ---- *)
Definition se2_of (r : row) : SE2 := mkSE2 (nth 0 r 0) (nth 1 r 0) (nth 2 r 0) (nth 3 r 0).
Definition se2_row (g : SE2) : row := [px g; py g; pc g; ps g].
Definition v3_row (v : V3) : row := [b0 v; b1 v; b2 v].
Definition axis3 (l : nat) : V3 := mkV3 (e_ 0 l) (e_ 1 l) (e_ 2 l).
Definition se2_manifold (d : dtype) : manifold := mkManifold 4 3 (fun x l t =>
  match se2_retract d (se2_of x) (scal3 t (axis3 l)) with Some h => se2_row h | None => [] end).
Definition se2_proj (x g : row) : row := v3_row (se2_project (se2_of x) (mkV2 (nth 0 g 0) (nth 1 g 0)) (mkV2 (nth 2 g 0) (nth 3 g 0))).
Theorem C71_se2 : forall d rows x, length x = 4%nat -> projects (se2_manifold d) (mkVar rows (Some se2_proj)) x.
Proof.
  intros d rows x Hx. set (g := se2_of x).
  assert (Ex : se2_row g = x) by (destruct x as [|? [|? [|? [|? [|]]]]]; cbn in Hx; try lia; reflexivity).
  set (h := fun l t => match se2_retract d g (scal3 t (axis3 l)) with Some y => y | None => g end).
  assert (EH : forall l t, se2_retract d g (scal3 t (axis3 l)) = Some (h l t)).
  { intros l t. unfold h. unfold se2_retract. destruct (C35_exp_valid d (scal3 t (axis3 l))) as (e & E & _). now rewrite E. }
  exists (fun l j => nth j [pc g * e_ 0 l - ps g * e_ 1 l; ps g * e_ 0 l + pc g * e_ 1 l; - ps g * e_ 2 l; pc g * e_ 2 l] 0).
  split; [reflexivity|]. cbn [m_dof se2_manifold]. intros l Hl. cbn [m_retract m_width se2_manifold]. fold g.
  destruct (retract_curve d g (axis3 l) (h l) (EH l)) as (M0 & D1 & D2 & D3 & D4). cbn [axis3 b0 b1 b2] in D1, D2, D3, D4.
  split; [|split; [|split]].
  - rewrite EH. now rewrite M0, Ex.
  - intro t. rewrite EH. reflexivity.
  - intros j Hj. eapply der_ext_loc with (fun t => nth j (se2_row (h l t)) 0); [exists 1; split; [lra|intros t _; now rewrite EH]|].
    destruct j as [|[|[|[|j]]]]; try lia; cbn; assumption.
  - intros gr Hgr. cbn [v_project]. unfold se2_proj. fold g. destruct l as [|[|[|l]]]; try lia; cbn; unfold e_; cbn; ring.
Qed.

(** ---- SO3: rows are the entries of the matrix, row by row ---- *)
Definition so3_of (r : row) : M3 := mkM3 (nth 0 r 0) (nth 1 r 0) (nth 2 r 0) (nth 3 r 0) (nth 4 r 0) (nth 5 r 0) (nth 6 r 0) (nth 7 r 0) (nth 8 r 0).
Definition so3_row (m : M3) : row := [d00 m; d01 m; d02 m; d10 m; d11 m; d12 m; d20 m; d21 m; d22 m].
Definition so3_manifold (d : dtype) : manifold := mkManifold 9 3 (fun x l t =>
  match so3_retract d (so3_of x) (scal3 t (axis3 l)) with Some h => so3_row h | None => [] end).
Definition so3_proj (x g : row) : row := v3_row (so3_left_project (so3_of x) (so3_of g)).
Theorem C71_so3 : forall d rows x, length x = 9%nat -> projects (so3_manifold d) (mkVar rows (Some so3_proj)) x.
Proof.
  intros d rows x Hx. set (g := so3_of x).
  assert (Ex : so3_row g = x) by (destruct x as [|? [|? [|? [|? [|? [|? [|? [|? [|? [|]]]]]]]]]]; cbn in Hx; try lia; reflexivity).
  set (h := fun l t => match so3_retract d g (scal3 t (axis3 l)) with Some y => y | None => g end).
  assert (EH : forall l t, so3_retract d g (scal3 t (axis3 l)) = Some (h l t)).
  { intros l t. unfold h, so3_retract. destruct (C36_exp_rotation d (scal3 t (axis3 l))) as (e & E & _). now rewrite E. }
  exists (fun l j => nth j (so3_row (mul3 g (so3_alg (axis3 l)))) 0).
  split; [reflexivity|]. cbn [m_dof so3_manifold]. intros l Hl. cbn [m_retract m_width so3_manifold]. fold g.
  destruct (C36_retract_velocity d g (axis3 l) (h l) (EH l)) as [M0 M1].
  split; [|split; [|split]].
  - rewrite EH. now rewrite M0, Ex.
  - intro t. rewrite EH. reflexivity.
  - intros j Hj. eapply der_ext_loc with (fun t => nth j (so3_row (h l t)) 0); [exists 1; split; [lra|intros t _; now rewrite EH]|].
    unfold deriv_m3 in M1. decompose [and] M1. destruct j as [|[|[|[|[|[|[|[|[|j]]]]]]]]]; try lia; cbn -[mul3]; assumption.
  - intros gr Hgr. cbn [v_project]. unfold so3_proj. fold g. destruct l as [|[|[|l]]]; try lia; cbn; unfold e_; cbn; ring.
Qed.

(** ---- SE3: rows are the entries of the 3x4 matrix, row by row ---- *)
Definition se3_of (r : row) : Rig := mkRig (mkM3 (nth 0 r 0) (nth 1 r 0) (nth 2 r 0) (nth 4 r 0) (nth 5 r 0) (nth 6 r 0) (nth 8 r 0) (nth 9 r 0) (nth 10 r 0))
  (mkV3 (nth 3 r 0) (nth 7 r 0) (nth 11 r 0)).
Definition se3_row (m : Rig) : row := [d00 (rr m); d01 (rr m); d02 (rr m); b0 (rp m); d10 (rr m); d11 (rr m); d12 (rr m); b1 (rp m); d20 (rr m); d21 (rr m); d22 (rr m); b2 (rp m)].
Definition axis6 (l : nat) : Tw := mkTw (mkV3 (e_ 0 l) (e_ 1 l) (e_ 2 l)) (mkV3 (e_ 3 l) (e_ 4 l) (e_ 5 l)).
Definition se3_manifold (d : dtype) : manifold := mkManifold 12 6 (fun x l t =>
  match se3_retract d (se3_of x) (tscal t (axis6 l)) with Some h => se3_row h | None => [] end).
Definition se3_proj (x g : row) : row := v3_row (lin (se3_left_project (se3_of x) (se3_of g))) ++ v3_row (ang (se3_left_project (se3_of x) (se3_of g))).
Theorem C71_se3 : forall d rows x, length x = 12%nat -> rigid3 (se3_of x) -> projects (se3_manifold d) (mkVar rows (Some se3_proj)) x.
Proof.
  intros d rows x Hx Rx. set (g := se3_of x) in *.
  assert (Ex : se3_row g = x) by (destruct x as [|? [|? [|? [|? [|? [|? [|? [|? [|? [|? [|? [|? [|]]]]]]]]]]]]]; cbn in Hx; try lia; reflexivity).
  set (h := fun l t => match se3_retract d g (tscal t (axis6 l)) with Some y => y | None => g end).
  assert (EH : forall l t, se3_retract d g (tscal t (axis6 l)) = Some (h l t)).
  { intros l t. unfold h, se3_retract. destruct (C37_exp_rigid d (tscal t (axis6 l))) as (e & E & _). now rewrite E. }
  exists (fun l j => nth j (se3_row (mkRig (mul3 (rr g) (so3_alg (ang (axis6 l)))) (app3 (rr g) (lin (axis6 l))))) 0).
  split; [reflexivity|]. cbn [m_dof se3_manifold]. intros l Hl. cbn [m_retract m_width se3_manifold]. fold g.
  pose proof (C37_retract_velocity d g (axis6 l) (h l) Rx (EH l)) as M. apply moves6_iff in M. destruct M as (M0 & M1 & M2).
  split; [|split; [|split]].
  - rewrite EH. now rewrite M0, Ex.
  - intro t. rewrite EH. reflexivity.
  - intros j Hj. eapply der_ext_loc with (fun t => nth j (se3_row (h l t)) 0); [exists 1; split; [lra|intros t _; now rewrite EH]|].
    unfold deriv_m3 in M1. unfold deriv3 in M2. decompose [and] M1. decompose [and] M2. destruct j as [|[|[|[|[|[|[|[|[|[|[|[|j]]]]]]]]]]]]; try lia; cbn -[mul3 app3]; assumption.
  - intros gr Hgr. cbn [v_project]. unfold se3_proj. fold g. destruct l as [|[|[|[|[|[|l]]]]]]; try lia; cbn; unfold e_; cbn; ring.
Qed.

(** ---- Every function of one row gives an error function that acts row by row ---- *)
Definition bsize (ts : list tensor) : nat := match find (fun t => negb (length t =? 1)%nat) ts with Some t => length t | None => 1%nat end.
Definition lift (E : list row -> list row -> row) (os aus : list tensor) : option tensor :=
  Some (map (fun b => E (map (brow b) os) (map (brow b) aus)) (seq 0 (bsize (os ++ aus)))).
Theorem C71_rowwise_exists : forall E wo wa dim, (forall rs aus, length (E rs aus) = dim) -> rowwise (lift E) E wo wa dim.
Proof.
  intros E wo wa dim HE. split; [|auto]. intros os aus n _ _ [(t0 & H0 & L0) B]. unfold lift. do 3 f_equal. unfold bsize.
  destruct (find _ _) as [t|] eqn:F.
  - apply find_some in F. destruct F as [Hin Hne]. apply Bool.negb_true_iff, Nat.eqb_neq in Hne. destruct (B t Hin); lia.
  - pose proof (find_none _ _ F t0 H0) as N. apply Bool.negb_false_iff, Nat.eqb_eq in N. lia.
Qed.

(** ---- VMAP: tensors with two different batch sizes other than 1, or an empty one beside another size, are refused ---- *)
Theorem C71_vmap_raises : forall err_fn dim optim aux t u, In t (map v_rows (optim ++ aux)) -> In u (map v_rows (optim ++ aux)) ->
  length t <> length u -> length t <> 1%nat -> (length u <> 1%nat \/ length t = 0%nat) -> jacobians err_fn dim VMAP optim aux = None.
Proof.
  intros F dim optim aux t u Ht Hu Hne Ht1 Hu1. unfold jacobians. destruct (compute_error _ _ _ _) as [e|]; [|reflexivity].
  unfold jacobian_vmap. rewrite <- map_app. set (ts := map v_rows (optim ++ aux)) in *.
  replace (sizes_ok ts) with false; [reflexivity|]. symmetry. apply not_true_is_false. intros H. unfold sizes_ok in H.
  assert (It : In (length t) (sizes_of ts)) by (apply nodup_In, (in_map (@length row)), Ht).
  assert (Iu : In (length u) (sizes_of ts)) by (apply nodup_In, (in_map (@length row)), Hu).
  apply orb_true_iff in H. destruct H as [H|H].
  - apply Nat.eqb_eq in H. destruct (sizes_of ts) as [|a [|b l]]; cbn in H; try lia. destruct It as [E1|[]], Iu as [E2|[]]. congruence.
  - apply andb_true_iff in H. destruct H as [H H3]. apply andb_true_iff in H. destruct H as [H1 H2]. apply Nat.eqb_eq in H1.
    rewrite forallb_forall in H3. apply H3 in It as P. apply Nat.leb_le in P. apply existsb_exists in H2. destruct H2 as (x & Ix & Ex). apply Nat.eqb_eq in Ex; subst x.
    destruct Hu1 as [Hu1|Hu1]; [|lia]. assert (I3 : incl [length t; length u; 1%nat] (sizes_of ts)) by (intros z [<-|[<-|[<-|[]]]]; assumption).
    apply NoDup_incl_length in I3; [cbn in I3; lia|]. repeat constructor; cbn; intuition.
Qed.

Lemma C71_vmap_raises_example : forall err_fn, jacobians err_fn 1 VMAP [mkVar [[2]; [3]] None] [mkVar [[1]] None; mkVar [[1]; [2]; [3]] None] = None.
Proof. intros F. apply (C71_vmap_raises F 1 _ _ [[2]; [3]] [[1]; [2]; [3]]); cbn; auto; lia. Qed.

(** ---- LOOP_BATCH with a first optimization variable of batch 1: everything is computed from the first rows ---- *)
Lemma slice_slice t : slice1 0 (slice1 0 t) = slice1 0 t.
Proof. destruct t; reflexivity. Qed.
Theorem C71_loop_first_row : forall err_fn os aus, length (nth 0 os []) = 1%nat ->
  jacobian_loop err_fn os aus = jacobian_loop err_fn (map (slice1 0) os) (map (slice1 0) aus).
Proof.
  intros F os aus L. unfold jacobian_loop.
  assert (L' : length (nth 0 (map (slice1 0) os) []) = 1%nat) by (destruct os as [|[|x [|y l]] os]; cbn in *; lia).
  rewrite L, L'. cbn [seq map]. rewrite map_length. f_equal. unfold loop_one. rewrite !map_map.
  rewrite !(map_ext (fun t => slice1 0 (slice1 0 t)) (slice1 0) slice_slice). reflexivity.
Qed.

(** an example: error x * y for x of batch 1 and y of batch 2 *)
Definition ex_E (rs aus : list row) : row := [nth 0 (nth 0 rs []) 0 * nth 0 (nth 1 rs []) 0].
Definition ex_ms := [vector_manifold 1; vector_manifold 1].
Definition ex_optim := [mkVar [[2]] None; mkVar [[3]; [5]] None].
Lemma ex_differentiable x y : differentiable ex_E 1 [[x]; [y]] [].
Proof.
  intros k i Hk Hi. assert (i = 0%nat) by lia. subst i. exists (fun _ => if (k =? 0)%nat then y else x). intros eps He. exists 1. split; [lra|]. cbv zeta.
  intros r Hr _. assert (0 <= eps * rsum (length (nth k [[x]; [y]] [])) (fun j => Rabs (nth j r 0 - nth j (nth k [[x]; [y]] []) 0))).
  { apply Rmult_le_pos; [lra|]. apply rsum_nonneg. intros. apply Rabs_pos. }
  match goal with |- Rabs ?e <= _ => replace e with 0; [rewrite Rabs_R0; exact H|] end.
  destruct k as [|[|k]]; cbn in *; try lia; ring.
Qed.
Lemma ex_hyps : rowwise (lift ex_E) ex_E (map m_width ex_ms) [] 1 /\ wide (map m_width ex_ms) (map v_rows ex_optim) /\
  broadcast (map v_rows ex_optim ++ map v_rows []) 2 /\
  (forall b, (b < 2)%nat -> differentiable ex_E 1 (map (brow b) (map v_rows ex_optim)) (map (brow b) (map v_rows []))) /\
  (forall k m v b, nth_error ex_ms k = Some m -> nth_error ex_optim k = Some v -> (b < 2)%nat -> projects m v (brow b (v_rows v))).
Proof.
  split; [apply C71_rowwise_exists; reflexivity|]. split; [|split; [|split]].
  - repeat constructor; cbn; intuition (subst; reflexivity).
  - split; [exists [[3]; [5]]; cbn; auto|]. cbn. intuition (subst; auto).
  - intros b Hb. destruct b as [|[|b]]; try lia; apply ex_differentiable.
  - intros k m v b Hm Hv Hb. destruct k as [|[|k]]; cbn in Hm, Hv; [| |destruct k; discriminate];
      inversion Hm; inversion Hv; apply C71_vector; destruct b as [|[|b]]; try lia; reflexivity.
Qed.
Lemma ex_partial (x y : R) k j : partial ex_E [[x]; [y]] [] k 0 j = match k, j with 0%nat, 0%nat => y | 1%nat, 0%nat => x | _, _ => 0 end.
Proof.
  unfold partial. destruct k as [|[|k]], j as [|j]; cbn.
  all: apply is_derive_unique; auto_derive; trivial; ring.
Qed.
Lemma ex_loop : jacobians (lift ex_E) 1 LOOP_BATCH ex_optim [] = Some ([[[[3]]]; [[[2]]]], [[6]; [10]]).
Proof.
  unfold jacobians. cbn [map ex_optim v_rows]. rewrite C71_loop_first_row by reflexivity. cbn [map slice1 firstn skipn].
  replace (compute_error (lift ex_E) 1 [[[2]]; [[3]; [5]]] []) with (Some [[6]; [10]]).
  2:{ symmetry. unfold compute_error, lift, bsize. cbn. repeat f_equal; ring. }
  rewrite (loop_raw (lift ex_E) ex_E [1%nat; 1%nat] [] 1) with (n := 1%nat); trivial.
  - unfold raw. cbn [length seq map nth brow Nat.eqb]. rewrite !ex_partial. reflexivity.
  - apply C71_rowwise_exists. reflexivity.
  - discriminate.
  - repeat constructor; cbn; intuition (subst; reflexivity).
  - constructor.
  - cbn. intuition (subst; reflexivity).
Qed.
(** LOOP_BATCH is wrong here: with the documented hypotheses all satisfied it returns, without an error, one row of Jacobians; the
    derivative of the second error (x * 5) with respect to x is 5, not the 3 that is returned. *)
Theorem C71_loop_refuted : exists err_fn E ms wa optim aux n,
  let os := map v_rows optim in let aus := map v_rows aux in
  (rowwise err_fn E (map m_width ms) wa 1 /\ wide (map m_width ms) os /\ wide wa aus /\ broadcast (os ++ aus) n /\ (1 <= n)%nat /\ optim <> [] /\
   (forall b, (b < n)%nat -> differentiable E 1 (map (brow b) os) (map (brow b) aus)) /\
   (forall k m v b, nth_error ms k = Some m -> nth_error optim k = Some v -> (b < n)%nat -> projects m v (brow b (v_rows v)))) /\
  exists js err, jacobians err_fn 1 LOOP_BATCH optim aux = Some (js, err) /\ length err = n /\
    ~ exact_jacobians E 1 ms os aus n js /\
    (* nor do the Jacobians become right when they are expanded to the batch *)
    ~ exact_jacobians E 1 ms os aus n (map (fun j => repeat (nth 0 j []) n) js).
Proof.
  exists (lift ex_E), ex_E, ex_ms, [], ex_optim, [], 2%nat. cbv zeta. destruct ex_hyps as (H1 & H2 & H3 & H4 & H5).
  split. { split; [exact H1|]. split; [exact H2|]. split; [constructor|]. split; [exact H3|]. split; [lia|]. split; [discriminate|]. split; [exact H4|exact H5]. }
  exists [[[[3]]]; [[[2]]]], [[6]; [10]]. split; [apply ex_loop|]. split; [reflexivity|]. split.
  - intros [_ X]. destruct (X 0%nat (vector_manifold 1) eq_refl) as [X1 _]. discriminate X1.
  - intros [_ X]. destruct (X 0%nat (vector_manifold 1) eq_refl) as [_ X1]. destruct (X1 1%nat) as [_ X2]; [lia|].
    destruct (X2 0%nat) as [_ X3]; [lia|]. specialize (X3 0%nat). cbn in X3.
    assert (D : derivable_pt_lim (fun t => (t + 2) * 5) 0 5) by (apply is_derive_Reals; auto_derive; trivial; ring).
    pose proof (uniqueness_limite _ _ _ _ (X3 Nat.lt_0_1) D). lra.
Qed.
(** VMAP on the same problem *)
Example C71_vmap_example : exists js, jacobians (lift ex_E) 1 VMAP ex_optim [] = Some (js, [[6]; [10]]) /\ exact_jacobians ex_E 1 ex_ms (map v_rows ex_optim) [] 2 js.
Proof.
  destruct ex_hyps as (H1 & H2 & H3 & H4 & H5).
  destruct (C71_vmap (lift ex_E) ex_E 1 ex_ms [] ex_optim [] 2 H1 H2 (Forall2_nil _) H3) as (js & J & X); trivial; [lia|discriminate|].
  exists js. split; [|exact X]. rewrite J. cbn. repeat f_equal; ring.
Qed.
