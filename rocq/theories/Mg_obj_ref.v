(** C73: what does not hold, on histories from the empty state; and a history that
    meets the hypotheses of the theorems. *)
From Coq Require Import Reals List Arith Bool Lia Lra Psatz.
Import ListNotations.
From Verif Require Import RSum Mg_model Mg_spec Mg_inv Mg_props Mg_obj Mg_obj_props Mg_obj_new Mg_obj_hist Mg_obj_main.

Definition empty : st := mkSt [] [] [].
Lemma wf_empty : wf empty. Proof. split; cbn; lia. Qed.
Lemma close_eye dt dev B n : close_to_transpose (mkTns dt dev [B; n; n] eye_val) = true.
Proof. apply (symm_true _ n B); [reflexivity|]. now apply symm_eye. Qed.

(** a batch of B vectors in the plane, all of whose entries are x *)
Definition vecs (B : nat) (x : R) : tns := mkTns 0 0 [B; 2] (fun _ => x).
Definition eyes (B n : nat) : tns := mkTns 0 0 [B; n; n] eye_val.
Lemma close_eye2 dt dev B n : close_to_transpose (eye_tensor dt dev B n) = true. Proof. apply close_eye. Qed.
Lemma close_eye3 B n : close_to_transpose (eyes B n) = true. Proof. apply close_eye. Qed.
Ltac run1 := cbn -[close_to_transpose]; rewrite ?close_eye, ?close_eye2, ?close_eye3.
Ltac run := unfold steps; run1; run1; run1; run1; cbn -[close_to_transpose].

(** F84: update() assigns the means before it checks the precision: a refused
    update leaves the Gaussian with the new mean and the old precision, here of
    another batch size, and copy() then raises. *)
Definition hist_atomic : list op := [NewTensor (vecs 2 0); NewVar 2 0; New [0] None; NewTensor (vecs 5 1); NewVar 2 2].
Theorem C73_update_atomic_refuted :
  let s := steps empty hist_atomic in let s' := fst (step s (Update 0 [1] 1)) in
  wf s /\ op_ok s (Update 0 [1] 1) /\ ops_ok empty hist_atomic /\ consistent s (gauss_of s 0)
  /\ snd (step s (Update 0 [1] 1)) = false
  /\ held s 0 = vecs 2 0 /\ held s' 0 = vecs 5 1 /\ ~ consistent s' (gauss_of s' 0) /\ snd (step s' (Copy 0)) = false.
Proof.
  assert (OK : ops_ok empty hist_atomic).
  { unfold hist_atomic. run. repeat split; first [lia|discriminate|intros v [<-|[]]; lia]. }
  assert (E : steps empty hist_atomic = mkSt [vecs 2 0; eyes 2 2; vecs 5 1] [mkVar 2 0; mkVar 2 2] [mkGauss [0] 2 1]) by (unfold hist_atomic; run; reflexivity).
  cbv zeta. rewrite E. set (s := mkSt _ _ _).
  assert (W : wf s).
  { split; cbn [s vars tens gs length].
    - intros [|[|v]] H; cbn; lia.
    - intros [|g] H; [|lia]. cbn. split; [intros v [<-|[]]; lia|lia]. }
  assert (E2 : step s (Update 0 [1] 1) = (mkSt [vecs 2 0; eyes 2 2; vecs 5 1] [mkVar 2 2; mkVar 2 2] [mkGauss [0] 2 1], false)) by (unfold s; run; reflexivity).
  rewrite E2. cbn [fst snd]. set (s' := mkSt _ [mkVar 2 2; _] _).
  split; [exact W|]. split; [cbn; split; [lia|split; [intros v [<-|[]]; lia|lia]]|]. split; [exact OK|].
  split; [exists 0, []; split; [reflexivity|]; repeat split; now apply symm_eye|]. split; [reflexivity|]. split; [reflexivity|]. split; [reflexivity|]. split.
  - intros (m0 & r & Q & (A & _)). injection Q as <- _. discriminate A.
  - unfold s'. run. reflexivity.
Qed.

(** F85: update() reads each given variable after the previous ones were assigned:
    updating a Gaussian with its own variables in another order loses a mean. *)
Definition hist_swap : list op := [NewTensor (vecs 1 0); NewVar 2 0; NewTensor (vecs 1 7); NewVar 2 1; New [0; 1] None].
Theorem C73_update_alias_refuted :
  let s := steps empty hist_swap in let s' := fst (step s (Update 0 [1; 0] 2)) in
  ops_ok empty hist_swap /\ consistent s (gauss_of s 0) /\ g_mean (gauss_of s 0) = [0; 1] /\ snd (step s (Update 0 [1; 0] 2)) = true
  /\ held s 0 = vecs 1 0 /\ held s 1 = vecs 1 7
  /\ held s' 0 = vecs 1 7 /\ held s' 1 = vecs 1 7.
Proof.
  assert (OK : ops_ok empty hist_swap).
  { unfold hist_swap. run. repeat split; first [lia|discriminate|intros v [<-|[<-|[]]]; lia]. }
  assert (E : steps empty hist_swap = mkSt [vecs 1 0; vecs 1 7; eyes 1 4] [mkVar 2 0; mkVar 2 1] [mkGauss [0; 1] 4 2]) by (unfold hist_swap; run; reflexivity).
  cbv zeta. rewrite E. set (s := mkSt _ _ _).
  assert (E2 : step s (Update 0 [1; 0] 2) = (mkSt [vecs 1 0; vecs 1 7; eyes 1 4] [mkVar 2 1; mkVar 2 1] [mkGauss [0; 1] 4 2], true)).
  { unfold s. cbn -[close_to_transpose]. change (eyes 1 4) with (mkTns 0 0 [1; 4; 4] eye_val). rewrite close_eye. reflexivity. }
  rewrite E2. cbn [fst snd]. split; [exact OK|].
  split; [exists 0, [1]; split; [reflexivity|]; repeat split; now apply symm_eye|]. repeat split.
Qed.

(** F86: two Gaussians over one variable: updating one of them with another batch
    size breaks the other. *)
Definition hist_share : list op := [NewTensor (vecs 2 0); NewVar 2 0; New [0] None; New [0] None; NewTensor (vecs 5 1); NewVar 2 3; NewTensor (eyes 5 2)].
Theorem C73_sharing_refuted :
  let s := steps empty hist_share in let s' := fst (step s (Update 1 [1] 4)) in
  ops_ok empty hist_share /\ consistent s (gauss_of s 0) /\ consistent s (gauss_of s 1)
  /\ snd (step s (Update 1 [1] 4)) = true /\ consistent s' (gauss_of s' 1) /\ ~ consistent s' (gauss_of s' 0).
Proof.
  assert (OK : ops_ok empty hist_share).
  { unfold hist_share. run. repeat split; first [lia|discriminate|intros v [<-|[]]; lia]. }
  assert (E : steps empty hist_share = mkSt [vecs 2 0; eyes 2 2; eyes 2 2; vecs 5 1; eyes 5 2] [mkVar 2 0; mkVar 2 3] [mkGauss [0] 2 1; mkGauss [0] 2 2]) by (unfold hist_share; run; reflexivity).
  cbv zeta. rewrite E. set (s := mkSt _ _ _).
  assert (E2 : step s (Update 1 [1] 4) = (mkSt (tens s) [mkVar 2 3; mkVar 2 3] [mkGauss [0] 2 1; mkGauss [0] 2 4], true)).
  { unfold s. cbn -[close_to_transpose]. change (eyes 5 2) with (mkTns 0 0 [5; 2; 2] eye_val). rewrite close_eye. reflexivity. }
  rewrite E2. cbn [fst snd]. split; [exact OK|].
  split; [exists 0, []; split; [reflexivity|]; repeat split; now apply symm_eye|].
  split; [exists 0, []; split; [reflexivity|]; repeat split; now apply symm_eye|]. split; [reflexivity|].
  split; [exists 0, []; split; [reflexivity|]; repeat split; now apply symm_eye|].
  intros (m0 & r & Q & (A & _)). injection Q as <- _. discriminate A.
Qed.

(** F87: only the first variable's batch size is checked. *)
Definition hist_batch : list op := [NewTensor (vecs 2 0); NewVar 2 0; NewTensor (vecs 3 7); NewVar 2 1].
Theorem C73_batch_refuted :
  let s := steps empty hist_batch in let s' := fst (step s (New [0; 1] None)) in
  ops_ok empty hist_batch /\ snd (step s (New [0; 1] None)) = true /\ g_mean (gauss_of s' 0) = [0; 1]
  /\ t_shape (tensor_of s' (g_prec (gauss_of s' 0))) = [2; 4; 4] /\ batch s' 1 = 3.
Proof.
  assert (OK : ops_ok empty hist_batch).
  { unfold hist_batch. run. repeat split; try lia. }
  assert (E : steps empty hist_batch = mkSt [vecs 2 0; vecs 3 7] [mkVar 2 0; mkVar 2 1] []) by (unfold hist_batch; run; reflexivity).
  cbv zeta. rewrite E. set (s := mkSt _ _ _). split; [exact OK|]. unfold s. run. repeat split.
Qed.

(** a history of updates with other batch sizes, a conversion and a copy that
    meets the hypotheses of C73_history (and C73_copy_independent) *)
Definition hist_good : list op :=
  [NewTensor (vecs 5 1); NewVar 2 2; NewTensor (eyes 5 2); Update 0 [1] 3; To 0 1 0; Copy 0; VarUpdate 1 0; Write 0 (fun _ => 3%R)].
Theorem C73_meets : let s := steps empty [NewTensor (vecs 2 0); NewVar 2 0; New [0] None] in
  wf s /\ consistent s (gauss_of s 0) /\ ops_ok s hist_good /\ all_safe s hist_good 0
  /\ batch (steps s hist_good) 0 = 5 /\ length (gs (steps s hist_good)) = 2.
Proof.
  assert (E : steps empty [NewTensor (vecs 2 0); NewVar 2 0; New [0] None] = mkSt [vecs 2 0; eyes 2 2] [mkVar 2 0] [mkGauss [0] 2 1]) by (run; reflexivity).
  cbv zeta. rewrite E. set (s := mkSt _ _ _).
  split. { split; cbn [s vars tens gs length].
    - intros [|v] H; cbn; lia.
    - intros [|g] H; [|lia]. cbn. split; [intros v [<-|[]]; lia|lia]. }
  split; [exists 0, []; split; [reflexivity|]; repeat split; now apply symm_eye|].
  set (s1 := mkSt [vecs 2 0; eyes 2 2; vecs 5 1; eyes 5 2] [mkVar 2 2; mkVar 2 2] [mkGauss [0] 2 3]).
  set (s3 := mkSt [vecs 2 0; eyes 2 2; vecs 5 1; eyes 5 2] [mkVar 2 0; mkVar 2 2] [mkGauss [0] 2 1]).
  assert (A3 : fst (step (fst (step (fst (step s (NewTensor (vecs 5 1)))) (NewVar 2 2))) (NewTensor (eyes 5 2))) = s3) by reflexivity.
  assert (A1 : step s3 (Update 0 [1] 3) = (s1, true)).
  { unfold s1, s3. cbn -[close_to_transpose]. change (eyes 5 2) with (mkTns 0 0 [5; 2; 2] eye_val). rewrite close_eye. reflexivity. }
  set (s4 := mkSt [vecs 2 0; eyes 2 2; vecs 5 1; eyes 5 2; mkTns 1 0 [5; 2] (fun _ => 1%R); mkTns 1 0 [5; 2; 2] eye_val] [mkVar 2 4; mkVar 2 2] [mkGauss [0] 2 5]).
  assert (A4 : step s1 (To 0 1 0) = (s4, true)) by reflexivity.
  set (s5 := mkSt (tens s4 ++ [mkTns 1 0 [5; 2] (fun _ => 1%R); mkTns 1 0 [5; 2; 2] eye_val]) [mkVar 2 4; mkVar 2 2; mkVar 2 6] [mkGauss [0] 2 5; mkGauss [2] 2 7]).
  assert (A5 : step s4 (Copy 0) = (s5, true)).
  { unfold s5, s4. cbn -[close_to_transpose]. rewrite close_eye. reflexivity. }
  set (s6 := mkSt (tens s5) [mkVar 2 4; mkVar 2 0; mkVar 2 6] (gs s5)).
  assert (A6 : step s5 (VarUpdate 1 0) = (s6, true)) by reflexivity.
  unfold hist_good. cbn [ops_ok all_safe]. unfold steps. cbn [fold_left]. rewrite A3, A1. cbn [fst]. rewrite A4. cbn [fst]. rewrite A5. cbn [fst]. rewrite A6. cbn [fst].
  split; [cbn; repeat split; first [lia|intros v [<-|[]]; lia]|]. split; [|split; reflexivity].
  cbn [safe]. split; [exact I|]. split; [exact I|]. split; [exact I|]. split.
  - cbn [Nat.eqb]. rewrite A1. split; [reflexivity|]. split; [repeat constructor; intros []|]. cbn. intros; lia.
  - split; [now left|]. split; [exact I|]. split; [cbn; lia|]. split; [cbn; lia|exact I].
Qed.
