(** C89: a concrete library, concrete programs, and claims that fail. *)
From Coq Require Import Reals List Arith Bool Lia Lra.
From Verif Require Import Ltt_model Ltt_spec Ltt_props Ltt_main Ltt_more Ltt_share Ltt_values.
Import ListNotations.
Open Scope R_scope.

(** 3 x 3 matrices; every update is the rotation about z by a right angle *)
Definition at33 (a : list R) (i j : nat) : R := nth (3 * i + j) a 0.
Definition build33 (f : nat -> nat -> R) : list R := flat_map (fun i => map (f i) [0; 1; 2]%nat) [0; 1; 2]%nat.
Definition mm (a b : list R) : list R := build33 (fun i j => at33 a i 0 * at33 b 0 j + at33 a i 1 * at33 b 1 j + at33 a i 2 * at33 b 2 j).
Definition one33 (dt : tdtype) (d : list R) : ten := mkTen dt [1; 3; 3]%nat d.
Definition rot_x : list R := [1; 0; 0; 0; 0; -1; 0; 1; 0].
Definition rot_z : list R := [0; -1; 0; 1; 0; 0; 0; 0; 1].
Definition exF : FnLib := mkFn
  (fun l a b => match l with LSO3 => Some (one33 (t_dtype a) (mm (t_data a) (t_data b))) | LSE3 => None end)
  (fun l a => match l with LSO3 => Some (one33 (t_dtype a) (build33 (fun i j => at33 (t_data a) j i))) | LSE3 => None end)
  (fun _ _ => None)
  (fun l d => match l with LSO3 => Some (one33 (t_dtype d) rot_z) | LSE3 => None end)
  (fun _ _ m => Some m) (fun _ t => t) (fun _ _ => true) (fun _ x => x).
Lemma exF_ok : lib_ok exF.
Proof.
  split; [|split].
  - intros [] a b r H; cbn in H; [discriminate|]. injection H as <-. reflexivity.
  - intros [] a r H; cbn in H; [discriminate|]. injection H as <-. reflexivity.
  - intros l a r H. discriminate.
Qed.
(** x = tensor; g = from_tensor(x); y = tensor; h = SO3(y); d = gradient; w = tensor *)
Definition prog0 : list op :=
  [OTensor (one33 TF32 rot_x); OFromTensor 0 LSO3; OTensor (one33 TF32 rot_z); ONew 2 LSO3; OGrad (one33 TF32 rot_x); OTensor (one33 TF32 rot_z)].
Definition st0 : state := run exF init prog0.
Lemma prog0_ok : Forall op_ok prog0.
Proof. repeat constructor. Qed.
Lemma st0_reachable : reachable exF st0.
Proof. exists prog0. split; [exact prog0_ok|reflexivity]. Qed.
Lemma st0_objs : s_objs st0 =
  [mkObj KTensor false 0 0 [1; 3; 3]; mkObj (KLie LSO3) false 0 0 [1; 3; 3]; mkObj KTensor false 1 0 [1; 3; 3]; mkObj (KLie LSO3) false 2 0 [1; 3; 3];
   mkObj KGrad false 3 0 [1; 3; 3]; mkObj KTensor false 4 0 [1; 3; 3]]%nat.
Proof. reflexivity. Qed.

(** README.md 178: g1 * g2 is g1.compose(g2); it is g2.compose(g1) *)
Theorem C89_times_is_compose_refuted : exists F st g h s1 i s2 j t1 t2, lib_ok F /\ reachable F st /\
  step F st (OMul g h) = (s1, Ret i) /\ step F st (OCompose g h) = (s2, Ret j) /\ contents s1 i = Some t1 /\ contents s2 j = Some t2 /\ t_data t1 <> t_data t2.
Proof.
  destruct (C89_compose exF st0 1 3 (mkObj (KLie LSO3) false 0 0 [1; 3; 3]%nat) (mkObj (KLie LSO3) false 2 0 [1; 3; 3]%nat) LSO3 (one33 TF32 (mm rot_x rot_z))
    exF_ok eq_refl eq_refl eq_refl eq_refl eq_refl eq_refl eq_refl) as (s2 & j & C2 & _ & V2 & _).
  destruct (C89_compose exF st0 3 1 (mkObj (KLie LSO3) false 2 0 [1; 3; 3]%nat) (mkObj (KLie LSO3) false 0 0 [1; 3; 3]%nat) LSO3 (one33 TF32 (mm rot_z rot_x))
    exF_ok eq_refl eq_refl eq_refl eq_refl eq_refl eq_refl eq_refl) as (s1 & i & _ & C1 & V1 & _).
  exists exF, st0, 1%nat, 3%nat, s1, i, s2, j, (one33 TF32 (mm rot_z rot_x)), (one33 TF32 (mm rot_x rot_z)).
  split; [exact exF_ok|]. split; [exact st0_reachable|]. split; [exact C1|]. split; [exact C2|]. split; [exact V1|]. split; [exact V2|].
  cbn [t_data one33]. intro H. apply (f_equal (fun l => nth 1 l 0)) in H. cbn in H. lra.
Qed.
(** an update of a LieTensor made by from_tensor does not reach the tensor it was made from, although
    both share their memory and a write into the tensor is seen by the LieTensor *)
Theorem C89_update_reaches_tensor_refuted : exists F st x g c st' t, lib_ok F /\ reachable F st /\ same_memory st x g /\ step F st c = (st', Done) /\ updates c g /\
  contents st x = Some t /\ contents st' x = Some t /\ contents st' g <> Some t /\ ~ same_memory st' x g.
Proof.
  set (og := mkObj (KLie LSO3) false 0 0 [1; 3; 3]%nat). set (od := mkObj KGrad false 3 0 [1; 3; 3]%nat).
  destruct (C89_add exF st0 1 4 og od LSO3 1 (one33 TF32 rot_x) (one33 TF32 rot_z) (one33 TF32 (mm rot_x rot_z))
    exF_ok st0_reachable eq_refl eq_refl eq_refl eq_refl (or_introl eq_refl) eq_refl eq_refl eq_refl eq_refl eq_refl eq_refl) as (st' & S & V & U & _ & O).
  exists exF, st0, 0%nat, 1%nat, (OAdd 1 4 1), st', (one33 TF32 rot_x).
  split; [exact exF_ok|]. split; [exact st0_reachable|]. split. { eexists; eexists. split; [reflexivity|]. split; [reflexivity|]. auto. }
  split; [exact S|]. split; [reflexivity|]. split; [reflexivity|]. split; [rewrite (O 0%nat) by discriminate; reflexivity|]. split.
  - rewrite V. intro H. apply (f_equal (fun o => match o with Some t => nth 1 (t_data t) 0 | None => 0 end)) in H. cbn in H. lra.
  - intros (o1 & o2 & G1 & G2 & E & _). destruct U as (o & Go & U). rewrite G2 in Go. injection Go as <-. exact (U 0%nat o1 ltac:(discriminate) G1 E).
Qed.
(** "only gradients update a LieTensor": an ordinary tensor is refused, takes part in one operation
    with a gradient, and is accepted from then on *)
Theorem C89_only_gradients_refuted : exists F st w g c, lib_ok F /\ reachable F st /\ op_ok c /\ kind_of st w = Some KTensor /\ ~ updates c w /\
  snd (step F st (OAdd g w 1)) = Raise ERuntime /\ contents (fst (step F st c)) w = contents st w /\ snd (step F (fst (step F st c)) (OAdd g w 1)) = Done.
Proof.
  exists exF, st0, 5%nat, 1%nat, (OTorch [5; 4]%nat (fun ts => Some (one33 TF32 rot_x)) false).
  split; [exact exF_ok|]. split; [exact st0_reachable|]. split.
  { cbn [op_ok]. intros ts r H. injection H as <-. reflexivity. }
  split; [reflexivity|]. split; [exact (fun H => H)|]. split; [reflexivity|]. split; [reflexivity|]. reflexivity.
Qed.
(** as_lietensor(x, ltype=SE3) for an SO3 tensor x returns the SO3 tensor *)
Theorem C89_as_checks_ltype_refuted : exists F st x, lib_ok F /\ reachable F st /\ kind_of st x = Some (KLie LSO3) /\ step F st (OAs x (Some LSE3) TF32) = (st, Ret x).
Proof. exists exF, st0, 1%nat. split; [exact exF_ok|]. split; [exact st0_reachable|]. split; reflexivity. Qed.

(** ** the hypotheses of the theorems are met *)
Example ex_shapes : length (t_data (value st0 (mkObj (KLie LSO3) false 0 0 [1; 3; 3]%nat))) = numel [1; 3; 3]%nat.
Proof. exact (proj1 (C89_shapes exF st0 1 _ exF_ok st0_reachable eq_refl)). Qed.
(** h = SO3(y) is private: x is overwritten, g is updated, y is written *)
Example ex_private : contents (run exF st0 [OWrite 0 rot_z; OAdd 1 4 2; OWrite 2 rot_x; OFromTensor 2 LSO3]) 3 = Some (one33 TF32 rot_z).
Proof.
  refine (proj1 (C89_unshared_is_private exF st0 _ 3 _ exF_ok st0_reachable _ _ _ _)).
  - repeat constructor.
  - eexists. split; [reflexivity|]. intros j oj N H. do 6 (destruct j as [|j]; [cbn in H; try (injection H as <-; cbn; lia); congruence|]). destruct j; discriminate.
  - repeat constructor; cbn; lia.
  - reflexivity.
Qed.
Example ex_own : contents (run exF st0 [OAdd 1 4 1; OCompose 1 3; OSet 1 3; OMul 3 1; OItem 3 0]) 3 = Some (one33 TF32 rot_z).
Proof.
  apply (C89_own_updates_only exF st0 _ 3 _ exF_ok st0_reachable).
  - repeat constructor.
  - repeat constructor; cbn; lia.
  - reflexivity.
Qed.
Example ex_seen : exists st', step exF st0 (OWrite 0 rot_z) = (st', Done) /\ contents st' 1 = Some (one33 TF32 rot_z).
Proof. eexists. split; reflexivity. Qed.
Example ex_item : exists st' k t, step exF st0 (OItem 3 0) = (st', Ret k) /\ contents st' k = Some (mkTen t [1; 3; 3]%nat rot_z).
Proof.
  destruct (C89_item exF st0 3 _ LSO3 1 [3; 3]%nat 0 exF_ok st0_reachable eq_refl eq_refl eq_refl eq_refl eq_refl eq_refl ltac:(lia)) as (st' & k & S & _ & (dt & V) & _).
  exists st', k, dt. split; [exact S|exact V].
Qed.
Example ex_cat : exists st' i, step exF st0 (OCat [1; 3]%nat) = (st', Ret i) /\ contents st' i = Some (mkTen TF32 [2; 3; 3]%nat (rot_x ++ rot_z)).
Proof.
  destruct (C89_cat exF st0 [1; 3]%nat _ LSO3 TF32 [3; 3]%nat exF_ok st0_reachable eq_refl eq_refl ltac:(discriminate) eq_refl
    ltac:(repeat constructor; eexists; reflexivity) eq_refl) as (st' & i & S & _ & V).
  exists st', i. split; [exact S|exact V].
Qed.
Example ex_values : exists st' i, step exF st0 (OInv 3) = (st', Ret i) /\ contents st' i = Some (one33 TF32 (build33 (fun i j => at33 rot_z j i))).
Proof.
  destruct (proj1 (C89_values exF st0 3 _ LSO3 exF_ok st0_reachable eq_refl eq_refl eq_refl) _ eq_refl eq_refl) as (st' & i & S & V & _).
  exists st', i. split; [exact S|exact V].
Qed.
