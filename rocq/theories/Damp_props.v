(** C28: damping means the same in all linear solvers. *)
From Coq Require Import List Arith Bool Reals Lra Lia Permutation.
From Verif Require Import RSum Csr_spec Csr_model Csr_props Damp_model.
Import ListNotations.
Local Open Scope nat_scope.

(** ---- specification ---- *)
(** The damping is a float, or one number, or one number per batch element; its value for element [i]. *)
Definition scalar_or_batch (B : nat) (t : tensor) : Prop := t_shape t = [] \/ t_shape t = [1] \/ t_shape t = [B].
Definition damping_of (t : tensor) (i : nat) : R :=
  match t_shape t with [] => t_data t 0 | [1] => t_data t 0 | _ => t_data t i end.
(** The damped matrix: only the diagonal changes; ellipsoidal: by a multiple of the diagonal (plus
    eps), otherwise by the damping itself. *)
Definition damped (lam eps : R) (ellipsoidal : bool) (M : nat -> nat -> R) (r c : nat) : R :=
  if r =? c then (if ellipsoidal then M r c + (lam * M r c + eps) else M r c + lam)%R else M r c.
(** A^T A of an m-row matrix *)
Definition gram (m : nat) (A : nat -> nat -> R) (r c : nat) : R := rsum m (fun q => A q r * A q c)%R.

(** ---- proofs ---- *)
Lemma damping_numel B t i : scalar_or_batch B t -> i < B ->
  damping_of t i = t_data t (bidx (numel t) i) /\ (numel t = 1 \/ numel t = B).
Proof.
  intros [E|[E|E]] Hi; unfold damping_of, numel, bidx; rewrite E; cbn; auto.
  rewrite Nat.mul_1_r. split; [|auto]. destruct (Nat.eqb_spec B 1) as [->|N]; [reflexivity|]. destruct B as [|[|B]]; try lia; reflexivity.
Qed.

Theorem C28_dense : forall B n M t ell eps, scalar_or_batch B t -> 0 < B ->
  exists f, dense_apply_damping B n n M t ell eps = Some (B, f) /\
    forall i r c, i < B -> f i r c = damped (damping_of t i) eps ell (M i) r c.
Proof.
  intros B n M t ell eps H HB.
  assert (HN : numel t = 1 \/ numel t = B). { destruct (damping_numel B t 0 H HB) as [_ ?]; auto. }
  unfold dense_apply_damping. rewrite Nat.eqb_refl. cbn [negb].
  assert (BC : bcast (numel t) B = Some B).
  { unfold bcast. destruct (Nat.eqb_spec (numel t) B) as [->|N]; [reflexivity|]. destruct HN as [->|HN]; [reflexivity|congruence]. }
  assert (BB : bcast B B = Some B) by (unfold bcast; now rewrite Nat.eqb_refl).
  assert (BC' : bcast B (numel t) = Some B).
  { unfold bcast. destruct (Nat.eqb_spec B (numel t)) as [->|N]; [reflexivity|]. destruct HN as [->|HN]; [|congruence].
    destruct (Nat.eqb_spec B 1); [congruence|reflexivity]. }
  assert (BI : forall i, i < B -> bidx B i = i). { intros i Hi. unfold bidx. destruct (Nat.eqb_spec B 1); [lia|reflexivity]. }
  destruct ell.
  - rewrite BC, BB. eexists. split; [reflexivity|]. intros i r c Hi. cbv beta. rewrite !(BI i Hi).
    destruct (damping_numel B t i H Hi) as [-> _]. unfold damped. destruct (Nat.eqb_spec r c) as [->|]; ring.
  - rewrite BC'. eexists. split; [reflexivity|]. intros i r c Hi. cbv beta. rewrite !(BI i Hi).
    destruct (damping_numel B t i H Hi) as [-> _].
    replace (bidx (numel t) (bidx (numel t) i)) with (bidx (numel t) i).
    + unfold damped. destruct (r =? c); ring.
    + unfold bidx. destruct (numel t =? 1); reflexivity.
Qed.

(** the pair (alpha, beta) of the sparse solvers *)
Lemma alpha_beta_spec B t ell eps : scalar_or_batch B t -> 0 < B ->
  exists alpha beta, convert_to_alpha_beta t eps ell B = Some (B, alpha, beta) /\
    forall i, i < B -> alpha i = (if ell then damping_of t i else 0%R) /\ beta i = (if ell then eps else damping_of t i).
Proof.
  intros H HB. unfold convert_to_alpha_beta, damping_of.
  destruct H as [E|[E|E]]; rewrite E.
  - destruct ell; eexists _, _; (split; [reflexivity|]); intros i Hi; auto.
  - destruct (Nat.eqb_spec B 1) as [->|N]; cbn [Nat.eqb andb negb hd];
      destruct ell; eexists _, _; (split; [reflexivity|]); intros i Hi; try (replace i with 0 by lia); auto.
  - destruct (Nat.eqb_spec B 1) as [->|N]; cbn [Nat.eqb andb negb hd].
    + destruct ell; eexists _, _; (split; [reflexivity|]); intros i Hi; replace i with 0 by lia; auto.
    + destruct B as [|[|B']]; try lia. destruct ell; eexists _, _; (split; [reflexivity|]); intros i Hi; auto.
Qed.

(** Dense, CUDA LU and BaSpaCho solvers damp the same normal matrix in the same way: for all sizes,
    batch sizes, structures and values, damping (float, one number, one per element), both kinds,
    every eps and every schedule of the CUDA kernels. *)
Theorem C28_solvers_agree : forall B m n rp ci rp2 ci2 (vals : nat -> nat -> R) t ell eps,
  csr_wf m n rp ci -> csr_wf n n rp2 ci2 -> contains_MtM m rp ci rp2 ci2 ->
  (forall c, c < n -> exists k, k < row_len rp2 c /\ col ci2 (row_start rp2 c + k) = c) ->
  scalar_or_batch B t -> 0 < B ->
  forall sched1 sched2,
  (forall i, i < B -> Permutation (mult_MtM_adds rp ci (vals i) rp2 ci2) (sched1 i)) ->
  (forall i, i < B -> Permutation (damp_places rp2 ci2) (sched2 i)) ->
  let AtA := fun i => gram m (csr_entry rp ci (vals i)) in
  exists ab dense lu bas,
    convert_to_alpha_beta t eps ell B = Some ab /\
    dense_apply_damping B n n AtA t ell eps = Some (B, dense) /\
    lu_normal_matrix B rp2 ci2 (Some ab) sched1 sched2 = Some lu /\
    baspacho_damp B AtA (Some ab) = Some bas /\
    forall i r c, i < B -> r < n -> c < n ->
      let d := damped (damping_of t i) eps ell (AtA i) r c in
      dense i r c = d /\ csr_entry rp2 ci2 (lu i) r c = d /\ bas i r c = d.
Proof.
  intros B m n rp ci rp2 ci2 vals t ell eps W W2 HC HD HT HB sched1 sched2 P1 P2 AtA.
  destruct (alpha_beta_spec B t ell eps HT HB) as (alpha & beta & E & Hab).
  destruct (C28_dense B n AtA t ell eps HT HB) as (dense & ED & Hd).
  exists (B, alpha, beta), dense. unfold lu_normal_matrix, baspacho_damp. rewrite Nat.eqb_refl.
  eexists _, _. split; [exact E|split; [exact ED|split; [reflexivity|split; [reflexivity|]]]].
  intros i r c Hi Hr Hc. cbv zeta. destruct (Hab i Hi) as [-> ->]. split; [apply Hd; exact Hi|]. split.
  - rewrite (C46_apply_damping n rp2 ci2 _ _ _ W2 HD _ (P2 i Hi) r c Hr Hc).
    rewrite (C46_mult_MtM m n rp ci (vals i) rp2 ci2 W W2 HC _ (P1 i Hi) r c Hr Hc).
    unfold damped, AtA, gram. destruct (Nat.eqb_spec r c) as [->|]; destruct ell; ring.
  - unfold damped. destruct (Nat.eqb_spec r c) as [->|]; destruct ell; ring.
Qed.

(** The CHOLMOD solver: a positive (or any nonzero) float with spherical damping gives the same. *)
Theorem C28_cholmod_partial : forall B n (M : nat -> nat -> nat -> R) x dflt, 0 < B -> x <> 0%R ->
  exists dense chol,
    dense_apply_damping B n n M (mkT [] (fun _ => x)) false 0 = Some (B, dense) /\ cholmod_matrix (PyFloat x) dflt M = Some chol /\
    forall i r c, i < B -> chol i r c = dense i r c.
Proof.
  intros B n M x dflt HB Hx. destruct (C28_dense B n M (mkT [] (fun _ => x)) false 0 (or_introl eq_refl) HB) as (f & Hf & Hs).
  exists f. unfold cholmod_matrix, cholmod_damping. destruct (Req_EM_T x 0); [contradiction|].
  eexists. split; [exact Hf|split; [reflexivity|]]. intros i r c Hi. rewrite (Hs i r c Hi). unfold damped, damping_of. cbn.
  destruct (r =? c); ring.
Qed.

(** Where it does not: damping=0.0 falls back to the solver's own default, the ellipsoidal flag is
    ignored, a tensor damping is refused. *)
Theorem C28_cholmod_refuted :
  (forall dflt M, dflt <> 0%R -> exists chol, cholmod_matrix (PyFloat 0) dflt M = Some chol /\ chol 0 0 0 <> M 0 0 0) /\
  (forall M, M 0 0 0 <> 1%R -> exists chol dense, cholmod_matrix (PyFloat 1) 0 M = Some chol /\
     dense_apply_damping 1 1 1 M (mkT [] (fun _ => 1%R)) true 0 = Some (1, dense) /\ chol 0 0 0 <> dense 0 0 0) /\
  (forall dflt M, cholmod_matrix PyOther dflt M = None).
Proof.
  split; [|split].
  - intros dflt M Hd. unfold cholmod_matrix, cholmod_damping. destruct (Req_EM_T 0 0); [|congruence].
    eexists. split; [reflexivity|]. cbn. lra.
  - intros M HM. unfold cholmod_matrix, cholmod_damping. destruct (Req_EM_T 1 0); [lra|]. eexists _, _. split; [reflexivity|split; [reflexivity|]].
    cbn. lra.
  - reflexivity.
Qed.

(** The shapes are not treated alike: a (B, 1) damping is accepted by the dense solvers and refused
    by the sparse ones; for batch size 1 the dense solvers turn a damping of D > 1 numbers into a
    batch of D systems, where the sparse solvers raise. *)
Theorem C28_shapes_refuted : forall n M lam eps,
  (exists f, dense_apply_damping 2 n n M (mkT [2; 1] lam) true eps = Some (2, f)) /\
  convert_to_alpha_beta (mkT [2; 1] lam) eps true 2 = None /\
  (exists f, dense_apply_damping 1 n n M (mkT [3] lam) true eps = Some (3, f)) /\
  forall ab, convert_to_alpha_beta (mkT [3] lam) eps true 1 = Some ab -> baspacho_damp 1 M (Some ab) = None.
Proof.
  intros n M lam eps. unfold dense_apply_damping. rewrite Nat.eqb_refl. cbn. repeat split; try (eexists; reflexivity).
  intros ab H. injection H as <-. reflexivity.
Qed.

(** A concrete case of C28_solvers_agree: the structure of C46_example, batch 2, one damping per element. *)
Lemma C28_example : exists B m n rp ci rp2 ci2 (vals : nat -> nat -> R) t,
  csr_wf m n rp ci /\ csr_wf n n rp2 ci2 /\ contains_MtM m rp ci rp2 ci2 /\
  (forall c, c < n -> exists k, k < row_len rp2 c /\ col ci2 (row_start rp2 c + k) = c) /\
  scalar_or_batch B t /\ 0 < B /\ damping_of t 0 = 1%R /\ damping_of t 1 = 2%R /\
  damped (damping_of t 1) 0 true (gram m (csr_entry rp ci (vals 1))) 2 2 = 75%R.
Proof.
  exists 2, 2, 3, [0; 2; 3], [0; 2; 1], [0; 2; 3; 5], [0; 2; 1; 0; 2], (fun i k => nth k [3; 5; 7]%R 0%R), (mkT [2] (fun i => if i =? 0 then 1%R else 2%R)).
  destruct (C46_example 3 5 7) as (W & W2 & HC & HD & _).
  split; [exact W|split; [exact W2|split; [exact HC|split; [exact HD|split; [right; right; reflexivity|split; [lia|]]]]]].
  split; [reflexivity|split; [reflexivity|]]. unfold damped, damping_of, gram. cbn. ring.
Qed.
