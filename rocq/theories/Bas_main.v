(** C76: the BaSpaCho solver solves the (damped) normal equations. *)
From Coq Require Import List Arith Bool Reals Lia Lra Permutation.
From Verif Require Import RSum Csr_spec Csr_model Lin_proofs Csr_props Damp_model Damp_props Bas_model Bas_spec Bas_blocks Bas_adds Bas_props.
Import ListNotations.
Local Open Scope nat_scope.

(** ** specification *)
(** the matrix of the system: A^T A, damped as documented (C28) *)
Definition system (m : nat) (A : nat -> nat -> R) (damping : option (tensor * bool * R)) (b : nat) : nat -> nat -> R :=
  match damping with None => gram m A | Some (t, ell, eps) => damped (damping_of t b) eps ell (gram m A) end.
Definition damping_fits (B : nat) (damping : option (tensor * bool * R)) : Prop := match damping with None => True | Some (t, _, _) => scalar_or_batch B t end.

Section M.
Variables (m : nat) (rp ci : list nat) (L : layout) (sizes : list nat).
Notation n := (list_sum sizes).
Notation struct := (block_struct rp ci (param_start 0 sizes) n).
Notation F := (l_dataSize L).
Notation px := (pidx L sizes).
Hypothesis W : csr_wf m n rp ci.
Hypothesis OK : layout_ok L sizes struct.
Variables (val bvec : nat -> R) (B : nat).
Notation A b := (csr_entry rp ci (fun k => val (k + b * length ci))).
Notation rhs b := (fun q => bvec (q + b * m)).

(** No solve aborts because a block is missing: executions exist, whatever the device *)
Lemma executions_exist : exists l1 l2, add_MtM_cpu L sizes rp ci val B = Some l1 /\ add_MtM_cuda L sizes rp ci val B = Some l2 /\ damp_list L sizes B <> None /\ exists s, executes L sizes rp ci m val bvec B s.
Proof.
  destruct (cpu_adds m rp ci L sizes W OK val B) as (l1 & E1 & _). destruct (cuda_adds m rp ci L sizes W OK val B) as (l2 & E2 & _).
  destruct (damp_spec L sizes struct OK B) as (d & Ed & _). exists l1, l2. split; [exact E1|]. split; [exact E2|]. split; [congruence|].
  exists (mkSched l1 d (fun b => tmat_vec_adds rp ci (fun k => val (k + b * length ci)) (rhs b)) (scramble_list L sizes n B) (unscramble_list L sizes n B) (fun _ => 0%R)).
  split; cbn [s_adds s_damp s_Atb s_scr s_uns]; try (intros; apply Permutation_refl).
  - exists l1. split; [now left|apply Permutation_refl].
  - exists d. split; [exact Ed|apply Permutation_refl].
Qed.
Lemma Atb_spec s b r : executes L sizes rp ci m val bvec B s -> b < B -> run_adds (fun _ => 0%R) (s_Atb s b) r = tmv m (A b) (rhs b) r.
Proof. intros Ex Hb. apply (proj2 (C30_forward_products m n rp ci _ _ W)). now apply (ex_Atb _ _ _ _ _ _ _ _ _ Ex). Qed.
(** the data after the damping, for every execution *)
Lemma damping_data s damping : executes L sizes rp ci m val bvec B s -> damping_fits B damping -> 0 < B ->
  exists data, baspacho_solve L (fun _ _ => None) s n B damping = None /\
    (forall bs, baspacho_solve L bs s n B damping =
       solve L bs (s_scr s) (s_uns s) (s_junk s) n B data (fun a => run_adds (fun _ => 0%R) (s_Atb s (a / n)) (a mod n))) /\
    forall b r c, b < B -> r < n -> c < n -> sym L (fun o => data (F * b + o)) (px r) (px c) = system m (A b) damping b r c.
Proof.
  intros Ex Fit HB. destruct (ex_adds _ _ _ _ _ _ _ _ _ Ex) as (l & Hl & Pl). destruct (ex_damp _ _ _ _ _ _ _ _ _ Ex) as (d & Ed & Pd).
  assert (Fail : forall data x, solve L (fun _ _ => None) (s_scr s) (s_uns s) (s_junk s) n B data x = None).
  { intros data x. unfold solve. cbv zeta. destruct B; [lia|]. reflexivity. }
  destruct damping as [((t & ell) & eps)|].
  - destruct (alpha_beta_spec B t ell eps Fit HB) as (al & be & E & Hab). exists (run_damp al be (s_damp s) (run_adds (fun _ => 0%R) (s_adds s))).
    assert (Q : forall bs, baspacho_solve L bs s n B (Some (t, ell, eps)) = solve L bs (s_scr s) (s_uns s) (s_junk s) n B (run_damp al be (s_damp s) (run_adds (fun _ => 0%R) (s_adds s)))
        (fun a => run_adds (fun _ => 0%R) (s_Atb s (a / n)) (a mod n))).
    { intros bs. unfold baspacho_solve, forward. rewrite E, Nat.eqb_refl. reflexivity. }
    split; [rewrite Q; apply Fail|]. split; [exact Q|].
    intros b r c Hb Hr Hc. rewrite (damped_spec m rp ci L sizes W OK val B l (s_adds s) d (s_damp s) al be Hl Pl Ed Pd b r c Hb Hr Hc).
    unfold mat_of. destruct (Hab b Hb) as [-> ->]. unfold system, damped. destruct (Nat.eqb_spec r c) as [->|]; destruct ell; ring.
  - exists (run_adds (fun _ => 0%R) (s_adds s)). assert (Q : forall bs, baspacho_solve L bs s n B None = solve L bs (s_scr s) (s_uns s) (s_junk s) n B (run_adds (fun _ => 0%R) (s_adds s))
        (fun a => run_adds (fun _ => 0%R) (s_Atb s (a / n)) (a mod n))) by reflexivity.
    split; [rewrite Q; apply Fail|]. split; [exact Q|].
    intros b r c Hb Hr Hc. apply (data_spec m rp ci L sizes W OK val B l (s_adds s) Hl Pl b r c Hb Hr Hc).
Qed.
Lemma rhs_place (f : nat -> nat -> R) r b : r < n -> f ((r + n * b) / n) ((r + n * b) mod n) = f b r.
Proof.
  intros H. rewrite (Nat.mul_comm n b), Nat.div_add, Nat.mod_add by lia. rewrite Nat.div_small, Nat.mod_small by exact H. reflexivity.
Qed.
End M.

(** Whatever the elimination order and the storage the library chooses, on the CPU and for every interleaving of the CUDA threads: if the
    library solves its own system, the result of the solver is the solution of the (damped) normal equations, for every batch element *)
Theorem C76_solves : forall m rp ci L sizes val bvec B s damping bsolve x,
  let n := list_sum sizes in
  csr_wf m n rp ci -> layout_ok L sizes (block_struct rp ci (param_start 0 sizes) n) -> solver_sound L n bsolve ->
  executes L sizes rp ci m val bvec B s -> damping_fits B damping ->
  baspacho_solve L bsolve s n B damping = Some x ->
  forall b r, b < B -> r < n ->
    let A := csr_entry rp ci (fun k => val (k + b * length ci)) in
    rsum n (fun c => (system m A damping b r c * x (c + n * b)%nat)%R) = tmv m A (fun q => bvec (q + b * m)) r.
Proof.
  intros m rp ci L sizes val bvec B s damping bsolve x n W OK So Ex Fit E b r Hb Hr A. subst n A.
  destruct (damping_data m rp ci L sizes W OK val bvec B s damping Ex Fit ltac:(lia)) as (data & _ & Q & D).  rewrite Q in E.
  rewrite (solve_spec L sizes _ OK bsolve (s_scr s) (s_uns s) (s_junk s) B data _ (fun b => system m (csr_entry rp ci (fun k => val (k + b * length ci))) damping b) So
    (ex_scr _ _ _ _ _ _ _ _ _ Ex) (ex_uns _ _ _ _ _ _ _ _ _ Ex) D x E b r Hb Hr).
  cbv beta. rewrite (rhs_place sizes (fun b r => run_adds (fun _ => 0%R) (s_Atb s b) r) r b Hr).
  exact (Atb_spec m rp ci L sizes W val bvec B s b r Ex Hb).
Qed.
(** The solver does not fail on positive definite systems: no block is missing, and if the library factorizes positive definite matrices
    there is a result *)
Theorem C76_succeeds : forall m rp ci L sizes val bvec B s damping bsolve,
  let n := list_sum sizes in
  csr_wf m n rp ci -> layout_ok L sizes (block_struct rp ci (param_start 0 sizes) n) -> solver_complete L n bsolve -> 0 < B ->
  executes L sizes rp ci m val bvec B s -> damping_fits B damping ->
  (forall b, b < B -> posdef n (system m (csr_entry rp ci (fun k => val (k + b * length ci))) damping b)) ->
  baspacho_solve L bsolve s n B damping <> None.
Proof.
  intros m rp ci L sizes val bvec B s damping bsolve n W OK Co HB Ex Fit Pd. subst n.
  destruct (damping_data m rp ci L sizes W OK val bvec B s damping Ex Fit HB) as (data & _ & Q & D).  rewrite Q.
  exact (solve_some L sizes _ OK bsolve _ _ _ B data _ (fun b => system m (csr_entry rp ci (fun k => val (k + b * length ci))) damping b) Co D Pd).
Qed.
(** Every block that the additions and the damping access is stored: both versions of add_MtM run to the end, and so there are executions *)
Theorem C76_blocks_stored : forall m rp ci L sizes val bvec B,
  csr_wf m (list_sum sizes) rp ci -> layout_ok L sizes (block_struct rp ci (param_start 0 sizes) (list_sum sizes)) ->
  add_MtM_cpu L sizes rp ci val B <> None /\ add_MtM_cuda L sizes rp ci val B <> None /\ damp_list L sizes B <> None /\
  exists s, executes L sizes rp ci m val bvec B s.
Proof.
  intros m rp ci L sizes val bvec B W OK. destruct (executions_exist m rp ci L sizes W OK val bvec B) as (l1 & l2 & E1 & E2 & Ed & Ex).
  rewrite E1, E2. repeat split; try discriminate; assumption.
Qed.
