(** C67: the derivatives that the backward modes return. *)
From Coq Require Import Reals List Arith Lra Lia Bool.
From Verif Require Import RSum Adj_props Adj_diff Bwd_model Bwd_spec.
Local Open Scope R_scope.

Lemma lim_unique f a b : derivable_pt_lim f 0 a -> derivable_pt_lim f 0 b -> a = b.
Proof. apply uniqueness_limite. Qed.
Lemma near_and (P Q : R -> Prop) : near0 P -> near0 Q -> near0 (fun t => P t /\ Q t).
Proof.
  intros (a & Ha & HP) (b & Hb & HQ). exists (Rmin a b). split; [now apply Rmin_pos|].
  intros t Ht. split; [apply HP|apply HQ]; eapply Rlt_le_trans; try exact Ht; [apply Rmin_l|apply Rmin_r].
Qed.
Lemma near_impl (P Q : R -> Prop) : (forall t, P t -> Q t) -> near0 P -> near0 Q.
Proof. intros H (a & Ha & HP). exists a. split; auto. Qed.
Lemma near_0 (P : R -> Prop) : near0 P -> P 0.
Proof. intros (a & Ha & HP). apply HP. rewrite Rabs_R0. exact Ha. Qed.

Lemma linv_inj n N M x : left_inverse n N M -> (forall c, (c < n)%nat -> mv n M x c = 0) -> forall c, (c < n)%nat -> x c = 0.
Proof.
  intros HN H c Hc.
  assert (E : rsum n (fun k => N c k * mv n M x k) = x c).
  { unfold mv. rewrite (rsum_ext n _ (fun k => rsum n (fun j => N c k * M k j * x j))).
    2: intros k Hk; rewrite <- rsum_scal; apply rsum_ext; intros; ring.
    rewrite rsum_exch, (rsum_ext n _ (fun j => if Nat.eqb j c then x j else 0)).
    - rewrite rsum_delta. destruct (Nat.ltb_spec c n); [reflexivity|lia].
    - intros j Hj. rewrite (rsum_scal_r n (x j)), (HN c j Hc Hj). destruct (Nat.eqb_spec c j), (Nat.eqb_spec j c); try lia; ring. }
  rewrite <- E. apply rsum_0. intros k Hk. rewrite H by exact Hk. ring.
Qed.
Lemma mv_minus n A u v r : mv n A (fun i => u i - v i) r = mv n A u r - mv n A v r.
Proof. unfold mv. rewrite <- rsum_minus. apply rsum_ext. intros; ring. Qed.

(** rate of the solution of M(t) x(t) = r(t) when x(0) = 0: the derivative of M does not matter *)
Lemma rate n (M : R -> mat) M' (x r : R -> vec) r' N :
  (forall k j, (k < n)%nat -> (j < n)%nat -> derivable_pt_lim (fun t => M t k j) 0 (M' k j)) ->
  has_derivative n r r' -> left_inverse n N (M 0) -> near0 (fun t => solves n (M t) (x t) (r t)) ->
  (forall c, (c < n)%nat -> r 0 c = 0) ->
  exists v, starts n x v /\ forall c, (c < n)%nat -> mv n (M 0) v c = r' c.
Proof.
  intros HM Hr HN HS H0.
  assert (X0 : forall c, (c < n)%nat -> x 0 c = 0).
  { apply (linv_inj n N (M 0)); [exact HN|]. intros c Hc. rewrite (near_0 _ HS c Hc). now apply H0. }
  pose proof (solution_differentiable n M M' x r r' N HM Hr HN HS) as HD. set (v := fun c => _) in HD.
  exists v. split; [now split|]. intros c Hc.
  assert (D1 : derivable_pt_lim (fun t => mv n (M t) (x t) c) 0 (mv n (M 0) v c)).
  { unfold mv. eapply der_eq; [apply (der_rsum n (fun j t => M t c j * x t j)); intros j Hj; apply der_mult; [now apply HM|now apply HD]|].
    apply rsum_ext. intros j Hj. rewrite X0 by exact Hj. ring. }
  apply (lim_unique (fun t => r t c)); [|now apply Hr].
  refine (der_ext_loc _ _ _ _ D1). apply (near_impl (fun t => solves n (M t) (x t) (r t))); [|exact HS].
  intros t Ht. now apply Ht.
Qed.

Section Fix.
Context {S : Type} (p : Problem S).
Let n := dofs p.
Let m := dims p.

Lemma starts_0 : starts n (fun _ _ => 0) (fun _ => 0).
Proof. split; [reflexivity|]. intros c Hc. apply der_const. Qed.
Lemma stationary_Atb x th : stationary p x th -> forall c, (c < n)%nat -> Atb p x th c = 0.
Proof.
  intros H c Hc. unfold Atb. rewrite (rsum_ext _ _ (fun i => - (err p x th i * jac p x th i c))) by (intros; ring).
  rewrite rsum_opp, (H c Hc). ring.
Qed.
(** the rate of the negative gradient along a curve *)
Lemma Atb_rate x th r' B K d v : smooth p x th r' B K -> starts n d v -> forall c, (c < n)%nat ->
  derivable_pt_lim (fun t => Atb p (retract p x (d t)) (th t) c) 0
    (- (mv n (AtA p x (th 0)) v c + mv n (second_order p x (th 0) K) v c
        + rsum m (fun i => jac p x (th 0) i c * r' i + err p x (th 0) i * B i c))).
Proof.
  intros [H0 _ He Hj] Hd c Hc.
  assert (E0 : retract p x (d 0) = x) by (apply H0; apply Hd).
  unfold Atb. eapply der_eq.
  - apply (der_rsum m (fun i t => jac p (retract p x (d t)) (th t) i c * - err p (retract p x (d t)) (th t) i)).
    intros i Hi. apply der_mult; [apply (Hj d v Hd i c Hi Hc)|]. apply derivable_pt_lim_opp. apply (He d v Hd i Hi).
  - cbv beta. rewrite E0. unfold mv, second_order, AtA.
    rewrite (rsum_ext n (fun c0 => rsum (dims p) _ * v c0) (fun k => rsum m (fun i => jac p x (th 0) i c * (jac p x (th 0) i k * v k)))).
    2: intros k Hk; fold m; rewrite <- rsum_scal_r; apply rsum_ext; intros; ring.
    rewrite rsum_exch.
    rewrite (rsum_ext n (fun c0 => rsum (dims p) (fun i => err p x (th 0) i * K i c c0) * v c0) (fun k => rsum m (fun i => err p x (th 0) i * (K i c k * v k)))).
    2: intros k Hk; fold m; rewrite <- rsum_scal_r; apply rsum_ext; intros; ring.
    rewrite (rsum_exch n m (fun k i => err p x (th 0) i * (K i c k * v k))).
    rewrite <- !rsum_plus, <- rsum_opp. apply rsum_ext. intros i Hi.
    rewrite !rsum_scal. fold n. ring.
Qed.
(** the right hand side seen by one step from a fixed state *)
Lemma Atb_rate_fixed x th r' B K : smooth p x th r' B K -> forall c, (c < n)%nat ->
  derivable_pt_lim (fun t => Atb p x (th t) c) 0 (- rsum m (fun i => jac p x (th 0) i c * r' i + err p x (th 0) i * B i c)).
Proof.
  intros H c Hc. pose proof (Atb_rate x th r' B K _ _ H starts_0 c Hc) as D.
  refine (der_ext_loc (fun t => Atb p (retract p x (fun _ => 0)) (th t) c) _ _ _ _).
  - exists 1. split; [lra|]. intros t _. now rewrite (sm_stay _ _ _ _ _ _ H) by reflexivity.
  - eapply der_eq; [exact D|]. unfold mv. rewrite (rsum_0 n (fun c0 => AtA p x (th 0) c c0 * 0)), (rsum_0 n (fun c0 => second_order p x (th 0) K c c0 * 0)) by (intros; ring). ring.
Qed.
(** the velocity of the solutions *)
Lemma solution_rate x th r' B K d v : smooth p x th r' B K -> solution_curve p x th d v -> forall c, (c < n)%nat ->
  mv n (AtA p x (th 0)) v c + mv n (second_order p x (th 0) K) v c
  = - rsum m (fun i => jac p x (th 0) i c * r' i + err p x (th 0) i * B i c).
Proof.
  intros H [Hd Hs] c Hc. pose proof (Atb_rate x th r' B K d v H Hd c Hc) as D.
  assert (D0 : derivable_pt_lim (fun t => Atb p (retract p x (d t)) (th t) c) 0 0).
  { refine (der_ext_loc (fun _ => 0) _ _ _ (der_const 0)). revert Hs. apply near_impl. intros t Ht. symmetry. now apply stationary_Atb. }
  pose proof (lim_unique _ _ _ D D0). lra.
Qed.
Lemma solution_stationary x th r' B K d v : smooth p x th r' B K -> solution_curve p x th d v -> stationary p x (th 0).
Proof.
  intros H [Hd Hs]. pose proof (near_0 _ Hs) as H0. cbv beta in H0. rewrite (sm_stay _ _ _ _ _ _ H) in H0 by apply Hd. exact H0.
Qed.

(** ** IMPLICIT *)
Variable solve : nat -> mat -> vec -> option vec.
Hypothesis Hsound : sound solve.
Lemma implicit_rate x th r' B K N step strict fallback : smooth p x th r' B K -> left_inverse n N (AtA p x (th 0)) -> stationary p x (th 0) ->
  near0 (fun t => solve n (AtA p x (th 0)) (Atb p x (th t)) <> None) ->
  exists u, output_velocity p x (fun t => implicit_step p solve false strict step fallback x (th 0) (th t)) u
    /\ forall c, (c < n)%nat -> mv n (AtA p x (th 0)) u c = - rsum m (fun i => jac p x (th 0) i c * r' i + err p x (th 0) i * B i c).
Proof.
  intros H HN Hst Hok.
  set (d := fun t => match solve n (AtA p x (th 0)) (Atb p x (th t)) with Some d => d | None => fun _ => 0 end).
  destruct (rate n (fun _ => AtA p x (th 0)) (fun _ _ => 0) (fun t c => d t c * 1) (fun t => Atb p x (th t))
    (fun c => - rsum m (fun i => jac p x (th 0) i c * r' i + err p x (th 0) i * B i c)) N) as (u & Hu & Eu).
  - intros. apply der_const.
  - intros c Hc. now apply (Atb_rate_fixed x th r' B K).
  - exact HN.
  - revert Hok. apply near_impl. intros t Ht c Hc. unfold d.
    destruct (solve n (AtA p x (th 0)) (Atb p x (th t))) as [y|] eqn:E; [|congruence].
    rewrite <- (Hsound _ _ _ _ E c Hc). unfold mv. apply rsum_ext. intros; ring.
  - intros c Hc. now apply stationary_Atb.
  - exists u. split; [|exact Eu]. exists (fun t c => d t c * 1). split; [exact Hu|].
    revert Hok. apply near_impl. intros t Ht. unfold implicit_step, d. fold n.
    destruct (solve n (AtA p x (th 0)) (Atb p x (th t))) as [y|] eqn:E; [reflexivity|congruence].
Qed.

(** ** TRUNCATED *)
Lemma AtA_rate x th r' B K d v : smooth p x th r' B K -> starts n d v -> exists A' : mat, forall c c', (c < n)%nat -> (c' < n)%nat ->
  derivable_pt_lim (fun t => AtA p (retract p x (d t)) (th t) c c') 0 (A' c c').
Proof.
  intros H Hd. eexists (fun c c' => rsum m (fun i => _)). intros c c' Hc Hc'. unfold AtA.
  eapply der_eq.
  - apply (der_rsum m (fun i t => jac p (retract p x (d t)) (th t) i c * jac p (retract p x (d t)) (th t) i c')). intros i Hi.
    apply der_mult; apply (sm_jac _ _ _ _ _ _ H d v Hd); auto.
  - reflexivity.
Qed.
Lemma unroll_rate x th r' B K N damping step d v : smooth p x th r' B K -> left_inverse n N (damped_matrix damping (AtA p x (th 0))) ->
  stationary p x (th 0) -> starts n d v ->
  near0 (fun t => unroll_step p solve damping step (retract p x (d t)) (th t) <> None) ->
  exists e u, starts n e u
    /\ near0 (fun t => unroll_step p solve damping step (retract p x (d t)) (th t) = Some (retract p (retract p x (d t)) (fun c => e t c * step)))
    /\ forall c, (c < n)%nat -> mv n (damped_matrix damping (AtA p x (th 0))) u c =
       - (mv n (AtA p x (th 0)) v c + mv n (second_order p x (th 0) K) v c + rsum m (fun i => jac p x (th 0) i c * r' i + err p x (th 0) i * B i c)).
Proof.
  intros H HN Hst Hd Hok.
  assert (E0 : retract p x (d 0) = x) by (apply (sm_stay _ _ _ _ _ _ H); apply Hd).
  set (A := fun t => damped_matrix damping (AtA p (retract p x (d t)) (th t))).
  set (b := fun t => Atb p (retract p x (d t)) (th t)).
  set (e := fun t => match solve n (A t) (b t) with Some d => d | None => fun _ => 0 end).
  destruct (AtA_rate x th r' B K d v H Hd) as (A' & HA).
  assert (HM : exists M' : mat, forall c c', (c < n)%nat -> (c' < n)%nat -> derivable_pt_lim (fun t => A t c c') 0 (M' c c')).
  { unfold A, damped_matrix. destruct damping as [[[lam [|]] ep]|].
    - exists (fun c c' => A' c c' + (if Nat.eqb c c' then 0 * AtA p (retract p x (d 0)) (th 0) c c + lam * A' c c + 0 else 0)). intros c c' Hc Hc'.
      apply (der_plus (fun t => AtA p (retract p x (d t)) (th t) c c') (fun t => if Nat.eqb c c' then lam * AtA p (retract p x (d t)) (th t) c c + ep else 0)); [now apply HA|].
      destruct (Nat.eqb c c'); [|apply der_const].
      apply (der_plus (fun t => lam * AtA p (retract p x (d t)) (th t) c c) (fun _ => ep)); [|apply der_const].
      apply (der_mult (fun _ => lam) (fun t => AtA p (retract p x (d t)) (th t) c c)); [apply der_const|now apply HA].
    - exists (fun c c' => A' c c' + 0). intros c c' Hc Hc'.
      apply (der_plus (fun t => AtA p (retract p x (d t)) (th t) c c') (fun t => if Nat.eqb c c' then lam else 0)); [now apply HA|apply der_const].
    - exists A'. exact HA. }
  destruct HM as (M' & HM).
  destruct (rate n A M' e b _ N HM (fun c Hc => Atb_rate x th r' B K d v H Hd c Hc)) as (u & Hu & Eu).
  - unfold A. rewrite E0. exact HN.
  - revert Hok. apply near_impl. intros t Ht. unfold unroll_step in Ht. fold n (A t) (b t) in Ht.
    unfold e. destruct (solve n (A t) (b t)) as [y|] eqn:E; [|congruence]. exact (Hsound _ _ _ _ E).
  - intros c Hc. unfold b. rewrite E0. now apply stationary_Atb.
  - exists e, u. split; [exact Hu|]. split.
    + revert Hok. apply near_impl. intros t Ht. unfold unroll_step in *. fold n (A t) (b t) in Ht.
      change (dofs p) with n. fold (A t) (b t).
      unfold e. destruct (solve n (A t) (b t)) as [y|] eqn:E; [reflexivity|congruence].
    + intros c Hc. rewrite <- (Eu c Hc). unfold A. now rewrite E0.
Qed.
End Fix.

(** IMPLICIT at a solution: the velocity [u] of the output differs from the velocity [v] of the solutions by what the Gauss-Newton
    matrix leaves out: AtA (u - v) = (sum of error components times their second derivatives) v. *)
Theorem C67_implicit_velocity : forall S (p : Problem S) solve, sound solve ->
  forall x th r' B K N, smooth p x th r' B K -> left_inverse (dofs p) N (AtA p x (th 0)) ->
  forall d v, solution_curve p x th d v ->
  near0 (fun t => solve (dofs p) (AtA p x (th 0)) (Atb p x (th t)) <> None) ->
  forall strict step_size fallback, exists u,
    output_velocity p x (fun t => implicit_step p solve false strict step_size fallback x (th 0) (th t)) u
    /\ forall c, (c < dofs p)%nat ->
       mv (dofs p) (AtA p x (th 0)) (fun k => u k - v k) c = mv (dofs p) (second_order p x (th 0) K) v c.
Proof.
  intros S p solve Hs x th r' B K N H HN d v Hv Hok strict st fb.
  destruct (implicit_rate p solve Hs x th r' B K N st strict fb H HN (solution_stationary p x th r' B K d v H Hv) Hok) as (u & Hu & Eu).
  exists u. split; [exact Hu|]. intros c Hc. rewrite mv_minus, (Eu c Hc). pose proof (solution_rate p x th r' B K d v H Hv c Hc). lra.
Qed.
(** It is the exact derivative of the solution when the error vanishes at the solution or the error is affine in the variables. *)
Theorem C67_implicit_exact_partial : forall S (p : Problem S) solve, sound solve ->
  forall x th r' B K N, smooth p x th r' B K -> left_inverse (dofs p) N (AtA p x (th 0)) ->
  forall d v, solution_curve p x th d v ->
  near0 (fun t => solve (dofs p) (AtA p x (th 0)) (Atb p x (th t)) <> None) ->
  (forall i, (i < dims p)%nat -> err p x (th 0) i = 0) \/ (forall i j k, K i j k = 0) ->
  forall strict step_size fallback,
    output_velocity p x (fun t => implicit_step p solve false strict step_size fallback x (th 0) (th t)) v.
Proof.
  intros S p solve Hs x th r' B K N H HN d v Hv Hok H0 strict st fb.
  destruct (C67_implicit_velocity S p solve Hs x th r' B K N H HN d v Hv Hok strict st fb) as (u & (D & [D0 HD] & HO) & Eu).
  assert (E : forall c, (c < dofs p)%nat -> u c - v c = 0).
  { apply (linv_inj (dofs p) N (AtA p x (th 0)) (fun c => u c - v c)); [exact HN|]. intros c Hc. rewrite (Eu c Hc).
    unfold mv, second_order. apply rsum_0. intros k Hk. rewrite rsum_0; [ring|]. intros i Hi.
    destruct H0 as [H0|H0]; rewrite H0; try assumption; ring. }
  exists D. split; [split; [exact D0|]|exact HO]. intros c Hc. replace (v c) with (u c) by (specialize (E c Hc); lra). now apply HD.
Qed.

(** TRUNCATED (and UNROLL) started at a solution: each differentiable iteration maps the error e of the derivative to e', where
    M e' = M e - step_size (AtA + second order) e and M is the (damped) matrix of the step. *)
Theorem C67_truncated_velocity : forall S (p : Problem S) solve, sound solve ->
  (forall x a b, retract p (retract p x a) b = retract p x (fun c => a c + b c)) ->
  forall x th r' B K damping step_size N, smooth p x th r' B K ->
  left_inverse (dofs p) N (damped_matrix damping (AtA p x (th 0))) ->
  forall d v, solution_curve p x th d v ->
  forall k, near0 (fun t => truncated p solve k damping step_size x (th t) <> None) ->
  exists w : nat -> vec, (forall c, w 0%nat c = 0)
    /\ (forall j, (j <= k)%nat -> output_velocity p x (fun t => truncated p solve j damping step_size x (th t)) (w j))
    /\ forall j c, (j < k)%nat -> (c < dofs p)%nat ->
       let M := damped_matrix damping (AtA p x (th 0)) in
       let e := fun i => w j i - v i in
       mv (dofs p) M (fun i => w (Datatypes.S j) i - v i) c
       = mv (dofs p) M e c - step_size * (mv (dofs p) (AtA p x (th 0)) e c + mv (dofs p) (second_order p x (th 0) K) e c).
Proof.
  intros S p solve Hs Hadd x th r' B K damping st N H HN d v Hv k.
  pose proof (solution_stationary p x th r' B K d v H Hv) as Hst.
  induction k as [|k IH]; intros Hok.
  - exists (fun _ _ => 0). split; [reflexivity|]. split; [|intros j c Hj; lia].
    intros j Hj. replace j with 0%nat by lia. exists (fun _ _ => 0). split; [apply starts_0|].
    exists 1. split; [lra|]. intros t _. cbn. f_equal. symmetry. apply (sm_stay _ _ _ _ _ _ H). reflexivity.
  - destruct IH as (w & W0 & WO & WE).
    { revert Hok. apply near_impl. intros t Ht E. apply Ht. cbn. now rewrite E. }
    destruct (WO k (Nat.le_refl k)) as (D & HD & HO).
    destruct (unroll_rate p solve Hs x th r' B K N damping st D (w k) H HN Hst HD) as (e & u & He & Hu & Eu).
    { generalize (near_and _ _ Hok HO). apply near_impl. intros t [Ht Ek]. cbn in Ht. rewrite Ek in Ht. exact Ht. }
    exists (fun j => if Nat.eqb j (Datatypes.S k) then fun c => w k c + u c * st else w j).
    split; [|split].
    + intros c. cbn. apply W0.
    + intros j Hj. destruct (Nat.eqb_spec j (Datatypes.S k)) as [->|Hn]; [|apply WO; lia].
      exists (fun t c => D t c + e t c * st). split; [split|].
      * intros c Hc. rewrite (proj1 HD c Hc), (proj1 He c Hc). ring.
      * intros c Hc. apply (der_plus (fun t => D t c) (fun t => e t c * st)); [now apply HD|].
        eapply der_eq; [apply (der_mult (fun t => e t c) (fun _ => st)); [now apply He|apply der_const]|]. ring.
      * generalize (near_and _ _ HO Hu). apply near_impl. intros t [E1 E2]. cbn. now rewrite E1, E2, Hadd.
    + intros j c Hj Hc. cbv zeta.
      destruct (Nat.eqb_spec j (Datatypes.S k)) as [->|_]; [lia|].
      destruct (Nat.eqb_spec (Datatypes.S j) (Datatypes.S k)) as [Ej|Hn]; [|apply (WE j c); lia].
      assert (j = k) by lia. subst j. set (M := damped_matrix damping (AtA p x (th 0))) in *.
      rewrite !mv_minus. rewrite (mv_plus (dofs p) M (w k) (fun c => u c * st)).
      replace (mv (dofs p) M (fun c0 => u c0 * st) c) with (st * mv (dofs p) M u c)
        by (unfold mv; rewrite <- rsum_scal; apply rsum_ext; intros; ring).
      rewrite (Eu c Hc). pose proof (solution_rate p x th r' B K d v H Hv c Hc) as E. nra.
Qed.
(** Without damping, and when the error vanishes at the solution or is affine, k iterations return 1 - (1 - step_size)^k times the
    derivative of the solution: all of it only if step_size = 1. *)
Theorem C67_truncated_exact_partial : forall S (p : Problem S) solve, sound solve ->
  (forall x a b, retract p (retract p x a) b = retract p x (fun c => a c + b c)) ->
  forall x th r' B K step_size N, smooth p x th r' B K -> left_inverse (dofs p) N (AtA p x (th 0)) ->
  forall d v, solution_curve p x th d v ->
  (forall i, (i < dims p)%nat -> err p x (th 0) i = 0) \/ (forall i j k, K i j k = 0) ->
  forall k, near0 (fun t => truncated p solve k None step_size x (th t) <> None) ->
  output_velocity p x (fun t => truncated p solve k None step_size x (th t)) (fun c => (1 - (1 - step_size) ^ k) * v c).
Proof.
  intros S p solve Hs Hadd x th r' B K st N H HN d v Hv H0 k Hok.
  destruct (C67_truncated_velocity S p solve Hs Hadd x th r' B K None st N H HN d v Hv k Hok) as (w & W0 & WO & WE).
  cbn [damped_matrix] in WE.
  assert (E : forall j, (j <= k)%nat -> forall c, (c < dofs p)%nat -> w j c - v c = - (1 - st) ^ j * v c).
  { induction j as [|j IH]; intros Hj c Hc; [rewrite W0; cbn; ring|].
    assert (Z : w (Datatypes.S j) c - v c - (1 - st) * (w j c - v c) = 0).
    { apply (linv_inj (dofs p) N (AtA p x (th 0)) (fun c => w (Datatypes.S j) c - v c - (1 - st) * (w j c - v c))); [exact HN| |exact Hc].
      intros c' Hc'. rewrite mv_minus. specialize (WE j c' ltac:(lia) Hc'). cbv zeta in WE.
      replace (mv (dofs p) (AtA p x (th 0)) (fun i => (1 - st) * (w j i - v i)) c') with ((1 - st) * mv (dofs p) (AtA p x (th 0)) (fun i => w j i - v i) c')
        by (symmetry; apply (mv_scal (dofs p) (AtA p x (th 0)) (1 - st) (fun i => w j i - v i))).
      assert (Z2 : mv (dofs p) (second_order p x (th 0) K) (fun i => w j i - v i) c' = 0).
      { unfold mv, second_order. apply rsum_0. intros a Ha. rewrite rsum_0; [ring|]. intros i Hi.
        destruct H0 as [H0|H0]; rewrite H0; try assumption; ring. }
      rewrite Z2 in WE. change (damped_matrix None (AtA p x (th 0))) with (AtA p x (th 0)) in WE. rewrite WE. ring. }
    rewrite (IH ltac:(lia) c Hc) in Z. cbn [pow]. lra. }
  destruct (WO k (Nat.le_refl k)) as (D & [D0 HD] & HO). exists D. split; [split; [exact D0|]|exact HO].
  intros c Hc. eapply der_eq; [now apply HD|]. specialize (E k (Nat.le_refl k) c Hc). lra.
Qed.
