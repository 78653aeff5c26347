(** C74: a full step need not descend, and the hypotheses of C74 are met. *)
From Coq Require Import Reals List Arith Bool Lra Lia.
From Verif Require Import RSum Adj_props Adj_diff Bwd_model Bwd_spec Dog_model Dog_props Desc_model Desc.
Import ListNotations.
Local Open Scope R_scope.

(** one unknown, the error x^3 - 2 x + 2 *)
Definition cubic : Problem R := mkProblem R 1 1 (fun x _ _ => x * x * x - 2 * x + 2) (fun x _ _ _ => 3 * x * x - 2) (fun x v => x + v 0%nat).
(** a solver for one unknown *)
Definition solve1 (n : nat) (A : mat) (b : vec) : option vec := match n with
  | 1%nat => if Req_EM_T (A 0%nat 0%nat) 0 then None else Some (fun _ => b 0%nat / A 0%nat 0%nat)
  | _ => None
  end.
Lemma solve1_sound : sound solve1.
Proof.
  intros [|[|n]] A b x; cbn [solve1]; try discriminate. destruct (Req_EM_T (A 0%nat 0%nat) 0) as [|H]; [discriminate|]. intros E. injection E as <-.
  intros c Hc. replace c with 0%nat by lia. unfold mv. cbn [rsum]. field. exact H.
Qed.
Lemma cubic_step solve x th y : sound solve -> 3 * x * x - 2 <> 0 -> unroll_step cubic solve None 1 x th = Some y ->
  y = x - (x * x * x - 2 * x + 2) / (3 * x * x - 2).
Proof.
  intros So Hne. unfold unroll_step. destruct (solve (dofs cubic) (damped_matrix None (AtA cubic x th)) (Atb cubic x th)) as [d|] eqn:E; [|discriminate].
  pose proof (So _ _ _ _ E 0%nat ltac:(cbn; lia)) as Sv. unfold mv, Atb, AtA in Sv. cbn [damped_matrix rsum dofs dims jac err cubic] in Sv. intros H. injection H as <-.
  cbn [retract cubic]. set (j := 3 * x * x - 2) in *. apply (Rmult_eq_reg_r (j * j)); [|apply Rmult_integral_contrapositive; split; exact Hne].
  transitivity (x * (j * j) - (x * x * x - 2 * x + 2) * j); [|field; exact Hne]. unfold AtA in Sv. cbn [rsum dims jac cubic] in Sv. fold j in Sv. nra.
Qed.
(** Gauss-Newton with the default step size 1 on this error: from 1 the objective rises from 1/2 to 2, and the iterates alternate between 0 and 1
    for ever. *)
Theorem C74_full_step_refuted : forall solve th, sound solve ->
  (forall y, unroll_step cubic solve None 1 1 th = Some y -> y = 0 /\ error_metric cubic 1 th < error_metric cubic y th) /\
  (forall k y, truncated cubic solve k None 1 1 th = Some y -> y = if Nat.even k then 1 else 0).
Proof.
  intros solve th So. split.
  - intros y H. apply cubic_step in H; [|exact So|lra]. assert (Ey : y = 0) by (rewrite H; field). subst y. split; [exact Ey|].
    rewrite Ey. unfold error_metric. cbn [rsum dims err cubic]. lra.
  - induction k as [|k IH]; intros y; cbn [truncated]; [intros H; injection H as <-; reflexivity|].
    destruct (truncated cubic solve k None 1 1 th) as [z|]; [|discriminate]. specialize (IH z eq_refl). rewrite Nat.even_succ, <- Nat.negb_even.
    destruct (Nat.even k); subst z; cbn [negb]; intros H; (apply cubic_step in H; [|exact So|lra]); rewrite H; field.
Qed.
Lemma cubic_runs k th : exists y, truncated cubic solve1 k None 1 1 th = Some y.
Proof.
  induction k as [|k (z & E)]; [eexists; reflexivity|]. cbn [truncated]. rewrite E. apply (proj2 (C74_full_step_refuted solve1 th solve1_sound)) in E.
  unfold unroll_step. cbn [dofs cubic solve1 damped_matrix]. destruct (Req_EM_T (AtA cubic z th 0 0) 0) as [H|H]; [|eexists; reflexivity].
  exfalso. unfold AtA in H. cbn [rsum dims jac cubic] in H. destruct (Nat.even k); subst z; lra.
Qed.
(** the hypotheses of C74_step_descends, C74_dogleg_descends at 1 *)
Lemma cubic_differentiable x th : differentiable_at cubic x th.
Proof.
  split; [intros v H; cbn [retract cubic]; rewrite H by (cbn; lia); ring|]. intros v i _. cbn [err retract jac cubic dofs rsum].
  set (w := v 0%nat).
  assert (Dx : derivable_pt_lim (fun t => x + w * t) 0 w).
  { eapply der_eq; [apply der_plus; [apply der_const|apply der_mult; [apply der_const|apply derivable_pt_lim_id]]|unfold id; ring]. }
  eapply der_eq.
  - apply der_plus; [apply der_minus; [apply der_mult; [apply der_mult; exact Dx|exact Dx]|apply der_mult; [apply der_const|exact Dx]]|apply der_const].
  - cbv beta. ring.
Qed.
Lemma C74_descends_example : let th : vec := fun _ => 0 in
  sound solve1 /\ damping_ok (Some (1, true, / 100)) /\ differentiable_at cubic 1 th /\ ~ stationary cubic 1 th /\
  (exists d, solve1 1 (damped_matrix (Some (1, true, / 100)) (AtA cubic 1 th)) (Atb cubic 1 th) = Some d).
Proof.
  intros th. split; [exact solve1_sound|]. split; [split; lra|]. split; [apply cubic_differentiable|]. split.
  - intros St. specialize (St 0%nat ltac:(cbn; lia)). cbn [rsum dims err jac cubic] in St. lra.
  - cbn [solve1 damped_matrix Nat.eqb]. destruct (Req_EM_T _ 0) as [H|H]; [|eexists; reflexivity]. exfalso. unfold AtA in H. cbn [rsum dims jac cubic] in H. lra.
Qed.
(** two measurements of one number: one Gauss-Newton step from 5 reaches the mean 2 *)
Lemma C74_linear_example : let p := linear_problem 1 2 (fun _ _ => 1) (fun _ i => match i with O => -1 | _ => -3 end) in
  forall th, exists y, unroll_step p solve1 None 1 (fun _ => 5) th = Some y /\ y 0%nat = 2 /\ best_along p (fun _ => 5) th y.
Proof.
  intros p th.
  assert (E : solve1 (dofs p) (AtA p (fun _ => 5) th) (Atb p (fun _ => 5) th) = Some (fun _ => Atb p (fun _ => 5) th 0%nat / AtA p (fun _ => 5) th 0%nat 0%nat)).
  { change (dofs p) with 1%nat; cbn [solve1]. destruct (Req_EM_T _ 0) as [H|H]; [|reflexivity]. exfalso. assert (H2 : AtA p (fun _ => 5) th 0%nat 0%nat = 2) by (unfold AtA; cbn; ring). rewrite H2 in H. lra. }
  destruct (C74_affine_one_step vec p solve1 (fun _ => 5) th _ solve1_sound (linear_affine _ _ _ _ _ _) E) as (y & Ey & By & _). exists y. split; [exact Ey|]. split; [|exact By].
  unfold unroll_step in Ey. change (damped_matrix None (AtA p (fun _ => 5) th)) with (AtA p (fun _ => 5) th) in Ey. rewrite E in Ey.
  assert (H2 : AtA p (fun _ => 5) th 0%nat 0%nat = 2) by (unfold AtA; cbn; ring). assert (H6 : Atb p (fun _ => 5) th 0%nat = -6) by (unfold Atb; cbn; ring).
  rewrite H2, H6 in Ey. apply (f_equal (fun o => match o with Some v => v 0%nat | None => 0 end)) in Ey. cbn in Ey. lra.
Qed.
