(** C67, continued: concrete problems; where the backward modes are not exact. *)
From Coq Require Import Reals List Arith Lra Lia Bool FunctionalExtensionality.
From Verif Require Import RSum Adj_props Adj_diff Bwd_model Bwd_spec Bwd_props Bwd_dlm.
Local Open Scope R_scope.

(** exact solver for one unknown *)
Definition solve1 (n : nat) (A : mat) (b : vec) : option vec :=
  if Nat.eqb n 1 then if Req_EM_T (A 0%nat 0%nat) 0 then None else Some (fun _ => b 0%nat / A 0%nat 0%nat) else None.
Lemma solve1_sound : sound solve1.
Proof.
  intros n A b x H. unfold solve1 in H. destruct (Nat.eqb_spec n 1) as [->|]; [|discriminate].
  destruct (Req_EM_T (A 0%nat 0%nat) 0); [discriminate|]. assert (E : x = fun _ => b 0%nat / A 0%nat 0%nat) by congruence. subst x.
  intros c Hc. replace c with 0%nat by lia. unfold mv. cbn [rsum]. field. assumption.
Qed.
(** one Vector with one component: x + d *)
Definition add1 (x d : vec) : vec := fun c => if Nat.eqb c 0 then x c + d c else x c.
Lemma add1_stay x d : (forall c, (c < 1)%nat -> d c = 0) -> add1 x d = x.
Proof. intros H. apply functional_extensionality. intros c. unfold add1. destruct (Nat.eqb_spec c 0) as [->|]; [rewrite H by lia; ring|reflexivity]. Qed.
Lemma add1_add x a b : add1 (add1 x a) b = add1 x (fun c => a c + b c).
Proof. apply functional_extensionality. intros c. unfold add1. destruct (Nat.eqb c 0); [ring|reflexivity]. Qed.
Lemma starts1 d v : starts 1 d v -> d 0 0%nat = 0 /\ derivable_pt_lim (fun t => d t 0%nat) 0 (v 0%nat).
Proof. intros [H0 H]. split; [apply H0; lia|apply H; lia]. Qed.
Lemma starts_id : starts 1 (fun t _ => t) (fun _ => 1).
Proof. split; [reflexivity|]. intros c Hc. apply derivable_pt_lim_id. Qed.
Ltac dgo1 := repeat first
  [ eassumption | apply derivable_pt_lim_id | apply der_const
  | match goal with |- derivable_pt_lim (fun t => @?f t + @?g t) _ _ => apply (der_plus f g) end
  | match goal with |- derivable_pt_lim (fun t => @?f t - @?g t) _ _ => apply (der_minus f g) end
  | match goal with |- derivable_pt_lim (fun t => @?f t * @?g t) _ _ => apply (der_mult f g) end ].

(** the error (x - th, x^2), of which x = 1 is the minimizer for th = 3 *)
Definition p2 : Problem vec := mkProblem vec 1 2
  (fun x th i => if Nat.eqb i 0 then x 0%nat - th 0%nat else x 0%nat * x 0%nat)
  (fun x th i j => if Nat.eqb i 0 then 1 else 2 * x 0%nat) add1.
Definition th2 (t : R) : vec := fun _ => 1 + t + 2 * ((1 + t) * (1 + t) * (1 + t)).
Lemma p2_smooth : smooth p2 (fun _ => 1) th2 (fun i => if Nat.eqb i 0 then -7 else 0) (fun _ _ => 0) (fun i _ _ => if Nat.eqb i 0 then 0 else 2).
Proof.
  split; cbn [p2 dofs dims err jac retract].
  - apply add1_stay.
  - intros d v Hd i Hi. apply starts1 in Hd. destruct Hd as [D0 D]. unfold add1. cbn [Nat.eqb rsum].
    destruct (Nat.eqb i 0); (eapply der_eq; [dgo1|]); cbv beta; rewrite ?D0; ring.
  - intros d v Hd i Hi. apply starts1 in Hd. destruct Hd as [D0 D]. unfold add1, th2. cbn [Nat.eqb rsum].
    destruct (Nat.eqb i 0); (eapply der_eq; [dgo1|]); cbv beta; rewrite ?D0; ring.
  - intros d v Hd i j Hi Hj. apply starts1 in Hd. destruct Hd as [D0 D]. unfold add1. cbn [Nat.eqb rsum].
    destruct (Nat.eqb i 0); (eapply der_eq; [dgo1|]); cbv beta; rewrite ?D0; ring.
Qed.
Lemma p2_solution : solution_curve p2 (fun _ => 1) th2 (fun t _ => t) (fun _ => 1).
Proof.
  split; [exact starts_id|]. exists 1. split; [lra|]. intros t _ c Hc. cbn [p2 dofs dims err jac retract rsum]. unfold add1, th2. cbn [Nat.eqb]. ring.
Qed.
Lemma p2_AtA : AtA p2 (fun _ => 1) (th2 0) 0 0 = 5.
Proof. unfold AtA. cbn. ring. Qed.
Lemma p2_inverse : left_inverse 1 (fun _ _ => / 5) (AtA p2 (fun _ => 1) (th2 0)).
Proof. intros c c' Hc Hc'. replace c with 0%nat by lia. replace c' with 0%nat by lia. cbn [rsum Nat.eqb]. rewrite p2_AtA. lra. Qed.
Lemma p2_solved : near0 (fun t => solve1 (dofs p2) (AtA p2 (fun _ => 1) (th2 0)) (Atb p2 (fun _ => 1) (th2 t)) <> None).
Proof. exists 1. split; [lra|]. intros t _. unfold solve1. cbn [p2 dofs Nat.eqb]. rewrite p2_AtA. destruct (Req_EM_T 5 0); [lra|discriminate]. Qed.

(** With an error that does not vanish at the solution IMPLICIT is wrong: the solution moves with velocity 1, the output with 7/5. *)
Theorem C67_implicit_refuted : exists (p : Problem vec) solve x th r' B K N d v u,
  sound solve /\ smooth p x th r' B K /\ left_inverse (dofs p) N (AtA p x (th 0)) /\ solution_curve p x th d v
  /\ dofs p = 1%nat /\ v 0%nat = 1 /\ u 0%nat = 7 / 5
  /\ forall strict step_size fallback,
     output_velocity p x (fun t => implicit_step p solve false strict step_size fallback x (th 0) (th t)) u.
Proof.
  destruct (C67_implicit_velocity vec p2 solve1 solve1_sound _ _ _ _ _ _ p2_smooth p2_inverse _ _ p2_solution p2_solved true 1 (fun _ _ => None)) as (u & Hu & Eu).
  exists p2, solve1, (fun _ => 1), th2. do 3 eexists. exists (fun _ _ => / 5), (fun t _ => t), (fun _ => 1), u.
  split; [exact solve1_sound|]. split; [exact p2_smooth|]. split; [exact p2_inverse|]. split; [exact p2_solution|].
  split; [reflexivity|]. split; [reflexivity|]. split.
  - specialize (Eu 0%nat ltac:(cbn; lia)). cbn [p2 dofs] in Eu. unfold mv in Eu. cbn [rsum] in Eu. fold p2 in Eu. rewrite p2_AtA in Eu.
    unfold second_order in Eu. cbn [p2 dims err rsum Nat.eqb] in Eu. unfold th2 in Eu. lra.
  - intros strict st fb. destruct Hu as (D & HD & HO). exists D. split; [exact HD|].
    generalize (near_and _ _ HO p2_solved). apply near_impl. intros t [E S]. unfold implicit_step in *.
    destruct (solve1 (dofs p2) (AtA p2 (fun _ : nat => 1) (th2 0)) (Atb p2 (fun _ : nat => 1) (th2 t))) as [y|]; [exact E|congruence].
Qed.

(** the error x^2 - th, which vanishes at x = 1, th = 1 *)
Definition p1 : Problem vec := mkProblem vec 1 1
  (fun x th i => x 0%nat * x 0%nat - th 0%nat) (fun x th i j => 2 * x 0%nat) add1.
Definition th1 (t : R) : vec := fun _ => (1 + t) * (1 + t).
Lemma p1_smooth : smooth p1 (fun _ => 1) th1 (fun _ => -2) (fun _ _ => 0) (fun _ _ _ => 2).
Proof.
  split; cbn [p1 dofs dims err jac retract].
  - apply add1_stay.
  - intros d v Hd i Hi. apply starts1 in Hd. destruct Hd as [D0 D]. unfold add1. cbn [Nat.eqb rsum].
    eapply der_eq; [dgo1|]. cbv beta. rewrite ?D0; ring.
  - intros d v Hd i Hi. apply starts1 in Hd. destruct Hd as [D0 D]. unfold add1, th1. cbn [Nat.eqb rsum].
    eapply der_eq; [dgo1|]. cbv beta. rewrite ?D0; ring.
  - intros d v Hd i j Hi Hj. apply starts1 in Hd. destruct Hd as [D0 D]. unfold add1. cbn [Nat.eqb rsum].
    eapply der_eq; [dgo1|]. cbv beta. rewrite ?D0; ring.
Qed.
Lemma p1_solution : solution_curve p1 (fun _ => 1) th1 (fun t _ => t) (fun _ => 1).
Proof.
  split; [exact starts_id|]. exists 1. split; [lra|]. intros t _ c Hc. cbn [p1 dofs dims err jac retract rsum]. unfold add1, th1. cbn [Nat.eqb]. ring.
Qed.
Lemma p1_AtA th : AtA p1 (fun _ => 1) th 0 0 = 4.
Proof. unfold AtA. cbn. ring. Qed.
Lemma p1_inverse : left_inverse 1 (fun _ _ => / 4) (AtA p1 (fun _ => 1) (th1 0)).
Proof. intros c c' Hc Hc'. replace c with 0%nat by lia. replace c' with 0%nat by lia. cbn [rsum Nat.eqb]. rewrite p1_AtA. lra. Qed.
Lemma p1_solved : near0 (fun t => solve1 (dofs p1) (AtA p1 (fun _ => 1) (th1 0)) (Atb p1 (fun _ => 1) (th1 t)) <> None).
Proof. exists 1. split; [lra|]. intros t _. unfold solve1. cbn [p1 dofs Nat.eqb]. rewrite p1_AtA. destruct (Req_EM_T 4 0); [lra|discriminate]. Qed.
Lemma p1_zero : forall i, (i < 1)%nat -> err p1 (fun _ => 1) (th1 0) i = 0.
Proof. intros i _. cbn. unfold th1. ring. Qed.
(** the hypotheses of C67_implicit_exact_partial are met *)
Lemma C67_implicit_example : output_velocity p1 (fun _ => 1) (fun t => implicit_step p1 solve1 false true 1 (fun _ _ => None) (fun _ => 1) (th1 0) (th1 t)) (fun _ => 1).
Proof.
  exact (C67_implicit_exact_partial vec p1 solve1 solve1_sound _ _ _ _ _ _ p1_smooth p1_inverse _ _ p1_solution p1_solved (or_introl p1_zero) true 1 (fun _ _ => None)).
Qed.
(** With step_size = 1/2, one differentiable iteration of TRUNCATED returns half of the derivative, although the error vanishes at the
    solution. *)
Theorem C67_truncated_step_size_refuted : exists (p : Problem vec) solve x th r' B K N d v,
  sound solve /\ smooth p x th r' B K /\ left_inverse (dofs p) N (AtA p x (th 0)) /\ solution_curve p x th d v
  /\ (forall i, (i < dims p)%nat -> err p x (th 0) i = 0) /\ dofs p = 1%nat /\ v 0%nat = 1
  /\ output_velocity p x (fun t => truncated p solve 1 None (/ 2) x (th t)) (fun _ => / 2).
Proof.
  exists p1, solve1, (fun _ => 1), th1. do 3 eexists. exists (fun _ _ => / 4), (fun t _ => t), (fun _ => 1).
  split; [exact solve1_sound|]. split; [exact p1_smooth|]. split; [exact p1_inverse|]. split; [exact p1_solution|]. split; [exact p1_zero|].
  split; [reflexivity|]. split; [reflexivity|].
  destruct (C67_truncated_exact_partial vec p1 solve1 solve1_sound add1_add _ _ _ _ _ (/ 2) _ p1_smooth p1_inverse _ _ p1_solution (or_introl p1_zero) 1) as (D & [D0 HD] & HO).
  - exists 1. split; [lra|]. intros t _. cbn [truncated]. unfold unroll_step, solve1. cbn [p1 dofs Nat.eqb damped_matrix].
    fold p1. change (damped_matrix None (AtA p1 (fun _ => 1) (th1 t)) 0%nat 0%nat) with (AtA p1 (fun _ => 1) (th1 t) 0%nat 0%nat). rewrite p1_AtA. destruct (Req_EM_T 4 0); [lra|discriminate].
  - exists D. split; [split; [exact D0|]|exact HO]. intros c Hc. eapply der_eq; [now apply HD|]. cbn. lra.
Qed.
(** the hypotheses of C67_dlm_limit are met *)
Lemma C67_dlm_example : exists l,
  (exists y, near0 (fun t => implicit_step p1 solve1 false true 1 (fun _ _ => None) (fun _ => 1) (th1 0) (th1 t) = Some (y t))
       /\ derivable_pt_lim (fun t => dot 1 (fun _ => 1) (y t)) 0 l)
  /\ (forall e, 0 < e -> exists de, 0 < de /\ forall eps, eps <> 0 -> Rabs eps < de ->
      exists grads, dlm_grad p1 solve1 1 (fun x => x) (fun _ _ _ => 1) (fun x th a => - (x 0%nat * x 0%nat - th 0%nat))
          (fun _ _ x th a => - (x 0%nat * x 0%nat - th 0%nat)) eps (fun _ => 1) (fun _ => 1) (th1 0) = Some grads
        /\ Rabs (dot 1 grads (fun _ => 2) - l) < e).
Proof.
  assert (HG : forall y, is_gradient 1 (error_metric p1 y) (th1 0) (fun _ => - (y 0%nat * y 0%nat - th1 0 0%nat))).
  { intros y curve dir H0 HC. unfold error_metric. cbn [p1 dims err rsum]. unfold dot. cbn [rsum]. pose proof (HC 0%nat ltac:(lia)) as D. unfold Rdiv.
    eapply der_eq; [dgo1|]. cbv beta. rewrite (H0 0%nat) by lia. field. }
  refine (C67_dlm_limit vec p1 solve1 solve1_sound 1 1 (fun x => x) (fun _ _ _ => 1) (fun _ => 1) th1 (fun _ => 2) _ _ _ _ p1_smooth _ _ _ p1_inverse _
    (fun x th a => - (x 0%nat * x 0%nat - th 0%nat)) (fun _ _ x th a => - (x 0%nat * x 0%nat - th 0%nat)) (fun _ => 1) HG _ p1_solved _ true 1 (fun _ _ => None)).
  - exists (fun _ _ => -2). split.
    + intros y i _. cbn [p1 err]. unfold th1. eapply der_eq; [dgo1|]. cbv beta. ring.
    + intros d v Hd i Hi. cbn [p1 dofs rsum]. eapply der_eq; [apply der_const|]. ring.
  - intros d v Hd e He. replace e with 0%nat by lia. apply starts1 in Hd. destruct Hd as [D0 D]. cbn [p1 retract dofs rsum]. unfold add1. cbn [Nat.eqb].
    eapply der_eq; [dgo1|]. ring.
  - intros a _. unfold th1. eapply der_eq; [dgo1|]. cbv beta. ring.
  - exact (solution_stationary p1 _ _ _ _ _ _ _ p1_smooth p1_solution).
  - intros eps y curve dir H0 HC. specialize (HG y curve dir H0 HC).
    refine (der_ext_loc (fun t => error_metric p1 y (curve t) + rsum 1 (fun e => dlm_error (fun x => x) eps (fun _ => 1) y e * dlm_error (fun x => x) eps (fun _ => 1) y e) / 2) _ _ _ _).
    + exists 1. split; [lra|]. intros t _. now rewrite bwd_metric.
    + eapply der_eq; [apply (der_plus (fun t => error_metric p1 y (curve t)) (fun _ => _)); [exact HG|apply der_const]|ring].
  - exists 1. split; [lra|]. intros eps _. unfold dlm_perturbed, solve1. cbn [bwd_objective p1 dofs Nat.eqb]. fold p1.
    destruct (Req_EM_T _ 0) as [E|]; [|discriminate]. rewrite bwd_AtA, p1_AtA in E. cbn [rsum] in E. exfalso. nra.
Qed.

(** DLM takes the same inputs as the other modes, except that it needs at least one. *)
Theorem C67_dlm_inputs_partial : forall K V (l : list (K * V)), l <> nil -> layer_inputs true (Some l) = layer_inputs false (Some l).
Proof. intros K V [|a l] H; [congruence|reflexivity]. Qed.
Theorem C67_dlm_inputs_refuted : forall K V,
  layer_inputs false (@None (list (K * V))) = UpdateWith nil /\ layer_inputs true (@None (list (K * V))) = Raises
  /\ layer_inputs false (Some (@nil (K * V))) = UpdateWith nil /\ layer_inputs true (Some (@nil (K * V))) = Raises.
Proof. repeat split. Qed.

(** A solver that fails in the final implicit step: with the strict option nothing is returned, otherwise the optimizer's own step is taken
    from the same point, with the same step size as the implicit one. *)
Theorem C67_implicit_solver_fails : forall S (p : Problem S) solve keep step_size fallback x th0 th,
  solve (dofs p) (AtA p x th0) (Atb p x th) = None ->
  implicit_step p solve keep true step_size fallback x th0 th = None
  /\ (fallback x th = None -> implicit_step p solve keep false step_size fallback x th0 th = None)
  /\ forall d, fallback x th = Some d -> implicit_step p solve keep false step_size fallback x th0 th = Some (retract p x (fun c => d c * (if keep then step_size else 1))).
Proof.
  intros S p solve keep st fb x th0 th H. unfold implicit_step. rewrite H.
  split; [reflexivity|]. split; [intros ->; reflexivity|]. intros d ->. reflexivity.
Qed.
(** a singular matrix: the solver of the examples fails, and the fallback [d = 3] moves the state by 3 *)
Definition p0 : Problem vec := mkProblem vec 1 1 (fun x th i => 1) (fun x th i c => 0) (fun x d i => x i + d i).
Lemma C67_implicit_solver_fails_example : solve1 (dofs p0) (AtA p0 (fun _ => 1) (fun _ => 0)) (Atb p0 (fun _ => 1) (fun _ => 0)) = None /\ implicit_step p0 solve1 false true 2 (fun _ _ => Some (fun _ => 3)) (fun _ => 1) (fun _ => 0) (fun _ => 0) = None /\
  exists y, implicit_step p0 solve1 false false 2 (fun _ _ => Some (fun _ => 3)) (fun _ => 1) (fun _ => 0) (fun _ => 0) = Some y /\ (y 0%nat = 4)%R.
Proof.
  assert (H : solve1 (dofs p0) (AtA p0 (fun _ => 1) (fun _ => 0)) (Atb p0 (fun _ => 1) (fun _ => 0)) = None).
  { unfold solve1. cbn [p0 dofs Nat.eqb]. destruct (Req_EM_T _ 0) as [|N]; [reflexivity|]. exfalso; apply N. unfold AtA. cbn. ring. }
  destruct (C67_implicit_solver_fails vec p0 solve1 false 2 (fun _ _ => Some (fun _ => 3)) (fun _ => 1) (fun _ => 0) (fun _ => 0) H) as (A & _ & B).
  split; [exact H|]. split; [exact A|]. eexists. split; [apply B; reflexivity|]. cbn. lra.
Qed.
