(** C67, continued: DLM. *)
From Coq Require Import Reals List Arith Lra Lia Bool.
From Verif Require Import RSum Adj_props Adj_diff Bwd_model Bwd_spec Bwd_props.
Local Open Scope R_scope.

Lemma gram_dot m n (A : mat) u w : rsum n (fun c => w c * rsum n (fun c' => rsum m (fun i => A i c * A i c') * u c'))
  = rsum n (fun c => u c * rsum n (fun c' => rsum m (fun i => A i c * A i c') * w c')).
Proof.
  rewrite (rsum_ext n _ (fun c => rsum n (fun c' => w c * (rsum m (fun i => A i c * A i c') * u c')))) by (intros; now rewrite rsum_scal).
  rewrite rsum_exch. apply rsum_ext. intros c Hc. rewrite <- rsum_scal. apply rsum_ext. intros c' Hc'.
  rewrite (rsum_ext m (fun i => A i c' * A i c) (fun i => A i c * A i c')) by (intros; ring). ring.
Qed.

Section Dlm.
Context {S : Type} (p : Problem S).
Variable q : nat.
Variable entries : S -> vec.
Variable proj : S -> mat.
Let n := dofs p.
Let m := dims p.

Lemma bwd_AtA eps g x th c c' : AtA (bwd_objective p q entries proj eps g) x th c c'
  = AtA p x th c c' + eps * eps * (2 * rsum q (fun e => proj x e c * proj x e c')).
Proof.
  unfold AtA. cbn [bwd_objective dims jac]. rewrite rsum_app. f_equal.
  - apply rsum_ext. intros i Hi. rewrite (proj2 (Nat.ltb_lt i (dims p)) Hi). reflexivity.
  - rewrite <- !rsum_scal. apply rsum_ext. intros e He. destruct (Nat.ltb_spec (dims p + e) (dims p)); [lia|].
    replace (dims p + e - dims p)%nat with e by lia. unfold dlm_jac. pose proof (sqrt_sqrt 2 ltac:(lra)) as S2.
    replace (sqrt 2 * (eps * proj x e c) * (sqrt 2 * (eps * proj x e c'))) with (sqrt 2 * sqrt 2 * (eps * eps) * (proj x e c * proj x e c')) by ring.
    rewrite S2. ring.
Qed.
Lemma bwd_Atb eps g x th c : Atb (bwd_objective p q entries proj eps g) x th c
  = Atb p x th c + eps * (rsum q (fun e => proj x e c * g e) - 2 * eps * rsum q (fun e => proj x e c * entries x e)).
Proof.
  unfold Atb. cbn [bwd_objective dims jac err]. rewrite rsum_app. f_equal.
  - apply rsum_ext. intros i Hi. rewrite (proj2 (Nat.ltb_lt i (dims p)) Hi). reflexivity.
  - rewrite <- rsum_scal, <- rsum_minus, <- rsum_scal. apply rsum_ext. intros e He. destruct (Nat.ltb_spec (dims p + e) (dims p)); [lia|].
    replace (dims p + e - dims p)%nat with e by lia. unfold dlm_jac, dlm_error. pose proof (sqrt_sqrt 2 ltac:(lra)) as S2.
    replace (sqrt 2 * (eps * proj x e c) * - (sqrt 2 * (eps * entries x e - / 2 * g e)))
      with (sqrt 2 * sqrt 2 * (eps * proj x e c) * (/ 2 * g e - eps * entries x e)) by ring.
    rewrite S2. field.
Qed.
Lemma bwd_metric eps g x th : error_metric (bwd_objective p q entries proj eps g) x th
  = error_metric p x th + rsum q (fun e => dlm_error entries eps g x e * dlm_error entries eps g x e) / 2.
Proof.
  unfold error_metric. cbn [bwd_objective dims err]. rewrite rsum_app.
  rewrite (rsum_ext (dims p) _ (fun i => err p x th i * err p x th i)).
  2: intros i Hi; destruct (Nat.ltb_spec i (dims p)); [reflexivity|lia].
  rewrite (rsum_ext q _ (fun e => dlm_error entries eps g x e * dlm_error entries eps g x e)).
  2: intros e He; destruct (Nat.ltb_spec (dims p + e) (dims p)); [lia|]; now replace (dims p + e - dims p)%nat with e by lia.
  field.
Qed.

Variable solve : nat -> mat -> vec -> option vec.
Hypothesis Hsound : sound solve.

(** the perturbed solution as a curve in epsilon *)
Lemma perturbed_rate x th g N : left_inverse n N (AtA p x th) -> stationary p x th ->
  near0 (fun eps => dlm_perturbed p solve q entries proj eps g x th <> None) ->
  exists w, output_velocity p x (fun eps => dlm_perturbed p solve q entries proj eps g x th) w
    /\ forall c, (c < n)%nat -> mv n (AtA p x th) w c = rsum q (fun e => proj x e c * g e).
Proof.
  intros HN Hst Hok.
  set (b := fun eps => bwd_objective p q entries proj eps g).
  set (d := fun eps => match solve n (AtA (b eps) x th) (Atb (b eps) x th) with Some d => d | None => fun _ => 0 end).
  destruct (rate n (fun eps => AtA (b eps) x th) (fun c c' => 0) d (fun eps => Atb (b eps) x th) (fun c => rsum q (fun e => proj x e c * g e)) N) as (w & Hw & Ew).
  - intros c c' Hc Hc'. refine (der_ext_loc (fun eps => AtA p x th c c' + eps * eps * (2 * rsum q (fun e => proj x e c * proj x e c'))) _ _ _ _).
    + exists 1. split; [lra|]. intros t _. unfold b. now rewrite bwd_AtA.
    + eapply der_eq.
      * apply (der_plus (fun _ => _) (fun eps => eps * eps * _)); [apply der_const|].
        apply (der_mult (fun eps => eps * eps) (fun _ => _)); [|apply der_const].
        apply (der_mult (fun eps => eps) (fun eps => eps)); apply derivable_pt_lim_id.
      * ring.
  - intros c Hc. refine (der_ext_loc (fun eps => Atb p x th c + eps * (rsum q (fun e => proj x e c * g e) - 2 * eps * rsum q (fun e => proj x e c * entries x e))) _ _ _ _).
    + exists 1. split; [lra|]. intros t _. unfold b. now rewrite bwd_Atb.
    + eapply der_eq.
      * apply (der_plus (fun _ => _) (fun eps => eps * (_ - 2 * eps * _))); [apply der_const|].
        apply (der_mult (fun eps => eps) (fun eps => _ - 2 * eps * _)); [apply derivable_pt_lim_id|].
        apply (der_minus (fun _ => _) (fun eps => 2 * eps * _)); [apply der_const|].
        apply (der_mult (fun eps => 2 * eps) (fun _ => _)); [|apply der_const].
        apply (der_mult (fun _ => 2) (fun eps => eps)); [apply der_const|apply derivable_pt_lim_id].
      * ring.
  - intros c c' Hc Hc'. rewrite <- (HN c c' Hc Hc'). apply rsum_ext. intros k Hk. unfold b. rewrite bwd_AtA. ring.
  - revert Hok. apply near_impl. intros eps Hok. unfold dlm_perturbed in Hok. cbv zeta in Hok. fold (b eps) in Hok.
    change (dofs (b eps)) with n in Hok. unfold d.
    destruct (solve n (AtA (b eps) x th) (Atb (b eps) x th)) as [y|] eqn:E; [exact (Hsound _ _ _ _ E)|congruence].
  - intros c Hc. unfold b. rewrite bwd_Atb. rewrite (stationary_Atb p x th Hst c Hc). ring.
  - exists w. split.
    + exists d. split; [exact Hw|]. revert Hok. apply near_impl. intros eps Hok. unfold dlm_perturbed in *. cbv zeta in *. fold (b eps) in Hok |- *.
      change (dofs (b eps)) with n in Hok |- *. unfold d.
      destruct (solve n (AtA (b eps) x th) (Atb (b eps) x th)) as [y|] eqn:E; [reflexivity|congruence].
    + intros c Hc. rewrite <- (Ew c Hc). unfold mv. apply rsum_ext. intros k Hk. unfold b. rewrite bwd_AtA. ring.
Qed.
End Dlm.

Lemma grad_unique np f th g1 g2 : is_gradient np f th g1 -> is_gradient np f th g2 -> forall dir, dot np g1 dir = dot np g2 dir.
Proof.
  intros H1 H2 dir. assert (HC : has_derivative np (fun t a => th a + t * dir a) dir).
  { intros a Ha. eapply der_eq; [apply (der_plus (fun _ => th a) (fun t => t * dir a)); [apply der_const|]|].
    - apply (der_mult (fun t => t) (fun _ => dir a)); [apply derivable_pt_lim_id|apply der_const].
    - ring. }
  assert (H0 : forall a, (a < np)%nat -> th a + 0 * dir a = th a) by (intros; ring).
  exact (lim_unique _ _ _ (H1 _ dir H0 HC) (H2 _ dir H0 HC)).
Qed.

(** DLM at a solution: as epsilon tends to 0 the gradients tend to those of IMPLICIT.  [g] is the gradient of the loss with respect to
    the entries of the solution, [th] any differentiable curve of parameters; grad_sol and grad_perturbed are the gradients that autograd
    computes for the two objectives. *)
Theorem C67_dlm_limit : forall S (p : Problem S) solve, sound solve ->
  forall np q entries proj x th th' r' B K N, smooth p x th r' B K -> mixed p x th B ->
  entries_rate p q entries (proj x) x -> has_derivative np th th' ->
  left_inverse (dofs p) N (AtA p x (th 0)) -> stationary p x (th 0) ->
  forall grad_sol grad_perturbed g,
  (forall y, is_gradient np (error_metric p y) (th 0) (grad_sol y (th 0))) ->
  (forall eps y, is_gradient np (error_metric (bwd_objective p q entries proj eps g) y) (th 0) (grad_perturbed eps g y (th 0))) ->
  near0 (fun t => solve (dofs p) (AtA p x (th 0)) (Atb p x (th t)) <> None) ->
  near0 (fun eps => dlm_perturbed p solve q entries proj eps g x (th 0) <> None) ->
  forall strict step_size fallback, exists l,
    (exists y, near0 (fun t => implicit_step p solve false strict step_size fallback x (th 0) (th t) = Some (y t))
       /\ derivable_pt_lim (fun t => dot q g (entries (y t))) 0 l)
    /\ (forall e, 0 < e -> exists de, 0 < de /\ forall eps, eps <> 0 -> Rabs eps < de ->
        exists grads, dlm_grad p solve q entries proj grad_sol grad_perturbed eps g x (th 0) = Some grads
          /\ Rabs (dot np grads th' - l) < e).
Proof.
  intros S p solve Hs np q entries proj x th th' r' B K N H HB HE Hth HN Hst gs gp g Hgs Hgp Hok Hokd strict st fb.
  set (n := dofs p) in *.
  destruct (implicit_rate p solve Hs x th r' B K N st strict fb H HN Hst Hok) as (u & (du & Hdu & Hu) & Eu). fold n in Eu.
  destruct (perturbed_rate p q entries proj solve Hs x (th 0) g N HN Hst Hokd) as (w & (dw & Hdw & Hw) & Ew). fold n in Ew.
  set (G := fun j => rsum q (fun e => proj x e j * g e)).
  exists (rsum n (fun j => G j * u j)). split.
  - exists (fun t => retract p x (du t)). split; [exact Hu|]. unfold dot. eapply der_eq.
    + apply (der_rsum q (fun e t => g e * entries (retract p x (du t)) e)). intros e He.
      apply (der_mult (fun _ => g e) (fun t => entries (retract p x (du t)) e)); [apply der_const|]. exact (HE du u Hdu e He).
    + cbv beta. unfold G. rewrite (rsum_ext n _ (fun j => rsum q (fun e => g e * (proj x e j * u j)))).
      2: intros j Hj; rewrite <- rsum_scal_r; apply rsum_ext; intros; ring.
      rewrite rsum_exch. apply rsum_ext. intros e He. fold n. rewrite rsum_scal. ring.
  - destruct HB as (rt & HR & HRD).
    (* the gradient of the metric in the direction th', as a function of the state *)
    set (F := fun y => rsum (dims p) (fun i => err p y (th 0) i * rt y i)).
    assert (HF : forall y, dot np (gs y (th 0)) th' = F y).
    { intros y. apply (lim_unique (fun t => error_metric p y (th t))).
      - apply Hgs; [reflexivity|exact Hth].
      - unfold error_metric. eapply der_eq.
        + apply (der_mult (fun t => rsum (dims p) (fun i => err p y (th t) i * err p y (th t) i)) (fun _ => / 2)); [|apply der_const].
          apply (der_rsum (dims p) (fun i t => err p y (th t) i * err p y (th t) i)). intros i Hi. apply der_mult; now apply HR.
        + cbv beta. unfold F. rewrite Rmult_0_r, Rplus_0_r, <- rsum_scal_r. apply rsum_ext. intros; field. }
    assert (HP : forall eps y, dot np (gp eps g y (th 0)) th' = F y).
    { intros eps y. rewrite <- HF. apply (grad_unique np (error_metric (bwd_objective p q entries proj eps g) y) (th 0)); [apply Hgp|].
      intros curve dir H0 HC. specialize (Hgs y curve dir H0 HC).
      refine (der_ext_loc (fun t => error_metric p y (curve t) + rsum q (fun e => dlm_error entries eps g y e * dlm_error entries eps g y e) / 2) _ _ _ _).
      - exists 1. split; [lra|]. intros t _. now rewrite bwd_metric.
      - eapply der_eq; [apply (der_plus (fun t => error_metric p y (curve t)) (fun _ => _)); [exact Hgs|apply der_const]|ring]. }
    assert (E0 : retract p x (dw 0) = x) by (apply (sm_stay _ _ _ _ _ _ H); apply Hdw).
    assert (R0 : forall i, (i < dims p)%nat -> rt x i = r' i).
    { intros i Hi. apply (lim_unique (fun t => err p x (th t) i)); [now apply HR|].
      refine (der_ext_loc (fun t => err p (retract p x (fun _ => 0)) (th t) i) _ _ _ _).
      - exists 1. split; [lra|]. intros t _. now rewrite (sm_stay _ _ _ _ _ _ H) by reflexivity.
      - eapply der_eq; [exact (sm_err _ _ _ _ _ _ H _ _ (starts_0 p) i Hi)|]. rewrite rsum_0 by (intros; ring). ring. }
    assert (DF : derivable_pt_lim (fun s => F (retract p x (dw s))) 0 (- rsum n (fun j => G j * u j))).
    { unfold F. eapply der_eq.
      - apply (der_rsum (dims p) (fun i s => err p (retract p x (dw s)) (th 0) i * rt (retract p x (dw s)) i)). intros i Hi.
        apply der_mult; [|exact (HRD dw w Hdw i Hi)].
        exact (sm_state _ _ _ _ _ _ H dw w Hdw i Hi).
      - cbv beta. rewrite E0.
        (* w . (jac^T r' + B^T err) = w . (- AtA u) = - G . u *)
        transitivity (rsum n (fun j => w j * rsum (dims p) (fun i => jac p x (th 0) i j * r' i + err p x (th 0) i * B i j))).
        + rewrite (rsum_ext n _ (fun j => rsum (dims p) (fun i => w j * (jac p x (th 0) i j * r' i + err p x (th 0) i * B i j)))) by (intros; now rewrite rsum_scal).
          rewrite rsum_exch. apply rsum_ext. intros i Hi. rewrite (R0 i Hi). fold n.
          rewrite <- rsum_scal_r, <- rsum_scal, <- rsum_plus. apply rsum_ext. intros; ring.
        + rewrite (rsum_ext n _ (fun j => - (w j * rsum n (fun c' => rsum (dims p) (fun i => jac p x (th 0) i j * jac p x (th 0) i c') * u c')))).
          * rewrite rsum_opp, (gram_dot (dims p) n (jac p x (th 0)) u w). f_equal. apply rsum_ext. intros j Hj.
            unfold G. rewrite <- (Ew j Hj). unfold mv, AtA. ring.
          * intros j Hj. pose proof (Eu j Hj) as E. unfold mv, AtA in E. rewrite E. ring. }
    assert (FQ : lim0 (fun eps => (F x - F (retract p x (dw eps))) / eps) (rsum n (fun j => G j * u j))).
    { apply der_quot in DF. apply (lim_scal (-1)) in DF.
      replace (rsum n (fun j => G j * u j)) with (-1 * - rsum n (fun j => G j * u j)) by ring.
      refine (lim_ext _ _ _ _ DF). exists 1. split; [lra|]. intros h _ Hh. unfold quot. rewrite E0. field. exact Hh. }
    intros e He. destruct (FQ e He) as (d1 & Hd1 & L1). destruct Hw as (d2 & Hd2 & L2).
    exists (Rmin d1 d2). split; [now apply Rmin_pos|]. intros eps Hne Heps.
    exists (fun a => (gs x (th 0) a - gp eps g (retract p x (dw eps)) (th 0) a) / eps). split.
    + unfold dlm_grad. rewrite L2; [reflexivity|]. eapply Rlt_le_trans; [exact Heps|apply Rmin_r].
    + replace (dot np (fun a => (gs x (th 0) a - gp eps g (retract p x (dw eps)) (th 0) a) / eps) th') with ((F x - F (retract p x (dw eps))) / eps).
      * apply L1; [exact Hne|]. eapply Rlt_le_trans; [exact Heps|apply Rmin_l].
      * rewrite <- (HF x), <- (HP eps (retract p x (dw eps))). unfold dot, Rdiv. rewrite <- rsum_minus, <- rsum_scal_r. apply rsum_ext. intros; ring.
Qed.
