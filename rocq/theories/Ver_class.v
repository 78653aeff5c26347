(** C81 (continued): the number the check compares with.  For each class of
    variable, the projected autograd gradient of an error entry is the row of the
    right Jacobian: the derivative along retract.  So a correct Jacobian agrees
    with it exactly, and any other row does not. *)
From Coq Require Import Reals List Lia Lra.
From Verif Require Import Geo_spec Geo3_spec Geo4_spec Exp_unique SE2_model SE2_group SE2_exp SE2_curve SE2_jac SO3_model SO3_group SO3_exp SO3_ops
  SE3_model SE3_group SE3_exp SE3_jexp RSum.
Import ListNotations.
Local Open Scope R_scope.

(** what autograd returns for an error entry e at g: the gradient with respect to
    the entries of the tensor, that is the D with (e o h)'(0) = <D, h'(0)> for
    every curve h of tensors through g *)
Definition gradient_so3 (e : M3 -> R) (g D : M3) :=
  forall h dh, h 0 = g -> deriv_m3 h 0 dh -> deriv (fun t => e (h t)) 0 (frob D dh).
Definition gradient_se3 (e : Rig -> R) (g D : Rig) :=
  forall h dh, h 0 = g -> deriv_rig h 0 dh -> deriv (fun t => e (h t)) 0 (frob34 D dh).
Definition gradient_so2 (e : SO2 -> R) (g : SO2) (D : V2) :=
  forall h x y, h 0 = g -> deriv (fun t => co (h t)) 0 x -> deriv (fun t => si (h t)) 0 y ->
    deriv (fun t => e (h t)) 0 (a0 D * x + a1 D * y).
Definition gradient_se2 (e : SE2 -> R) (g : SE2) (Dxy Dcs : V2) :=
  forall h x y c s, h 0 = g -> deriv (fun t => px (h t)) 0 x -> deriv (fun t => py (h t)) 0 y ->
    deriv (fun t => pc (h t)) 0 c -> deriv (fun t => ps (h t)) 0 s ->
    deriv (fun t => e (h t)) 0 (a0 Dxy * x + a1 Dxy * y + (a0 Dcs * c + a1 Dcs * s)).
(** the row J of a right Jacobian: the derivative of the error along retract *)
Definition row_so3 d (e : M3 -> R) (g : M3) (J : V3) :=
  forall dl h, (forall t, so3_retract d g (scal3 t dl) = Some (h t)) -> deriv (fun t => e (h t)) 0 (dot3 J dl).
Definition row_se3 d (e : Rig -> R) (g : Rig) (J : Tw) :=
  forall dl h, (forall t, se3_retract d g (tscal t dl) = Some (h t)) -> deriv (fun t => e (h t)) 0 (dot6 J dl).
Definition row_so2 (e : SO2 -> R) (g : SO2) (J : R) :=
  forall dl, deriv (fun t => e (so2_retract g (t * dl))) 0 (J * dl).
Definition row_se2 d (e : SE2 -> R) (g : SE2) (J : V3) :=
  forall dl h, (forall t, se2_retract d g (scal3 t dl) = Some (h t)) -> deriv (fun t => e (h t)) 0 (dot3 J dl).

Lemma deriv_unique f t x y : deriv f t x -> deriv f t y -> x = y.
Proof. apply uniqueness_limite. Qed.
Lemma dot3_ext u v : (forall dl, dot3 u dl = dot3 v dl) -> u = v.
Proof.
  intros H. destruct u as [x y z], v as [x' y' z'].
  pose proof (H (mkV3 1 0 0)) as A. pose proof (H (mkV3 0 1 0)) as B. pose proof (H (mkV3 0 0 1)) as C.
  unfold dot3 in *. cbn [b0 b1 b2] in *. apply V3_ext; cbn [b0 b1 b2]; lra.
Qed.
(** retract never fails, so the curves above exist *)
Lemma so3_retract_some d g v : exists k, so3_retract d g v = Some k.
Proof. unfold so3_retract. destruct (C36_exp_rotation d v) as (k & -> & _). eexists. reflexivity. Qed.
Lemma se3_retract_some d g v : exists k, se3_retract d g v = Some k.
Proof. unfold se3_retract. destruct (C37_exp_rigid d v) as (k & -> & _). eexists. reflexivity. Qed.
Lemma se2_retract_some d g v : exists k, se2_retract d g v = Some k.
Proof. unfold se2_retract. destruct (C35_exp_valid d v) as (k & -> & _). eexists. reflexivity. Qed.

Theorem C81_row_so3 : forall d e g D J, gradient_so3 e g D -> row_so3 d e g J <-> J = so3_project_impl g D.
Proof.
  intros d e g D J H.
  assert (K : forall dl h, (forall t, so3_retract d g (scal3 t dl) = Some (h t)) -> deriv (fun t => e (h t)) 0 (dot3 (so3_project_impl g D) dl)).
  { intros dl h Hh. destruct (C36_retract_velocity d g dl h Hh) as [H0 HD]. rewrite (proj2 (C36_project g D dl)), <- (proj1 (C36_project g D dl)).
    apply H; assumption. }
  split; [|intros ->; exact K]. intros R. apply dot3_ext. intros dl.
  set (h := fun t => match so3_retract d g (scal3 t dl) with Some k => k | None => g end).
  assert (Hh : forall t, so3_retract d g (scal3 t dl) = Some (h t)) by (intros t; unfold h; destruct (so3_retract_some d g (scal3 t dl)) as [k ->]; reflexivity).
  eapply deriv_unique; [apply (R dl h Hh)|apply (K dl h Hh)].
Qed.
Theorem C81_row_se3 : forall d e g D J, rigid3 g -> gradient_se3 e g D -> row_se3 d e g J <-> J = se3_project_impl g D.
Proof.
  intros d e g D J G H.
  assert (K : forall dl h, (forall t, se3_retract d g (tscal t dl) = Some (h t)) -> deriv (fun t => e (h t)) 0 (dot6 (se3_project_impl g D) dl)).
  { intros dl h Hh. pose proof (C37_retract_velocity d g dl h G Hh) as M.
    apply moves6_iff in M. destruct M as (H0 & DR & DP).
    pose proof (H h (mkRig (mul3 (rr g) (so3_alg (ang dl))) (app3 (rr g) (lin dl))) H0 (conj DR DP)) as Q.
    eapply deriv_val; [|exact Q]. destruct g as [[] []], D as [[] []], dl as [[] []]. unfold dot6, frob34, frob, dot3; cbn. ring. }
  split; [|intros ->; exact K]. intros R.
  assert (X : forall dl, dot6 J dl = dot6 (se3_project_impl g D) dl).
  { intros dl. set (h := fun t => match se3_retract d g (tscal t dl) with Some k => k | None => g end).
    assert (Hh : forall t, se3_retract d g (tscal t dl) = Some (h t)) by (intros t; unfold h; destruct (se3_retract_some d g (tscal t dl)) as [k ->]; reflexivity).
    eapply deriv_unique; [apply (R dl h Hh)|apply (K dl h Hh)]. }
  set (P := se3_project_impl g D) in *. clearbody P. destruct J as [u v], P as [u' v']. unfold dot6 in X. cbn [lin ang] in X.
  assert (Z : forall w, dot3 w zero3 = 0) by (intros w; unfold dot3, zero3; cbn [b0 b1 b2]; ring). apply f_equal2; apply dot3_ext; intros dl.
  - specialize (X (mkTw dl zero3)). cbn [lin ang] in X. rewrite !Z in X. lra.
  - specialize (X (mkTw zero3 dl)). cbn [lin ang] in X. rewrite !Z in X. lra.
Qed.
Theorem C81_row_se2 : forall d e g Dxy Dcs J, gradient_se2 e g Dxy Dcs -> row_se2 d e g J <-> J = se2_project g Dxy Dcs.
Proof.
  intros d e g Dxy Dcs J H.
  assert (K : forall dl h, (forall t, se2_retract d g (scal3 t dl) = Some (h t)) -> deriv (fun t => e (h t)) 0 (dot3 (se2_project g Dxy Dcs) dl)).
  { intros dl h Hh. destruct (retract_curve d g dl h Hh) as (H0 & D1 & D2 & D3 & D4).
    eapply deriv_val; [|exact (H h _ _ _ _ H0 D1 D2 D3 D4)]. unfold dot3, se2_project; cbn [b0 b1 b2]. ring. }
  split; [|intros ->; exact K]. intros R. apply dot3_ext. intros dl.
  set (h := fun t => match se2_retract d g (scal3 t dl) with Some k => k | None => g end).
  assert (Hh : forall t, se2_retract d g (scal3 t dl) = Some (h t)) by (intros t; unfold h; destruct (se2_retract_some d g (scal3 t dl)) as [k ->]; reflexivity).
  eapply deriv_unique; [apply (R dl h Hh)|apply (K dl h Hh)].
Qed.
Theorem C81_row_so2 : forall e g D J, gradient_so2 e g D -> row_so2 e g J <-> J = so2_project g D.
Proof.
  intros e g D J H.
  assert (DC : forall dl, deriv (fun t => co (so2_retract g (t * dl))) 0 (- si g * dl)
    /\ deriv (fun t => si (so2_retract g (t * dl))) 0 (co g * dl)).
  { intros dl.
    assert (C : deriv (fun t => cos (t * dl)) 0 0).
    { eapply deriv_val; [|apply (d_comp cos (fun t => t * dl)); [repeat dstep|apply derivable_pt_lim_cos]]. cbv beta. rewrite Rmult_0_l, sin_0. ring. }
    assert (S : deriv (fun t => sin (t * dl)) 0 dl).
    { eapply deriv_val; [|apply (d_comp sin (fun t => t * dl)); [repeat dstep|apply derivable_pt_lim_sin]]. cbv beta. rewrite Rmult_0_l, cos_0. ring. }
    unfold so2_retract, so2_compose, so2_exp_map. cbn [co si]. split; dgo; rewrite ?Rmult_0_l, ?cos_0, ?sin_0; ring. }
  assert (K : forall dl, deriv (fun t => e (so2_retract g (t * dl))) 0 (so2_project g D * dl)).
  { intros dl. destruct (DC dl) as [D1 D2].
    eapply deriv_val; [|apply (H (fun t => so2_retract g (t * dl)) (- si g * dl) (co g * dl)); [|exact D1|exact D2]].
    - unfold so2_project. ring.
    - cbv beta. rewrite Rmult_0_l. unfold so2_retract, so2_compose, so2_exp_map. cbn [co si]. rewrite cos_0, sin_0. destruct g as [c s]. cbn [co si]. f_equal; ring. }
  split; [|intros ->; exact K]. intros R. pose proof (deriv_unique _ _ _ _ (R 1) (K 1)). lra.
Qed.
(** vectors and points: retract adds, project is the identity *)
Definition vec_retract (n : nat) (x dl : nat -> R) (t : R) : nat -> R := fun i => x i + t * dl i.
Definition gradient_vec (n : nat) (e : (nat -> R) -> R) (x D : nat -> R) :=
  forall h dh, (forall i, h 0 i = x i) -> (forall i, (i < n)%nat -> deriv (fun t => h t i) 0 (dh i)) ->
    deriv (fun t => e (h t)) 0 (rsum n (fun i => D i * dh i)).
Theorem C81_row_vec : forall n e x D J, gradient_vec n e x D ->
  (forall dl, deriv (fun t => e (vec_retract n x dl t)) 0 (rsum n (fun i => J i * dl i))) <-> (forall i, (i < n)%nat -> J i = D i).
Proof.
  intros n e x D J H.
  assert (K : forall dl, deriv (fun t => e (vec_retract n x dl t)) 0 (rsum n (fun i => D i * dl i))).
  { intros dl. apply H; [intros i; unfold vec_retract; ring|]. intros i Hi. unfold vec_retract. dgo. ring. }
  split.
  - intros RR i Hi. pose proof (deriv_unique _ _ _ _ (RR (fun j => if Nat.eqb j i then 1 else 0)) (K (fun j => if Nat.eqb j i then 1 else 0))) as E.
    assert (P : forall F : nat -> R, rsum n (fun j => F j * (if Nat.eqb j i then 1 else 0)) = F i).
    { intros F. rewrite (rsum_ext n _ (fun j => if Nat.eqb j i then F j else 0)) by (intros j Hj; destruct (Nat.eqb j i); ring).
      rewrite rsum_delta. apply Nat.ltb_lt in Hi. rewrite Hi. reflexivity. }
    rewrite !P in E. exact E.
  - intros E dl. eapply deriv_val; [|apply K]. apply rsum_ext. intros i Hi. rewrite E by exact Hi. reflexivity.
Qed.
