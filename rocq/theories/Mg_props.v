(** C72: Gaussians on a Lie group and in the tangent plane at a variable. *)
From Coq Require Import Reals List Arith Lia Lra Psatz Bool.
Import List ListNotations.
From Verif Require Import Geo_spec Geo3_spec Geo4_spec RSum SE2_model SE2_exp SO3_model SE3_model Mg_model Mg_spec Mg_inv Mg_laws Mg_laws3.
Local Open Scope R_scope.

Definition pos_def (n : nat) (P : nat -> nat -> R) := forall x : nat -> R, (exists i, (i < n)%nat /\ x i <> 0) -> 0 < quad n P x.

Lemma local_inv {G : LieClass} (g k : elt G) P m L : local_gaussian g (k, P) true = Some (m, L) ->
  local g k = Some m /\ exists J, exp_map_jac (l := G) m = Some J /\ L = bmm (dof G) (bmm (dof G) (transpose J) P) J.
Proof.
  unfold local_gaussian. cbn [fst snd]. intro E. destruct (local g k) as [v|]; [|discriminate]. cbv beta iota delta [bind] in E.
  destruct (exp_map_jac v) as [J|] eqn:EJ; [|discriminate]. apply some_inj in E. apply pair_equal_spec in E. destruct E as [<- <-].
  split; [reflexivity|]. exists J. now split.
Qed.

(** The Gaussian local_gaussian returns assigns to a displacement eps in the
    tangent plane what the given Gaussian assigns to the velocity with which the
    retracted point leaves the mean; it is symmetric and positive definite if the
    given one is. *)
Theorem C72_local : forall G (M : Meaning G), theseus_class G M ->
  forall (g k : elt G) P m L, valid M g -> valid M k -> local_gaussian g (k, P) true = Some (m, L) -> regular M m ->
  local g k = Some m
  /\ (symmetric (dof G) P -> symmetric (dof G) L)
  /\ (pos_def (dof G) P -> pos_def (dof G) L)
  /\ forall eps, exists h, (forall t, retract g (fun i => m i + t * eps i) = Some (h t))
     /\ (exists xi, moves M h k xi)
     /\ (forall xi, moves M h k xi -> quad (dof G) L eps = quad (dof G) P xi).
Proof.
  intros G M HG g k P m L Vg Vk E Rm. pose proof (class_laws G M HG) as LW. set (n := dof G).
  destruct (local_inv g k P m L E) as (EL & J & EJ & ->). fold n.
  split; [exact EL|]. split; [apply conj_symmetric|]. split.
  - intros Hp x (i & Hi & Hx). rewrite quad_conj. apply Hp.
    destruct (l_inv _ _ LW m J (proj1 Rm) EJ) as (K & HK).
    pose proof (matvec_inverse n K J x (inverse_sym _ _ _ HK) i Hi) as X.
    assert (D : forall q, (forall j, (j < q)%nat -> matvec n J x j = 0) \/ exists j, (j < q)%nat /\ matvec n J x j <> 0).
    { induction q as [|q IH]; [left; intros; lia|]. destruct IH as [IH|(j & Hj & HN)]; [|right; exists j; split; [lia|exact HN]].
      destruct (Req_dec (matvec n J x q) 0) as [Z|N]; [left|right; exists q; split; [lia|exact N]].
      intros j Hj. destruct (Nat.eq_dec j q) as [->|]; [exact Z|apply IH; lia]. }
    destruct (D n) as [Z|(j & Hj & HN)]; [|now exists j]. exfalso. apply Hx. rewrite <- X. apply rsum_0. intros j Hj. rewrite Z by exact Hj. ring.
  - intro eps. destruct (l_local_retract _ _ LW g k m Vg Vk EL Rm) as (k' & ER & SK).
    set (h := fun t => match retract g (fun i => m i + t * eps i) with Some y => y | None => g end).
    assert (EH : forall t, retract g (fun i => m i + t * eps i) = Some (h t)).
    { intro t. unfold h. destruct (l_retract _ _ LW g (fun i => m i + t * eps i) Vg) as (y & -> & _). reflexivity. }
    exists h. split; [exact EH|].
    pose proof (l_moves_same _ _ LW _ _ _ _ (l_moves _ _ LW g m eps J k' h Vg Rm EJ ER EH) SK) as MV. split; [eexists; exact MV|].
    intros xi Hxi. rewrite quad_conj. apply quad_same; [apply same_refl|]. exact (l_unique _ _ LW h k _ _ Vk MV Hxi).
Qed.

(** With return_mean=False the first component is the information vector: the
    exponent of the Gaussian is x^T L x - 2 eta^T x up to a constant. *)
Theorem C72_information_form : forall G (M : Meaning G), theseus_class G M ->
  forall (g k : elt G) P m L, local_gaussian g (k, P) true = Some (m, L) -> symmetric (dof G) P ->
  exists eta, local_gaussian g (k, P) false = Some (eta, L)
  /\ forall x, quad (dof G) L (fun i => x i - m i) = quad (dof G) L x - 2 * dot (dof G) eta x + quad (dof G) L m.
Proof.
  intros G M _ g k P m L E Hs. set (n := dof G). destruct (local_inv g k P m L E) as (EL & J & EJ & EQ). fold n in EQ.
  exists (matvec n L m). split.
  - unfold local_gaussian. cbn [fst snd]. rewrite EL. cbv beta iota delta [bind]. rewrite EJ. subst L. reflexivity.
  - assert (SL : symmetric n L) by (subst L; now apply conj_symmetric). intro x. rewrite !quad_dot.
    assert (SW : forall u v, dot n u (matvec n L v) = dot n v (matvec n L u)).
    { intros u v. rewrite (dot_comm n v). rewrite <- dot_transpose. apply dot_ext; [reflexivity|]. intros i Hi. apply rsum_ext. intros j Hj.
      unfold transpose. now rewrite (SL i j). }
    assert (LM : forall i, matvec n L (fun i => x i - m i) i = matvec n L x i - matvec n L m i).
    { intro i. unfold matvec. rewrite <- rsum_minus. apply rsum_ext. intros. ring. }
    rewrite (dot_ext n _ (fun i => x i - m i) _ (fun i => matvec n L x i - matvec n L m i)) by (intros; auto).
    rewrite dot_sub_l, !dot_sub_r, (SW m x), (dot_comm n (matvec n L m) x). ring.
Qed.

Lemma allclose_symmetric n P : symmetric n P -> allclose n P (transpose P) = true.
Proof.
  intro S. unfold allclose. apply forallb_forall. intros i Hi. apply forallb_forall. intros j Hj. apply in_seq in Hi. apply in_seq in Hj.
  unfold transpose. rewrite (S i j) by lia. destruct (Rle_dec _ _) as [_|N]; [reflexivity|]. exfalso. apply N.
  unfold Rminus. rewrite Rplus_opp_r, Rabs_R0. pose proof (Rabs_pos (P j i)). 
  assert (0 < / 10 ^ 8) by (apply Rinv_0_lt_compat; lra). assert (0 < / 10 ^ 5) by (apply Rinv_0_lt_compat; lra). nra.
Qed.
Lemma allclose_same n P Q : same_mat n P Q -> allclose n P (transpose P) = allclose n Q (transpose Q).
Proof.
  intro H. unfold allclose. apply eq_true_iff_eq. rewrite !forallb_forall. unfold transpose.
  split; intros F i Hi; specialize (F i Hi); rewrite forallb_forall in *; intros j Hj; specialize (F j Hj); apply in_seq in Hi; apply in_seq in Hj;
    [rewrite <- !H by lia|rewrite !H by lia]; exact F.
Qed.
Lemma retract_run {G : LieClass} {M : Meaning G} inv (g : elt G) m Q J K k : inverts inv -> Laws G M ->
  angle M m < PI -> retract g m = Some k -> exp_map_jac (l := G) m = Some J -> inv (dof G) J = Some K -> 
  retract_gaussian inv g m Q =
    (let P := bmm (dof G) (bmm (dof G) (transpose K) Q) K in if allclose (dof G) P (transpose P) then Some (k, P) else None).
Proof. intros _ _ _ E1 E2 E3. unfold retract_gaussian. rewrite E1. cbv beta iota delta [bind]. rewrite E2, E3. reflexivity. Qed.
Lemma inv_defined {G : LieClass} {M : Meaning G} inv m J : inverts inv -> Laws G M -> angle M m < PI -> exp_map_jac (l := G) m = Some J ->
  exists K, inv (dof G) J = Some K /\ inverse_of (dof G) J K.
Proof.
  intros HI LW A EJ. destruct (HI (dof G) J) as [I1 I2]. destruct (l_inv _ _ LW m J A EJ) as (K0 & H0).
  destruct (inv (dof G) J) as [K|] eqn:E; [|exfalso; apply I2; [now exists K0|reflexivity]]. exists K. split; [reflexivity|now apply I1].
Qed.

(** retract_gaussian never raises on a symmetric precision matrix, below a half
    turn; the mean is the retraction, and the Gaussian assigns to the velocity of
    a displaced point what the given one assigns to the displacement. *)
Theorem C72_retract : forall G (M : Meaning G) inv, theseus_class G M -> inverts inv ->
  forall (g : elt G) m Q, valid M g -> symmetric (dof G) Q -> angle M m < PI ->
  exists k P, retract_gaussian inv g m Q = Some (k, P)
  /\ retract g m = Some k /\ valid M k
  /\ symmetric (dof G) P
  /\ (regular M m -> forall eps, exists h, (forall t, retract g (fun i => m i + t * eps i) = Some (h t))
        /\ (exists xi, moves M h k xi)
        /\ (forall xi, moves M h k xi -> quad (dof G) P xi = quad (dof G) Q eps)).
Proof.
  intros G M inv HG HI g m Q Vg SQ A. pose proof (class_laws G M HG) as LW. set (n := dof G).
  destruct (l_retract _ _ LW g m Vg) as (k & EK & Vk). destruct (l_jac _ _ LW m) as (J & EJ).
  destruct (inv_defined inv m J HI LW A EJ) as (K & EI & HK). fold n in EI, HK.
  set (P := bmm n (bmm n (transpose K) Q) K). exists k, P.
  assert (SP : symmetric n P) by now apply conj_symmetric.
  split; [rewrite (retract_run inv g m Q J K k HI LW A EK EJ EI); fold n; cbv zeta; fold P; now rewrite allclose_symmetric|].
  split; [exact EK|]. split; [exact Vk|]. split; [exact SP|]. intros Rm eps.
  set (h := fun t => match retract g (fun i => m i + t * eps i) with Some y => y | None => g end).
  assert (EH : forall t, retract g (fun i => m i + t * eps i) = Some (h t)).
  { intro t. unfold h. destruct (l_retract _ _ LW g (fun i => m i + t * eps i) Vg) as (y & -> & _). reflexivity. }
  exists h. split; [exact EH|].
  pose proof (l_moves _ _ LW g m eps J k h Vg Rm EJ EK EH) as MV. split; [eexists; exact MV|].
  intros xi Hxi. unfold P. rewrite quad_conj. apply quad_same; [apply same_refl|].
  pose proof (l_unique _ _ LW h k _ _ Vk MV Hxi) as U. intros i Hi.
  transitivity (matvec n K (matvec n J eps) i).
  - apply rsum_ext. intros j Hj. f_equal. symmetry. apply U. exact Hj.
  - apply (matvec_inverse n K J eps (inverse_sym _ _ _ HK) i Hi).
Qed.

(** Going to the tangent plane and back returns the same Gaussian. *)
Theorem C72_local_retract : forall G (M : Meaning G) inv, theseus_class G M -> inverts inv ->
  forall (g k : elt G) P m L, valid M g -> valid M k -> allclose (dof G) P (transpose P) = true ->
  local_gaussian g (k, P) true = Some (m, L) -> regular M m ->
  exists k' P', retract_gaussian inv g m L = Some (k', P') /\ same M k' k /\ same_mat (dof G) P' P.
Proof.
  intros G M inv HG HI g k P m L Vg Vk AC E Rm. pose proof (class_laws G M HG) as LW. set (n := dof G) in *.
  destruct (local_inv g k P m L E) as (EL & J & EJ & EQ). fold n in EQ.
  destruct (l_local_retract _ _ LW g k m Vg Vk EL Rm) as (k' & ER & SK).
  destruct (inv_defined inv m J HI LW (proj1 Rm) EJ) as (K & EI & HK). fold n in EI, HK.
  exists k', (bmm n (bmm n (transpose K) L) K).
  assert (S : same_mat n (bmm n (bmm n (transpose K) L) K) P) by (subst L; now apply conj_back).
  split; [|split; assumption].
  rewrite (retract_run inv g m L J K k' HI LW (proj1 Rm) ER EJ EI). fold n. cbv zeta. now rewrite (allclose_same n _ _ S), AC.
Qed.
(** And conversely (local may be undefined at half turns, C36_log_defined). *)
Theorem C72_retract_local : forall G (M : Meaning G) inv, theseus_class G M -> inverts inv ->
  forall (g k : elt G) m Q P, valid M g -> regular M m -> retract_gaussian inv g m Q = Some (k, P) ->
  (local_gaussian g (k, P) true = None <-> local g k = None)
  /\ forall m' Q', local_gaussian g (k, P) true = Some (m', Q') -> same_vec (dof G) m' m /\ same_mat (dof G) Q' Q.
Proof.
  intros G M inv HG HI g k m Q P Vg Rm E. pose proof (class_laws G M HG) as LW. set (n := dof G) in *.
  destruct (l_jac _ _ LW m) as (J & EJ). destruct (inv_defined inv m J HI LW (proj1 Rm) EJ) as (K & EI & HK). fold n in EI, HK.
  destruct (l_retract _ _ LW g m Vg) as (k0 & EK & Vk). rewrite (retract_run inv g m Q J K k0 HI LW (proj1 Rm) EK EJ EI) in E. fold n in E. cbv zeta in E.
  destruct (allclose n _ _); [|discriminate]. apply some_inj in E. apply pair_equal_spec in E. destruct E as [<- <-].
  split.
  - unfold local_gaussian. cbn [fst snd]. destruct (local g k0) as [v|]; [|tauto]. cbv beta iota delta [bind].
    destruct (l_jac _ _ LW v) as (Jv & ->). split; discriminate.
  - intros m' Q' E. destruct (local_inv g k0 _ m' Q' E) as (EL & J' & EJ' & ->). fold n.
    pose proof (l_retract_local _ _ LW g m k0 m' Vg Rm EK EL) as SM. split; [exact SM|].
    pose proof (l_jac_ext _ _ LW m' m J' J SM EJ' EJ) as SJ. fold n in SJ.
    eapply same_trans; [|apply (conj_back n K J Q (inverse_sym _ _ _ HK))].
    apply bmm_ext; [|exact SJ]. apply bmm_ext; [|apply same_refl]. intros i j Hi Hj. unfold transpose. now apply SJ.
Qed.

(** torch.inverse's assumption can be met *)
Theorem C72_inverts_exists : exists inv, inverts inv.
Proof. exists inv_alg. apply inv_alg_inverts. Qed.
