(** C81 (continued): what verify_jacobians loses when a check fails, what a nan
    hides, and what SO2 variables are filled with. *)
From Coq Require Import Reals List Lia Lra Bool.
From Verif Require Import Geo_spec Geo3_spec Geo4_spec Exp_unique SE2_model SE2_group SE2_jac SO3_model SE3_model Rand_model Rand_props Ver_model Ver_props Ver_class.
Import ListNotations.
Local Open Scope R_scope.

(** a variable overwritten with a random value of batch size 1 *)
Definition random_value (s : nat -> R) (t : list tval) := exists k q, t = [rand_fill k (fun i => s (q + i)%nat)].
Lemma verify_keeps_random n tol s : 0 <= tol -> forall cfs st p st' failed r v, Forall local cfs ->
  verify n tol cfs s st p = (st', failed, r) -> random_value s (st v) -> random_value s (st' v).
Proof.
  intros T. induction cfs as [|cf cfs IH]; intros st p st' failed r v L E H; cbn [verify] in E.
  - injection E as <- <- <-. exact H.
  - inversion L as [|? ? L1 L2]; subst. destruct (check_jacobians n tol cf s st p) as [[st1 p1] r1] eqn:C.
    destruct (C81_check n tol cf s st p st1 p1 r1 T L1 C) as (_ & B & D & F).
    assert (H1 : random_value s (st1 v)).
    { destruct r1 as [e|]; [|rewrite (B eq_refl v); exact H]. destruct (in_dec Nat.eq_dec v (vars cf)) as [I|I]; [|rewrite F by exact I; exact H].
      destruct (D e eq_refl v I) as (k & q & _ & Eq). exists k, q. exact Eq. }
    destruct r1 as [[|]|].
    + destruct (verify n tol cfs s st1 p1) as [[st2 f2] r2] eqn:V. injection E as <- <- <-. exact (IH _ _ _ _ _ _ L2 V H1).
    + injection E as <- <- <-. exact H1.
    + exact (IH _ _ _ _ _ _ L2 E H1).
Qed.
(** whenever verify_jacobians reports anything, some cost function of the
    objective has all its variables -- optimization and auxiliary -- left with
    random values of batch size 1: the values the user had are lost *)
Theorem C81_restore_refuted : forall n tol cfs s st p st' failed r, 0 <= tol -> Forall local cfs ->
  verify n tol cfs s st p = (st', failed, r) -> failed <> [] \/ r = true ->
  exists cf, In cf cfs /\ forall v, In v (vars cf) -> random_value s (st' v).
Proof.
  intros n tol cfs s st p st' failed r T. revert st p st' failed r.
  induction cfs as [|cf cfs IH]; intros st p st' failed r L E N; cbn [verify] in E.
  - injection E as <- <- <-. destruct N; [congruence|discriminate].
  - inversion L as [|? ? L1 L2]; subst. destruct (check_jacobians n tol cf s st p) as [[st1 p1] r1] eqn:C.
    destruct (C81_check n tol cf s st p st1 p1 r1 T L1 C) as (_ & _ & D & _).
    destruct r1 as [[|]|].
    + destruct (verify n tol cfs s st1 p1) as [[st2 f2] r2] eqn:V. injection E as <- <- <-. exists cf. split; [left; reflexivity|].
      intros v I. apply (verify_keeps_random n tol s T cfs st1 p1 st2 f2 r2 v L2 V). destruct (D _ eq_refl v I) as (k & q & _ & Eq). exists k, q. exact Eq.
    + injection E as <- <- <-. exists cf. split; [left; reflexivity|]. intros v I. destruct (D _ eq_refl v I) as (k & q & _ & Eq). exists k, q. exact Eq.
    + destruct (IH _ _ _ _ _ L2 E N) as (c & I & H). exists c. split; [right; exact I|exact H].
Qed.

(** a cost function on a 2-vector with error x0 + x1 whose Jacobian entries are
    returned by [j0], [j1] (the true ones are 1 and 1) *)
Definition lin_cf (name : nat) (j0 j1 : option R) : CF :=
  mkCF name [(0%nat, KVec 2)] [] (fun _ => inr [[(j0, Some 1); (j1, Some 1)]]).
Lemma lin_local name j0 j1 : local (lin_cf name j0 j1).
Proof. intros st st' _. reflexivity. Qed.
(** one nan entry hides an error of any size in the same Jacobian *)
Theorem C81_nan_refuted : forall n tol s st p x, 0 <= tol ->
  snd (fst (verify n tol [lin_cf 7 (Some x) None] s st p)) = []
  /\ snd (verify n tol [lin_cf 7 (Some x) None] s st p) = false.
Proof.
  intros n tol s st p x T.
  destruct (verify n tol [lin_cf 7 (Some x) None] s st p) as [[st' f] r] eqn:E. cbn [fst snd].
  apply (C81_success n tol [lin_cf 7 (Some x) None] s st p st' f r T); [constructor; [apply lin_local|constructor]|exact E|].
  intros i cf k N K. destruct i as [|i]; [|destruct i; discriminate]. cbn [nth_error] in N. injection N as <-.
  exists [[(Some x, Some 1); (None, Some 1)]]. split; [reflexivity|]. constructor; [|constructor]. right. apply Exists_cons_tl, Exists_cons_hd. left; reflexivity.
Qed.
(** the user's values are lost: a batch of two values, a wrong Jacobian, one check *)
Example C81_lost : forall s st p,
  st 0%nat = [TVec [1; 2]; TVec [3; 4]] ->
  let '(st', failed, r) := verify 1 (/ 1000) [lin_cf 7 (Some 5) (Some 1)] s st p in
  failed = [7%nat] /\ r = false /\ st' 0%nat = [TVec [s (p + 0)%nat; s (p + 1)%nat]].
Proof.
  intros s st p H.
  assert (F : existsb (too_far (/ 1000)) [[(Some 5, Some 1); (Some 1, Some 1)]] = true).
  { cbn. unfold lt_b. destruct (Rlt_dec _ _) as [L|L]; [reflexivity|]. exfalso. apply L.
    eapply Rlt_le_trans; [|apply Rmax_l]. rewrite Rabs_pos_eq by lra. lra. }
  cbn [verify]. unfold check_jacobians. cbn [check_rounds]. unfold check_once. cbn [lin_cf cf_optim cf_aux cf_eval app fill_all]. rewrite F.
  cbn. repeat split.
Qed.

(** an SO2 variable is filled with a point of the unit square, not with a rotation
    (while the other groups get elements of the group) *)
Theorem C81_fill : forall k s, in01 s ->
  match k with
  | KSO2 => rand_fill k s = TSO2 (mkSO2 (s 0%nat) (s 1%nat))
  | KVec n => exists l, rand_fill k s = TVec l /\ length l = n /\ Forall (fun x => 0 <= x < 1) l
  | KSE2 => exists g, rand_fill k s = TSE2 g /\ se2_valid g
  | KSO3 => exists g, rand_fill k s = TSO3 g /\ rotation3 g
  | KSE3 => exists g, rand_fill k s = TSE3 g /\ rigid3 g
  end.
Proof.
  intros k s H. destruct k as [n| | | |].
  - exists (map s (seq 0 n)). split; [reflexivity|]. apply (map_seq_forall s n). intros i _. apply H.
  - reflexivity.
  - destruct (C80_rand_valid [1%nat] s false true H) as (_ & _ & _ & V). unfold rand_fill.
    destruct (th_se2_rand true [1%nat] s false) as [r|] eqn:E; [|discriminate]. destruct (V r eq_refl) as (Lr & Fr). cbn [numel fold_right Nat.mul] in Lr.
    destruct (t_val r) as [|g [|? ?]]; [discriminate| |discriminate]. exists g. split; [reflexivity|].
    inversion Fr as [|? ? (_ & _ & Vg & _) _]; subst. exact Vg.
  - destruct (C80_rand_valid [1%nat] s false true H) as ((Lr & Fr) & _). unfold rand_fill.
    destruct (t_val (so3_rand [1%nat] s false)) as [|g [|? ?]]; [discriminate| |discriminate]. inversion Fr as [|? ? (x & -> & Vx) _]; subst.
    exists x. split; [reflexivity|exact Vx].
  - destruct (C80_rand_valid [1%nat] s false true H) as (_ & (Lr & Fr) & _). unfold rand_fill.
    destruct (t_val (se3_rand [1%nat] s false)) as [|g [|? ?]]; [discriminate| |discriminate]. inversion Fr as [|? ? (x & -> & Vx & _) _]; subst.
    exists x. split; [reflexivity|exact Vx].
Qed.
(** so a Jacobian that is right at every rotation can be reported as wrong.  The
    error is the cosine of the angle times the squared cosine, computed as
    c (1 - s^2); the Jacobian returned, -3 c^2 s, is right at every rotation; the
    gradient is (1 - s^2, -2 c s) everywhere *)
Definition so2_err (g : SO2) : R := co g * (1 - si g * si g).
Definition so2_err_jac (g : SO2) : R := - (3) * (co g * co g) * si g.
Definition so2_err_grad (g : SO2) : V2 := mkV2 (1 - si g * si g) (-2 * co g * si g).
Lemma so2_err_gradient g : gradient_so2 so2_err g (so2_err_grad g).
Proof.
  intros h x y H0 Dx Dy. unfold so2_err, so2_err_grad. cbn [a0 a1]. eapply deriv_val; [|repeat dstep]. cbv beta. rewrite H0. ring.
Qed.
Definition so2_cf : CF :=
  mkCF 3 [(0%nat, KSO2)] [] (fun st => match st 0%nat with
    | TSO2 g :: _ => inr [[(Some (so2_err_jac g), Some (so2_project g (so2_err_grad g)))]]
    | _ => inl OtherErr end).
Theorem C81_so2_refuted :
  (forall g, so2_valid g -> row_so2 so2_err g (so2_err_jac g))
  /\ (forall g, gradient_so2 so2_err g (so2_err_grad g))
  /\ forall s st p, s p = 1 / 2 -> s (p + 1)%nat = 1 / 2 ->
       snd (fst (verify 1 (/ 1000) [so2_cf] s st p)) = [3%nat].
Proof.
  split; [|split; [exact so2_err_gradient|]].
  - intros g V. apply (C81_row_so2 so2_err g (so2_err_grad g)); [apply so2_err_gradient|].
    unfold so2_valid in V. unfold so2_err_jac, so2_project, so2_err_grad. cbn [a0 a1]. set (c := co g) in *. set (q := si g) in *.
    replace (1 - q * q) with (c * c) by lra. ring.
  - intros s st p H0 H1.
    assert (F : existsb (too_far (/ 1000)) [[(Some (so2_err_jac (mkSO2 (1 / 2) (1 / 2))), Some (so2_project (mkSO2 (1 / 2) (1 / 2)) (so2_err_grad (mkSO2 (1 / 2) (1 / 2)))))]] = true).
    { cbn [existsb]. unfold too_far. cbn [abs_max]. unfold so2_err_jac, so2_project, so2_err_grad. cbn [a0 a1 co si].
      unfold lt_b. destruct (Rlt_dec _ _) as [L|L]; [reflexivity|]. exfalso. apply L. eapply Rlt_le_trans; [|apply Rmax_l].
      match goal with |- _ < Rabs ?x => replace x with (1 / 4) by field end. rewrite Rabs_pos_eq by lra. lra. }
    cbn [verify]. unfold check_jacobians. cbn [check_rounds]. unfold check_once. cbn [so2_cf cf_optim cf_aux cf_eval app fill_all].
    unfold set_var at 1. cbn [Nat.eqb rand_fill]. rewrite Nat.add_0_r, H0, H1, F. reflexivity.
Qed.

(** the hypotheses of C81_named and C81_success are met: a right and a wrong
    linear cost function; the right one is not named, the wrong one is *)
Example C81_nonvacuous : forall st, in01 (fun _ => 0)
  /\ exists st', verify 2 (/ 1000) [lin_cf 1 (Some 1) (Some 1); lin_cf 2 (Some 1) (Some 0)] (fun _ => 0) st 0 = (st', [2%nat], false).
Proof.
  intros st. split; [intros i; lra|].
  assert (T : existsb (too_far (/ 1000)) [[(Some 1, Some 1); (Some 1, Some 1)]] = false).
  { apply existsb_false. constructor; [|constructor]. apply too_far_spec; [lra|]. left.
    repeat constructor; (exists 1, 1; split; [reflexivity|]); rewrite Rminus_diag_eq by reflexivity; rewrite Rabs_R0; lra. }
  assert (F : existsb (too_far (/ 1000)) [[(Some 1, Some 1); (Some 0, Some 1)]] = true).
  { cbn [existsb]. unfold too_far. cbn [abs_max]. unfold lt_b. destruct (Rlt_dec _ _) as [L|L]; [reflexivity|]. exfalso. apply L.
    eapply Rlt_le_trans; [|apply Rmax_r]. eapply Rlt_le_trans; [|apply Rmax_l]. unfold Rabs; destruct (Rcase_abs _); lra. }
  eexists. cbn [verify]. unfold check_jacobians. cbn [check_rounds]. unfold check_once. cbn [lin_cf cf_optim cf_aux cf_eval app fill_all].
  rewrite T. cbn [verify check_rounds]. rewrite F. reflexivity.
Qed.
