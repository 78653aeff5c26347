(** C79: what compute_samples refuses; what is shared by the batch; the mean after an optimization; the hypotheses are met. *)
From Coq Require Import Reals List Lia Lra Arith Bool.
From Verif Require Import RSum Emb2_spec Chol Adj_props Bwd_model Bwd_spec Desc.
From Verif Require Import Samp_model Samp_props.
Import ListNotations.
Local Open Scope R_scope.

(** Never samples: data that are not of torch's default dtype; the sparse linearization; a variable whose tensor does not have dof() columns (SO2, SE2, SO3, SE3) *)
Theorem C79_refuses_refuted cholesky default ls B m T y :
  (ls_dtype ls <> default \/ ls_hessian ls = None \/ (0 < B)%nat /\ (0 < m)%nat /\ Exists (fun v => vshape v <> [vdof v]) (ls_ordering ls)) ->
  compute_samples cholesky default (Some ls) B m T y = Raises.
Proof.
  unfold compute_samples. intros H. destruct (ls_solve ls) as [delta|]; [|reflexivity]. destruct (ls_hessian ls) as [Hs|] eqn:Eh; [|reflexivity].
  destruct (all_defined B _); [|reflexivity]. destruct (dtype_eqb (ls_dtype ls) default) eqn:Ed; [|reflexivity].
  destruct H as [H|[H|(HB & Hm & H)]].
  - exfalso. apply H. destruct (ls_dtype ls), default; try reflexivity; discriminate.
  - discriminate.
  - match goal with |- (if all_defined B ?f then _ else _) = _ => destruct (all_defined B f) eqn:E; [|reflexivity] end. exfalso.
    assert (W : forall vars off b d x, Exists (fun v => vshape v <> [vdof v]) vars -> write_vars vars off b d x = None).
    { clear. induction vars as [|v vs IH]; intros off b d x H; [inversion H|]. cbn [write_vars]. destruct (vshape v) as [|c [|? ?]] eqn:Es; try reflexivity.
      destruct (Nat.eqb_spec c (vdof v)) as [Ec|]; [|reflexivity]. apply IH. inversion H as [? ? N|]; subst; [rewrite Es in N; contradiction|assumption]. }
    rewrite all_defined_true in E. specialize (E 0%nat HB). cbn beta in E. rewrite all_defined_true in E. specialize (E 0%nat Hm). cbn beta in E.
    rewrite (W _ _ _ _ _ H) in E. discriminate.
Qed.
Theorem C79_no_solver cholesky default B m T y : compute_samples cholesky default None B m T y = NoSamples.
Proof. reflexivity. Qed.

(** The noise is shared by the batch: elements with the same AtA are given the same deviations from their means *)
Theorem C79_batch_refuted cholesky default ls B m T y delta H b b' : factorizes cholesky -> 0 < T -> ls_solve ls = Some delta -> ls_hessian ls = Some H -> ls_dtype ls = default ->
  (forall b, (b < B)%nat -> symmetric (ls_nvars ls) (H b) /\ positive_definite (ls_nvars ls) (H b)) ->
  Forall is_vector (ls_ordering ls) -> total_dof (ls_ordering ls) = ls_nvars ls -> (b < B)%nat -> (b' < B)%nat -> H b = H b' ->
  let mean b i := side_by_side (ls_ordering ls) b i + delta b i in
  exists x, compute_samples cholesky default (Some ls) B m T y = Samples x /\
  forall s i, (s < m)%nat -> (i < ls_nvars ls)%nat -> x b i s - mean b i = x b' i s - mean b' i.
Proof.
  intros Fac HT Es Eh Ed Pd Ve To Hb Hb' Eq mean.
  assert (Sh : Forall (fun v => vshape v = [vdof v]) (ls_ordering ls)) by (eapply Forall_impl; [|exact Ve]; intros v [Hv _]; exact Hv).
  destruct (C79_samples cholesky Fac default ls B m T y delta H HT Es Eh Ed Pd Sh) as (x & L & d & E0 & P0). exists x. split; [exact E0|]. intros s i Hs Hi.
  destruct (P0 b Hb) as (C1 & C2 & C3). destruct (P0 b' Hb') as (C1' & C2' & C3'). rewrite <- Eq in C1'. rewrite C1 in C1'. injection C1' as El. rewrite <- El in C3'.
  destruct (C3 s Hs) as [D1 D2]. destruct (C3' s Hs) as [D1' D2'].
  assert (X : forall b0 (d0 : nat -> nat -> nat -> R) j, (j < ls_nvars ls)%nat ->
     (forall pre v post c, ls_ordering ls = pre ++ v :: post -> (c < vdof v)%nat -> x b0 (total_dof pre + c)%nat s = vretract v (vdata v b0) (fun i => d0 b0 s (total_dof pre + i)%nat) c) ->
     x b0 j s - mean b0 j = d0 b0 s j - delta b0 j).
  { intros b0 d0 j Hj Dx. destruct (find_var (ls_ordering ls) j) as (pre & v & post & c & Ev & Hc & ->); [rewrite To; exact Hj|].
    rewrite (Dx pre v post c Ev Hc). unfold mean. rewrite Ev, side_spec by exact Hc.
    assert (Iv : is_vector v) by (rewrite Forall_forall in Ve; apply Ve; rewrite Ev; apply in_elt). rewrite (proj2 Iv). ring. }
  rewrite (X b d i Hi D2), (X b' d i Hi D2'). apply Rminus_diag_uniq.
  revert i Hi. apply (kernel (ls_nvars ls) (fun i j => H b i j / T) (L b) C2 (fun i => (d b s i - delta b i) - (d b' s i - delta b' i))). intros k Hk.
  transitivity (rsum (ls_nvars ls) (fun i => L b i k * (d b s i - delta b i)) - rsum (ls_nvars ls) (fun i => L b i k * (d b' s i - delta b' i))).
  - rewrite <- rsum_minus. apply rsum_ext; intros; ring.
  - rewrite (D1 k Hk), (D1' k Hk). ring.
Qed.

(** After one Gauss-Newton iteration on a linear problem the variables are at the minimum; the solver still holds the linearization at the start, whose
    step has been taken already; the samples are centred one step beyond *)
Theorem C79_mean_refuted : exists A c x0, let p := linear_problem 1 1 A c in forall solve th x1 delta, sound solve ->
  truncated p solve 1 None 1 x0 th = Some x1 -> solve (dofs p) (AtA p x0 th) (Atb p x0 th) = Some delta ->
  positive_definite 1 (AtA p x0 th) /\ stationary p x1 th /\ ~ stationary p (fun j => x1 j + delta j) th.
Proof.
  exists (fun _ _ => 1), (fun _ _ => -1), (fun _ => 0). intros p solve th x1 delta So H Hd.
  pose proof (So _ _ _ _ Hd) as Sv. cbn [truncated] in H. unfold unroll_step in H. change (damped_matrix None (AtA p (fun _ => 0) th)) with (AtA p (fun _ => 0) th) in H.
  rewrite Hd in H. injection H as <-.
  assert (D : delta 0%nat = 1).
  { specialize (Sv 0%nat ltac:(cbn; lia)). cbn in Sv. lra. }
  split; [|split].
  - intros v (i & Hi & Hv). assert (i = 0%nat) by lia; subst. unfold quad. cbn. nra.
  - intros k Hk. cbn in *. assert (k = 0%nat) by lia; subst. rewrite D. lra.
  - intros N. specialize (N 0%nat ltac:(cbn; lia)). cbn in N. rewrite D in N. lra.
Qed.

(** Noise with these moments exists, for every size: one entry at a time is drawn, with a random sign *)
Theorem C79_standard_exists n m : (0 < n)%nat -> (0 < m)%nat -> exists (W : Type) (E : (W -> R) -> R) (y : W -> nat -> nat -> R), expectation E /\ standard E n m y.
Proof.
  intros Hn Hm. set (N := (n * m)%nat). assert (HN : 0 < INR N) by (apply lt_0_INR; unfold N; nia).
  exists (nat * bool)%type, (fun f => / (2 * INR N) * rsum N (fun k => f (k, true) + f (k, false))),
    (fun (w : nat * bool) i s => if ((fst w =? i * m + s)%nat : bool) then (if (snd w : bool) then sqrt (INR N) else - sqrt (INR N)) else 0).
  split; [split; [|split; [|split]]|split].
  - intros f g H. f_equal. apply rsum_ext; intros k _. rewrite !H. reflexivity.
  - intros f g. rewrite <- Rmult_plus_distr_l, <- rsum_plus. f_equal. apply rsum_ext; intros; ring.
  - intros c f. rewrite (rsum_ext N _ (fun k => c * (f (k, true) + f (k, false)))) by (intros; ring). rewrite rsum_scal. ring.
  - rewrite (rsum_ext N _ (fun _ => 2)) by (intros; ring). rewrite rsum_const. field. lra.
  - intros i s Hi Hs. cbn [fst snd]. rewrite rsum_0; [ring|]. intros k _. destruct (k =? i * m + s)%nat; ring.
  - intros i s j s' Hi Hs Hj Hs'. cbn [fst snd].
    assert (Sq : sqrt (INR N) * sqrt (INR N) = INR N) by (apply sqrt_sqrt; lra).
    destruct ((i =? j) && (s =? s'))%nat eqn:E.
    + apply andb_true_iff in E. destruct E as [E1 E2]. apply Nat.eqb_eq in E1, E2. subst.
      rewrite (rsum_ext N _ (fun k => if (k =? j * m + s')%nat then 2 * INR N else 0)).
      * rewrite (rsum_delta N (j * m + s') (fun _ => 2 * INR N)). destruct (Nat.ltb_spec (j * m + s') N) as [|G]; [field; lra|unfold N in G; nia].
      * intros k _. destruct (k =? j * m + s')%nat; [|ring]. replace (- sqrt (INR N) * - sqrt (INR N)) with (sqrt (INR N) * sqrt (INR N)) by ring. rewrite Sq. ring.
    + rewrite rsum_0; [ring|]. intros k _. destruct (Nat.eqb_spec k (i * m + s)) as [E1|]; [|ring]. destruct (Nat.eqb_spec k (j * m + s')) as [E2|]; [|ring]. exfalso.
      assert (i = j /\ s = s') as [-> ->].
      { assert (i = (k / m)%nat) by (apply (Nat.div_unique k m i s); lia). assert (j = (k / m)%nat) by (apply (Nat.div_unique k m j s'); lia). assert (i = j) by congruence. subst. lia. }
      rewrite !Nat.eqb_refl in E. discriminate.
Qed.
(** a solver that meets the hypotheses: two elements, two variables, one of them with two degrees of freedom *)
Example samples_ex : let ls := mkLsolver (Some (fun b i => INR (b + i))) (Some (fun b i j => if (i =? j)%nat then INR (b + i + 1) else 0))
    [mkSvar 2 [2%nat] (fun _ _ => 1) (fun a d i => a i + d i); mkSvar 1 [1%nat] (fun b _ => INR b) (fun a d i => a i + d i)] 3 Float32 in
  Forall is_vector (ls_ordering ls) /\ total_dof (ls_ordering ls) = ls_nvars ls /\
  forall b, (b < 2)%nat -> symmetric 3 (fun i j => if (i =? j)%nat then INR (b + i + 1) else 0) /\ positive_definite 3 (fun i j => if (i =? j)%nat then INR (b + i + 1) else 0).
Proof.
  cbn zeta. split; [repeat constructor|]. split; [reflexivity|]. intros b Hb. split.
  - intros i j _ _. rewrite (Nat.eqb_sym j i). destruct (Nat.eqb_spec i j); [subst; reflexivity|reflexivity].
  - intros v (i & Hi & Hv). unfold quad. cbn [rsum Nat.eqb]. pose proof (pos_INR b). rewrite !plus_INR. cbn [INR].
    assert (C : forall r, 0 <= r * r) by (intros; nra).
    assert (i = 0 \/ i = 1 \/ i = 2)%nat as [-> | [-> | ->]] by lia;
      match goal with H : v ?k <> 0 |- _ => assert (0 < v k * v k) by nra end; pose proof (C (v 0%nat)); pose proof (C (v 1%nat)); pose proof (C (v 2%nat)); nra.
Qed.
