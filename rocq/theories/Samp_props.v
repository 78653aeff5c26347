(** C79: the samples of compute_samples have the mean and the covariance of the Gaussian (Laplace) approximation. *)
From Coq Require Import Reals List Lia Lra Arith Bool.
From Verif Require Import RSum Emb2_spec Chol Samp_model.
Import ListNotations.
Local Open Scope R_scope.

(** ** specification *)
(** a linear expectation on functions of an outcome of the noise *)
Definition expectation {W : Type} (E : (W -> R) -> R) : Prop :=
  (forall f g, (forall w, f w = g w) -> E f = E g) /\ (forall f g, E (fun w => f w + g w) = E f + E g) /\
  (forall c f, E (fun w => c * f w) = c * E f) /\ E (fun _ => 1) = 1.
(** noise with the first two moments of torch.normal(0, 1): n rows, m columns, uncorrelated *)
Definition standard {W} (E : (W -> R) -> R) (n m : nat) (y : W -> nat -> nat -> R) : Prop :=
  (forall i s, (i < n)%nat -> (s < m)%nat -> E (fun w => y w i s) = 0) /\
  (forall i s j s', (i < n)%nat -> (s < m)%nat -> (j < n)%nat -> (s' < m)%nat ->
     E (fun w => y w i s * y w j s') = if ((i =? j) && (s =? s'))%nat then 1 else 0).
(** the values of the variables side by side, and the number of their degrees of freedom *)
Fixpoint side_by_side (vars : list svar) (b i : nat) : R := match vars with
  | [] => 0 | v :: vs => if (i <? vdof v)%nat then vdata v b i else side_by_side vs b (i - vdof v)%nat end.
Definition total_dof (vars : list svar) : nat := list_sum (map vdof vars).
(** a vector: its tensor has as many columns as degrees of freedom, retract adds *)
Definition is_vector (v : svar) : Prop := vshape v = [vdof v] /\ forall a d i, vretract v a d i = a i + d i.

(** ** proofs *)
Lemma back_solves n U y k : (k <= n)%nat -> (forall i, (i < n)%nat -> U i i <> 0) ->
  forall i, (n - k <= i < n)%nat -> rsum (n - i) (fun c => U i (i + c)%nat * back n U y k (i + c)%nat) = y i.
Proof.
  intros Hk Hd. induction k as [|k IH]; intros i Hi; [lia|].
  assert (Hin : (n - S k < n)%nat) by lia.
  destruct (Nat.eq_dec i (n - S k)) as [E|E].
  - subst i. replace (n - (n - S k))%nat with (S k) by lia. rewrite rsum_S_first. cbn [back]. rewrite Nat.add_0_r, Nat.eqb_refl.
    assert (S1 : rsum k (fun i => U (n - S k)%nat (n - S k + S i)%nat * (if (n - S k + S i =? n - S k)%nat then
       (y (n - S k)%nat - rsum k (fun c => U (n - S k)%nat (S (n - S k) + c)%nat * back n U y k (S (n - S k) + c)%nat)) / U (n - S k)%nat (n - S k)%nat
       else back n U y k (n - S k + S i)%nat)) = rsum k (fun c => U (n - S k)%nat (S (n - S k) + c)%nat * back n U y k (S (n - S k) + c)%nat)).
    { apply rsum_ext; intros c Hc. destruct (Nat.eqb_spec (n - S k + S c) (n - S k)); [lia|]. replace (n - S k + S c)%nat with (S (n - S k) + c)%nat by lia. reflexivity. }
    rewrite S1. field. apply Hd; lia.
  - rewrite <- (IH ltac:(lia) i ltac:(lia)). apply rsum_ext; intros c Hc. cbn [back]. destruct (Nat.eqb_spec (i + c) (n - S k)); [lia|reflexivity].
Qed.
(** L^T (solve_triangular (L^T) y) = y *)
Lemma solve_upper_solves n A L y : is_cholesky n A L -> forall i, (i < n)%nat -> rsum n (fun j => L j i * solve_upper n (fun r c => L c r) y j) = y i.
Proof.
  intros (Hu & Hd & _) i Hi. unfold solve_upper.
  pose proof (back_solves n (fun r c => L c r) y n (le_n n)) as B. cbn beta in B.
  rewrite <- (B ltac:(intros k Hk; pose proof (Hd k Hk); lra) i ltac:(lia)). replace n with (i + (n - i))%nat at 1 by lia. rewrite rsum_app.
  rewrite rsum_0; [ring|]. intros k Hk. rewrite Hu by lia. ring.
Qed.

(** what is written *)
Lemma write_vars_spec vars off b d x : Forall (fun v => vshape v = [vdof v]) vars -> exists x', write_vars vars off b d x = Some x' /\
  (forall i, (i < off)%nat -> x' i = x i) /\
  (forall pre v post c, vars = pre ++ v :: post -> (c < vdof v)%nat ->
     x' (off + total_dof pre + c)%nat = vretract v (vdata v b) (fun i => d (off + total_dof pre + i)%nat) c).
Proof.
  revert off x; induction vars as [|v vs IH]; intros off x F.
  - exists x. split; [reflexivity|]. split; [reflexivity|]. intros [|? pre] v post c Hv; discriminate.
  - inversion F as [|? ? E F']; subst. cbn [write_vars]. rewrite E, Nat.eqb_refl.
    edestruct (IH (off + vdof v)%nat) as (x' & H1 & H2 & H3); [exact F'|]. exists x'. split; [exact H1|]. split.
    + intros i Hi. rewrite H2 by lia. destruct (Nat.leb_spec off i); [lia|]. reflexivity.
    + intros pre u post c Hp Hc. destruct pre as [|p pre]; cbn [app] in Hp; injection Hp as Hp1 Hp2; subst.
      * unfold total_dof; cbn [map list_sum fold_right]. rewrite Nat.add_0_r. rewrite H2 by lia.
        destruct (Nat.leb_spec off (off + c)); [|lia]. destruct (Nat.ltb_spec (off + c) (off + vdof u)); [|lia]. cbn [andb].
        replace (off + c - off)%nat with c by lia. reflexivity.
      * unfold total_dof; cbn [map list_sum fold_right]. fold (list_sum (map vdof pre)). fold (total_dof pre).
        specialize (H3 pre u post c eq_refl Hc). rewrite !Nat.add_assoc. exact H3.
Qed.
Lemma find_var vars i : (i < total_dof vars)%nat -> exists pre v post c, vars = pre ++ v :: post /\ (c < vdof v)%nat /\ i = (total_dof pre + c)%nat.
Proof.
  revert i; induction vars as [|v vs IH]; intros i H; [cbn in H; lia|]. unfold total_dof in H; cbn [map list_sum fold_right] in H. fold (list_sum (map vdof vs)) in H. fold (total_dof vs) in H.
  destruct (lt_dec i (vdof v)) as [L|L]; [exists [], v, vs, i; auto|].
  destruct (IH (i - vdof v)%nat ltac:(lia)) as (pre & u & post & c & -> & Hc & Hi). exists (v :: pre), u, post, c.
  split; [reflexivity|]. split; [exact Hc|]. unfold total_dof in *; cbn [map list_sum fold_right]. fold (list_sum (map vdof pre)). lia.
Qed.
Lemma side_spec pre v post b c : (c < vdof v)%nat -> side_by_side (pre ++ v :: post) b (total_dof pre + c)%nat = vdata v b c.
Proof.
  intros H. induction pre as [|p pre IH]; cbn [app side_by_side]; unfold total_dof; cbn [map list_sum fold_right].
  - change (0 + c)%nat with c. destruct (Nat.ltb_spec c (vdof v)); [reflexivity|lia].
  - fold (list_sum (map vdof pre)). fold (total_dof pre). destruct (Nat.ltb_spec (vdof p + total_dof pre + c) (vdof p)); [lia|].
    replace (vdof p + total_dof pre + c - vdof p)%nat with (total_dof pre + c)%nat by lia. exact IH.
Qed.
Lemma all_defined_true n f : all_defined n f = true <-> forall i, (i < n)%nat -> f i = true.
Proof. unfold all_defined. rewrite forallb_forall. split; intros H i Hi; apply H; [apply in_seq; lia|apply in_seq in Hi; lia]. Qed.

Section P.
Variable cholesky : nat -> (nat -> nat -> R) -> option (nat -> nat -> R).
Hypothesis Fac : factorizes cholesky.
Variable default : dtype.

(** When it returns samples: every sample is the retraction of the current variables along a tangent vector [d], and
    L^T (d - delta) is the column of the noise, where L L^T = AtA / T *)
Theorem C79_samples ls B m T y delta H : 0 < T -> ls_solve ls = Some delta -> ls_hessian ls = Some H -> ls_dtype ls = default ->
  (forall b, (b < B)%nat -> symmetric (ls_nvars ls) (H b) /\ positive_definite (ls_nvars ls) (H b)) ->
  Forall (fun v => vshape v = [vdof v]) (ls_ordering ls) ->
  exists x L d, compute_samples cholesky default (Some ls) B m T y = Samples x /\
  forall b, (b < B)%nat ->
    cholesky (ls_nvars ls) (fun i j => H b i j / T) = Some (L b) /\ is_cholesky (ls_nvars ls) (fun i j => H b i j / T) (L b) /\
    forall s, (s < m)%nat ->
      (forall i, (i < ls_nvars ls)%nat -> rsum (ls_nvars ls) (fun j => L b j i * (d b s j - delta b j)) = y i s) /\
      (forall pre v post c, ls_ordering ls = pre ++ v :: post -> (c < vdof v)%nat ->
         x b (total_dof pre + c)%nat s = vretract v (vdata v b) (fun i => d b s (total_dof pre + i)%nat) c).
Proof.
  intros HT Es Eh Ed Pd Sh. set (n := ls_nvars ls) in *.
  assert (Ch : forall b, (b < B)%nat -> exists l, cholesky n (fun i j => H b i j / T) = Some l /\ is_cholesky n (fun i j => H b i j / T) l).
  { intros b Hb. destruct (Pd b Hb) as [Sy Po]. pose proof (Fac n (fun i j => H b i j / T)) as F. destruct (cholesky n (fun i j => H b i j / T)) as [l|] eqn:E; [eauto|]. exfalso.
    destruct (positive_definite_cholesky n (fun i j => H b i j / T)) as [l Hl]; [| |exact (F l Hl)].
    - intros i j Hi Hj. rewrite (Sy i j Hi Hj). reflexivity.
    - intros v Hv. assert (E2 : quad n (fun i j => H b i j / T) v = / T * quad n (H b) v).
      { unfold quad. rewrite <- rsum_scal. apply rsum_ext; intros i _. rewrite <- rsum_scal. apply rsum_ext; intros j _. unfold Rdiv. ring. }
      unfold quad in *. rewrite E2. apply Rmult_lt_0_compat; [apply Rinv_0_lt_compat; exact HT|apply Po; exact Hv]. }
  set (L := fun b => match cholesky n (fun i j => H b i j / T) with Some l => l | None => fun _ _ => 0 end).
  set (d := fun b s i => solve_upper n (fun r c => L b c r) (fun r => y r s) i + delta b i).
  unfold compute_samples. rewrite Es, Eh, Ed. fold n.
  replace (all_defined B _) with true.
  2:{ symmetry. apply all_defined_true. intros b Hb. destruct (Ch b Hb) as (l & -> & _). reflexivity. }
  replace (dtype_eqb default default) with true by (destruct default; reflexivity).
  assert (W : forall b s, (b < B)%nat -> exists x', write_vars (ls_ordering ls) 0 b (fun i => match cholesky n (fun i j => H b i j / T) with
      Some l => solve_upper n (fun r c => l c r) (fun r => y r s) i + delta b i | None => 0 end) (fun _ => 0) = Some x' /\
      forall pre v post c, ls_ordering ls = pre ++ v :: post -> (c < vdof v)%nat -> x' (total_dof pre + c)%nat = vretract v (vdata v b) (fun i => d b s (total_dof pre + i)%nat) c).
  { intros b s Hb. destruct (Ch b Hb) as (l & E & _).
    destruct (write_vars_spec (ls_ordering ls) 0 b (d b s) (fun _ => 0) Sh) as (x' & H1 & _ & H3). exists x'. split.
    - unfold d, L in H1. rewrite E in *. exact H1.
    - intros pre v post c Hp Hc. exact (H3 pre v post c Hp Hc). }
  replace (all_defined B _) with true.
  2:{ symmetry. apply all_defined_true. intros b Hb. apply all_defined_true. intros s Hs. destruct (W b s Hb) as (x' & -> & _). reflexivity. }
  do 3 eexists. split; [reflexivity|]. intros b Hb. destruct (Ch b Hb) as (l & E & Hl).
  assert (EL : L b = l) by (unfold L; rewrite E; reflexivity).
  split; [instantiate (1 := L); rewrite EL; exact E|]. split; [rewrite EL; exact Hl|]. intros s Hs. split.
  - intros i Hi. instantiate (1 := d). rewrite <- (solve_upper_solves n _ (L b) (fun r => y r s) ltac:(rewrite EL; exact Hl) i Hi).
    apply rsum_ext; intros j _. unfold d. ring.
  - intros pre v post c Hp Hc. destruct (W b s Hb) as (x' & Ex & Hx). cbn beta. rewrite Ex. apply (Hx pre v post c Hp Hc).
Qed.

(** ** moments *)
Section Moments.
Context {W : Type} (E : (W -> R) -> R) (HE : expectation E).
Lemma E_ext f g : (forall w, f w = g w) -> E f = E g. Proof. apply HE. Qed.
Lemma E_plus f g : E (fun w => f w + g w) = E f + E g. Proof. apply HE. Qed.
Lemma E_scal c f : E (fun w => c * f w) = c * E f. Proof. apply HE. Qed.
Lemma E_const c : E (fun _ => c) = c.
Proof. transitivity (E (fun _ : W => c * 1)); [apply E_ext; intros; ring|]. rewrite (E_scal c (fun _ => 1)). rewrite (proj2 (proj2 (proj2 HE))). ring. Qed.
Lemma E_rsum n (f : nat -> W -> R) : E (fun w => rsum n (fun k => f k w)) = rsum n (fun k => E (f k)).
Proof. induction n as [|n IH]; cbn [rsum]; [apply E_const|]. rewrite <- IH. apply (E_plus (fun w => rsum n (fun k => f k w)) (f n)). Qed.

(** what L^T dev = noise says about the moments of dev *)
Variables (n m : nat) (A l : nat -> nat -> R) (y dev : W -> nat -> nat -> R).
Hypothesis Sy : symmetric n A.
Hypothesis Hl : is_cholesky n A l.
Hypothesis St : standard E n m y.
Hypothesis Hd : forall w s i, (s < m)%nat -> (i < n)%nat -> rsum n (fun j => l j i * dev w j s) = y w i s.
Lemma kernel x : (forall k, (k < n)%nat -> rsum n (fun i => l i k * x i) = 0) -> forall i, (i < n)%nat -> x i = 0.
Proof.
  intros H. destruct Hl as (Hu & Hp & _). apply lower_kernel with (L := l); [exact Hu|exact Hp|]. intros k Hk. rewrite <- (H k Hk). apply rsum_ext; intros; ring.
Qed.
Lemma dev_mean s j : (s < m)%nat -> (j < n)%nat -> E (fun w => dev w j s) = 0.
Proof.
  intros Hs. apply (kernel (fun j => E (fun w => dev w j s))). intros k Hk.
  rewrite <- (proj1 St k s Hk Hs). rewrite (E_ext (fun w => y w k s) (fun w => rsum n (fun i => l i k * dev w i s))) by (intros w; symmetry; apply Hd; assumption).
  rewrite (E_rsum n (fun i w => l i k * dev w i s)). apply rsum_ext; intros i _. symmetry; apply E_scal.
Qed.
Lemma cross_noise r s q s' : (r < n)%nat -> (s < m)%nat -> (q < n)%nat -> (s' < m)%nat ->
  rsum n (fun j => l j q * E (fun w => y w r s * dev w j s')) = if ((r =? q) && (s =? s'))%nat then 1 else 0.
Proof.
  intros Hr Hs Hq Hs'. rewrite <- (proj2 St r s q s' Hr Hs Hq Hs').
  rewrite (E_ext (fun w => y w r s * y w q s') (fun w => rsum n (fun j => l j q * (y w r s * dev w j s')))).
  - rewrite (E_rsum n (fun j w => l j q * (y w r s * dev w j s'))). apply rsum_ext; intros j _. symmetry; apply E_scal.
  - intros w. rewrite <- (Hd w s' q Hs' Hq), <- rsum_scal. apply rsum_ext; intros; ring.
Qed.
Lemma cross_dev r s j s' : (r < n)%nat -> (s < m)%nat -> (j < n)%nat -> (s' < m)%nat ->
  rsum n (fun k => l k r * E (fun w => dev w k s * dev w j s')) = E (fun w => y w r s * dev w j s').
Proof.
  intros Hr Hs Hj Hs'.
  rewrite (E_ext (fun w => y w r s * dev w j s') (fun w => rsum n (fun k => l k r * (dev w k s * dev w j s')))).
  - rewrite (E_rsum n (fun k w => l k r * (dev w k s * dev w j s'))). apply rsum_ext; intros k _. symmetry; apply E_scal.
  - intros w. rewrite <- (Hd w s r Hs Hr), <- rsum_scal_r. apply rsum_ext; intros; ring.
Qed.
Lemma dev_uncorrelated i s j s' : (i < n)%nat -> (s < m)%nat -> (j < n)%nat -> (s' < m)%nat -> s <> s' -> E (fun w => dev w i s * dev w j s') = 0.
Proof.
  intros Hi Hs Hj Hs' N. revert i Hi. apply (kernel (fun i => E (fun w => dev w i s * dev w j s'))). intros r Hr. rewrite cross_dev by assumption.
  revert j Hj. apply (kernel (fun j => E (fun w => y w r s * dev w j s'))). intros q Hq. rewrite cross_noise by assumption.
  destruct (Nat.eqb_spec s s'); [contradiction|]. rewrite andb_false_r. reflexivity.
Qed.
Lemma dev_cov i s j : (i < n)%nat -> (s < m)%nat -> (j < n)%nat -> rsum n (fun k => A i k * E (fun w => dev w k s * dev w j s)) = if (i =? j)%nat then 1 else 0.
Proof.
  intros Hi Hs Hj.
  transitivity (rsum n (fun r => l i r * E (fun w => y w r s * dev w j s))).
  - transitivity (rsum n (fun k => rsum n (fun r => l i r * (l k r * E (fun w => dev w k s * dev w j s))))).
    + apply rsum_ext; intros k Hk. rewrite <- (is_cholesky_full n A l Sy Hl i k Hi Hk), <- rsum_scal_r. apply rsum_ext; intros; ring.
    + rewrite rsum_exch. apply rsum_ext; intros r Hr. rewrite rsum_scal, cross_dev by assumption. reflexivity.
  - enough (Z : forall j, (j < n)%nat -> rsum n (fun r => l i r * E (fun w => y w r s * dev w j s)) - (if (i =? j)%nat then 1 else 0) = 0) by (specialize (Z j Hj); lra).
    apply (kernel (fun j => rsum n (fun r => l i r * E (fun w => y w r s * dev w j s)) - (if (i =? j)%nat then 1 else 0))). intros q Hq.
    transitivity (rsum n (fun j => l j q * rsum n (fun r => l i r * E (fun w => y w r s * dev w j s))) - rsum n (fun j => if (j =? i)%nat then l j q else 0)).
    + rewrite <- rsum_minus. apply rsum_ext; intros k _. rewrite (Nat.eqb_sym k i). destruct (i =? k)%nat; ring.
    + rewrite (rsum_delta n i (fun j => l j q)). destruct (Nat.ltb_spec i n); [|lia].
      assert (X : rsum n (fun j => l j q * rsum n (fun r => l i r * E (fun w => y w r s * dev w j s))) = rsum n (fun r => l i r * (if (r =? q)%nat then 1 else 0))).
      { transitivity (rsum n (fun j => rsum n (fun r => l i r * (l j q * E (fun w => y w r s * dev w j s))))).
        - apply rsum_ext; intros k _. rewrite <- rsum_scal. apply rsum_ext; intros; ring.
        - rewrite rsum_exch. apply rsum_ext; intros r Hr. rewrite rsum_scal, cross_noise by assumption. rewrite Nat.eqb_refl, andb_true_r. reflexivity. }
      rewrite X. rewrite (rsum_ext n _ (fun r => if (r =? q)%nat then l i r else 0)) by (intros r _; destruct (r =? q)%nat; ring).
      rewrite (rsum_delta n q (fun r => l i r)). destruct (Nat.ltb_spec q n); [ring|lia].
Qed.
End Moments.

Definition samples_of (o : outcome (nat -> nat -> nat -> R)) : nat -> nat -> nat -> R := match o with Samples x => x | _ => fun _ _ _ => 0 end.
(** Vectors, noise with zero mean and unit covariance: the samples of every batch element have mean x + delta and covariance T (AtA)^-1, and the samples
    are uncorrelated with each other *)
Theorem C79_moments W (E : (W -> R) -> R) (y : W -> nat -> nat -> R) ls B m T delta H : expectation E -> standard E (ls_nvars ls) m y ->
  0 < T -> ls_solve ls = Some delta -> ls_hessian ls = Some H -> ls_dtype ls = default ->
  (forall b, (b < B)%nat -> symmetric (ls_nvars ls) (H b) /\ positive_definite (ls_nvars ls) (H b)) ->
  Forall is_vector (ls_ordering ls) -> total_dof (ls_ordering ls) = ls_nvars ls ->
  let x w := samples_of (compute_samples cholesky default (Some ls) B m T (y w)) in
  let mean b i := side_by_side (ls_ordering ls) b i + delta b i in
  (forall w, compute_samples cholesky default (Some ls) B m T (y w) = Samples (x w)) /\
  forall b, (b < B)%nat -> forall s s' i j, (s < m)%nat -> (s' < m)%nat -> (i < ls_nvars ls)%nat -> (j < ls_nvars ls)%nat ->
    E (fun w => x w b i s) = mean b i /\
    rsum (ls_nvars ls) (fun k => H b i k * E (fun w => (x w b k s - mean b k) * (x w b j s - mean b j))) = (if (i =? j)%nat then T else 0) /\
    (s <> s' -> E (fun w => (x w b i s - mean b i) * (x w b j s' - mean b j)) = 0).
Proof.
  intros HE St HT Es Eh Ed Pd Ve To x mean. set (n := ls_nvars ls) in *.
  assert (Sh : Forall (fun v => vshape v = [vdof v]) (ls_ordering ls)) by (eapply Forall_impl; [|exact Ve]; intros v [Hv _]; exact Hv).
  assert (R : forall w, compute_samples cholesky default (Some ls) B m T (y w) = Samples (x w) /\ forall b, (b < B)%nat ->
     exists l, cholesky n (fun i j => H b i j / T) = Some l /\ is_cholesky n (fun i j => H b i j / T) l /\
     forall s i, (s < m)%nat -> (i < n)%nat -> rsum n (fun j => l j i * (x w b j s - mean b j)) = y w i s).
  { intros w. destruct (C79_samples ls B m T (y w) delta H HT Es Eh Ed Pd Sh) as (x0 & L & d & E0 & P0). fold n in P0.
    assert (Ex : x w = x0) by (unfold x; rewrite E0; reflexivity). rewrite Ex. split; [exact E0|]. intros b Hb. destruct (P0 b Hb) as (C1 & C2 & C3).
    exists (L b). split; [exact C1|]. split; [exact C2|]. intros s i Hs Hi. destruct (C3 s Hs) as [D1 D2]. rewrite <- (D1 i Hi). apply rsum_ext; intros j Hj. f_equal.
    destruct (find_var (ls_ordering ls) j) as (pre & v & post & c & Ev & Hc & ->); [rewrite To; exact Hj|].
    rewrite (D2 pre v post c Ev Hc). unfold mean. rewrite Ev, side_spec by exact Hc.
    assert (Iv : is_vector v) by (rewrite Forall_forall in Ve; apply Ve; rewrite Ev; apply in_elt). rewrite (proj2 Iv). ring. }
  split; [intros w; apply R|]. intros b Hb s s' i j Hs Hs' Hi Hj.
  assert (L : exists l, is_cholesky n (fun i j => H b i j / T) l /\ forall w s i, (s < m)%nat -> (i < n)%nat -> rsum n (fun j => l j i * (x w b j s - mean b j)) = y w i s).
  { destruct (cholesky n (fun i j => H b i j / T)) as [l|] eqn:E0.
    - exists l. split; [pose proof (Fac n (fun i j => H b i j / T)) as F; rewrite E0 in F; exact F|]. intros w. destruct (R w) as [_ R2]. destruct (R2 b Hb) as (l' & E1 & _ & R3).
      rewrite E0 in E1. injection E1 as <-. exact R3.
    - exfalso. pose proof (Fac n (fun i j => H b i j / T)) as F. rewrite E0 in F. destruct (Pd b Hb) as [Sy Po].
      destruct (positive_definite_cholesky n (fun i j => H b i j / T)) as [l Hl]; [| |exact (F l Hl)].
      + intros a c Ha Hc. rewrite (Sy a c Ha Hc). reflexivity.
      + intros v Hv. assert (E2 : quad n (fun i j => H b i j / T) v = / T * quad n (H b) v).
        { unfold quad. rewrite <- rsum_scal. apply rsum_ext; intros a _. rewrite <- rsum_scal. apply rsum_ext; intros c _. unfold Rdiv. ring. }
        unfold quad in *. rewrite E2. apply Rmult_lt_0_compat; [apply Rinv_0_lt_compat; exact HT|apply Po; exact Hv]. }
  destruct L as (l & Hl & Hd).
  assert (Sy : symmetric n (fun i j => H b i j / T)) by (destruct (Pd b Hb) as [Sy _]; intros a c Ha Hc; rewrite (Sy a c Ha Hc); reflexivity).
  set (dev := fun w j s => x w b j s - mean b j). 
  split; [|split].
  - pose proof (dev_mean E HE n m (fun i j => H b i j / T) l y dev Hl St Hd s i Hs Hi) as M. unfold dev in M.
    rewrite (E_ext E HE (fun w => x w b i s) (fun w => (x w b i s - mean b i) + mean b i)) by (intros; ring).
    rewrite (E_plus E HE (fun w => x w b i s - mean b i) (fun _ => mean b i)). rewrite M, (E_const E HE). ring.
  - pose proof (dev_cov E HE n m (fun i j => H b i j / T) l y dev Sy Hl St Hd i s j Hi Hs Hj) as C. unfold dev in C. 
    transitivity (T * rsum n (fun k => H b i k / T * E (fun w => (x w b k s - mean b k) * (x w b j s - mean b j)))).
    + rewrite <- rsum_scal. apply rsum_ext; intros k _. field. lra.
    + rewrite C. destruct (i =? j)%nat; ring.
  - intros N. exact (dev_uncorrelated E HE n m (fun i j => H b i j / T) l y dev Hl St Hd i s j s' Hi Hs Hj Hs' N).
Qed.
End P.
