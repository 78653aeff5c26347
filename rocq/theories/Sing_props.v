(** C75: DenseSolver with check_singular. *)
From Coq Require Import Reals List Arith Bool Lra Lia.
From Verif Require Import RSum Adj_props Adj_diff Bwd_model Bwd_spec Desc_model Sing_model.
Import ListNotations.
Local Open Scope R_scope.

(** ** specification *)
(** M has a non-trivial kernel *)
Definition singular (n : nat) (M : mat) : Prop := exists v, (exists i, (i < n)%nat /\ v i <> 0) /\ forall c, (c < n)%nat -> mv n M v c = 0.
(** the factorization reports exactly the singular matrices (exact arithmetic) *)
Definition exact_test (lu : nat -> mat -> bool) : Prop := forall n M, lu n M = true <-> singular n M.
(** the system of one element: M + the damping of this element *)
Definition system_of (damping : damping_arg) (ellipsoidal : bool) (eps : R) (k : nat) (M : mat) : mat := match damping with
  | NoDamping => M
  | Number lam => damped_matrix (Some (lam, ellipsoidal, eps)) M
  | PerElement lams => damped_matrix (Some (nth (if Nat.eqb (length lams) 1 then 0%nat else k) lams 0, ellipsoidal, eps)) M
  end.
(** one damping for all elements *)
Definition common_damping (damping : damping_arg) : bool := match damping with PerElement lams => Nat.eqb (length lams) 1 | _ => true end.

Lemma all_or_none_spec {A} (l : list (option A)) r : all_or_none l = Some r <-> l = map Some r.
Proof.
  revert r. induction l as [|[a|] l IH]; intros r; cbn [all_or_none].
  - destruct r; split; intros H; try discriminate; [reflexivity|reflexivity].
  - destruct (all_or_none l) as [s|].
    + split; intros H; [injection H as <-; cbn [map]; f_equal; now apply IH|]. destruct r as [|b r]; [discriminate|]. injection H as -> H. apply IH in H. congruence.
    + split; intros H; [discriminate|]. destruct r as [|b r]; [discriminate|]. injection H as -> H. apply IH in H. discriminate.
  - split; intros H; [discriminate|]. destruct r; discriminate.
Qed.
Lemma broadcast_eq {A B C} (f : A -> B -> C) l r : length l = length r -> broadcast f l r = Some (map (fun p => f (fst p) (snd p)) (combine l r)).
Proof. intros H. unfold broadcast. now rewrite (proj2 (Nat.eqb_eq _ _) H). Qed.
Lemma broadcast_one {A B C} (f : A -> B -> C) a r : broadcast f [a] r = Some (map (f a) r).
Proof.
  unfold broadcast. destruct (Nat.eqb_spec (length [a]) (length r)) as [H|H]; [|reflexivity]. destruct r as [|b [|c r]]; try discriminate. reflexivity.
Qed.
Lemma broadcast_none {A B C} (f : A -> B -> C) l r : length l <> 1%nat -> length r <> 1%nat -> length l <> length r -> broadcast f l r = None.
Proof.
  intros H1 H2 H. unfold broadcast. destruct (Nat.eqb_spec (length l) (length r)) as [|_]; [contradiction|].
  destruct l as [|a [|a' l]]; [|exfalso; now apply H1|]; destruct r as [|b [|b' r]]; try reflexivity; exfalso; now apply H2.
Qed.
Section P.
Variable lu : nat -> mat -> bool.
Variable solve : nat -> mat -> vec -> option vec.
(** the damped matrices, when there is one damping for all or as many as elements *)
Definition damped_list (damping : damping_arg) ell eps (Ms : list mat) : list mat := match damping with
  | NoDamping => Ms
  | Number lam => map (damped_matrix (Some (lam, ell, eps))) Ms
  | PerElement [lam] => map (damped_matrix (Some (lam, ell, eps))) Ms
  | PerElement lams => map (fun p => damped_matrix (Some (fst p, ell, eps)) (snd p)) (combine lams Ms)
  end.
Lemma damp_and_solve_eq n damping ell eps bs Ms : length bs = length Ms ->
  (common_damping damping = true \/ exists lams, damping = PerElement lams /\ length lams = length Ms) ->
  length (damped_list damping ell eps Ms) = length Ms /\
  damp_and_solve solve n damping ell eps bs Ms = all_or_none (map (fun p => solve n (fst p) (snd p)) (combine (damped_list damping ell eps Ms) bs)).
Proof.
  intros L H.
  assert (K : forall Ms', length Ms' = length Ms -> solve_sytem solve n bs Ms' = all_or_none (map (fun p => solve n (fst p) (snd p)) (combine Ms' bs))).
  { intros Ms' L'. unfold solve_sytem. rewrite broadcast_eq by congruence. reflexivity. }
  unfold damp_and_solve, apply_damping. destruct damping as [|lam|lams]; cbn [damped_list].
  - split; [reflexivity|]. now apply K.
  - split; [now rewrite map_length|]. rewrite broadcast_one. apply K. now rewrite map_length.
  - destruct lams as [|lam [|lam' lams]].
    + destruct H as [H|(l & E & H)]; [discriminate|]. injection E as <-. destruct Ms; [|discriminate]. cbn [combine map]. split; [reflexivity|].
      rewrite broadcast_eq by reflexivity. cbn [combine map]. now apply K.
    + split; [now rewrite map_length|]. rewrite broadcast_one. apply K. now rewrite map_length.
    + destruct H as [H|(l & E & H)]; [discriminate|]. injection E as <-.
      assert (Lm : length (map (fun p => damped_matrix (Some (fst p, ell, eps)) (snd p)) (combine (lam :: lam' :: lams) Ms)) = length Ms).
      { rewrite map_length, combine_length, H. apply Nat.min_id. }
      split; [exact Lm|]. rewrite broadcast_eq by exact H. now apply K.
Qed.
Lemma damped_nth damping ell eps Ms k M : (common_damping damping = true \/ exists lams, damping = PerElement lams /\ length lams = length Ms) ->
  nth_error Ms k = Some M -> nth_error (damped_list damping ell eps Ms) k = Some (system_of damping ell eps k M).
Proof.
  intros H E. unfold damped_list, system_of. destruct damping as [|lam|lams]; [exact E|now apply map_nth_error|].
  destruct lams as [|lam [|lam' lams]].
  - destruct H as [H|(l & El & H)]; [discriminate|]. injection El as <-. destruct Ms; [destruct k; discriminate|discriminate].
  - cbn [length Nat.eqb nth]. now apply map_nth_error.
  - destruct H as [H|(l & El & H)]; [discriminate|]. injection El as <-. cbn [length Nat.eqb].
    assert (Hk : (k < length Ms)%nat) by (apply nth_error_Some; congruence).
    assert (C : nth_error (combine (lam :: lam' :: lams) Ms) k = Some (nth k (lam :: lam' :: lams) 0, M)).
    { assert (El : nth_error (lam :: lam' :: lams) k = Some (nth k (lam :: lam' :: lams) 0)) by (apply nth_error_nth'; lia).
      revert El E. generalize (nth k (lam :: lam' :: lams) 0) as z. generalize (lam :: lam' :: lams) as l. clear. induction Ms as [|a Ms IH] in k |- *; intros [|z0 l] z; destruct k; cbn [nth_error combine]; intros H1 H2; try discriminate; [congruence|now apply IH]. }
    exact (map_nth_error _ _ _ C).
Qed.
(** ** without the check *)
Lemma solve_rows n Ms bs out : length bs = length Ms -> all_or_none (map (fun p => solve n (fst p) (snd p)) (combine Ms bs)) = Some out ->
  length out = length Ms /\ forall k M b, nth_error Ms k = Some M -> nth_error bs k = Some b -> exists x, nth_error out k = Some x /\ solve n M b = Some x.
Proof.
  intros L H. apply all_or_none_spec in H. split.
  - apply (f_equal (@length _)) in H. rewrite !map_length, combine_length, L, Nat.min_id in H. now symmetry.
  - intros k M b HM Hb. assert (C : nth_error (combine Ms bs) k = Some (M, b)).
    { revert k HM Hb. clear. revert bs. induction Ms as [|a Ms IH]; intros [|z l] [|k]; cbn [nth_error combine]; intros H1 H2; try discriminate; [congruence|now apply IH]. }
    pose proof (map_nth_error (fun p => solve n (fst p) (snd p)) _ _ C) as E. cbn [fst snd] in E. rewrite H in E.
    assert (In : exists x, nth_error out k = Some x). { destruct (nth_error out k) eqn:N; [eexists; reflexivity|]. apply nth_error_None in N. assert (nth_error (map Some out) k = None) by (apply nth_error_None; now rewrite map_length). congruence. }
    destruct In as (x & N). exists x. split; [exact N|]. rewrite (map_nth_error _ _ _ N) in E. congruence.
Qed.
Lemma combine_nth {A B} (la : list A) (lb : list B) k a b : nth_error la k = Some a -> nth_error lb k = Some b -> nth_error (combine la lb) k = Some (a, b).
Proof. revert lb k. induction la as [|x la IH]; intros [|y lb] [|k]; cbn [nth_error combine]; intros H1 H2; try discriminate; [congruence|now apply IH]. Qed.
(** ** with the check *)
Lemma keep_length {A B} bad (l : list A) (r : list B) : length l = length r -> length (keep_good bad l) = length (keep_good bad r).
Proof.
  unfold keep_good. rewrite !map_length. revert l r. induction bad as [|b bad IH]; intros [|a l] [|c r] H; try discriminate; [reflexivity ..|].
  cbn [combine filter fst]. injection H as H. destruct b; cbn [negb length]; [|f_equal]; now apply IH.
Qed.
(** the k-th element, if good, is number [rank k] of the kept ones *)
Definition rank (bad : list bool) (k : nat) : nat := length (filter negb (firstn k bad)).
Lemma keep_nth {A} bad (l : list A) k a : nth_error bad k = Some false -> nth_error l k = Some a -> nth_error (keep_good bad l) (rank bad k) = Some a.
Proof.
  revert l k. induction bad as [|b bad IH]; intros [|c l] [|k] Hb Ha; try discriminate; cbn [nth_error] in *.
  - injection Hb as ->. exact Ha.
  - unfold keep_good, rank. cbn [combine filter fst firstn map negb]. destruct b; cbn [negb map length]; cbn [nth_error]; now apply IH.
Qed.
Lemma scatter_nth bad sol k : nth_error (scatter bad sol) k =
  match nth_error bad k with Some true => Some (fun _ => 0) | Some false => Some (nth (rank bad k) sol (fun _ => 0)) | None => None end.
Proof.
  revert sol k. induction bad as [|b bad IH]; intros sol [|k]; cbn [scatter nth_error]; try reflexivity.
  - destruct b; [reflexivity|]. cbn [nth_error]. unfold rank. cbn [firstn filter length]. now destruct sol.
  - destruct b; cbn [nth_error]; rewrite IH; [reflexivity|]. destruct (nth_error bad k) as [[]|]; try reflexivity.
    unfold rank. cbn [firstn filter negb length]. destruct sol as [|s sol]; cbn [tl nth]; [now destruct (length _)|reflexivity].
Qed.
Lemma system_common damping ell eps k k' M : common_damping damping = true -> system_of damping ell eps k M = system_of damping ell eps k' M.
Proof. destruct damping as [| |lams]; cbn [common_damping system_of]; try reflexivity. intros ->. reflexivity. Qed.
Lemma keep_all {A} (l : list A) n (Ms : list mat) : length l = length Ms -> (forall M, In M Ms -> lu n M = false) -> keep_good (map (lu n) Ms) l = l.
Proof.
  revert l. induction Ms as [|M Ms IH]; intros [|a l] L H; try discriminate; [reflexivity|]. unfold keep_good. cbn [map combine filter fst].
  rewrite (H M (or_introl eq_refl)). cbn [negb map snd]. f_equal. apply IH; [now injection L|]. intros M' H'. apply H. now right.
Qed.
End P.

(** With check_singular=True, data of the default dtype and either one damping for all elements or no singular element: the call succeeds if the
    solver succeeds on the (damped) systems of the non-singular elements, and then returns their solutions, and zero for the singular ones. *)
Theorem C75_check_singular : forall lu solve dt n damping ellipsoidal eps Atb AtA, length Atb = length AtA ->
  common_damping damping = true \/ (exists lams, damping = PerElement lams /\ length lams = length AtA /\ forall M, In M AtA -> lu n M = false) ->
  match dense_solve lu solve true dt dt n damping ellipsoidal eps Atb AtA with
  | Some out => length out = length AtA /\ forall k M b, nth_error AtA k = Some M -> nth_error Atb k = Some b ->
      exists x, nth_error out k = Some x /\ if lu n M then forall c, x c = 0 else solve n (system_of damping ellipsoidal eps k M) b = Some x
  | None => exists k M b, nth_error AtA k = Some M /\ nth_error Atb k = Some b /\ lu n M = false /\ solve n (system_of damping ellipsoidal eps k M) b = None
  end.
Proof.
  intros lu solve dt n damping ell eps bs Ms L H. unfold dense_solve. cbv zeta. set (bad := map (lu n) Ms).
  assert (Lk : length (keep_good bad bs) = length (keep_good bad Ms)) by now apply keep_length.
  assert (H' : common_damping damping = true \/ exists lams, damping = PerElement lams /\ length lams = length (keep_good bad Ms)).
  { destruct H as [H|(lams & E & Hl & Hg)]; [now left|]. right. exists lams. split; [exact E|]. unfold bad. now rewrite (keep_all lu Ms n Ms eq_refl Hg). }
  destruct (damp_and_solve_eq solve n damping ell eps (keep_good bad bs) (keep_good bad Ms) Lk H') as [Ld ->].
  assert (Sys : forall k M, nth_error Ms k = Some M -> lu n M = false -> system_of damping ell eps (rank bad k) M = system_of damping ell eps k M).
  { intros k M Hk Hl. destruct H as [H|(lams & E & Hlen & Hg)]; [now apply system_common|]. f_equal. unfold rank, bad.
    clear - Hk Hg. revert k Hk. induction Ms as [|M0 Ms IH]; intros [|k] Hk; try discriminate; [reflexivity|]. cbn [map firstn filter].
    rewrite (Hg M0 (or_introl eq_refl)). cbn [negb length]. f_equal. apply IH; [|exact Hk]. intros M' H'. apply Hg. now right. }
  assert (Bk : forall k M, nth_error Ms k = Some M -> nth_error bad k = Some (lu n M)) by (intros k M Hk; unfold bad; now apply map_nth_error).
  destruct (all_or_none _) as [sol|] eqn:E.
  - apply (solve_rows solve) in E; [|congruence]. destruct E as [Ls E]. rewrite Ld in Ls.
    replace (dtype_eqb dt dt) with true by (now destruct dt). cbn [orb]. rewrite Ls, Nat.eqb_refl. split.
    + transitivity (length bad); [|unfold bad; apply map_length]. clear. generalize sol. induction bad as [|b bad IH]; intros s; [reflexivity|]. destruct b; cbn [scatter length]; f_equal; apply IH.
    + intros k M b HM Hb. rewrite scatter_nth, (Bk k M HM). destruct (lu n M) eqn:Lu; [eexists; split; [reflexivity|reflexivity]|].
      pose proof (keep_nth bad Ms k M ltac:(rewrite (Bk k M HM), Lu; reflexivity) HM) as KM.
      pose proof (keep_nth bad bs k b ltac:(rewrite (Bk k M HM), Lu; reflexivity) Hb) as Kb.
      pose proof (damped_nth damping ell eps (keep_good bad Ms) (rank bad k) M H' KM) as Kd.
      destruct (E _ _ _ Kd Kb) as (x & Hx & Sx). exists x. split; [f_equal; now apply nth_error_nth|]. rewrite <- (Sys k M HM Lu). exact Sx.
  - assert (K : forall l, all_or_none (map (fun p : mat * vec => solve n (fst p) (snd p)) l) = None -> exists j p, nth_error l j = Some p /\ solve n (fst p) (snd p) = None).
    { clear. induction l as [|p l IH]; cbn [map all_or_none]; [discriminate|]. destruct (solve n (fst p) (snd p)) eqn:E; [|intros _; exists 0%nat, p; split; [reflexivity|exact E]].
      destruct (all_or_none _) eqn:E2; [discriminate|]. intros _. destruct (IH eq_refl) as (j & q & Hj & Hq). exists (S j), q. split; assumption. }
    destruct (K _ E) as (j & [Md b] & Hj & Hn). cbn [fst snd] in Hn.
    (* the j-th kept element comes from some k *)
    assert (R : forall bad' (Ms' : list mat) (bs' : list vec) j, length bad' = length Ms' -> length bs' = length Ms' -> (j < length (keep_good bad' Ms'))%nat ->
      exists k M b, nth_error Ms' k = Some M /\ nth_error bs' k = Some b /\ nth_error bad' k = Some false /\ rank bad' k = j).
    { clear. induction bad' as [|b bad' IH]; intros [|M Ms'] [|c bs'] j L1 L2 Hj; try discriminate; [cbn in Hj; lia|].
      injection L1 as L1. injection L2 as L2. unfold keep_good in Hj. cbn [combine filter fst] in Hj. destruct b; cbn [negb] in Hj.
      - destruct (IH Ms' bs' j L1 L2 Hj) as (k & M' & b' & A1 & A2 & A3 & A4). exists (S k), M', b'. repeat split; try assumption.
      - destruct j as [|j]; [exists 0%nat, M, c; repeat split|]. cbn [map length] in Hj.
        destruct (IH Ms' bs' j L1 L2 ltac:(unfold keep_good; lia)) as (k & M' & b' & A1 & A2 & A3 & A4). exists (S k), M', b'. repeat split; try assumption.
        unfold rank in *. cbn [firstn filter negb length]. now rewrite A4. }
    assert (Hj' : (j < length (keep_good bad Ms))%nat).
    { assert (j < length (combine (damped_list damping ell eps (keep_good bad Ms)) (keep_good bad bs)))%nat by (apply nth_error_Some; congruence). rewrite combine_length in H0. lia. }
    destruct (R bad Ms bs j ltac:(unfold bad; apply map_length) L Hj') as (k & M & b' & HM & Hb & Hbad & Hr).
    exists k, M, b'. assert (Lu : lu n M = false) by (rewrite (Bk k M HM) in Hbad; congruence). split; [exact HM|]. split; [exact Hb|]. split; [exact Lu|].
    rewrite <- (Sys k M HM Lu), Hr. pose proof (keep_nth bad Ms k M Hbad HM) as KM. pose proof (keep_nth bad bs k b' Hbad Hb) as Kb. rewrite Hr in KM, Kb.
    pose proof (damped_nth damping ell eps (keep_good bad Ms) j M H' KM) as Kd. pose proof (combine_nth _ _ j _ _ Kd Kb) as Cj.
    rewrite Cj in Hj. injection Hj as <- <-. exact Hn.
Qed.
(** Without the check every system is solved or the call raises. *)
Theorem C75_unchecked : forall lu solve default dt n damping ellipsoidal eps Atb AtA out, length Atb = length AtA ->
  common_damping damping = true \/ (exists lams, damping = PerElement lams /\ length lams = length AtA) ->
  dense_solve lu solve false default dt n damping ellipsoidal eps Atb AtA = Some out ->
  length out = length AtA /\ forall k M b, nth_error AtA k = Some M -> nth_error Atb k = Some b ->
    exists x, nth_error out k = Some x /\ solve n (system_of damping ellipsoidal eps k M) b = Some x.
Proof.
  intros lu solve df dt n damping ell eps bs Ms out L H E. unfold dense_solve in E.
  destruct (damp_and_solve_eq solve n damping ell eps bs Ms L H) as [Ld Ed]. rewrite Ed in E.
  apply (solve_rows solve) in E; [|congruence]. destruct E as [Ls E]. split; [congruence|]. intros k M b HM Hb.
  apply (E k); [|exact Hb]. now apply damped_nth.
Qed.
(** With an exact test and no damping, what the non-singular elements get is the only solution. *)
Theorem C75_unique : forall lu solve dt n eps ellipsoidal Atb AtA out k M b x, exact_test lu -> sound solve -> length Atb = length AtA ->
  dense_solve lu solve true dt dt n NoDamping ellipsoidal eps Atb AtA = Some out ->
  nth_error AtA k = Some M -> nth_error Atb k = Some b -> nth_error out k = Some x -> ~ singular n M ->
  solves n M x b /\ forall y, solves n M y b -> forall c, (c < n)%nat -> y c = x c.
Proof.
  intros lu solve dt n eps ell bs Ms out k M b x Ex So L E HM Hb Hx NS.
  pose proof (C75_check_singular lu solve dt n NoDamping ell eps bs Ms L (or_introl eq_refl)) as H. rewrite E in H. destruct H as [_ H].
  destruct (H k M b HM Hb) as (x' & Hx' & Sx). assert (x' = x) by congruence. subst x'.
  destruct (lu n M) eqn:Lu; [exfalso; now apply NS, Ex|]. cbn [system_of] in Sx. split; [exact (So _ _ _ _ Sx)|].
  intros y Hy c Hc. destruct (Req_dec (y c - x c) 0) as [Z|Z]; [lra|]. exfalso. apply NS. exists (fun i => y i - x i). split; [now exists c|].
  intros r Hr. transitivity (mv n M y r - mv n M x r); [unfold mv; rewrite <- rsum_minus; apply rsum_ext; intros; ring|]. rewrite (Hy r Hr), (So _ _ _ _ Sx r Hr). ring.
Qed.
(** Adaptive Levenberg-Marquardt passes one damping per element: with check_singular the call then raises as soon as one element is singular. *)
Theorem C75_per_element_refuted : forall lu solve default dt n lams ellipsoidal eps Atb AtA, (2 <= length AtA)%nat -> length Atb = length AtA ->
  length lams = length AtA -> (exists M, In M AtA /\ lu n M = true) ->
  dense_solve lu solve true default dt n (PerElement lams) ellipsoidal eps Atb AtA = None.
Proof.
  intros lu solve df dt n lams ell eps bs Ms B2 L Ll (M & HM & Lu). unfold dense_solve, damp_and_solve, apply_damping. cbv zeta. set (bad := map (lu n) Ms).
  assert (Lt : (length (keep_good bad Ms) < length Ms)%nat).
  { unfold keep_good, bad. rewrite map_length. clear - HM Lu. induction Ms as [|M0 Ms IH]; [destruct HM|]. cbn [map combine filter fst].
    assert (Le : (length (filter (fun p => negb (fst p)) (combine (map (lu n) Ms) Ms)) <= length Ms)%nat).
    { clear. induction Ms as [|M1 Ms IH]; [cbn; lia|]. cbn [map combine filter fst]. destruct (lu n M1); cbn [negb length]; lia. }
    destruct HM as [->|HM]; [rewrite Lu; cbn [negb length]; lia|]. specialize (IH HM). destruct (lu n M0); cbn [negb length]; lia. }
  assert (Lk : length (keep_good bad bs) = length (keep_good bad Ms)) by now apply keep_length.
  destruct (Nat.eq_dec (length (keep_good bad Ms)) 1) as [K1|K1].
  - destruct (keep_good bad Ms) as [|Mg [|? ?]] eqn:EM; try discriminate. destruct (keep_good bad bs) as [|bg [|? ?]] eqn:Eb; try discriminate.
    assert (Bl : broadcast (fun lam M => damped_matrix (Some (lam, ell, eps)) M) lams [Mg] = Some (map (fun lam => damped_matrix (Some (lam, ell, eps)) Mg) lams)).
    { unfold broadcast. destruct (Nat.eqb_spec (length lams) (length [Mg])) as [Q|Q]; [cbn in Q; lia|]. destruct lams as [|a [|a' l]]; [reflexivity|cbn in Ll; lia|reflexivity]. }
    rewrite Bl. unfold solve_sytem.
    assert (Bs : broadcast (fun M b => solve n M b) (map (fun lam => damped_matrix (Some (lam, ell, eps)) Mg) lams) [bg] = Some (map (fun M => solve n M bg) (map (fun lam => damped_matrix (Some (lam, ell, eps)) Mg) lams))).
    { unfold broadcast. rewrite map_length. destruct (Nat.eqb_spec (length lams) (length [bg])) as [Q|Q]; [cbn in Q; lia|]. destruct lams as [|a [|a' l]]; [reflexivity|cbn in Ll; lia|reflexivity]. }
    rewrite Bs. destruct (all_or_none _) as [sol|] eqn:E; [|reflexivity].
    assert (Ls : length sol = length Ms). { apply all_or_none_spec in E. apply (f_equal (@length _)) in E. rewrite !map_length in E. congruence. }
    destruct (dtype_eqb df dt || Nat.eqb (length sol * n) 1); [|reflexivity]. destruct (Nat.eqb_spec (length sol) (length [Mg])) as [Q|Q]; [cbn in Q; lia|].
    destruct sol as [|s [|s' sol]]; [reflexivity|cbn in Ls; lia|reflexivity].
  - rewrite broadcast_none; [reflexivity|lia|exact K1|lia].
Qed.
(** The output tensor has torch's default dtype: with data of another dtype the call raises even if nothing is singular. *)
Theorem C75_dtype_refuted : forall lu solve n damping ellipsoidal eps Atb AtA, (2 <= n)%nat ->
  dense_solve lu solve true Float32 Float64 n damping ellipsoidal eps Atb AtA = None.
Proof.
  intros lu solve n damping ell eps bs Ms Hn. unfold dense_solve. cbv zeta. destruct (damp_and_solve _ _ _ _ _ _ _) as [sol|]; [|reflexivity].
  cbn [dtype_eqb orb]. destruct (Nat.eqb_spec (length sol * n) 1) as [Q|Q]; [|reflexivity]. exfalso. destruct sol as [|s [|s' l]]; cbn [length] in Q; nia.
Qed.
(** Damping makes a rank deficient system solvable, but the test looks at the undamped matrix: the element does not move. *)
Definition deficient : mat := fun i j => match i, j with O, O => 1 | _, _ => 0 end.
Theorem C75_damped_refuted : forall lu solve dt lam eps ellipsoidal b out, exact_test lu ->
  dense_solve lu solve true dt dt 2 (Number lam) ellipsoidal eps [b] [deficient] = Some out ->
  (exists x, out = [x] /\ forall c, x c = 0) /\ (0 < lam -> ~ singular 2 (damped_matrix (Some (lam, false, eps)) deficient)).
Proof.
  intros lu solve dt lam eps ell b out Ex E.
  assert (Sg : lu 2%nat deficient = true).
  { apply Ex. exists (fun i => match i with O => 0 | _ => 1 end). split; [exists 1%nat; split; [lia|lra]|]. intros [|[|c]] Hc; [unfold mv; cbn; ring|unfold mv; cbn; ring|lia]. }
  split.
  - pose proof (C75_check_singular lu solve dt 2 (Number lam) ell eps [b] [deficient] eq_refl (or_introl eq_refl)) as H. rewrite E in H. destruct H as [Lo H].
    destruct (H 0%nat deficient b eq_refl eq_refl) as (x & Hx & Z). rewrite Sg in Z. destruct out as [|y [|? ?]]; try discriminate. exists y. cbn in Hx. injection Hx as ->. now split.
  - intros Hl (v & (i & Hi & Hv) & K). pose proof (K 0%nat ltac:(lia)) as K0. pose proof (K 1%nat ltac:(lia)) as K1. unfold mv in K0, K1.
    cbn [rsum damped_matrix deficient Nat.eqb] in K0, K1. assert (v 0%nat = 0) by nra. assert (v 1%nat = 0) by nra. destruct i as [|[|i]]; [auto|auto|lia].
Qed.
