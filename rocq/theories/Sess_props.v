(** C82: a layer call is a function of its arguments. *)
From Coq Require Import List Arith Bool ZArith QArith Lia.
From Verif Require Import Dict Obj_model Upd_model Upd_proofs QSum NL_model LM_model LU_model LU_props Sess_model Sess_spec.
Import ListNotations.
Local Open Scope nat_scope.

(** ---- the LU contexts ---- *)
Definition binv (s : lu) : Prop := forall b id, fst (rctx s) = Some b -> In id (ctxs s) -> c_batch (heap s id) = b.
Lemma binv_fresh a : binv (fresh a).
Proof. intros b id H. discriminate. Qed.
Lemma reset_batch b k s : inv s -> binv s -> binv (LU_model.reset b k s).
Proof.
  intros I B. unfold LU_model.reset. destruct (match rctx s with (Some b', Some k') => _ | _ => false end); [exact B|].
  intros b0 id H Hin. cbn [fst rctx ctxs heap] in *. injection H as <-. apply in_seq in Hin.
  replace ((nalloc s <=? id) && (id <? nalloc s + fill k (snd (rctx s)) 1)) with true; [reflexivity|].
  symmetry. apply andb_true_intro. split; [apply Nat.leb_le|apply Nat.ltb_lt]; lia.
Qed.
Lemma reset_auto b k s : auto_reset (LU_model.reset b k s) = auto_reset s.
Proof. unfold LU_model.reset. destruct (match rctx s with (Some b', Some k') => _ | _ => false end); reflexivity. Qed.
Lemma reset_fst b k s v : b = Some v -> fst (rctx (LU_model.reset b k s)) = Some v.
Proof.
  intros ->. unfold LU_model.reset. cbn [fill]. destruct (rctx s) as [[b'|] [k'|]] eqn:R; cbn [fst snd]; try reflexivity.
  destruct (_ && _) eqn:H; [|reflexivity]. apply andb_true_iff in H as [H _]. apply Nat.eqb_eq in H. subst. now rewrite R.
Qed.
Lemma set_obj_batch h i c j : c_batch c = c_batch (h i) -> c_batch (set_obj h i c j) = c_batch (h j).
Proof. intros H. unfold set_obj. destruct (Nat.eqb_spec j i); subst; auto. Qed.

(** a usable solver: one that resets itself and has contexts *)
Definition lu_good (s : lu) : Prop := inv s /\ binv s /\ auto_reset s = true /\ exists k b, rctx s = (Some b, Some k) /\ k <> 0.
Definition lu_wf (s : lu) : Prop := inv s /\ binv s /\ match rctx s with (Some _, None) | (None, Some _) => False | _ => True end.

Lemma binv_solve ob ab ok s : inv s -> binv s -> binv (fst (solve ob ab ok s)).
Proof.
  intros I B. pose proof (solve_cases ob ab ok s) as C. destruct (prepared ob s) as [s1|] eqn:P; [|rewrite C; exact B].
  assert (B1 : binv s1). { destruct (prepared_cases _ _ _ P) as [->| ->]; [exact B|now apply reset_batch]. }
  destruct C; cbn [fst]; try exact B1; intros bb idd Hbb Hin; cbn in *; try (rewrite set_obj_batch by (subst; reflexivity)); now apply B1.
Qed.

Lemma reset_good b k s : lu_wf s -> auto_reset s = true -> k <> 0 -> lu_good (LU_model.reset b (Some k) s).
Proof.
  intros (I & B & _) A K. split; [now apply inv_reset|]. split; [now apply reset_batch|]. split; [now rewrite reset_auto|].
  destruct (reset_K b k s) as (b' & R). exists k, b'. auto.
Qed.
Lemma good_solve n ok s : lu_good s -> exists l j, solve n n ok s = (l, if ok then Ok j else Raise) /\ lu_good l.
Proof.
  intros (I & B & A & k & b & R & K).
  pose proof (binv_solve n n ok s I B) as B'.
  pose proof (inv_step s (OSolve n n ok) I) as I'. cbn [step] in I'.
  pose proof (solve_keeps_K n n ok s k) as K'. cbn [step] in K'. rewrite R in K'. specialize (K' eq_refl).
  assert (P : exists s1, prepared n s = Some s1 /\ inv s1 /\ binv s1 /\ auto_reset s1 = true /\ rctx s1 = (Some n, Some k)).
  { unfold prepared. rewrite A. pose proof (i_k s I) as IK. rewrite R in IK. cbn [snd] in IK. destruct IK as [IL _].
    destruct (ctxs s) as [|c0 t] eqn:EC; [cbn in IL; lia|].
    eexists. split; [reflexivity|].
    destruct (Nat.eqb_spec (c_batch (heap s c0)) n) as [Hb|Hb].
    - split; [exact I|]. split; [exact B|]. split; [exact A|]. rewrite R. do 2 f_equal. rewrite <- Hb. symmetry. apply B.
      + now rewrite R.
      + rewrite EC. left. reflexivity.
    - split; [now apply inv_reset|]. split; [now apply reset_batch|]. split; [now rewrite reset_auto|].
      assert (S2 : snd (rctx (LU_model.reset (Some n) None s)) = Some k).
      { destruct (reset_cases (Some n) None s) as [->|(b2 & k2 & -> & Ek)]; [now rewrite R|]. cbn. rewrite R in Ek. cbn in Ek. congruence. }
      pose proof (reset_fst (Some n) None s n eq_refl) as S1. destruct (rctx (LU_model.reset (Some n) None s)) as [p q]. cbn in *. congruence. }
  destruct P as (s1 & P & I1 & B1 & A1 & R1).
  unfold solve in *. fold (prepared n s) in *. rewrite P in *. rewrite R1 in *. cbn [snd] in *. destruct k as [|k]; [congruence|].
  cbv zeta in *.
  destruct (pos_lt (S k) ((last s1 + 1) mod Z.of_nat (S k))%Z s1 I1) as [PL _]; [now rewrite R1|discriminate|reflexivity|].
  set (l := ((last s1 + 1) mod Z.of_nat (S k))%Z) in *. clearbody l.
  assert (HB : c_batch (heap s1 (nth (Z.to_nat l) (ctxs s1) 0)) = n) by (apply B1; [now rewrite R1|now apply nth_In]).
  rewrite HB, Nat.eqb_refl in *. cbn [negb] in *.
  destruct ok; cbn [fst] in *; (eexists; exists (length (tape s1)); split; [reflexivity|]);
    (split; [exact I'|]; split; [exact B'|]; split; [exact A1|]); exists (S k), n; split; auto.
Qed.

(** ---- simulation of the optimization loop ---- *)
Section Sim.
Context {X D Z1 Z2 : Type}.
Variable n : nat.
Variable errf : X -> ext.
Variable retr : X -> D -> X.
Variables (cd1 gn1 : Z1 -> (nat -> X) -> Z1 * option (nat -> D)) (cd2 gn2 : Z2 -> (nat -> X) -> Z2 * option (nat -> D)).
Variable comp1 : Z1 -> (nat -> X) -> (nat -> D) -> (nat -> ext) -> (nat -> ext) -> Z1 * option (nat -> bool).
Variable comp2 : Z2 -> (nat -> X) -> (nat -> D) -> (nat -> ext) -> (nat -> ext) -> Z2 * option (nat -> bool).
Variable scale : D -> D.
Variable abs_tol rel_tol : Q.
(** [Rel]: between iterations; [Lin x]: after a linearization at [x] *)
Variable Rel : Z1 -> Z2 -> Prop.
Variable Lin : (nat -> X) -> Z1 -> Z2 -> Prop.
Hypothesis Lin_Rel : forall x z w, Lin x z w -> Rel z w.
Hypothesis H_cd : forall x z w, Rel z w -> snd (cd1 z x) = snd (cd2 w x) /\ Lin x (fst (cd1 z x)) (fst (cd2 w x)).
Hypothesis H_gn : forall x z w, Rel z w -> snd (gn1 z x) = snd (gn2 w x) /\ Lin x (fst (gn1 z x)) (fst (gn2 w x)).
Hypothesis H_comp : forall x z w d e p, Lin x z w -> snd (comp1 z x d e p) = snd (comp2 w x d e p) /\ Rel (fst (comp1 z x d e p)) (fst (comp2 w x d e p)).
Notation body1 := (body n errf retr cd1 gn1 comp1 scale abs_tol rel_tol).
Notation body2 := (body n errf retr cd2 gn2 comp2 scale abs_tol rel_tol).
Notation loop1 := (loop n errf retr cd1 gn1 comp1 scale abs_tol rel_tol).
Notation loop2 := (loop n errf retr cd2 gn2 comp2 scale abs_tol rel_tol).

(** equal but for the internal state *)
Definition srel (s : @lstate X Z1) (t : @lstate X Z2) : Prop :=
  Rel (l_z s) (l_z t) /\ l_x s = l_x t /\ l_it s = l_it t /\ l_attempts s = l_attempts t /\ l_conv s = l_conv t /\
  l_info s = l_info t /\ l_iters_done s = l_iters_done t /\ l_solves s = l_solves t /\ l_recorded s = l_recorded t.
Inductive orel : @outcome X Z1 -> @outcome X Z2 -> Prop :=
| orel_f s t : srel s t -> orel (Finished s) (Finished t)
| orel_x s t : srel s t -> orel (Failed s) (Failed t)
| orel_r s t : srel s t -> orel (Raised s) (Raised t).
Inductive crel : @control X Z1 -> @control X Z2 -> Prop :=
| crel_n s t : srel s t -> crel (Next s) (Next t)
| crel_s o p : orel o p -> crel (Stop o) (Stop p).

Lemma step_sim x z w d pe conv fu fg : Lin x z w ->
  let r1 := NL_model.step n errf retr comp1 z x d pe conv fu fg in
  let r2 := NL_model.step n errf retr comp2 w x d pe conv fu fg in
  Rel (fst (fst (fst r1))) (fst (fst (fst r2))) /\ snd (fst (fst r1)) = snd (fst (fst r2)) /\ snd (fst r1) = snd (fst r2) /\ snd r1 = snd r2.
Proof.
  intros L. cbv zeta. unfold NL_model.step. cbv zeta.
  set (e := fun i => errf _). clearbody e.
  destruct fg.
  - cbn. split; [eapply Lin_Rel; eauto|auto].
  - destruct (H_comp x z w d e pe L) as [Hs Hr].
    destruct (comp1 z x d e pe) as [z' rej], (comp2 w x d e pe) as [w' rej']. cbn [fst snd] in *. subst rej'.
    destruct rej as [m|]; [|cbn; auto]. destruct (all_b n m); cbn; auto.
Qed.

Lemma body_sim g li st s t : srel s t -> crel (body1 g li st s) (body2 g li st t).
Proof.
  intros (HR & Hx & Hit & Ha & Hc & Hi & Hd & Hso & Hre). unfold body.
  rewrite <- Hx, <- Hit, <- Ha, <- Hc, <- Hi, <- Hd, <- Hso, <- Hre.
  set (r1 := if li then match gn1 (l_z s) (l_x s) with (z, Some d) => (z, Some d) | (z, None) => if st then (z, None) else cd1 z (l_x s) end else cd1 (l_z s) (l_x s)).
  set (r2 := if li then match gn2 (l_z t) (l_x s) with (z, Some d) => (z, Some d) | (z, None) => if st then (z, None) else cd2 z (l_x s) end else cd2 (l_z t) (l_x s)).
  assert (H : snd r1 = snd r2 /\ Lin (l_x s) (fst r1) (fst r2)).
  { unfold r1, r2. clear r1 r2. destruct li; [|now apply H_cd].
    destruct (H_gn (l_x s) _ _ HR) as [Hs Hl].
    destruct (gn1 (l_z s) (l_x s)) as [z [d|]], (gn2 (l_z t) (l_x s)) as [w [d'|]]; cbn [fst snd] in *; try discriminate.
    - split; [exact Hs|exact Hl].
    - destruct st; [split; [reflexivity|exact Hl]|]. apply H_cd. eapply Lin_Rel; eauto. }
  clearbody r1 r2. destruct H as [Hs Hl]. destruct r1 as [z [d|]], r2 as [w [d'|]]; cbn [fst snd] in *; try discriminate.
  - injection Hs as <-.
    match goal with |- context [NL_model.step n errf retr comp1 z ?x ?dd ?pe ?cv ?fu ?fg] => pose proof (step_sim x z w dd pe cv fu fg Hl) as S end.
    cbv zeta in S.
    destruct (NL_model.step n errf retr comp1 _ _ _ _ _ _ _) as [[[z' x'] err] ar].
    destruct (NL_model.step n errf retr comp2 _ _ _ _ _ _ _) as [[[w' x2] err2] ar2].
    cbn [fst snd] in S. destruct S as (SR & <- & <- & <-). cbv zeta.
    destruct (ar && _); [constructor; repeat split; auto|].
    destruct (all_b n _); [constructor; constructor; repeat split; auto|constructor; repeat split; auto].
  - destruct g; constructor; constructor; repeat split; auto; cbn; eapply Lin_Rel; eauto.
Qed.

Definition oorel (a : option (@outcome X Z1)) (b : option (@outcome X Z2)) : Prop :=
  match a, b with Some o, Some p => orel o p | None, None => True | _, _ => False end.
Lemma finish_sim s t : srel s t -> srel (finish_state s) (finish_state t).
Proof. intros (HR & Hx & Hit & Ha & Hc & Hi & Hd & Hso & Hre). unfold finish_state. rewrite <- Hx, <- Hit, <- Ha, <- Hc, <- Hi, <- Hd, <- Hso, <- Hre. repeat split; auto. Qed.
Lemma loop_sim num g li st : forall fuel s t, srel s t -> oorel (loop1 fuel num g li st s) (loop2 fuel num g li st t).
Proof.
  induction fuel as [|k IH]; intros s t H; pose proof H as (_ & _ & Hit & _); cbn [loop]; rewrite <- Hit; destruct (l_it s <? num); cbn [oorel]; auto;
    try (constructor; now apply finish_sim).
  pose proof (body_sim g li st s t H) as B. destruct B as [s' t' H'|o p O]; [now apply IH|].
  destruct O as [a b Hab|a b Hab|a b Hab]; cbn [oorel]; constructor; auto. now apply finish_sim.
Qed.
Lemma init_sim z w x f : Rel z w -> srel (loop_init z x f) (loop_init w x f).
Proof. intros H. repeat split; auto. Qed.
End Sim.

(** ---- one call ---- *)
Section Call.
Context {E : Type}.
Variable dflt : E.
Notation X := (list E * list E)%type.
Notation D := (nat -> Q).
Variable errf : X -> ext.
Variable linf : X -> linz.
Variable retrf : list E -> D -> list E.
Variable solve1 : linz -> option (Q * bool * Q) -> option D.
Variable dogleg : nat -> (nat -> linz) -> (nat -> nat -> Q) -> (nat -> D) -> (nat -> Q) -> nat -> D.
Variable c : cfg.
Variable kw : kwargs.
Variable n : nat.

Definition Rel (z : ost) (w : ist) : Prop :=
  (c_kind c = LM -> z_damp z = w_damp w) /\ (c_kind c = DL -> z_radius z = w_radius w) /\ (c_solver c = LUcuda -> lu_good (z_lu z)).
Definition Lin (x : nat -> X) (z : ost) (w : ist) : Prop :=
  Rel z w /\ z_A z = Some (fun i => linf (x i)) /\
  (z_Atb z = None \/ z_Atb z = Some (fun i => Atb (linf (x i)))) /\
  (z_diag z = None \/ z_diag z = Some (fun i k => AtA (linf (x i)) k k)).

Lemma Lin_lin x z w : Rel z w -> Lin x (linearize linf c z x) w.
Proof. intros H. unfold linearize, Lin, Rel in *. destruct (c_solver c); cbn; (split; [exact H|]); auto. Qed.
Lemma Lin_Rel' x z w : Lin x z w -> Rel z w. Proof. intros H. apply H. Qed.

Lemma solve_sim x damp z w : Lin x z w ->
  snd (solver_solve solve1 c n damp z) = ideal_solve linf solve1 n damp x /\ Lin x (fst (solver_solve solve1 c n damp z)) w.
Proof.
  intros ((Hd & Hr & Hl) & HA & Hb & Hg). unfold solver_solve, ideal_solve. unfold buf_A. rewrite HA. cbv zeta.
  destruct (c_solver c) eqn:EC; try (cbn [fst snd]; split; [reflexivity|]; unfold Lin, Rel; rewrite EC; auto).
  set (ok := forallb _ _). destruct (good_solve n ok (z_lu z) (Hl eq_refl)) as (l & j & -> & G).
  cbn [fst snd]. split; [destruct ok; reflexivity|]. unfold Lin, Rel. cbn. rewrite EC. auto 10.
Qed.
Lemma read_sim x z w : Lin x z w -> read_Atb z = (fst (read_Atb z), fun i => Atb (linf (x i))) /\ Lin x (fst (read_Atb z)) w.
Proof.
  intros ((Hd & Hr & Hl) & HA & Hb & Hg). unfold read_Atb. destruct Hb as [-> |Hb].
  - unfold buf_A. rewrite HA. cbn. split; [reflexivity|]. unfold Lin, Rel. cbn. auto 10.
  - rewrite Hb. cbn. split; [reflexivity|]. unfold Lin, Rel. auto 10.
Qed.
Lemma diag_sim x z w : Lin x z w -> read_diag z = (fst (read_diag z), fun i k => AtA (linf (x i)) k k) /\ Lin x (fst (read_diag z)) w.
Proof.
  intros ((Hd & Hr & Hl) & HA & Hb & Hg). unfold read_diag. destruct Hg as [-> |Hg].
  - unfold buf_A. rewrite HA. cbn. split; [reflexivity|]. unfold Lin, Rel. cbn. auto 10.
  - rewrite Hg. cbn. split; [reflexivity|]. unfold Lin, Rel. auto 10.
Qed.
Lemma cd_sim x z w : Rel z w ->
  snd (compute_delta linf solve1 dogleg c kw n z x) = snd (ideal_delta linf solve1 dogleg c kw n w x) /\
  Lin x (fst (compute_delta linf solve1 dogleg c kw n z x)) (fst (ideal_delta linf solve1 dogleg c kw n w x)).
Proof.
  intros H. unfold compute_delta, ideal_delta. cbn [fst snd]. pose proof (Lin_lin x z w H) as L.
  set (z1 := linearize linf c z x) in *. clearbody z1.
  destruct (c_kind c) eqn:EK.
  - apply solve_sim. exact L.
  - destruct L as [L1 L2]. pose proof L1 as (Hd & _). specialize (Hd EK). rewrite Hd.
    destruct (c_solver c); try (destruct (k_ell kw || is_some (k_eps kw)); [cbn; split; [reflexivity|split; auto]|]); apply solve_sim; split; auto.
  - pose proof (solve_sim x (fun _ => None) z1 w L) as [Hs Hl].
    destruct (solver_solve solve1 c n (fun _ => None) z1) as [z2 [gn|]]; cbn [fst snd] in *; rewrite <- Hs; [|auto].
    destruct (read_sim x z2 w Hl) as [HB HL]. rewrite HB. cbn [fst snd]. split; [|exact HL].
    destruct HL as ((_ & Hr & _) & HA & _). rewrite (Hr EK). unfold buf_A. rewrite HA. reflexivity.
Qed.
Lemma gn_sim x z w : Rel z w -> snd (gn_solve linf solve1 c n z x) = snd (ideal_gn linf solve1 n w x) /\
  Lin x (fst (gn_solve linf solve1 c n z x)) (fst (ideal_gn linf solve1 n w x)).
Proof. intros H. unfold gn_solve, ideal_gn. apply solve_sim. now apply Lin_lin. Qed.
Lemma comp_sim x z w d e p : Lin x z w ->
  snd (complete c kw z x d e p) = snd (ideal_complete linf c kw w x d e p) /\
  Rel (fst (complete c kw z x d e p)) (fst (ideal_complete linf c kw w x d e p)).
Proof.
  intros L. unfold complete, ideal_complete. destruct (c_kind c) eqn:EK.
  - cbn. split; [reflexivity|apply L].
  - unfold lm_complete. destruct (k_adaptive kw).
    2:{ cbn. split; [reflexivity|]. destruct L as ((Hd & Hr & Hl) & _). unfold Rel. rewrite EK. cbn. split; [auto|]. split; [discriminate|auto]. }
    assert (G : exists z1 dg, (if k_ell kw then read_diag z else (z, fun _ _ => 0%Q)) = (z1, dg) /\ Lin x z1 w /\
                (k_ell kw = true -> dg = fun i k => AtA (linf (x i)) k k)).
    { destruct (k_ell kw); [|exists z, (fun _ _ => 0%Q); split; [reflexivity|split; [exact L|discriminate]]].
      destruct (diag_sim x z w L) as [HB HL]. do 2 eexists. split; [exact HB|]. auto. }
    destruct G as (z1 & dg & -> & L1 & HD). destruct (read_sim x z1 w L1) as [HB HL]. rewrite HB. cbv zeta.
    cbn [fst snd]. destruct HL as ((Hd & Hr & Hl) & HA & _). rewrite (Hd EK). unfold buf_A. rewrite HA.
    clear HB. unfold buf_accept, lm_check_accept, lm_den, lm_damp, Rel. rewrite EK.
    destruct (k_ell kw); [rewrite (HD eq_refl)|]; cbn [fst snd z_damp z_radius z_lu w_damp w_radius];
      (split; [reflexivity|]; split; [reflexivity|]; split; [discriminate|auto]).
  - destruct (read_sim x z w L) as [HB HL]. rewrite HB. cbv zeta. unfold tr_complete. cbn [fst snd].
    destruct HL as ((Hd & Hr & Hl) & HA & _). rewrite (Hr EK). unfold buf_A. rewrite HA. unfold Rel. rewrite EK.
    split; [reflexivity|]. split; [discriminate|]. split; [reflexivity|exact Hl].
Qed.

Lemma loop_ideal num g li z w x : Rel z w ->
  oorel Rel (the_loop errf linf retrf solve1 dogleg c kw n num g li z x)
   (loop n errf (retr retrf) (ideal_delta linf solve1 dogleg c kw n) (ideal_gn linf solve1 n) (ideal_complete linf c kw) (scale c) (c_abs c) (c_rel c)
       (3 * num) num g li (k_strict kw) (loop_init w x (init_info errf x))).
Proof.
  intros H. unfold the_loop. eapply loop_sim with (Lin := Lin).
  - apply Lin_Rel'.
  - apply cd_sim.
  - apply gn_sim.
  - intros x0 z0 w0 d0 e0 p0 L. apply comp_sim. exact L.
  - now apply init_sim.
Qed.
Lemma reset_sim bnum z : (c_solver c = LUcuda -> lu_wf (z_lu z) /\ auto_reset (z_lu z) = true) ->
  negb (snd (reset c kw bnum z)) || bad_args c kw bnum = unsupported c kw bnum /\
  (unsupported c kw bnum = false -> Rel (fst (reset c kw bnum z)) (start kw)).
Proof.
  intros HL. unfold unsupported, reset, Rel, start. cbv zeta.
  assert (G : bad_args c kw bnum = false -> c_solver c = LUcuda -> lu_good (nlls_reset (k_ctxs kw) bnum (k_batch kw) (z_lu z))).
  { intros HB HC. destruct (HL HC) as [W A]. unfold bad_args in HB. rewrite HC in HB. apply orb_false_iff in HB as [_ HB].
    unfold nlls_reset. destruct (k_ctxs kw) as [k|]; apply Nat.eqb_neq in HB; apply reset_good; auto. lia. }
  destruct (c_kind c) eqn:EK; [|destruct (c_solver c) eqn:EC; [|destruct (k_adaptive kw)|]|]; cbn [fst snd negb orb z_damp z_radius z_lu];
    (split; [reflexivity|]); intros HB; try discriminate; (split; [|split]); try discriminate; try reflexivity; intros HC; try discriminate; try (rewrite HC in * ); auto; try discriminate.
Qed.
End Call.
