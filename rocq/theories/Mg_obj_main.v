(** C73: main theorems over histories of ManifoldGaussian objects. *)
From Coq Require Import Reals List Arith Bool Lia Lra Psatz.
Import ListNotations.
From Verif Require Import RSum Mg_model Mg_spec Mg_inv Mg_props Mg_obj Mg_obj_props Mg_obj_new Mg_obj_hist.

Lemma Wf_copy_means : forall mean s, wf s -> (forall v, In v mean -> v < length (vars s)) ->
  Wf s (fst (copy_means s mean)) /\ (forall v, In v (snd (copy_means s mean)) -> v < length (vars (fst (copy_means s mean))))
  /\ gs (fst (copy_means s mean)) = gs s.
Proof.
  induction mean as [|v mean IH]; intros s W H; [split; [now apply Wf_refl|]; split; [contradiction|reflexivity]|].
  cbn [copy_means]. unfold var_copy. pose proof (Wf_new_tensor s (held s v) W) as F1. unfold new_tensor in *. cbn [fst] in F1.
  set (s1 := mkSt _ _ _) in *. assert (X : v_tensor (mkVar (v_dof (var_of s v)) (length (tens s))) < length (tens s1)) by (unfold s1; cbn; rewrite app_length; cbn; lia).
  pose proof (Wf_new_var s1 _ (proj1 F1) X) as F2. unfold new_var in *. cbn [fst] in F2. match type of F2 with Wf _ ?z => set (s2 := z) in * end.
  assert (LV2 : length (vars s2) = S (length (vars s))) by (unfold s2, s1; cbn [vars]; rewrite app_length; cbn; lia).
  assert (GS2 : gs s2 = gs s) by reflexivity.
  destruct (IH s2 (proj1 F2)) as (F3 & N3 & G3).
  { intros w Hw. specialize (H w ltac:(now right)). rewrite LV2. lia. }
  destruct (copy_means s2 mean) as [s3 ws]. cbn [fst snd] in *. split; [eapply Wf_trans; [exact F1|]; eapply Wf_trans; eassumption|]. split; [|rewrite G3; exact GS2].
  intros u [<-|Hu]; [|now apply N3]. destruct F3 as (_ & _ & L). rewrite LV2 in L. change (vars s1) with (vars s). lia.
Qed.
(** every reachable state is well-formed *)
Theorem C73_wf : forall s o, wf s -> op_ok s o -> wf (fst (step s o)).
Proof.
  intros s o W H. destruct o as [x|n t|t f|v t|mean p|g mean p|g|g dt dev]; cbn [step].
  - apply (Wf_new_tensor s x W).
  - apply (Wf_new_var s (mkVar n t) W). exact H.
  - destruct W as [W1 W2]. cbv zeta. cbn [fst]. split; cbn [tens vars gs]; rewrite replace_length; [exact W1|exact W2].
  - destruct (var_update s v t) as [s'|] eqn:E; [|exact W]. apply var_update_some in E. destruct E as (_ & ->). apply Wf_set_var; [exact W|apply H].
  - pose proof (Wf_new s mean p W H) as F. destruct (gauss_new s mean p) as [[s' g]|s']; apply F.
  - destruct H as (Hg & HM & HP). pose proof (Wf_update s (gauss_of s g) mean p W HM) as F.
    pose proof (update_frame s (gauss_of s g) mean p _ eq_refl) as (T & G & L & D & _).
    destruct (update s (gauss_of s g) mean p) as [[s' x]|s'] eqn:E; cbn [result fst] in *; [|apply F]. apply update_gauss in E. subst x.
    destruct (proj2 W g Hg) as (WM & WP & WD). apply (Wf_set_gauss s' g _ (proj1 F)); cbn [g_mean g_dof g_prec].
    + rewrite G. exact Hg.
    + rewrite T. exact HP.
    + rewrite L. exact WM.
    + rewrite WD. symmetry. apply total_ext. intros v _. apply D.
  - cbn [op_ok] in H. destruct (proj2 W g H) as (WM & WP & _). unfold gauss_copy.
    destruct (Wf_copy_means (g_mean (gauss_of s g)) s W WM) as (F1 & N1 & _). destruct (copy_means s (g_mean (gauss_of s g))) as [s1 ws]. cbn [fst snd] in *.
    set (y := tensor_of s1 _). pose proof (Wf_new_tensor s1 y (proj1 F1)) as F2. unfold new_tensor in *. cbn [fst] in F2. set (s2 := mkSt _ _ _) in *.
    pose proof (Wf_new s2 ws (Some (length (tens s1))) (proj1 F2)) as F3.
    assert (O : op_ok s2 (New ws (Some (length (tens s1))))).
    { split; [exact N1|]. intros t E. injection E as <-. unfold s2. cbn [tens]. rewrite app_length. cbn. lia. }
    specialize (F3 O). destruct (gauss_new s2 ws (Some (length (tens s1)))) as [[s' h]|s']; apply F3.
  - apply (to_spec s g dt dev W H).
Qed.

(** Operations that name only objects outside a region no outside object refers
    into leave the region as it is. *)
Theorem C73_separation : forall R l s, wf s -> sealed R s -> ops_ok s l -> Forall (outside R) l -> same_in R s (steps s l).
Proof.
  intro R. assert (One : forall s o, wf s -> sealed R s -> op_ok s o -> outside R o -> Fr R s (fst (step s o))).
  { intros s o W S H O. destruct o as [x|n t|t f|v t|mean p|g mean p|g|g dt dev]; cbn [step outside op_ok] in *.
    - apply (Fr_new_tensor R s x S).
    - apply (Fr_new_var R s (mkVar n t) S O).
    - cbv zeta. cbn [fst]. now apply Fr_write.
    - destruct (var_update s v t) as [s'|] eqn:E; [|now apply Fr_refl]. apply var_update_some in E. destruct E as (_ & ->). apply Fr_set_var; [exact S|apply O|apply O].
    - pose proof (Fr_new R s mean p S) as F. destruct H as (HM & _), O as (OM & OP). specialize (F ltac:(auto) OP). destruct (gauss_new s mean p) as [[s' g]|s']; exact F.
    - destruct H as (Hg & HM & HP), O as (OG & OM & OP).
      assert (NM : forall v, In v (g_mean (gauss_of s g)) -> ~ RV R v) by (destruct S as (_ & _ & _ & _ & S5); now apply S5).
      pose proof (Fr_update R s (gauss_of s g) mean p S NM ltac:(auto)) as F.
      pose proof (update_frame s (gauss_of s g) mean p _ eq_refl) as (T & G & L & D & _).
      destruct (update s (gauss_of s g) mean p) as [[s' x]|s'] eqn:E; cbn [result fst] in *; [|exact F]. apply update_gauss in E. subst x.
      eapply Fr_trans; [exact F|]. apply Fr_set_gauss; [apply F|rewrite G; exact Hg|exact OG|exact OP|exact NM].
    - pose proof (Fr_copy R s g S) as F. destruct (gauss_copy s g) as [[s' h]|s']; exact F.
    - now apply Fr_to. }
  induction l as [|o l IH]; intros s W S H O; [apply same_refl'|]. cbn [ops_ok] in H. destruct H as (H1 & H2). inversion O as [|? ? O1 O2]; subst.
  destruct (One s o W S H1 O1) as (S' & (A1 & A2 & A3) & _). pose proof (C73_wf s o W H1) as W'.
  destruct (IH _ W' S' H2 O2) as (B1 & B2 & B3). cbn [steps fold_left] in *. unfold steps in *.
  split; [|split]; intros; [rewrite B1, A1|rewrite B2, A2|rewrite B3, A3]; auto.
Qed.

Lemma nth_firstn {A} (l l' : list A) i d : firstn (length l) l' = l -> i < length l -> nth i l' d = nth i l d.
Proof.
  intros E H. transitivity (nth i (firstn (length l) l') d); [|now rewrite E].
  rewrite <- (firstn_skipn (length l) l') at 1. apply app_nth1. rewrite E. exact H.
Qed.

(** A copy is independent of the original (and of everything else): whatever is
    done without naming the copy's own objects leaves the copy's mean, precision
    and dof as they are; and whatever is done naming only the copy's objects and
    objects created later leaves every older object as it is. *)
Theorem C73_copy_independent : forall s g s' h, wf s -> g < length (gs s) -> gauss_copy s g = Ok (s', h) ->
  (forall l, ops_ok s' l ->
     Forall (outside (mkReg (fun t => length (tens s) <= t < length (tens s')) (fun v => length (vars s) <= v < length (vars s')) (fun x => x = h))) l ->
     gauss_of (steps s' l) h = gauss_of s' h
     /\ tensor_of (steps s' l) (g_prec (gauss_of s' h)) = tensor_of s (g_prec (gauss_of s g))
     /\ forall i, i < length (g_mean (gauss_of s g)) ->
          held (steps s' l) (nth i (g_mean (gauss_of s' h)) 0) = held s (nth i (g_mean (gauss_of s g)) 0))
  /\ (forall l, ops_ok s' l ->
     Forall (outside (mkReg (fun t => t < length (tens s)) (fun v => v < length (vars s)) (fun x => x < length (gs s)))) l ->
     (forall t, t < length (tens s) -> tensor_of (steps s' l) t = tensor_of s t)
     /\ (forall v, v < length (vars s) -> var_of (steps s' l) v = var_of s v)
     /\ (forall x, x < length (gs s) -> gauss_of (steps s' l) x = gauss_of s x)).
Proof.
  intros s g s' h W Hg E. pose proof (C73_copy s g W Hg) as C. cbv zeta in C. rewrite E in C.
  destruct C as (_ & -> & GS & V & T & M & LV & P & LT & D & TP & N & _). set (k := length (g_mean (gauss_of s g))) in *. set (G := gauss_of s' (length (gs s))) in *.
  assert (W' : wf s') by (pose proof (C73_wf s (Copy g) W Hg) as X; cbn [step] in X; rewrite E in X; exact X).
  assert (LG : length (gs s') = S (length (gs s))) by (rewrite GS, app_length; cbn; lia).
  assert (VO : forall v, v < length (vars s) -> var_of s' v = var_of s v) by (intros v Hv; now apply nth_firstn).
  assert (TO : forall t, t < length (tens s) -> tensor_of s' t = tensor_of s t) by (intros t Ht; now apply nth_firstn).
  assert (GO : forall x, x < length (gs s) -> gauss_of s' x = gauss_of s x) by (intros x Hx; unfold gauss_of; rewrite GS; now apply nth_app_old).
  destruct W as [W1 W2]. split; intros l OK OUT.
  - set (R := mkReg _ _ _) in OUT.
    assert (S : sealed R s').
    { split; [cbn; lia|]. split; [cbn; lia|]. split; [cbn; intros x ->; lia|]. split.
      - intros v Hv NV. cbn [RV RT R] in *. assert (v < length (vars s)) by lia. rewrite VO by assumption. specialize (W1 v ltac:(assumption)). lia.
      - intros x Hx NX. cbn [RG RT RV R] in *. assert (x < length (gs s)) by lia. rewrite GO by assumption. destruct (W2 x ltac:(assumption)) as (A & B & _).
        split; [lia|]. intros v Hv. specialize (A v Hv). lia. }
    destruct (C73_separation R l s' W' S OK OUT) as (S1 & S2 & S3). cbn [RT RV RG R] in *.
    split; [now apply S3|]. split; [rewrite S1 by lia; exact TP|]. intros i Hi. rewrite M, seq_nth by exact Hi. destruct (N i Hi) as (N1 & N2).
    unfold held at 1. rewrite S2 by lia. rewrite N1. cbn [v_tensor]. rewrite S1 by lia. rewrite <- N2. unfold held. now rewrite N1.
  - set (R := mkReg _ _ _) in OUT.
    assert (S : sealed R s').
    { split; [cbn; lia|]. split; [cbn; lia|]. split; [cbn; intros; lia|]. split.
      - intros v Hv NV. cbn [RV RT R] in *. destruct (N (v - length (vars s)) ltac:(lia)) as (N1 & _). replace (length (vars s) + (v - length (vars s))) with v in N1 by lia.
        rewrite N1. cbn [v_tensor]. lia.
      - intros x Hx NX. cbn [RG RT RV R] in *. assert (x = length (gs s)) by lia. subst x. fold G. rewrite P, M. split; [lia|]. intros v Hv. apply in_seq in Hv. lia. }
    destruct (C73_separation R l s' W' S OK OUT) as (S1 & S2 & S3). cbn [RT RV RG R] in *.
    split; [intros t Ht; rewrite S1 by exact Ht; now apply TO|]. split; [intros v Hv; rewrite S2 by exact Hv; now apply VO|]. intros x Hx. rewrite S3 by exact Hx. now apply GO.
Qed.

(** ---- consistency over histories ---- *)
(** an operation that does not replace the tensor of g's first variable, or write
    into g's precision, except through a successful update() or to() of g itself *)
Definition safe (s : st) (o : op) (g : gid) : Prop :=
  let x := gauss_of s g in
  match o with
  | Write t _ => t <> g_prec x
  | VarUpdate v _ => v <> nth 0 (g_mean x) 0
  | Update g' mean _ => if g' =? g then snd (step s o) = true /\ no_alias (g_mean x) mean else ~ In (nth 0 (g_mean x) 0) (g_mean (gauss_of s g'))
  | To g' _ _ => g' = g \/ ~ In (nth 0 (g_mean x) 0) (g_mean (gauss_of s g'))
  | _ => True
  end.
Fixpoint all_safe (s : st) (l : list op) (g : gid) : Prop :=
  match l with [] => True | o :: r => safe s o g /\ all_safe (fst (step s o)) r g end.

Lemma consistent_same s s' x : consistent s x ->
  (forall m0 r, g_mean x = m0 :: r -> t_shape (held s' m0) = t_shape (held s m0) /\ t_dtype (held s' m0) = t_dtype (held s m0) /\ t_dev (held s' m0) = t_dev (held s m0)) ->
  tensor_of s' (g_prec x) = tensor_of s (g_prec x) -> consistent s' x.
Proof.
  intros (m0 & r & E & (A & B & C & D)) H T. destruct (H m0 r E) as (H1 & H2 & H3). exists m0, r. split; [exact E|]. unfold precision_for. rewrite T, H1, H2, H3. repeat split; assumption.
Qed.
Lemma step_old s o : wf s -> op_ok s o -> (forall g, g < length (gs s) -> g < length (gs (fst (step s o)))).
Proof.
  intros W H g Hg. destruct o as [x|n t|t f|v t|mean p|g0 mean p|g0|g0 dt dev]; cbn [step fst] in *; try exact Hg.
  - destruct (var_update s v t) as [s'|] eqn:E; [|exact Hg]. apply var_update_some in E. destruct E as (_ & ->). exact Hg.
  - pose proof (C73_new s mean p W H) as C. destruct (gauss_new s mean p) as [[s' h]|s']; cbn [fst]; [|destruct C as (-> & _); exact Hg].
    destruct C as (_ & _ & _ & -> & _). rewrite app_length. lia.
  - pose proof (update_frame s (gauss_of s g0) mean p _ eq_refl) as (T & G & L & D & _).
    destruct (update s (gauss_of s g0) mean p) as [[s' x]|s']; cbn [result fst] in *; [unfold set_gauss; cbn [gs]; rewrite replace_length|]; rewrite G; exact Hg.
  - pose proof (C73_copy s g0 W H) as C. cbv zeta in C. unfold gauss_copy in *. destruct (proj2 W g0 H) as (WM & WP & _).
    destruct (Wf_copy_means (g_mean (gauss_of s g0)) s W WM) as (F1 & N1 & G1). destruct (copy_means s (g_mean (gauss_of s g0))) as [s1 ws]. cbn [fst snd] in *.
    unfold new_tensor in *. cbv iota beta in *. set (y := tensor_of s1 _) in *. pose proof (Wf_new_tensor s1 y (proj1 F1)) as F2. unfold new_tensor in F2. cbn [fst] in F2. set (s2 := mkSt (tens s1 ++ [y]) _ _) in *.
    assert (O : op_ok s2 (New ws (Some (length (tens s1))))).
    { split; [exact N1|]. intros t E. injection E as <-. unfold s2. cbn [tens]. rewrite app_length. cbn. lia. }
    pose proof (C73_new s2 ws (Some (length (tens s1))) (proj1 F2) O) as C2.
    destruct (gauss_new s2 ws (Some (length (tens s1)))) as [[s' h]|s']; cbn [fst].
    + destruct C2 as (_ & _ & _ & -> & _). rewrite app_length. unfold s2. cbn [gs]. rewrite G1. lia.
    + destruct C2 as (-> & _). unfold s2. cbn [gs]. rewrite G1. exact Hg.
  - destruct (to_spec s g0 dt dev W H) as (_ & _ & _ & L & _). rewrite L. exact Hg.
Qed.
Theorem C73_history : forall l s g, wf s -> g < length (gs s) -> consistent s (gauss_of s g) -> ops_ok s l -> all_safe s l g ->
  consistent (steps s l) (gauss_of (steps s l) g).
Proof.
  assert (One : forall s o g, wf s -> g < length (gs s) -> consistent s (gauss_of s g) -> op_ok s o -> safe s o g ->
    consistent (fst (step s o)) (gauss_of (fst (step s o)) g)).
  { intros s o g W Hg C H SF. set (x := gauss_of s g) in *. destruct (proj2 W g Hg) as (WM & WP & WD). fold x in WM, WP, WD.
    assert (M0 : forall m0 r, g_mean x = m0 :: r -> m0 < length (vars s)) by (intros m0 r E; apply WM; rewrite E; now left).
    assert (Ext : forall s', (forall t, t < length (tens s) -> tensor_of s' t = tensor_of s t) -> (forall v, v < length (vars s) -> var_of s' v = var_of s v) ->
      gauss_of s' g = x -> consistent s' (gauss_of s' g)).
    { intros s' T V G. rewrite G. apply (consistent_same s s' x C); [|now apply T]. intros m0 r E. rewrite (held_old s s' m0 W (M0 m0 r E) T (V m0 (M0 m0 r E))). auto. }
    destruct o as [y|n t|t f|v t|mean p|g0 mean p|g0|g0 dt dev]; cbn [step fst safe] in *; try fold x in SF.
    - apply Ext; [intros t Ht; now apply nth_app_old|reflexivity|reflexivity].
    - apply Ext; [reflexivity|intros v Hv; now apply nth_app_old|reflexivity].
    - set (s' := mkSt _ _ _). change (gauss_of s' g) with x. apply (consistent_same s s' x C).
      + intros m0 r E. unfold held. change (var_of s' m0) with (var_of s m0). unfold tensor_of, s'. cbn [tens].
        destruct (Nat.eq_dec t (v_tensor (var_of s m0))) as [<-|N]; [rewrite nth_replace_eq by exact H; auto|rewrite nth_replace_neq by exact N; auto].
      + unfold tensor_of, s'. cbn [tens]. now apply nth_replace_neq.
    - destruct (var_update s v t) as [s'|] eqn:E; [|exact C]. apply var_update_some in E. destruct E as (_ & ->). cbn [fst]. change (gauss_of (set_var s v t) g) with x.
      apply (consistent_same s _ x C); [|reflexivity]. intros m0 r E. rewrite E in SF. cbn [nth] in SF.
      rewrite (held_tens s (set_var s v t) m0) by (try reflexivity; now apply var_set_neq). auto.
    - pose proof (C73_new s mean p W H) as CN. destruct (gauss_new s mean p) as [[s' h]|s']; cbn [fst]; [|destruct CN as (-> & _); exact C].
      destruct CN as (_ & V & T & G & _). apply Ext; [intros t Ht; now apply nth_firstn|intros v Hv; unfold var_of; now rewrite V|].
      unfold gauss_of. rewrite G. now apply nth_app_old.
    - destruct H as (Hg0 & HM & HP). pose proof (update_frame s (gauss_of s g0) mean p _ eq_refl) as (T & G & L & D & N).
      destruct (Nat.eqb_spec g0 g) as [->|NE].
      + destruct SF as (OKS & NA). pose proof (C73_update s x mean p WM NA) as U. cbv zeta in U. fold x in OKS |- *.
        destruct (update s x mean p) as [[s' y]|s']; [|discriminate OKS]. cbn [fst]. destruct U as (_ & _ & _ & GS & _ & _ & _ & _ & CS).
        rewrite gauss_set by (rewrite GS; exact Hg). rewrite Nat.eqb_refl. exact CS.
      + assert (Q : consistent (result fst (update s (gauss_of s g0) mean p)) x).
        { apply (consistent_same s _ x C); [|unfold tensor_of; now rewrite T]. intros m0 r E. rewrite E in SF. cbn [nth] in SF.
          rewrite (held_tens s _ m0 T (N m0 SF)). auto. }
        destruct (update s (gauss_of s g0) mean p) as [[s' y]|s'] eqn:EU; cbn [result fst] in *.
        * rewrite gauss_set by (rewrite G; exact Hg0). destruct (Nat.eqb_spec g g0) as [Z|_]; [congruence|]. unfold gauss_of. rewrite G. exact Q.
        * unfold gauss_of. rewrite G. exact Q.
    - destruct (proj2 W g0 H) as (WM0 & WP0 & _). unfold gauss_copy.
      destruct (copy_means s (g_mean (gauss_of s g0))) as [s1 ws] eqn:EC. destruct (copy_means_spec _ s W WM0 s1 ws EC) as (T1 & V1 & G1 & EW).
      unfold new_tensor. set (y := tensor_of s1 _). set (s2 := mkSt (tens s1 ++ [y]) _ _).
      pose proof (Wf_copy_means (g_mean (gauss_of s g0)) s W WM0) as (F1 & N1 & _). rewrite EC in F1, N1. cbn [fst snd] in F1, N1.
      pose proof (Wf_new_tensor s1 y (proj1 F1)) as F2. unfold new_tensor in F2. cbn [fst] in F2. fold s2 in F2.
      assert (O : op_ok s2 (New ws (Some (length (tens s1))))).
      { split; [exact N1|]. intros t E. injection E as <-. unfold s2. cbn [tens]. rewrite app_length. cbn. lia. }
      assert (T2 : forall t, t < length (tens s) -> tensor_of s2 t = tensor_of s t).
      { intros t Ht. unfold tensor_of, s2. cbn [tens]. rewrite T1. rewrite !nth_app_old by (rewrite ?app_length; lia). reflexivity. }
      assert (V2 : forall v, v < length (vars s) -> var_of s2 v = var_of s v) by (intros v Hv; unfold var_of, s2; cbn [vars]; rewrite V1; now apply nth_app_old).
      pose proof (C73_new s2 ws (Some (length (tens s1))) (proj1 F2) O) as CN.
      destruct (gauss_new s2 ws (Some (length (tens s1)))) as [[s' h]|s']; cbn [fst].
      + destruct CN as (_ & V & T & G & _). apply Ext.
        * intros t Ht. rewrite <- T2 by exact Ht. unfold tensor_of. apply nth_firstn; [exact T|]. unfold s2. cbn [tens]. rewrite T1, !app_length. lia.
        * intros v Hv. rewrite <- V2 by exact Hv. unfold var_of. now rewrite V.
        * unfold gauss_of. rewrite G. unfold s2. cbn [gs]. rewrite G1. now apply nth_app_old.
      + destruct CN as (-> & _). apply Ext; [exact T2|exact V2|]. unfold gauss_of, s2. cbn [gs]. now rewrite G1.
    - destruct (to_spec s g0 dt dev W H) as (W' & LT & LV & LG & OT & CV & NV & DV & NG & GM & GD & GP). set (s' := gauss_to s g0 dt dev) in *. clearbody s'.
      destruct (Nat.eq_dec g g0) as [<-|NE].
      + fold x in CV, NV, GM, GD, GP. destruct C as (m0 & r & E & (A & B & CC & DD)). exists m0, r. split; [now rewrite GM|].
        rewrite GP, GD, (CV m0) by (rewrite E; now left). unfold precision_for, conv, symm in *. cbn [t_shape t_dtype t_dev t_val]. auto.
      + destruct SF as [SF|SF]; [congruence|]. rewrite NG by exact NE. fold x. apply (consistent_same s s' x C); [|now apply OT].
        intros m0 r E. rewrite E in SF. cbn [nth] in SF. rewrite (held_old s s' m0 W (M0 m0 r E) OT (NV m0 SF)). auto. }
  induction l as [|o l IH]; intros s g W Hg C H SF; [exact C|]. cbn [ops_ok all_safe] in *. destruct H as (H1 & H2), SF as (S1 & S2).
  unfold steps. cbn [fold_left]. apply (IH (fst (step s o)) g); [now apply C73_wf|now apply step_old|now apply One|exact H2|exact S2].
Qed.
