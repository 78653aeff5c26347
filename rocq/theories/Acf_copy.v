(** Copies of AutoDiff and standard cost functions (C99). *)
From Coq Require Import List String Ascii Arith Bool Lia.
From Verif Require Import Mp_model Acf_model Acf_spec Acf_base Acf_make Acf_auto Acf_wrap Acf_robust.
Import ListNotations.
Local Open Scope string_scope.
Local Open Scope list_scope.
Local Open Scope nat_scope.

Section Copy.
Variables T F : Type.
Variable one : T.
Variable dflt : dtype.
Implicit Types (w : world T F) (o : cobj F).

(** ** renaming *)
Lemma upd_len : forall A (l : list A) i a, List.length (upd l i a) = List.length l.
Proof. induction l as [|x l IH]; intros [|i] a; cbn [upd List.length]; try reflexivity. rewrite IH. reflexivity. Qed.
Lemma upd_other : forall A (l : list A) i j a, i <> j -> nth_error (upd l i a) j = nth_error l j.
Proof. induction l as [|x l IH]; intros [|i] [|j] a H; cbn [upd nth_error]; try reflexivity; [contradiction|]. apply IH. lia. Qed.
Lemma upd_same : forall A (l : list A) i a, i < List.length l -> nth_error (upd l i a) i = Some a.
Proof. induction l as [|x l IH]; intros [|i] a H; cbn [List.length] in H; [lia|lia|reflexivity|]. cbn [upd nth_error]. apply IH. lia. Qed.
Lemma keep_eq : forall l l' w, List.length l = List.length l' -> NoDup l' -> exist w l -> exist w l' -> (forall v, In v l -> ~ In v l') ->
  exists vs, keep_names (map PVar l) (map PVar l') w = Ret (set_vars w vs) tt /\ List.length vs = List.length (w_vars w) /\
    (forall j, ~ In j l' -> nth_error vs j = nth_error (w_vars w) j) /\
    (forall k v v', nth_error l k = Some v -> nth_error l' k = Some v' ->
       exists x x', nth_error (w_vars w) v = Some x /\ nth_error (w_vars w) v' = Some x' /\ nth_error vs v' = Some (mkVar (v_name x) (v_dt x') (v_val x'))).
Proof.
  induction l as [|v l IH]; intros [|v' l'] w L N E E' D; try discriminate L.
  - exists (w_vars w). cbn [map keep_names]. unfold ret. split; [destruct w; reflexivity|]. split; [reflexivity|]. split; [reflexivity|]. intros [|k] v v' H; discriminate H.
  - cbn [map keep_names].
    assert (HV : v < List.length (w_vars w)) by (apply E; left; reflexivity). assert (HV' : v' < List.length (w_vars w)) by (apply E'; left; reflexivity).
    destruct (nth_error (w_vars w) v) as [x|] eqn:X; [|exfalso; apply nth_error_None in X; lia].
    destruct (nth_error (w_vars w) v') as [x'|] eqn:X'; [|exfalso; apply nth_error_None in X'; lia].
    unfold bind, rename. rewrite X'. set (w1 := set_vars w (upd (w_vars w) v' (mkVar (v_name x) (v_dt x') (v_val x')))).
    apply NoDup_cons_iff in N.
    destruct (IH l' w1) as [vs [A [B [C1 C2]]]].
    + cbn in L. lia.
    + apply N.
    + intros u Hu. unfold w1. cbn [set_vars w_vars]. rewrite upd_len. apply E. right. exact Hu.
    + intros u Hu. unfold w1. cbn [set_vars w_vars]. rewrite upd_len. apply E'. right. exact Hu.
    + intros u Hu K. apply (D u (or_intror Hu)). right. exact K.
    + exists vs. split; [rewrite A; reflexivity|]. unfold w1 in B, C1, C2. cbn [set_vars w_vars] in B, C1, C2. rewrite upd_len in B. split; [exact B|]. split.
      * intros j J. rewrite C1 by (intro K; apply J; right; exact K). apply upd_other. intros <-. apply J. left. reflexivity.
      * intros [|k] u u' K K'; cbn [nth_error] in K, K'.
        { injection K as <-. injection K' as <-. exists x, x'. split; [exact X|]. split; [exact X'|]. rewrite C1 by apply N. apply upd_same. exact HV'. }
        destruct (C2 k u u' K K') as [y [y' [Y [Y' Z]]]].
        assert (U : In u l) by (apply nth_error_In in K; exact K). assert (U' : In u' l') by (apply nth_error_In in K'; exact K').
        rewrite upd_other in Y by (intros <-; apply (D v' (or_intror U)); left; reflexivity).
        rewrite upd_other in Y' by (intros <-; apply N; exact U').
        exists y, y'. split; [exact Y|split; [exact Y'|exact Z]].
Qed.
Lemma share_none : forall l l', (forall v, In v l -> ~ In v l') -> share (map (@PVar F) l) (map PVar l') = false.
Proof.
  intros l l' D. unfold share. destruct (existsb _ _) eqn:EX; [|reflexivity]. exfalso. apply existsb_exists in EX. destruct EX as [x [X1 X2]].
  apply existsb_exists in X2. destruct X2 as [y [Y1 Y2]]. apply in_map_iff in X1. destruct X1 as [u [<- U]]. apply in_map_iff in Y1. destruct Y1 as [v [<- V]].
  cbn [val_is] in Y2. apply Nat.eqb_eq in Y2. subst. exact (D v U V).
Qed.
(** the end of copy() *)
Lemma finish_eq : forall w n i i' o o' O A O' A' keep,
  nth_error (w_objs w) i = Some o -> nth_error (w_objs w) i' = Some o' ->
  optim_vars o = Some (map PVar O) -> aux_vars o = Some (map PVar A) -> optim_vars o' = Some (map PVar O') -> aux_vars o' = Some (map PVar A') ->
  List.length O = List.length O' -> List.length A = List.length A' -> (forall v, In v (O ++ A) -> v < n) -> (forall v, In v (O' ++ A') -> n <= v) ->
  n <= List.length (w_vars w) -> exist w (O' ++ A') -> NoDup (O' ++ A') ->
  exists vs, finish_copy i i' keep w = Ret (set_vars w vs) i' /\ List.length vs = List.length (w_vars w) /\
    (forall j, ~ In j (O' ++ A') -> nth_error vs j = nth_error (w_vars w) j) /\
    (forall k v v', nth_error (O ++ A) k = Some v -> nth_error (O' ++ A') k = Some v' ->
       exists x x', nth_error (w_vars w) v = Some x /\ nth_error (w_vars w) v' = Some x' /\
         nth_error vs v' = Some (mkVar (if keep then v_name x else v_name x') (v_dt x') (v_val x'))).
Proof.
  intros w n i i' o o' O A O' A' keep HO HO' V1 V2 V3 V4 L1 L2 B1 B2 B3 E N.
  assert (EO : exist w (O ++ A)) by (intros v Hv; specialize (B1 v Hv); lia).
  assert (D : forall v, In v (O ++ A) -> ~ In v (O' ++ A')) by (intros v Hv K; specialize (B1 v Hv); specialize (B2 v K); lia).
  unfold finish_copy. rewrite HO, HO', V1, V2, V3, V4. unfold bind.
  assert (SH : share (map (@PVar F) O) (map PVar O') || share (map (@PVar F) A) (map PVar A') = false).
  { rewrite !share_none; [reflexivity| |]; intros v Hv K; apply (D v); apply in_or_app; auto. }
  destruct keep.
  - apply nodup_app_iff in N. destruct N as [N1 [N2 N3]].
    assert (E1 : exist w O) by (intros v Hv; apply EO; apply in_or_app; auto). assert (E2 : exist w A) by (intros v Hv; apply EO; apply in_or_app; auto).
    assert (E3 : exist w O') by (intros v Hv; apply E; apply in_or_app; auto). assert (E4 : exist w A') by (intros v Hv; apply E; apply in_or_app; auto).
    destruct (keep_eq O O' w L1 N1 E1 E3) as [vs [K1 [K2 [K3 K4]]]]; [intros v Hv K; apply (D v); apply in_or_app; auto|].
    rewrite K1. set (w1 := set_vars w vs).
    assert (X : forall l, exist w l -> exist w1 l) by (intros l Hl v Hv; unfold w1; cbn [set_vars w_vars]; rewrite K2; apply Hl; exact Hv).
    destruct (keep_eq A A' w1 L2 N2 (X _ E2) (X _ E4)) as [vs' [J1 [J2 [J3 J4]]]]; [intros v Hv K; apply (D v); apply in_or_app; auto|].
    rewrite J1, SH. unfold w1 in J2, J3, J4. cbn [set_vars w_vars] in J2, J3, J4.
    exists vs'. split; [reflexivity|]. split; [rewrite J2; exact K2|]. split.
    + intros j J. rewrite J3 by (intro K; apply J; apply in_or_app; auto). apply K3. intro K; apply J; apply in_or_app; auto.
    + intros k v v' H H'. destruct (Nat.lt_ge_cases k (List.length O)) as [KL|KL].
      * rewrite nth_error_app1 in H by exact KL. rewrite nth_error_app1 in H' by lia.
        destruct (K4 k v v' H H') as [x [x' [X1 [X2 X3]]]]. exists x, x'. split; [exact X1|]. split; [exact X2|].
        rewrite J3; [exact X3|]. apply N3. apply nth_error_In in H'. exact H'.
      * rewrite nth_error_app2 in H by exact KL. rewrite nth_error_app2 in H' by lia. rewrite <- L1 in H'.
        destruct (J4 (k - List.length O) v v' H H') as [x [x' [X1 [X2 X3]]]].
        assert (HA : In v A) by (apply nth_error_In in H; exact H). assert (HA' : In v' A') by (apply nth_error_In in H'; exact H').
        rewrite K3 in X1 by (intro K; apply (D v); apply in_or_app; auto). rewrite K3 in X2 by (intro K; exact (N3 v' K HA')).
        exists x, x'. split; [exact X1|]. split; [exact X2|exact X3].
  - exists (w_vars w). rewrite SH. unfold ret. split; [destruct w; reflexivity|]. split; [reflexivity|]. split; [reflexivity|].
    intros k v v' H H'. assert (HV : In v (O ++ A)) by (apply nth_error_In in H; exact H). assert (HV' : In v' (O' ++ A')) by (apply nth_error_In in H'; exact H').
    apply EO in HV. apply E in HV'. apply nth_error_Some in HV. apply nth_error_Some in HV'.
    destruct (nth_error (w_vars w) v) as [x|]; [|contradiction]. destruct (nth_error (w_vars w) v') as [x'|]; [|contradiction].
    exists x, x'. split; [reflexivity|]. split; [reflexivity|]. destruct x'; reflexivity.
Qed.

(** ** copying the variables and the weight *)
Lemma copy_vals_map : forall l w, copy_vals (Some (map (@PVar F) l)) w = mapM (@copy_var T F) l w.
Proof.
  intros l. unfold copy_vals. induction l as [|v l IH]; intros w; [reflexivity|]. cbn [map mapM]. unfold bind. cbn [copy_val].
  destruct (copy_var v w) as [w1 n|w1 e]; [|reflexivity]. rewrite IH. reflexivity.
Qed.
Lemma copy_cells_map : forall o ks l w, attr_vals o ks = Some (map PVar l) -> copy_cells o ks w =
  match mapM (@copy_var T F) l w with Ret w' vs => Ret w' (combine ks vs) | Exn w' e => Exn w' e end.
Proof.
  intros o. induction ks as [|k ks IH]; intros l w A.
  - cbn in A. injection A as A. destruct l; [reflexivity|discriminate A].
  - cbn [attr_vals fold_right] in A. fold (attr_vals o ks) in A. cbn [copy_cells].
    destruct (getattr o k) as [x|]; [|discriminate]. destruct (attr_vals o ks) as [l'|] eqn:AV; [|discriminate]. injection A as A.
    destruct l as [|v l]; [discriminate A|]. cbn [map] in A. injection A as -> ->. cbn [mapM]. unfold bind at 1. cbn [copy_val].
    unfold bind at 2. destruct (copy_var v w) as [w1 n|w1 e]; [|reflexivity]. unfold bind. rewrite (IH l w1 eq_refl).
    destruct (mapM copy_var l w1) as [w2 vs|w2 e]; reflexivity.
Qed.
Definition after w (O A W : list nat) (wn : string) : world T F :=
  mkW (w_vars w ++ flat_map (got T F w) O ++ flat_map (got T F w) A ++ flat_map (got T F w) W)
      (w_wts w ++ [mkWt (wn ++ "_copy")%string (seq (List.length (w_vars w) + List.length O + List.length A) (List.length W))]) (w_objs w) (S (w_fid w)).
Lemma prep_eq : forall w O A wid x (B : Type) (K : list nat -> list nat -> nat -> M T F B), exist w (O ++ A) -> nth_error (w_wts w) wid = Some x -> exist w (w_aux x) ->
  bind (mapM (@copy_var T F) O) (fun a => bind (mapM (@copy_var T F) A) (fun b => bind (copy_weight wid) (fun wid' => K a b wid'))) w
  = K (seq (List.length (w_vars w)) (List.length O)) (seq (List.length (w_vars w) + List.length O) (List.length A)) (List.length (w_wts w)) (after w O A (w_aux x) (w_name x)).
Proof.
  intros w O A wid x B K E X EX.
  assert (E1 : exist w O) by (intros v Hv; apply E; apply in_or_app; auto). assert (E2 : exist w A) by (intros v Hv; apply E; apply in_or_app; auto).
  unfold bind at 1. destruct (copy_vars_eq T F O w E1) as [C1 L1]. rewrite C1. set (w1 := set_vars w (w_vars w ++ flat_map (got T F w) O)).
  assert (X1 : forall vs, exist w vs -> exist w1 vs) by (intros vs Hx v Hv; specialize (Hx v Hv); unfold w1; cbn [set_vars w_vars]; rewrite app_length; lia).
  assert (G1 : forall vs, exist w vs -> flat_map (got T F w1) vs = flat_map (got T F w) vs) by (intros vs Hx; apply (got_ext T F w w1 (flat_map (got T F w) O)); [reflexivity|exact Hx]).
  unfold bind at 1. destruct (copy_vars_eq T F A w1 (X1 _ E2)) as [C2 L2]. rewrite C2. rewrite (G1 _ E2) in *.
  set (w2 := set_vars w1 (w_vars w1 ++ flat_map (got T F w) A)).
  assert (X2 : exist w2 (w_aux x)) by (intros v Hv; specialize (X1 _ EX v Hv); unfold w2; cbn [set_vars w_vars]; rewrite app_length; lia).
  assert (G2 : flat_map (got T F w2) (w_aux x) = flat_map (got T F w) (w_aux x)).
  { rewrite <- (G1 _ EX). apply (got_ext T F w1 w2 (flat_map (got T F w) A)); [reflexivity|apply X1; exact EX]. }
  unfold bind at 1. unfold copy_weight. change (w_wts w2) with (w_wts w). rewrite X. unfold bind.
  destruct (copy_vars_eq T F (w_aux x) w2 X2) as [C3 L3]. rewrite C3. rewrite G2 in *. unfold next_fid, new_wt.
  unfold w2, w1. cbn [set_vars w_vars w_wts w_objs w_fid]. rewrite !app_length, L1, L2, <- !app_assoc.
  unfold after. reflexivity.
Qed.
Lemma after_nth : forall w O A W wn, exist w (O ++ A) -> exist w W -> forall k v, nth_error (O ++ A ++ W) k = Some v ->
  exists x, nth_error (w_vars w) v = Some x /\ nth_error (w_vars (after w O A W wn)) (List.length (w_vars w) + k) = Some (copy_of T x).
Proof.
  intros w O A W wn E EW k v K.
  assert (EE : exist w (O ++ A ++ W)) by (intros u Hu; rewrite app_assoc in Hu; apply in_app_or in Hu; destruct Hu as [Hu|Hu]; [apply E|apply EW]; exact Hu).
  destruct (got_nth T F w (O ++ A ++ W) EE k v K) as [x [X G]]. exists x. split; [exact X|].
  unfold after. cbn [w_vars]. rewrite !flat_map_app in G. rewrite nth_error_app2 by lia.
  replace (List.length (w_vars w) + k - List.length (w_vars w)) with k by lia. exact G.
Qed.
End Copy.
