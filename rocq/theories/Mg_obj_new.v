(** C73: the constructor and copy(). *)
From Coq Require Import Reals List Arith Bool Lia Lra Psatz.
Import ListNotations.
From Verif Require Import RSum Mg_model Mg_spec Mg_inv Mg_props Mg_obj Mg_obj_props.

Lemma st_ext (a b : st) : tens a = tens b -> vars a = vars b -> gs a = gs b -> a = b.
Proof. destruct a, b; cbn; now intros -> -> ->. Qed.
Lemma set_var_self s v : set_var s v (v_tensor (var_of s v)) = s.
Proof.
  apply st_ext; try reflexivity. unfold set_var. cbn [vars].
  replace (mkVar (v_dof (var_of s v)) (v_tensor (var_of s v))) with (var_of s v) by (destruct (var_of s v); reflexivity).
  apply replace_same.
Qed.
Lemma update_means_self s l : update_means s l l = Ok s.
Proof.
  induction l as [|v l IH]; [reflexivity|]. cbn [update_means].
  rewrite (proj2 (var_update_some s v (v_tensor (var_of s v)) s)); [exact IH|]. split; [|symmetry; apply set_var_self].
  repeat split.
Qed.
Lemma symm_eye n B p : t_val p = eye_val -> symm n B p.
Proof.
  intros E b i j _ _ _. rewrite E. unfold eye_val. rewrite (Nat.eqb_sym j i). unfold Rminus. rewrite Rplus_opp_r, Rabs_R0.
  assert (0 < / 10 ^ 8)%R by (apply Rinv_0_lt_compat; lra). assert (0 < / 10 ^ 5)%R by (apply Rinv_0_lt_compat; lra).
  pose proof (Rabs_pos (if i =? j then 1 else 0)). nra.
Qed.
Lemma update_self s mean n q p : 
  match update s (mkGauss mean n q) mean p with
  | Ok (s', x) => s' = s /\ x = mkGauss mean n p /\ mean <> [] /\ precision_for (held s (nth 0 mean 0)) n (tensor_of s p)
  | Raise s' => s' = s /\ (mean = [] \/ ~ precision_for (held s (nth 0 mean 0)) n (tensor_of s p))
  end.
Proof.
  unfold update. cbn [g_mean g_dof]. rewrite Nat.eqb_refl, update_means_self. cbn [negb]. destruct mean as [|m0 mean]; [auto|].
  cbn [nth]. cbv zeta. unfold precision_for, batch.
  destruct (shape_eqb _ _) eqn:ES; cbn [negb].
  2:{ split; [reflexivity|right]. intros (Q & _). apply shape_eqb_true in Q. congruence. }
  apply shape_eqb_true in ES.
  destruct (Nat.eqb_spec (t_dtype (tensor_of s p)) (t_dtype (held s m0))); cbn [negb]; [|split; [reflexivity|right; tauto]].
  destruct (Nat.eqb_spec (t_dev (tensor_of s p)) (t_dev (held s m0))); cbn [negb]; [|split; [reflexivity|right; tauto]].
  pose proof (symm_true _ _ _ ES) as SY. destruct (close_to_transpose (tensor_of s p)); cbn [negb].
  - split; [reflexivity|]. split; [reflexivity|]. split; [discriminate|]. split; [exact ES|]. split; [assumption|]. split; [assumption|now apply SY].
  - split; [reflexivity|right]. intros (_ & _ & _ & Q). apply SY in Q. discriminate.
Qed.

Lemma nth_app_old {A} (l r : list A) i d : i < length l -> nth i (l ++ r) d = nth i l d.
Proof. intro H. now apply app_nth1. Qed.
Lemma nth_app_new {A} (l : list A) x d : nth (length l) (l ++ [x]) d = x.
Proof. rewrite app_nth2 by lia. now rewrite Nat.sub_diag. Qed.

(** The constructor keeps the given Variables themselves, changes no existing
    object, and succeeds exactly when there is a variable and the precision, if
    given, is one for the first of them; the default precision is the identity. *)
Theorem C73_new : forall s mean p, wf s -> op_ok s (New mean p) ->
  match gauss_new s mean p with
  | Ok (s', g) => g = length (gs s) /\ vars s' = vars s /\ firstn (length (tens s)) (tens s') = tens s
      /\ gs s' = gs s ++ [gauss_of s' g]
      /\ g_mean (gauss_of s' g) = mean /\ g_dof (gauss_of s' g) = list_sum (map (fun v => v_dof (var_of s v)) mean)
      /\ (forall t, p = Some t -> g_prec (gauss_of s' g) = t /\ tens s' = tens s)
      /\ (p = None -> forall b i j, t_val (tensor_of s' (g_prec (gauss_of s' g))) [b; i; j] = if i =? j then 1%R else 0%R)
      /\ consistent s' (gauss_of s' g)
  | Raise s' => s' = s /\ (mean = [] \/ exists t, p = Some t
      /\ ~ precision_for (held s (nth 0 mean 0)) (list_sum (map (fun v => v_dof (var_of s v)) mean)) (tensor_of s t))
  end.
Proof.
  intros s mean p W (OM & OP). unfold gauss_new. fold (total_dof s mean). set (n := total_dof s mean). cbv zeta.
  destruct p as [p|].
  - pose proof (update_self s mean n 0 p) as U. destruct (update s (mkGauss mean n 0) mean p) as [[s' x]|s'].
    + destruct U as (-> & -> & NE & PF). unfold gauss_of. cbn [tens vars gs]. rewrite nth_app_new. cbn [g_mean g_dof g_prec].
      split; [reflexivity|]. split; [reflexivity|]. split; [apply firstn_all|]. split; [reflexivity|]. split; [reflexivity|]. split; [reflexivity|].
      split; [intros t E; injection E as <-; auto|]. split; [discriminate|].
      destruct mean as [|m0 mean]; [congruence|]. exists m0, mean. cbn [g_mean g_dof g_prec]. split; [reflexivity|exact PF].
    + destruct U as (-> & U). split; [reflexivity|]. destruct U as [U|U]; [now left|right]. exists p. now split.
  - destruct mean as [|m0 mean]; [auto|]. unfold new_tensor. set (E := eye_tensor _ _ _ _).
    set (s1 := mkSt (tens s ++ [E]) (vars s) (gs s)).
    assert (HM : held s1 m0 = held s m0).
    { unfold held, tensor_of, var_of, s1. cbn [tens vars]. apply nth_app_old. apply W. apply OM. now left. }
    assert (TE : tensor_of s1 (length (tens s)) = E) by apply nth_app_new.
    assert (PF : precision_for (held s1 m0) n (tensor_of s1 (length (tens s)))).
    { rewrite TE, HM. split; [reflexivity|]. split; [reflexivity|]. split; [reflexivity|]. now apply symm_eye. }
    pose proof (update_self s1 (m0 :: mean) n 0 (length (tens s))) as U. cbn [nth] in U.
    destruct (update s1 (mkGauss (m0 :: mean) n 0) (m0 :: mean) (length (tens s))) as [[s' x]|s'].
    + destruct U as (-> & -> & _). unfold gauss_of. unfold s1 at 1 2 3 4 5 6 7 8 9. cbn [tens vars gs]. rewrite nth_app_new. cbn [g_mean g_dof g_prec].
      split; [reflexivity|]. split; [reflexivity|]. split; [rewrite firstn_app, Nat.sub_diag, firstn_all; cbn; apply app_nil_r|].
      split; [reflexivity|]. split; [reflexivity|]. split; [reflexivity|]. split; [discriminate|]. split.
      * intros _ b i j. unfold tensor_of, s1. cbn [tens]. rewrite nth_app_new. reflexivity.
      * exists m0, mean. cbn [g_mean g_dof g_prec]. split; [reflexivity|exact PF].
    + destruct U as (_ & [U|U]); [discriminate|contradiction].
Qed.

(** ---- copy ---- *)
Lemma copy_means_spec : forall mean s, wf s -> (forall v, In v mean -> v < length (vars s)) ->
  forall s' ws, copy_means s mean = (s', ws) ->
  tens s' = tens s ++ map (held s) mean
  /\ vars s' = vars s ++ map (fun i => mkVar (v_dof (var_of s (nth i mean 0))) (length (tens s) + i)) (seq 0 (length mean))
  /\ gs s' = gs s /\ ws = seq (length (vars s)) (length mean).
Proof.
  assert (Gen : forall mean s, (forall v, In v mean -> v < length (vars s) /\ v_tensor (var_of s v) < length (tens s)) ->
    forall s' ws, copy_means s mean = (s', ws) ->
    tens s' = tens s ++ map (held s) mean
    /\ vars s' = vars s ++ map (fun i => mkVar (v_dof (var_of s (nth i mean 0))) (length (tens s) + i)) (seq 0 (length mean))
    /\ gs s' = gs s /\ ws = seq (length (vars s)) (length mean)).
  { induction mean as [|v mean IH]; intros s H s' ws E.
    - cbn in E. injection E as <- <-. cbn. rewrite !app_nil_r. auto.
    - cbn [copy_means] in E. unfold var_copy, new_tensor, new_var in E. cbn [tens vars gs] in E.
      set (s1 := mkSt (tens s ++ [held s v]) (vars s ++ [mkVar (v_dof (var_of s v)) (length (tens s))]) (gs s)) in E.
      destruct (copy_means s1 mean) as [s2 ws2] eqn:E2. injection E as <- <-.
      assert (VO : forall w, In w mean -> var_of s1 w = var_of s w) by (intros w Hw; apply nth_app_old; apply H; now right).
      destruct (IH s1) with (2 := E2) as (T & V & G & ->).
      { intros w Hw. rewrite VO by exact Hw. unfold s1. cbn [vars tens]. rewrite !app_length. cbn. destruct (H w ltac:(now right)). lia. }
      assert (MH : map (held s1) mean = map (held s) mean).
      { apply map_ext_in. intros w Hw. unfold held. rewrite VO by exact Hw. unfold tensor_of, s1. cbn [tens]. apply nth_app_old. apply H. now right. }
      rewrite T, V, G, MH. unfold s1 at 1 2 4 5. cbn [tens vars gs length map seq]. rewrite <- !app_assoc. cbn [app]. rewrite app_length. cbn [length].
      split; [reflexivity|]. split; [|split; [reflexivity|f_equal; unfold s1; cbn [vars]; rewrite ?app_length; cbn [length]; f_equal; lia]]. f_equal. rewrite Nat.add_0_r. f_equal.
      rewrite <- seq_shift, map_map. apply map_ext_in. intros i Hi. apply in_seq in Hi. cbn [nth]. rewrite VO by (apply nth_In; lia).
      unfold s1. cbn [tens]. rewrite ?app_length. cbn [length]. f_equal. lia. }
  intros mean s W H. apply Gen. intros v Hv. split; [now apply H|]. apply W. now apply H.
Qed.

Lemma held_old s s' v : wf s -> v < length (vars s) ->
  (forall t, t < length (tens s) -> tensor_of s' t = tensor_of s t) -> var_of s' v = var_of s v -> held s' v = held s v.
Proof. intros W H T V. unfold held. rewrite V. apply T. now apply W. Qed.

(** copy() succeeds exactly when the Gaussian is consistent; the copy has its own
    new Variables and tensors with the same contents, and no existing object
    changes. *)
Theorem C73_copy : forall s g, wf s -> g < length (gs s) ->
  let G := gauss_of s g in let k := length (g_mean G) in
  match gauss_copy s g with
  | Ok (s', h) => consistent s G
      /\ h = length (gs s) /\ gs s' = gs s ++ [gauss_of s' h]
      /\ firstn (length (vars s)) (vars s') = vars s /\ firstn (length (tens s)) (tens s') = tens s
      /\ g_mean (gauss_of s' h) = seq (length (vars s)) k /\ length (vars s') = length (vars s) + k
      /\ g_prec (gauss_of s' h) = length (tens s) + k /\ length (tens s') = length (tens s) + k + 1
      /\ g_dof (gauss_of s' h) = g_dof G
      /\ tensor_of s' (g_prec (gauss_of s' h)) = tensor_of s (g_prec G)
      /\ (forall i, i < k -> var_of s' (length (vars s) + i) = mkVar (v_dof (var_of s (nth i (g_mean G) 0))) (length (tens s) + i)
                          /\ held s' (length (vars s) + i) = held s (nth i (g_mean G) 0))
      /\ consistent s' (gauss_of s' h)
  | Raise _ => ~ consistent s G
  end.
Proof.
  intros s g W Hg G k. destruct W as [WV WG]. destruct (WG g Hg) as (WM & WP & WD). fold G in WM, WP, WD.
  unfold gauss_copy. fold G. destruct (copy_means s (g_mean G)) as [s1 ws] eqn:EC.
  destruct (copy_means_spec (g_mean G) s (conj WV WG) WM s1 ws EC) as (T & V & GS & ->). fold k in V |- *.
  assert (G1 : gauss_of s1 g = G) by (unfold gauss_of, G; now rewrite GS). rewrite G1. unfold new_tensor.
  assert (TP : tensor_of s1 (g_prec G) = tensor_of s (g_prec G)) by (unfold tensor_of; rewrite T; now apply nth_app_old). rewrite TP.
  set (P := tensor_of s (g_prec G)) in *. set (s2 := mkSt (tens s1 ++ [P]) (vars s1) (gs s1)).
  assert (LT : length (tens s1) = length (tens s) + k) by (rewrite T, app_length, map_length; reflexivity).
  assert (LV : length (vars s1) = length (vars s) + k) by (rewrite V, app_length, map_length, seq_length; reflexivity).
  assert (VN : forall i, i < k -> var_of s2 (length (vars s) + i) = mkVar (v_dof (var_of s (nth i (g_mean G) 0))) (length (tens s) + i)).
  { intros i Hi. unfold var_of at 1, s2. cbn [vars]. rewrite V, app_nth2 by lia. replace (length (vars s) + i - length (vars s)) with i by lia.
    rewrite (nth_indep _ _ ((fun i => mkVar (v_dof (var_of s (nth i (g_mean G) 0))) (length (tens s) + i)) 0)) by (rewrite map_length, seq_length; lia).
    rewrite (map_nth (fun i => mkVar (v_dof (var_of s (nth i (g_mean G) 0))) (length (tens s) + i))), seq_nth by lia. reflexivity. }
  assert (HN : forall i, i < k -> held s2 (length (vars s) + i) = held s (nth i (g_mean G) 0)).
  { intros i Hi. unfold held at 1. rewrite VN by exact Hi. cbn [v_tensor]. unfold tensor_of, s2. cbn [tens].
    rewrite nth_app_old by lia. rewrite T, app_nth2 by lia. replace (length (tens s) + i - length (tens s)) with i by lia.
    rewrite (nth_indep _ null (held s 0)) by (rewrite map_length; exact Hi). now rewrite map_nth. }
  assert (TN : tensor_of s2 (length (tens s1)) = P) by apply nth_app_new.
  assert (DN : total_dof s2 (seq (length (vars s)) k) = g_dof G).
  { rewrite WD. unfold total_dof. f_equal. unfold k. clear - VN k. fold k.
    assert (X : forall l c, (forall i, i < length l -> v_dof (var_of s2 (c + i)) = v_dof (var_of s (nth i l 0))) ->
      map (fun v => v_dof (var_of s2 v)) (seq c (length l)) = map (fun v => v_dof (var_of s v)) l).
    { induction l as [|a l IH]; intros c H; [reflexivity|]. cbn [length seq map]. f_equal; [pose proof (H 0 ltac:(cbn; lia)) as Q; rewrite Nat.add_0_r in Q; exact Q|].
      apply IH. intros i Hi. pose proof (H (S i) ltac:(cbn; lia)) as Q. rewrite Nat.add_succ_r in Q. exact Q. }
    apply X. intros i Hi. rewrite VN by exact Hi. reflexivity. }
  unfold gauss_new. rewrite DN. cbv zeta.
  pose proof (update_self s2 (seq (length (vars s)) k) (g_dof G) 0 (length (tens s1))) as U. rewrite TN in U.
  assert (H0 : k <> 0 -> held s2 (nth 0 (seq (length (vars s)) k) 0) = held s (nth 0 (g_mean G) 0)).
  { intro K. rewrite seq_nth by lia. now apply HN; lia. }
  destruct (update s2 (mkGauss (seq (length (vars s)) k) (g_dof G) 0) (seq (length (vars s)) k) (length (tens s1))) as [[s' x]|s'].
  - destruct U as (-> & -> & NE & PF).
    assert (K : k <> 0) by (intro Z; rewrite Z in NE; now apply NE). rewrite H0 in PF by exact K.
    assert (CS : consistent s G).
    { unfold consistent. destruct (g_mean G) as [|m0 r] eqn:EM; [unfold k in K; cbn in K; congruence|]. exists m0, r. split; [reflexivity|]. exact PF. }
    split; [exact CS|]. set (s3 := mkSt (tens s2) (vars s2) (gs s2 ++ [_])).
    assert (GL : length (gs s2) = length (gs s)) by (unfold s2; cbn [gs]; now rewrite GS). rewrite GL.
    assert (GO : gauss_of s3 (length (gs s)) = mkGauss (seq (length (vars s)) k) (g_dof G) (length (tens s1))).
    { unfold gauss_of, s3. cbn [gs]. rewrite <- GL. apply nth_app_new. }
    rewrite GO. cbn [g_mean g_dof g_prec]. unfold s3 at 1 2 3 4 5. cbn [tens vars gs]. unfold s2 at 1 2 3 4 5. cbn [tens vars gs]. rewrite GS.
    split; [reflexivity|]. split; [reflexivity|]. split; [rewrite V, firstn_app, Nat.sub_diag, firstn_all; cbn; apply app_nil_r|].
    split; [rewrite T, <- app_assoc, firstn_app, Nat.sub_diag, firstn_all; cbn; apply app_nil_r|].
    split; [reflexivity|]. split; [exact LV|]. split; [exact LT|]. split; [rewrite app_length, LT; cbn; lia|]. split; [reflexivity|]. split; [exact TN|].
    split; [intros i Hi; split; [exact (VN i Hi)|exact (HN i Hi)]|].
    unfold consistent. cbn [g_mean g_dof g_prec]. destruct k as [|k'] eqn:EK; [congruence|]. cbn [seq]. exists (length (vars s)), (seq (S (length (vars s))) k').
    split; [reflexivity|]. pose proof (HN 0 ltac:(lia)) as Q. rewrite Nat.add_0_r in Q.
    change (held s3 (length (vars s))) with (held s2 (length (vars s))). change (tensor_of s3 (length (tens s1))) with (tensor_of s2 (length (tens s1))).
    rewrite Q, TN. exact PF.
  - destruct U as (_ & U). intros (m0 & r & EM & PF). destruct U as [U|U].
    + apply (f_equal (@length nat)) in U. rewrite seq_length in U. unfold k in U. rewrite EM in U. discriminate.
    + apply U. rewrite H0 by (unfold k; rewrite EM; discriminate). rewrite EM. exact PF.
Qed.
