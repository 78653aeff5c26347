(** C97: what else the constructors and copies do, and concrete cases meeting the hypotheses. *)
From Coq Require Import Reals List String Arith Bool Lia Lra.
From Verif Require Import Mp_model Cc_model Cc_spec Cc_props Cc_copy Cc_main.
Import ListNotations.
Local Open Scope string_scope.
Local Open Scope nat_scope.

(** ** names given to variables the constructor makes *)
Lemma run_preps_old co sn name vd b args ps : forall h h' l v, run_preps co sn name vd b args ps h = Ret h' l ->
  v < List.length h -> v_name (getv h' v) = v_name (getv h v) /\ List.length h <= List.length h'.
Proof.
  assert (ST : forall (h : heap) u x w, v_name x = v_name (getv h u) -> v_name (getv (setv h u x) w) = v_name (getv h w) /\ List.length (setv h u x) = List.length h).
  { intros h u x w N. split; [|apply setv_length]. destruct (Nat.eq_dec w u) as [->|D]; [|now rewrite getv_setv_other].
    destruct (Nat.lt_ge_cases u (List.length h)) as [L|L]; [now rewrite getv_setv_same|].
    unfold getv. rewrite !nth_overflow; auto. now rewrite setv_length. }
  assert (AL : forall c n t (h h' : heap) u w, alloc c n t h = Ret h' u -> w < List.length h -> v_name (getv h' w) = v_name (getv h w) /\ List.length h <= List.length h').
  { intros c n t h h' u w E L. unfold alloc in E. injection E as <- <-. rewrite getv_app_l by auto. rewrite app_length. split; [reflexivity|lia]. }
  assert (AS : forall n a (h h' : heap) u w, as_variable n a h = Ret h' u -> w < List.length h -> v_name (getv h' w) = v_name (getv h w) /\ List.length h <= List.length h').
  { intros n a h h' u w E L. destruct a; cbn in E; try discriminate; try (injection E as <- <-; auto; fail); eapply AL; eauto. }
  assert (P1 : forall p a (h h' : heap) u w, run_prep co sn name vd b p a h = Ret h' u -> w < List.length h -> v_name (getv h' w) = v_name (getv h w) /\ List.length h <= List.length h').
  { intros p a h h' u w E L.
    assert (Q : forall n k (G : as_variable n a h = as_variable n a h), bind (as_variable n a) k h = Ret h' u ->
       (forall h1 u1, k u1 h1 = Ret h' u -> forall w, v_name (getv h' w) = v_name (getv h1 w) /\ List.length h1 = List.length h') ->
       v_name (getv h' w) = v_name (getv h w) /\ List.length h <= List.length h').
    { intros n k _ F K. unfold bind in F. destruct (as_variable n a h) as [h1 u1|] eqn:F1; [|discriminate].
      destruct (AS _ _ _ _ _ w F1 L) as [A B]. destruct (K _ _ F w) as [A' B']. split; [congruence|lia]. }
    assert (FIN : forall (h1 : heap) u1 t w, v_name (getv (setv h1 u1 (mkV (v_cls (getv h1 u1)) (v_name (getv h1 u1)) t)) w) = v_name (getv h1 w) /\ List.length h1 = List.length (setv h1 u1 (mkV (v_cls (getv h1 u1)) (v_name (getv h1 u1)) t))).
    { intros h1 u1 t w1. destruct (ST h1 u1 (mkV (v_cls (getv h1 u1)) (v_name (getv h1 u1)) t) w1 eq_refl) as [A B]. auto. }
    destruct p; cbn [run_prep] in E.
    - destruct a; cbn in E; try discriminate. injection E as <- <-. auto.
    - eapply Q; [reflexivity|exact E|]. intros h1 u1 F w1. unfold bind, get, set_tensor in F. cbv beta iota in F.
      destruct (1 <? _); [discriminate|]. injection F as <- <-. apply FIN.
    - eapply Q; [reflexivity|exact E|]. intros h1 u1 F w1. unfold bind, get, set_tensor in F. cbv beta iota in F.
      injection F as <- <-. apply FIN.
    - eapply Q; [reflexivity|exact E|]. intros h1 u1 F w1. unfold bind, get, set_tensor in F. cbv beta iota in F.
      destruct (1 <? _); [discriminate|]. injection F as <- <-. auto.
    - destruct a; try discriminate.
      + unfold bind, get in E. destruct (subclass _ _); [|discriminate]. injection E as <- <-. auto.
      + destruct (t_shape t) as [|[|[|[|]]] [|[|[|[|]]] [|]]]; try discriminate; eapply AL; eauto.
    - destruct a; try discriminate; (eapply Q; [reflexivity|exact E|]); intros h1 u1 F w1; unfold bind, get in F; cbv beta iota in F;
        (destruct (_ =? 3); [|discriminate]); injection F as <- <-; auto.
    - destruct a; try discriminate; (eapply Q; [reflexivity|exact E|]); intros h1 u1 F w1; unfold bind, get in F; cbv beta iota in F;
        (destruct (_ || _)%bool; [|discriminate]); injection F as <- <-; auto.
    - destruct a; try discriminate; first [eapply AL; eauto; fail|eapply AS; eauto].
    - destruct a; try discriminate; [injection E as <- <-; auto|eapply AL; eauto].
    - eapply Q; [reflexivity|exact E|]. intros h1 u1 F w1. unfold bind, get, set_tensor in F. cbv beta iota in F.
      destruct (1 <? _); [discriminate|]. destruct (all_pos _); [|discriminate]. injection F as <- <-. apply FIN.
    - eapply Q; [reflexivity|exact E|]. intros h1 u1 F w1. unfold bind, get, set_tensor in F. cbv beta iota zeta in F.
      destruct (negb _); [discriminate|]. destruct (_ =? 0); [injection F as <- <-; apply FIN|]. destruct (_ =? 1); injection F as <- <-; [apply FIN|auto].
    - eapply Q; [reflexivity|exact E|]. intros h1 u1 F w1. unfold bind, get, set_tensor in F. cbv beta iota zeta in F.
      destruct (negb _); [discriminate|]. destruct (negb _); [discriminate|]. destruct (co _); [|discriminate]. injection F as <- <-. apply FIN. }
  induction ps as [|[k p] ps IH]; intros h h' l v E L.
  - cbn in E. injection E as <- <-. auto.
  - cbn [run_preps] in E. unfold bind at 1 in E. destruct (run_prep co sn name vd b p (arg_of args k) h) as [h1 u1|] eqn:E1; [|discriminate].
    unfold bind in E. destruct (run_preps co sn name vd b args ps h1) as [h2 l2|] eqn:E2; [|discriminate]. injection E as <- <-.
    destruct (P1 _ _ _ _ _ v E1 L) as [A B]. destruct (IH _ _ _ v E2) as [A' B']; [lia|]. split; [congruence|lia].
Qed.
(** constructors rename nothing *)
Theorem C97_make_keeps_names co c id name args w h h' f v :
  make co c id name args w h = Ret h' f -> v < List.length h -> v_name (getv h' v) = v_name (getv h v).
Proof.
  intros E L. unfold make in E. unfold bind at 1 in E. destruct (pre_check _ _ _); cbn in E; [discriminate|].
  unfold bind at 1 in E. destruct (run_preps _ _ _ _ _ _ _ _) as [h1 l|] eqn:E1; [|discriminate].
  unfold bind in E. destruct (post_check _ _); cbn in E; [discriminate|]. injection E as <- <-.
  eapply run_preps_old; eauto.
Qed.
(** a Reprojection made without calibrations holds two new variables, always named "calib_k1" and "calib_k2" *)
Theorem C97_calib_names co id name cam pt im fl w h :
  cam < List.length h -> pt < List.length h -> im < List.length h -> fl < List.length h ->
  exists h' f, make co CReprojection id name [AV cam; AV pt; AV im; AV fl; ANone; ANone] w h = Ret h' f /\
    exists k1 k2, assoc (f_attrs f) "calib_k1" = Some k1 /\ assoc (f_attrs f) "calib_k2" = Some k2 /\
      k1 <> k2 /\ List.length h <= k1 < List.length h' /\ List.length h <= k2 < List.length h' /\
      v_name (getv h' k1) = "calib_k1" /\ v_name (getv h' k2) = "calib_k2" /\
      v_cls (getv h' k1) = KVector /\
      (forall x, In x (t_data (v_tensor (getv h' k1)) ++ t_data (v_tensor (getv h' k2)))%list -> x = 0%R) /\
      t_shape (v_tensor (getv h' k1)) = [nth 0 (t_shape (v_tensor (getv h cam))) 0; 1].
Proof.
  intros L1 L2 L3 L4. unfold make. cbn [f_params combine pre_check f_preps]. unfold check at 1, bind at 1, ret at 1.
  cbn -[fn_name repeat List.length app]. eexists _, _. split; [reflexivity|].
  exists (List.length h), (S (List.length h)). cbn [f_attrs assoc String.eqb Ascii.eqb Bool.eqb].
  rewrite !app_length. cbn [List.length]. split; [reflexivity|].
  split; [do 2 f_equal; lia|]. split; [lia|]. split; [lia|]. split; [lia|].
  assert (G1 : forall a b, getv ((h ++ [a]) ++ [b])%list (List.length h) = a).
  { intros a b. unfold getv. rewrite <- app_assoc. rewrite app_nth2, Nat.sub_diag by lia. reflexivity. }
  assert (G2 : forall a b, getv ((h ++ [a]) ++ [b])%list (S (List.length h)) = b).
  { intros a b. unfold getv. rewrite app_nth2 by (rewrite app_length; cbn; lia). rewrite app_length. cbn [List.length].
    replace (S (List.length h) - (List.length h + 1)) with 0 by lia. reflexivity. }
  rewrite !G1, !G2. cbn [v_name v_cls v_tensor t_data t_shape].
  split; [reflexivity|]. split; [reflexivity|]. split; [reflexivity|]. split.
  - intros x I. apply in_app_or in I as [I|I]; now apply repeat_spec in I.
  - reflexivity.
Qed.
(** a QuasiStaticPushingPlanar made from a number for c_square, without a name: its variable is named "csquare_None" *)
Theorem C97_csquare_name co id o1 o2 e1 e2 x w h :
  exists h' f v, make co CQuasiStatic id None [AV o1; AV o2; AV e1; AV e2; AFloat x] w h = Ret h' f /\
    assoc (f_attrs f) "c_square" = Some v /\ List.length h <= v < List.length h' /\ v_name (getv h' v) = "csquare_None".
Proof.
  unfold make. cbn [f_params combine pre_check f_preps]. unfold check at 1, bind at 1, ret at 1.
  assert (G1 : forall a, getv (h ++ [a])%list (List.length h) = a).
  { intros a. unfold getv. rewrite app_nth2, Nat.sub_diag by lia. reflexivity. }
  cbn -[fn_name List.length app getv squeeze_ndim]. unfold bind, get. cbn -[fn_name List.length app getv squeeze_ndim]. rewrite ?G1.
  eexists _, _, _. split; [reflexivity|]. split; [reflexivity|]. rewrite app_length, G1. cbn. split; [lia|reflexivity].
Qed.
(** ** tensors changed in place *)
(** ScaleCostWeight makes a row of d scales of the user's variable into a batch of d *)
Theorem C97_scale_row co id name v h d l :
  v < List.length h -> t_shape (v_tensor (getv h v)) = [1; d] -> t_data (v_tensor (getv h v)) = l -> List.length l = d ->
  exists h' w, make_weight co WScale id name [AV v] h = Ret h' w /\ w_attrs w = [("scale", v)] /\
    v_tensor (getv h' v) = mkT [d; 1] l.
Proof.
  intros L S D E. unfold make_weight. cbn -[fn_name Nat.ltb squeeze_ndim]. unfold bind, ret, get, set_tensor. cbv beta iota.
  assert (Q : (1 <? squeeze_ndim (v_tensor (getv h v))) = false).
  { unfold squeeze_ndim. rewrite S. apply Nat.ltb_ge. cbn. destruct (d =? 1); cbn; lia. }
  rewrite Q.
  eexists _, _. split; [reflexivity|]. split; [reflexivity|].
  rewrite getv_setv_same by auto. cbn [v_tensor]. unfold view_col. rewrite D, E. reflexivity.
Qed.
(** DiagonalCostWeight accepts a tensor with a dimension of size one in the middle, and leaves it *)
Theorem C97_diagonal_middle co id name v h b d :
  t_shape (v_tensor (getv h v)) = [b; 1; d] ->
  exists w, make_weight co WDiagonal id name [AV v] h = Ret h w /\ w_attrs w = [("diagonal", v)].
Proof.
  intros S. unfold make_weight. cbn -[fn_name Nat.ltb squeeze_ndim ndim Nat.eqb]. unfold bind, ret, get. cbv beta iota zeta.
  assert (Q : (squeeze_ndim (v_tensor (getv h v)) <? 3) = true).
  { unfold squeeze_ndim. rewrite S. cbn. destruct (b =? 1), (d =? 1); reflexivity. }
  rewrite Q. unfold ndim. rewrite S. cbn [negb List.length Nat.eqb].
  eexists. split; reflexivity.
Qed.
(** the GPCostWeight constructor that refuses its Qc_inv has already reshaped the variable passed as dt *)
Theorem C97_refused_but_changed co id name q dt h :
  dt < List.length h -> squeeze_ndim (v_tensor (getv h dt)) <= 1 -> (forall x, In x (t_data (v_tensor (getv h dt))) -> (0 < x)%R) ->
  q <> dt -> ndim (v_tensor (getv h q)) <> 2 -> ndim (v_tensor (getv h q)) <> 3 ->
  exists h', make_weight co WGP id name [AV q; AV dt] h = Exn h' ValueErr /\
    v_tensor (getv h' dt) = view_col (v_tensor (getv h dt)) /\ forall u, u <> dt -> getv h' u = getv h u.
Proof.
  intros L SQ P N N2 N3. unfold make_weight. cbn -[fn_name all_pos Nat.ltb squeeze_ndim ndim Nat.eqb].
  unfold bind, ret, get, set_tensor. cbv beta iota zeta.
  assert (Q : (1 <? squeeze_ndim (v_tensor (getv h dt))) = false) by now apply Nat.ltb_ge. rewrite Q.
  assert (Q2 : all_pos (v_tensor (getv h dt)) = true).
  { apply forallb_forall. intros x I. destruct (Rlt_dec 0 x) as [|X]; [reflexivity|]. exfalso. auto. }
  rewrite Q2. rewrite getv_setv_other by auto.
  apply Nat.eqb_neq in N2, N3. rewrite N2, N3. cbn [orb negb].
  eexists. split; [reflexivity|]. split; [now rewrite getv_setv_same by auto|]. intros u Nu. now apply getv_setv_other.
Qed.

(** ** arguments accepted *)
(** _XYDifference only refuses when both arguments are of the wrong class *)
Theorem C97_xy_accepts co id name v t w h :
  (v_cls (getv h v) = KSE2 \/ v_cls (getv h t) = KPoint2) <->
  exists f, make co CXY id name [AV v; AV t] w h = Ret h f.
Proof.
  unfold make. cbn -[fn_name subclass]. unfold look, arg_vars. cbn -[fn_name subclass].
  destruct (v_cls (getv h v)) eqn:A, (v_cls (getv h t)) eqn:B; cbn -[fn_name];
    (split; [intros [Q|Q]; try discriminate; eexists; reflexivity | intros [f Q]; try discriminate; auto]).
Qed.
(** Between demands that v0's class be a subclass of the other two, and does not look at sizes *)
Theorem C97_between_accepts co id name a b m w h :
  (subclass (v_cls (getv h a)) (v_cls (getv h b)) = true /\ subclass (v_cls (getv h a)) (v_cls (getv h m)) = true) <->
  exists f, make co CBetween id name [AV a; AV b; AV m] w h = Ret h f.
Proof.
  unfold make. cbn -[fn_name subclass]. unfold look, arg_vars. cbn -[fn_name subclass].
  unfold bind, ret. unfold post_check, look, attr_vars. cbn -[fn_name subclass].
  destruct (subclass _ _) eqn:A; [destruct (subclass (v_cls (getv h a)) (v_cls (getv h m))) eqn:B|]; cbn -[fn_name];
    (split; [intros [Q Q']; try discriminate; eexists; reflexivity | intros [f Q]; try discriminate; auto]).
Qed.
Example C97_between_asymmetric :
  subclass KPoint2 KVector = true /\ subclass KVector KPoint2 = false.
Proof. split; reflexivity. Qed.

(** ** copying after values were changed *)
Definition T2 (a b : R) : tensor := mkT [1; 2] [a; b].
Definition hx0 : heap := [mkV KPoint2 "x" (T2 0 0); mkV KVariable "lo" (T2 0 0); mkV KVariable "up" (T2 1 1); mkV KVariable "th" (T2 1 1);
  mkV KVariable "w" (mkT [1; 1] [1%R])].
Definition hx1 : heap := [mkV KPoint2 "x" (T2 0 0); mkV KVariable "lo" (T2 2 0); mkV KVariable "up" (T2 1 1); mkV KVariable "th" (T2 1 1);
  mkV KVariable "w" (mkT [1; 1] [1%R])].
Definition wx : wobj := mkWO WScale "sw" [("scale", 4)].
Definition fx : fobj := mkFO CHinge "hinge" [("vector", 0); ("down_limit", 1); ("up_limit", 2); ("threshold", 3)] wx.
Ltac rdec := repeat match goal with
  | |- context[Rle_dec ?a ?b] => destruct (Rle_dec a b); try lra
  | |- context[Rlt_dec ?a ?b] => destruct (Rlt_dec a b); try lra end.
Lemma hx_weight co : make_weight co WScale 0 (Some "sw") [AV 4] hx0 = Ret hx0 wx.
Proof. reflexivity. Qed.
Lemma hx_make co : make co CHinge 1 (Some "hinge") [AV 0; AV 1; AV 2; AV 3] wx hx0 = Ret hx0 fx.
Proof. unfold make. cbn. unfold bind, post_check. cbn. unfold entry. cbn. rdec. reflexivity. Qed.
Lemma hx_later1 : later hx0 hx1.
Proof.
  split; [cbn; lia|]. split; intros v L; (do 5 (destruct v as [|v]; [cbn; repeat split; reflexivity|])); cbn in L; lia.
Qed.
Lemma hx_later0 : later hx0 hx0.
Proof.
  split; [cbn; lia|]. split; intros v L; (do 5 (destruct v as [|v]; [cbn; repeat split; reflexivity|])); cbn in L; lia.
Qed.
(** a concrete case meeting the hypotheses of C97_copy *)
Example C97_copy_nonvacuous co :
  CHinge <> CGPMotion /\ proper hx0 [AV 4] /\ make_weight co WScale 0 (Some "sw") [AV 4] hx0 = Ret hx0 wx /\ later hx0 hx0 /\
  proper hx0 [AV 0; AV 1; AV 2; AV 3] /\ make co CHinge 1 (Some "hinge") [AV 0; AV 1; AV 2; AV 3] wx hx0 = Ret hx0 fx /\
  still_valid co hx0 fx.
Proof.
  split; [discriminate|]. split. { split; [cbn; repeat constructor; cbn; tauto|cbn; intros; lia]. }
  split; [apply hx_weight|]. split; [apply hx_later0|].
  split. { split; [cbn; repeat constructor; cbn; intuition lia|cbn; intros; lia]. }
  split; [apply hx_make|]. split; [exact I|].
  unfold still_valid, hinge_valid, now, look, attr_vars. cbn [fx f_cls f_attrs assoc String.eqb Ascii.eqb Bool.eqb getv hx0 nth v_tensor T2 t_shape t_data].
  split.
  - intros i j L. split; [now left|]. cbn. intros Li. destruct i; [|lia]. unfold entry. cbn. destruct j as [|[|j]]; [lra|lra|lia].
  - exists 1%R. cbn. split; [auto|lra].
Qed.
(** a HingeCost whose lower limit was set above the upper limit by an update still evaluates, but cannot be copied *)
Theorem C97_hinge_copy_raises co idc idw nn keep :
  exists hw w h0 f h,
    make_weight co WScale 0 (Some "sw") [AV 4] hw = Ret hw w /\
    make co CHinge 1 (Some "hinge") [AV 0; AV 1; AV 2; AV 3] w h0 = Ret h0 f /\ later h0 h /\
    exists h', copy co f idc idw nn keep h = Exn h' ValueErr.
Proof.
  exists hx0, wx, hx0, fx, hx1. split; [apply hx_weight|]. split; [apply hx_make|]. split; [apply hx_later1|].
  unfold copy. cbn [fx f_cls copy_cls f_copy_args f_attrs f_weight]. cbn -[make copy_name post_check].
  unfold make. cbn -[post_check copy_name fn_name]. unfold bind, ret. unfold post_check. cbn -[copy_name fn_name]. unfold entry. cbn -[copy_name fn_name].
  rdec. cbn. eexists. reflexivity.
Qed.
(** the same variable passed twice: the copy has two variables of one name *)
Theorem C97_shared_variable_split co t w :
  let h := [mkV KPoint2 "x" t; mkV KPoint2 "m" t; mkV KVariable "s" (mkT [1; 1] [w])] in
  let f := mkFO CBetween "b" [("v0", 0); ("v1", 0); ("measurement", 1)] (mkWO WScale "sw" [("scale", 2)]) in
  make co CBetween 0 (Some "b") [AV 0; AV 0; AV 1] (mkWO WScale "sw" [("scale", 2)]) h = Ret h f /\
  exists h' f', copy co f 5 6 (Some "b2") true h = Ret h' f' /\
    exists a b, assoc (f_attrs f') "v0" = Some a /\ assoc (f_attrs f') "v1" = Some b /\ a <> b /\
      v_name (getv h' a) = "x" /\ v_name (getv h' b) = "x".
Proof.
  cbv zeta. split; [reflexivity|]. eexists _, _. split; [vm_compute; reflexivity|].
  cbn [f_attrs assoc String.eqb Ascii.eqb Bool.eqb]. eexists _, _. split; [reflexivity|]. split; [reflexivity|]. split; [lia|]. split; reflexivity.
Qed.
