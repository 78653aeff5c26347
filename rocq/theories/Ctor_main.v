(** C100: constructing geometric variables. *)
From Coq Require Import List String Arith Bool Lia DecimalString DecimalNat Decimal.
From Verif Require Import Ctor_model Ctor_base Ctor_lem.
Import ListNotations.
Local Open Scope list_scope.
Local Open Scope nat_scope.

(** ---- specification ---- *)
Definition is_group (c : cls) : Prop := c = CSO2 \/ c = CSE2 \/ c = CSO3 \/ c = CSE3.
(** the shape of one item, and the item of a new variable: zero translation, identity rotation *)
Definition item_shape (c : cls) (dof : nat) : list nat :=
  match c with CVector => [dof] | CPoint2 => [2] | CPoint3 => [3] | CSO2 => [2] | CSE2 => [4] | CSO3 => [3; 3] | CSE3 => [3; 4] end.
(** what the shorthand argument (theta, x_y_theta, quaternion, x_y_z_quaternion) may look like, how many items
    it holds, and its entry [j] of item [i] *)
Definition short_shape (c : cls) (sh : list nat) : Prop :=
  match c with
  | CSO2 => exists b, sh = [b] \/ sh = [b; 1]
  | CSE2 => exists b, sh = [b; 3]
  | CSO3 => sh = [4] \/ exists b, sh = [b; 4]
  | CSE3 => sh = [7] \/ exists b, sh = [b; 7]
  | _ => False
  end.
Definition short_batch (c : cls) (sh : list nat) : nat :=
  match c, sh with CSO2, [b] => b | _, [_] => 1 | _, b :: _ => b | _, [] => 0 end.
Definition short_entry {V} (c : cls) (x : @tensor V) (i j : nat) : V :=
  match c, t_shape x with CSO2, [_] => t_at x [i] | _, [_] => t_at x [j] | _, _ => t_at x [i; j] end.
(** the fewest dimensions with which a wrong shorthand argument is refused with a ValueError *)
Definition short_dims (c : cls) : nat := match c with CSO2 => 0 | CSE2 => 2 | _ => 1 end.

(** the object is new, of the class, with the name given or "Class__id", and nothing but counters and
    warnings changes *)
Definition same_settings (w w' : world) : Prop :=
  w_default w' = w_default w /\ w_checks w' = w_checks w /\ w_silent w' = w_silent w /\ w_quiet w' = w_quiet w /\ w_lie w' = w_lie w.
Definition made {V} (w w' : world) (c : cls) (a : @args V) (o : @obj V) : Prop :=
  o_cls o = c /\ o_id o = w_ids w /\ w_ids w < w_ids w' /\
  o_name o = (match given_name a with Some s => s | None => default_name c (w_ids w) end) /\ same_settings w w'.
(** an exception; no variable id is given back *)
Definition refused {V} (w : world) (r : res (@obj V)) (P : exn -> Prop) : Prop :=
  exists w' e, r = Exn w' e /\ w_ids w <= w_ids w' /\ P e.

Section Main.
Context {V : Type}.
Variables (v0 v1 : V) (vcos vsin : V -> V).
Variable q2r : (nat -> V) -> nat -> nat -> V.
Variable item_ok : cls -> dtype -> (list nat -> V) -> bool.
Variable item_norm : cls -> dtype -> (list nat -> V) -> list nat -> V.
Variable unit_q : dtype -> (nat -> V) -> bool.
Notation make := (make v0 v1 vcos vsin q2r item_ok item_norm unit_q).
Notation run := (run v0 v1 vcos vsin q2r item_ok item_norm unit_q).
Notation random := (random v0 v1 vcos vsin q2r item_ok item_norm unit_q).
Notation gok := (batch_ok item_ok).
Notation gnorm := (batch_norm v0 item_norm).
Notation gunit := (batch_unit unit_q).

(** the item of a new variable *)
Definition neutral (c : cls) (ix : list nat) : V :=
  match c, ix with
  | CSO2, [0] => v1 | CSE2, [2] => v1
  | CSO3, [r; k] => if r =? k then v1 else v0
  | CSE3, [r; k] => if r =? k then v1 else v0
  | _, _ => v0
  end.
(** the item meant by the shorthand argument with entries [e] *)
Definition meant (c : cls) (e : nat -> V) (ix : list nat) : V :=
  match c, ix with
  | CSO2, [0] => vcos (e 0) | CSO2, [1] => vsin (e 0)
  | CSE2, [0] => e 0 | CSE2, [1] => e 1 | CSE2, [2] => vcos (e 2) | CSE2, [3] => vsin (e 2)
  | CSO3, [r; k] => q2r e r k
  | CSE3, [r; 3] => e r
  | CSE3, [r; k] => q2r (fun m => e (3 + m)) r k
  | _, _ => v0
  end.
Definition in_item (c : cls) (ix : list nat) : Prop :=
  match c, ix with
  | CSO2, [j] => j < 2 | CSE2, [j] => j < 4
  | CSO3, [r; k] => r < 3 /\ k < 3
  | CSE3, [r; k] => r < 3 /\ k < 4
  | _, _ => False
  end.

Lemma obj_name_given : forall (a : @args V) c i, obj_name c i (a_name a) = match given_name a with Some s => s | None => default_name c i end.
Proof. intros a c i. unfold obj_name, given_name. destruct (a_name a) as [s|]; [destruct (String.eqb s "")|]; reflexivity. Qed.
Lemma same_adv : forall w i m ws, same_settings w (adv w i m ws).
Proof. intros. repeat split. Qed.

(** ---- no value given ---- *)
Theorem C100_plain : forall w c a dof,
  a_tensor a = None -> (is_group c -> a_alt a = None) -> (c = CVector -> a_dof a = Some dof) ->
  let d := match a_dtype a with Some d => d | None => w_default w end in
  if supported d
  then exists w' o, make c a w = Ok w' o /\ made w w' c a o /\ t_dt (o_tensor o) = d /\
         t_shape (o_tensor o) = 1 :: item_shape c dof /\ (forall ix, t_at (o_tensor o) (0 :: ix) = neutral c ix) /\
         t_req (o_tensor o) = false /\ w_mem w <= t_mem (o_tensor o) /\ o_updates o = 0 /\ w_warn w' = w_warn w
  else make c a w = Exn w ValueErr.
Proof.
  intros w c a dof T A D d.
  assert (K : forall c dof' s di, manifold_init v0 v1 gok gnorm c dof' None (a_name a) (a_dtype a) s di w =
     if supported d then Ok (adv w 1 1 []) (plain v0 v1 c dof' (a_name a) d w) else Exn w ValueErr) by (intros; apply mi_none').
  assert (E : exists dof', make c a w = (if supported d then Ok (adv w 1 1 []) (plain v0 v1 c dof' (a_name a) d w) else Exn w ValueErr)
              /\ init_shape c dof' = 1 :: item_shape c dof).
  { unfold Ctor_model.make, construct, point_init, vector_init, so2_init, se2_init, so3_init, se3_init. rewrite T.
    destruct c.
    - rewrite (D eq_refl). exists dof. rewrite K. auto.
    - exists 2. rewrite K. auto.
    - exists 3. rewrite K. auto.
    - rewrite A by (left; reflexivity). exists 0. rewrite K. auto.
    - rewrite A by (right; left; reflexivity). exists 0. rewrite K. auto.
    - rewrite A by (right; right; left; reflexivity). exists 0. rewrite K. auto.
    - rewrite A by (right; right; right; reflexivity). exists 0. rewrite K. auto. }
  destruct E as (dof' & E & S). rewrite E. destruct (supported d); [|reflexivity].
  eexists _, _. split; [reflexivity|]. cbn [plain o_tensor t_dt t_shape t_at t_req t_mem o_updates].
  split. { split; [reflexivity|]. split; [reflexivity|]. split; [cbn; lia|]. split; [apply obj_name_given|apply same_adv]. }
  split; [reflexivity|]. split; [exact S|]. split.
  { intros ix. destruct c; try reflexivity; destruct ix as [|x [|y [|z l]]]; try reflexivity; cbn; destruct x as [|[|[|x]]]; reflexivity. }
  split; [reflexivity|]. split; [lia|]. split; [reflexivity|]. cbn. apply app_nil_r.
Qed.

(** ---- both, or for Vector neither, given ---- *)
Theorem C100_one_of : forall w c a,
  (is_group c -> a_alt a <> None -> a_tensor a <> None -> make c a w = Exn w ValueErr) /\
  (c = CVector -> (a_dof a = None <-> a_tensor a = None) -> make c a w = Exn w ValueErr).
Proof.
  intros w c a. split.
  - intros G A T. unfold Ctor_model.make, construct, so2_init, se2_init, so3_init, se3_init.
    destruct (a_alt a); [|congruence]. destruct (a_tensor a); [|congruence].
    destruct G as [->|[->|[->| ->]]]; reflexivity.
  - intros -> H. unfold Ctor_model.make, construct, vector_init.
    destruct H as [H1 H2].
    destruct (a_dof a), (a_tensor a); try reflexivity; [discriminate (H2 eq_refl)|discriminate (H1 eq_refl)].
Qed.

(** ---- a tensor for a group ---- *)
(** whether the values are examined in this call *)
Definition examined (w : world) (c : cls) (a : @args V) : bool :=
  negb (a_disable a) && w_checks w && match c with CSO3 | CSE3 => w_lie w | _ => true end.
Definition valid (c : cls) (t : @tensor V) : bool := forallb (fun i => item_ok c (t_dt t) (item t i)) (seq 0 (batch t)).
Definition dtype_warning (t : @tensor V) (a : @args V) : list warning :=
  match a_dtype a with Some d => if dt_eqb (t_dt t) d then [] else [WDtype] | None => [] end.

Theorem C100_tensor : forall w c a t, is_group c -> a_alt a = None -> a_tensor a = Some t ->
  (supported (t_dt t) = true -> (exists b, t_shape t = b :: item_shape c 0) ->
    (examined w c a = false \/ valid c t = true ->
       exists w' o, make c a w = Ok w' o /\ made w w' c a o /\ o_tensor o = t /\ o_updates o = 1 /\
         w_warn w' = w_warn w ++ (if a_disable a || w_checks w || w_silent w then [] else [WUnchecked]) ++ dtype_warning t a) /\
    (examined w c a = true -> valid c t = false -> a_strict a = true -> refused w (make c a w) (fun e => e = ValueErr)) /\
    (examined w c a = true -> valid c t = false -> a_strict a = false ->
       exists w' o, make c a w = Ok w' o /\ made w w' c a o /\ o_updates o = 1 /\
         w_mem w <= t_mem (o_tensor o) /\ t_dt (o_tensor o) = t_dt t /\ t_shape (o_tensor o) = t_shape t /\ t_req (o_tensor o) = t_req t /\
         (forall i ix, t_at (o_tensor o) (i :: ix) = item_norm c (t_dt t) (item t i) ix) /\
         w_warn w' = w_warn w ++ (if w_quiet w then [] else [WNormalized]) ++ dtype_warning t a)) /\
  (supported (t_dt t) = true -> (forall b, t_shape t <> b :: item_shape c 0) -> refused w (make c a w) (fun e => e = ValueErr)) /\
  (supported (t_dt t) = false -> refused w (make c a w) (fun e => w_checks w = false \/ a_disable a = true -> e = ValueErr)).
Proof.
  intros w c a t G A T.
  assert (Vc : is_vec c = false) by (destruct G as [->|[->|[->| ->]]]; reflexivity).
  assert (E : make c a w = manifold_init v0 v1 gok gnorm c 0 (Some t) (a_name a) (a_dtype a) (a_strict a) (a_disable a) w).
  { unfold Ctor_model.make, construct, so2_init, se2_init, so3_init, se3_init. rewrite A, T. destruct G as [->|[->|[->| ->]]]; reflexivity. }
  assert (S : tl (init_shape c 0) = item_shape c 0) by (destruct G as [->|[->|[->| ->]]]; reflexivity).
  assert (X : checking w (a_disable a) && negb (passes gok w c t) = examined w c a && negb (valid c t)).
  { unfold checking, examined. destruct G as [->|[->|[->| ->]]]; cbn [passes]; fold (valid CSO2 t); rewrite ?andb_true_r; try reflexivity;
    change (gok CSO3 t) with (valid CSO3 t); change (gok CSE3 t) with (valid CSE3 t);
    destruct (w_lie w); cbn; rewrite ?andb_true_r, ?andb_false_r; reflexivity. }
  assert (Q : examined w c a = true -> checking w (a_disable a) = true).
  { unfold examined, checking. destruct (negb (a_disable a) && w_checks w); [reflexivity|discriminate]. }
  rewrite E. clear E.
  pose proof (mi_case v0 v1 gok gnorm c 0 t (a_name a) (a_dtype a) (a_strict a) (a_disable a) w (shape_fits_group c 0 _ Vc)) as M.
  split; [|split].
  - intros D [b Sh].
    assert (F : fits c 0 (t_shape t) = true).
    { unfold fits. rewrite Sh. cbn [tl]. rewrite <- S. destruct (shape_eqb_spec (tl (init_shape c 0)) (tl (init_shape c 0))); [|congruence].
      rewrite andb_true_r. cbn [List.length]. destruct G as [->|[->|[->| ->]]]; reflexivity. }
    split; [|split].
    + intro H. assert (Z : examined w c a && negb (valid c t) = false) by (destruct H as [-> | ->]; rewrite ?andb_false_r; reflexivity).
      rewrite <- X in Z.
      inversion M as [_ _ _ E|_ _ C P _ E|w' _ _ _ B E|w' e _ D' _ E]; clear M.
      * eexists _, _. split; [reflexivity|]. split.
        { split; [reflexivity|]. split; [reflexivity|]. split; [cbn; lia|]. split; [apply obj_name_given|apply same_adv]. }
        split; [reflexivity|]. split; [reflexivity|]. cbn. f_equal. f_equal.
        unfold complains. destruct (a_disable a), (w_checks w), (w_silent w); reflexivity.
      * rewrite C, P in Z. discriminate Z.
      * destruct B as [B|(C & P & _)]; [congruence|]. rewrite C, P in Z. discriminate Z.
      * congruence.
    + intros H1 H2 H3. rewrite H1, H2 in X. cbn in X.
      inversion M as [_ _ C E|_ _ C P St E|w' I1 I2 _ B E|w' e _ D' _ E]; clear M; try congruence.
      exists w', ValueErr. auto.
    + intros H1 H2 H3. rewrite H1, H2 in X. cbn in X.
      inversion M as [_ _ C E|_ _ C P St E|w' I1 I2 _ B E|w' e _ D' _ E]; clear M; try congruence.
      2:{ destruct B as [B|(_ & _ & B)]; congruence. }
      eexists _, _. split; [reflexivity|]. split.
      { split; [reflexivity|]. split; [reflexivity|]. split; [cbn; lia|]. split; [apply obj_name_given|apply same_adv]. }
      cbn. repeat split; auto.
  - intros D N.
    assert (F : fits c 0 (t_shape t) = false).
    { destruct (fits c 0 (t_shape t)) eqn:F; [|reflexivity]. destruct (fits_shape c 0 _ Vc F) as [b B]. exfalso. apply (N b). rewrite B, S. reflexivity. }
    inversion M as [_ F' C E|_ F' C P St E|w' I1 I2 _ B E|w' e _ D' _ E]; clear M; try congruence. exists w', ValueErr. auto.
  - intros D. inversion M as [D' _ C E|D' _ C P St E|w' I1 I2 D' B E|w' e I D' H E]; clear M; try congruence.
    exists w', e. split; [reflexivity|]. split; [lia|]. intro Z. apply H. unfold checking. destruct Z as [-> | ->]; [apply andb_false_r|reflexivity].
Qed.

(** ---- a tensor for a vector or a point ---- *)
(** a one-dimensional tensor stands for one item *)
Definition vec_dof (c : cls) (n : nat) : Prop := match c with CVector => True | CPoint2 => n = 2 | CPoint3 => n = 3 | _ => False end.
Theorem C100_vector : forall w c a t, ~ is_group c -> (c = CVector -> a_dof a = None) -> a_tensor a = Some t -> supported (t_dt t) = true ->
  (forall b n, (t_shape t = [b; n] \/ (t_shape t = [n] /\ b = 1)) -> vec_dof c n ->
     exists w' o, make c a w = Ok w' o /\ made w w' c a o /\ t_shape (o_tensor o) = [b; n] /\ t_dt (o_tensor o) = t_dt t /\
       t_mem (o_tensor o) = t_mem t /\ t_req (o_tensor o) = t_req t /\ o_updates o = 1 /\
       (t_shape t = [b; n] -> o_tensor o = t) /\
       (t_shape t = [n] -> forall j, t_at (o_tensor o) [0; j] = t_at t [j]) /\
       w_warn w' = w_warn w ++ (if w_checks w || w_silent w then [] else [WUnchecked]) ++ dtype_warning t a) /\
  ((forall b n, vec_dof c n -> t_shape t <> [b; n] /\ t_shape t <> [n]) ->
     refused w (make c a w) (fun e => t_shape t <> [] -> e = ValueErr)).
Proof.
  intros w c a t NG Dof T D.
  assert (Vc : is_vec c = true) by (unfold is_group in NG; destruct c; try reflexivity; exfalso; apply NG; auto).
  assert (K : forall b n u, t_shape u = [b; n] -> supported (t_dt u) = true -> vec_dof c n ->
     manifold_init v0 v1 gok gnorm c n (Some u) (a_name a) (a_dtype a) false false w =
     Ok (adv w 1 1 (complains w false ++ mismatch u (a_dtype a))) (mkO c (w_ids w) (obj_name c (w_ids w) (a_name a)) u 1)).
  { intros b n u S Du Vd.
    assert (F : shape_test c (t_shape u) = fits c n (t_shape u)).
    { rewrite S, fits_vec by exact Vc. destruct c; try discriminate Vc; cbn in *; subst; reflexivity. }
    pose proof (mi_case v0 v1 gok gnorm c n u (a_name a) (a_dtype a) false false w F) as M.
    inversion M as [_ _ _ E|_ _ C P _ E|w' _ _ _ B E|w' e _ D' _ E]; clear M.
    - reflexivity.
    - rewrite passes_vec in P by exact Vc. discriminate P.
    - destruct B as [B|(_ & P & _)]; [rewrite S, fits_vec in B by exact Vc; discriminate B|rewrite passes_vec in P by exact Vc; discriminate P].
    - congruence. }
  set (u := as_row t).
  assert (Du : supported (t_dt u) = true) by (unfold u, as_row; destruct (t_shape t) as [|? [|? ?]]; exact D).
  assert (Su : forall b n, t_shape u = [b; n] -> t_shape t = [b; n] \/ (t_shape t = [n] /\ b = 1)).
  { intros b n. unfold u, as_row. destruct (t_shape t) as [|x [|y l]] eqn:St; cbn; rewrite ?St; intro H; [discriminate|injection H as <- <-; auto|auto]. }
  assert (Ok1 : forall b n, t_shape u = [b; n] -> vec_dof c n -> make c a w =
     Ok (adv w 1 1 (complains w false ++ mismatch u (a_dtype a))) (mkO c (w_ids w) (obj_name c (w_ids w) (a_name a)) u 1)).
  { intros b n S Vd. rewrite <- (K b n u S Du Vd).
    unfold Ctor_model.make, construct, point_init, vector_init. rewrite T. fold (as_row t). fold u.
    destruct c; try discriminate Vc; cbn in Vd.
    - rewrite Dof by reflexivity. rewrite S. reflexivity.
    - subst n. rewrite S. cbn [Nat.eqb]. rewrite ?S. rewrite ?S. reflexivity.
    - subst n. rewrite S. cbn [Nat.eqb]. rewrite ?S. rewrite ?S. reflexivity. }
  split.
  - intros b n H Vd.
    assert (S : t_shape u = [b; n]).
    { unfold u, as_row. destruct H as [H|[H ->]]; rewrite H; [exact H|reflexivity]. }
    rewrite (Ok1 b n S Vd). eexists _, _. split; [reflexivity|]. split.
    { split; [reflexivity|]. split; [reflexivity|]. split; [cbn; lia|]. split; [apply obj_name_given|apply same_adv]. }
    cbn [o_tensor o_updates]. split; [exact S|].
    assert (Eu : t_dt u = t_dt t /\ t_mem u = t_mem t /\ t_req u = t_req t) by (unfold u, as_row; destruct (t_shape t) as [|? [|? ?]]; auto).
    destruct Eu as (E1 & E2 & E3). split; [exact E1|]. split; [exact E2|]. split; [exact E3|]. split; [reflexivity|].
    split; [intro H2; unfold u, as_row; rewrite H2; reflexivity|].
    split; [intros H2 j; unfold u, as_row; rewrite H2; reflexivity|].
    cbn. unfold complains, mismatch, dtype_warning. rewrite E1. destruct (w_checks w), (w_silent w); reflexivity.
  - intro N.
    assert (Nu : forall b n, vec_dof c n -> t_shape u <> [b; n]).
    { intros b n Vd H. destruct (N b n Vd) as [N1 N2]. destruct (Su b n H) as [H2|[H2 _]]; auto. }
    assert (Lu : t_shape t <> [] -> t_shape u <> []) by (unfold u, as_row; destruct (t_shape t) as [|? [|? ?]] eqn:St; cbn; rewrite ?St; congruence).
    exists w. unfold Ctor_model.make, construct, point_init, vector_init. rewrite T. fold (as_row t). fold u.
    destruct c; try discriminate Vc.
    + rewrite Dof by reflexivity. exists ValueErr. destruct (t_shape u) as [|b [|n [|k l]]] eqn:S; try (split; [reflexivity|split; [lia|auto]]).
      exfalso. apply (Nu b n); [exact I|reflexivity].
    + destruct (t_shape u) as [|b [|n l]] eqn:S.
      * exists IndexErr. split; [reflexivity|]. split; [lia|]. intro H. exfalso. exact (Lu H eq_refl).
      * exfalso. revert S. unfold u, as_row. destruct (t_shape t) as [|? [|? ?]] eqn:St; cbn; rewrite ?St; congruence.
      * exists ValueErr. destruct (Nat.eqb_spec n 2) as [->|Nn]; [|split; [reflexivity|split; [lia|auto]]].
        rewrite S. destruct l as [|k l]; [exfalso; exact (Nu b 2 eq_refl eq_refl)|]. rewrite ?S. split; [reflexivity|split; [lia|auto]].
    + destruct (t_shape u) as [|b [|n l]] eqn:S.
      * exists IndexErr. split; [reflexivity|]. split; [lia|]. intro H. exfalso. exact (Lu H eq_refl).
      * exfalso. revert S. unfold u, as_row. destruct (t_shape t) as [|? [|? ?]] eqn:St; cbn; rewrite ?St; congruence.
      * exists ValueErr. destruct (Nat.eqb_spec n 3) as [->|Nn]; [|split; [reflexivity|split; [lia|auto]]].
        rewrite S. destruct l as [|k l]; [exfalso; exact (Nu b 3 eq_refl eq_refl)|]. rewrite ?S. split; [reflexivity|split; [lia|auto]].
Qed.

(** ---- theta, x_y_theta, quaternion, x_y_z_quaternion ---- *)
(** with torchlie checks enabled the quaternions must be unit quaternions; SE3 also needs torch's default
    dtype to be a supported one *)
Definition short_ok (w : world) (c : cls) (x : @tensor V) : Prop :=
  match c with
  | CSO3 => w_lie w = true -> forall i, i < short_batch c (t_shape x) -> unit_q (t_dt x) (short_entry c x i) = true
  | CSE3 => supported (w_default w) = true /\
            (w_lie w = true -> forall i, i < short_batch c (t_shape x) -> unit_q (t_dt x) (fun k => short_entry c x i (3 + k)) = true)
  | _ => True
  end.
Definition short_ids (c : cls) : nat := match c with CSO2 => 1 | CSE2 => 3 | CSO3 => 2 | _ => 3 end.

Lemma as_row_entries : forall (x : @tensor V) c k b, c = CSO3 \/ c = CSE3 -> is_rows k (t_shape (as_row x)) = Some b ->
  (t_shape x = [k] \/ t_shape x = [b; k]) /\ short_batch c (t_shape x) = b /\
  forall i j, i < b -> t_at (as_row x) [i; j] = short_entry c x i j.
Proof.
  intros x c k b C H. destruct x as [m d sh at_ rq lf]. unfold as_row, is_rows in *. cbn [t_shape] in *.
  destruct sh as [|n [|y [|z l]]]; cbn in H; try discriminate H.
  - destruct (Nat.eqb_spec n k) as [->|]; [|discriminate H]. injection H as <-.
    split; [left; reflexivity|]. split; [destruct C as [-> | ->]; reflexivity|].
    intros i j L. destruct C as [-> | ->]; reflexivity.
  - destruct (Nat.eqb_spec y k) as [->|]; [|discriminate H]. injection H as <-.
    split; [right; reflexivity|]. split; [destruct C as [-> | ->]; reflexivity|].
    intros i j L. destruct C as [-> | ->]; reflexivity.
Qed.
Lemma as_row_fn : forall (x : @tensor V) c k b, c = CSO3 \/ c = CSE3 -> is_rows k (t_shape (as_row x)) = Some b ->
  forall i p, (fun j => t_at (as_row x) [i; p + j]) = (fun j => short_entry c x i (p + j)).
Proof.
  intros x c k b C H i p. destruct x as [m d sh at_ rq lf]. unfold as_row, is_rows in *. cbn [t_shape] in *.
  destruct sh as [|n [|y [|z l]]]; cbn in H; try discriminate H; destruct C as [-> | ->]; reflexivity.
Qed.
Lemma as_row_fn0 : forall (x : @tensor V) c k b, c = CSO3 \/ c = CSE3 -> is_rows k (t_shape (as_row x)) = Some b ->
  forall i, (fun j => t_at (as_row x) [i; j]) = short_entry c x i.
Proof. intros x c k b C H i. exact (as_row_fn x c k b C H i 0). Qed.
Lemma rows_none : forall (x : @tensor V) k, is_rows k (t_shape (as_row x)) = None -> t_shape x <> [k] /\ forall b, t_shape x <> [b; k].
Proof.
  intros x k H. unfold as_row in H. split.
  - intro E. rewrite E in H. cbn in H. rewrite Nat.eqb_refl in H. discriminate H.
  - intros b E. rewrite E in H. rewrite E in H. cbn in H. rewrite Nat.eqb_refl in H. discriminate H.
Qed.
Lemma dt_as_row : forall (x : @tensor V), t_dt (as_row x) = t_dt x.
Proof. intro x. unfold as_row; destruct (t_shape x) as [|? [|? ?]]; reflexivity. Qed.
Lemma req_as_row : forall (x : @tensor V), t_req (as_row x) = t_req x.
Proof. intro x. unfold as_row; destruct (t_shape x) as [|? [|? ?]]; reflexivity. Qed.

Theorem C100_shorthand : forall w c a x, is_group c -> a_alt a = Some x -> a_tensor a = None ->
  (supported (t_dt x) = true -> short_shape c (t_shape x) -> short_ok w c x ->
     exists w' o, make c a w = Ok w' o /\ made w w' c a o /\
       t_dt (o_tensor o) = t_dt x /\ t_shape (o_tensor o) = short_batch c (t_shape x) :: item_shape c 0 /\
       (forall i ix, i < short_batch c (t_shape x) -> in_item c ix -> t_at (o_tensor o) (i :: ix) = meant c (short_entry c x i) ix) /\
       w_mem w <= t_mem (o_tensor o) /\ t_req (o_tensor o) = t_req x /\
       w_ids w' = short_ids c + w_ids w /\ o_updates o = (match c with CSE2 => 0 | _ => 1 end) /\
       w_warn w' = w_warn w ++ (match c with CSE2 => if w_checks w || w_silent w then [] else [WUnchecked] | _ => [] end)) /\
  (~ (supported (t_dt x) = true /\ short_shape c (t_shape x) /\ short_ok w c x) ->
     refused w (make c a w) (fun e => short_dims c <= List.length (t_shape x) -> e = ValueErr)).
Proof.
  intros w c a x G A T.
  destruct (supported (t_dt x)) eqn:D.
  2:{ split; [discriminate|]. intros _. exists w, ValueErr. split; [|auto].
      unfold Ctor_model.make, construct, so2_init, se2_init, so3_init, se3_init. rewrite A, T.
      destruct G as [->|[->|[->| ->]]]; unfold bind; rewrite mi_none'; cbv zeta; rewrite D; reflexivity. }
  destruct G as [->|[->|[->| ->]]]; unfold Ctor_model.make, construct; rewrite A, T.
  - (* SO2 *)
    rewrite so2_theta, D.
    destruct (is_column (t_shape (as_column x))) as [b|] eqn:C.
    + destruct x as [m d sh at_ rq lf]. unfold as_column in *. cbn [t_shape t_dt t_req] in *.
      assert (Sh : sh = [b] \/ sh = [b; 1]).
      { destruct sh as [|n [|[|[|y]] [|z l]]]; cbn in C; try discriminate C; injection C as ->; auto. }
      split; [|intros N; exfalso; apply N; split; [reflexivity|split; [exists b; exact Sh|exact I]]].
      intros _ _ _. eexists _, _. split; [reflexivity|]. split.
      { split; [reflexivity|]. split; [reflexivity|]. split; [cbn; lia|]. split; [apply obj_name_given|apply same_adv]. }
      destruct Sh as [-> | ->]; cbn; repeat split; try lia; try apply app_nil_r;
      intros i [|[|[|j]] [|z l]] Li Lj; cbn in *; try lia; reflexivity.
    + split; [|intros _; exists (adv w 1 1 []), ValueErr; split; [reflexivity|]; cbn; split; [lia|auto]].
      intros _ [b [H|H]] _; exfalso; unfold as_column in C; rewrite H in C; try rewrite H in C; discriminate C.
  - (* SE2 *)
    unfold se2_init. unfold bind. rewrite mi_none'. cbv zeta. rewrite D.
    pose proof (set_xyt v0 v1 vcos vsin gok gnorm (plain v0 v1 CSE2 0 (a_name a) (t_dt x) w) x (adv w 1 1 []) D) as H.
    destruct (is_rows 3 (t_shape x)) as [b|] eqn:R.
    + assert (Sh : t_shape x = [b; 3]).
      { unfold is_rows in R. destruct (t_shape x) as [|n [|y [|z l]]]; try discriminate R. destruct (Nat.eqb y 3) eqn:Ey; [|discriminate R].
        apply Nat.eqb_eq in Ey. injection R as R. congruence. }
      split; [|intros N; exfalso; apply N; split; [reflexivity|split; [exists b; exact Sh|exact I]]].
      intros _ _ _. destruct H as (t & E & M & Dt & S4 & Rq & Lf & At). rewrite E. eexists _, _. split; [reflexivity|]. split.
      { split; [reflexivity|]. split; [reflexivity|]. split; [cbn; lia|]. split; [apply obj_name_given|rewrite adv_adv; apply same_adv]. }
      rewrite Sh. cbn [o_tensor short_batch item_shape o_updates plain]. rewrite adv_adv. cbn [app Nat.add].
      split; [exact Dt|]. split; [exact S4|]. split.
      { intros i ix Li Lj. unfold short_entry. rewrite Sh. destruct ix as [|j [|z l]]; cbn in Lj; try (exfalso; exact Lj).
        rewrite (At i j Li). destruct j as [|[|[|[|j]]]]; try lia; reflexivity. }
      split; [rewrite M; cbn; lia|]. split; [exact Rq|]. split; [reflexivity|]. split; [reflexivity|].
      cbn. unfold complains. cbn. destruct (w_checks w), (w_silent w); reflexivity.
    + split.
      * intros _ [b Sh] _. rewrite Sh in R. discriminate R.
      * intros _. destruct H as (w' & e & E & I1 & X & _). exists w', e. split; [exact E|]. split; [cbn in I1; lia|exact X].
  - (* SO3 *)
    unfold so3_init. unfold bind. rewrite mi_none'. cbv zeta. rewrite D.
    pose proof (set_quat v0 v1 q2r gok gnorm gunit (plain v0 v1 CSO3 0 (a_name a) (t_dt x) w) x (adv w 1 1 []) D) as H.
    assert (F : fits CSO3 0 (t_shape (o_tensor (plain v0 v1 CSO3 0 (a_name a) (t_dt x) w))) = true) by reflexivity.
    specialize (H F eq_refl).
    destruct (is_rows 4 (t_shape (as_row x))) as [b|] eqn:R.
    + destruct (as_row_entries x CSO3 4 b (or_introl eq_refl) R) as (Sh & Sb & En).
      assert (SS : short_shape CSO3 (t_shape x)) by (destruct Sh as [Sh|Sh]; rewrite Sh; [left; reflexivity|right; exists b; reflexivity]).
      change (w_lie (adv w 1 1 [])) with (w_lie w) in H. rewrite H. clear H.
      assert (U : gunit (as_row x) = true <-> forall i, i < b -> unit_q (t_dt x) (short_entry CSO3 x i) = true).
      { unfold batch_unit. rewrite forallb_forall. rewrite dt_as_row.
        assert (Bt : batch (as_row x) = b) by (unfold batch, is_rows in *; destruct (t_shape (as_row x)) as [|n [|y [|z l]]]; try discriminate R; destruct (y =? 4); [injection R as ->; reflexivity|discriminate R]).
        rewrite Bt. split; intros U i Hi.
        - specialize (U i). rewrite (as_row_fn0 x CSO3 4 b (or_introl eq_refl) R i) in U. cbn in U. apply U. apply in_seq. lia.
        - rewrite (as_row_fn0 x CSO3 4 b (or_introl eq_refl) R i). apply U. apply in_seq in Hi. lia. }
      destruct (w_lie w && negb (gunit (as_row x))) eqn:Lu.
      * split.
        -- intros _ _ O. exfalso. apply andb_true_iff in Lu. destruct Lu as [L1 L2]. apply negb_true_iff in L2.
           assert (gunit (as_row x) = true) by (apply U; intros i Hi; apply (O L1); rewrite Sb; exact Hi). congruence.
        -- intros _. exists (adv w 1 1 []), ValueErr. split; [reflexivity|]. cbn. split; [lia|auto].
      * split.
        -- intros _ _ _. eexists _, _. split; [reflexivity|]. split.
           { split; [reflexivity|]. split; [reflexivity|]. split; [cbn; lia|]. split; [apply obj_name_given|rewrite adv_adv; apply same_adv]. }
           rewrite Sb, adv_adv. cbn [updated o_tensor quat_tensor t_dt t_shape t_req t_mem o_updates plain]. rewrite dt_as_row, req_as_row.
           repeat split; try (cbn; lia).
           intros i ix Li Lj. destruct ix as [|r [|k [|z l]]]; cbn in Lj; try (exfalso; exact Lj).
           cbn. rewrite (as_row_fn0 x CSO3 4 b (or_introl eq_refl) R i). reflexivity.
        -- intros N. exfalso. apply N. split; [reflexivity|]. split; [exact SS|]. intros L1 i Hi. rewrite Sb in Hi.
           rewrite L1 in Lu. cbn in Lu. apply negb_false_iff in Lu. apply (proj1 U Lu i Hi).
    + destruct (rows_none x 4 R) as [N1 N2]. split.
      * intros _ [Sh|[b Sh]] _; exfalso; [exact (N1 Sh)|exact (N2 b Sh)].
      * intros _. destruct H as (w' & e & E & I1 & X & _). exists w', e. split; [exact E|]. split; [cbn in I1; lia|exact X].
  - (* SE3 *)
    unfold se3_init. unfold bind. rewrite mi_none'. cbv zeta. rewrite D. unfold update_from_xyzq, bind.
    pose proof (xyzq_ok v0 v1 q2r gok gnorm gunit x (adv w 1 1 []) D) as H.
    destruct (is_rows 7 (t_shape (as_row x))) as [b|] eqn:R.
    + destruct (as_row_entries x CSE3 7 b (or_intror eq_refl) R) as (Sh & Sb & En).
      assert (SS : short_shape CSE3 (t_shape x)) by (destruct Sh as [Sh|Sh]; rewrite Sh; [left; reflexivity|right; exists b; reflexivity]).
      change (w_lie (adv w 1 1 [])) with (w_lie w) in H. change (w_default (adv w 1 1 [])) with (w_default w) in H.
      assert (U : gunit (quat_cols v0 (as_row x) b) = true <-> forall i, i < b -> unit_q (t_dt x) (fun k => short_entry CSE3 x i (3 + k)) = true).
      { unfold batch_unit. rewrite forallb_forall. cbn [quat_cols view t_dt t_at batch t_shape hd]. rewrite dt_as_row. change (batch (quat_cols v0 (as_row x) b)) with b.
        split; intros U i Hi.
        - specialize (U i). rewrite (as_row_fn x CSE3 7 b (or_intror eq_refl) R i 3) in U. apply U. apply in_seq. lia.
        - rewrite (as_row_fn x CSE3 7 b (or_intror eq_refl) R i 3). apply U. apply in_seq in Hi. lia. }
      destruct (supported (w_default w) && negb (w_lie w && negb (gunit (quat_cols v0 (as_row x) b)))) eqn:Lu.
      * apply andb_true_iff in Lu. destruct Lu as [Ld Lu]. apply negb_true_iff in Lu.
        destruct H as (o & t & E & Ot & Mm & Dt & S4 & Rq & Lf & At). rewrite E. rewrite update_iff. rewrite Ot, S4, Dt.
        cbn [plain o_tensor t_shape t_dt init_shape List.length Nat.eqb tl]. rewrite dt_eqb_refl.
        destruct (shape_eqb_spec [3; 4] [3; 4]) as [_|N]; [|congruence]. cbn [andb].
        split.
        -- intros _ _ _. eexists _, _. split; [reflexivity|]. split.
           { split; [reflexivity|]. split; [reflexivity|]. split; [cbn; lia|]. split; [apply obj_name_given|rewrite adv_adv; apply same_adv]. }
           rewrite Sb, adv_adv. cbn [updated o_tensor o_updates plain].
           split; [exact Dt|]. split; [exact S4|]. split.
           { intros i ix Li Lj. destruct ix as [|r [|k [|z l]]]; cbn in Lj; try (exfalso; exact Lj).
             rewrite (At [i; r; k]). cbn [rigid_tensor t_at]. destruct (Nat.ltb_spec k 3) as [Hk|Hk].
             - cbn [meant]. rewrite (as_row_fn x CSE3 7 b (or_intror eq_refl) R i 3). destruct k as [|[|[|k]]]; try lia; reflexivity.
             - replace k with 3 by lia. cbn [meant]. apply En. exact Li. }
           split; [rewrite Mm; cbn; lia|]. split; [exact Rq|]. split; [reflexivity|]. split; [reflexivity|]. cbn. reflexivity.
        -- intros N. exfalso. apply N. split; [reflexivity|]. split; [exact SS|]. split; [exact Ld|]. intros L1 i Hi. rewrite Sb in Hi.
           rewrite L1 in Lu. cbn in Lu. apply negb_false_iff in Lu. apply (proj1 U Lu i Hi).
      * destruct H as (w' & E & I1). rewrite E. split.
        -- intros _ _ [Ld O]. exfalso. rewrite Ld in Lu. cbn [andb] in Lu. apply negb_false_iff in Lu. apply andb_true_iff in Lu. destruct Lu as [L1 L2].
           apply negb_true_iff in L2.
           assert (gunit (quat_cols v0 (as_row x) b) = true) by (apply U; intros i Hi; apply (O L1); rewrite Sb; exact Hi). congruence.
        -- intros _. exists w', ValueErr. split; [reflexivity|]. split; [cbn in I1; lia|auto].
    + destruct (rows_none x 7 R) as [N1 N2]. split.
      * intros _ [Sh|[b Sh]] _; exfalso; [exact (N1 Sh)|exact (N2 b Sh)].
      * intros _. destruct H as (w' & e & E & I1 & X & _). rewrite E. exists w', e. split; [reflexivity|]. split; [cbn in I1; lia|exact X].
Qed.
End Main.
