(** What the constructors do, argument by argument (for C100). *)
From Coq Require Import List String Arith Bool Lia.
From Verif Require Import Ctor_model Ctor_base.
Import ListNotations.
Local Open Scope list_scope.
Local Open Scope nat_scope.

Section Lem.
Context {V : Type}.
Variables (v0 v1 : V) (vcos vsin : V -> V).
Variable q2r : (nat -> V) -> nat -> nat -> V.
Variable group_ok : cls -> @tensor V -> bool.
Variable norm_at : cls -> @tensor V -> list nat -> V.
Variable unit_ok : @tensor V -> bool.
Notation mi := (manifold_init v0 v1 group_ok norm_at).

(** the object made without a tensor, and the world after *)
Definition plain (c : cls) (dof : nat) (name : option string) (d : dtype) (w : world) : @obj V :=
  mkO c (w_ids w) (obj_name c (w_ids w) name) (mkT (w_mem w) d (init_shape c dof) (init_at v0 v1 c) false true) 0.
Lemma mi_none' : forall c dof name dt s di w,
  mi c dof None name dt s di w =
  let d := match dt with Some d => d | None => w_default w end in
  if supported d then Ok (adv w 1 1 []) (plain c dof name d w) else Exn w ValueErr.
Proof. intros. rewrite mi_none. unfold adv. rewrite app_nil_r. reflexivity. Qed.

Lemma fresh_adv : forall d sh (f : list nat -> V) r w, fresh d sh f r w = Ok (adv w 0 1 []) (mkT (w_mem w) d sh f r (negb r)).
Proof. intros d sh f r []. unfold fresh, adv. cbn. rewrite app_nil_r. reflexivity. Qed.

(** a tensor of the exact shape with checks off *)
Lemma mi_disabled : forall c dof t name strict w, shape_test c (t_shape t) = fits c dof (t_shape t) ->
  mi c dof (Some t) name None strict true w =
  if supported (t_dt t) then
    if fits c dof (t_shape t) then Ok (adv w 1 1 []) (mkO c (w_ids w) (obj_name c (w_ids w) name) t 1)
    else Exn (adv w 1 1 []) ValueErr
  else Exn w ValueErr.
Proof.
  intros c dof t name strict w _. rewrite mi_some. cbn. unfold rest, mismatch, complains. rewrite !adv_adv, !adv0. reflexivity.
Qed.

(** SO2(theta) *)
Definition angle_tensor (m : nat) (th : @tensor V) (b : nat) : @tensor V :=
  mkT m (t_dt th) [b; 2]
    (fun ix => match ix with
               | [i; j] => if j <? 1 then vcos (t_at th [i; j]) else vsin (t_at th [i; j - 1])
               | _ => v0 end) (t_req th) (negb (t_req th)).
Definition as_column (th : @tensor V) : @tensor V :=
  match t_shape th with [n] => view th [n; 1] (fun ix => t_at th [hd 0 ix]) | _ => th end.
Definition is_column (sh : list nat) : option nat := match sh with [b; 1] => Some b | _ => None end.
Lemma so2_theta : forall th name dt strict disable w,
  so2_init v0 v1 vcos vsin group_ok norm_at (Some th) None name dt strict disable w =
  if supported (t_dt th) then
    match is_column (t_shape (as_column th)) with
    | Some b => Ok (adv w 1 2 []) (mkO CSO2 (w_ids w) (obj_name CSO2 (w_ids w) name) (angle_tensor (S (w_mem w)) (as_column th) b) 1)
    | None => Exn (adv w 1 1 []) ValueErr
    end
  else Exn w ValueErr.
Proof.
  intros. unfold so2_init. unfold bind at 1. rewrite mi_none'. cbv zeta. destruct (supported (t_dt th)) eqn:D; [|reflexivity].
  fold (as_column th). destruct (t_shape (as_column th)) as [|b [|[|[|n]] [|k l]]] eqn:E; try reflexivity.
  cbn [is_column]. unfold update_from_angle. rewrite E. unfold bind. rewrite fresh_adv. rewrite update_iff.
  cbn [t_shape plain o_tensor t_dt init_shape List.length Nat.eqb tl Nat.add].
  replace (t_dt (as_column th)) with (t_dt th) by (unfold as_column; destruct (t_shape th) as [|? [|? ?]]; reflexivity).
  rewrite dt_eqb_refl. destruct (shape_eqb_spec [2] [2]) as [_|N]; [|congruence]. cbn [andb].
  rewrite adv_adv. unfold updated, angle_tensor. cbn.
  replace (t_dt (as_column th)) with (t_dt th) by (unfold as_column; destruct (t_shape th) as [|? [|? ?]]; reflexivity).
  reflexivity.
Qed.

(** Point2 of a (b, 2) tensor *)
Lemma point2_of : forall t name dt w b, t_shape t = [b; 2] -> supported (t_dt t) = true ->
  point_init v0 v1 group_ok norm_at CPoint2 2 (Some t) name dt w =
  Ok (adv w 1 1 (complains w false ++ mismatch t dt)) (mkO CPoint2 (w_ids w) (obj_name CPoint2 (w_ids w) name) t 1).
Proof.
  intros t name dt w b S D. unfold point_init. rewrite S. cbn [t_shape]. rewrite S. cbn [Nat.eqb].
  unfold vector_init. rewrite S. cbn [t_shape]. rewrite S.
  assert (F : shape_test CPoint2 (t_shape t) = fits CPoint2 2 (t_shape t)) by (rewrite S, fits_vec; reflexivity).
  pose proof (mi_case v0 v1 group_ok norm_at CPoint2 2 t name dt false false w F) as M.
  inversion M as [A B C E|A B C P E|w' I1 I2 A B E|w' e I A B E]; clear M; subst.
  - reflexivity.
  - discriminate P.
  - destruct B as [B|[_ [B _]]]; [rewrite S, fits_vec in B; [discriminate B|reflexivity]|discriminate B].
  - congruence.
Qed.

(** SE2(x_y_theta) *)
Definition pose_tensor (m : nat) (x : @tensor V) (b : nat) : @tensor V :=
  mkT m (t_dt x) [b; 4]
    (fun ix => match ix with
               | [i; 0] => t_at x [i; 0] | [i; 1] => t_at x [i; 1]
               | [i; 2] => vcos (t_at x [i; 2]) | [i; 3] => vsin (t_at x [i; 2])
               | _ => v0 end) (t_req x) (negb (t_req x)).
Definition is_rows (k : nat) (sh : list nat) : option nat :=
  match sh with [b; n] => if n =? k then Some b else None | _ => None end.
Lemma set_xyt : forall o x w, supported (t_dt x) = true ->
  match is_rows 3 (t_shape x) with
  | Some b => exists t, update_from_x_y_theta v0 v1 vcos vsin group_ok norm_at o x w =
       Ok (adv w 2 4 (complains w false)) (mkO (o_cls o) (o_id o) (o_name o) t (o_updates o)) /\
     t_mem t = 3 + w_mem w /\ t_dt t = t_dt x /\ t_shape t = [b; 4] /\ t_req t = t_req x /\ t_leaf t = negb (t_req x) /\
     forall i j, i < b -> t_at t [i; j] = t_at (pose_tensor 0 x b) [i; j]
  | None => exists w' e, update_from_x_y_theta v0 v1 vcos vsin group_ok norm_at o x w = Exn w' e /\ w_ids w <= w_ids w' /\
     (2 <= List.length (t_shape x) -> e = ValueErr) /\ (List.length (t_shape x) < 2 -> e = IndexErr)
  end.
Proof.
  intros o x w D. destruct x as [m d sh at_ rq lf]. cbn [t_dt t_shape t_req t_at t_mem] in *.
  assert (Bad : forall b n r, (r <> [] \/ n <> 3) ->
    exists w' e, update_from_x_y_theta v0 v1 vcos vsin group_ok norm_at o (mkT m d (b :: n :: r) at_ rq lf) w = Exn w' e /\ w_ids w <= w_ids w' /\ e = ValueErr).
  { intros b n r H. unfold update_from_x_y_theta. cbn [cols_from cols_to t_shape]. unfold bind at 1. rewrite so2_theta.
    cbn [t_dt view]. rewrite D.
    assert (E : is_column (t_shape (as_column (view (mkT m d (b :: n :: r) at_ rq lf) (b :: n - 2 :: r)
       (fun ix => match ix with i :: j :: l => t_at (mkT m d (b :: n :: r) at_ rq lf) (i :: 2 + j :: l) | _ => v0 end)))) = None).
    { cbn. destruct (n - 2) as [|[|q]] eqn:Q; try reflexivity. destruct r as [|z r]; [|reflexivity]. exfalso. destruct H as [H|H]; [congruence|lia]. }
    rewrite E. eexists _, _. split; [reflexivity|]. cbn. split; [lia|reflexivity]. }
  destruct sh as [|b [|n r]]; cbn [is_rows].
  - exists w, IndexErr. cbn. repeat split; try lia; reflexivity.
  - exists w, IndexErr. cbn. repeat split; try lia; reflexivity.
  - destruct r as [|z r].
    + destruct (Nat.eqb_spec n 3) as [->|N].
      * unfold update_from_x_y_theta. cbn [cols_from cols_to t_shape]. unfold bind at 1. rewrite so2_theta.
        cbn [t_dt view]. rewrite D. cbn [as_column view t_shape is_column Nat.sub].
        unfold bind at 1. rewrite (point2_of _ _ _ _ b); [|reflexivity|exact D].
        unfold se2_from_rot_trans. cbn [o_tensor t_shape angle_tensor view]. rewrite Nat.eqb_refl. cbn [orb].
        unfold bind. rewrite fresh_adv. eexists. split.
        { unfold ret. rewrite !adv_adv. cbn [mismatch Nat.add app]. rewrite !app_nil_r. reflexivity. }
        cbn. rewrite Bool.orb_diag. repeat split; try reflexivity.
        intros i j L. destruct j as [|[|[|[|j]]]]; cbn; try reflexivity.
        -- destruct (Nat.eqb_spec b 1) as [->|_]; [|reflexivity]. replace i with 0 by lia. reflexivity.
        -- destruct (Nat.eqb_spec b 1) as [->|_]; [|reflexivity]. replace i with 0 by lia. reflexivity.
      * destruct (Bad b n [] (or_intror N)) as (w' & e & E & I & X). exists w', e. split; [exact E|]. split; [exact I|]. cbn. split; [auto|lia].
    + destruct (Bad b n (z :: r)) as (w' & e & E & I & X); [left; discriminate|]. exists w', e. split; [exact E|]. split; [exact I|]. cbn. split; [auto|lia].
Qed.

(** quaternions *)
Definition as_row (q : @tensor V) : @tensor V := match t_shape q with [n] => unsqueeze0 q n | _ => q end.
Definition quat_tensor (m : nat) (q : @tensor V) (b : nat) : @tensor V :=
  mkT m (t_dt q) [b; 3; 3]
    (fun ix => let '(lead, i, j) := split_last2 ix in q2r (fun k => t_at q (lead ++ [k])) i j) (t_req q) (negb (t_req q)).
Lemma quat_ok : forall q w, supported (t_dt q) = true ->
  match is_rows 4 (t_shape (as_row q)) with
  | Some b => unit_quaternion_to_SO3 v0 v1 q2r group_ok norm_at unit_ok q w =
      if w_lie w && negb (unit_ok (as_row q)) then Exn w ValueErr
      else Ok (adv w 1 2 []) (mkO CSO3 (w_ids w) (obj_name CSO3 (w_ids w) None) (quat_tensor (w_mem w) (as_row q) b) 1)
  | None => exists w' e, unit_quaternion_to_SO3 v0 v1 q2r group_ok norm_at unit_ok q w = Exn w' e /\ w_ids w <= w_ids w' /\
     (1 <= List.length (t_shape q) -> e = ValueErr) /\ (List.length (t_shape q) = 0 -> e = IndexErr)
  end.
Proof.
  intros q w D. unfold unit_quaternion_to_SO3. fold (as_row q).
  assert (Dr : t_dt (as_row q) = t_dt q) by (unfold as_row; destruct (t_shape q) as [|? [|? ?]]; reflexivity).
  assert (L : List.length (t_shape (as_row q)) = match List.length (t_shape q) with 0 => 0 | 1 => 2 | n => n end)
    by (unfold as_row; destruct (t_shape q) as [|? [|? ?]] eqn:E; cbn; rewrite ?E; reflexivity).
  destruct (is_rows 4 (t_shape (as_row q))) as [b|] eqn:R.
  - destruct (t_shape (as_row q)) as [|b' [|n [|z r]]] eqn:S; try discriminate R. cbn in R.
    destruct (Nat.eqb_spec n 4) as [->|N]; [|discriminate R]. injection R as ->. cbn [rev app Nat.eqb negb].
    unfold bind at 1. cbn [ask]. rewrite Dr, D. cbn [andb].
    destruct (w_lie w && negb (unit_ok (as_row q))) eqn:U; [reflexivity|].
    unfold bind. rewrite fresh_adv.
    rewrite mi_disabled by (apply shape_fits_group; reflexivity). cbn [t_dt]. rewrite D. cbn [t_shape].
    assert (F : fits CSO3 0 [b; 3; 3] = true).
    { rewrite <- shape_fits_group by reflexivity. reflexivity. }
    rewrite F, adv_adv. unfold quat_tensor. rewrite Dr. reflexivity.
  - destruct (rev (t_shape (as_row q))) as [|n r] eqn:S.
    + exists w, IndexErr. split; [reflexivity|]. apply (f_equal (@List.length nat)) in S. rewrite rev_length in S. cbn in S. rewrite L in S.
      split; [lia|]. split; [intro Lq; destruct (List.length (t_shape q)) as [|[|k]]; [lia|discriminate S|discriminate S]|reflexivity].
    + assert (Lq : List.length (t_shape q) <> 0).
      { apply (f_equal (@List.length nat)) in S. rewrite rev_length, L in S. cbn in S. destruct (List.length (t_shape q)) as [|[|k]]; [discriminate S|discriminate|discriminate]. }
      destruct (Nat.eqb_spec n 4) as [->|N]; cbn [negb].
      2:{ exists w, ValueErr. split; [reflexivity|]. split; [lia|]. split; [auto|congruence]. }
      unfold bind at 1. cbn [ask]. rewrite Dr, D. cbn [andb].
      destruct (w_lie w && negb (unit_ok (as_row q))).
      { exists w, ValueErr. split; [reflexivity|]. split; [lia|]. split; [auto|congruence]. }
      unfold bind. rewrite fresh_adv. rewrite mi_disabled by (apply shape_fits_group; reflexivity). cbn [t_dt]. rewrite D. cbn [t_shape].
      assert (F : fits CSO3 0 (rev r ++ [3; 3]) = false).
      { rewrite <- shape_fits_group by reflexivity.
        assert (Sh : t_shape (as_row q) = rev r ++ [4]) by (rewrite <- (rev_involutive (t_shape (as_row q))), S; reflexivity).
        rewrite Sh in R.
        destruct (rev r) as [|a [|a2 [|a3 l]]]; cbn; try reflexivity.
        all: try (cbn in R; discriminate R). all: destruct l; reflexivity. }
      rewrite F. eexists _, _. split; [reflexivity|]. cbn. split; [lia|]. split; [auto|congruence].
Qed.

Lemma set_quat : forall (o : @obj V) q w, supported (t_dt q) = true -> fits CSO3 0 (t_shape (o_tensor o)) = true -> t_dt (o_tensor o) = t_dt q ->
  match is_rows 4 (t_shape (as_row q)) with
  | Some b => update_from_unit_quaternion v0 v1 q2r group_ok norm_at unit_ok o q w =
      if w_lie w && negb (unit_ok (as_row q)) then Exn w ValueErr
      else Ok (adv w 1 2 []) (updated o (quat_tensor (w_mem w) (as_row q) b))
  | None => exists w' e, update_from_unit_quaternion v0 v1 q2r group_ok norm_at unit_ok o q w = Exn w' e /\ w_ids w <= w_ids w' /\
     (1 <= List.length (t_shape q) -> e = ValueErr) /\ (List.length (t_shape q) = 0 -> e = IndexErr)
  end.
Proof.
  intros o q w D F T. pose proof (quat_ok q w D) as H. unfold update_from_unit_quaternion.
  assert (Dr : t_dt (as_row q) = t_dt q) by (unfold as_row; destruct (t_shape q) as [|? [|? ?]]; reflexivity).
  destruct (is_rows 4 (t_shape (as_row q))) as [b|].
  - unfold bind. rewrite H. destruct (w_lie w && negb (unit_ok (as_row q))); [reflexivity|].
    rewrite update_iff. cbn [o_tensor quat_tensor t_shape t_dt]. rewrite T, Dr, dt_eqb_refl.
    destruct (fits_shape CSO3 0 _ eq_refl F) as [b' E]. rewrite E. cbn.
    destruct (shape_eqb_spec [3; 3] [3; 3]) as [_|N]; [|congruence]. reflexivity.
  - destruct H as (w' & e & E & I & X & Y). exists w', e. unfold bind. rewrite E. auto.
Qed.

(** SE3(x_y_z_quaternion) *)
Definition rigid_tensor (m : nat) (x : @tensor V) (b : nat) : @tensor V :=
  mkT m (t_dt x) [b; 3; 4]
    (fun ix => match ix with
               | [i; r; k] => if k <? 3 then q2r (fun j => t_at x [i; 3 + j]) r k else t_at x [i; r]
               | _ => v0 end) (t_req x) (negb (t_req x)).
Definition quat_cols (x : @tensor V) (b : nat) : @tensor V :=
  view x [b; 4] (fun ix => match ix with i :: j :: l => t_at x (i :: 3 + j :: l) | _ => v0 end).
Lemma xyzq_ok : forall x w, supported (t_dt x) = true ->
  match is_rows 7 (t_shape (as_row x)) with
  | Some b => if supported (w_default w) && negb (w_lie w && negb (unit_ok (quat_cols (as_row x) b)))
              then exists o t, xyzq_to_SE3 v0 v1 q2r group_ok norm_at unit_ok x w = Ok (adv w 2 4 []) o /\ o_tensor o = t /\
                   t_mem t = 3 + w_mem w /\ t_dt t = t_dt x /\ t_shape t = [b; 3; 4] /\ t_req t = t_req x /\ t_leaf t = negb (t_req x) /\
                   forall ix, t_at t ix = t_at (rigid_tensor 0 (as_row x) b) ix
              else exists w', xyzq_to_SE3 v0 v1 q2r group_ok norm_at unit_ok x w = Exn w' ValueErr /\ w_ids w <= w_ids w'
  | None => exists w' e, xyzq_to_SE3 v0 v1 q2r group_ok norm_at unit_ok x w = Exn w' e /\ w_ids w <= w_ids w' /\
     (1 <= List.length (t_shape x) -> e = ValueErr) /\ (List.length (t_shape x) = 0 -> e = IndexErr)
  end.
Proof.
  intros x w D. unfold xyzq_to_SE3. fold (as_row x).
  assert (Dr : t_dt (as_row x) = t_dt x) by (unfold as_row; destruct (t_shape x) as [|? [|? ?]]; reflexivity).
  assert (Rr : t_req (as_row x) = t_req x) by (unfold as_row; destruct (t_shape x) as [|? [|? ?]]; reflexivity).
  assert (L : List.length (t_shape (as_row x)) = match List.length (t_shape x) with 0 => 0 | 1 => 2 | n => n end)
    by (unfold as_row; destruct (t_shape x) as [|? [|? ?]] eqn:E; cbn; rewrite ?E; reflexivity).
  destruct (t_shape (as_row x)) as [|b [|n r]] eqn:S.
  - exists w, IndexErr. cbn. repeat split; try lia. cbn in L. revert L. destruct (List.length (t_shape x)) as [|[|k]]; intros; lia.
  - cbn in L. revert L. destruct (List.length (t_shape x)) as [|[|k]]; intro L; lia.
  - assert (Lx : List.length (t_shape x) <> 0) by (cbn in L; destruct (List.length (t_shape x)); [discriminate L|discriminate]).
    assert (C : cols_from v0 (as_row x) 3 = Some (view (as_row x) (b :: n - 3 :: r) (fun ix => match ix with i :: j :: l => t_at (as_row x) (i :: 3 + j :: l) | _ => v0 end)))
      by (unfold cols_from; rewrite S; reflexivity).
    destruct (negb (List.length r =? 0) && negb (n =? 7)) eqn:T.
    + destruct (is_rows 7 (b :: n :: r)) eqn:R.
      { cbn in R. destruct r; [discriminate T|discriminate R]. }
      exists w, ValueErr. repeat split; auto. congruence.
    + rewrite C.
      assert (E0 : forall A (k : obj -> M A), bind (mi CSE3 0 None None None false false) k w =
        if supported (w_default w) then k (plain CSE3 0 None (w_default w) w) (adv w 1 1 []) else Exn w ValueErr)
        by (intros A k; unfold bind; rewrite mi_none'; cbv zeta; destruct (supported (w_default w)); reflexivity).
      rewrite !E0.
      set (q := view (as_row x) _ _). destruct (supported (w_default w)) eqn:SD; cbn [andb].
      2:{ destruct (is_rows 7 (b :: n :: r)); [exists w; split; [reflexivity|lia]|].
          exists w, ValueErr. repeat split; auto. congruence. }
      assert (Dq : supported (t_dt q) = true) by (cbn; rewrite Dr; exact D).
      pose proof (quat_ok q (adv w 1 1 []) Dq) as Q.
      assert (Aq : as_row q = q) by reflexivity. rewrite Aq in Q. clear Aq.
      destruct (is_rows 7 (b :: n :: r)) as [b'|] eqn:R.
      * cbn in R. destruct r; [|discriminate R]. destruct (Nat.eqb_spec n 7) as [->|N]; [|discriminate R]. injection R as <-.
        assert (Eq : q = quat_cols (as_row x) b) by reflexivity. cbn [t_shape q view is_rows Nat.sub Nat.eqb] in Q.
        change (w_lie (adv w 1 1 [])) with (w_lie w) in Q. rewrite <- Eq.
        change (unit_ok (view (as_row x) [b; 4] (fun ix => match ix with i :: j :: l => t_at (as_row x) (i :: 3 + j :: l) | _ => v0 end))) with (unit_ok q) in Q.
        destruct (w_lie w && negb (unit_ok q)); cbn [negb].
        -- unfold bind. rewrite Q. eexists. split; [reflexivity|]. cbn. lia.
        -- unfold bind. rewrite Q, fresh_adv. eexists _, _. split; [unfold ret; rewrite !adv_adv; reflexivity|]. split; [reflexivity|].
           cbn [o_tensor t_mem t_dt t_shape t_req t_leaf t_at]. rewrite Rr, Dr. repeat split; auto.
      * assert (R4 : is_rows 4 (t_shape q) = None).
        { cbn. destruct r as [|z r]; [|reflexivity]. cbn in R. destruct (Nat.eqb_spec n 7) as [|N]; [discriminate R|].
          destruct (Nat.eqb_spec (n - 3) 4) as [E|]; [lia|reflexivity]. }
        rewrite R4 in Q. destruct Q as (w' & e & E & I & X & _). exists w', e. unfold bind. rewrite E.
        split; [reflexivity|]. split; [cbn in I; lia|]. split; [intros _; apply X; cbn; lia|congruence].
Qed.
End Lem.
