(** Lemmas about [Ctor_model]: what [manifold_init] does, case by case. *)
From Coq Require Import List String Arith Bool Lia.
From Verif Require Import Ctor_model.
Import ListNotations.
Local Open Scope list_scope.
Local Open Scope nat_scope.

Section Base.
Context {V : Type}.
Variables (v0 v1 : V) (vcos vsin : V -> V).
Variable q2r : (nat -> V) -> nat -> nat -> V.
Variable group_ok : cls -> @tensor V -> bool.
Variable norm_at : cls -> @tensor V -> list nat -> V.
Variable unit_ok : @tensor V -> bool.
Notation mi := (manifold_init v0 v1 group_ok norm_at).

Definition adv (w : world) (i m : nat) (ws : list warning) : world :=
  mkW (i + w_ids w) (m + w_mem w) (w_default w) (w_checks w) (w_silent w) (w_quiet w) (w_lie w) (w_warn w ++ ws).
Definition obj_name (c : cls) (i : nat) (name : option string) : string :=
  match name with Some s => if String.eqb s "" then default_name c i else s | None => default_name c i end.

Lemma dt_eqb_eq : forall a b, dt_eqb a b = true <-> a = b.
Proof. intros [] []; split; intro H; try reflexivity; discriminate. Qed.
Lemma dt_eqb_refl : forall a, dt_eqb a a = true.
Proof. intros []; reflexivity. Qed.

Lemma mi_none : forall c dof name dt s di w,
  mi c dof None name dt s di w =
  let d := match dt with Some d => d | None => w_default w end in
  if supported d
  then Ok (mkW (S (w_ids w)) (S (w_mem w)) (w_default w) (w_checks w) (w_silent w) (w_quiet w) (w_lie w) (w_warn w))
          (mkO c (w_ids w) (obj_name c (w_ids w) name) (mkT (w_mem w) d (init_shape c dof) (init_at v0 v1 c) false true) 0)
  else Exn w ValueErr.
Proof.
  intros. unfold manifold_init, bind, ask, ret, raise. destruct dt as [d|]; cbn.
  - destruct (supported d); reflexivity.
  - destruct (supported (w_default w)); reflexivity.
Qed.

(** the outcome of the check of a tensor of the right shape and dtype *)
Definition passes (w : world) (c : cls) (t : @tensor V) : bool :=
  match c with
  | CVector | CPoint2 | CPoint3 => true
  | CSO2 | CSE2 => group_ok c t
  | CSO3 | CSE3 => negb (w_lie w) || group_ok c t
  end.
Definition is_vec (c : cls) : bool := match c with CVector | CPoint2 | CPoint3 => true | _ => false end.
(** the condition of [update] on shapes *)
Definition fits (c : cls) (dof : nat) (sh : list nat) : bool :=
  (List.length sh =? List.length (init_shape c dof)) && shape_eqb (tl sh) (tl (init_shape c dof)).

Lemma check_impl_ok : forall c t w, shape_test c (t_shape t) = true -> supported (t_dt t) = true ->
  check_impl group_ok c t w = Ok w (passes w c t).
Proof.
  intros c t w S D. unfold check_impl. rewrite S, D. cbn. destruct c; try reflexivity;
  unfold bind, ask, ret, passes; destruct (w_lie w); cbn; reflexivity.
Qed.
Lemma passes_vec : forall w c t, is_vec c = true -> passes w c t = true.
Proof. intros w [] t H; try discriminate; reflexivity. Qed.
Lemma normalize_ok : forall c t w, is_vec c = false -> shape_test c (t_shape t) = true -> supported (t_dt t) = true ->
  normalize norm_at c t w = Ok (adv w 0 1 []) (mkT (w_mem w) (t_dt t) (t_shape t) (norm_at c t) (t_req t) (negb (t_req t))).
Proof.
  intros c t w H S D. unfold normalize. rewrite S. cbn. unfold adv. rewrite app_nil_r.
  destruct c; try discriminate; rewrite D; reflexivity.
Qed.

Definition mismatch (t : @tensor V) (dt : option dtype) : list warning :=
  match dt with Some d => if dt_eqb (t_dt t) d then [] else [WDtype] | None => [] end.
Definition checking (w : world) (disable : bool) : bool := negb disable && w_checks w.
Definition complains (w : world) (disable : bool) : list warning :=
  if disable then [] else if w_checks w then [] else if w_silent w then [] else [WUnchecked].

Definition updated (o : @obj V) (t : @tensor V) : @obj V := mkO (o_cls o) (o_id o) (o_name o) t (S (o_updates o)).
Lemma update_iff : forall (o : @obj V) t w,
  update o t w = if (List.length (t_shape t) =? List.length (t_shape (o_tensor o))) && shape_eqb (tl (t_shape t)) (tl (t_shape (o_tensor o)))
                    && dt_eqb (t_dt t) (t_dt (o_tensor o))
                 then Ok w (updated o t) else Exn w ValueErr.
Proof.
  intros. unfold update, ret, raise.
  destruct (_ =? _); destruct (shape_eqb _ _); destruct (dt_eqb _ _); reflexivity.
Qed.

(** end of [manifold_init], with the (checked) tensor *)
Lemma mi_tail : forall c dof name d (t : @tensor V) w, t_dt t = d -> supported d = true ->
  bind (fresh d (init_shape c dof) (init_at v0 v1 c) false) (fun it => bind (variable_init c it name) (fun o => update o t)) w =
  if fits c dof (t_shape t) then Ok (adv w 1 1 []) (mkO c (w_ids w) (obj_name c (w_ids w) name) t 1)
  else Exn (adv w 1 1 []) ValueErr.
Proof.
  intros c dof name d t w E S. unfold bind, fresh, variable_init, next_id, ret. cbn.
  rewrite update_iff. cbn. unfold fits. rewrite E, dt_eqb_refl, andb_true_r. unfold adv, updated, obj_name.
  rewrite app_nil_r. cbn. destruct ((_ =? _) && _); reflexivity.
Qed.

Lemma adv0 : forall w, adv w 0 0 [] = w.
Proof. intros []. unfold adv. cbn. rewrite app_nil_r. reflexivity. Qed.
Lemma adv_adv : forall w i m ws i' m' ws', adv (adv w i m ws) i' m' ws' = adv w (i' + i) (m' + m) (ws ++ ws').
Proof. intros []. intros. unfold adv. cbn. rewrite <- app_assoc, !Nat.add_assoc. reflexivity. Qed.
Lemma warn_adv : forall x w, warn x w = Ok (adv w 0 0 [x]) tt.
Proof. intros x []. reflexivity. Qed.

(** the middle of [manifold_init]: the tensor after the check, whatever the rest [k] is *)
Definition rest (c : cls) (dof : nat) (name : option string) (dt : option dtype) (t : @tensor V) (w : world) : res obj :=
  let w1 := adv w 0 0 (mismatch t dt) in
  if supported (t_dt t) then
    if fits c dof (t_shape t) then Ok (adv w1 1 1 []) (mkO c (w_ids w) (obj_name c (w_ids w) name) t 1)
    else Exn (adv w1 1 1 []) ValueErr
  else Exn w1 ValueErr.

Lemma mi_some : forall c dof t name dt strict disable w,
  mi c dof (Some t) name dt strict disable w =
  if checking w disable
  then match check_tensor group_ok norm_at c t strict (w_quiet w) w with
       | Ok w1 t' => rest c dof name dt t' w1
       | Exn w1 e => Exn w1 e
       end
  else rest c dof name dt t (adv w 0 0 (complains w disable)).
Proof.
  intros. unfold checking, complains.
  assert (K : forall (t' : @tensor V) w1,
    (bind (match dt with Some d => if dt_eqb (t_dt t') d then ret tt else warn WDtype | None => ret tt end)
      (fun _ => ret (Some t', t_dt t'))) w1 = Ok (adv w1 0 0 (mismatch t' dt)) (Some t', t_dt t')).
  { intros t' w1. unfold bind, mismatch. destruct dt as [d|].
    - destruct (dt_eqb (t_dt t') d); [rewrite adv0; reflexivity|]. rewrite warn_adv. reflexivity.
    - rewrite adv0. reflexivity. }
  assert (T : forall (t' : @tensor V) w1,
     (if negb (supported (t_dt t')) then raise ValueErr else
      bind (fresh (t_dt t') (init_shape c dof) (init_at v0 v1 c) false) (fun it => bind (variable_init c it name) (fun o => update o t')))
       (adv w1 0 0 (mismatch t' dt)) = rest c dof name dt t' w1).
  { intros t' w1. unfold rest. destruct (supported (t_dt t')) eqn:S; cbn [negb]; [|reflexivity].
    rewrite mi_tail by auto. reflexivity. }
  unfold manifold_init. unfold bind at 1. cbn [ask].
  replace (match (match dt with Some d => Some d | None => None end) with Some d => Some d | None => None end) with dt by (destruct dt; reflexivity).
  set (body := fun '(tens, d) => _).
  unfold bind at 1. unfold bind at 1. cbn [ask]. unfold bind at 1. cbn [ask]. unfold bind at 1. cbn [ask].
  assert (G : forall t' w1, match (bind (match dt with Some d => if dt_eqb (t_dt t') d then ret tt else warn WDtype | None => ret tt end)
      (fun _ => ret (Some t', t_dt t'))) w1 with Ok w2 x => body x w2 | Exn w2 e => Exn w2 e end = rest c dof name dt t' w1).
  { intros t' w1. rewrite K. apply T. }
  destruct disable; cbn [negb andb].
  - unfold bind at 1. cbn. rewrite adv0. rewrite <- G. reflexivity.
  - unfold bind at 1. destruct (w_checks w) eqn:C; cbn [negb andb].
    + destruct (check_tensor group_ok norm_at c t strict (w_quiet w) w) as [w1 t'|w1 e]; [|reflexivity]. apply G.
    + unfold bind at 1. destruct (w_silent w) eqn:Si.
      * cbn [ret]. rewrite adv0. apply G.
      * rewrite warn_adv. cbn [ret]. apply G.
Qed.

(** ---- consequences ---- *)
Definition normalized (w : world) (c : cls) (t : @tensor V) : @tensor V :=
  mkT (w_mem w) (t_dt t) (t_shape t) (norm_at c t) (t_req t) (negb (t_req t)).

Lemma check_tensor_good : forall c t strict q w, shape_test c (t_shape t) = true -> supported (t_dt t) = true ->
  check_tensor group_ok norm_at c t strict q w =
  if passes w c t then Ok w t
  else if strict then Exn w ValueErr
  else Ok (adv w 0 1 (if q then [] else [WNormalized])) (normalized w c t).
Proof.
  intros c t strict q w S D. unfold check_tensor. unfold bind at 1. rewrite check_impl_ok by assumption.
  destruct (passes w c t) eqn:P; [reflexivity|]. destruct strict; [reflexivity|].
  unfold bind at 1. rewrite normalize_ok; [|destruct (is_vec c) eqn:Vc; [rewrite passes_vec in P by exact Vc; discriminate|reflexivity]|exact S|exact D].
  unfold bind. destruct q.
  - reflexivity.
  - rewrite warn_adv. unfold ret. rewrite adv_adv. reflexivity.
Qed.
Lemma check_tensor_shape : forall c t strict q w, shape_test c (t_shape t) = false ->
  check_tensor group_ok norm_at c t strict q w = Exn w ValueErr.
Proof. intros c t strict q w S. unfold check_tensor, bind, check_impl. rewrite S. reflexivity. Qed.
Lemma check_tensor_dtype : forall c t strict q w, supported (t_dt t) = false ->
  (exists w' e, check_tensor group_ok norm_at c t strict q w = Exn w' e) \/
  (exists w' t', check_tensor group_ok norm_at c t strict q w = Ok w' t' /\ t_dt t' = t_dt t).
Proof.
  intros c t strict q w D. unfold check_tensor, bind, check_impl.
  destruct (shape_test c (t_shape t)) eqn:S; cbn [negb]; [|left; eexists _, _; reflexivity].
  destruct c; unfold ret, raise, ask; rewrite ?D; cbn; try (right; eexists _, _; split; reflexivity); try (left; eexists _, _; reflexivity).
  - unfold bind. destruct (w_lie w); cbn.
    + destruct strict; [left; eexists _, _; reflexivity|]. unfold normalize. rewrite S, D. left; eexists _, _; reflexivity.
    + right; eexists _, _; split; reflexivity.
  - unfold bind. destruct (w_lie w); cbn.
    + destruct strict; [left; eexists _, _; reflexivity|]. unfold normalize. rewrite S, D. left; eexists _, _; reflexivity.
    + right; eexists _, _; split; reflexivity.
Qed.

(** the summary *)
Inductive mi_spec (c : cls) (dof : nat) (t : @tensor V) (name : option string) (dt : option dtype) (strict disable : bool) (w : world) : res obj -> Prop :=
| mi_stored : supported (t_dt t) = true -> fits c dof (t_shape t) = true -> checking w disable && negb (passes w c t) = false ->
    mi_spec c dof t name dt strict disable w
      (Ok (adv w 1 1 (complains w disable ++ mismatch t dt)) (mkO c (w_ids w) (obj_name c (w_ids w) name) t 1))
| mi_normed : supported (t_dt t) = true -> fits c dof (t_shape t) = true -> checking w disable = true -> passes w c t = false -> strict = false ->
    mi_spec c dof t name dt strict disable w
      (Ok (adv w 1 2 ((if w_quiet w then [] else [WNormalized]) ++ mismatch t dt))
          (mkO c (w_ids w) (obj_name c (w_ids w) name) (normalized w c t) 1))
| mi_value : forall w', w_ids w' <= S (w_ids w) -> w_ids w <= w_ids w' ->
    supported (t_dt t) = true ->
    fits c dof (t_shape t) = false \/ (checking w disable = true /\ passes w c t = false /\ strict = true) ->
    mi_spec c dof t name dt strict disable w (Exn w' ValueErr)
| mi_dtype : forall w' e, w_ids w' = w_ids w -> supported (t_dt t) = false ->
    (checking w disable = false -> e = ValueErr) ->
    mi_spec c dof t name dt strict disable w (Exn w' e).

Lemma check_tensor_ids : forall c t strict q w, match check_tensor group_ok norm_at c t strict q w with
  Ok w' _ => w_ids w' = w_ids w | Exn w' _ => w_ids w' = w_ids w end.
Proof.
  intros. unfold check_tensor, bind, check_impl.
  destruct (shape_test c (t_shape t)) eqn:S; cbn [negb]; [|reflexivity].
  assert (N : forall w, match normalize norm_at c t w with Ok w' _ => w_ids w' = w_ids w | Exn w' _ => w_ids w' = w_ids w end).
  { intro w1. unfold normalize. rewrite S. cbn. destruct c; try reflexivity; destruct (supported (t_dt t)); reflexivity. }
  assert (F : forall b : bool, match (if b then ret t else if strict then raise ValueErr else
       (fun w0 => match normalize norm_at c t w0 with Ok w' x => (fun w1 => match (if q then ret tt else warn WNormalized) w1 with Ok w2 _ => ret x w2 | Exn w2 e => Exn w2 e end) w' | Exn w' e => Exn w' e end)) w with
       Ok w' _ => w_ids w' = w_ids w | Exn w' _ => w_ids w' = w_ids w end).
  { intros []; [reflexivity|]. destruct strict; [reflexivity|]. specialize (N w). destruct (normalize norm_at c t w); [|exact N].
    destruct q; exact N. }
  destruct c; try reflexivity.
  - destruct (supported (t_dt t)); [apply F|reflexivity].
  - destruct (supported (t_dt t)); [apply F|reflexivity].
  - cbv [ask]. apply F.
  - cbv [ask]. apply F.
Qed.

Lemma mi_case : forall c dof t name dt strict disable w, shape_test c (t_shape t) = fits c dof (t_shape t) ->
  mi_spec c dof t name dt strict disable w (mi c dof (Some t) name dt strict disable w).
Proof.
  intros c dof t name dt strict disable w SF. rewrite mi_some.
  destruct (checking w disable) eqn:CH.
  - destruct (supported (t_dt t)) eqn:D.
    + destruct (shape_test c (t_shape t)) eqn:S.
      * rewrite check_tensor_good by assumption. destruct (passes w c t) eqn:P.
        -- unfold rest. rewrite D, <- SF. rewrite adv_adv, app_nil_r. cbn [Nat.add].
           replace (mismatch t dt) with (complains w disable ++ mismatch t dt).
           { apply mi_stored; [exact D|congruence|rewrite CH, P; reflexivity]. }
           unfold complains. unfold checking in CH. destruct disable; [discriminate|]. cbn in CH. rewrite CH. reflexivity.
        -- destruct strict; [apply mi_value; auto|].
           unfold rest. change (mismatch (normalized w c t) dt) with (mismatch t dt). cbn [normalized t_dt t_shape]. rewrite D, <- SF, !adv_adv, app_nil_r. cbn [Nat.add w_ids adv].
           apply mi_normed; auto.
      * rewrite check_tensor_shape by exact S. apply mi_value; auto.
    + pose proof (check_tensor_ids c t strict (w_quiet w) w) as I.
      destruct (check_tensor_dtype c t strict (w_quiet w) w D) as [(w' & e & E)|(w' & t' & E & E')]; rewrite E in *.
      * apply mi_dtype; [exact I|exact D|congruence].
      * unfold rest. rewrite E', D. apply mi_dtype; [exact I|exact D|reflexivity].
  - unfold rest. cbn [adv w_ids]. destruct (supported (t_dt t)) eqn:D.
    + rewrite adv_adv. destruct (fits c dof (t_shape t)) eqn:F; rewrite adv_adv, app_nil_r.
      * apply mi_stored; [exact D|exact F|rewrite CH; reflexivity].
      * apply mi_value; cbn; auto; lia.
    + apply mi_dtype; [reflexivity|exact D|reflexivity].
Qed.

Lemma shape_eqb_spec : forall a b, reflect (a = b) (shape_eqb a b).
Proof. intros a b. unfold shape_eqb. destruct (list_eq_dec Nat.eq_dec a b); constructor; assumption. Qed.
Lemma shape_fits_group : forall c dof sh, is_vec c = false -> shape_test c sh = fits c dof sh.
Proof.
  intros c dof sh H. unfold fits.
  destruct (shape_eqb_spec (tl sh) (tl (init_shape c dof))) as [E|E];
  destruct c; try discriminate; destruct sh as [|b [|n [|k [|x l]]]]; cbn in *; try reflexivity; try discriminate.
  - injection E as ->. reflexivity.
  - injection E as ->. reflexivity.
  - injection E as -> ->. reflexivity.
  - injection E as -> ->. reflexivity.
  - destruct (Nat.eqb_spec n 2) as [->|N]; [congruence|reflexivity].
  - destruct (Nat.eqb_spec n 4) as [->|N]; [congruence|reflexivity].
  - destruct (Nat.eqb_spec n 3) as [->|N]; [destruct (Nat.eqb_spec k 3) as [->|N]; [congruence|]|]; reflexivity.
  - destruct (Nat.eqb_spec n 3) as [->|N]; [destruct (Nat.eqb_spec k 4) as [->|N]; [congruence|]|]; reflexivity.
Qed.
Lemma fits_vec : forall c b n, is_vec c = true -> fits c n [b; n] = true.
Proof.
  intros c b n H. unfold fits. destruct (shape_eqb_spec (tl [b; n]) (tl (init_shape c n))) as [E|E]; destruct c; try discriminate; cbn in *; try reflexivity; congruence.
Qed.
Lemma fits_shape : forall c dof sh, is_vec c = false -> fits c dof sh = true -> exists b, sh = b :: tl (init_shape c 0).
Proof.
  intros c dof sh H F. unfold fits in F. apply andb_true_iff in F. destruct F as [L T].
  destruct (shape_eqb_spec (tl sh) (tl (init_shape c dof))) as [E|E]; [|discriminate].
  destruct sh as [|b l]; [destruct c; discriminate|]. exists b. cbn in E. rewrite E. destruct c; try discriminate; reflexivity.
Qed.
End Base.
