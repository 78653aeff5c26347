(** C100: rand and randn of the geometric variables; the methods that replace a value; concrete cases. *)
From Coq Require Import List String Arith Bool Lia.
From Verif Require Import Ctor_model Ctor_base Ctor_lem Ctor_main Ctor_names.
Import ListNotations.
Local Open Scope list_scope.
Local Open Scope nat_scope.

(** how many sizes rand and randn take *)
Definition rand_sizes (c : cls) : nat := match c with CVector => 2 | _ => 1 end.

Section Rand.
Context {V : Type}.
Variables (v0 v1 : V) (vcos vsin : V -> V).
Variable q2r : (nat -> V) -> nat -> nat -> V.
Variable item_ok : cls -> dtype -> (list nat -> V) -> bool.
Variable item_norm : cls -> dtype -> (list nat -> V) -> list nat -> V.
Variable unit_q : dtype -> (nat -> V) -> bool.
Notation make := (make v0 v1 vcos vsin q2r item_ok item_norm unit_q).
Notation random := (random v0 v1 vcos vsin q2r item_ok item_norm unit_q).
Notation gok := (batch_ok item_ok).
Notation gnorm := (batch_norm v0 item_norm).

(** the entries: the numbers drawn, for SO2 and SE2 through the angle *)
Definition drawn (c : cls) (u m : list nat -> V) (f : V -> V) (i : nat) (ix : list nat) : V :=
  match c with
  | CVector | CPoint2 | CPoint3 => u (i :: ix)
  | CSO2 => match ix with [0] => vcos (f (u [i; 0])) | _ => vsin (f (u [i; 0])) end
  | CSE2 => match ix with [2] => vcos (f (u [i; 2])) | [3] => vsin (f (u [i; 2])) | _ => u (i :: ix) end
  | CSO3 | CSE3 => m (i :: ix)
  end.
Definition inside (c : cls) (n : nat) (ix : list nat) : Prop :=
  match c, ix with CVector, [j] => j < n | CPoint2, [j] => j < 2 | CPoint3, [j] => j < 3 | _, _ => in_item c ix end.

Lemma torch_rand_ok : forall sh dt req (u : list nat -> V) w,
  let d := match dt with Some d => d | None => w_default w end in supported d = true ->
  torch_rand sh dt req u w = Ok (adv w 0 1 []) (mkT (w_mem w) d sh u req true).
Proof. intros sh dt req u w d H. unfold torch_rand. fold d. rewrite fresh_adv. destruct d; try discriminate H; reflexivity. Qed.

Theorem C100_random : forall w c b n dt req (u m : list nat -> V) f,
  let d := match dt with Some d => d | None => w_default w end in
  let size := match c with CVector => [b; n] | _ => [b] end in
  supported d = true -> (c = CSE2 -> req = false) ->
  exists w' o, random c size dt req u m f w = Ok w' o /\ o_cls o = c /\ o_id o = w_ids w /\ w_ids w < w_ids w' /\
    o_name o = default_name c (w_ids w) /\ same_settings w w' /\
    t_shape (o_tensor o) = b :: item_shape c n /\ t_dt (o_tensor o) = d /\ t_req (o_tensor o) = req /\
    (c <> CSO2 -> t_leaf (o_tensor o) = true) /\ (c = CSO2 -> t_leaf (o_tensor o) = negb req) /\ w_mem w <= t_mem (o_tensor o) /\
    (forall i ix, i < b -> inside c n ix -> t_at (o_tensor o) (i :: ix) = drawn c u m f i ix).
Proof.
  intros w c b n dt req u m f d size D R.
  set (noname := fun t : @tensor V => mkA None None (Some t) None None false false).
  set (off := fun t : @tensor V => mkA None None (Some t) None None false true).
  assert (VEC : forall k, (c = CVector /\ k = n) \/ (c = CPoint2 /\ k = 2) \/ (c = CPoint3 /\ k = 3) ->
    let t := mkT (w_mem w) d [b; k] u req true in
    random c size dt req u m f w = make c (noname t) (adv w 0 1 []) ->
    exists w' o, random c size dt req u m f w = Ok w' o /\ o_cls o = c /\ o_id o = w_ids w /\ w_ids w < w_ids w' /\
      o_name o = default_name c (w_ids w) /\ same_settings w w' /\ o_tensor o = t).
  { intros k C t E. rewrite E.
    assert (NG : ~ is_group c) by (unfold is_group; destruct C as [[-> _]|[[-> _]|[-> _]]]; intros [H|[H|[H|H]]]; discriminate H).
    destruct (C100_vector v0 v1 vcos vsin q2r item_ok item_norm unit_q (adv w 0 1 []) c (noname t) t NG (fun _ => eq_refl) eq_refl D) as [H _].
    destruct (H b k (or_introl eq_refl)) as (w' & o & E' & (M1 & M2 & M3 & M4 & M5) & _ & _ & _ & _ & _ & S & _).
    { destruct C as [[-> ->]|[[-> ->]|[-> ->]]]; reflexivity || exact I. }
    exists w', o. split; [exact E'|]. split; [exact M1|]. split; [exact M2|]. split; [exact M3|]. split; [exact M4|]. split; [exact M5|].
    apply S. reflexivity. }
  assert (GRP : (c = CSO3 \/ c = CSE3) -> let t := mkT (w_mem w) d (b :: item_shape c 0) m req true in
    random c size dt req u m f w = make c (off t) (adv w 0 1 []) ->
    exists w' o, random c size dt req u m f w = Ok w' o /\ o_cls o = c /\ o_id o = w_ids w /\ w_ids w < w_ids w' /\
      o_name o = default_name c (w_ids w) /\ same_settings w w' /\ o_tensor o = t).
  { intros C t E. rewrite E.
    assert (G : is_group c) by (unfold is_group; destruct C as [-> | ->]; auto).
    destruct (C100_tensor v0 v1 vcos vsin q2r item_ok item_norm unit_q (adv w 0 1 []) c (off t) t G eq_refl eq_refl) as [H _].
    destruct (H D (ex_intro _ b eq_refl)) as [K _].
    destruct (K (or_introl eq_refl)) as (w' & o & E' & (M1 & M2 & M3 & M4 & M5) & S & _).
    exists w', o. split; [exact E'|]. split; [exact M1|]. split; [exact M2|]. split; [exact M3|]. split; [exact M4|]. split; [exact M5|exact S]. }
  assert (TR : forall sh (x : list nat -> V), torch_rand sh dt req x w = Ok (adv w 0 1 []) (mkT (w_mem w) d sh x req true)) by (intros; apply torch_rand_ok; exact D).
  destruct c; subst size.
  - destruct (VEC n (or_introl (conj eq_refl eq_refl))) as (w' & o & E & A1 & A2 & A3 & A4 & A5 & A6).
    { unfold Ctor_model.random, rand, bind. rewrite TR. reflexivity. }
    exists w', o. split; [exact E|]. rewrite A6. cbn [t_shape t_dt t_req t_leaf t_mem t_at item_shape].
    repeat (split; [first [assumption|reflexivity|discriminate|intros _; reflexivity|apply le_n]|]); intros; reflexivity.
  - destruct (VEC 2 (or_intror (or_introl (conj eq_refl eq_refl)))) as (w' & o & E & A1 & A2 & A3 & A4 & A5 & A6).
    { unfold Ctor_model.random, rand, bind. rewrite TR. reflexivity. }
    exists w', o. split; [exact E|]. rewrite A6. cbn [t_shape t_dt t_req t_leaf t_mem t_at item_shape].
    repeat (split; [first [assumption|reflexivity|discriminate|intros _; reflexivity|apply le_n]|]); intros; reflexivity.
  - destruct (VEC 3 (or_intror (or_intror (conj eq_refl eq_refl)))) as (w' & o & E & A1 & A2 & A3 & A4 & A5 & A6).
    { unfold Ctor_model.random, rand, bind. rewrite TR. reflexivity. }
    exists w', o. split; [exact E|]. rewrite A6. cbn [t_shape t_dt t_req t_leaf t_mem t_at item_shape].
    repeat (split; [first [assumption|reflexivity|discriminate|intros _; reflexivity|apply le_n]|]); intros; reflexivity.
  - unfold Ctor_model.random, rand, bind. rewrite TR. cbn [t_dt t_req t_at]. rewrite fresh_adv. rewrite mi_none'. cbv zeta. cbn [t_dt]. rewrite D.
    unfold update_from_angle. cbn [t_shape t_dt t_req]. unfold bind. rewrite fresh_adv. rewrite update_iff.
    cbn [t_shape plain o_tensor t_dt init_shape List.length Nat.eqb tl Nat.add]. rewrite dt_eqb_refl.
    destruct (shape_eqb_spec [2] [2]) as [_|N]; [|congruence]. cbn [andb].
    eexists _, _. split; [reflexivity|]. cbn.
    repeat split; try lia; try congruence.
    intros i ix Li Hx. destruct ix as [|[|[|j]] [|z l]]; try (exfalso; exact Hx); try reflexivity. cbn in Hx. lia.
  - assert (R0 : req = false) by (apply R; reflexivity). subst req.
    unfold Ctor_model.random, rand, bind. rewrite TR. unfold set_col2. cbn [t_leaf t_req andb t_mem t_dt t_shape t_at]. unfold ret.
    set (x := mkT (w_mem w) d [b; 3] _ false true).
    destruct (C100_shorthand v0 v1 vcos vsin q2r item_ok item_norm unit_q (adv w 0 1 []) CSE2 (mkA None (Some x) None None None false false) x
       (or_intror (or_introl eq_refl)) eq_refl eq_refl) as [H _].
    destruct (H D (ex_intro _ b eq_refl) I) as (w' & o & E & (M1 & M2 & M3 & M4 & M5) & Dt & Sh & At & Mm & Rq & _).
    exists w', o. split; [exact E|]. split; [exact M1|]. split; [exact M2|]. split; [exact M3|]. split; [exact M4|]. split; [exact M5|].
    split; [exact Sh|]. split; [exact Dt|]. split; [exact Rq|]. split.
    { intros _. pose proof (set_xyt v0 v1 vcos vsin gok gnorm (plain v0 v1 CSE2 0 None d (adv w 0 1 [])) x (adv (adv w 0 1 []) 1 1 []) D) as S.
      cbn [is_rows t_shape x Nat.eqb] in S. destruct S as (t & S & _ & _ & _ & _ & Lf & _).
      unfold Ctor_model.make, construct, se2_init in E. cbn [a_alt a_tensor a_name a_dtype a_strict a_disable] in E. unfold bind in E. rewrite mi_none' in E.
      cbv zeta in E. cbn [t_dt x] in E. rewrite D in E. rewrite S in E. injection E as _ <-. cbn [o_tensor]. exact Lf. }
    split; [discriminate|]. split; [cbn in Mm; lia|].
    intros i ix Li Hx. rewrite (At i ix Li Hx). unfold short_entry. cbn [t_shape x].
    destruct ix as [|j [|z l]]; try (exfalso; exact Hx). cbn in Hx. destruct j as [|[|[|[|j]]]]; try lia; reflexivity.
  - destruct (GRP (or_introl eq_refl)) as (w' & o & E & A1 & A2 & A3 & A4 & A5 & A6).
    { unfold Ctor_model.random, rand, bind. rewrite TR. reflexivity. }
    exists w', o. split; [exact E|]. rewrite A6. cbn [t_shape t_dt t_req t_leaf t_mem t_at item_shape].
    repeat (split; [first [assumption|reflexivity|discriminate|intros _; reflexivity|apply le_n]|]); intros; reflexivity.
  - destruct (GRP (or_intror eq_refl)) as (w' & o & E & A1 & A2 & A3 & A4 & A5 & A6).
    { unfold Ctor_model.random, rand, bind. rewrite TR. reflexivity. }
    exists w', o. split; [exact E|]. rewrite A6. cbn [t_shape t_dt t_req t_leaf t_mem t_at item_shape].
    repeat (split; [first [assumption|reflexivity|discriminate|intros _; reflexivity|apply le_n]|]); intros; reflexivity.
Qed.
(** any other number of sizes is refused before anything happens *)
Theorem C100_random_sizes : forall w c size dt req (u m : list nat -> V) f, List.length size <> rand_sizes c ->
  random c size dt req u m f w = Exn w ValueErr.
Proof.
  intros w c size dt req u m f L.
  destruct c, size as [|b [|n [|z l]]]; try reflexivity; exfalso; apply L; reflexivity.
Qed.
(** SE2.rand and SE2.randn with requires_grad=True raise: the angle column is assigned in place on a leaf *)
Theorem C100_random_se2_refuted : forall w b dt (u m : list nat -> V) f,
  supported (match dt with Some d => d | None => w_default w end) = true ->
  exists w', random CSE2 [b] dt true u m f w = Exn w' RuntimeErr.
Proof.
  intros w b dt u m f D. unfold Ctor_model.random, rand, bind. rewrite (torch_rand_ok _ _ _ _ _ D). eexists. reflexivity.
Qed.

(** ---- the methods that assign the value without an update ---- *)
(** SE2.update_from_x_y_theta, SE2.update_from_rot_and_trans and SE3.update_from_rot_and_trans replace the value, but the
    number of updates stays: what is computed once per value is not computed again. *)
Theorem C100_set_uncounted_refuted : forall (o : @obj V) x w b, supported (t_dt x) = true -> t_shape x = [b; 3] ->
  exists w' o', set_x_y_theta v0 v1 vcos vsin item_ok item_norm o x w = Ok w' o' /\ o_updates o' = o_updates o /\ o_id o' = o_id o /\
    t_shape (o_tensor o') = [b; 4] /\ t_dt (o_tensor o') = t_dt x /\
    (forall i j, i < b -> j < 4 -> t_at (o_tensor o') [i; j] = meant v0 vcos vsin q2r CSE2 (fun k => t_at x [i; k]) [j]).
Proof.
  intros o x w b D Sh. unfold set_x_y_theta.
  pose proof (set_xyt v0 v1 vcos vsin gok gnorm o x w D) as H. rewrite Sh in H. cbn [is_rows Nat.eqb] in H.
  destruct H as (t & E & M & Dt & S4 & Rq & Lf & At). eexists _, _. split; [exact E|]. cbn [o_updates o_id o_tensor].
  split; [reflexivity|]. split; [reflexivity|]. split; [exact S4|]. split; [exact Dt|].
  intros i j Li Lj. rewrite (At i j Li). destruct j as [|[|[|[|j]]]]; try lia; reflexivity.
Qed.
Theorem C100_set_rot_trans : forall (o r t : @obj V) w b, t_shape (o_tensor r) = [b; 3; 3] -> t_shape (o_tensor t) = [b; 3] ->
  t_dt (o_tensor r) = t_dt (o_tensor t) ->
  exists w' o', set_rot_trans3 v0 o r t w = Ok w' o' /\ o_updates o' = o_updates o /\ o_id o' = o_id o /\
    t_shape (o_tensor o') = [b; 3; 4] /\ t_dt (o_tensor o') = t_dt (o_tensor r) /\
    (forall i j k, i < b -> j < 3 -> k < 3 -> t_at (o_tensor o') [i; j; k] = t_at (o_tensor r) [i; j; k]) /\
    (forall i j, i < b -> j < 3 -> t_at (o_tensor o') [i; j; 3] = t_at (o_tensor t) [i; j]).
Proof.
  intros o r t w b Sr St Dt. unfold set_rot_trans3, se3_from_rot_trans. rewrite Sr, St, Dt, Nat.eqb_refl, dt_eqb_refl. cbn [negb].
  unfold bind. rewrite fresh_adv. eexists _, _. split; [reflexivity|]. cbn [o_updates o_id o_tensor t_shape t_dt t_at].
  repeat split; try reflexivity. intros i j k Li Lj Lk. destruct (Nat.ltb_spec k 3); [reflexivity|lia].
Qed.
(** the given batch sizes and dtypes must agree *)
Theorem C100_set_rot_trans_refuses : forall (o r t : @obj V) w b b2 lr lt, t_shape (o_tensor r) = b :: lr -> t_shape (o_tensor t) = b2 :: lt ->
  b <> b2 \/ t_dt (o_tensor r) <> t_dt (o_tensor t) -> set_rot_trans3 v0 o r t w = Exn w ValueErr.
Proof.
  intros o r t w b b2 lr lt Sr St H. unfold set_rot_trans3, se3_from_rot_trans. rewrite Sr, St.
  destruct (Nat.eqb_spec b b2) as [E|N]; [|reflexivity]. cbn [negb]. destruct H as [H|H]; [contradiction|].
  destruct (dt_eqb _ _) eqn:Q; [|reflexivity]. apply dt_eqb_eq in Q. contradiction.
Qed.
End Rand.

(** ---- concrete cases ---- *)
Definition w0 : world := mkW 0 0 F32 true false false true [].
Definition exq (q : nat -> nat) (r k : nat) : nat := q r + k.
Definition ex_make := make 0 1 (fun x => 10 + x) (fun x => 20 + x) exq (fun _ _ f => f [0] <? 50) (fun _ _ f ix => f ix - 50) (fun _ q => q 0 =? 1).
Definition ex_run := run 0 1 (fun x => 10 + x) (fun x => 20 + x) exq (fun _ _ f => f [0] <? 50) (fun _ _ f ix => f ix - 50) (fun _ q => q 0 =? 1).
Definition ex_t (d : dtype) (sh : list nat) (l : list nat) : @tensor nat :=
  mkT 100 d sh (fun ix => nth (match ix with [j] => j | i :: j :: _ => i * 10 + j | [] => 0 end) l 7) false true.
Definition no : @args nat := mkA None None None None None false false.
(** a name given by the user can collide with a default name of a later variable *)
Theorem C100_names_given_refuted : exists l p q, nth_error (ex_run l w0) 0 = Some p /\ nth_error (ex_run l w0) 1 = Some q /\
  snd p = true /\ snd q = false /\ o_id (fst p) <> o_id (fst q) /\ o_name (fst p) = o_name (fst q).
Proof.
  exists [(CSO2, mkA None None None (Some "SO2__1"%string) None false false); (CSO2, no)].
  eexists _, _. split; [reflexivity|]. split; [reflexivity|]. repeat split. discriminate.
Qed.
Example C100_ex_run :
  map (fun p => (o_id (fst p), o_name (fst p))) (ex_run [(CSE2, mkA None (Some (ex_t F64 [1; 3] [1; 2; 3])) None None None false false);
     (CVector, no); (CSO3, mkA None (Some (ex_t F32 [4] [1; 0; 0; 0])) None None None false false); (CPoint2, no)] w0)
  = [(0, "SE2__0"%string); (3, "SO3__3"%string); (5, "Point2__5"%string)].
Proof. reflexivity. Qed.
(** hypotheses of C100_tensor: valid, refused, normalized *)
Example C100_ex_tensor : forall o, In o [ex_t F64 [1; 2] [3; 4]; ex_t F64 [1; 2] [60; 61]] ->
  supported (t_dt o) = true /\ t_shape o = 1 :: item_shape CSO2 0.
Proof. intros o [<-|[<-|[]]]; split; reflexivity. Qed.
Example C100_ex_tensor2 :
  map (fun p => match ex_make CSO2 (mkA None None (Some (ex_t F64 [1; 2] (fst p))) None None (snd p) false) w0 with
                | Ok w o => Some (t_at (o_tensor o) [0; 0], w_warn w) | Exn _ _ => None end) [([3; 4], true); ([60; 61], true); ([60; 61], false)]
  = [Some (3, []); None; Some (10, [WNormalized])].
Proof. reflexivity. Qed.
Example C100_ex_short : supported (t_dt (ex_t F32 [7] [0; 0; 0; 1; 0; 0; 0])) = true /\
  short_shape CSE3 (t_shape (ex_t F32 [7] [0; 0; 0; 1; 0; 0; 0])) /\
  short_ok (fun _ q => q 0 =? 1) w0 CSE3 (ex_t F32 [7] [0; 0; 0; 1; 0; 0; 0]).
Proof. split; [reflexivity|]. split; [left; reflexivity|]. split; [reflexivity|]. intros _ i _. reflexivity. Qed.
(** a default dtype that is not supported makes SE3(x_y_z_quaternion=...) fail although the argument's dtype is *)
Theorem C100_se3_default_refuted :
  match ex_make CSE3 (mkA None (Some (ex_t F32 [7] [0; 0; 0; 1; 0; 0; 0])) None None None false false) (mkW 0 0 F16 true false false true []) with
  | Exn _ e => e = ValueErr | _ => False end.
Proof. reflexivity. Qed.
