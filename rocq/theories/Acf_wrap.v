(** Standard cost functions and robust wrappers just constructed (C99). *)
From Coq Require Import List String Ascii Arith Bool Lia.
From Verif Require Import Mp_model Acf_model Acf_spec Acf_base Acf_make Acf_auto.
Import ListNotations.
Local Open Scope string_scope.
Local Open Scope list_scope.
Local Open Scope nat_scope.

Section Wrap.
Variables T F : Type.
Implicit Types (w : world T F) (o : cobj F).

Lemma reg_step : forall o k (b : bool), ~ In k (o_optim o ++ o_aux o) ->
  (if b then register_optim_var o k else register_aux_var o k) =
  inl (mkObj (o_cls o) (o_dict o) (o_optim o ++ if b then [k] else []) (o_aux o ++ if b then [] else [k])).
Proof.
  intros o k b N. assert (A : mem k (o_optim o) = false) by (apply mem_notIn; intro K; apply N; apply in_or_app; left; exact K).
  assert (B : mem k (o_aux o) = false) by (apply mem_notIn; intro K; apply N; apply in_or_app; right; exact K).
  destruct b; [unfold register_optim_var|unfold register_aux_var]; rewrite A, B, app_nil_r; reflexivity.
Qed.
Lemma reg_all_eq : forall ks o b, NoDup ks -> (forall k, In k ks -> ~ In k (o_optim o ++ o_aux o)) ->
  reg_all o ks b = inl (mkObj (o_cls o) (o_dict o) (o_optim o ++ if b then ks else []) (o_aux o ++ if b then [] else ks)).
Proof.
  induction ks as [|k ks IH]; intros o b N D; cbn [reg_all].
  - destruct o as [cc dd oo aa]; destruct b; cbn [o_cls o_dict o_optim o_aux]; rewrite !app_nil_r; reflexivity.
  - rewrite reg_step by (apply D; left; reflexivity). apply NoDup_cons_iff in N. rewrite IH.
    + cbn [o_cls o_dict o_optim o_aux]. destruct b; rewrite ?app_nil_r, <- ?app_assoc; reflexivity.
    + apply N.
    + cbn [o_optim o_aux]. intros k' K' H. assert (NE : k' <> k) by (intros ->; apply N; exact K').
      apply (D k' (or_intror K')). rewrite !in_app_iff in H. rewrite in_app_iff. destruct b; cbn [In] in H; intuition congruence.
Qed.
Lemma take_eq : forall base ks vals o b, attr_vals base ks = Some vals -> NoDup ks -> (forall k, In k ks -> ~ In k (o_optim o ++ o_aux o)) ->
  take_attrs base o ks b = inl (mkObj (o_cls o) (rev (combine ks vals) ++ o_dict o) (o_optim o ++ if b then ks else []) (o_aux o ++ if b then [] else ks)).
Proof.
  intros base. induction ks as [|k ks IH]; intros vals o b A N D.
  - cbn [take_attrs]. cbn in A. injection A as <-. destruct o as [cc dd oo aa]; destruct b; cbn [combine rev app o_cls o_dict o_optim o_aux]; rewrite !app_nil_r; reflexivity.
  - cbn [attr_vals fold_right] in A. fold (attr_vals base ks) in A. cbn [take_attrs].
    destruct (getattr base k) as [x|] eqn:G; [|discriminate]. destruct (attr_vals base ks) as [l'|] eqn:AV; [|discriminate]. injection A as <-.
    rewrite reg_step by (cbn [setattr o_optim o_aux]; apply D; left; reflexivity). apply NoDup_cons_iff in N.
    rewrite (IH l'); [|reflexivity|apply N|].
    + cbn [setattr o_cls o_dict o_optim o_aux combine rev]. destruct b; rewrite ?app_nil_r, <- ?app_assoc; reflexivity.
    + cbn [setattr o_optim o_aux]. intros k' K' H. assert (NE : k' <> k) by (intros ->; apply N; exact K').
      apply (D k' (or_intror K')). rewrite !in_app_iff in H. rewrite in_app_iff. destruct b; cbn [In] in H; intuition congruence.
Qed.
(** reading back registered attributes *)
Lemma attr_vals_ext : forall o o' ks, (forall k, In k ks -> getattr o k = getattr o' k) -> attr_vals o ks = attr_vals o' ks.
Proof.
  induction ks as [|k ks IH]; intros H; [reflexivity|]. cbn [attr_vals fold_right]. fold (attr_vals o ks) (attr_vals o' ks).
  rewrite (H k) by (left; reflexivity). rewrite IH by (intros k' K; apply H; right; exact K). reflexivity.
Qed.
Lemma attr_vals_assoc : forall o ks vals pre post, NoDup ks -> List.length ks = List.length vals -> o_dict o = pre ++ rev (combine ks vals) ++ post ->
  (forall k, In k ks -> ~ In k (map fst pre)) -> attr_vals o ks = Some vals.
Proof.
  intros o ks vals pre post N L D P.
  assert (G : forall k x, In (k, x) (combine ks vals) -> getattr o k = Some x).
  { intros k x H. unfold getattr. rewrite D, assoc_app, assoc_none by (apply P; apply in_combine_l in H; exact H).
    rewrite assoc_app, (assoc_in _ (rev (combine ks vals)) k x); [reflexivity| |].
    - rewrite map_rev, combine_fst by exact L. apply NoDup_rev. exact N.
    - apply in_rev. rewrite rev_involutive. exact H. }
  clear D P N. revert vals L G. induction ks as [|k ks IH]; intros [|x vals] L G; try discriminate L; [reflexivity|].
  cbn [attr_vals fold_right]. fold (attr_vals o ks). rewrite (G k x) by (left; reflexivity).
  rewrite (IH vals); [reflexivity|cbn in L; lia|]. intros k' x' H. apply G. right. exact H.
Qed.

(** ** standard cost functions *)
Definition plain_obj (w : world T F) (optim aux : list (string * nat)) (d wid : nat) (name : option string) : cobj F :=
  mkObj CPlain (("_dim", PNat d) :: rev (map (fun p => (fst p, PVar (snd p))) (optim ++ aux)) ++ base_dict F CPlain name wid (w_fid w))
    (map fst optim) (map fst aux).
Definition plain_world w optim aux d wid name : world T F :=
  mkW (w_vars w) (w_wts w) (w_objs w ++ [plain_obj w optim aux d wid name]) (S (w_fid w)).
Lemma plain_eq : forall w optim aux d wid name, NoDup (map fst (optim ++ aux)) ->
  make_plain optim aux d wid name w = Ret (plain_world w optim aux d wid name) (List.length (w_objs w)).
Proof.
  intros w optim aux d wid name N. rewrite map_app in N. apply nodup_app_iff in N. destruct N as [N1 [N2 N3]].
  unfold make_plain, base_init, bind. cbv zeta. rewrite app_nil_r. fold (base_dict F CPlain name wid (w_fid w)). rewrite setattrs_dict.
  cbn [o_cls o_dict o_optim o_aux]. rewrite reg_all_eq by (try exact N1; intros k _ []). cbn [lift ret o_cls o_dict o_optim o_aux app].
  rewrite reg_all_eq; [|exact N2|].
  - cbn [lift ret o_cls o_dict o_optim o_aux app]. unfold new_obj, setattr. cbn [o_cls o_dict o_optim o_aux w_vars w_wts w_objs w_fid].
    rewrite !app_nil_r. reflexivity.
  - cbn [o_optim o_aux]. intros k K H. rewrite app_nil_r in H. exact (N3 k H K).
Qed.
Lemma combine_map : forall A (l : list (string * A)) (g : A -> val F), map (fun p => (fst p, g (snd p))) l = combine (map fst l) (map g (map snd l)).
Proof. induction l as [|[a b] l IH]; intros g; [reflexivity|]. cbn [map combine fst snd]. rewrite IH. reflexivity. Qed.
Lemma plain_looks : forall w optim aux d wid name, NoDup (map fst (optim ++ aux)) ->
  (forall k, In k (map fst (optim ++ aux)) -> k <> "_dim" /\ ~ In k init_attrs) ->
  let w' := plain_world w optim aux d wid name in let i := List.length (w_objs w) in
  looks w' i CPlain (map snd optim) (map snd aux) wid d /\ registered w' i (map fst optim) (map fst aux) /\ extends w w' /\
  named w' i (match name with Some s => if String.eqb s "" then ("Plain__" ++ dec (w_fid w))%string else s | None => ("Plain__" ++ dec (w_fid w))%string end).
Proof.
  intros w optim aux d wid name N R w' i.
  pose proof N as N0. rewrite map_app in N0. apply nodup_app_iff in N0. destruct N0 as [N1 [N2 N3]].
  assert (O : nth_error (w_objs w') i = Some (plain_obj w optim aux d wid name)).
  { unfold w', plain_world, i. cbn [w_objs]. rewrite nth_error_app2, Nat.sub_diag by lia. reflexivity. }
  set (o := plain_obj w optim aux d wid name) in *.
  assert (D : o_dict o = ("_dim", PNat d) :: rev (combine (map fst aux) (map PVar (map snd aux))) ++ rev (combine (map fst optim) (map PVar (map snd optim))) ++ base_dict F CPlain name wid (w_fid w)).
  { unfold o, plain_obj. cbn [o_dict]. rewrite map_app, rev_app_distr, <- app_assoc, !combine_map. reflexivity. }
  assert (K1 : forall k, In k (map fst optim) -> In k (map fst (optim ++ aux))) by (intros k K; rewrite map_app; apply in_or_app; left; exact K).
  assert (K2 : forall k, In k (map fst aux) -> In k (map fst (optim ++ aux))) by (intros k K; rewrite map_app; apply in_or_app; right; exact K).
  assert (L1 : List.length (map fst optim) = List.length (map (@PVar F) (map snd optim))) by (rewrite !map_length; reflexivity).
  assert (L2 : List.length (map fst aux) = List.length (map (@PVar F) (map snd aux))) by (rewrite !map_length; reflexivity).
  assert (I : forall k, In k init_attrs -> getattr o k = assoc (base_dict F CPlain name wid (w_fid w)) k).
  { intros k K. unfold getattr. rewrite D. cbn [assoc]. destruct (String.eqb_spec "_dim" k) as [<-|_].
    { exfalso. apply mem_In in K. vm_compute in K. discriminate. }
    rewrite assoc_app, assoc_none, assoc_app, assoc_none; [reflexivity| |].
    - rewrite map_rev, combine_fst by exact L1. intro H. apply in_rev in H. exact (proj2 (R k (K1 k H)) K).
    - rewrite map_rev, combine_fst by exact L2. intro H. apply in_rev in H. exact (proj2 (R k (K2 k H)) K). }
  split; [constructor|split; [|split]].
  - exists o. split; [exact O|]. split; [reflexivity|]. split.
    + unfold optim_vars. change (o_optim o) with (map fst optim).
      apply (attr_vals_assoc o (map fst optim) (map PVar (map snd optim)) (("_dim", PNat d) :: rev (combine (map fst aux) (map PVar (map snd aux)))) (base_dict F CPlain name wid (w_fid w)) N1 L1).
      * rewrite D. reflexivity.
      * intros k K H. cbn [map fst] in H. destruct H as [H|H]; [exact (proj1 (R k (K1 k K)) (eq_sym H))|].
        rewrite map_rev, combine_fst in H by exact L2. apply in_rev in H. exact (N3 k K H).
    + unfold aux_vars. change (o_aux o) with (map fst aux).
      apply (attr_vals_assoc o (map fst aux) (map PVar (map snd aux)) [("_dim", PNat d)] (rev (combine (map fst optim) (map PVar (map snd optim))) ++ base_dict F CPlain name wid (w_fid w)) N2 L2).
      * rewrite D. reflexivity.
      * intros k K H. destruct H as [H|[]]. exact (proj1 (R k (K2 k K)) (eq_sym H)).
  - unfold weight. cbn [weight_at]. rewrite O. cbn [o_cls o plain_obj]. fold o. rewrite I by (right; right; right; right; left; reflexivity). reflexivity.
  - unfold dim. cbn [dim_at]. rewrite O. cbn [o_cls o plain_obj]. fold o. reflexivity.
  - exists o. split; [exact O|split; reflexivity].
  - unfold extends, w', plain_world. cbn [w_vars w_wts w_objs]. split; [exists []; rewrite app_nil_r; reflexivity|]. split; [exists []; rewrite app_nil_r; reflexivity|eexists; reflexivity].
  - exists o. split; [exact O|]. rewrite I by (right; left; reflexivity). reflexivity.
Qed.

(** ** robust wrappers *)
Definition rob_dict (c : ccls) (b : nat) (l : loss) (r : nat) (fl : bool) (name : option string) (wid fid : nat)
  (ko ka : list string) (ov av : list (val F)) : list (string * val F) :=
  [("flatten_dims", PBool fl); ("loss", PLoss l); ("log_loss_radius", PVar r)] ++ rev (combine ka av) ++ rev (combine ko ov) ++
  base_dict F c name wid fid ++ [("cost_function", PObj b)].
Definition rob_obj (c : ccls) b l r fl name wid fid ko ka ov av : cobj F :=
  mkObj c (rob_dict c b l r fl name wid fid ko ka ov av) ko (ka ++ ["log_loss_radius"]).
Definition fid_up w : world T F := mkW (w_vars w) (w_wts w) (w_objs w) (S (w_fid w)).
Lemma init_robust_eq : forall c w b base wid ko ka ov av l r fl name,
  nth_error (w_objs w) b = Some base -> weight w b = Some wid -> o_optim base = ko -> o_aux base = ka ->
  optim_vars base = Some ov -> aux_vars base = Some av -> NoDup (ko ++ ka) ->
  init_robust c b l r fl name w =
  if mem "log_loss_radius" (ko ++ ka) then Exn (fid_up w) ValueErr
  else Ret (fid_up w) (rob_obj c b l r fl name wid (w_fid w) ko ka ov av).
Proof.
  intros c w b base wid ko ka ov av l r fl name HB HW HO HA OV AV N.
  unfold optim_vars in OV. unfold aux_vars in AV. rewrite HO in OV. rewrite HA in AV.
  pose proof N as N0. apply nodup_app_iff in N0. destruct N0 as [N1 [N2 N3]].
  unfold init_robust. rewrite HB, HW. unfold base_init, bind. cbv zeta. rewrite HO, HA.
  rewrite (take_eq base ko ov _ true OV N1) by (intros k _ []). cbn [lift ret o_cls o_dict o_optim o_aux app].
  rewrite (take_eq base ka av _ false AV N2) by (cbn [o_optim o_aux]; intros k K H; rewrite app_nil_r in H; exact (N3 k H K)).
  cbn [lift ret o_cls o_dict o_optim o_aux app]. rewrite !app_nil_r.
  unfold register_aux_var. cbn [setattr o_cls o_dict o_optim o_aux].
  assert (MA : mem "log_loss_radius" (ko ++ ka) = (mem "log_loss_radius" ko || mem "log_loss_radius" ka)%bool) by (unfold mem; apply existsb_app).
  rewrite MA. fold (fid_up w).
  destruct (mem "log_loss_radius" ka); [rewrite orb_true_r; reflexivity|]. rewrite orb_false_r.
  destruct (mem "log_loss_radius" ko); [reflexivity|].
  cbn [lift ret setattrs setattr o_cls o_dict o_optim o_aux]. unfold rob_obj, rob_dict, base_dict. cbn [app]. reflexivity.
Qed.
End Wrap.
