(** What a robust wrapper is after construction (C99). *)
From Coq Require Import List String Ascii Arith Bool Lia.
From Verif Require Import Mp_model Acf_model Acf_spec Acf_base Acf_make Acf_auto Acf_wrap.
Import ListNotations.
Local Open Scope string_scope.
Local Open Scope list_scope.
Local Open Scope nat_scope.

Section Robust.
Variables T F : Type.
Implicit Types (w : world T F) (o : cobj F).

Definition simple (c : ccls) : Prop := c = CPlain \/ c = CAutoDiff.
Lemma simple_weight : forall n w b o, nth_error (w_objs w) b = Some o -> simple (o_cls o) ->
  weight_at (S n) w b = match getattr o "_weight" with Some (PWt k) => Some k | _ => None end.
Proof. intros n w b o H S. cbn [weight_at]. rewrite H. destruct S as [-> | ->]; reflexivity. Qed.
Lemma simple_dim : forall n w b o, nth_error (w_objs w) b = Some o -> simple (o_cls o) ->
  dim_at (S n) w b = match getattr o "_dim" with Some (PNat k) => Some k | _ => None end.
Proof. intros n w b o H S. cbn [dim_at]. rewrite H. destruct S as [-> | ->]; reflexivity. Qed.
Lemma attr_vals_snoc : forall o ks l k x, attr_vals o ks = Some l -> getattr o k = Some x -> attr_vals o (ks ++ [k]) = Some (l ++ [x]).
Proof.
  induction ks as [|k' ks IH]; intros l k x A G.
  - cbn in A. injection A as <-. cbn [app attr_vals fold_right]. rewrite G. reflexivity.
  - cbn [attr_vals fold_right] in A. fold (attr_vals o ks) in A. cbn [app attr_vals fold_right]. fold (attr_vals o (ks ++ [k])).
    destruct (getattr o k') as [y|]; [|discriminate]. destruct (attr_vals o ks) as [l'|]; [|discriminate]. injection A as <-.
    rewrite (IH l' k x eq_refl G). reflexivity.
Qed.
Definition own_keys : list string := wrapper_own ++ init_attrs.
Section One.
Variables (c : ccls) (b : nat) (l : loss) (r : nat) (fl : bool) (name : option string) (wid fid : nat) (ko ka : list string) (ov av : list (val F)).
Hypothesis N : NoDup (ko ++ ka).
Hypothesis LO : List.length ko = List.length ov.
Hypothesis LA : List.length ka = List.length av.
Hypothesis K0 : forall k, In k (ko ++ ka) -> ~ In k own_keys.
Hypothesis K1 : ~ In "log_loss_radius" (ko ++ ka).
Let o := rob_obj F c b l r fl name wid fid ko ka ov av.
Lemma rob_skip : forall k, ~ In k (ko ++ ka) ->
  getattr o k = match assoc [("flatten_dims", PBool fl); ("loss", PLoss l); ("log_loss_radius", PVar r)] k with
                | Some x => Some x | None => assoc (base_dict F c name wid fid ++ [("cost_function", PObj b)]) k end.
Proof.
  intros k K. unfold getattr, o, rob_obj, rob_dict. cbn [o_dict]. rewrite assoc_app.
  destruct (assoc [("flatten_dims", PBool fl); ("loss", PLoss l); ("log_loss_radius", PVar r)] k); [reflexivity|].
  rewrite assoc_app, assoc_none, assoc_app, assoc_none; [reflexivity| |].
  - rewrite map_rev, combine_fst by exact LO. intro H. apply K. apply in_or_app. left. apply in_rev. exact H.
  - rewrite map_rev, combine_fst by exact LA. intro H. apply K. apply in_or_app. right. apply in_rev. exact H.
Qed.
Lemma own_free : forall k, In k own_keys -> ~ In k (ko ++ ka).
Proof. intros k K H. exact (K0 k H K). Qed.
Lemma rob_optim : optim_vars o = Some ov.
Proof.
  pose proof N as N0. apply nodup_app_iff in N0. destruct N0 as [N1 [N2 N3]]. unfold optim_vars. change (o_optim o) with ko.
  apply (attr_vals_assoc F o ko ov ([("flatten_dims", PBool fl); ("loss", PLoss l); ("log_loss_radius", PVar r)] ++ rev (combine ka av))
           (base_dict F c name wid fid ++ [("cost_function", PObj b)]) N1 LO).
  - unfold o, rob_obj, rob_dict. cbn [o_dict]. rewrite <- app_assoc. reflexivity.
  - intros k K H. rewrite map_app, map_rev, combine_fst in H by exact LA. apply in_app_or in H. destruct H as [H|H].
    + assert (KK : In k (ko ++ ka)) by (apply in_or_app; left; exact K).
      cbn [map fst In] in H. destruct H as [<-|[<-|[<-|[]]]]; [apply (K0 _ KK)|apply (K0 _ KK)|exact (K1 KK)]; cbn; tauto.
    + apply in_rev in H. exact (N3 k K H).
Qed.
Lemma rob_radius : getattr o "log_loss_radius" = Some (PVar r).
Proof. rewrite rob_skip by exact K1. reflexivity. Qed.
Lemma rob_aux_l : attr_vals o ka = Some av.
Proof.
  pose proof N as N0. apply nodup_app_iff in N0. destruct N0 as [N1 [N2 N3]].
  apply (attr_vals_assoc F o ka av [("flatten_dims", PBool fl); ("loss", PLoss l); ("log_loss_radius", PVar r)]
           (rev (combine ko ov) ++ base_dict F c name wid fid ++ [("cost_function", PObj b)]) N2 LA).
  - reflexivity.
  - intros k K H. assert (KK : In k (ko ++ ka)) by (apply in_or_app; right; exact K).
    cbn [map fst In] in H. destruct H as [<-|[<-|[<-|[]]]]; [apply (K0 _ KK)|apply (K0 _ KK)|exact (K1 KK)]; cbn; tauto.
Qed.
Lemma rob_aux : aux_vars o = Some (av ++ [PVar r]).
Proof. unfold aux_vars. change (o_aux o) with (ka ++ ["log_loss_radius"]). apply attr_vals_snoc; [apply rob_aux_l|apply rob_radius]. Qed.
Lemma rob_own : getattr o "cost_function" = Some (PObj b) /\ getattr o "loss" = Some (PLoss l) /\ getattr o "flatten_dims" = Some (PBool fl)
  /\ getattr o "name" = Some (PStr (match name with Some s => if String.eqb s "" then (ccls_name c ++ "__" ++ dec fid)%string else s
                                              | None => (ccls_name c ++ "__" ++ dec fid)%string end)).
Proof. repeat split; rewrite rob_skip by (apply own_free; apply mem_In; vm_compute; reflexivity); reflexivity. Qed.
End One.

(** a base: an object with its user's view and its attribute names, which do not clash with the wrapper's own *)
Record base_ok w (b : nat) (c : ccls) (O A : list nat) (wid d : nat) (ko ka : list string) : Prop := mkBase {
  b_simple : simple c;
  b_looks : looks w b c O A wid d;
  b_regs : registered w b ko ka;
  b_nodup : NoDup (ko ++ ka);
  b_own : forall k, In k (ko ++ ka) -> ~ In k own_keys }.
Lemma base_len : forall w b c O A wid d ko ka, base_ok w b c O A wid d ko ka ->
  exists base, nth_error (w_objs w) b = Some base /\ o_cls base = c /\ o_optim base = ko /\ o_aux base = ka /\
    optim_vars base = Some (map PVar O) /\ aux_vars base = Some (map PVar A) /\
    List.length ko = List.length (map (@PVar F) O) /\ List.length ka = List.length (map (@PVar F) A) /\ b < List.length (w_objs w).
Proof.
  intros w b c O A wid d ko ka [S [[base [B1 [B2 [B3 B4]]]] W D] [base' [R1 [R2 R3]]] _ _].
  rewrite B1 in R1. injection R1 as <-. exists base. split; [exact B1|]. split; [exact B2|]. split; [exact R2|]. split; [exact R3|].
  split; [exact B3|]. split; [exact B4|]. unfold optim_vars in B3. unfold aux_vars in B4. rewrite R2 in B3. rewrite R3 in B4.
  split; [symmetry; apply (attr_vals_map F base ko); exact B3|]. split; [symmetry; apply (attr_vals_map F base ka); exact B4|].
  apply nth_error_Some. rewrite B1. discriminate.
Qed.
Definition push w (o : cobj F) : world T F := mkW (w_vars w) (w_wts w) (w_objs w ++ [o]) (S (w_fid w)).
(** the view of a wrapper is that of its base and its own attributes *)
Lemma push_view : forall w b c O A wid d ko ka o cw av' ka', base_ok w b c O A wid d ko ka -> cw = CRobust \/ cw = CGNC ->
  o_cls o = cw -> optim_vars o = Some (map PVar O) -> aux_vars o = Some (map PVar av') -> o_optim o = ko -> o_aux o = ka' ->
  getattr o "cost_function" = Some (PObj b) ->
  let i := List.length (w_objs w) in
  looks (push w o) i cw O av' wid d /\ registered (push w o) i ko ka' /\ extends w (push w o) /\ nth_error (w_objs (push w o)) i = Some o.
Proof.
  intros w b c O A wid d ko ka o cw av' ka' B CW HC HO HA KO KA G i.
  destruct (base_len _ _ _ _ _ _ _ _ _ B) as [base [B1 [B2 [B3 [B4 [B5 [B6 [B7 [B8 B9]]]]]]]]].
  assert (I : nth_error (w_objs (push w o)) i = Some o) by (unfold push, i; cbn [w_objs]; rewrite nth_error_app2, Nat.sub_diag by lia; reflexivity).
  assert (IB : nth_error (w_objs (push w o)) b = Some base) by (unfold push; cbn [w_objs]; rewrite nth_error_app1 by exact B9; exact B1).
  assert (SC : simple (o_cls base)) by (rewrite B2; apply B).
  assert (L : List.length (w_objs (push w o)) = S (List.length (w_objs w))) by (unfold push; cbn [w_objs]; rewrite app_length; cbn [List.length]; lia).
  pose proof (lk_weight _ _ _ _ _ _ _ _ _ (b_looks _ _ _ _ _ _ _ _ _ B)) as W. unfold weight in W. rewrite (simple_weight _ w b base B1 SC) in W.
  pose proof (lk_dim _ _ _ _ _ _ _ _ _ (b_looks _ _ _ _ _ _ _ _ _ B)) as D. unfold dim in D. rewrite (simple_dim _ w b base B1 SC) in D.
  split; [constructor|split; [|split]].
  - exists o. repeat split; assumption.
  - unfold weight. rewrite L. remember (S (List.length (w_objs w))) as n eqn:En. cbn [weight_at]. rewrite I, HC. rewrite En.
    destruct CW as [-> | ->]; rewrite G, (simple_weight _ _ b base IB SC); exact W.
  - unfold dim. rewrite L. remember (S (List.length (w_objs w))) as n eqn:En. cbn [dim_at]. rewrite I, HC. rewrite En.
    destruct CW as [-> | ->]; rewrite G, (simple_dim _ _ b base IB SC); exact D.
  - exists o. repeat split; assumption.
  - unfold extends, push. cbn [w_vars w_wts w_objs]. split; [exists []; rewrite app_nil_r; reflexivity|]. split; [exists []; rewrite app_nil_r; reflexivity|eexists; reflexivity].
  - exact I.
Qed.
Definition rob_at w b l r fl name wid ko ka O A : cobj F :=
  rob_obj F CRobust b l r fl name wid (w_fid w) ko ka (map PVar O) (map PVar A).
Lemma make_robust_eq : forall w b c O A wid d ko ka l r fl name, base_ok w b c O A wid d ko ka ->
  make_robust b l r fl name w = if mem "log_loss_radius" (ko ++ ka) then Exn (fid_up T F w) ValueErr
                                else Ret (push w (rob_at w b l r fl name wid ko ka O A)) (List.length (w_objs w)).
Proof.
  intros w b c O A wid d ko ka l r fl name B. destruct (base_len _ _ _ _ _ _ _ _ _ B) as [base [B1 [B2 [B3 [B4 [B5 [B6 _]]]]]]].
  unfold make_robust, bind.
  rewrite (init_robust_eq T F CRobust w b base wid ko ka (map PVar O) (map PVar A) l r fl name B1 (lk_weight _ _ _ _ _ _ _ _ _ (b_looks _ _ _ _ _ _ _ _ _ B)) B3 B4 B5 B6 (b_nodup _ _ _ _ _ _ _ _ _ B)).
  destruct (mem "log_loss_radius" (ko ++ ka)); reflexivity.
Qed.
Definition gnc_at w b l r ctl fl name wid ko ka O A : cobj F :=
  let o := rob_obj F CGNC b l r fl name wid (w_fid w) ko ka (map PVar O) (map PVar A) in
  mkObj CGNC (("gnc_control_val", PVar ctl) :: o_dict o) ko ((ka ++ ["log_loss_radius"]) ++ ["gnc_control_val"]).
Lemma make_gnc_eq : forall w b c O A wid d ko ka l r ctl fl name, base_ok w b c O A wid d ko ka ->
  make_gnc b l r ctl fl name w =
  if negb (is_gnc l) then Exn w RuntimeErr
  else if mem "log_loss_radius" (ko ++ ka) then Exn (fid_up T F w) ValueErr
  else if mem "gnc_control_val" (ko ++ ka) then Exn (fid_up T F w) ValueErr
  else Ret (push w (gnc_at w b l r ctl fl name wid ko ka O A)) (List.length (w_objs w)).
Proof.
  intros w b c O A wid d ko ka l r ctl fl name B. destruct (base_len _ _ _ _ _ _ _ _ _ B) as [base [B1 [B2 [B3 [B4 [B5 [B6 _]]]]]]].
  unfold make_gnc. destruct (negb (is_gnc l)); [reflexivity|]. unfold bind.
  rewrite (init_robust_eq T F CGNC w b base wid ko ka (map PVar O) (map PVar A) l r fl name B1 (lk_weight _ _ _ _ _ _ _ _ _ (b_looks _ _ _ _ _ _ _ _ _ B)) B3 B4 B5 B6 (b_nodup _ _ _ _ _ _ _ _ _ B)).
  destruct (mem "log_loss_radius" (ko ++ ka)) eqn:ML; [reflexivity|].
  assert (M1 : mem "gnc_control_val" (ko ++ ka) = (mem "gnc_control_val" ko || mem "gnc_control_val" ka)%bool) by (unfold mem; apply existsb_app).
  assert (M2 : mem "gnc_control_val" (ka ++ ["log_loss_radius"]) = mem "gnc_control_val" ka) by (unfold mem; rewrite existsb_app; cbn; apply orb_false_r).
  unfold register_aux_var, rob_obj. cbn [setattr o_cls o_dict o_optim o_aux]. rewrite M1, M2.
  destruct (mem "gnc_control_val" ka); [rewrite orb_true_r; reflexivity|]. rewrite orb_false_r.
  destruct (mem "gnc_control_val" ko); reflexivity.
Qed.
Lemma keys_clean : forall c O A wid d ko ka w b, base_ok w b c O A wid d ko ka -> forall k, In k own_keys -> ~ In k (ko ++ ka).
Proof. intros c O A wid d ko ka w b B k K H. exact (b_own _ _ _ _ _ _ _ _ _ B k H K). Qed.
Lemma rob_view : forall w b c O A wid d ko ka l r fl name, base_ok w b c O A wid d ko ka -> ~ In "log_loss_radius" (ko ++ ka) ->
  let o := rob_at w b l r fl name wid ko ka O A in let i := List.length (w_objs w) in let w' := push w o in
  looks w' i CRobust O (A ++ [r]) wid d /\ registered w' i ko (ka ++ ["log_loss_radius"]) /\ extends w w' /\ wrapper_has w' i b l fl /\
  named w' i (match name with Some s => if String.eqb s "" then ("RobustCostFunction__" ++ dec (w_fid w))%string else s
                            | None => ("RobustCostFunction__" ++ dec (w_fid w))%string end).
Proof.
  intros w b c O A wid d ko ka l r fl name B K1 o i w'. destruct (base_len _ _ _ _ _ _ _ _ _ B) as [base [B1 [B2 [B3 [B4 [B5 [B6 [B7 [B8 B9]]]]]]]]].
  pose proof (rob_own CRobust b l r fl name wid (w_fid w) ko ka (map PVar O) (map PVar A) B7 B8 (b_own _ _ _ _ _ _ _ _ _ B)) as [G1 [G2 [G3 G4]]].
  destruct (push_view w b c O A wid d ko ka o CRobust (A ++ [r]) (ka ++ ["log_loss_radius"]) B (or_introl eq_refl) eq_refl) as [V1 [V2 [V3 V4]]].
  - apply rob_optim; try assumption; apply B.
  - rewrite map_app. apply rob_aux; try assumption; apply B.
  - reflexivity.
  - reflexivity.
  - exact G1.
  - split; [exact V1|]. split; [exact V2|]. split; [exact V3|]. split; [exists o; split; [exact V4|repeat split; assumption]|].
    exists o. split; [exact V4|exact G4].
Qed.
Lemma gnc_view : forall w b c O A wid d ko ka l r ctl fl name, base_ok w b c O A wid d ko ka -> ~ In "log_loss_radius" (ko ++ ka) -> ~ In "gnc_control_val" (ko ++ ka) ->
  let o := gnc_at w b l r ctl fl name wid ko ka O A in let i := List.length (w_objs w) in let w' := push w o in
  looks w' i CGNC O (A ++ [r; ctl]) wid d /\ registered w' i ko (ka ++ ["log_loss_radius"; "gnc_control_val"]) /\ extends w w' /\ wrapper_has w' i b l fl /\
  named w' i (match name with Some s => if String.eqb s "" then ("GNCRobustCostFunction__" ++ dec (w_fid w))%string else s
                            | None => ("GNCRobustCostFunction__" ++ dec (w_fid w))%string end).
Proof.
  intros w b c O A wid d ko ka l r ctl fl name B K1 K2 o i w'. destruct (base_len _ _ _ _ _ _ _ _ _ B) as [base [B1 [B2 [B3 [B4 [B5 [B6 [B7 [B8 B9]]]]]]]]].
  pose proof (rob_own CGNC b l r fl name wid (w_fid w) ko ka (map PVar O) (map PVar A) B7 B8 (b_own _ _ _ _ _ _ _ _ _ B)) as [G1 [G2 [G3 G4]]].
  set (o0 := rob_obj F CGNC b l r fl name wid (w_fid w) ko ka (map PVar O) (map PVar A)) in *.
  assert (SK : forall k, k <> "gnc_control_val" -> getattr o k = getattr o0 k).
  { intros k K. unfold getattr, o, gnc_at. cbn [o_dict assoc]. destruct (String.eqb_spec "gnc_control_val" k) as [<-|_]; [contradiction|reflexivity]. }
  assert (NK : forall k, In k (ko ++ ka) -> k <> "gnc_control_val") by (intros k K ->; exact (K2 K)).
  assert (EO : optim_vars o = Some (map PVar O)).
  { unfold optim_vars. change (o_optim o) with ko. rewrite (attr_vals_ext F o o0 ko) by (intros k K; apply SK, NK; apply in_or_app; left; exact K).
    apply (rob_optim CGNC b l r fl name wid (w_fid w) ko ka (map PVar O) (map PVar A)); try assumption; apply B. }
  assert (EA : aux_vars o = Some (map PVar (A ++ [r; ctl]))).
  { unfold aux_vars. change (o_aux o) with ((ka ++ ["log_loss_radius"]) ++ ["gnc_control_val"]). rewrite map_app. cbn [map].
    change (map (@PVar F) A ++ [PVar r; PVar ctl]) with (map (@PVar F) A ++ [PVar r] ++ [PVar ctl]). rewrite app_assoc.
    apply attr_vals_snoc; [apply attr_vals_snoc|].
    - rewrite (attr_vals_ext F o o0 ka) by (intros k K; apply SK, NK; apply in_or_app; right; exact K).
      apply (rob_aux_l CGNC b l r fl name wid (w_fid w) ko ka (map PVar O) (map PVar A)); try assumption; apply B.
    - rewrite SK by discriminate. apply (rob_radius CGNC b l r fl name wid (w_fid w) ko ka (map PVar O) (map PVar A)); assumption.
    - reflexivity. }
  destruct (push_view w b c O A wid d ko ka o CGNC (A ++ [r; ctl]) (ka ++ ["log_loss_radius"; "gnc_control_val"]) B (or_intror eq_refl) eq_refl EO EA eq_refl) as [V1 [V2 [V3 V4]]].
  - unfold o, gnc_at. cbn [o_aux]. rewrite <- app_assoc. reflexivity.
  - rewrite SK by discriminate. exact G1.
  - split; [exact V1|]. split; [exact V2|]. split; [exact V3|]. split.
    + exists o. split; [exact V4|]. repeat split; rewrite SK by discriminate; assumption.
    + exists o. split; [exact V4|]. rewrite SK by discriminate. exact G4.
Qed.
End Robust.
