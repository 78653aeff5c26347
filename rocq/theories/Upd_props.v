(** Property theorems C05-C08 (vectorization off). *)
From Coq Require Import List Arith Lia Bool Permutation.
Import ListNotations.
From Verif Require Import Dict Obj_model Obj_spec Obj_proofs Obj_proofs2 Upd_model Upd_proofs.

(** [o]'s registry was built by calls none of which raised. *)
Definition built {E} (o : ostate E) : Prop :=
  exists w ops, allow_mixed w = false /\ all_ok w ops init = true /\ reg o = run w ops init.

(** The batch dimensions of all optimization and auxiliary variables of the objective. *)
Definition sizes {E} (o : ostate E) : list nat :=
  map (fun v => length (t_rows (store o v))) (values (optim_vars (reg o))) ++
  map (fun v => length (t_rows (store o v))) (values (aux_vars (reg o))).

(** All dimensions are 1 or the common value [b], and [b] is one of them. *)
Definition consistent_size (l : list nat) (b : nat) : Prop :=
  In b l /\ forall n, In n l -> n = 1 \/ n = b.

Lemma batch_sizes_sizes {E} (o : ostate E) : batch_sizes o = sizes o.
Proof. unfold batch_sizes, sizes, batch. now rewrite map_app. Qed.

(** C05.  If [update] returns, the batch size is the common value; resolution fails exactly
    when there is none (and then [batch_size] is None and ValueError is raised). *)
Theorem C05_batch_size_resolution :
  forall {E} (o : ostate E),
    (forall n, In n (sizes o) -> 0 < n) ->
    (forall b, (exists o', resolve_batch_size o = RetV tt o' /\ bsize o' = Some b) <->
               consistent_size (sizes o) b) /\
    ((exists o', resolve_batch_size o = Exc UValueError o' /\ bsize o' = None) <->
     forall b, ~ consistent_size (sizes o) b).
Proof.
  intros E o Hpos. unfold resolve_batch_size, consistent_size. rewrite batch_sizes_sizes.
  pose proof (fun b => get_batch_size_spec (sizes o) b Hpos) as H.
  destruct (get_batch_size (sizes o)) as [b0|] eqn:Eb.
  - split.
    + intros b. rewrite <- H. split.
      * intros (o' & E1 & E2). injection E1 as <-. simpl in E2. exact E2.
      * intros ->. eexists; split; reflexivity.
    + split; [intros (o' & E1 & _); discriminate|].
      intros Hno. exfalso. apply (Hno b0). now apply H.
  - split.
    + intros b. rewrite <- H. split; [|discriminate]. intros (o' & E1 & _); discriminate.
    + split; [|intros _; eexists; split; reflexivity].
      intros _ b Hb. apply H in Hb. discriminate.
Qed.
Print Assumptions C05_batch_size_resolution.

Theorem C05_update_sets_batch_size :
  forall {E} (o o' : ostate E) input mask,
    (forall n, In n (sizes o') -> 0 < n) ->
    update o input mask = RetV tt o' ->
    exists b, bsize o' = Some b /\ consistent_size (sizes o') b.
Proof.
  intros E o o' input mask Hpos H. unfold update in H.
  destruct (update_all mask o input) as [[] o1|e o1]; [|discriminate].
  unfold resolve_batch_size in H. rewrite batch_sizes_sizes in H.
  destruct (get_batch_size (sizes o1)) as [b|] eqn:Eb; [|discriminate].
  injection H as <-. exists b. split; [reflexivity|].
  apply get_batch_size_spec in Eb; [exact Eb|exact Hpos].
Qed.
Print Assumptions C05_update_sets_batch_size.

(** The outcome does not depend on the order in which variables were registered. *)
Theorem C05_order_independent :
  forall l l' : list nat, Permutation l l' -> get_batch_size l = get_batch_size l'.
Proof. exact get_batch_size_perm. Qed.
Print Assumptions C05_order_independent.

(** Edge case found while proving: an empty batch (dimension 0) next to batch-1 variables is
    rejected, although 0 is a common value and torch would broadcast it. *)
Theorem C05_empty_batch_rejected : get_batch_size [1; 0] = None /\ get_batch_size [0; 0] = Some 0.
Proof. split; reflexivity. Qed.

(** C06, single variable: masked rows keep their old value, the others take the new one. *)
Theorem C06_masked_rows :
  forall {E} (old new : tensor E) (mask : list bool),
    t_shape new = t_shape old -> t_dtype new = t_dtype old ->
    length (t_rows old) = length mask -> length (t_rows new) = length mask ->
    exists t, var_update old new (Some mask) = inl t /\
      t_shape t = t_shape old /\ length (t_rows t) = length mask /\
      forall i, nth_error (t_rows t) i =
        match nth_error mask i with
        | Some true => nth_error (t_rows old) i
        | Some false => nth_error (t_rows new) i
        | None => None
        end.
Proof.
  intros E old new mask Hs Hd Ho Hn. unfold var_update, shape_eqb. rewrite Hs.
  destruct (list_eq_dec Nat.eq_dec (t_shape old) (t_shape old)); [|congruence]. simpl.
  rewrite Hd, Nat.eqb_refl. simpl.
  destruct (existsb (fun b => b) mask) eqn:Ex.
  - destruct (where_rows_spec mask (t_rows old) (t_rows new) (length mask) (length mask))
      as (r & Er & Hl & Hr).
    + unfold bcast. now rewrite Ho, Nat.eqb_refl.
    + unfold bcast. now rewrite Hn, Nat.eqb_refl.
    + rewrite Er. eexists; split; [reflexivity|]. simpl. split; [reflexivity|]. split; [exact Hl|].
      intros i. destruct (Nat.lt_ge_cases i (length mask)) as [Hi|Hi].
      * rewrite Hr by exact Hi. unfold brow. rewrite Ho, Hn.
        destruct (length mask =? 1) eqn:E1; [|reflexivity].
        apply Nat.eqb_eq in E1. assert (i = 0) by lia. subst i. reflexivity.
      * rewrite (proj2 (nth_error_None mask i)) by exact Hi. apply nth_error_None. lia.
  - exists new. split; [reflexivity|]. split; [exact Hs|]. split; [exact Hn|].
    intros i. destruct (nth_error mask i) as [b|] eqn:Em.
    + destruct b; [|reflexivity]. exfalso.
      assert (existsb (fun b => b) mask = true).
      { apply existsb_exists. exists true. split; [|reflexivity]. eapply nth_error_In; eauto. }
      congruence.
    + apply nth_error_None. rewrite Hn. now apply nth_error_None.
Qed.
Print Assumptions C06_masked_rows.

(** Without a mask (or with a mask that masks nothing) the variable holds exactly the new tensor. *)
Theorem C06_unmasked_replaces :
  forall {E} (old new : tensor E) (mask : option (list bool)),
    t_shape new = t_shape old -> t_dtype new = t_dtype old ->
    (mask = None \/ exists m, mask = Some m /\ forall b, In b m -> b = false) ->
    var_update old new mask = inl new.
Proof.
  intros E old new mask Hs Hd Hm. unfold var_update, shape_eqb. rewrite Hs.
  destruct (list_eq_dec Nat.eq_dec (t_shape old) (t_shape old)); [|congruence]. simpl.
  rewrite Hd, Nat.eqb_refl. simpl.
  destruct Hm as [->|(m & -> & Hm)]; [reflexivity|].
  destruct (existsb (fun b => b) m) eqn:Ex; [|reflexivity].
  apply existsb_exists in Ex as (b & Hb & ->). apply Hm in Hb. discriminate.
Qed.
Print Assumptions C06_unmasked_replaces.

(** A tensor with another trailing shape or dtype is rejected, whatever the mask. *)
Theorem C06_incompatible_rejected :
  forall {E} (old new : tensor E) mask,
    t_shape new <> t_shape old \/ t_dtype new <> t_dtype old ->
    var_update old new mask = inr UValueError.
Proof.
  intros E old new mask H. unfold var_update, shape_eqb.
  destruct (list_eq_dec Nat.eq_dec (t_shape new) (t_shape old)); [|reflexivity]. simpl.
  destruct H as [H|H]; [congruence|]. apply Nat.eqb_neq in H. now rewrite H.
Qed.
Print Assumptions C06_incompatible_rejected.

Lemma built_find_name {E} (o : ostate E) : built o ->
  exists w, forall n v, find_var (reg o) n = Some v -> v_name w v = n.
Proof.
  intros (w & ops & Hm & Hok & Hr). exists w. intros n v Hf.
  assert (HI : Inv3 w (reg o)) by (rewrite Hr; apply run_Inv3; auto; apply Inv3_init).
  destruct HI as (u & HJ & Hcw & _). unfold find_var in Hf.
  destruct (lookup n (optim_vars (reg o))) eqn:E1.
  - injection Hf as <-. now apply (J_o _ _ _ HJ) in E1 as [A _].
  - destruct (lookup n (aux_vars (reg o))) eqn:E2.
    + injection Hf as <-. now apply (J_a _ _ _ HJ) in E2 as [A _].
    + rewrite Hcw in Hf. discriminate.
Qed.

Lemma built_inj {E} (o : ostate E) : built o ->
  forall n n' v, find_var (reg o) n = Some v -> find_var (reg o) n' = Some v -> n = n'.
Proof. intros H n n' v H1 H2. destruct (built_find_name o H) as [w Hw]. rewrite <- (Hw n v), <- (Hw n' v); auto. Qed.

(** C06, objective: on return every named registered variable holds the (masked) new tensor, every
    other variable object is untouched; and the call can only return if every input was acceptable. *)
Theorem C06_update_exactly_named :
  forall {E} (o o' : ostate E) input mask,
    built o -> NoDup (map fst input) ->
    update o input mask = RetV tt o' ->
    reg o' = reg o /\
    (forall n t v, In (n, t) input -> find_var (reg o) n = Some v ->
       var_update (store o v) t mask = inl (store o' v) /\ nupd o' v = S (nupd o v)) /\
    (forall v, (forall n t, In (n, t) input -> find_var (reg o) n <> Some v) ->
       store o' v = store o v /\ nupd o' v = nupd o v).
Proof.
  intros E o o' input mask Hb Hnd Hu. unfold update in Hu.
  destruct (update_all mask o input) as [[] o1|e o1] eqn:Ea; [|discriminate].
  assert (Hacc : forall nt, In nt input -> acceptable o mask nt).
  { intros nt Hin. 
    assert (Hdec : acceptable o mask nt \/ ~ acceptable o mask nt).
    { destruct nt as [n t]. destruct (update_one mask o (n, t)) as [[] ox|e ox] eqn:E1.
      - left. unfold update_one in E1. 
        destruct (length (t_shape t) =? 0) eqn:E0; [discriminate|].
        destruct (t_dev t =? o_dev o) eqn:E2; simpl in E1; [|discriminate].
        destruct (t_dtype t =? o_dtype o) eqn:E3; simpl in E1; [|discriminate].
        apply Nat.eqb_neq in E0. apply Nat.eqb_eq in E2, E3.
        split; [intros X; rewrite X in E0; simpl in E0; lia|]. split; [auto|]. split; [auto|].
        intros v Hf. rewrite Hf in E1. destruct (var_update (store o v) t mask); [eauto|discriminate].
      - right. intros Hacc. rewrite update_one_ok in E1 by exact Hacc. discriminate. }
    destruct Hdec as [|Hbad]; [assumption|exfalso].
    destruct (update_all_rejected mask input o Hnd (built_inj o Hb)) as (e & o2 & E2); [eauto|congruence]. }
  destruct (update_all_ok mask input o Hnd (built_inj o Hb) Hacc) as (o2 & E2 & R & B & S1 & S2).
  rewrite E2 in Ea. injection Ea as ->.
  unfold resolve_batch_size in Hu. destruct (get_batch_size _); [|discriminate]. injection Hu as <-. simpl.
  split; [exact R|]. split; [clear S2|exact S2].
  intros n' t v Hin Hf. destruct (S1 n' t v Hin Hf) as [T1 T2]. split; [|exact T2].
  rewrite T1. unfold new_tensor. destruct (Hacc (n', t) Hin) as (_ & _ & _ & D).
  destruct (D v Hf) as [t' ->]. reflexivity.
Qed.
Print Assumptions C06_update_exactly_named.

(** Even when the call raises, variables not named in the input are untouched. *)
Theorem C06_unnamed_untouched_always :
  forall {E} (o : ostate E) input mask v,
    (forall n t, In (n, t) input -> find_var (reg o) n <> Some v) ->
    store (rstate (update o input mask)) v = store o v.
Proof.
  intros E o input mask v H. unfold update.
  pose proof (update_all_frame mask input o) as (_ & _ & _ & _ & S). destruct (S v H) as [S1 _].
  destruct (update_all mask o input) as [[] o1|e o1]; simpl in *; [|exact S1].
  unfold resolve_batch_size. destruct (get_batch_size _); exact S1.
Qed.
Print Assumptions C06_unnamed_untouched_always.

(** ---- concrete objective for examples: one cost function, optim var 0 (name 0), aux var 4. *)
Definition ex_w : world := {|
  v_name := fun v => v; v_dtype_ok := fun _ => true; c_name := fun c => c;
  c_optim := fun c => nth c [[0]; [1]] [];
  c_aux := fun c => nth c [[4]; [5]] [];
  c_weight := fun _ => 0; w_optim := fun _ => []; w_aux := fun _ => [];
  allow_mixed := false |}.
Definition ex_t (rows : list nat) : tensor nat :=
  {| t_dtype := 0; t_dev := 0; t_shape := [1]; t_rows := rows |}.
Definition ex_o : ostate nat :=
  {| reg := run ex_w [Add 0] init;
     store := fun v => if v =? 0 then ex_t [10; 11] else ex_t [20; 21];
     nupd := fun _ => 0; bsize := Some 2; o_dtype := 0; o_dev := 0 |}.
(** error = optim - aux, as a cost function reading both variables would (here: sum) *)
Definition ex_we (c : cid) (st : vid -> tensor nat) : list (list nat) :=
  map (fun p => [fst p + snd p]) (combine (t_rows (st c)) (t_rows (st (c + 4)))).

Example C05_C06_hypotheses_satisfiable :
  built ex_o /\ (forall n, In n (sizes ex_o) -> 0 < n) /\
  exists o', update ex_o [(0, ex_t [1; 2])] (Some [true; false]) = RetV tt o' /\
             t_rows (store o' 0) = [10; 2] /\ bsize o' = Some 2.
Proof.
  split; [exists ex_w, [Add 0]; repeat split; reflexivity|]. split.
  - intros n H. vm_compute in H. decompose [or] H; subst; lia || contradiction.
  - eexists; split; [vm_compute; reflexivity|]. split; reflexivity.
Qed.

(** C07.  With [also_update=False] the optimization variables and all variables not named in
    the input get their tensors back, and the returned value is the error at the temporary tensors.
    Missing: named auxiliary variables (they keep the input, see the refutation) and calls that raise. *)
Theorem C07_error_reverts_partial :
  forall {E F} (we : cid -> (vid -> tensor E) -> list (list F)) (o o' : ostate E) input err,
    built o -> NoDup (map fst input) ->
    error we o (Some input) false = RetV err o' ->
    (forall n v, get_optim_var (reg o) n = Some v -> store o' v = store o v) /\
    (forall v, (forall n t, In (n, t) input -> find_var (reg o) n <> Some v) -> store o' v = store o v) /\
    exists o1, update o input None = RetV tt o1 /\ cat_dim1 (eval_errors we o1) = Some err.
Proof.
  intros E F we o o' input err Hb Hnd H. unfold error in H.
  destruct (update o input None) as [[] o1|e o1] eqn:Eu; [|discriminate].
  destruct (cat_dim1 (eval_errors we o1)) as [err'|] eqn:Ec; [|discriminate].
  destruct (update o1 (save_optim o) None) as [[] o2|e o2] eqn:Er; [|discriminate].
  injection H as <- <-.
  destruct (C06_update_exactly_named o o1 input None Hb Hnd Eu) as (R1 & A1 & B1).
  assert (Hb1 : built o1).
  { destruct Hb as (w & ops & ? & ? & ?). exists w, ops. rewrite R1. auto. }
  pose proof Hb as (w & ops & Hm & Hok & Hr).
  assert (HI : Inv3 w (reg o)) by (rewrite Hr; apply run_Inv3; auto; apply Inv3_init).
  destruct HI as (u & HJ & Hcw & _).
  assert (Hnd2 : NoDup (map fst (save_optim o))).
  { unfold save_optim. rewrite map_map. simpl. exact (J_ndo _ _ _ HJ). }
  destruct (C06_update_exactly_named o1 o2 (save_optim o) None Hb1 Hnd2 Er) as (R2 & A2 & B2).
  assert (Hmeta : forall v, t_shape (store o1 v) = t_shape (store o v) /\ t_dtype (store o1 v) = t_dtype (store o v)).
  { intros v. unfold update in Eu.
    pose proof (update_all_meta None input o v) as Hmm. cbv zeta in Hmm.
    destruct (update_all None o input) as [[] oo|]; [|discriminate]. simpl in Hmm.
    unfold resolve_batch_size in Eu. destruct (get_batch_size _); [|discriminate].
    injection Eu as <-. exact Hmm. }
  assert (Hoptim : forall n v, get_optim_var (reg o) n = Some v -> store o2 v = store o v).
  { intros n v Hv. unfold get_optim_var in Hv.
    destruct (A2 n (store o v) v) as [A3 _].
    - unfold save_optim. apply in_map_iff. exists (n, v). split; [reflexivity|].
      now apply lookup_Some_In.
    - rewrite R1. unfold find_var. now rewrite Hv.
    - destruct (Hmeta v) as [M1 M2]. rewrite var_update_restore in A3 by assumption. congruence. }
  split; [exact Hoptim|]. split; [|eauto].
  intros v Hv.
  destruct (in_dec Nat.eq_dec v (values (optim_vars (reg o)))) as [Hin|Hnin].
  - unfold values in Hin. apply in_map_iff in Hin as ([n x] & Ex & Hin). simpl in Ex; subst x.
    apply (Hoptim n). unfold get_optim_var. apply In_lookup; [exact (J_ndo _ _ _ HJ)|exact Hin].
  - destruct (B2 v) as [B3 _].
    + intros n t Hin Hf. apply Hnin. unfold save_optim in Hin.
      apply in_map_iff in Hin as ([n' x] & Ex & Hin). injection Ex as <- <-.
      unfold values. apply in_map_iff. exists (n', x). split; [|exact Hin]. simpl.
      rewrite R1 in Hf. unfold find_var in Hf.
      rewrite (In_lookup n' x (optim_vars (reg o)) (J_ndo _ _ _ HJ) Hin) in Hf. congruence.
    + destruct (B1 v Hv) as [B4 _]. congruence.
Qed.
Print Assumptions C07_error_reverts_partial.

Example C07_hypotheses_satisfiable :
  built ex_o /\ NoDup (map fst [(0, ex_t [1; 2])]) /\
  exists err o', error ex_we ex_o (Some [(0, ex_t [1; 2])]) false = RetV err o' /\
    err = [[21]; [23]] /\ t_rows (store o' 0) = [10; 11].
Proof.
  split; [exists ex_w, [Add 0]; repeat split; reflexivity|].
  split; [repeat constructor; simpl; tauto|].
  eexists _, _. split; [vm_compute; reflexivity|]. split; reflexivity.
Qed.

(** C07 at full strength is false: an auxiliary variable given in [input_tensors] keeps the
    temporary tensor after [error(..., also_update=False)] returns ... *)
Theorem C07_error_reverts_refuted :
  exists (o o' : ostate nat) (we : cid -> (vid -> tensor nat) -> list (list nat)) input err v,
    built o /\ get_aux_var (reg o) v = Some v /\
    error we o (Some input) false = RetV err o' /\ store o' v <> store o v.
Proof.
  exists ex_o. eexists _, ex_we, [(4, ex_t [7; 8])], _, 4.
  split; [exists ex_w, [Add 0]; repeat split; reflexivity|].
  split; [reflexivity|]. split; [vm_compute; reflexivity|]. vm_compute. discriminate.
Qed.
Print Assumptions C07_error_reverts_refuted.

(** ... and a call whose input changes the batch size of optimization and auxiliary variables
    consistently computes the error but then raises while reverting, leaving the auxiliary variable
    changed and the objective without a batch size. *)
Theorem C07_revert_can_raise_refuted :
  exists (o o' : ostate nat) (we : cid -> (vid -> tensor nat) -> list (list nat)) input,
    built o /\ bsize o = Some 2 /\
    (exists o1 err, update o input None = RetV tt o1 /\ cat_dim1 (eval_errors we o1) = Some err) /\
    error we o (Some input) false = Exc UValueError o' /\ bsize o' = None.
Proof.
  exists ex_o. eexists _, ex_we, [(0, ex_t [1; 2; 3]); (4, ex_t [7; 8; 9])].
  split; [exists ex_w, [Add 0]; repeat split; reflexivity|].
  split; [reflexivity|]. split; [|split; [vm_compute; reflexivity|reflexivity]].
  eexists _, _. split; vm_compute; reflexivity.
Qed.
Print Assumptions C07_revert_can_raise_refuted.

(** C08 (vectorization off).  The error vector is, row by row, the concatenation of the
    weighted errors of the cost functions in the order in which they were added. *)
Theorem C08_error_order :
  forall {E F} (we : cid -> (vid -> tensor E) -> list (list F)) (w : world) (ops : list op) (o o' : ostate E) err,
    allow_mixed w = false -> all_ok w ops init = true -> fresh w ops -> reg o = run w ops init ->
    error we o None true = RetV err o' ->
    o' = o /\
    (forall c, In c (present w ops) -> length (we c (store o)) = length err) /\
    (forall i, nth i err [] = concat (map (fun c => nth i (we c (store o)) []) (present w ops))).
Proof.
  intros E F we w ops o o' err Hm Hok Hfr Hreg H. unfold error in H.
  destruct (cat_dim1 (eval_errors we o)) as [err'|] eqn:Ec; [|discriminate].
  injection H as <- <-. split; [reflexivity|].
  assert (Hv : values (cost_functions (reg o)) = present w ops).
  { rewrite Hreg. assert (HI : Inv w (run w ops init) (present w ops)) by (apply run_Inv; auto; apply Inv_init).
    unfold values. rewrite (I_cf _ _ _ HI), map_map. apply map_id. }
  unfold eval_errors in Ec. rewrite Hv in Ec.
  apply cat_dim1_spec in Ec as (_ & A & B). split.
  - intros c Hc. apply A. apply in_map_iff. eauto.
  - intros i. rewrite B, map_map. reflexivity.
Qed.
Print Assumptions C08_error_order.

(** objective.py 516-527 [dim] *)
Definition objective_dim (cdim : cid -> nat) (cs : list cid) : nat := fold_left (fun a c => a + cdim c) cs 0.

Theorem C08_error_length_is_dim :
  forall {E F} (we : cid -> (vid -> tensor E) -> list (list F)) (cdim : cid -> nat)
    (w : world) (ops : list op) (o o' : ostate E) err,
    allow_mixed w = false -> all_ok w ops init = true -> fresh w ops -> reg o = run w ops init ->
    (forall c row, In row (we c (store o)) -> length row = cdim c) ->
    error we o None true = RetV err o' ->
    forall row, In row err -> length row = objective_dim cdim (present w ops).
Proof.
  intros E F we cdim w ops o o' err Hm Hok Hfr Hreg Hdim H row Hrow.
  destruct (C08_error_order we w ops o o' err Hm Hok Hfr Hreg H) as (_ & A & B).
  apply In_nth with (d := []) in Hrow as (i & Hi & <-).
  rewrite B. unfold objective_dim.
  assert (Hgen : forall cs a, (forall c, In c cs -> length (we c (store o)) = length err) ->
     a + length (concat (map (fun c => nth i (we c (store o)) []) cs)) =
     fold_left (fun a c => a + cdim c) cs a).
  { induction cs as [|c cs IH]; intros a Hcs; simpl; [lia|].
    rewrite app_length. rewrite <- IH by (intros; apply Hcs; simpl; auto).
    rewrite (Hdim c) by (apply nth_In; rewrite Hcs; simpl; auto). lia. }
  rewrite <- (Hgen (present w ops) 0) by exact A. reflexivity.
Qed.
Print Assumptions C08_error_length_is_dim.

Example C08_hypotheses_satisfiable :
  let o := {| reg := run ex_w [Add 1; Add 0] init; store := fun v => ex_t [v; 10 + v];
              nupd := fun _ => 0; bsize := Some 2; o_dtype := 0; o_dev := 0 |} in
  all_ok ex_w [Add 1; Add 0] init = true /\ fresh ex_w [Add 1; Add 0] /\
  error ex_we o None true = RetV [[6; 4]; [26; 24]] o.
Proof.
  cbv zeta. split; [vm_compute; reflexivity|]. split; [|vm_compute; reflexivity].
  unfold fresh; simpl. intuition discriminate.
Qed.

(** Finding: the call is only defined if every cost function's error already has the full batch:
    with vectorization off, a cost function all of whose variables have batch 1 next to one with
    batch 2 makes [error] raise although [update] accepts those tensors. *)
Theorem C08_mixed_batch_error_raises_refuted :
  exists (o o' : ostate nat) (we : cid -> (vid -> tensor nat) -> list (list nat)),
    built o /\ update o [] None = RetV tt o' /\ bsize o' = Some 2 /\
    exists o'', error we o None true = Exc URuntimeError o''.
Proof.
  exists {| reg := run ex_w [Add 1; Add 0] init;
            store := fun v => if (v =? 0) || (v =? 4) then ex_t [v; 10 + v] else ex_t [v];
            nupd := fun _ => 0; bsize := Some 2; o_dtype := 0; o_dev := 0 |}.
  eexists _, ex_we. split; [exists ex_w, [Add 1; Add 0]; repeat split; vm_compute; reflexivity|].
  split; [vm_compute; reflexivity|]. split; [reflexivity|]. eexists. vm_compute. reflexivity.
Qed.
Print Assumptions C08_mixed_batch_error_raises_refuted.
