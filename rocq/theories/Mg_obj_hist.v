(** C73: histories: separation of copies, consistency, refutations. *)
From Coq Require Import Reals List Arith Bool Lia Lra Psatz.
Import ListNotations.
From Verif Require Import RSum Mg_model Mg_spec Mg_inv Mg_props Mg_obj Mg_obj_props Mg_obj_new.

(** ---- separation ---- *)
(** a set of objects *)
Record region := mkReg { RT : nat -> Prop; RV : nat -> Prop; RG : nat -> Prop }.
(** no object outside the region refers into it *)
Definition sealed (R : region) (s : st) : Prop :=
  (forall t, RT R t -> t < length (tens s)) /\ (forall v, RV R v -> v < length (vars s)) /\ (forall g, RG R g -> g < length (gs s))
  /\ (forall v, v < length (vars s) -> ~ RV R v -> ~ RT R (v_tensor (var_of s v)))
  /\ (forall g, g < length (gs s) -> ~ RG R g -> ~ RT R (g_prec (gauss_of s g)) /\ forall v, In v (g_mean (gauss_of s g)) -> ~ RV R v).
(** the objects of the region have the same contents *)
Definition same_in (R : region) (s s' : st) : Prop :=
  (forall t, RT R t -> tensor_of s' t = tensor_of s t) /\ (forall v, RV R v -> var_of s' v = var_of s v)
  /\ (forall g, RG R g -> gauss_of s' g = gauss_of s g).
Definition outside (R : region) (o : op) : Prop :=
  match o with
  | NewTensor _ => True
  | NewVar _ t => ~ RT R t
  | Write t _ => ~ RT R t
  | VarUpdate v t => ~ RV R v /\ ~ RT R t
  | New mean p => (forall v, In v mean -> ~ RV R v) /\ (forall t, p = Some t -> ~ RT R t)
  | Update g mean p => ~ RG R g /\ (forall v, In v mean -> ~ RV R v) /\ ~ RT R p
  | Copy g => ~ RG R g
  | To g _ _ => ~ RG R g
  end.

Definition Fr (R : region) (s s' : st) : Prop := sealed R s' /\ same_in R s s'
  /\ length (tens s) <= length (tens s') /\ length (vars s) <= length (vars s').
Lemma same_refl' R s : same_in R s s. Proof. repeat split. Qed.
Lemma Fr_refl R s : sealed R s -> Fr R s s.
Proof. intro H. split; [exact H|]. split; [apply same_refl'|]. lia. Qed.
Lemma Fr_trans R a b c : Fr R a b -> Fr R b c -> Fr R a c.
Proof.
  intros (_ & (T1 & V1 & G1) & L1 & L2) (S2 & (T2 & V2 & G2) & L3 & L4). split; [exact S2|]. split; [|lia].
  split; [|split]; intros; [rewrite T2, T1|rewrite V2, V1|rewrite G2, G1]; auto.
Qed.
Lemma var_set s v t w : var_of (set_var s v t) w = var_of s w \/ (w = v /\ var_of (set_var s v t) w = mkVar (v_dof (var_of s v)) t).
Proof.
  destruct (Nat.eq_dec v w) as [<-|N]; [|left; now apply var_set_neq].
  destruct (lt_dec v (length (vars s))) as [L|L]; [right; split; [reflexivity|now apply var_set_eq]|].
  left. unfold var_of, set_var. cbn [vars]. rewrite !nth_overflow by (rewrite ?replace_length; lia). reflexivity.
Qed.
Lemma Fr_set_var R s v t : sealed R s -> ~ RV R v -> ~ RT R t -> Fr R s (set_var s v t).
Proof.
  intros (S1 & S2 & S3 & S4 & S5) NV NT.
  assert (L : length (vars (set_var s v t)) = length (vars s)) by (unfold set_var; cbn [vars]; apply replace_length).
  split; [|split; [|split; [reflexivity|lia]]].
  - split; [exact S1|]. split; [rewrite L; exact S2|]. split; [exact S3|]. split; [|exact S5].
    rewrite L. intros w Hw NW. destruct (var_set s v t w) as [->|(-> & ->)]; [now apply S4|exact NT].
  - split; [reflexivity|]. split; [|reflexivity]. intros w Hw. destruct (var_set s v t w) as [E|(-> & _)]; [exact E|contradiction].
Qed.
Lemma Fr_new_tensor R s x : sealed R s -> Fr R s (fst (new_tensor s x)).
Proof.
  intros (S1 & S2 & S3 & S4 & S5). unfold new_tensor. cbn [fst]. split; [|split; [|split; cbn [tens vars]; rewrite ?app_length; lia]].
  - split; [|split; [exact S2|split; [exact S3|split; [exact S4|exact S5]]]]. intros t Ht. cbn [tens]. rewrite app_length. specialize (S1 t Ht). lia.
  - split; [|split; reflexivity]. intros t Ht. unfold tensor_of. cbn [tens]. apply nth_app_old. now apply S1.
Qed.
Lemma nth_app_end {A} (l : list A) x i d : i < length (l ++ [x]) -> nth i (l ++ [x]) d = nth i l d /\ i < length l \/ i = length l /\ nth i (l ++ [x]) d = x.
Proof.
  rewrite app_length. cbn. intro H. destruct (Nat.eq_dec i (length l)) as [->|N]; [right; split; [reflexivity|apply nth_app_new]|].
  left. split; [apply nth_app_old|]; lia.
Qed.
Lemma Fr_new_var R s x : sealed R s -> ~ RT R (v_tensor x) -> Fr R s (fst (new_var s x)).
Proof.
  intros (S1 & S2 & S3 & S4 & S5) NT. unfold new_var. cbn [fst]. split; [|split; [|split; cbn [tens vars]; rewrite ?app_length; lia]].
  - split; [exact S1|]. split; [intros v Hv; cbn [vars]; rewrite app_length; specialize (S2 v Hv); lia|]. split; [exact S3|]. split; [|exact S5].
    intros v Hv NV. cbn [vars] in Hv. unfold var_of. cbn [vars].
    destruct (nth_app_end (vars s) x v (mkVar 0 0) Hv) as [[-> L]|[_ ->]]; [now apply S4|exact NT].
  - split; [reflexivity|]. split; [|reflexivity]. intros v Hv. unfold var_of. cbn [vars]. apply nth_app_old. now apply S2.
Qed.
Lemma Fr_write R s t x : sealed R s -> ~ RT R t -> Fr R s (mkSt (replace t x (tens s)) (vars s) (gs s)).
Proof.
  intros (S1 & S2 & S3 & S4 & S5) NT. split; [|split; [|cbn [tens vars]; rewrite replace_length; lia]].
  - split; [|split; [exact S2|split; [exact S3|split; [exact S4|exact S5]]]]. cbn [tens]. rewrite replace_length. exact S1.
  - split; [|split; reflexivity]. intros u Hu. unfold tensor_of. cbn [tens]. apply nth_replace_neq. intros ->. contradiction.
Qed.
Lemma Fr_add_gauss R s x : sealed R s -> ~ RT R (g_prec x) -> (forall v, In v (g_mean x) -> ~ RV R v) -> Fr R s (mkSt (tens s) (vars s) (gs s ++ [x])).
Proof.
  intros (S1 & S2 & S3 & S4 & S5) NT NM. split; [|split; [|cbn; lia]].
  - split; [exact S1|]. split; [exact S2|]. split; [intros g Hg; cbn [gs]; rewrite app_length; specialize (S3 g Hg); lia|]. split; [exact S4|].
    intros g Hg NG. cbn [gs] in Hg. unfold gauss_of. cbn [gs].
    destruct (nth_app_end (gs s) x g null_gauss Hg) as [[-> L]|[_ ->]]; [now apply S5|split; assumption].
  - split; [reflexivity|]. split; [reflexivity|]. intros g Hg. unfold gauss_of. cbn [gs]. apply nth_app_old. now apply S3.
Qed.
Lemma gauss_set s g x h : g < length (gs s) -> gauss_of (set_gauss s g x) h = if h =? g then x else gauss_of s h.
Proof.
  intro H. unfold gauss_of, set_gauss. cbn [gs]. destruct (Nat.eqb_spec h g) as [->|N]; [now apply nth_replace_eq|apply nth_replace_neq; congruence].
Qed.
Lemma Fr_set_gauss R s g x : sealed R s -> g < length (gs s) -> ~ RG R g -> ~ RT R (g_prec x) -> (forall v, In v (g_mean x) -> ~ RV R v) -> Fr R s (set_gauss s g x).
Proof.
  intros (S1 & S2 & S3 & S4 & S5) Hg NG NT NM.
  assert (L : length (gs (set_gauss s g x)) = length (gs s)) by (unfold set_gauss; cbn [gs]; apply replace_length).
  split; [|split; [|cbn; lia]].
  - split; [exact S1|]. split; [exact S2|]. split; [rewrite L; exact S3|]. split; [exact S4|]. rewrite L. intros h Hh NH.
    rewrite gauss_set by exact Hg. destruct (h =? g); [split; assumption|now apply S5].
  - split; [reflexivity|]. split; [reflexivity|]. intros h Hh. rewrite gauss_set by exact Hg.
    destruct (Nat.eqb_spec h g) as [->|_]; [contradiction|reflexivity].
Qed.

Definition result {A} (f : A -> st) (o : out A) : st := match o with Ok a => f a | Raise s => s end.
Lemma Fr_update_means R : forall self mean s, sealed R s -> (forall v, In v self -> ~ RV R v) -> (forall v, In v mean -> ~ RV R v /\ v < length (vars s)) ->
  Fr R s (result (fun s => s) (update_means s self mean)).
Proof.
  induction self as [|a self IH]; intros [|b mean] s S NS NM; cbn [update_means result]; try now apply Fr_refl.
  destruct (var_update s a _) as [s1|] eqn:E; [|now apply Fr_refl]. apply var_update_some in E. destruct E as (_ & ->).
  assert (F : Fr R s (set_var s a (v_tensor (var_of s b)))).
  { apply Fr_set_var; [exact S|apply NS; now left|]. destruct S as (_ & _ & _ & S4 & _). destruct (NM b ltac:(now left)). now apply S4. }
  eapply Fr_trans; [exact F|]. apply IH; [apply F|intros; apply NS; now right|]. intros v Hv. destruct (NM v ltac:(now right)) as (X & Y).
  split; [exact X|]. destruct F as (_ & _ & _ & L). lia.
Qed.
Lemma Fr_update R s g mean p : sealed R s -> (forall v, In v (g_mean g) -> ~ RV R v) -> (forall v, In v mean -> ~ RV R v /\ v < length (vars s)) ->
  Fr R s (result fst (update s g mean p)).
Proof.
  intros S NS NM. unfold update. destruct (negb _); [now apply Fr_refl|]. pose proof (Fr_update_means R (g_mean g) mean s S NS NM) as F.
  destruct (update_means s (g_mean g) mean) as [s'|s']; [|exact F]. cbn [result] in F. destruct mean, (g_mean g); try exact F. cbv zeta.
  repeat (destruct (negb _); [exact F|]). exact F.
Qed.
Lemma update_gauss s g mean p s' x : update s g mean p = Ok (s', x) -> x = mkGauss (g_mean g) (g_dof g) p.
Proof.
  unfold update. destruct (negb _); [discriminate|]. destruct (update_means s (g_mean g) mean) as [s1|s1]; [|discriminate].
  destruct mean, (g_mean g) eqn:E; try discriminate. cbv zeta. repeat (destruct (negb _); [discriminate|]). intro H. injection H as _ <-. reflexivity.
Qed.
Lemma Fr_new R s mean p : sealed R s -> (forall v, In v mean -> ~ RV R v /\ v < length (vars s)) -> (forall t, p = Some t -> ~ RT R t) ->
  Fr R s (result fst (gauss_new s mean p)).
Proof.
  intros S NM NP. unfold gauss_new. cbv zeta. set (n := total_dof s mean).
  assert (Go : forall s1 t, Fr R s s1 -> ~ RT R t ->
    Fr R s (result fst (match update s1 (mkGauss mean n 0) mean t with Raise s' => Raise s' | Ok (s', g) => Ok (mkSt (tens s') (vars s') (gs s' ++ [g]), length (gs s')) end))).
  { intros s1 t F NT. eapply Fr_trans; [exact F|]. assert (S1 : sealed R s1) by apply F.
    assert (U : Fr R s1 (result fst (update s1 (mkGauss mean n 0) mean t))).
    { apply Fr_update; [exact S1|intros v Hv; now apply NM|]. intros v Hv. destruct (NM v Hv). split; [assumption|]. destruct F as (_ & _ & _ & L). lia. }
    destruct (update s1 (mkGauss mean n 0) mean t) as [[s' x]|s'] eqn:E; [|exact U]. cbn [result fst] in *.
    eapply Fr_trans; [exact U|]. apply update_gauss in E. subst x. cbn [g_mean g_dof]. apply Fr_add_gauss; [apply U|exact NT|]. intros v Hv. now apply NM. }
  destruct p as [t|]; [apply Go; [now apply Fr_refl|now apply NP]|].
  destruct mean as [|m0 mean]; [now apply Fr_refl|]. unfold new_tensor. apply Go; [now apply (Fr_new_tensor R s)|].
  intro Q. destruct S as (S1 & _). specialize (S1 _ Q). lia.
Qed.
Lemma Fr_copy_means R : forall mean s, sealed R s -> Fr R s (fst (copy_means s mean)) /\
  (forall v, In v (snd (copy_means s mean)) -> ~ RV R v /\ v < length (vars (fst (copy_means s mean)))).
Proof.
  induction mean as [|v mean IH]; intros s S; [split; [now apply Fr_refl|contradiction]|].
  cbn [copy_means]. destruct (var_copy s v) as [s1 w] eqn:E. destruct (copy_means s1 mean) as [s2 ws] eqn:E2. cbn [fst snd].
  assert (F : Fr R s s1 /\ ~ RV R w /\ w < length (vars s1)).
  { unfold var_copy in E. destruct (new_tensor s (held s v)) as [s0 t] eqn:E0. 
    assert (F0 : Fr R s s0) by (pose proof (Fr_new_tensor R s (held s v) S) as Q; rewrite E0 in Q; exact Q).
    unfold new_tensor in E0. injection E0 as E0 <-. 
    assert (NT : ~ RT R (length (tens s))) by (intro Q; destruct S as (S1 & _); specialize (S1 _ Q); lia).
    set (x := mkVar (v_dof (var_of s v)) (length (tens s))) in E. pose proof (Fr_new_var R s0 x (proj1 F0) NT) as F1.
    split; [eapply Fr_trans; [exact F0|]; rewrite E in F1; exact F1|].
    unfold new_var in E. injection E as <- <-. cbn [vars]. rewrite app_length. cbn. split; [|lia]. intro Q.
    destruct F0 as ((_ & S2 & _) & _). specialize (S2 _ Q). lia. }
  destruct F as (F & NW & LW). destruct (IH s1 (proj1 F)) as (F2 & N2). rewrite E2 in F2, N2. cbn [fst snd] in F2, N2.
  split; [eapply Fr_trans; eassumption|]. intros u [<-|Hu]; [|now apply N2]. split; [exact NW|]. destruct F2 as (_ & _ & _ & L). lia.
Qed.
Lemma Fr_copy R s g : sealed R s -> Fr R s (result fst (gauss_copy s g)).
Proof.
  intros S. unfold gauss_copy. destruct (Fr_copy_means R (g_mean (gauss_of s g)) s S) as (F1 & N1).
  destruct (copy_means s (g_mean (gauss_of s g))) as [s1 ws]. cbn [fst snd] in *.
  set (y := tensor_of s1 _). pose proof (Fr_new_tensor R s1 y (proj1 F1)) as F2. unfold new_tensor in *. cbn [fst] in F2.
  eapply Fr_trans; [exact F1|]. eapply Fr_trans; [exact F2|]. apply Fr_new; [apply F2|exact N1|].
  intros t E. injection E as <-. intro Q. destruct F1 as ((S1 & _) & _). specialize (S1 _ Q). lia.
Qed.
Lemma Fr_tensor_to R s dt dev t : sealed R s -> ~ RT R t -> Fr R s (fst (tensor_to s dt dev t)) /\ ~ RT R (snd (tensor_to s dt dev t)).
Proof.
  intros S NT. unfold tensor_to. destruct (_ && _); [split; [now apply Fr_refl|exact NT]|]. split; [now apply Fr_new_tensor|].
  cbn. intro Q. destruct S as (S1 & _). specialize (S1 _ Q). lia.
Qed.
Lemma Fr_var_to R s dt dev v : sealed R s -> ~ RV R v -> v < length (vars s) -> Fr R s (var_to s dt dev v).
Proof.
  intros S NV L. unfold var_to. assert (NT : ~ RT R (v_tensor (var_of s v))) by (destruct S as (_ & _ & _ & S4 & _); now apply S4).
  destruct (Fr_tensor_to R s dt dev _ S NT) as (F & N). destruct (tensor_to s dt dev (v_tensor (var_of s v))) as [s1 t]. cbn [fst snd] in *.
  eapply Fr_trans; [exact F|]. apply Fr_set_var; [apply F|exact NV|exact N].
Qed.
Lemma Fr_to R s g dt dev : sealed R s -> wf s -> g < length (gs s) -> ~ RG R g -> Fr R s (gauss_to s g dt dev).
Proof.
  intros S W Hg NG. unfold gauss_to. cbv zeta. destruct (proj2 W g Hg) as (WM & _ & _).
  assert (NM : forall v, In v (g_mean (gauss_of s g)) -> ~ RV R v) by (destruct S as (_ & _ & _ & _ & S5); now apply S5).
  assert (NP : ~ RT R (g_prec (gauss_of s g))) by (destruct S as (_ & _ & _ & _ & S5); now apply S5).
  assert (Gen : forall l s, sealed R s -> (forall v, In v l -> ~ RV R v /\ v < length (vars s)) ->
    Fr R s (fold_left (fun s v => var_to s dt dev v) l s) /\ gs (fold_left (fun s v => var_to s dt dev v) l s) = gs s).
  { clear. induction l as [|v l IH]; intros s S H; [split; [now apply Fr_refl|reflexivity]|]. cbn [fold_left].
    destruct (H v ltac:(now left)) as (N & L). pose proof (Fr_var_to R s dt dev v S N L) as F.
    destruct (IH (var_to s dt dev v)) as (F2 & E2); [apply F| |].
    - intros w Hw. destruct (H w ltac:(now right)). split; [assumption|]. destruct F as (_ & _ & _ & X). lia.
    - split; [eapply Fr_trans; eassumption|]. rewrite E2. unfold var_to, tensor_to. destruct (_ && _); reflexivity. }
  destruct (Gen (g_mean (gauss_of s g)) s S ltac:(auto)) as (F1 & E1). set (s1 := fold_left _ _ _) in *. clearbody s1.
  destruct (Fr_tensor_to R s1 dt dev _ (proj1 F1) NP) as (F2 & N2).
  assert (E2 : gs (fst (tensor_to s1 dt dev (g_prec (gauss_of s g)))) = gs s1) by (unfold tensor_to; destruct (_ && _); reflexivity).
  destruct (tensor_to s1 dt dev (g_prec (gauss_of s g))) as [s2 p]. cbn [fst snd] in *.
  eapply Fr_trans; [exact F1|]. eapply Fr_trans; [exact F2|]. apply Fr_set_gauss; [apply F2|rewrite E2, E1; exact Hg|exact NG|exact N2|exact NM].
Qed.

(** ---- well-formedness of reachable states ---- *)
Definition Wf (s s' : st) : Prop := wf s' /\ length (tens s) <= length (tens s') /\ length (vars s) <= length (vars s').
Lemma Wf_refl s : wf s -> Wf s s. Proof. intro; split; [assumption|lia]. Qed.
Lemma Wf_trans a b c : Wf a b -> Wf b c -> Wf a c.
Proof. intros (_ & ? & ?) (? & ? & ?). split; [assumption|lia]. Qed.
Lemma total_ext s s' l : (forall v, In v l -> v_dof (var_of s' v) = v_dof (var_of s v)) -> total_dof s' l = total_dof s l.
Proof. intro H. unfold total_dof. f_equal. apply map_ext_in. exact H. Qed.
Lemma dof_set s v t w : v_dof (var_of (set_var s v t) w) = v_dof (var_of s w).
Proof. destruct (var_set s v t w) as [->|(-> & ->)]; reflexivity. Qed.
Lemma Wf_set_var s v t : wf s -> t < length (tens s) -> Wf s (set_var s v t).
Proof.
  intros [W1 W2] Ht. assert (L : length (vars (set_var s v t)) = length (vars s)) by (unfold set_var; cbn [vars]; apply replace_length).
  split; [|rewrite L; cbn [tens set_var]; lia]. split.
  - rewrite L. intros w Hw. change (tens (set_var s v t)) with (tens s). destruct (var_set s v t w) as [->|(-> & ->)]; [now apply W1|exact Ht].
  - intros g Hg. change (gauss_of (set_var s v t) g) with (gauss_of s g). rewrite L. destruct (W2 g Hg) as (A & B & C). split; [exact A|]. split; [exact B|].
    rewrite C. symmetry. apply total_ext. intros w _. apply dof_set.
Qed.
Lemma Wf_new_tensor s x : wf s -> Wf s (fst (new_tensor s x)).
Proof.
  intros [W1 W2]. unfold new_tensor. cbn [fst]. split; [|cbn [tens vars]; rewrite app_length; lia]. split; cbn [tens vars gs]; rewrite ?app_length.
  - intros v Hv. specialize (W1 v Hv). change (var_of _ v) with (var_of s v). lia.
  - intros g Hg. destruct (W2 g Hg) as (A & B & C). change (gauss_of _ g) with (gauss_of s g). split; [exact A|]. split; [lia|exact C].
Qed.
Lemma Wf_new_var s x : wf s -> v_tensor x < length (tens s) -> Wf s (fst (new_var s x)).
Proof.
  intros [W1 W2] Hx. unfold new_var. cbn [fst]. split; [|cbn [tens vars]; rewrite app_length; lia]. split; cbn [tens vars gs].
  - intros v Hv. unfold var_of. cbn [vars]. destruct (nth_app_end (vars s) x v (mkVar 0 0) Hv) as [[-> L]|[_ ->]]; [now apply W1|exact Hx].
  - intros g Hg. destruct (W2 g Hg) as (A & B & C). change (gauss_of _ g) with (gauss_of s g). rewrite app_length.
    split; [intros v Hv; specialize (A v Hv); lia|]. split; [exact B|]. rewrite C. symmetry. apply total_ext.
    intros v Hv. unfold var_of. cbn [vars]. rewrite nth_app_old by now apply A. reflexivity.
Qed.
Lemma Wf_add_gauss s x : wf s -> g_prec x < length (tens s) -> (forall v, In v (g_mean x) -> v < length (vars s)) -> g_dof x = total_dof s (g_mean x) ->
  Wf s (mkSt (tens s) (vars s) (gs s ++ [x])).
Proof.
  intros [W1 W2] HP HM HD. split; [|cbn; lia]. split; [exact W1|]. intros g Hg. cbn [gs] in Hg. unfold gauss_of. cbn [gs].
  destruct (nth_app_end (gs s) x g null_gauss Hg) as [[-> L]|[_ ->]]; [exact (W2 g L)|]. split; [exact HM|]. split; [exact HP|exact HD].
Qed.
Lemma Wf_set_gauss s g x : wf s -> g < length (gs s) -> g_prec x < length (tens s) -> (forall v, In v (g_mean x) -> v < length (vars s)) ->
  g_dof x = total_dof s (g_mean x) -> Wf s (set_gauss s g x).
Proof.
  intros [W1 W2] Hg HP HM HD. split; [|cbn; lia]. split; [exact W1|]. intros h Hh. rewrite gauss_set by exact Hg.
  assert (L : length (gs (set_gauss s g x)) = length (gs s)) by (unfold set_gauss; cbn [gs]; apply replace_length). rewrite L in Hh.
  destruct (h =? g); [|exact (W2 h Hh)]. split; [exact HM|]. split; [exact HP|exact HD].
Qed.
(** the part of the state the loop does not touch *)
Lemma update_means_frame : forall self mean s s', result (fun s => s) (update_means s self mean) = s' ->
  tens s' = tens s /\ gs s' = gs s /\ length (vars s') = length (vars s) /\ (forall v, v_dof (var_of s' v) = v_dof (var_of s v))
  /\ (forall v, ~ In v self -> var_of s' v = var_of s v).
Proof.
  induction self as [|a self IH]; intros [|b mean] s s' E; cbn [update_means result] in E; try (subst; repeat split; reflexivity).
  destruct (var_update s a _) as [s1|] eqn:U; [|cbn [result] in E; subst; repeat split; reflexivity]. apply var_update_some in U. destruct U as (_ & ->).
  destruct (IH mean _ _ E) as (A & B & C & D & G). split; [exact A|]. split; [exact B|]. split; [rewrite C; unfold set_var; cbn [vars]; apply replace_length|].
  split; [intro v; rewrite D; apply dof_set|]. intros v Hv. cbn [In] in Hv. rewrite G by tauto. apply var_set_neq. tauto.
Qed.
Lemma update_frame s g mean p s' : result fst (update s g mean p) = s' ->
  tens s' = tens s /\ gs s' = gs s /\ length (vars s') = length (vars s) /\ (forall v, v_dof (var_of s' v) = v_dof (var_of s v))
  /\ (forall v, ~ In v (g_mean g) -> var_of s' v = var_of s v).
Proof.
  intro E. assert (X : s' = s \/ s' = result (fun s => s) (update_means s (g_mean g) mean)).
  { revert E. unfold update. destruct (negb _); [intros <-; now left|]. destruct (update_means s (g_mean g) mean) as [s1|s1]; [|intros <-; now right].
    intros <-. right. cbn [result]. destruct mean, (g_mean g); try reflexivity. cbv zeta. repeat (destruct (negb _); [reflexivity|]). reflexivity. }
  destruct X as [X|X]; [rewrite X; repeat split; reflexivity|]. eapply update_means_frame. symmetry. exact X.
Qed.
Lemma Wf_update_means : forall self mean s, wf s -> (forall v, In v mean -> v < length (vars s)) ->
  Wf s (result (fun s => s) (update_means s self mean)).
Proof.
  induction self as [|a self IH]; intros [|b mean] s W H; cbn [update_means result]; try now apply Wf_refl.
  destruct (var_update s a _) as [s1|] eqn:U; [|now apply Wf_refl]. apply var_update_some in U. destruct U as (_ & ->).
  pose proof (Wf_set_var s a (v_tensor (var_of s b)) W ltac:(apply W, H; now left)) as F.
  eapply Wf_trans; [exact F|]. apply IH; [apply F|]. intros v Hv. specialize (H v ltac:(now right)). destruct F as (_ & _ & L). lia.
Qed.
Lemma Wf_update s g mean p : wf s -> (forall v, In v mean -> v < length (vars s)) -> Wf s (result fst (update s g mean p)).
Proof.
  intros W H. unfold update. destruct (negb _); [now apply Wf_refl|]. pose proof (Wf_update_means (g_mean g) mean s W H) as F.
  destruct (update_means s (g_mean g) mean) as [s1|s1]; [|exact F]. cbn [result] in F.
  destruct mean, (g_mean g); try exact F. cbv zeta. repeat (destruct (negb _); [exact F|]). exact F.
Qed.
Lemma Wf_new s mean p : wf s -> op_ok s (New mean p) -> Wf s (result fst (gauss_new s mean p)).
Proof.
  intros W (HM & HP). pose proof (C73_new s mean p W (conj HM HP)) as C. destruct (gauss_new s mean p) as [[s' g]|s']; cbn [result fst]; [|destruct C as (-> & _); now apply Wf_refl].
  destruct C as (EG & V & T & G & M & D & P & Q & CS). subst g. set (x := gauss_of s' (length (gs s))) in *.
  assert (LT : length (tens s) <= length (tens s')) by (pose proof (f_equal (@length _) T) as Z; rewrite firstn_length in Z; lia).
  assert (W' : wf (mkSt (tens s') (vars s) (gs s))).
  { destruct W as [W1 W2]. split; cbn [tens vars gs].
    - intros v Hv. specialize (W1 v Hv). change (var_of _ v) with (var_of s v). lia.
    - intros g Hg. change (gauss_of _ g) with (gauss_of s g). destruct (W2 g Hg) as (A & B & C). split; [exact A|]. split; [lia|exact C]. }
  assert (ES : s' = mkSt (tens s') (vars s) (gs s ++ [x])) by (apply st_ext; [reflexivity|exact V|exact G]).
  assert (PB : g_prec x < length (tens s')).
  { destruct (le_lt_dec (length (tens s')) (g_prec x)) as [O|O]; [|exact O]. exfalso. destruct CS as (m0 & r & _ & (SH & _)).
    unfold tensor_of in SH. rewrite nth_overflow in SH by exact O. discriminate SH. }
  split; [|split; [exact LT|rewrite V; lia]]. rewrite ES. apply (Wf_add_gauss _ x W').
  - cbn [tens]. exact PB.
  - cbn [vars]. rewrite M. exact HM.
  - rewrite M, D. reflexivity.
Qed.
Lemma Wf_var_to s dt dev v : wf s -> v < length (vars s) -> Wf s (var_to s dt dev v).
Proof.
  intros W L. unfold var_to, tensor_to. destruct (_ && _).
  - apply Wf_set_var; [exact W|]. now apply W.
  - pose proof (Wf_new_tensor s (mkTns dt dev (t_shape (tensor_of s (v_tensor (var_of s v)))) (t_val (tensor_of s (v_tensor (var_of s v))))) W) as F.
    unfold new_tensor in *. cbn [fst] in F. eapply Wf_trans; [exact F|]. apply Wf_set_var; [apply F|]. cbn [tens]. rewrite app_length. cbn. lia.
Qed.
(** all of a list of variables are converted, and nothing else *)
Definition conv (dt dev : nat) (x : tns) : tns := mkTns dt dev (t_shape x) (t_val x).
Lemma conv_id dt dev x : t_dtype x = dt -> t_dev x = dev -> conv dt dev x = x.
Proof. destruct x; cbn; now intros -> ->. Qed.
Lemma var_to_spec s dt dev v : wf s -> v < length (vars s) ->
  (exists e, tens (var_to s dt dev v) = tens s ++ e) /\ gs (var_to s dt dev v) = gs s /\ length (vars (var_to s dt dev v)) = length (vars s)
  /\ (forall w, v_dof (var_of (var_to s dt dev v) w) = v_dof (var_of s w))
  /\ held (var_to s dt dev v) v = conv dt dev (held s v) /\ (forall w, w <> v -> var_of (var_to s dt dev v) w = var_of s w).
Proof.
  intros W L. unfold var_to, tensor_to. destruct (_ && _) eqn:B.
  - apply andb_true_iff in B. destruct B as [B1 B2]. apply Nat.eqb_eq in B1. apply Nat.eqb_eq in B2. rewrite set_var_self.
    split; [exists []; now rewrite app_nil_r|]. repeat split. symmetry. now apply conv_id.
  - unfold new_tensor. set (x := mkTns _ _ _ _). set (s1 := mkSt _ _ _). assert (L1 : v < length (vars s1)) by exact L.
    split; [exists [x]; reflexivity|]. split; [reflexivity|]. split; [unfold set_var; cbn [vars]; apply replace_length|]. split; [intro w; rewrite dof_set; reflexivity|]. split.
    + unfold held at 1. rewrite var_set_eq by exact L1. cbn [v_tensor]. unfold tensor_of, set_var, s1. cbn [tens]. rewrite nth_app_new. reflexivity.
    + intros w N. rewrite var_set_neq by congruence. reflexivity.
Qed.
Lemma to_fold_spec dt dev : forall l s, wf s -> (forall v, In v l -> v < length (vars s)) ->
  let s' := fold_left (fun s v => var_to s dt dev v) l s in
  wf s' /\ (exists e, tens s' = tens s ++ e) /\ gs s' = gs s /\ length (vars s') = length (vars s) /\ (forall w, v_dof (var_of s' w) = v_dof (var_of s w))
  /\ (forall v, In v l -> held s' v = conv dt dev (held s v)) /\ (forall w, ~ In w l -> var_of s' w = var_of s w).
Proof.
  induction l as [|v l IH]; intros s W H; cbv zeta; cbn [fold_left]; [split; [exact W|]; split; [exists []; now rewrite app_nil_r|repeat split; try contradiction]|].
  assert (HV : v < length (vars s)) by (apply H; now left).
  destruct (var_to_spec s dt dev v W HV) as ((e & T) & G & L & D & C & N). pose proof (Wf_var_to s dt dev v W HV) as W1.
  set (s1 := var_to s dt dev v) in *. clearbody s1. destruct (IH s1 (proj1 W1)) as (W2 & (e2 & T2) & G2 & L2 & D2 & C2 & N2); [intros w Hw; rewrite L; apply H; now right|].
  set (s2 := fold_left _ _ _) in *. clearbody s2. split; [exact W2|]. split; [exists (e ++ e2); rewrite T2, T, app_assoc; reflexivity|]. split; [congruence|]. split; [congruence|].
  split; [intro w; now rewrite D2, D|]. split.
  - intros w Hw. destruct (Nat.eq_dec w v) as [->|NE].
    + destruct (in_dec Nat.eq_dec v l) as [I|I].
      * rewrite C2 by exact I. rewrite C. reflexivity.
      * unfold held at 1. rewrite N2 by exact I. unfold tensor_of. rewrite T2. rewrite nth_app_old; [exact C|]. apply (proj1 W1). rewrite L. exact HV.
    + destruct Hw as [Hw|Hw]; [congruence|]. rewrite C2 by exact Hw. f_equal. unfold held. rewrite N by exact NE. unfold tensor_of. rewrite T. apply nth_app_old. apply W, H. now right.
  - intros w Hw. cbn [In] in Hw. rewrite N2 by tauto. apply N. intros ->. tauto.
Qed.
Lemma to_spec s g dt dev : wf s -> g < length (gs s) -> let s' := gauss_to s g dt dev in let x := gauss_of s g in
  wf s' /\ length (tens s) <= length (tens s') /\ length (vars s') = length (vars s) /\ length (gs s') = length (gs s)
  /\ (forall t, t < length (tens s) -> tensor_of s' t = tensor_of s t)
  /\ (forall v, In v (g_mean x) -> held s' v = conv dt dev (held s v)) /\ (forall w, ~ In w (g_mean x) -> var_of s' w = var_of s w)
  /\ (forall w, v_dof (var_of s' w) = v_dof (var_of s w))
  /\ (forall h, h <> g -> gauss_of s' h = gauss_of s h)
  /\ g_mean (gauss_of s' g) = g_mean x /\ g_dof (gauss_of s' g) = g_dof x
  /\ tensor_of s' (g_prec (gauss_of s' g)) = conv dt dev (tensor_of s (g_prec x)).
Proof.
  intros W Hg s' x. destruct (proj2 W g Hg) as (WM & WP & WD). fold x in WM, WP, WD.
  destruct (to_fold_spec dt dev (g_mean x) s W WM) as (W1 & (e & T1) & G1 & L1 & D1 & C1 & N1).
  unfold s', gauss_to. fold x. cbv zeta. set (s1 := fold_left _ _ _) in *. clearbody s1.
  assert (TP : tensor_of s1 (g_prec x) = tensor_of s (g_prec x)) by (unfold tensor_of; rewrite T1; now apply nth_app_old).
  assert (LT1 : length (tens s) <= length (tens s1)) by (rewrite T1, app_length; lia).
  destruct (tensor_to s1 dt dev (g_prec x)) as [s2 p] eqn:ET.
  assert (X : (exists e2, tens s2 = tens s1 ++ e2) /\ vars s2 = vars s1 /\ gs s2 = gs s1 /\ p < length (tens s2) /\ tensor_of s2 p = conv dt dev (tensor_of s (g_prec x))).
  { revert ET. unfold tensor_to. rewrite TP. destruct (_ && _) eqn:B; intro ET; injection ET as <- <-.
    - apply andb_true_iff in B. destruct B as [B1 B2]. apply Nat.eqb_eq in B1. apply Nat.eqb_eq in B2.
      split; [exists []; now rewrite app_nil_r|]. split; [reflexivity|]. split; [reflexivity|]. split; [lia|]. rewrite TP. symmetry. now apply conv_id.
    - split; [eexists; reflexivity|]. split; [reflexivity|]. split; [reflexivity|]. split; [cbn [tens]; rewrite app_length; cbn; lia|].
      unfold tensor_of. cbn [tens]. rewrite nth_app_new. reflexivity. }
  destruct X as ((e2 & T2) & V2 & G2 & P2 & X2).
  assert (W2 : wf s2).
  { destruct W1 as [A B]. split.
    - rewrite V2. intros v Hv. specialize (A v Hv). unfold var_of in *. rewrite V2, T2, app_length. lia.
    - rewrite G2. intros h Hh. specialize (B h Hh). unfold gauss_of in *. rewrite G2, V2, T2, app_length. destruct B as (B1 & B2 & B3). split; [exact B1|]. split; [lia|].
      rewrite B3. apply total_ext. intros v _. unfold var_of. now rewrite V2. }
  set (y := mkGauss (g_mean x) (g_dof x) p). assert (Hg2 : g < length (gs s2)) by (rewrite G2, G1; exact Hg).
  pose proof (Wf_set_gauss s2 g y W2 Hg2 P2) as W3. cbn [g_mean g_dof y] in W3.
  assert (OT : forall t, t < length (tens s) -> tensor_of s2 t = tensor_of s t).
  { intros t Ht. unfold tensor_of. rewrite T2, T1. rewrite !nth_app_old by (rewrite ?app_length; lia). reflexivity. }
  assert (VO : forall v, var_of s2 v = var_of s1 v) by (intro v; unfold var_of; now rewrite V2).
  split; [apply W3; [rewrite V2, L1; exact WM|]|].
  { rewrite WD. symmetry. apply total_ext. intros v _. rewrite VO. apply D1. }
  change (tens (set_gauss s2 g y)) with (tens s2). change (vars (set_gauss s2 g y)) with (vars s2).
  split; [rewrite T2, app_length; lia|]. split; [rewrite V2; exact L1|].
  split; [unfold set_gauss; cbn [gs]; rewrite replace_length, G2, G1; reflexivity|].
  split; [exact OT|]. split; [|split; [|split; [|split]]].
  - intros v Hv. change (held (set_gauss s2 g y) v) with (held s2 v). rewrite <- C1 by exact Hv. unfold held. rewrite VO. unfold tensor_of. rewrite T2. apply nth_app_old.
    apply W1. rewrite L1. now apply WM.
  - intros w Hw. change (var_of (set_gauss s2 g y) w) with (var_of s2 w). rewrite VO. now apply N1.
  - intro w. change (var_of (set_gauss s2 g y) w) with (var_of s2 w). rewrite VO. apply D1.
  - intros h Hh. rewrite gauss_set by exact Hg2. destruct (Nat.eqb_spec h g); [contradiction|]. unfold gauss_of. now rewrite G2, G1.
  - rewrite gauss_set by exact Hg2. rewrite Nat.eqb_refl. cbn [g_mean g_dof g_prec y]. split; [reflexivity|]. split; [reflexivity|]. exact X2.
Qed.
