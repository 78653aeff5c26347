(** C100: identities and default names of the variables a program constructs. *)
From Coq Require Import List String Arith Bool Lia DecimalString DecimalNat Decimal.
From Verif Require Import Ctor_model Ctor_base Ctor_lem Ctor_main.
Import ListNotations.
Local Open Scope list_scope.
Local Open Scope nat_scope.

Lemma to_str_inj : forall i j, NilEmpty.string_of_uint (Nat.to_uint i) = NilEmpty.string_of_uint (Nat.to_uint j) -> i = j.
Proof.
  intros i j H. apply Unsigned.to_uint_inj.
  pose proof (NilEmpty.usu (Nat.to_uint i)) as A. rewrite H, NilEmpty.usu in A. injection A as A. symmetry. exact A.
Qed.
Lemma default_name_inj : forall c c' i j, default_name c i = default_name c' j -> i = j.
Proof.
  intros c c' i j H. apply to_str_inj. unfold default_name in H.
  destruct c, c'; cbn in H; try discriminate H; repeat (injection H as H); exact H.
Qed.

Section Ids.
Context {V : Type}.
Variables (v0 v1 : V) (vcos vsin : V -> V).
Variable q2r : (nat -> V) -> nat -> nat -> V.
Variable group_ok : cls -> @tensor V -> bool.
Variable norm_at : cls -> @tensor V -> list nat -> V.
Variable unit_ok : @tensor V -> bool.

Definition post {A} (m : M A) (Q : world -> world -> A -> Prop) : Prop :=
  forall w, match m w with Ok w' x => w_ids w <= w_ids w' /\ Q w w' x | Exn w' _ => w_ids w <= w_ids w' end.
Definition mono {A} (m : M A) : Prop := post m (fun _ _ _ => True).
(** the result is a new object *)
Definition news (c : cls) (name : option string) (m : M (@obj V)) : Prop :=
  post m (fun w w' o => o_cls o = c /\ w_ids w <= o_id o < w_ids w' /\ o_name o = obj_name c (o_id o) name).
(** the result is the object [o], with another value perhaps *)
Definition keeps (o : @obj V) (m : M (@obj V)) : Prop :=
  post m (fun _ _ o' => o_cls o' = o_cls o /\ o_id o' = o_id o /\ o_name o' = o_name o).

Lemma mono_bind : forall A B (m : M A) (k : A -> M B), mono m -> (forall x, mono (k x)) -> mono (bind m k).
Proof.
  intros A B m k H K w. unfold bind. specialize (H w). destruct (m w) as [w1 x|w1 e]; [|exact H].
  destruct H as [H _]. specialize (K x w1). destruct (k x w1); [|lia]. split; [lia|exact I].
Qed.
Lemma news_bind : forall A c n (m : M A) (k : A -> M obj), mono m -> (forall x, news c n (k x)) -> news c n (bind m k).
Proof.
  intros A c n m k H K w. unfold bind. specialize (H w). destruct (m w) as [w1 x|w1 e]; [|exact H].
  destruct H as [H _]. specialize (K x w1). destruct (k x w1); [|lia]. destruct K as (K0 & K1 & K2 & K3).
  split; [lia|]. split; [exact K1|]. split; [lia|exact K3].
Qed.
Lemma news_then : forall c n (m : M obj) (k : obj -> M obj), news c n m -> (forall o, keeps o (k o)) -> news c n (bind m k).
Proof.
  intros c n m k H K w. unfold bind. specialize (H w). destruct (m w) as [w1 o|w1 e]; [|exact H].
  destruct H as (H0 & H1 & H2 & H3). specialize (K o w1). destruct (k o w1) as [w2 o'|w2 e]; [|lia].
  destruct K as (K0 & K1 & K2 & K3). split; [lia|]. rewrite K1, K2, K3. split; [exact H1|]. split; [lia|exact H3].
Qed.
Lemma keeps_bind : forall A o (m : M A) (k : A -> M obj), mono m -> (forall x, keeps o (k x)) -> keeps o (bind m k).
Proof.
  intros A o m k H K w. unfold bind. specialize (H w). destruct (m w) as [w1 x|w1 e]; [|exact H].
  destruct H as [H _]. specialize (K x w1). destruct (k x w1); [|lia]. destruct K as (K0 & K1). split; [lia|exact K1].
Qed.
Lemma news_mono : forall c n m, news c n m -> mono m.
Proof. intros c n m H w. specialize (H w). destruct (m w); [split; [apply H|exact I]|exact H]. Qed.
Lemma keeps_mono : forall o m, keeps o m -> mono m.
Proof. intros o m H w. specialize (H w). destruct (m w); [split; [apply H|exact I]|exact H]. Qed.
Lemma mono_ret : forall A (x : A), mono (ret x).
Proof. intros A x w. cbn. split; [lia|exact I]. Qed.
Lemma post_raise : forall A e Q, @post A (raise e) Q.
Proof. intros A e Q w. cbn. lia. Qed.
Lemma mono_ask : forall A (f : world -> A), mono (ask f).
Proof. intros A f w. cbn. split; [lia|exact I]. Qed.
Lemma mono_warn : forall x, mono (warn x).
Proof. intros x w. cbn. split; [lia|exact I]. Qed.
Lemma mono_fresh : forall d sh (f : list nat -> V) r, mono (fresh d sh f r).
Proof. intros d sh f r w. cbn. split; [lia|exact I]. Qed.
Lemma keeps_update : forall o t, keeps o (update o t).
Proof.
  intros o t w. unfold update. destruct (_ || _); [cbn; lia|]. destruct (negb _); [cbn; lia|]. cbn. split; [lia|auto].
Qed.
Lemma keeps_ret : forall o, keeps o (ret o).
Proof. intros o w. cbn. split; [lia|auto]. Qed.
Lemma keeps_set : forall o t n, keeps o (ret (mkO (o_cls o) (o_id o) (o_name o) t n)).
Proof. intros o t n w. cbn. split; [lia|auto]. Qed.
Lemma news_init : forall c t n, news c n (variable_init c t n).
Proof.
  intros c t n w. unfold variable_init, next_id, bind, ret. cbn. split; [lia|]. split; [reflexivity|]. split; [lia|].
  unfold obj_name. reflexivity.
Qed.
Ltac mo := repeat first
  [ apply mono_ret | apply post_raise | apply mono_ask | apply mono_warn | apply mono_fresh
  | apply mono_bind; [|intros ?] | match goal with |- mono (match ?x with _ => _ end) => destruct x end ].
Lemma mono_check : forall c t s q, mono (check_tensor group_ok norm_at c t s q).
Proof. intros c t s q. unfold check_tensor, check_impl, normalize. mo. Qed.
Lemma news_manifold : forall c dof t n d s di, news c n (manifold_init v0 v1 group_ok norm_at c dof t n d s di).
Proof.
  intros c dof t n d s di. unfold manifold_init.
  apply news_bind; [apply mono_ask|]. intros def. apply news_bind.
  { destruct t as [t|]; [|apply mono_ret]. do 3 (apply mono_bind; [apply mono_ask|intros ?]).
    destruct (if di then _ else _) as [[ce su] qi]. apply mono_bind; [destruct ce; [apply mono_check|mo]|intros t']. mo. }
  intros [tens d']. destruct (negb (supported d')); [apply post_raise|].
  apply news_bind; [apply mono_fresh|]. intros it. apply news_then; [apply news_init|]. intros o. destruct tens; [apply keeps_update|apply keeps_ret].
Qed.
Lemma news_vector : forall c dof t n d, news c n (vector_init v0 v1 group_ok norm_at c dof t n d).
Proof.
  intros c dof t n d. unfold vector_init. destruct dof, t as [t|]; try apply post_raise; [apply news_manifold|].
  cbv zeta. destruct (t_shape (match t_shape t with [n0] => _ | _ => _ end)) as [|a [|b [|z l]]]; try apply post_raise. apply news_manifold.
Qed.
Lemma news_point : forall c k t n d, news c n (point_init v0 v1 group_ok norm_at c k t n d).
Proof.
  intros c k t n d. unfold point_init. destruct t as [t|]; [|apply news_vector].
  cbv zeta. destruct (t_shape (match t_shape t with [n0] => _ | _ => _ end)) as [|a [|b l]]; try apply post_raise.
  destruct (b =? k); [apply news_vector|apply post_raise].
Qed.
Lemma keeps_angle : forall o t, keeps o (update_from_angle v0 vcos vsin o t).
Proof.
  intros o t. unfold update_from_angle. destruct (t_shape t) as [|b [|k [|z r]]]; try apply post_raise;
  (apply keeps_bind; [apply mono_fresh|intros ?; apply keeps_update]).
Qed.
Lemma news_so2 : forall th t n d s di, news CSO2 n (so2_init v0 v1 vcos vsin group_ok norm_at th t n d s di).
Proof.
  intros th t n d s di. unfold so2_init. destruct th as [th|]; [|apply news_manifold]. destruct t as [t|]; [apply post_raise|].
  apply news_then; [apply news_manifold|]. intros o. cbv zeta.
  destruct (t_shape (match t_shape th with [n0] => _ | _ => _ end)) as [|a [|[|[|b]] [|z l]]]; try apply post_raise. apply keeps_angle.
Qed.
Lemma keeps_rt2 : forall o r t, keeps o (se2_from_rot_trans v0 o r t).
Proof.
  intros o r t. unfold se2_from_rot_trans.
  destruct (t_shape (o_tensor r)) as [|a [|b [|z l]]]; try apply post_raise;
  destruct (t_shape (o_tensor t)) as [|a' [|b' [|z' l']]]; try apply post_raise.
  destruct (_ || _); [|apply post_raise]. apply keeps_bind; [apply mono_fresh|intros ?; apply keeps_set].
Qed.
Lemma keeps_xyt : forall o x, keeps o (update_from_x_y_theta v0 v1 vcos vsin group_ok norm_at o x).
Proof.
  intros o x. unfold update_from_x_y_theta. destruct (cols_from v0 x 2); [|apply post_raise]. destruct (cols_to x 2); [|apply post_raise].
  apply keeps_bind; [eapply news_mono, news_so2|]. intros r. apply keeps_bind; [eapply news_mono, news_point|]. intros ?. apply keeps_rt2.
Qed.
Lemma news_se2 : forall x t n d s di, news CSE2 n (se2_init v0 v1 vcos vsin group_ok norm_at x t n d s di).
Proof.
  intros x t n d s di. unfold se2_init. destruct x as [x|]; [|apply news_manifold]. destruct t as [t|]; [apply post_raise|].
  apply news_then; [apply news_manifold|]. intros o. apply keeps_xyt.
Qed.
Lemma mono_q : forall q, mono (unit_quaternion_to_SO3 v0 v1 q2r group_ok norm_at unit_ok q).
Proof.
  intros q. unfold unit_quaternion_to_SO3. cbv zeta. destruct (List.rev _) as [|n r]; [apply post_raise|].
  destruct (negb _); [apply post_raise|]. apply mono_bind; [apply mono_ask|]. intros lie.
  destruct (_ && _); [apply post_raise|]. apply mono_bind; [apply mono_fresh|]. intros ?. eapply news_mono, news_manifold.
Qed.
Lemma keeps_q : forall o q, keeps o (update_from_unit_quaternion v0 v1 q2r group_ok norm_at unit_ok o q).
Proof. intros o q. apply keeps_bind; [apply mono_q|]. intros ?. apply keeps_update. Qed.
Lemma news_so3 : forall x t n d s di, news CSO3 n (so3_init v0 v1 q2r group_ok norm_at unit_ok x t n d s di).
Proof.
  intros x t n d s di. unfold so3_init. destruct x as [x|]; [|apply news_manifold]. destruct t as [t|]; [apply post_raise|].
  apply news_then; [apply news_manifold|]. intros o. apply keeps_q.
Qed.
Lemma mono_xyzq : forall x, mono (xyzq_to_SE3 v0 v1 q2r group_ok norm_at unit_ok x).
Proof.
  intros x. unfold xyzq_to_SE3. cbv zeta. destruct (t_shape (match t_shape x with [n0] => _ | _ => _ end)) as [|b [|n r]]; try apply post_raise.
  destruct (_ && _); [apply post_raise|]. apply mono_bind; [eapply news_mono, news_manifold|]. intros o.
  destruct (cols_from _ _ _); [|apply post_raise]. apply mono_bind; [apply mono_q|]. intros g. mo.
Qed.
Lemma keeps_xyzq : forall o x, keeps o (update_from_xyzq v0 v1 q2r group_ok norm_at unit_ok o x).
Proof. intros o q. apply keeps_bind; [apply mono_xyzq|]. intros ?. apply keeps_update. Qed.
Lemma news_se3 : forall x t n d s di, news CSE3 n (se3_init v0 v1 q2r group_ok norm_at unit_ok x t n d s di).
Proof.
  intros x t n d s di. unfold se3_init. destruct x as [x|]; [|apply news_manifold]. destruct t as [t|]; [apply post_raise|].
  apply news_then; [apply news_manifold|]. intros o. apply keeps_xyzq.
Qed.
Lemma news_construct : forall c a, news c (a_name a) (construct v0 v1 vcos vsin q2r group_ok norm_at unit_ok c a).
Proof.
  intros c a. destruct c; cbn [construct];
  [apply news_vector|apply news_point|apply news_point|apply news_so2|apply news_se2|apply news_so3|apply news_se3].
Qed.
Lemma program_ids : forall l w i p, nth_error (program v0 v1 vcos vsin q2r group_ok norm_at unit_ok l w) i = Some p ->
  w_ids w <= o_id (fst p) /\ (snd p = false -> o_name (fst p) = default_name (o_cls (fst p)) (o_id (fst p))) /\
  exists c a, nth_error l i <> None /\ In (c, a) l /\ o_cls (fst p) = c /\ snd p = (match given_name a with Some _ => true | None => false end) /\
    (forall s, given_name a = Some s -> o_name (fst p) = s).
Proof.
  induction l as [|[c a] l IH]; intros w i p H; cbn [program] in H; [destruct i; discriminate H|].
  pose proof (news_construct c a w) as N. destruct (construct _ _ _ _ _ _ _ _ c a w) as [w1 o|w1 e].
  - destruct N as (N0 & N1 & N2 & N3). destruct i as [|i]; cbn in H.
    + injection H as <-. cbn [fst snd]. split; [lia|]. rewrite obj_name_given in N3. split.
      * intros F. destruct (given_name a); [discriminate F|]. rewrite N1. exact N3.
      * exists c, a. split; [discriminate|]. split; [left; reflexivity|]. split; [exact N1|]. split; [reflexivity|]. intros s E. rewrite E in N3. exact N3.
    + destruct (IH w1 i p H) as (A & B & c' & a' & C1 & C2 & C3). split; [lia|]. split; [exact B|]. exists c', a'. split; [exact C1|]. split; [right; exact C2|exact C3].
  - destruct (IH w1 i p H) as (A & B & c' & a' & C1 & C2 & C3). split; [lia|]. split; [exact B|]. exists c', a'.
    split; [|split; [right; exact C2|exact C3]].
    destruct i; [discriminate|]. cbn. intro E. apply C1. apply nth_error_None. apply nth_error_None in E. lia.
Qed.
Lemma program_inc : forall l w i j p q, i < j ->
  nth_error (program v0 v1 vcos vsin q2r group_ok norm_at unit_ok l w) i = Some p ->
  nth_error (program v0 v1 vcos vsin q2r group_ok norm_at unit_ok l w) j = Some q -> o_id (fst p) < o_id (fst q).
Proof.
  induction l as [|[c a] l IH]; intros w i j p q L Hp Hq; cbn [program] in *; [destruct i; discriminate Hp|].
  pose proof (news_construct c a w) as N. destruct (construct _ _ _ _ _ _ _ _ c a w) as [w1 o|w1 e].
  - destruct N as (N0 & N1 & N2 & N3). destruct i as [|i], j as [|j]; cbn in Hp, Hq; try lia.
    + injection Hp as <-. cbn [fst]. apply program_ids in Hq. destruct Hq as [Hq _]. lia.
    + apply (IH w1 i j p q); [lia|exact Hp|exact Hq].
  - apply (IH w1 i j p q L Hp Hq).
Qed.
End Ids.

Section Names.
Context {V : Type}.
Variables (v0 v1 : V) (vcos vsin : V -> V).
Variable q2r : (nat -> V) -> nat -> nat -> V.
Variable item_ok : cls -> dtype -> (list nat -> V) -> bool.
Variable item_norm : cls -> dtype -> (list nat -> V) -> list nat -> V.
Variable unit_q : dtype -> (nat -> V) -> bool.
Notation run := (run v0 v1 vcos vsin q2r item_ok item_norm unit_q).

(** Every program of constructor calls, some of which may raise: later objects have larger ids; an object made without a
    name is called "Class__id", so no two of them share a name. *)
Theorem C100_names : forall (l : list (cls * args)) w i j p q, i < j -> nth_error (run l w) i = Some p -> nth_error (run l w) j = Some q ->
  w_ids w <= o_id (fst p) < o_id (fst q) /\
  (snd p = false -> o_name (fst p) = default_name (o_cls (fst p)) (o_id (fst p))) /\
  (snd p = false -> snd q = false -> o_name (fst p) <> o_name (fst q)).
Proof.
  intros l w i j p q L Hp Hq. pose proof (program_inc _ _ _ _ _ _ _ _ _ _ _ _ _ _ L Hp Hq) as I.
  apply program_ids in Hp. apply program_ids in Hq. destruct Hp as (P1 & P2 & _), Hq as (Q1 & Q2 & _).
  split; [lia|]. split; [exact P2|]. intros Np Nq E. rewrite (P2 Np), (Q2 Nq) in E. apply default_name_inj in E. lia.
Qed.
End Names.
