(** C100: whatever the arguments and settings, a geometric variable is float32 or float64. *)
From Coq Require Import List String Arith Bool Lia.
From Verif Require Import Ctor_model Ctor_base Ctor_lem Ctor_main Ctor_names.
Import ListNotations.
Local Open Scope list_scope.
Local Open Scope nat_scope.

Section Dt.
Context {V : Type}.
Variables (v0 v1 : V) (vcos vsin : V -> V).
Variable q2r : (nat -> V) -> nat -> nat -> V.
Variable group_ok : cls -> @tensor V -> bool.
Variable norm_at : cls -> @tensor V -> list nat -> V.
Variable unit_ok : @tensor V -> bool.

Definition fl (o : @obj V) : Prop := t_dt (o_tensor o) = F32 \/ t_dt (o_tensor o) = F64.
Definition okdt (m : M (@obj V)) : Prop := forall w, match m w with Ok _ o => fl o | Exn _ _ => True end.
Lemma ok_raise : forall e, okdt (raise e).
Proof. intros e w. exact I. Qed.
Lemma ok_bind : forall A (m : M A) (k : A -> M (@obj V)), (forall x, okdt (k x)) -> okdt (bind m k).
Proof. intros A m k K w. unfold bind. destruct (m w) as [w1 x|]; [apply K|exact I]. Qed.
Lemma ok_then : forall (m : M (@obj V)) (k : @obj V -> M (@obj V)), okdt m -> (forall o, fl o -> okdt (k o)) -> okdt (bind m k).
Proof. intros m k H K w. unfold bind. specialize (H w). destruct (m w) as [w1 o|]; [exact (K o H w1)|exact I]. Qed.
Lemma ok_ret : forall o, fl o -> okdt (ret o).
Proof. intros o H w. exact H. Qed.
Lemma ok_update : forall o t, fl o -> okdt (update o t).
Proof.
  intros o t F w. unfold update. destruct (_ || _); [exact I|]. destruct (dt_eqb (t_dt t) (t_dt (o_tensor o))) eqn:E; [|exact I].
  apply dt_eqb_eq in E. unfold fl. cbn. rewrite E. exact F.
Qed.
Lemma ok_manifold : forall c dof t n d s di, okdt (manifold_init v0 v1 group_ok norm_at c dof t n d s di).
Proof.
  intros c dof t n d s di. unfold manifold_init. do 2 (apply ok_bind; intros ?). destruct x0 as [tens d'].
  destruct (negb (supported d')) eqn:S; [apply ok_raise|].
  intros w. unfold bind. rewrite fresh_adv. unfold variable_init, bind, next_id, ret. cbn.
  set (o := mkO _ _ _ _ _).
  assert (F : fl o) by (unfold fl, o; cbn; destruct d'; try discriminate S; auto).
  destruct tens; [apply ok_update; exact F|exact F].
Qed.
Lemma ok_vector : forall c dof t n d, okdt (vector_init v0 v1 group_ok norm_at c dof t n d).
Proof.
  intros c dof t n d. unfold vector_init. destruct dof, t as [t|]; try apply ok_raise; [apply ok_manifold|].
  cbv zeta. destruct (t_shape (match t_shape t with [n0] => _ | _ => _ end)) as [|a [|b [|z l]]]; try apply ok_raise. apply ok_manifold.
Qed.
Lemma ok_point : forall c k t n d, okdt (point_init v0 v1 group_ok norm_at c k t n d).
Proof.
  intros c k t n d. unfold point_init. destruct t as [t|]; [|apply ok_vector].
  cbv zeta. destruct (t_shape (match t_shape t with [n0] => _ | _ => _ end)) as [|a [|b l]]; try apply ok_raise.
  destruct (b =? k); [apply ok_vector|apply ok_raise].
Qed.
Lemma ok_so2 : forall th t n d s di, okdt (so2_init v0 v1 vcos vsin group_ok norm_at th t n d s di).
Proof.
  intros th t n d s di. unfold so2_init. destruct th as [th|]; [|apply ok_manifold]. destruct t as [t|]; [apply ok_raise|].
  apply ok_then; [apply ok_manifold|]. intros o F. cbv zeta.
  destruct (t_shape (match t_shape th with [n0] => _ | _ => _ end)) as [|a [|[|[|b]] [|z l]]]; try apply ok_raise.
  unfold update_from_angle. destruct (t_shape _) as [|a' [|k' [|z' r']]]; try apply ok_raise; apply ok_bind; intros ?; apply ok_update; exact F.
Qed.
Lemma ok_se2 : forall x t n d s di, okdt (se2_init v0 v1 vcos vsin group_ok norm_at x t n d s di).
Proof.
  intros x t n d s di. unfold se2_init. destruct x as [x|]; [|apply ok_manifold]. destruct t as [t|]; [apply ok_raise|].
  apply ok_then; [apply ok_manifold|]. intros o _. unfold update_from_x_y_theta.
  destruct (cols_from v0 x 2); [|apply ok_raise]. destruct (cols_to x 2); [|apply ok_raise].
  apply ok_then; [apply ok_so2|]. intros r F. apply ok_bind. intros tr. unfold se2_from_rot_trans.
  destruct (t_shape (o_tensor r)) as [|a [|b [|z l]]]; try apply ok_raise;
  destruct (t_shape (o_tensor tr)) as [|a' [|b' [|z' l']]]; try apply ok_raise.
  destruct (_ || _); [|apply ok_raise]. intros w. unfold bind. rewrite fresh_adv. exact F.
Qed.
Lemma ok_so3 : forall x t n d s di, okdt (so3_init v0 v1 q2r group_ok norm_at unit_ok x t n d s di).
Proof.
  intros x t n d s di. unfold so3_init. destruct x as [x|]; [|apply ok_manifold]. destruct t as [t|]; [apply ok_raise|].
  apply ok_then; [apply ok_manifold|]. intros o F. unfold update_from_unit_quaternion. apply ok_bind. intros g. apply ok_update. exact F.
Qed.
Lemma ok_se3 : forall x t n d s di, okdt (se3_init v0 v1 q2r group_ok norm_at unit_ok x t n d s di).
Proof.
  intros x t n d s di. unfold se3_init. destruct x as [x|]; [|apply ok_manifold]. destruct t as [t|]; [apply ok_raise|].
  apply ok_then; [apply ok_manifold|]. intros o F. unfold update_from_xyzq. apply ok_bind. intros g. apply ok_update. exact F.
Qed.
End Dt.

Theorem C100_dtypes : forall {V} (v0 v1 : V) vcos vsin q2r item_ok item_norm unit_q c a w w' o,
  make v0 v1 vcos vsin q2r item_ok item_norm unit_q c a w = Ok w' o -> t_dt (o_tensor o) = F32 \/ t_dt (o_tensor o) = F64.
Proof.
  intros V v0 v1 vcos vsin q2r item_ok item_norm unit_q c a w w' o H.
  assert (K : okdt (make v0 v1 vcos vsin q2r item_ok item_norm unit_q c a)).
  { unfold make. destruct c; cbn [construct]; [apply ok_vector|apply ok_point|apply ok_point|apply ok_so2|apply ok_se2|apply ok_so3|apply ok_se3]. }
  specialize (K w). rewrite H in K. exact K.
Qed.
(** and no other dtype is refused for its own sake *)
Theorem C100_dtypes_plain : forall {V} (v0 v1 : V) vcos vsin q2r item_ok item_norm unit_q c w d, d = F32 \/ d = F64 ->
  exists w' o, make v0 v1 vcos vsin q2r item_ok item_norm unit_q c (mkA (Some 3) None None None (Some d) false false) w = Ok w' o /\ t_dt (o_tensor o) = d.
Proof.
  intros V v0 v1 vcos vsin q2r item_ok item_norm unit_q c w d D.
  pose proof (C100_plain v0 v1 vcos vsin q2r item_ok item_norm unit_q w c (mkA (Some 3) None None None (Some d) false false) 3 eq_refl (fun _ => eq_refl) (fun _ => eq_refl)) as P.
  cbn [a_dtype] in P. cbv zeta in P. destruct D as [-> | ->]; cbn [supported] in P; destruct P as (w' & o & E & _ & T & _); exists w', o; split; assumption.
Qed.
