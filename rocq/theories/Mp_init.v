(** C90: the initial trajectory model, the goal cost of SE2 planners, and
    concrete planners. *)
From Coq Require Import Reals List String Ascii Arith Bool Lia Lra.
From Verif Require Import Geo_spec Geo3_spec SE2_model Emb_model Emb2_model Emb2_spec SE2_jac Exp_unique Misc_props Mp_model Mp_spec Mp_props Mp_main Mp_more Mp_traj.
Import ListNotations.
Local Open Scope list_scope.
Local Open Scope R_scope.

(** ** the mean trajectory *)
Lemma line_at_closed s inc t : line_at s inc t = s + INR t * inc.
Proof. induction t; [cbn; ring|]. cbn [line_at]. rewrite IHt, S_INR. ring. Qed.
Lemma cur_t_closed d n t : cur_t d n t = - (d / 2) + INR t * (d / INR n).
Proof. induction t; [cbn; lra|]. cbn [cur_t]. rewrite IHt, S_INR. ring. Qed.
Lemma norm2_pos x y : x <> 0 \/ y <> 0 -> 0 < norm2 x y.
Proof. intros H. apply sqrt_lt_R0. destruct H; nra. Qed.

(** the offset from the straight line at time t: a parabola in t with value 0 at both ends *)
Lemma bend_at_closed bend d n t : d <> 0 -> n <> 0%nat ->
  bend_at bend d n t = - (8 * bend) * (INR t / INR n) * (1 - INR t / INR n).
Proof.
  intros Hd Hn. assert (INR n <> 0) by (apply not_0_INR; easy).
  unfold bend_at. rewrite cur_t_closed. field. easy.
Qed.
(** the direction of the offset: a unit vector orthogonal to the line *)
Lemma normal_vec_unit dx dy : dx <> 0 \/ dy <> 0 ->
  let '(nx, ny) := normal_vec dx dy in nx * nx + ny * ny = 1 /\ nx * dx + ny * dy = 0.
Proof.
  intros H. unfold normal_vec. replace (1 * PI / 2) with (PI / 2) by lra. rewrite cos_PI2, sin_PI2.
  replace (0 * dx - 1 * dy) with (- dy) by ring. replace (1 * dx + 0 * dy) with dx by ring.
  assert (P : 0 < norm2 (- dy) dx) by (apply norm2_pos; destruct H; [right|left]; lra).
  assert (S : norm2 (- dy) dx * norm2 (- dy) dx = dy * dy + dx * dx).
  { unfold norm2. rewrite sqrt_sqrt by nra. ring. }
  set (n := norm2 (- dy) dx) in *. clearbody n.
  split; [|field; lra].
  replace (- dy / n * (- dy / n) + dx / n * (dx / n)) with ((dy * dy + dx * dx) / (n * n)) by (field; lra).
  rewrite S. field. nra.
Qed.

(** the mean trajectory starts at the start and ends at the goal, and at time t
    it is the point of the segment displaced by 8 |bend| (t/N) (1 - t/N) at
    right angles: 2 |bend| in the middle *)
Theorem C90_mean_trajectory steps bend s g t :
  steps <> 0%nat -> (t <= steps)%nat -> s <> g ->
  exists nx ny, nx * nx + ny * ny = 1 /\ nx * (fst g - fst s) + ny * (snd g - snd s) = 0 /\
  let lam := INR t / INR steps in
  mean_pos steps bend s g t =
    (((1 - lam) * fst s + lam * fst g) - nx * (8 * bend * lam * (1 - lam)),
     ((1 - lam) * snd s + lam * snd g) - ny * (8 * bend * lam * (1 - lam))).
Proof.
  intros Hn Ht Hsg.
  assert (D : fst g - fst s <> 0 \/ snd g - snd s <> 0).
  { destruct (Req_EM_T (fst g - fst s) 0) as [A|A]; [|now left].
    destruct (Req_EM_T (snd g - snd s) 0) as [B|B]; [|now right].
    exfalso. apply Hsg. destruct s, g. cbn in *. f_equal; lra. }
  pose proof (normal_vec_unit _ _ D) as U.
  assert (NZ : INR steps <> 0) by (apply not_0_INR; easy).
  assert (DN : norm2 (fst g - fst s) (snd g - snd s) <> 0) by (pose proof (norm2_pos _ _ D); lra).
  unfold mean_pos. destruct (normal_vec (fst g - fst s) (snd g - snd s)) as [nx ny].
  exists nx, ny. destruct U as [U1 U2]. split; [easy|]. split; [easy|]. cbv zeta.
  destruct t as [|t].
  - cbn [line_at INR]. f_equal; field; easy.
  - rewrite !line_at_closed, !bend_at_closed by easy. f_equal; field; easy.
Qed.
Theorem C90_mean_trajectory_ends steps bend s g :
  steps <> 0%nat -> s <> g -> mean_pos steps bend s g 0 = s /\ mean_pos steps bend s g steps = g.
Proof.
  intros Hn Hsg. assert (NZ : INR steps <> 0) by (apply not_0_INR; easy).
  destruct (C90_mean_trajectory steps bend s g 0 Hn ltac:(lia) Hsg) as (nx & ny & _ & _ & E0).
  destruct (C90_mean_trajectory steps bend s g steps Hn ltac:(lia) Hsg) as (mx & my & _ & _ & E1).
  cbv zeta in *. rewrite E0, E1. cbn [INR]. destruct s as [sx sy], g as [gx gy]. cbn [fst snd]. split; f_equal; field; easy.
Qed.
(** models.py says that bend is the distance between focus and vertex of a
    parabola with its focus in the middle between start and goal: the vertex is
    at twice that distance from the middle *)
Theorem C90_bend_is_distance_refuted m bend s g :
  m <> 0%nat -> s <> g -> bend <> 0 ->
  let p := mean_pos (2 * m) bend s g m in
  let q := ((fst s + fst g) / 2, (snd s + snd g) / 2) in
  norm2 (fst p - fst q) (snd p - snd q) = 2 * Rabs bend
  /\ norm2 (fst p - fst q) (snd p - snd q) <> Rabs bend.
Proof.
  intros Hm Hsg Hb p q.
  destruct (C90_mean_trajectory (2 * m) bend s g m ltac:(lia) ltac:(lia) Hsg) as (nx & ny & U & _ & E).
  assert (L : INR m / INR (2 * m) = / 2).
  { rewrite mult_INR. cbn [INR]. field. apply not_0_INR. easy. }
  cbv zeta in E. rewrite L in E.
  assert (D : norm2 (fst p - fst q) (snd p - snd q) = 2 * Rabs bend).
  { unfold p, q. rewrite E. cbn [fst snd]. unfold norm2.
    match goal with |- sqrt ?x = _ => replace x with ((2 * bend) * (2 * bend)) end.
    - fold (Rsqr (2 * bend)). rewrite sqrt_Rsqr_abs, Rabs_mult. rewrite (Rabs_right 2) by lra. reflexivity.
    - replace (2 * bend * (2 * bend)) with (2 * bend * (2 * bend) * (nx * nx + ny * ny)) by (rewrite U; ring). field. }
  split; [exact D|]. rewrite D. pose proof (Rabs_pos_lt _ Hb). lra.
Qed.
(** the velocities are backward differences, zero at time 0 *)
Theorem C90_mean_velocity steps dt bend s g t : dt <> 0 ->
  mean_vel steps dt bend s g 0 = (0, 0)
  /\ fst (mean_vel steps dt bend s g (S t)) * dt = fst (mean_pos steps bend s g (S t)) - fst (mean_pos steps bend s g t)
  /\ snd (mean_vel steps dt bend s g (S t)) * dt = snd (mean_pos steps bend s g (S t)) - snd (mean_pos steps bend s g t).
Proof. intros H. split; [reflexivity|]. unfold mean_vel. cbn [fst snd]. split; field; easy. Qed.

(** ** the sample *)
Lemma start_col_app v a b : ~ In v a -> start_col v (a ++ b) = option_map (fun k => 2 * List.length a + k)%nat (start_col v b).
Proof.
  induction a as [|w a IH]; intros H; cbn [app start_col].
  - destruct (start_col v b); reflexivity.
  - destruct (vname_dec w v) as [->|N]; [exfalso; apply H; now left|].
    rewrite IH by (intros K; apply H; now right). destruct (start_col v b); [|reflexivity].
    cbn [option_map List.length]. f_equal. lia.
Qed.
Lemma time_vars_In p j i : p = "pose"%string \/ p = "vel"%string -> In (Named (idx p j)) (time_vars i) <-> j = i.
Proof.
  intros P. split; [|intros ->; unfold time_vars; destruct P; subst; cbn; tauto].
  unfold time_vars. destruct P; subst p; cbn [In]; intros K.
  - destruct K as [K|[K|[]]]; [|discriminate K]. assert (E : idx "pose" i = idx "pose" j) by congruence. now apply idx_inj in E.
  - destruct K as [K|[K|[]]]; [discriminate K|]. assert (E : idx "vel" i = idx "vel" j) by congruence. now apply idx_inj in E.
Qed.
Lemma start_col_step p j i (off : nat) l : (p = "pose"%string /\ off = 0%nat) \/ (p = "vel"%string /\ off = 2%nat) ->
  start_col (Named (idx p j)) (time_vars i ++ l)
  = if (i =? j)%nat then Some off else option_map (fun k => 4 + k)%nat (start_col (Named (idx p j)) l).
Proof.
  intros P. destruct (Nat.eqb_spec i j) as [->|N].
  - destruct P as [[-> ->]|[-> ->]]; cbn [time_vars app start_col];
      repeat match goal with |- context [vname_dec ?a ?b] => let K := fresh in destruct (vname_dec a b) as [K|K]; [try discriminate K|] end;
      try reflexivity; exfalso; match goal with H : ?x <> ?x |- _ => now apply H end.
  - assert (NI : ~ In (Named (idx p j)) (time_vars i)) by (rewrite time_vars_In by tauto; congruence).
    exact (start_col_app _ _ l NI).
Qed.
Lemma start_col_seq p j (off : nat) : (p = "pose"%string /\ off = 0%nat) \/ (p = "vel"%string /\ off = 2%nat) ->
  forall n a, (a <= j < a + n)%nat -> start_col (Named (idx p j)) (flat_map time_vars (seq a n)) = Some (4 * (j - a) + off)%nat.
Proof.
  intros P. induction n as [|n IH]; intros a Hj; [lia|]. cbn [seq flat_map].
  rewrite (start_col_step p j a off) by easy. destruct (Nat.eqb_spec a j) as [->|N].
  - f_equal. lia.
  - rewrite IH by lia. cbn [option_map]. f_equal. lia.
Qed.
(** the columns (and rows) of the pose and the velocity of time t in the
    linear system of a planner *)
Theorem C90_columns qc dflt c o p off t :
  make_objective qc dflt c = Ok o -> (t <= c_num_time_steps c)%nat ->
  (p = "pose"%string /\ off = 0%nat) \/ (p = "vel"%string /\ off = 2%nat) ->
  start_col (Named (idx p t)) (o_optim o)
  = Some (off + 4 * (if (t =? 0) then 0 else if (t =? c_num_time_steps c) then 1 else t + 1))%nat.
Proof.
  intros H Ht P. rewrite (C90_optim_vars _ _ _ _ H). unfold optim_order.
  rewrite (start_col_step p t 0 off) by easy. rewrite (Nat.eqb_sym 0 t). destruct (Nat.eqb_spec t 0) as [->|N0]; [f_equal; lia|].
  rewrite (start_col_step p t (c_num_time_steps c) off) by easy. rewrite (Nat.eqb_sym (c_num_time_steps c) t).
  destruct (Nat.eqb_spec t (c_num_time_steps c)) as [->|N1].
  - cbn [option_map]. f_equal. lia.
  - rewrite (start_col_seq p t off) by (auto; lia). cbn [option_map]. f_equal. lia.
Qed.

(** what is returned for a variable *)
Fixpoint value (k : string) (l : list (string * (nat -> R))) (r : nat) : R :=
  match l with [] => 0 | (k', f) :: rest => if String.eqb k' k then f r else value k rest r end.
Lemma value_initial steps mean sample p off t r :
  (t <= steps)%nat -> (p = "pose"%string /\ off = 0%nat) \/ (p = "vel"%string /\ off = 2%nat) ->
  value (idx p t) (initial_values steps mean sample) r = mean (4 * t + off + r)%nat + sample (4 * t + off + r)%nat.
Proof.
  intros Ht P. unfold initial_values.
  assert (I : In t (seq 0 (steps + 1))) by (apply in_seq; lia). revert I.
  induction (seq 0 (steps + 1)) as [|i l IH]; [easy|]. intros I. cbn [flat_map app value].
  destruct (Nat.eq_dec i t) as [->|N].
  - destruct P as [[-> ->]|[-> ->]].
    + rewrite eqb_idx, Nat.eqb_refl. replace (4 * t + 0)%nat with (4 * t)%nat by lia. reflexivity.
    + replace (String.eqb (idx "pose" t) (idx "vel" t)) with false by reflexivity.
      rewrite eqb_idx, Nat.eqb_refl. reflexivity.
  - destruct I as [I|I]; [contradiction|]. apply Nat.eqb_neq in N.
    destruct P as [[-> ->]|[-> ->]].
    + rewrite eqb_idx, N. replace (String.eqb (idx "vel" i) (idx "pose" t)) with false by reflexivity. auto.
    + replace (String.eqb (idx "pose" i) (idx "vel" t)) with false by reflexivity. rewrite eqb_idx, N. auto.
Qed.
(** With one time step every variable receives its own rows of the sample; so do
    pose_0 and vel_0 in general. *)
Theorem C90_sample_partial qc dflt c o mean sample p off t r :
  make_objective qc dflt c = Ok o -> (t <= c_num_time_steps c)%nat ->
  (p = "pose"%string /\ off = 0%nat) \/ (p = "vel"%string /\ off = 2%nat) ->
  t = 0%nat \/ c_num_time_steps c = 1%nat ->
  exists k, start_col (Named (idx p t)) (o_optim o) = Some k
    /\ value (idx p t) (initial_values (c_num_time_steps c) mean sample) r = mean (4 * t + off + r)%nat + sample (k + r)%nat.
Proof.
  intros H Ht P Q. eexists. split; [apply (C90_columns _ _ _ _ _ _ _ H Ht P)|].
  rewrite (value_initial _ _ _ p off) by easy. f_equal. f_equal.
  destruct Q as [-> | E]; [cbn; lia|]. rewrite E in *.
  destruct (Nat.eqb_spec t 0); [subst; lia|]. destruct (Nat.eqb_spec t 1); lia.
Qed.
(** With two or more steps the rows are those of other times: pose_1 receives the
    rows of pose_N, pose_t those of pose_(t-1). *)
Theorem C90_sample_refuted qc dflt c o :
  make_objective qc dflt c = Ok o -> (2 <= c_num_time_steps c)%nat ->
  (forall mean sample p off r, (p = "pose"%string /\ off = 0%nat) \/ (p = "vel"%string /\ off = 2%nat) ->
    exists k, start_col (Named (idx p (c_num_time_steps c))) (o_optim o) = Some k
    /\ value (idx p 1) (initial_values (c_num_time_steps c) mean sample) r = mean (4 + off + r)%nat + sample (k + r)%nat)
  /\ (forall mean sample p off t r, (2 <= t <= c_num_time_steps c)%nat -> (p = "pose"%string /\ off = 0%nat) \/ (p = "vel"%string /\ off = 2%nat) ->
    exists k, start_col (Named (idx p (t - 1))) (o_optim o) = Some k
    /\ value (idx p t) (initial_values (c_num_time_steps c) mean sample) r = mean (4 * t + off + r)%nat + sample (k + r)%nat).
Proof.
  intros H HN. split.
  - intros mean sample p off r P. eexists. split; [apply (C90_columns _ _ _ _ _ _ _ H (le_n _) P)|].
    rewrite (value_initial _ _ _ p off) by (auto; lia). f_equal. f_equal.
    rewrite (proj2 (Nat.eqb_neq _ _)) by lia. rewrite Nat.eqb_refl. lia.
  - intros mean sample p off t r Ht P. eexists. split; [apply (C90_columns _ _ _ _ p off (t - 1) H); [lia|easy]|].
    rewrite (value_initial _ _ _ p off) by (auto; lia). f_equal. f_equal.
    rewrite !(proj2 (Nat.eqb_neq _ _)) by lia. lia.
Qed.
(** The auxiliary planner, meant to ignore obstacles, keeps the collision weight. *)
Theorem C90_sample_ignores_obstacles_refuted qc dflt c p p' i :
  make_planner qc dflt c = Ok p -> aux_planner qc dflt p = Ok p' -> (1 <= i <= c_num_time_steps c)%nat ->
  exists f, In f (o_cfs (p_obj p')) /\ f_name f = idx "collision" i /\ w_scale (f_weight f) = c_collision_weight c.
Proof. intros H A. intros Hi. exact (C90_copy_zero_weight_refuted qc dflt c p p' i H A Hi). Qed.

(** ** the goal cost of SE2 planners *)
Theorem C90_xy_difference h g xi target :
  moves_se2 h g xi ->
  (xy_error g target = mkV2 0 0 <-> (px g = Geo_spec.a0 target /\ py g = Geo_spec.a1 target))
  /\ deriv2 (fun t => xy_error (h t) target) 0 (app23 (xy_jacobian g target) xi).
Proof.
  intros M. split.
  - unfold xy_error, sub2, se2_xy. cbn [Geo_spec.a0 Geo_spec.a1]. split.
    + intros E. injection E as E1 E2. lra.
    + intros [-> ->]. f_equal; ring.
  - destruct (Misc_props.moves_se2_vel _ _ _ M) as (H0 & D1 & D2 & _). unfold xy_error, xy_jacobian, sub2, se2_xy, se2_xy_jac, mul2_23, app23.
    split; cbn.
    + eapply Exp_unique.deriv_val; [|apply (SE2_jac.d_minus _ _ _ _ _ D1 (SE2_jac.d_const _ _))]. ring.
    + eapply Exp_unique.deriv_val; [|apply (SE2_jac.d_minus _ _ _ _ _ D2 (SE2_jac.d_const _ _))]. ring.
Qed.
(** a Vector instead of the SE2 pose, or an SE2 target, is not refused *)
Theorem C90_xy_types_refuted : xy_accepts false true = true /\ xy_accepts true false = true.
Proof. split; reflexivity. Qed.

(** ** concrete planners *)
Example C90_ex_accepts : config_ok true F64 (mkC 10 1 2 5 (fun _ _ => 1) 3 false PSE2 F64 1 1).
Proof. unfold config_ok. cbn. repeat split; try lra; try easy. Qed.
(** nonholonomic costs need torch's default dtype to be the planner's: with
    torch's float32 and the planner's float64 the constructor raises *)
Theorem C90_extra_costs_default_dtype_refuted qc c :
  c_dtype c = F64 -> 0 < c_nonholonomic_w c \/ c_positive_vel_w c <> 0 -> ~ exists o, make_objective qc F32 c = Ok o.
Proof.
  intros D H K. apply C90_accepts in K as (_ & _ & _ & A & B). rewrite D in *. destruct H as [H|H].
  - destruct (A H) as [_ E]. discriminate E.
  - destruct (B H) as (_ & _ & E). discriminate E.
Qed.
