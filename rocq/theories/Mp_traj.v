(** C90: straight-line initialisation and trajectory tensors of the motion
    planner. *)
From Coq Require Import Reals List String Ascii Arith Bool Lia Lra.
From Verif Require Import Geo_spec Geo3_spec SE2_model Emb_model Emb2_model Emb2_spec Trig SE2_exp SE2_group Mp_model Mp_spec Mp_props Mp_main Mp_more.
Import ListNotations.
Local Open Scope list_scope.
Local Open Scope R_scope.

(** ** dictionaries with a pose and a velocity per time step *)
Definition pv {A} (P V : nat -> A) (i : nat) : list (string * A) := [(idx "pose" i, P i); (idx "vel" i, V i)].
Lemma eqb_idx p i j : String.eqb (idx p j) (idx p i) = (j =? i)%nat.
Proof.
  destruct (Nat.eqb_spec j i) as [->|N]; [apply String.eqb_refl|].
  apply String.eqb_neq. intros K. apply idx_inj in K. contradiction.
Qed.
Lemma lookup_pose P V i l : In i l -> lookup (idx "pose" i) (flat_map (pv P V) l) = Some (P i).
Proof.
  induction l as [|j l IH]; [easy|]. cbn [flat_map pv app]. intros H.
  cbn [lookup]. rewrite eqb_idx. destruct (Nat.eqb_spec j i) as [->|N]; [reflexivity|].
  replace (String.eqb (idx "vel" j) (idx "pose" i)) with false by reflexivity. apply IH. destruct H; [contradiction|easy].
Qed.
Lemma lookup_vel P V i l : In i l -> lookup (idx "vel" i) (flat_map (pv P V) l) = Some (V i).
Proof.
  induction l as [|j l IH]; [easy|]. cbn [flat_map pv app]. intros H.
  cbn [lookup]. replace (String.eqb (idx "pose" j) (idx "vel" i)) with false by reflexivity.
  rewrite eqb_idx. destruct (Nat.eqb_spec j i) as [->|N]; [reflexivity|].
  apply IH. destruct H; [contradiction|easy].
Qed.
Lemma lookup_other k P V l : (forall i, In i l -> k <> idx "pose" i /\ k <> idx "vel" i) -> lookup k (flat_map (pv P V) l) = None.
Proof.
  induction l as [|j l IH]; [easy|]. cbn [flat_map pv app]. intros H.
  cbn [lookup]. destruct (H j (or_introl eq_refl)) as [A B].
  rewrite (proj2 (String.eqb_neq _ _)) by congruence. rewrite (proj2 (String.eqb_neq _ _)) by congruence.
  apply IH. intros i Hi. apply H. now right.
Qed.

(** ** the straight line *)
(** rows of a dictionary entry *)
Definition entry (d : list (string * ten2)) (b : nat) (name : string) (r : nat) : R :=
  match lookup name d with Some t => t2_at t b r | None => 0 end.

Lemma tl_pred c : (trajectory_len c - 1)%nat = c_num_time_steps c.
Proof. unfold trajectory_len. lia. Qed.

(** a pose and a velocity for every time, nothing else; the positions divide
    the segment from start to goal evenly (start at time 0, goal at time N), the
    velocity is distance over total time; for SE2 the rotation is the start's *)
Theorem C90_straight_line c start goal b i :
  c_num_time_steps c <> 0%nat -> (i <= c_num_time_steps c)%nat ->
  let d := straight_line c start goal in
  let lam := INR i / INR (c_num_time_steps c) in
  (forall r, (r < 2)%nat ->
     entry d b (idx "pose" i) r = (1 - lam) * t2_at start b r + lam * t2_at goal b r
     /\ entry d b (idx "vel" i) r = (t2_at goal b r - t2_at start b r) / c_total_time c)
  /\ (c_pose_type c = PSE2 -> entry d b (idx "vel" i) 2 = 0 /\ forall r, (2 <= r)%nat -> entry d b (idx "pose" i) r = t2_at start b r)
  /\ (exists t, lookup (idx "pose" i) d = Some t /\ t2_n t = t2_n start /\ (t2_m start = pose_numel (c_pose_type c) -> t2_m t = pose_numel (c_pose_type c)))
  /\ (exists t, lookup (idx "vel" i) d = Some t /\ t2_n t = t2_n start /\ t2_m t = dof (c_pose_type c)).
Proof.
  intros HN Hi d lam. unfold d, straight_line, entry.
  assert (I : In i (seq 0 (trajectory_len c))) by (apply in_seq; unfold trajectory_len; lia).
  assert (NZ : INR (c_num_time_steps c) <> 0) by (apply not_0_INR; easy).
  destruct (c_pose_type c).
  - match goal with |- context [flat_map ?g _] => change g with (pv (A := ten2)
      (fun i => mkT2 (t2_n start) (t2_m start) (fun b r => t2_at start b r + start_goal_dist start goal b r / INR (trajectory_len c - 1) * INR i))
      (fun i => mkT2 (t2_n start) 2 (fun b r => start_goal_dist start goal b r / c_total_time c))) end.
    rewrite lookup_pose, lookup_vel by easy. cbn [t2_at t2_n t2_m pose_numel dof]. rewrite tl_pred. unfold start_goal_dist.
    split; [intros r Hr; split; [unfold lam; field; easy|reflexivity]|].
    split; [discriminate|]. split; eexists; (split; [reflexivity|]); cbn; auto.
  - match goal with |- context [flat_map ?g _] => change g with (pv (A := ten2)
      (fun i => mkT2 (t2_n start) (2 + (t2_m start - 2)) (fun b r => if (r <? 2)%nat then t2_at start b r + start_goal_dist start goal b r / INR (trajectory_len c - 1) * INR i else t2_at start b r))
      (fun i => mkT2 (t2_n start) 3 (fun b r => if (r <? 2)%nat then start_goal_dist start goal b r / c_total_time c else 0))) end.
    rewrite lookup_pose, lookup_vel by easy. cbn [t2_at t2_n t2_m pose_numel dof]. rewrite tl_pred. unfold start_goal_dist.
    split; [intros r Hr; apply Nat.ltb_lt in Hr; rewrite Hr; split; [unfold lam; field; easy|reflexivity]|].
    split; [intros _; split; [reflexivity|]; intros r Hr; apply Nat.ltb_ge in Hr; now rewrite Hr|].
    split; eexists; (split; [reflexivity|]); cbn; [|auto]. split; [reflexivity|]. intros ->. reflexivity.
Qed.
Theorem C90_straight_line_ends c start goal b r :
  c_num_time_steps c <> 0%nat -> (r < 2)%nat ->
  let d := straight_line c start goal in
  entry d b (idx "pose" 0) r = t2_at start b r /\ entry d b (idx "pose" (c_num_time_steps c)) r = t2_at goal b r.
Proof.
  intros HN Hr d.
  assert (NZ : INR (c_num_time_steps c) <> 0) by (apply not_0_INR; easy).
  destruct (C90_straight_line c start goal b 0 HN ltac:(lia)) as [A _].
  destruct (C90_straight_line c start goal b (c_num_time_steps c) HN ltac:(lia)) as [B _].
  destruct (A r Hr) as [A1 _]. destruct (B r Hr) as [B1 _]. fold d in A1, B1. rewrite A1, B1. cbn [INR].
  split; field; easy.
Qed.
(** with points, every Gaussian process cost function is zero on it (in exact
    arithmetic), whatever the map *)
Theorem C90_straight_line_gp qc dflt c o f start goal b :
  make_objective qc dflt c = Ok o -> c_pose_type c = PPoint2 -> In f (o_cfs o) -> f_cls f = CGPMotionModel ->
  exists ep ev, gp_error_point (c_total_time c / INR (c_num_time_steps c)) (entry (straight_line c start goal) b) f = Some (ep, ev)
    /\ forall r, (r < 2)%nat -> ep r = 0 /\ ev r = 0.
Proof.
  intros H HP Hf Hc. pose proof (ex_intro (fun o => make_objective qc dflt c = Ok o) o H) as A.
  apply C90_accepts in A as (HN & HT & _). apply o_cfs_make in H. rewrite H in Hf.
  assert (E : exists i, (1 <= i <= c_num_time_steps c)%nat /\ f_optim f = [pose c (i - 1); vel c (i - 1); pose c i; vel c i]).
  { apply in_app_or in Hf as [Hf|Hf].
    - cbn in Hf. rewrite HP in Hf. repeat (destruct Hf as [<-|Hf]; [discriminate Hc|]). destruct Hf.
    - apply in_flat_map in Hf as [i [Hi Hf]]. apply in_seq in Hi. exists i. split; [lia|].
      unfold step_costs in Hf. rewrite !in_app_iff in Hf. destruct Hf as [[<-|[<-|[]]]|[Hf|Hf]]; [discriminate Hc|reflexivity| |].
      + destruct (gt0 _); [|easy]. destruct Hf as [<-|[]]. discriminate Hc.
      + destruct (truthy _); [|easy]. destruct Hf as [<-|[]]. discriminate Hc. }
  destruct E as [i [Hi E]]. unfold gp_error_point. rewrite E.
  unfold di_error, local, between, di_error_from_pose_diff. cbn [vector_group log_map bind compose inverse tsub tscale].
  eexists _, _. split; [reflexivity|]. intros r Hr. cbn beta.
  assert (NZ : INR (c_num_time_steps c) <> 0) by (apply not_0_INR; easy).
  destruct (C90_straight_line c start goal b (i - 1) HN ltac:(lia)) as [A1 _].
  destruct (C90_straight_line c start goal b i HN ltac:(lia)) as [A2 _].
  destruct (A1 r Hr) as [A3 A4]. destruct (A2 r Hr) as [A5 A6].
  unfold at_var, pose, vel, nv. cbn [v_name].
  cbv zeta in A3, A4, A5, A6. rewrite A3, A4, A5, A6. rewrite minus_INR by lia. cbn [INR].
  split; field; repeat split; try exact NZ; lra.
Qed.

(** With SE2 poses the velocities are differences of positions in the world
    frame although the motion model reads them in the frame of the pose: the
    error is (R^T - I)(goal - start) / N, zero only if the start's angle is
    zero or start and goal coincide. *)
Lemma atan2_0_1 : atan2 0 1 = 0.
Proof. rewrite <- cos_0, <- sin_0 at 1. apply atan2_angle. pose proof PI_RGT_0. lra. Qed.
Theorem C90_straight_line_se2 c d start goal b i f :
  c_num_time_steps c <> 0%nat -> 0 < c_total_time c -> (1 <= i <= c_num_time_steps c)%nat -> c_pose_type c = PSE2 ->
  f_optim f = [pose c (i - 1); vel c (i - 1); pose c i; vel c i] ->
  let co := t2_at start b 2 in let si := t2_at start b 3 in
  co * co + si * si = 1 ->
  let dx := (t2_at goal b 0 - t2_at start b 0) / INR (c_num_time_steps c) in
  let dy := (t2_at goal b 1 - t2_at start b 1) / INR (c_num_time_steps c) in
  gp_error_se2 d (c_total_time c / INR (c_num_time_steps c)) (entry (straight_line c start goal) b) f
  = Some (mkV3 ((co - 1) * dx + si * dy) (- si * dx + (co - 1) * dy) 0, mkV3 0 0 0).
Proof.
  intros HN HT Hi HP Ef co si U dx dy.
  assert (NZ : INR (c_num_time_steps c) <> 0) by (apply not_0_INR; easy).
  destruct (C90_straight_line c start goal b (i - 1) HN ltac:(lia)) as [A1 [A1' _]].
  destruct (C90_straight_line c start goal b i HN ltac:(lia)) as [A2 [A2' _]].
  destruct (A1' HP) as [Av1 Ar1]. destruct (A2' HP) as [Av2 Ar2]. clear A1' A2'.
  destruct (A1 0%nat ltac:(lia)) as [P10 V10]. destruct (A1 1%nat ltac:(lia)) as [P11 V11].
  destruct (A2 0%nat ltac:(lia)) as [P20 V20]. destruct (A2 1%nat ltac:(lia)) as [P21 V21].
  pose proof (Ar1 2%nat ltac:(lia)) as P12. pose proof (Ar1 3%nat ltac:(lia)) as P13.
  pose proof (Ar2 2%nat ltac:(lia)) as P22. pose proof (Ar2 3%nat ltac:(lia)) as P23.
  cbv zeta in *. clear A1 A2 Ar1 Ar2.
  unfold gp_error_se2. rewrite Ef. unfold as_se2, as_v3, at_var, pose, vel, nv. cbn [v_name].
  set (e := entry (straight_line c start goal) b) in *. clearbody e.
  rewrite P10, P11, P12, P13, P20, P21, P22, P23, V10, V11, V20, V21, Av1, Av2.
  unfold di_error, local, between. cbn [se2_group log_map compose inverse bind].
  unfold se2_inverse, se2_compose, se2_of, so2_compose, so2_inverse, so2_rotate, rotate_from_cos_sin, add2, se2_rotation, se2_translation.
  cbn [px py pc ps Geo_spec.a0 Geo_spec.a1 SE2_model.co SE2_model.si].
  fold co si.
  replace (co * co - - si * si) with 1 by lra. replace (- si * co + co * si) with 0 by ring.
  unfold se2_log_map, se2_rotation, so2_log_map. cbn [px py pc ps SE2_model.co SE2_model.si].
  rewrite atan2_0_1, Rabs_R0.
  assert (EP : 0 < se2_near_zero_eps d) by (destruct d; unfold se2_near_zero_eps; [lra|apply Rinv_0_lt_compat; apply pow_lt; lra]).
  unfold lt_b, where_. destruct (Rlt_dec 0 (se2_near_zero_eps d)); [|contradiction].
  unfold div_. destruct (Req_EM_T 1 0); [lra|]. cbn [bind].
  unfold di_error_from_pose_diff. cbn [tsub tscale se2_group]. unfold sub3, scal3. cbn [b0 b1 b2].
  rewrite minus_INR by lia. cbn [INR].
  f_equal. f_equal; f_equal; unfold dx, dy; field; repeat split; try exact NZ; lra.
Qed.
Theorem C90_straight_line_se2_zero_iff co si dx dy : co * co + si * si = 1 ->
  ((co - 1) * dx + si * dy = 0 /\ - si * dx + (co - 1) * dy = 0) <-> (co = 1 /\ si = 0) \/ (dx = 0 /\ dy = 0).
Proof.
  intros U. split.
  - intros [A B].
    assert (C : (2 - 2 * co) * (dx * dx + dy * dy) = 0).
    { replace ((2 - 2 * co) * (dx * dx + dy * dy)) with
        (((co * co + si * si) - 2 * co + 1) * (dx * dx + dy * dy)) by (rewrite U; ring).
      replace (((co * co + si * si) - 2 * co + 1) * (dx * dx + dy * dy)) with
        (((co - 1) * dx + si * dy) * ((co - 1) * dx + si * dy) + (- si * dx + (co - 1) * dy) * (- si * dx + (co - 1) * dy)) by ring.
      rewrite A, B. ring. }
    apply Rmult_integral in C as [C|C].
    + left. assert (co = 1) by lra. subst. split; [easy|]. nra.
    + right. split; nra.
  - intros [[-> ->]|[-> ->]]; split; ring.
Qed.

(** ** trajectory tensors *)
Definition wf (n m : nat) (t : ten2) : Prop := t2_n t = n /\ t2_m t = m.
Lemma fill_spec cast p d n is : forall t,
  t3_n t = n -> NoDup is ->
  (forall i, In i is -> exists v, lookup (idx "pose" i) d = Some v /\ (t2_n v = n \/ t2_n v = 1%nat) /\ t2_m v = pose_numel p) ->
  (forall i w, In i is -> lookup (idx "vel" i) d = Some w -> (t2_n w = n \/ t2_n w = 1%nat) /\ t2_m w = dof p) ->
  exists t', fill cast p d is t = Ok t' /\ t3_n t' = n /\ t3_m t' = t3_m t /\ t3_k t' = t3_k t
    /\ forall b r j, (b < n)%nat ->
       t3_at t' b r j =
         if in_dec Nat.eq_dec j is then
           if (r <? pose_numel p)%nat then
             match lookup (idx "pose" j) d with Some v => cast (t2_at v (bcast (t2_n v) b) r) | None => 0 end
           else if (r <? pose_numel p + dof p)%nat then
             match lookup (idx "vel" j) d with Some w => cast (t2_at w (bcast (t2_n w) b) (r - pose_numel p)) | None => t3_at t b r j end
           else t3_at t b r j
         else t3_at t b r j.
Proof.
  induction is as [|i is IH]; intros t Hn ND HP HV.
  { exists t. cbn. auto. }
  cbn [fill]. destruct (HP i (or_introl eq_refl)) as [v [L [N M]]]. rewrite L.
  inversion ND as [|x l NI ND']; subst x l.
  assert (pn1 : (pose_numel p =? 1)%nat = false) by (destruct p; reflexivity).
  assert (dn1 : (dof p =? 1)%nat = false) by (destruct p; reflexivity).
  unfold set_cols at 1.
  replace (((t2_n v =? t3_n t) || (t2_n v =? 1)) && ((t2_m v =? pose_numel p) || (t2_m v =? 1)))%nat%bool with true.
  2:{ symmetry. apply andb_true_iff. split; apply orb_true_iff; [|left; now apply Nat.eqb_eq].
      destruct N; [left|right]; apply Nat.eqb_eq; congruence. }
  cbn [rbind t3_n t3_m t3_k].
  assert (BM : forall k, bcast (t2_m v) k = k) by (intros k; unfold bcast; rewrite M, pn1; reflexivity).
  set (t1 := mkT3 _ _ _ _).
  assert (G : exists t2, match lookup (idx "vel" i) d with Some w => set_cols cast t1 (pose_numel p) (dof p) i w | None => Ok t1 end = Ok t2
     /\ t3_n t2 = n /\ t3_m t2 = t3_m t /\ t3_k t2 = t3_k t
     /\ forall b r j, t3_at t2 b r j = if (j =? i)%nat then
           (if (r <? pose_numel p)%nat then cast (t2_at v (bcast (t2_n v) b) r)
            else if (r <? pose_numel p + dof p)%nat then
             match lookup (idx "vel" j) d with Some w => cast (t2_at w (bcast (t2_n w) b) (r - pose_numel p)) | None => t3_at t b r j end
            else t3_at t b r j) else t3_at t b r j).
  { destruct (lookup (idx "vel" i) d) as [w|] eqn:LV.
    - destruct (HV i w (or_introl eq_refl) LV) as [NW MW]. unfold set_cols.
      replace (((t2_n w =? t3_n t1) || (t2_n w =? 1)) && ((t2_m w =? dof p) || (t2_m w =? 1)))%nat%bool with true.
      2:{ symmetry. apply andb_true_iff. split; apply orb_true_iff; [|left; now apply Nat.eqb_eq].
          cbn [t1 t3_n]. destruct NW; [left|right]; apply Nat.eqb_eq; congruence. }
      eexists. split; [reflexivity|]. cbn [t3_n t3_m t3_k t1]. split; [easy|]. split; [easy|]. split; [easy|].
      assert (BW : forall k, bcast (t2_m w) k = k) by (intros k; unfold bcast; rewrite MW, dn1; reflexivity).
      intros b r j. cbn [t3_at t1]. destruct (Nat.eqb_spec j i) as [->|NE]; [|reflexivity].
      rewrite LV, BM, BW. rewrite Nat.sub_0_r. cbn [andb Nat.leb Nat.add].
      destruct (Nat.ltb_spec r (pose_numel p)).
      + destruct (Nat.leb_spec (pose_numel p) r); [lia|]. reflexivity.
      + destruct (Nat.leb_spec (pose_numel p) r); [|lia]. cbn [andb].
        destruct (r <? pose_numel p + dof p)%nat; [reflexivity|]. reflexivity.
    - eexists. split; [reflexivity|]. cbn [t3_n t3_m t3_k t1]. split; [easy|]. split; [easy|]. split; [easy|].
      intros b r j. cbn [t3_at t1]. destruct (Nat.eqb_spec j i) as [->|NE]; [|reflexivity].
      rewrite LV, BM. rewrite Nat.sub_0_r. cbn [andb Nat.leb Nat.add].
      destruct (r <? pose_numel p)%nat; [reflexivity|]. destruct (r <? pose_numel p + dof p)%nat; reflexivity. }
  destruct G as [t2 [E2 [N2 [M2 [K2 A2]]]]]. rewrite E2. cbn [rbind].
  destruct (IH t2 N2 ND') as [t' [F [N' [M' [K' A']]]]].
  { intros k Hk. apply HP. now right. }
  { intros k w Hk. apply HV. now right. }
  exists t'. split; [easy|]. split; [easy|]. split; [congruence|]. split; [congruence|].
  intros b r j Hb. rewrite A' by easy. rewrite !A2.
  destruct (in_dec Nat.eq_dec j is) as [I|NI'].
  - destruct (in_dec Nat.eq_dec j (i :: is)) as [_|C]; [|exfalso; apply C; now right].
    destruct (Nat.eqb_spec j i) as [->|NE]; [contradiction|reflexivity].
  - destruct (in_dec Nat.eq_dec j (i :: is)) as [I|C].
    + destruct I as [<-|I]; [|contradiction]. rewrite Nat.eqb_refl, L. reflexivity.
    + destruct (Nat.eqb_spec j i) as [->|NE]; [exfalso; apply C; now left|reflexivity].
Qed.

(** get_trajectory of a dictionary with a pose for every time: position and
    velocity of time j are in column j, converted to torch's default dtype;
    zero where no velocity is given; an entry with one row serves all rows *)
Theorem C90_get_trajectory cast c n d :
  (forall i, (i <= c_num_time_steps c)%nat -> exists v, lookup (idx "pose" i) d = Some v /\ (t2_n v = n \/ t2_n v = 1%nat) /\ t2_m v = pose_numel (c_pose_type c)) ->
  (forall i w, (i <= c_num_time_steps c)%nat -> lookup (idx "vel" i) d = Some w -> (t2_n w = n \/ t2_n w = 1%nat) /\ t2_m w = dof (c_pose_type c)) ->
  exists t, get_trajectory cast c (Some n) d = Ok t
    /\ t3_n t = n /\ t3_m t = (pose_numel (c_pose_type c) + dof (c_pose_type c))%nat /\ t3_k t = (c_num_time_steps c + 1)%nat
    /\ forall b i, (b < n)%nat -> (i <= c_num_time_steps c)%nat ->
       (forall v r, lookup (idx "pose" i) d = Some v -> (r < pose_numel (c_pose_type c))%nat -> t3_at t b r i = cast (t2_at v (bcast (t2_n v) b) r))
       /\ (forall w r, lookup (idx "vel" i) d = Some w -> (r < dof (c_pose_type c))%nat -> t3_at t b (pose_numel (c_pose_type c) + r) i = cast (t2_at w (bcast (t2_n w) b) r))
       /\ (forall r, lookup (idx "vel" i) d = None -> (r < dof (c_pose_type c))%nat -> t3_at t b (pose_numel (c_pose_type c) + r) i = 0).
Proof.
  intros HP HV. unfold get_trajectory.
  destruct (fill_spec cast (c_pose_type c) d n (seq 0 (trajectory_len c))
    (mkT3 n (pose_numel (c_pose_type c) + dof (c_pose_type c)) (trajectory_len c) (fun _ _ _ => 0))) as [t [F [N [M [K A]]]]].
  { reflexivity. }
  { apply seq_NoDup. }
  { intros i Hi. apply in_seq in Hi. apply HP. unfold trajectory_len in Hi. lia. }
  { intros i w Hi. apply in_seq in Hi. apply HV. unfold trajectory_len in Hi. lia. }
  exists t. split; [exact F|]. split; [easy|]. split; [exact M|]. split; [exact K|].
  intros b i Hb Hi.
  assert (I : In i (seq 0 (trajectory_len c))) by (apply in_seq; unfold trajectory_len; lia).
  split; [|split].
  - intros v r L Hr. rewrite A by easy. destruct (in_dec Nat.eq_dec i _); [|contradiction].
    apply Nat.ltb_lt in Hr. rewrite Hr, L. reflexivity.
  - intros w r L Hr. rewrite A by easy. destruct (in_dec Nat.eq_dec i _); [|contradiction].
    rewrite (proj2 (Nat.ltb_ge _ _)) by lia. rewrite (proj2 (Nat.ltb_lt _ _)) by lia. rewrite L.
    do 2 f_equal. lia.
  - intros r L Hr. rewrite A by easy. destruct (in_dec Nat.eq_dec i _); [|contradiction].
    rewrite (proj2 (Nat.ltb_ge _ _)) by lia. rewrite (proj2 (Nat.ltb_lt _ _)) by lia. rewrite L. reflexivity.
Qed.
Theorem C90_get_trajectory_raises cast c d :
  get_trajectory cast c None d = Err TypeErr
  /\ forall n, (exists i, (i <= c_num_time_steps c)%nat /\ lookup (idx "pose" i) d = None) -> exists e, get_trajectory cast c (Some n) d = Err e.
Proof.
  split; [reflexivity|]. intros n [i [Hi L]]. unfold get_trajectory.
  assert (I : In i (seq 0 (trajectory_len c))) by (apply in_seq; unfold trajectory_len; lia).
  revert I. generalize (mkT3 n (pose_numel (c_pose_type c) + dof (c_pose_type c)) (trajectory_len c) (fun _ _ _ => 0)).
  induction (seq 0 (trajectory_len c)) as [|j l IH]; intros t I; [easy|].
  cbn [fill]. destruct (lookup (idx "pose" j) d) as [v|] eqn:E; [|eauto].
  destruct I as [<-|I]; [congruence|].
  destruct (set_cols cast t 0 _ j v) as [t1|e]; [|cbn; eauto]. cbn [rbind].
  destruct (match lookup (idx "vel" j) d with Some w => _ | None => _ end) as [t2|e]; [|cbn; eauto]. cbn [rbind].
  now apply IH.
Qed.

(** taking a trajectory apart and putting it together again gives the
    trajectory, converted to torch's default dtype *)
Theorem C90_trajectory_round_trip cast c t d :
  values_from_trajectory c t = Ok d -> 
  exists t', get_trajectory cast c (Some (t3_n t)) d = Ok t'
    /\ t3_n t' = t3_n t /\ t3_m t' = t3_m t /\ t3_k t' = t3_k t
    /\ forall b r i, (b < t3_n t)%nat -> (r < t3_m t)%nat -> (i < t3_k t)%nat -> t3_at t' b r i = cast (t3_at t b r i).
Proof.
  unfold values_from_trajectory. destruct (_ && _)%bool eqn:E; [|discriminate]. apply andb_true_iff in E as [E1 E2].
  apply Nat.eqb_eq in E1, E2. intros H. injection H as H.
  set (P := fun i => mkT2 (t3_n t) (pose_numel (c_pose_type c)) (fun b r => t3_at t b r i)).
  set (V := fun i => mkT2 (t3_n t) (t3_m t - pose_numel (c_pose_type c)) (fun b r => t3_at t b (pose_numel (c_pose_type c) + r)%nat i)).
  change (flat_map (pv P V) (seq 0 (trajectory_len c)) = d) in H.
  assert (LP : forall i, (i <= c_num_time_steps c)%nat -> lookup (idx "pose" i) d = Some (P i)).
  { intros i Hi. rewrite <- H. apply lookup_pose. apply in_seq. unfold trajectory_len. lia. }
  assert (LV : forall i, (i <= c_num_time_steps c)%nat -> lookup (idx "vel" i) d = Some (V i)).
  { intros i Hi. rewrite <- H. apply lookup_vel. apply in_seq. unfold trajectory_len. lia. }
  destruct (C90_get_trajectory cast c (t3_n t) d) as [t' [F [N [M [K A]]]]].
  { intros i Hi. exists (P i). split; [auto|]. split; [now left|reflexivity]. }
  { intros i w Hi L. rewrite LV in L by easy. injection L as <-. split; [now left|]. cbn. lia. }
  exists t'. split; [easy|]. split; [easy|]. split; [lia|]. split; [unfold trajectory_len in E2; lia|].
  intros b r i Hb Hr Hi. assert (Hi' : (i <= c_num_time_steps c)%nat) by (unfold trajectory_len in E2; lia).
  destruct (A b i Hb Hi') as [A1 [A2 _]].
  assert (BC : bcast (t3_n t) b = b).
  { unfold bcast. destruct (Nat.eqb_spec (t3_n t) 1); [|reflexivity]. lia. }
  destruct (Nat.lt_ge_cases r (pose_numel (c_pose_type c))) as [L|L].
  - rewrite (A1 _ r (LP i Hi') L). cbn [P t2_n t2_at]. now rewrite BC.
  - replace r with (pose_numel (c_pose_type c) + (r - pose_numel (c_pose_type c)))%nat at 1 by lia.
    rewrite (A2 _ _ (LV i Hi')) by lia. cbn [V t2_n t2_at]. rewrite BC. do 2 f_equal. lia.
Qed.
(** and conversely *)
Theorem C90_values_round_trip c n d t :
  (forall i, (i <= c_num_time_steps c)%nat -> exists v w, lookup (idx "pose" i) d = Some v /\ wf n (pose_numel (c_pose_type c)) v
      /\ lookup (idx "vel" i) d = Some w /\ wf n (dof (c_pose_type c)) w) ->
  get_trajectory (fun x => x) c (Some n) d = Ok t ->
  exists d', values_from_trajectory c t = Ok d' /\
    forall i b r, (i <= c_num_time_steps c)%nat -> (b < n)%nat ->
      ((r < pose_numel (c_pose_type c))%nat -> entry d' b (idx "pose" i) r = entry d b (idx "pose" i) r)
      /\ ((r < dof (c_pose_type c))%nat -> entry d' b (idx "vel" i) r = entry d b (idx "vel" i) r).
Proof.
  intros W H.
  destruct (C90_get_trajectory (fun x => x) c n d) as [t' [F [N [M [K A]]]]].
  { intros i Hi. destruct (W i Hi) as (v & w & L & [A B] & _). exists v. auto. }
  { intros i w' Hi L'. destruct (W i Hi) as (v & w & _ & _ & L & [A B]). rewrite L in L'. injection L' as <-. auto. }
  rewrite H in F. injection F as <-.
  unfold values_from_trajectory. rewrite M, K, !Nat.eqb_refl. cbn [andb].
  eexists. split; [reflexivity|]. intros i b r Hi Hb.
  set (P := fun i => mkT2 (t3_n t) (pose_numel (c_pose_type c)) (fun b r => t3_at t b r i)).
  set (V := fun i => mkT2 (t3_n t) (pose_numel (c_pose_type c) + dof (c_pose_type c) - pose_numel (c_pose_type c)) (fun b r => t3_at t b (pose_numel (c_pose_type c) + r)%nat i)).
  change (flat_map _ (seq 0 (trajectory_len c))) with (flat_map (pv P V) (seq 0 (trajectory_len c))).
  assert (I : In i (seq 0 (trajectory_len c))) by (apply in_seq; unfold trajectory_len; lia).
  destruct (W i Hi) as (v & w & L1 & [N1 M1] & L2 & [N2 M2]).
  destruct (A b i Hb Hi) as [A1 [A2 _]].
  assert (BC : forall k, k = n -> bcast k b = b).
  { intros k ->. unfold bcast. destruct (Nat.eqb_spec n 1); [|reflexivity]. lia. }
  unfold entry. rewrite lookup_pose, lookup_vel by easy. rewrite L1, L2. cbn [P V t2_at].
  split; intros Hr.
  - rewrite (A1 _ _ L1 Hr). now rewrite BC.
  - rewrite (A2 _ _ L2 Hr). now rewrite BC.
Qed.
(** the tensor returned is of torch's default dtype, not of the planner's: with
    a conversion that changes some number, some trajectory does not come back *)
Theorem C90_trajectory_dtype_refuted cast x : cast x <> x ->
  exists c t d t', values_from_trajectory c t = Ok d /\ get_trajectory cast c (Some 1%nat) d = Ok t'
    /\ t3_at t 0 0 0 = x /\ t3_at t' 0 0 0 <> x.
Proof.
  intros Hx.
  set (c := mkC 1 1 1 1 (fun _ _ => 1) 1 true PPoint2 F64 0 0).
  set (t := mkT3 1 4 2 (fun _ _ _ => x)).
  destruct (values_from_trajectory c t) as [d|] eqn:E; [|discriminate].
  destruct (C90_trajectory_round_trip cast c t d E) as [t' [F [_ [_ [_ A]]]]].
  exists c, t, d, t'. split; [easy|]. split; [exact F|]. split; [reflexivity|].
  rewrite A by (cbn; lia). exact Hx.
Qed.

(** ** HingeCost as the planner uses it *)
Theorem C90_positive_vel v r :
  positive_vel_error v r = (if (r =? 0)%nat then Rmax 0 (1 - v 0%nat) else 0).
Proof.
  unfold positive_vel_error, hinge_ext. destruct r as [|r].
  - cbn [ext_add ext_lt ext_sub Nat.eqb]. unfold where_, lt_b. destruct (Rlt_dec (v 0%nat) (0 + 1)).
    + rewrite Rmax_right by lra. lra.
    + rewrite Rmax_left by lra. reflexivity.
  - cbn [ext_add ext_lt Nat.eqb]. reflexivity.
Qed.
(** it wants a forward velocity of at least 1, not a positive one; in
    particular at time 0, where the planner also wants velocity zero *)
Theorem C90_positive_vel_refuted :
  exists v, 0 < v 0%nat /\ positive_vel_error v 0 <> 0.
Proof.
  exists (fun _ => / 2). split; [lra|]. rewrite C90_positive_vel. cbn [Nat.eqb]. rewrite Rmax_right by lra. lra.
Qed.
Theorem C90_positive_vel_conflict v : v 0%nat = 0 -> positive_vel_error v 0 = 1.
Proof. intros H. rewrite C90_positive_vel, H. cbn [Nat.eqb]. rewrite Rmax_right by lra. ring. Qed.
