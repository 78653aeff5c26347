(** C86, proofs: cameras, files, projection, losses *)
From Coq Require Import Reals Lra Psatz List Arith Lia Bool ZArith.
From Verif Require Import Geo_spec Geo3_spec Geo4_spec SE2_model SO3_model SO3_group SO3_exp SO3_log SE3_model SE3_group
  Emb2_model Emb2_spec Reproj_props G2o_model Syn_model Ba_model Ba_spec.
Import ListNotations.
Local Open Scope R_scope.

Lemma near_trans a b m n p : near_m3 a m n -> near_m3 b n p -> near_m3 (a + b) m p.
Proof.
  unfold near_m3. intros (A0 & A1 & A2 & A3 & A4 & A5 & A6 & A7 & A8) (B0 & B1 & B2 & B3 & B4 & B5 & B6 & B7 & B8).
  assert (T : forall x y z, Rabs (x - y) <= a -> Rabs (y - z) <= b -> Rabs (x - z) <= a + b).
  { intros x y z X Y. replace (x - z) with ((x - y) + (y - z)) by ring. eapply Rle_trans; [apply Rabs_triang|]. lra. }
  repeat match goal with |- _ /\ _ => split end; eapply T; eassumption.
Qed.
Lemma near_mono a b m n : a <= b -> near_m3 a m n -> near_m3 b m n.
Proof. unfold near_m3. intros L H. repeat match goal with |- _ /\ _ => split end; eapply Rle_trans; try exact L; apply H. Qed.
Lemma near_refl a m : 0 <= a -> near_m3 a m m.
Proof. intros H. unfold near_m3, Rminus. rewrite !Rplus_opp_r, Rabs_R0. tauto. Qed.

Lemma log_len d g v th : rotation3 g -> rot_angle g th -> so3_near_zero_eps d <= th -> so3_log d g = Some v -> len3 v = th.
Proof.
  intros Hg RA B L. apply (rot_theta g th Hg) in RA. destruct (axis_angle g Hg) as (t & a & T & A & E & _).
  rewrite E, AA_theta in RA by assumption. subst t. rewrite E in L. rewrite <- norm3_len.
  destruct (Rle_dec (1 + cos th) (so3_near_pi_eps d)) as [P|P].
  - destruct (log_pi d th a T A P) as [[_ K]|[[_ K]|[_ [TP K]]]]; rewrite K in L; [discriminate| |];
      injection L as <-; rewrite norm3_scal by exact A; [apply Rabs_pos_eq; lra|rewrite Rabs_Ropp; apply Rabs_pos_eq; lra].
  - rewrite log_mid in L by (try assumption; lra). injection L as <-. rewrite norm3_scal by exact A. apply Rabs_pos_eq; lra.
Qed.

(** A camera turned into its nine parameters and back *)
Theorem C86_camera_params : forall d c, rigid3 (c_pose c) ->
  length (to_params d (Some c)) = 9%nat /\
  (bad_half_turn d (rr (c_pose c)) -> from_params (to_params d (Some c)) = None) /\
  (~ bad_half_turn d (rr (c_pose c)) -> exists c', from_params (to_params d (Some c)) = Some c' /\ same_camera d c c').
Proof.
  intros d c Hc. pose proof (C36_log_defined d (rr (c_pose c)) Hc) as LD.
  split; [unfold to_params; destruct (so3_log d (rr (c_pose c))); reflexivity|].
  split; intros B; unfold to_params.
  - rewrite (proj2 LD B). reflexivity.
  - destruct (so3_log d (rr (c_pose c))) as [v|] eqn:L; [|exfalso; apply B; apply LD; reflexivity].
    destruct (C36_log_is_logarithm d _ v Hc L) as (_ & m & M & N & X).
    destruct (C36_exp_rotation F64 v) as (g & EG & RG).
    cbn [app from_params]. replace (mkV3 (b0 v) (b1 v) (b2 v)) with v by (now destruct v). rewrite EG. cbv beta iota delta [bind].
    eexists. split; [reflexivity|]. unfold same_camera. cbn [c_pose c_f c_k1 c_k2 rr rp].
    pose proof (so3_eps_pos d) as EP. pose proof (so3_eps_pos F64) as EP64.
    assert (LE : so3_near_zero_eps F64 <= so3_near_zero_eps d) by (destruct d; cbn; lra).
    split; [now destruct (rp (c_pose c))|]. split; [reflexivity|]. split; [reflexivity|]. split; [reflexivity|].
    split; [exact RG|]. split.
    + destruct (Rlt_le_dec (len3 v) (so3_near_zero_eps F64)) as [S|S].
      * pose proof (C36_exp_small_angle F64 v g m S EG M) as NS.
        apply (near_mono (len3 v ^ 3 / 10 + so3_near_zero_eps d ^ 5)); [|eapply near_trans; eassumption].
        assert (0 <= len3 v) by (unfold len3; apply sqrt_pos).
        assert (len3 v ^ 3 <= so3_near_zero_eps d ^ 3) by (apply pow_incr; lra).
        assert (Q2 : so3_near_zero_eps d ^ 2 <= / 100) by (clear -EP; set (e := so3_near_zero_eps d) in *; clearbody e; simpl; nra).
        assert (Q3 : 0 < so3_near_zero_eps d ^ 3) by (apply pow_lt; lra).
        replace (so3_near_zero_eps d ^ 5) with (so3_near_zero_eps d ^ 3 * so3_near_zero_eps d ^ 2) by ring.
        set (q3 := so3_near_zero_eps d ^ 3) in *. set (q2 := so3_near_zero_eps d ^ 2) in *. clearbody q3 q2. nra.
      * apply (proj1 (C36_exp_is_exponential F64 v g (or_introl S) EG m)) in M. subst m.
        apply (near_mono (so3_near_zero_eps d ^ 5)); [|exact N].
        assert (Q2 : so3_near_zero_eps d ^ 2 <= 1) by (clear -EP; set (e := so3_near_zero_eps d) in *; clearbody e; simpl; nra).
        assert (Q3 : 0 < so3_near_zero_eps d ^ 3) by (apply pow_lt; lra).
        replace (so3_near_zero_eps d ^ 5) with (so3_near_zero_eps d ^ 3 * so3_near_zero_eps d ^ 2) by ring.
        set (q3 := so3_near_zero_eps d ^ 3) in *. set (q2 := so3_near_zero_eps d ^ 2) in *. clearbody q3 q2. nra.
    + intros th RA B'. pose proof (log_len d _ v th Hc RA B' L) as LV.
      destruct (X ltac:(lra)) as [-> _].
      assert (B64 : so3_near_zero_eps F64 <= len3 v) by (rewrite LV; lra).
      apply (proj1 (C36_exp_is_exponential F64 v g (or_introl B64) EG _)) in M.
      destruct c as [[r t] f k1 k2]. cbn [c_pose c_f c_k1 c_k2 rr rp] in *. rewrite <- M. now destruct t.
Qed.

(** ** files *)
Lemma load_floats_lines xs rest : load_floats (length xs) (num_lines xs ++ rest) = Ret (xs, rest).
Proof. induction xs as [|x xs IH]; [reflexivity|]. cbn. unfold num_lines in IH. rewrite IH. reflexivity. Qed.
Lemma load_obs_lines obs rest : load_obs (length obs) (map obs_line obs ++ rest) = Ret (obs, rest).
Proof.
  induction obs as [|o obs IH]; [reflexivity|]. destruct o as [i j [[x y]|]]; cbn; rewrite IH; reflexivity.
Qed.
Lemma load_cams_lines d cs rest : exists ls, cam_lines d (map OCam cs) = Ret ls /\
  load_cams (length cs) (ls ++ rest) = Ret (map (fun c => from_params (to_params d c)) cs, rest).
Proof.
  induction cs as [|c cs IH]; [exists []; split; reflexivity|]. destruct IH as (ls & E & L).
  exists (num_lines (to_params d c) ++ ls). split; [cbn [map cam_lines]; rewrite E; reflexivity|].
  cbn [length map load_cams]. assert (L9 : length (to_params d c) = 9%nat) by (destruct c as [c|]; [cbn; destruct (so3_log d (rr (c_pose c)))|]; reflexivity).
  rewrite <- app_assoc. rewrite <- L9 at 1. rewrite load_floats_lines. cbv beta iota delta [ebind]. rewrite L. reflexivity.
Qed.
Lemma load_pts_lines ps rest : exists ls, pt_lines (map OPt ps) = Ret ls /\
  load_pts (length ps) (ls ++ rest) = Ret (ps, rest).
Proof.
  induction ps as [|p ps IH]; [exists []; split; reflexivity|]. destruct IH as (ls & E & L).
  exists (num_lines (point_params p) ++ ls). split; [cbn [map pt_lines]; rewrite E; reflexivity|].
  cbn [length load_pts]. rewrite <- app_assoc.
  assert (L3 : length (point_params p) = 3%nat) by (destruct p; reflexivity).
  rewrite <- L3 at 1. rewrite load_floats_lines. cbv beta iota delta [ebind]. rewrite L.
  destruct p as [[x y z]|]; reflexivity.
Qed.

(** A problem written to a file and read back: the observations and the points are what they were, and so
    are the cameras, as far as their nine parameters allow. What follows in the file is ignored. *)
Theorem C86_file : forall d cams pts obs rest,
  (forall c, In c cams -> rigid3 (c_pose c) /\ ~ bad_half_turn d (rr (c_pose c))) ->
  exists ls cams', save_bal_dataset d (map OCam (map Some cams)) (map OPt pts) obs = Ret ls /\
    load_bal_dataset (ls ++ rest) = Ret (map Some cams', pts, obs) /\ Forall2 (same_camera d) cams cams'.
Proof.
  intros d cams pts obs rest Hc.
  destruct (load_pts_lines pts rest) as (pl & EP & LP).
  destruct (load_cams_lines d (map Some cams) (pl ++ rest)) as (cl & EC & LC).
  assert (X : exists cams', map (fun c => from_params (to_params d c)) (map Some cams) = map Some cams' /\ Forall2 (same_camera d) cams cams').
  { clear -Hc. induction cams as [|c cams IH]; [exists []; split; [reflexivity|constructor]|].
    destruct (IH (fun x Hx => Hc x (or_intror Hx))) as (cs & E & F). destruct (Hc c (or_introl eq_refl)) as [Rc Bc].
    destruct (proj2 (proj2 (C86_camera_params d c Rc)) Bc) as (c' & Ec & Sc). exists (c' :: cs). cbn [map]. rewrite Ec, E. split; [reflexivity|now constructor]. }
  destruct X as (cams' & EX & FX). rewrite EX in LC.
  unfold save_bal_dataset. rewrite EC, EP. cbv beta iota delta [ebind].
  eexists. exists cams'. split; [reflexivity|]. split; [|exact FX].
  rewrite !map_length in *. unfold load_bal_dataset. cbn [app readline int_of ebind].
  rewrite !Nat2Z.id. rewrite <- !app_assoc. rewrite load_obs_lines. cbv beta iota delta [ebind].
  rewrite LC, LP. reflexivity.
Qed.

(** What is read has the sizes the first line says, and a file that ends too early is refused. *)
Lemma load_floats_len n : forall f xs g, load_floats n f = Ret (xs, g) -> length xs = n /\ length f = (n + length g)%nat.
Proof.
  induction n as [|n IH]; intros f xs g H; cbn in H; [injection H as <- <-; split; reflexivity|].
  destruct f as [|l f]; cbn [readline] in H; [discriminate|].
  destruct (float_line l) as [x|]; [|discriminate]. cbn [ebind] in H.
  destruct (load_floats n f) as [[r g']|] eqn:E; [|discriminate]. cbn [ebind] in H. injection H as <- <-.
  destruct (IH _ _ _ E) as [A B]. cbn. lia.
Qed.
Lemma load_obs_len n : forall f xs g, load_obs n f = Ret (xs, g) -> length xs = n /\ length f = (n + length g)%nat.
Proof.
  induction n as [|n IH]; intros f xs g H; cbn [load_obs] in H; [injection H as <- <-; split; reflexivity|].
  destruct f as [|l f]; cbn [readline] in H; [discriminate|].
  destruct (tok_at l 2) as [t2|]; [|discriminate]. cbn [ebind] in H. destruct (float_of t2) as [x|]; [|discriminate]. cbn [ebind] in H.
  destruct (tok_at l 3) as [t3|]; [|discriminate]. cbn [ebind] in H. destruct (float_of t3) as [y|]; [|discriminate]. cbn [ebind] in H.
  destruct (tok_at l 0) as [t0|]; [|discriminate]. cbn [ebind] in H. destruct (int_of t0) as [i|]; [|discriminate]. cbn [ebind] in H.
  destruct (tok_at l 1) as [t1|]; [|discriminate]. cbn [ebind] in H. destruct (int_of t1) as [j|]; [|discriminate]. cbn [ebind] in H.
  destruct (load_obs n f) as [[r g']|] eqn:E; [|discriminate]. cbn [ebind] in H. injection H as <- <-.
  destruct (IH _ _ _ E) as [A B]. cbn [length]. lia.
Qed.
Lemma load_cams_len n : forall f xs g, load_cams n f = Ret (xs, g) -> length xs = n /\ length f = (9 * n + length g)%nat.
Proof.
  induction n as [|n IH]; intros f xs g H; cbn [load_cams] in H; [injection H as <- <-; split; reflexivity|].
  destruct (load_floats 9 f) as [[ps f']|] eqn:EF; [|discriminate]. cbn [ebind] in H.
  destruct (load_cams n f') as [[r g']|] eqn:E; [|discriminate]. cbn [ebind] in H. injection H as <- <-.
  destruct (IH _ _ _ E) as [A B]. apply load_floats_len in EF. cbn [length]. lia.
Qed.
Lemma load_pts_len n : forall f xs g, load_pts n f = Ret (xs, g) -> length xs = n /\ length f = (3 * n + length g)%nat.
Proof.
  induction n as [|n IH]; intros f xs g H; cbn [load_pts] in H; [injection H as <- <-; split; reflexivity|].
  destruct (load_floats 3 f) as [[ps f']|] eqn:EF; [|discriminate]. cbn [ebind] in H.
  destruct (load_pts n f') as [[r g']|] eqn:E; [|discriminate]. cbn [ebind] in H. injection H as <- <-.
  destruct (IH _ _ _ E) as [A B]. apply load_floats_len in EF. cbn [length]. lia.
Qed.
Theorem C86_file_sizes : forall f cams pts obs, load_bal_dataset f = Ret (cams, pts, obs) ->
  exists nc np no body, f = [TInt nc; TInt np; TInt no] :: body /\
    length cams = Z.to_nat nc /\ length pts = Z.to_nat np /\ length obs = Z.to_nat no /\
    (Z.to_nat no + 9 * Z.to_nat nc + 3 * Z.to_nat np <= length body)%nat.
Proof.
  intros f cams pts obs H. unfold load_bal_dataset in H. destruct f as [|l f]; cbn [readline] in H; [discriminate|].
  destruct l as [|tc [|tp [|to [|]]]]; try discriminate.
  destruct tc as [|nc|]; try discriminate. destruct tp as [|np|]; try discriminate. destruct to as [|no|]; try discriminate.
  cbn [int_of ebind] in H.
  destruct (load_obs (Z.to_nat no) f) as [[os f1]|] eqn:E1; [|discriminate]. cbn [ebind] in H.
  destruct (load_cams (Z.to_nat nc) f1) as [[cs f2]|] eqn:E2; [|discriminate]. cbn [ebind] in H.
  destruct (load_pts (Z.to_nat np) f2) as [[ps f3]|] eqn:E3; [|discriminate]. cbn [ebind] in H. injection H as <- <- <-.
  apply load_obs_len in E1. apply load_cams_len in E2. apply load_pts_len in E3.
  exists nc, np, no, f. split; [reflexivity|]. lia.
Qed.

(** With a ground truth file the loaded ground truth cameras are its points and the ground truth points
    its cameras; such a problem cannot be saved with its ground truth. *)
Theorem C86_ground_truth_refuted : forall f g cams pts obs gcams gpts gobs d,
  load_bal_dataset f = Ret (cams, pts, obs) -> load_bal_dataset g = Ret (gcams, gpts, gobs) ->
  exists b, load_from_file f (Some g) = Ret b /\ ba_cams b = cams /\ ba_pts b = pts /\ ba_obs b = obs /\
    ba_gt_cams b = Some (map OPt gpts) /\ ba_gt_pts b = Some (map OCam gcams) /\
    (gcams <> [] \/ gpts <> [] -> save_to_file d b true = Raise AttributeError).
Proof.
  intros f g cams pts obs gcams gpts gobs d Hf Hg. unfold load_from_file. rewrite Hf. cbn [ebind]. rewrite Hg. cbn [ebind].
  eexists. split; [reflexivity|]. cbn [ba_cams ba_pts ba_obs ba_gt_cams ba_gt_pts].
  split; [reflexivity|]. split; [reflexivity|]. split; [reflexivity|]. split; [reflexivity|]. split; [reflexivity|].
  intros NE. unfold save_to_file. cbn [ba_cams ba_pts ba_obs ba_gt_cams ba_gt_pts].
  assert (S : exists ls, save_bal_dataset d (map OCam cams) (map OPt pts) obs = Ret ls).
  { destruct (load_cams_lines d cams []) as (cl & EC & _). destruct (load_pts_lines pts []) as (pl & EP & _).
    unfold save_bal_dataset. rewrite EC, EP. cbn [ebind]. eauto. }
  destruct S as (ls & ->). cbn [ebind]. unfold save_bal_dataset.
  destruct gpts as [|p gpts]; [|reflexivity]. cbn [map cam_lines ebind]. destruct gcams as [|c gcams]; [now destruct NE|]. reflexivity.
Qed.

(** ** projection *)
Theorem C86_projection : forall c p q, project_point (Some c) (Some p) = Some q <-> sees c p q.
Proof.
  intros c p q. pose proof (C59_reprojection_error (c_f c) (c_k1 c) (c_k2 c) (mkV2 0 0) (c_pose c) p) as [N S]. cbv zeta in *.
  unfold project_point. cbn [bind]. unfold reproj_error in N, S. unfold sees.
  change (add3 (rp (c_pose c)) (app3 (rr (c_pose c)) p)) with (se3_transform (c_pose c) p).
  set (x := se3_transform (c_pose c) p) in *. clearbody x.
  destruct (Req_EM_T (b2 x) 0) as [E|E].
  - rewrite E. unfold div_. destruct (Req_EM_T 0 0); [|easy]. cbn [bind]. split; [discriminate|]. intros [H _]. now destruct H.
  - specialize (S E). unfold div_ in *. destruct (Req_EM_T (b2 x) 0); [easy|]. cbn [bind] in *. cbn [a0 a1] in S. injection S as S0 S1.
    rewrite !Rminus_0_r in S0, S1. rewrite S0, S1. split.
    + intros H. injection H as <-. split; [exact E|reflexivity].
    + intros [_ ->]. reflexivity.
Qed.
(** the reprojection error of an observation is zero exactly when the feature is the projection of the point *)
Theorem C86_projection_error : forall c p ft, b2 (se3_transform (c_pose c) p) <> 0 ->
  (reproj_error (c_f c) (c_k1 c) (c_k2 c) ft (c_pose c) p = Some (mkV2 0 0) <-> project_point (Some c) (Some p) = Some ft).
Proof.
  intros c p ft N. rewrite C86_projection.
  rewrite (proj2 (C59_reprojection_error (c_f c) (c_k1 c) (c_k2 c) ft (c_pose c) p) N). unfold sees.
  change (add3 (rp (c_pose c)) (app3 (rr (c_pose c)) p)) with (se3_transform (c_pose c) p).
  set (X := image_x _ _ _ _ _ _). set (Y := image_y _ _ _ _ _ _). destruct ft as [fx fy]. cbn [a0 a1]. split.
  - intros H. injection H as HX HY. split; [exact N|]. f_equal; lra.
  - intros [_ H]. injection H as -> ->. f_equal. f_equal; ring.
Qed.
