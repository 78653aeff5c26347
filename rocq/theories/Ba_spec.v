(** C86, specification: the camera model, and what a synthetic bundle adjustment problem is. *)
From Coq Require Import Reals List Arith Bool ZArith.
From Verif Require Import Geo_spec Geo3_spec Geo4_spec SE2_model SO3_model SE3_model Emb2_spec G2o_model Ba_model.
Import ListNotations.
Local Open Scope R_scope.

(** the image of a point of the world in a camera, if it is not in the plane of the camera *)
Definition sees (c : Camera) (p : V3) (q : V2) : Prop :=
  let x := add3 (rp (c_pose c)) (app3 (rr (c_pose c)) p) in
  b2 x <> 0 /\ q = mkV2 (image_x (c_f c) (c_k1 c) (c_k2 c) (b0 x) (b1 x) (b2 x)) (image_y (c_f c) (c_k1 c) (c_k2 c) (b0 x) (b1 x) (b2 x)).

(** a camera read back from a file: all but the rotation is what was written, and the rotation is too
    unless its angle is tiny *)
Definition same_camera (d : dtype) (c c' : Camera) : Prop :=
  rp (c_pose c') = rp (c_pose c) /\ c_f c' = c_f c /\ c_k1 c' = c_k1 c /\ c_k2 c' = c_k2 c /\
  rotation3 (rr (c_pose c')) /\ near_m3 (so3_near_zero_eps d ^ 3) (rr (c_pose c')) (rr (c_pose c)) /\
  (forall th, rot_angle (rr (c_pose c)) th -> so3_near_zero_eps d <= th -> c' = c).
(** the rotations that have no logarithm: the half turns (up to the threshold) about an axis in the y-z plane, halfway
    between the two coordinate axes *)
Definition bad_half_turn (d : dtype) (g : M3) : Prop :=
  (1 + d00 g + d11 g + d22 g) / 2 <= so3_near_pi_eps d /\ 2 * d00 g = d00 g + d11 g + d22 g - 1 /\ d11 g = d22 g.

(** the numbers torch.rand can return *)
Definition in01 (x : R) : Prop := 0 <= x < 1.
Definition in01_3 (u : V3) : Prop := in01 (b0 u) /\ in01 (b1 u) /\ in01 (b2 u).
Definition in01_2 (u : V2) : Prop := in01 (a0 u) /\ in01 (a1 u).
Definition pose_draw (u : PoseDraw) : Prop := in01 (pd_1 u) /\ in01 (pd_2 u) /\ in01 (pd_3 u) /\ in01_3 (pd_t u).
Definition cam_draw (u : CamDraw) : Prop := pose_draw (cd_pose u) /\ in01 (cd_f u) /\ in01 (cd_k1 u) /\ in01 (cd_k2 u).
Definition obs_draw (u : ObsDraw) : Prop := in01_2 (od_feat u) /\ in01 (od_w u) /\ in01_2 (od_out u).
(** the numbers torch.randperm(n) can return *)
Definition is_perm (n : nat) (l : list nat) : Prop := NoDup l /\ length l = n /\ forall x, In x l -> (x < n)%nat.

Definition close (r x y : R) : Prop := Rabs (x - y) <= r.
Definition close3 (r : R) (p q : V3) : Prop := close r (b0 p) (b0 q) /\ close r (b1 p) (b1 q) /\ close r (b2 p) (b2 q).
Definition close2 (r : R) (p q : V2) : Prop := close r (a0 p) (a0 q) /\ close r (a1 p) (a1 q).
Definition degrees (x : R) : R := x * PI / 180.

(** camera [c'] is camera [c] moved by a rigid motion, a rotation by at most [rot] degrees and a
    translation by at most [pos] along each axis *)
Definition moved (rot pos : R) (c c' : Camera) : Prop :=
  exists h th, rigid3 h /\ rot_angle (rr h) th /\ 0 <= th <= degrees rot /\ close3 pos (rp h) zero3 /\
    c_pose c' = se3_compose h (c_pose c) /\ c_f c' = c_f c /\ c_k1 c' = c_k1 c /\ c_k2 c' = c_k2 c.
(** camera [c] faces the points: its pose is a rotation by at most [rot] degrees, at most [pos] from [t] *)
Definition placed (rot pos : R) (t : V3) (c : Camera) : Prop :=
  rigid3 (c_pose c) /\ (exists th, rot_angle (rr (c_pose c)) th /\ 0 <= th <= degrees rot) /\ close3 pos (rp (c_pose c)) t.

(** the observations a camera makes: [k] different points *)
Definition of_cam (i : nat) (l : list Obs) : list Obs := filter (fun o => (o_cam o =? Z.of_nat i)%Z) l.
Definition points_of (l : list Obs) : list Z := map o_pt l.
(** the observation [o] is of the point it names by the camera it names, at most [r] off along each image axis
    (unless the point is in the plane of the camera) *)
Definition good_obs (r : R) (gt_cams : list Camera) (gt_pts : list V3) (o : Obs) : Prop :=
  exists i j c p, o_cam o = Z.of_nat i /\ o_pt o = Z.of_nat j /\ nth_error gt_cams i = Some c /\ nth_error gt_pts j = Some p /\
    forall q, sees c p q -> exists f, o_feat o = Some f /\ close2 r f q.
(** what torch.randperm and torch.rand can return for the observations of each camera: a permutation of [span]
    numbers and the noise of [k] observations *)
Definition draws_ok (span k : nat) (draws : list (list nat * list ObsDraw)) : Prop :=
  forall perm us, In (perm, us) draws -> is_perm span perm /\ length us = k /\ Forall obs_draw us.
(** a pixel error *)
Definition pixel_error (cams : list Camera) (pts : list V3) (o : Obs) (e : R) : Prop :=
  exists i j c p q f, o_cam o = Z.of_nat i /\ o_pt o = Z.of_nat j /\ nth_error cams i = Some c /\ nth_error pts j = Some p /\
    sees c p q /\ o_feat o = Some f /\ e = sqrt ((a0 f - a0 q) ^ 2 + (a1 f - a1 q) ^ 2).
