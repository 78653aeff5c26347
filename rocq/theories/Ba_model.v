(** Model of theseus/utils/examples/bundle_adjustment/data.py and util.py. A file is a list of lines, a line
    the list of its tokens, as in G2o_model. Real arithmetic replaces floating point; printing a number and
    parsing it back is exact; [None] is a tensor with a nan entry. Names, dtypes (except for the thresholds
    of the logarithm) and batches of more than one camera are not modelled. Random numbers are inputs. *)
From Coq Require Import Reals List Arith Bool ZArith.
From Verif Require Import Geo_spec Geo3_spec Geo4_spec SE2_model SO3_model SE3_model G2o_model Syn_model.
Import ListNotations.
Local Open Scope R_scope.

(** data.py 16-27 *)
Record Camera := mkCam { c_pose : Rig; c_f : R; c_k1 : R; c_k2 : R }.
(** data.py 29-41 (to_params): rotation vector, translation, focal length, distortion *)
Definition to_params (d : dtype) (c : option Camera) : list (option R) :=
  match c with
  | None => repeat None 9
  | Some c =>
    let t := rp (c_pose c) in
    match so3_log d (rr (c_pose c)) with
    | Some v => [Some (b0 v); Some (b1 v); Some (b2 v)]
    | None => [None; None; None]
    end ++ [Some (b0 t); Some (b1 t); Some (b2 t); Some (c_f c); Some (c_k1 c); Some (c_k2 c)]
  end.
(** data.py 43-60 (from_params), float64 *)
Definition from_params (ps : list (option R)) : option Camera :=
  match ps with
  | [Some x; Some y; Some z; Some a; Some b; Some c; Some f; Some k1; Some k2] =>
      do r <- so3_exp F64 (mkV3 x y z); Some (mkCam (mkRig r (mkV3 a b c)) f k1 k2)
  | _ => None
  end.
(** data.py 62-69 (project_point) *)
Definition project_point (c : option Camera) (p : option V3) : option V2 :=
  do c <- c; do p <- p;
  let point_cam := se3_transform (c_pose c) p in
  do px <- div_ (- b0 point_cam) (b2 point_cam);
  do py <- div_ (- b1 point_cam) (b2 point_cam);
  let proj_sqn := px * px + py * py in
  let proj_factor := c_f c * (1 + proj_sqn * (c_k1 c + proj_sqn * c_k2 c)) in
  Some (mkV2 (px * proj_factor) (py * proj_factor)).

(** util.py 41-45 (random_s2) *)
Definition random_s2 (u1 u2 : R) : V3 :=
  let theta := u1 * (2 * PI) in let z := u2 * 2 - 1 in let r := sqrt (1 - z ^ 2) in
  mkV3 (r * cos theta) (r * sin theta) z.
(** util.py 49-58 (random_s3) *)
Definition random_s3 (u v w : R) : Quat :=
  mkQ (sqrt (1 - u) * sin (2 * PI * v)) (sqrt (1 - u) * cos (2 * PI * v)) (sqrt u * sin (2 * PI * w)) (sqrt u * cos (2 * PI * w)).
(** util.py 61-71 (random_small_quaternion) *)
Definition random_small_quaternion (max_degrees min_degrees : R) (u1 u2 u3 : R) : Quat :=
  let a := random_s2 u1 u2 in
  let theta := (min_degrees + (max_degrees - min_degrees) * u3) * (2 * PI) / 360 in
  mkQ (cos theta) (sin theta * b0 a) (sin theta * b1 a) (sin theta * b2 a).

(** (torch.rand(..) * 2 - 1) * r + base *)
Definition spread (r base u : R) : R := (u * 2 - 1) * r + base.
Definition spread3 (r : R) (base u : V3) : V3 :=
  mkV3 (spread r (b0 base) (b0 u)) (spread r (b1 base) (b1 u)) (spread r (b2 base) (b2 u)).
(** the numbers drawn for a perturbation: for the quaternion and for the translation *)
Record PoseDraw := mkPD { pd_1 : R; pd_2 : R; pd_3 : R; pd_t : V3 }.
(** data.py 71-93 (perturbed) *)
Definition perturbed (rot_random pos_random : R) (u : PoseDraw) (c : option Camera) : option Camera :=
  do pert <- se3_from_xyz_quaternion (spread3 pos_random zero3 (pd_t u)) (random_small_quaternion rot_random 0 (pd_1 u) (pd_2 u) (pd_3 u));
  do c <- c;
  Some (mkCam (se3_compose pert (c_pose c)) (c_f c) (c_k1 c) (c_k2 c)).
(** data.py 95-142 (Camera.generate_synthetic) *)
Record CamDraw := mkCD { cd_pose : PoseDraw; cd_f : R; cd_k1 : R; cd_k2 : R }.
Definition gen_camera (rot_random pos_random : R) (pos_base : V3) (fl_random fl_base k1_random k1_base k2_random k2_base : R)
  (u : CamDraw) : option Camera :=
  do pose <- se3_from_xyz_quaternion (spread3 pos_random pos_base (pd_t (cd_pose u)))
               (random_small_quaternion rot_random 0 (pd_1 (cd_pose u)) (pd_2 (cd_pose u)) (pd_3 (cd_pose u)));
  Some (mkCam pose (spread fl_random fl_base (cd_f u)) (spread k1_random k1_base (cd_k1 u)) (spread k2_random k2_base (cd_k2 u))).

(** data.py 145-151 *)
Record Obs := mkObs { o_cam : Z; o_pt : Z; o_feat : option V2 }.
(** what a list of ground truth cameras or points can hold *)
Inductive Obj := OCam (c : option Camera) | OPt (p : option V3).
(** data.py 154-167 *)
Record BA := mkBA { ba_cams : list (option Camera); ba_pts : list (option V3); ba_obs : list Obs;
  ba_gt_cams : option (list Obj); ba_gt_pts : option (list Obj) }.

(** float(token), float(line) *)
Definition float_of (t : tok) : exc (option R) :=
  match t with TWord _ => Raise ValueError | TInt z => Ret (Some (IZR z)) | TNum x => Ret x end.
Definition float_line (l : list tok) : exc (option R) := match l with [t] => float_of t | _ => Raise ValueError end.
(** readline: at the end of the file an empty line *)
Definition readline (f : list (list tok)) : list tok * list (list tok) := match f with [] => ([], []) | l :: f => (l, f) end.
(** data.py 178-193 *)
Fixpoint load_obs (n : nat) (f : list (list tok)) : exc (list Obs * list (list tok)) :=
  match n with
  | O => Ret ([], f)
  | S n =>
    let '(fields, f) := readline f in
    let! t2 := tok_at fields 2 in let! x := float_of t2 in
    let! t3 := tok_at fields 3 in let! y := float_of t3 in
    let! t0 := tok_at fields 0 in let! i := int_of t0 in
    let! t1 := tok_at fields 1 in let! j := int_of t1 in
    let! (os, f) := load_obs n f in
    Ret (mkObs i j (do x <- x; do y <- y; Some (mkV2 x y)) :: os, f)
  end.
(** data.py 196-198 and 202-204: n numbers, one a line *)
Fixpoint load_floats (n : nat) (f : list (list tok)) : exc (list (option R) * list (list tok)) :=
  match n with
  | O => Ret ([], f)
  | S n => let '(l, f) := readline f in let! x := float_line l in
           let! (r, f) := load_floats n f in Ret (x :: r, f)
  end.
(** data.py 195-199 *)
Fixpoint load_cams (n : nat) (f : list (list tok)) : exc (list (option Camera) * list (list tok)) :=
  match n with
  | O => Ret ([], f)
  | S n => let! (ps, f) := load_floats 9 f in let! (r, f) := load_cams n f in Ret (from_params ps :: r, f)
  end.
(** data.py 201-210 *)
Definition point_of (ps : list (option R)) : option V3 :=
  match ps with [Some x; Some y; Some z] => Some (mkV3 x y z) | _ => None end.
Fixpoint load_pts (n : nat) (f : list (list tok)) : exc (list (option V3) * list (list tok)) :=
  match n with
  | O => Ret ([], f)
  | S n => let! (ps, f) := load_floats 3 f in let! (r, f) := load_pts n f in Ret (point_of ps :: r, f)
  end.
(** data.py 169-211 (load_bal_dataset) *)
Definition load_bal_dataset (f : list (list tok)) : exc (list (option Camera) * list (option V3) * list Obs) :=
  let '(l, f) := readline f in
  match l with
  | [tc; tp; to] =>
      let! nc := int_of tc in let! np := int_of tp in let! no := int_of to in
      let! (obs, f) := load_obs (Z.to_nat no) f in
      let! (cams, f) := load_cams (Z.to_nat nc) f in
      let! (pts, f) := load_pts (Z.to_nat np) f in
      Ret (cams, pts, obs)
  | _ => Raise ValueError
  end.

(** data.py 213-233 (save_bal_dataset): the lines it writes; a point has no to_params, a camera no tensor *)
Definition feat_toks (p : option V2) : list tok :=
  match p with Some p => [TNum (Some (a0 p)); TNum (Some (a1 p))] | None => [TNum None; TNum None] end.
Definition obs_line (o : Obs) : list tok := [TInt (o_cam o); TInt (o_pt o)] ++ feat_toks (o_feat o).
Definition point_params (p : option V3) : list (option R) :=
  match p with Some p => [Some (b0 p); Some (b1 p); Some (b2 p)] | None => [None; None; None] end.
Definition num_lines (xs : list (option R)) : list (list tok) := map (fun x => [TNum x]) xs.
Fixpoint cam_lines (d : dtype) (l : list Obj) : exc (list (list tok)) :=
  match l with
  | [] => Ret []
  | OCam c :: l => let! r := cam_lines d l in Ret (num_lines (to_params d c) ++ r)
  | OPt _ :: _ => Raise AttributeError
  end.
Fixpoint pt_lines (l : list Obj) : exc (list (list tok)) :=
  match l with
  | [] => Ret []
  | OPt p :: l => let! r := pt_lines l in Ret (num_lines (point_params p) ++ r)
  | OCam _ :: _ => Raise AttributeError
  end.
Definition save_bal_dataset (d : dtype) (cams pts : list Obj) (obs : list Obs) : exc (list (list tok)) :=
  let header := [TInt (Z.of_nat (length cams)); TInt (Z.of_nat (length pts)); TInt (Z.of_nat (length obs))] in
  let! cl := cam_lines d cams in
  let! pl := pt_lines pts in
  Ret (header :: map obs_line obs ++ cl ++ pl).

(** data.py 235-248 (load_from_file): the first two results of load_bal_dataset(gt_path) are called
    gt_points, gt_cameras *)
Definition load_from_file (f : list (list tok)) (gt : option (list (list tok))) : exc BA :=
  let! (cams, pts, obs) := load_bal_dataset f in
  match gt with
  | None => Ret (mkBA cams pts obs None None)
  | Some g =>
      let! (gt_points, gt_cameras, _) := load_bal_dataset g in
      Ret (mkBA cams pts obs (Some (map OPt gt_cameras)) (Some (map OCam gt_points)))
  end.
(** data.py 250-257 (save_to_file); len(None) is a TypeError *)
Definition save_to_file (d : dtype) (b : BA) (with_gt : bool) : exc (list (list tok) * option (list (list tok))) :=
  let! f := save_bal_dataset d (map OCam (ba_cams b)) (map OPt (ba_pts b)) (ba_obs b) in
  if with_gt then
    match ba_gt_cams b, ba_gt_pts b with
    | Some gc, Some gp => let! g := save_bal_dataset d gc gp (ba_obs b) in Ret (f, Some g)
    | _, _ => Raise TypeError
    end
  else Ret (f, None).

(** self.cameras[k]: negative indices count from the end *)
Definition py_nth {A} (l : list A) (k : Z) : exc A :=
  let n := Z.of_nat (length l) in
  let k := if (k <? 0)%Z then (k + n)%Z else k in
  if (k <? 0)%Z then Raise IndexError else
  match nth_error l (Z.to_nat k) with Some x => Ret x | None => Raise IndexError end.
(** data.py 262-266: the error of one observation; int(nan) is a ValueError *)
Definition obs_error (b : BA) (o : Obs) : exc R :=
  let! c := py_nth (ba_cams b) (o_cam o) in
  let! p := py_nth (ba_pts b) (o_pt o) in
  match project_point c p, o_feat o with
  | Some q, Some f => Ret (sqrt ((a0 f - a0 q) ^ 2 + (a1 f - a1 q) ^ 2))
  | _, _ => Raise ValueError
  end.
Fixpoint mapE {A B} (f : A -> exc B) (l : list A) : exc (list B) :=
  match l with [] => Ret [] | x :: l => let! y := f x in let! r := mapE f l in Ret (y :: r) end.
(** data.py 267: min(int(error), 10) *)
Definition bucket1 (x : R) : nat := Nat.min (Z.to_nat (Int_part x)) 10.
(** data.py 259-277 (histogram): the counts; round(nan) is a ValueError *)
Definition ba_histogram (b : BA) : exc (list nat) :=
  let! errs := mapE (obs_error b) (ba_obs b) in
  let counts := fold_left (fun l x => incr (bucket1 x) l) errs (repeat 0%nat 11) in
  if forallb (Nat.eqb 0) counts then Raise ValueError else Ret counts.

(** the numbers drawn for one observation: noise, whether it is an outlier, noise of an outlier *)
Record ObsDraw := mkOD { od_feat : V2; od_w : R; od_out : V2 }.
Definition add_spread (r : R) (q u : V2) : V2 := mkV2 (a0 q + (a0 u * 2 - 1) * r) (a1 q + (a1 u * 2 - 1) * r).
(** data.py 325-342: one observation *)
Definition gen_obs (feat_random prob_outlier outlier_random : R) (gt_cams : list (option Camera)) (gt_pts : list V3)
  (i j : nat) (u : ObsDraw) : exc Obs :=
  match nth_error gt_cams i, nth_error gt_pts j with
  | Some c, Some p =>
      let feat := do q <- project_point c (Some p);
                  let q := add_spread feat_random q (od_feat u) in
                  Some (if Rlt_dec (od_w u) prob_outlier then add_spread outlier_random q (od_out u) else q) in
      Ret (mkObs (Z.of_nat i) (Z.of_nat j) feat)
  | _, _ => Raise IndexError
  end.
(** data.py 320-324: the points of camera i: randperm(span_size)[:pts_per_cam] + span_start *)
Definition span_size (np pts_per_cam loc : nat) : nat := Nat.min (pts_per_cam + loc) np.
Definition span_start (nc np pts_per_cam loc i : nat) : nat := ((np - span_size np pts_per_cam loc) * i / nc)%nat.
Definition obs_pts (nc np pts_per_cam loc i : nat) (perm : list nat) : list nat :=
  map (fun j => j + span_start nc np pts_per_cam loc i)%nat (firstn pts_per_cam perm).
(** all the observations: [draws] has for each camera the permutation and the numbers of its observations *)
Fixpoint gen_all (fr po orr : R) (gt_cams : list (option Camera)) (gt_pts : list V3) (nc np ppc loc i : nat)
  (draws : list (list nat * list ObsDraw)) : exc (list Obs) :=
  match draws with
  | [] => Ret []
  | (perm, us) :: draws =>
      let! os := mapE (fun ju => gen_obs fr po orr gt_cams gt_pts i (fst ju) (snd ju)) (combine (obs_pts nc np ppc loc i perm) us) in
      let! r := gen_all fr po orr gt_cams gt_pts nc np ppc loc (S i) draws in
      Ret (os ++ r)
  end.
(** data.py 279-346 (generate_synthetic): [cds], [pds] the numbers drawn for the cameras and their
    perturbations, [gps], [ps] for the points and theirs. The counts are natural numbers and
    track_locality is not negative. *)
Definition generate_synthetic (nc np avg : nat) (track_locality fr po orr : R)
  (cds : list CamDraw) (pds : list PoseDraw) (gps ps : list V3) (draws : list (list nat * list ObsDraw)) : exc BA :=
  if (nc =? 1)%nat then Raise ZeroDivisionError else
  let gt_cams := map (fun iu => gen_camera 20 1 (mkV3 (- INR (fst iu) * 100 / (INR nc - 1)) 0 (- (100))) 100 1000 (1 / 10) 0 (1 / 20) 0 (snd iu))
                     (combine (seq 0 nc) cds) in
  let cams := map (fun cu => perturbed (1 / 10) (1 / 5) (snd cu) (fst cu)) (combine gt_cams pds) in
  let gt_pts := map (fun iu => spread3 20 (mkV3 (INR (fst iu) * 100 / INR np) 0 0) (snd iu)) (combine (seq 0 np) gps) in
  let pts := map (fun pu => Some (spread3 (1 / 5) (fst pu) (snd pu))) (combine gt_pts ps) in
  if (nc =? 0)%nat then Raise ZeroDivisionError else
  let pts_per_cam := (avg * np / nc)%nat in
  let loc := Z.to_nat (Int_part (track_locality * INR np)) in
  let! obs := gen_all fr po orr gt_cams gt_pts nc np pts_per_cam loc 0 draws in
  Ret (mkBA cams pts obs (Some (map OCam gt_cams)) (Some (map (fun p => OPt (Some p)) gt_pts))).

(** util.py 14-22 (soft_loss_cauchy): value and derivative *)
Definition soft_loss_cauchy (x radius : R) : R * R :=
  let ratio := (x + radius) / radius in (ln ratio * radius, 1 / ratio).
(** util.py 25-33 (soft_loss_huber_like) *)
Definition soft_loss_huber_like (x radius : R) : R * R :=
  let ratio := (x + radius) / radius in let sq := sqrt ratio in ((sq - 1) * radius, (1 / 2) / sq).
