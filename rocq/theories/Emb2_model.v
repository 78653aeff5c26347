(** Model of the remaining cost functions of theseus/embodied: Reprojection,
    HingeCost, Nonholonomic, QuasiStaticPushingPlanar, Collision2D and
    EffectorObjectContactPlanar with SignedDistanceField2D, and GPCostWeight,
    for one batch element.  A division by zero or a failed assertion is [None]. *)
From Coq Require Import Reals List Arith ZArith.
Import ListNotations.
From Verif Require Import Geo_spec Geo3_spec Geo4_spec RSum SE2_model SO3_model SE3_model Emb_model.
Local Open Scope R_scope.

(** ** embodied/measurements/reprojection.py *)
(** the entries of Jacobians as torch tensors *)
Definition v3_at (v : V3) (i : nat) : R := match i with 0%nat => b0 v | 1%nat => b1 v | _ => b2 v end.
Definition m3_row (m : M3) (i : nat) : V3 := match i with
  | 0%nat => mkV3 (d00 m) (d01 m) (d02 m) | 1%nat => mkV3 (d10 m) (d11 m) (d12 m) | _ => mkV3 (d20 m) (d21 m) (d22 m) end.
Definition m3_at (m : M3) (i j : nat) : R := v3_at (m3_row m i) j.
Definition m36_at (m : M36) (i j : nat) : R := if Nat.ltb j 3 then m3_at (ml m) i j else m3_at (ma m) i (j - 3).
(** torch.cat(..., dim=2) of the 3x6 and the 3x3 Jacobian *)
Definition cat_cols (Jg : M36) (Jp : M3) (i j : nat) : R := if Nat.ltb j 6 then m36_at Jg i j else m3_at Jp i (j - 6).
(** embodied/measurements/reprojection.py:54-64 (error) *)
Definition reproj_error (f k1 k2 : R) (feature : V2) (camera_pose : Rig) (world_point : V3) : option V2 :=
  let point_cam := se3_transform camera_pose world_point in
  do px <- div_ (- b0 point_cam) (b2 point_cam);
  do py <- div_ (- b1 point_cam) (b2 point_cam);
  let proj_sqn := px * px + py * py in
  let proj_factor := f * (1 + proj_sqn * (k1 + proj_sqn * k2)) in
  Some (mkV2 (px * proj_factor - a0 feature) (py * proj_factor - a1 feature)).
(** reprojection.py:66-94 (jacobians): the 2x6 and the 2x3 slice of point_projection_jac *)
Definition reproj_jacobians (f k1 k2 : R) (feature : V2) (camera_pose : Rig) (world_point : V3)
  : option (list (nat -> nat -> R) * V2) :=
  let point_cam := se3_transform camera_pose world_point in
  let '(Jg, Jp) := se3_transform_jac camera_pose world_point in
  let J := cat_cols Jg Jp in
  do px <- div_ (- b0 point_cam) (b2 point_cam);
  do py <- div_ (- b1 point_cam) (b2 point_cam);
  let proj i := match i with 0%nat => px | _ => py end in
  let proj_sqn := px * px + py * py in
  let proj_factor := f * (1 + proj_sqn * (k1 + proj_sqn * k2)) in
  let d_proj_factor := f * (k1 + 2 * proj_sqn * k2) in
  let num_dden_den i j := v3_at point_cam i * (J 2%nat j / b2 point_cam) in
  let proj_jac i j := (num_dden_den i j - J i j) / b2 point_cam in
  let proj_sqn_jac i j := 2 * proj i * rsum 2 (fun k => proj k * proj_jac k j) in
  let point_projection_jac i j := proj_jac i j * proj_factor + proj_sqn_jac i j * d_proj_factor in
  Some ([(fun i j => point_projection_jac i j); (fun i j => point_projection_jac i (6 + j)%nat)],
        mkV2 (px * proj_factor - a0 feature) (py * proj_factor - a1 feature)).

(** ** embodied/motionmodel/misc.py: HingeCost *)
(** embodied/motionmodel/misc.py:38-40, 44-49: the checks of the constructor, on a batch of limits and
    thresholds (rows) *)
Definition hinge_accepts (down up threshold : list (list R)) : Prop :=
  Forall2 (Forall2 Rle) down up
  /\ ~ (forall row x, In row threshold -> In x row -> x < 0).
(** misc.py:62-72 (_compute_error), one component: error, below, above *)
Definition hinge_error (down up threshold v : R) : R * bool * bool :=
  let down_limit := down + threshold in
  let up_limit := up - threshold in
  let below_idx := lt_b v down_limit in
  let above_idx := lt_b up_limit v in
  let error := 0 in
  let error := where_ below_idx (down_limit - v) error in
  let error := where_ above_idx (v - up_limit) error in
  (error, below_idx, above_idx).
(** misc.py:77-84 (jacobians): entry (i, j) of J *)
Definition hinge_jac (down up threshold v : nat -> R) (i j : nat) : R :=
  let '(_, below, above) := hinge_error (down i) (up i) (threshold i) (v i) in
  let J := 0 in
  let J := if (Nat.eqb i j && below)%bool then - 1 else J in
  if (Nat.eqb i j && above)%bool then 1 else J.

(** misc.py:126-178: Nonholonomic, with an SE2 pose and with a vector pose *)
Definition nonhol_se2_error (pose : SE2) (vel : V3) : R := b1 vel.
Definition nonhol_se2_jac (pose : SE2) (vel : V3) : V3 * V3 := (mkV3 0 0 0, mkV3 0 1 0).
Definition nonhol_vec_error (pose vel : V3) : R := b1 vel * cos (b2 pose) - b0 vel * sin (b2 pose).
Definition nonhol_vec_jac (pose vel : V3) : V3 * V3 :=
  let c := cos (b2 pose) in let s := sin (b2 pose) in
  (mkV3 0 0 (- (b1 vel * s + b0 vel * c)), mkV3 (- s) c 0).

(** ** embodied/motionmodel/quasi_static_pushing_planar.py *)
Definition mul23_3 (m : M23) (n : M3) : M23 := mkM23
  (e00 m * d00 n + e01 m * d10 n + e02 m * d20 n) (e00 m * d01 n + e01 m * d11 n + e02 m * d21 n) (e00 m * d02 n + e01 m * d12 n + e02 m * d22 n)
  (e10 m * d00 n + e11 m * d10 n + e12 m * d20 n) (e10 m * d01 n + e11 m * d11 n + e12 m * d21 n) (e10 m * d02 n + e11 m * d12 n + e12 m * d22 n).
Definition mul2_23 (m : M2) (n : M23) : M23 := mkM23
  (c00 m * e00 n + c01 m * e10 n) (c00 m * e01 n + c01 m * e11 n) (c00 m * e02 n + c01 m * e12 n)
  (c10 m * e00 n + c11 m * e10 n) (c10 m * e01 n + c11 m * e11 n) (c10 m * e02 n + c11 m * e12 n).
(** 2x1 times 1x3 *)
Definition mul21_13 (u : V2) (v : V3) : M23 := mkM23 (a0 u * b0 v) (a0 u * b1 v) (a0 u * b2 v) (a1 u * b0 v) (a1 u * b1 v) (a1 u * b2 v).
Definition add23 (m n : M23) : M23 := mkM23 (e00 m + e00 n) (e01 m + e01 n) (e02 m + e02 n) (e10 m + e10 n) (e11 m + e11 n) (e12 m + e12 n).
Definition neg23 (m : M23) : M23 := mkM23 (- e00 m) (- e01 m) (- e02 m) (- e10 m) (- e11 m) (- e12 m).
(** row vector times 3x3 *)
Definition vmul3 (v : V3) (m : M3) : V3 := app3 (tr3 m) v.
Definition row23 (m : M23) (i : nat) : V3 := match i with 0%nat => mkV3 (e00 m) (e01 m) (e02 m) | _ => mkV3 (e10 m) (e11 m) (e12 m) end.
(** transpose of the matrix with the given columns *)
Definition of_rows (r0 r1 r2 : V3) : M3 := mkM3 (b0 r0) (b1 r0) (b2 r0) (b0 r1) (b1 r1) (b2 r1) (b0 r2) (b1 r2) (b2 r2).
Definition sub2 (u v : V2) : V2 := mkV2 (a0 u - a0 v) (a1 u - a1 v).

(** quasi_static_pushing_planar.py:47-71 (_compute_D) *)
Definition push_D (obj2 : SE2) (c_square : R) (contact_point_2 : V2) : M3 :=
  let cp := se2_transform_to obj2 contact_point_2 in
  let px := a0 cp in let py := a1 cp in
  mkM3 1 0 (- py) 0 1 px (- py) px (- c_square).
(** quasi_static_pushing_planar.py:77-93: the derivative of D with respect to component [dim] of a variable, from the 2x3 Jacobian *)
Definition push_J_D (J : M23) (dim : nat) : M3 :=
  let jx := v3_at (row23 J 0) dim in let jy := v3_at (row23 J 1) dim in
  mkM3 0 0 (- jy) 0 0 jx (- jy) jx 0.
Definition push_J_D_o2 (obj2 : SE2) (contact_point_2 : V2) : nat -> M3 := push_J_D (se2_transform_to_Jg obj2 contact_point_2).
Definition push_J_D_e2 (obj2 eff2 : SE2) (contact_point_2 : V2) : nat -> M3 :=
  push_J_D (mul2_23 (se2_transform_to_Jpnt obj2) (se2_xy_jac eff2)).
(** quasi_static_pushing_planar.py:96-124 (_compute_V) *)
Definition push_V (obj1 obj2 : SE2) : V3 :=
  let vel_xy_obj__world := sub2 (se2_xy obj2) (se2_xy obj1) in
  let vel_xy_obj__obj := so2_unrotate (se2_rotation obj2) vel_xy_obj__world in
  mkV3 (a0 vel_xy_obj__obj) (a1 vel_xy_obj__obj) (se2_theta (se2_between obj1 obj2)).
(** quasi_static_pushing_planar.py:129-157: its derivatives with respect to obj1 and obj2; [_get_J_V_var] stacks a 2x3 and a 1x3 Jacobian *)
Definition push_J_V (obj1 obj2 : SE2) : M3 * M3 :=
  let rot := se2_rotation obj2 in
  let vel_xy_obj__world := sub2 (se2_xy obj2) (se2_xy obj1) in
  let J_o2angle_o2 := se2_theta_jac obj2 in
  let J_vxyow_o2 := se2_xy_jac obj2 in
  let J_vxyow_o1 := neg23 (se2_xy_jac obj1) in
  let J_vxyoo_o2angle := so2_unrotate_Jrot rot vel_xy_obj__world in
  let J_vxyoo_vxyow := so2_unrotate_Jpnt rot in
  let J_vxyoo_o1 := mul2_23 J_vxyoo_vxyow J_vxyow_o1 in
  let J_vxyoo_o2 := add23 (mul21_13 J_vxyoo_o2angle J_o2angle_o2) (mul2_23 J_vxyoo_vxyow J_vxyow_o2) in
  let '(J_odw_o1, J_odw_o2) := se2_between_jac obj1 obj2 in
  let J_omega_odw := se2_theta_jac (se2_between obj1 obj2) in
  let J_omega_o1 := vmul3 J_omega_odw J_odw_o1 in
  let J_omega_o2 := vmul3 J_omega_odw J_odw_o2 in
  (of_rows (row23 J_vxyoo_o1 0) (row23 J_vxyoo_o1 1) J_omega_o1, of_rows (row23 J_vxyoo_o2 0) (row23 J_vxyoo_o2 1) J_omega_o2).
(** quasi_static_pushing_planar.py:160-211 (_compute_Vp) *)
Definition push_Vp (obj2 eff1 eff2 : SE2) : V3 :=
  let vel_xy_contact__world := sub2 (se2_xy eff2) (se2_xy eff1) in
  let v := so2_unrotate (se2_rotation obj2) vel_xy_contact__world in
  mkV3 (a0 v) (a1 v) 0.
Definition push_J_Vp (obj2 eff1 eff2 : SE2) : M3 * M3 * M3 :=
  let rot := se2_rotation obj2 in
  let vel_xy_contact__world := sub2 (se2_xy eff2) (se2_xy eff1) in
  let J_vxyco_o2angle := so2_unrotate_Jrot rot vel_xy_contact__world in
  let J_vxyco_vxycw := so2_unrotate_Jpnt rot in
  let J_vxyco_o2 := mul21_13 J_vxyco_o2angle (se2_theta_jac obj2) in
  let J_vxyco_e1 := mul2_23 J_vxyco_vxycw (neg23 (se2_xy_jac eff1)) in
  let J_vxyco_e2 := mul2_23 J_vxyco_vxycw (se2_xy_jac eff2) in
  let get J := of_rows (row23 J 0) (row23 J 1) (mkV3 0 0 0) in
  (get J_vxyco_o2, get J_vxyco_e1, get J_vxyco_e2).
(** quasi_static_pushing_planar.py:213-238 (error) *)
Definition push_error (c_square : R) (obj1 obj2 eff1 eff2 : SE2) : V3 :=
  let cp2 := se2_xy eff2 in
  sub3 (app3 (push_D obj2 c_square cp2) (push_V obj1 obj2)) (push_Vp obj2 eff1 eff2).
(** quasi_static_pushing_planar.py:243-276: J[:, dim] = J_D[dim] V + D J_V[:, dim] - J_Vp[:, dim] *)
Definition col3 (m : M3) (j : nat) : V3 := match j with
  | 0%nat => mkV3 (d00 m) (d10 m) (d20 m) | 1%nat => mkV3 (d01 m) (d11 m) (d21 m) | _ => mkV3 (d02 m) (d12 m) (d22 m) end.
Definition of_cols (f : nat -> V3) : M3 :=
  let c0 := f 0%nat in let c1 := f 1%nat in let c2 := f 2%nat in
  mkM3 (b0 c0) (b0 c1) (b0 c2) (b1 c0) (b1 c1) (b1 c2) (b2 c0) (b2 c1) (b2 c2).
Definition push_J_err (D : M3) (V : V3) (J_D : option (nat -> M3)) (J_V J_Vp : option M3) : M3 :=
  of_cols (fun dim =>
    let acc := mkV3 0 0 0 in
    let acc := match J_D with Some f => add3 acc (app3 (f dim) V) | None => acc end in
    let acc := match J_V with Some m => add3 acc (app3 D (col3 m dim)) | None => acc end in
    match J_Vp with Some m => sub3 acc (col3 m dim) | None => acc end).
Definition push_jacobians (c_square : R) (obj1 obj2 eff1 eff2 : SE2) : list M3 * V3 :=
  let cp2 := se2_xy eff2 in
  let D := push_D obj2 c_square cp2 in
  let V := push_V obj1 obj2 in
  let J_D_o2 := push_J_D_o2 obj2 cp2 in
  let J_D_e2 := push_J_D_e2 obj2 eff2 cp2 in
  let '(J_V_o1, J_V_o2) := push_J_V obj1 obj2 in
  let '(J_Vp_o2, J_Vp_e1, J_Vp_e2) := push_J_Vp obj2 eff1 eff2 in
  ([push_J_err D V None (Some J_V_o1) None;
    push_J_err D V (Some J_D_o2) (Some J_V_o2) (Some J_Vp_o2);
    push_J_err D V None None (Some J_Vp_e1);
    push_J_err D V (Some J_D_e2) None (Some J_Vp_e2)],
   sub3 (app3 D V) (push_Vp obj2 eff1 eff2)).

(** ** embodied/collision/signed_distance_field.py *)
(** [rows], [cols]: the shape of sdf_data; [num_rows], [num_cols]: the
    attributes _num_rows and _num_cols *)
Record SDF := mkSDF { sd_ox : R; sd_oy : R; sd_cell : R; sd_data : nat -> nat -> R; sd_rows : nat; sd_cols : nat;
  sd_num_rows : nat; sd_num_cols : nat; sd_boundary : R }.
(** signed_distance_field.py:19-49 (__init__ with sdf_data) *)
Definition sdf_init (ox oy cell : R) (rows cols : nat) (data : nat -> nat -> R) : SDF :=
  mkSDF ox oy cell data rows cols rows cols 0.
(** signed_distance_field.py:148-161 (update_data): the new map, the old _num_rows and _num_cols *)
Definition sdf_update_data (s : SDF) (ox oy cell : R) (rows cols : nat) (data : nat -> nat -> R) : SDF :=
  mkSDF ox oy cell data rows cols (sd_num_rows s) (sd_num_cols s) (sd_boundary s).
(** utils/utils.py:64-74 (gather_from_rows_cols) with its assertions *)
Definition gather_ (s : SDF) (r c : Z) : option R :=
  if ((0 <=? r) && (r <? Z.of_nat (sd_rows s)) && (0 <=? c) && (c <? Z.of_nat (sd_cols s)))%Z%bool
  then Some (sd_data s (Z.to_nat r) (Z.to_nat c)) else None.
(** torch.clamp and torch.floor of an index (signed_distance_field.py:198-205) *)
Definition clampZ (x lo hi : Z) : Z := Z.min (Z.max x lo) hi.
Definition floor_ (x : R) : Z := Int_part x.
(** signed_distance_field.py:176-184 *)
Definition sdf_out_of_bounds (s : SDF) (p : V2) : bool :=
  (lt_b (a0 p) (sd_ox s) || lt_b (sd_ox s + (INR (sd_num_cols s) - 1) * sd_cell s) (a0 p)
   || lt_b (a1 p) (sd_oy s) || lt_b (sd_oy s + (INR (sd_num_rows s) - 1) * sd_cell s) (a1 p))%bool.
(** signed_distance_field.py:163-188, 193-241 (convert_points_to_cell, signed_distance): the distance and the 1x2 Jacobian *)
Definition sdf_signed_distance (s : SDF) (p : V2) : option (R * V2) :=
  do col <- div_ (a0 p - sd_ox s) (sd_cell s);
  do row <- div_ (a1 p - sd_oy s) (sd_cell s);
  let out := sdf_out_of_bounds s p in
  let lr := IZR (floor_ row) in let lc := IZR (floor_ col) in
  let hr := lr + 1 in let hc := lc + 1 in
  let lri := clampZ (floor_ row) 0 (Z.of_nat (sd_num_rows s) - 1) in
  let lci := clampZ (floor_ col) 0 (Z.of_nat (sd_num_cols s) - 1) in
  let hri := clampZ (floor_ row + 1) 0 (Z.of_nat (sd_num_rows s) - 1) in
  let hci := clampZ (floor_ col + 1) 0 (Z.of_nat (sd_num_cols s) - 1) in
  let hrdiff := hr - row in let hcdiff := hc - col in
  let lrdiff := row - lr in let lcdiff := col - lc in
  do ll <- gather_ s lri lci;
  do hl <- gather_ s hri lci;
  do lh <- gather_ s lri hci;
  do hh <- gather_ s hri hci;
  let dist := hrdiff * hcdiff * ll + lrdiff * hcdiff * hl + hrdiff * lcdiff * lh + lrdiff * lcdiff * hh in
  let jac1 := (hrdiff * (lh - ll) + lrdiff * (hh - hl)) / sd_cell s in
  let jac2 := (hcdiff * (hl - ll) + lcdiff * (hh - lh)) / sd_cell s in
  Some (if out then sd_boundary s else dist, if out then mkV2 0 0 else mkV2 jac1 jac2).

(** ** embodied/collision/collision.py: Collision2D; the pose is a Point2 or an SE2 *)
(** 1x2 times 2x3 *)
Definition vmul23 (v : V2) (m : M23) : V3 := mkV3 (a0 v * e00 m + a1 v * e10 m) (a0 v * e01 m + a1 v * e11 m) (a0 v * e02 m + a1 v * e12 m).
(** collision.py:61-62 *)
Definition clamp_min0 (x : R) : R := if lt_b x 0 then 0 else x.
(** collision.py:44-66 with a Point2 *)
Definition coll_error_point (s : SDF) (eps : R) (pose : V2) : option R :=
  do dj <- sdf_signed_distance s pose; Some (clamp_min0 (eps - fst dj)).
(** collision.py:68-73 with a Point2 *)
Definition coll_jacobians_point (s : SDF) (eps : R) (pose : V2) : option (V2 * R) :=
  do dj <- sdf_signed_distance s pose;
  let jac := where_ (lt_b eps (fst dj)) (mkV2 0 0) (snd dj) in
  Some (mkV2 (- a0 jac) (- a1 jac), clamp_min0 (eps - fst dj)).
(** collision.py:44-66 with an SE2 *)
Definition coll_error_se2 (s : SDF) (eps : R) (pose : SE2) : option R :=
  do dj <- sdf_signed_distance s (se2_xy pose); Some (clamp_min0 (eps - fst dj)).
(** collision.py:68-73 with an SE2 *)
Definition coll_jacobians_se2 (s : SDF) (eps : R) (pose : SE2) : option (V3 * R) :=
  do dj <- sdf_signed_distance s (se2_xy pose);
  let jac := vmul23 (snd dj) (se2_xy_jac pose) in
  let jac := where_ (lt_b eps (fst dj)) (mkV3 0 0 0) jac in
  Some (mkV3 (- b0 jac) (- b1 jac) (- b2 jac), clamp_min0 (eps - fst dj)).

(** The variables a Collision2D (or an EffectorObjectContactPlanar) refers to: its registered auxiliary variables, by index
    (0: sdf_origin, 1: sdf_data, 2: sdf_cell_size, 3: cost_eps or eff_radius), and the three that its field reads; variables are
    numbers.  collision.py:31-42, eff_obj_contact.py:31-47 *)
Record FieldObj := mkFO { fo_aux : nat -> nat; fo_sdf : nat * nat * nat }.
Definition fo_new (aux : nat -> nat) : FieldObj := mkFO aux (aux 0%nat, aux 1%nat, aux 2%nat).
(** collision.py:90-92, eff_obj_contact.py:124-126 (set_aux_var_at) with theseus_function.py:137-147 and update_data *)
Definition fo_set_aux_var_at (o : FieldObj) (index v : nat) : option FieldObj :=
  if Nat.leb 4 index then None
  else let aux := fun i => if Nat.eqb i index then v else fo_aux o i in
       Some (mkFO aux (aux 0%nat, aux 1%nat, aux 2%nat)).
(** collision.py:75-84, eff_obj_contact.py:106-118 (_copy_impl): new variables, the first new one is number n *)
Definition fo_copy (n : nat) (o : FieldObj) : FieldObj := fo_new (fun i => n + i)%nat.

(** ** embodied/collision/eff_obj_contact.py (use_huber_loss = False; True is refused by the constructor) *)
(** eff_obj_contact.py:55-68, 87, 89-91 *)
Definition contact_error (s : SDF) (radius : R) (obj eff : SE2) : option R :=
  do dj <- sdf_signed_distance s (se2_transform_to obj (se2_xy eff)); Some (Rabs (fst dj - radius)).
(** eff_obj_contact.py:93-104 *)
Definition contact_jacobians (s : SDF) (radius : R) (obj eff : SE2) : option (V3 * V3 * R) :=
  let p := se2_transform_to obj (se2_xy eff) in
  let J_transf_obj := se2_transform_to_Jg obj (se2_xy eff) in
  let J_transf_eff := mul2_23 (se2_transform_to_Jpnt obj) (se2_xy_jac eff) in
  do dj <- sdf_signed_distance s p;
  let J0 := vmul23 (snd dj) J_transf_obj in
  let J1 := vmul23 (snd dj) J_transf_eff in
  let lt := lt_b (fst dj) radius in
  let flip (v : V3) := if lt then mkV3 (b0 v * -1) (b1 v * -1) (b2 v * -1) else v in
  Some (flip J0, flip J1, Rabs (fst dj - radius)).

(** ** embodied/motionmodel/double_integrator.py: GPCostWeight *)
(** double_integrator.py:131-147 (_compute_cost_weight): the 2n x 2n matrix before torch.linalg.cholesky *)
Definition gp_matrix (n : nat) (dt : R) (Qc_inv : nat -> nat -> R) (i j : nat) : R :=
  let Q11 a b := 12 * (/ dt ^ 3) * Qc_inv a b in
  let Q12 a b := - 6 * (/ dt ^ 2) * Qc_inv a b in
  let Q22 a b := 4 * / dt * Qc_inv a b in
  if Nat.ltb i n then (if Nat.ltb j n then Q11 i j else Q12 i (j - n)%nat)
  else (if Nat.ltb j n then Q12 (i - n)%nat j else Q22 (i - n)%nat (j - n)%nat).
(** double_integrator.py:148-152: torch.linalg.cholesky of the transpose, transposed; [chol n A] is the factorization of an
    n x n matrix, None for the RuntimeError *)
Definition gp_weight (n : nat) (chol : nat -> (nat -> nat -> R) -> option (nat -> nat -> R)) (dt : R) (Qc_inv : nat -> nat -> R)
  : option (nat -> nat -> R) :=
  do L <- chol (2 * n)%nat (fun i j => gp_matrix n dt Qc_inv j i);
  Some (fun i j => L j i).
(** double_integrator.py:154-170 (weight_error, weight_jacobians_and_error) *)
Definition gp_weight_error (n : nat) (W : nat -> nat -> R) (error : nat -> R) (i : nat) : R := rsum (2 * n) (fun j => W i j * error j).
Definition gp_weight_jac (n : nat) (W J : nat -> nat -> R) (i k : nat) : R := rsum (2 * n) (fun j => W i j * J j k).
(** double_integrator.py:90-126: the constructor accepts (dt, Qc_inv) when dt > 0 and the factorization of Qc_inv succeeds *)
Definition gp_accepts (n : nat) (chol : nat -> (nat -> nat -> R) -> option (nat -> nat -> R)) (dt : R) (Qc_inv : nat -> nat -> R) : bool :=
  (lt_b 0 dt && match chol n Qc_inv with Some _ => true | None => false end)%bool.
