(** Model of theseus/utils/examples/motion_planning/motion_planner.py
    (MotionPlannerObjective, MotionPlanner) and models.py
    (InitialTrajectoryModel, after its networks).  Names are the strings of the
    program; every object is created once, so a variable, weight or cost
    function is identified by its name.  Real arithmetic; the devices, the
    optimizer run by forward (C05-C07, C18-C26) and GPCostWeight's test of
    Qc_inv (C61; here the parameter [c_qc]) are not modelled.  num_time_steps
    is a natural number (a negative one raises IndexError). *)
From Coq Require Import Reals List String Ascii Arith Bool DecimalString.
From Verif Require Import Geo_spec SE2_model Emb_model Emb2_model.
Import ListNotations.
Local Open Scope list_scope.
Local Open Scope R_scope.

(** exceptions *)
Inductive exn := AssertErr | ZeroDiv | ValueErr | UnboundErr | KeyErr | TypeErr | RuntimeErr | IndexErr.
Inductive res (A : Type) := Ok (a : A) | Err (e : exn).
Arguments Ok {A} a.
Arguments Err {A} e.
Definition rbind {A B} (x : res A) (f : A -> res B) : res B :=
  match x with Ok a => f a | Err e => Err e end.
Notation "'let!' x ':=' e 'in' f" := (rbind e (fun x => f)) (at level 200, x pattern, e at level 100, f at level 200).

(** f"{p}_{i}" *)
Definition dec (i : nat) : string := NilEmpty.string_of_uint (Nat.to_uint i).
Definition idx (p : string) (i : nat) : string := (p ++ "_" ++ dec i)%string.

(** core/variable.py:18-26: given names, and the names Class__id of unnamed
    variables (the id is unique) *)
Inductive vname := Named (s : string) | Auto (k : nat).
Record var := mkVar { v_name : vname; v_dtype : dtype }.
Inductive ptype := PPoint2 | PSE2.
Definition dof (p : ptype) : nat := match p with PPoint2 => 2%nat | PSE2 => 3%nat end.
(** number of entries of a pose *)
Definition pose_numel (p : ptype) : nat := match p with PPoint2 => 2%nat | PSE2 => 4%nat end.

(** a cost weight: its variables and, for ScaleCostWeight, the initial scale *)
Record weight := mkW { w_id : string; w_aux : list var; w_scale : R }.
(** the classes used by the motion planner and by the tactile pose estimator (Tac_model) *)
Inductive cls := CDifference | CXYDifference | CCollision2D | CGPMotionModel | CNonholonomic | CHinge
  | CQuasiStatic | CMovingFrameBetween | CContact.
Record cfn := mkCF { f_cls : cls; f_name : string; f_optim : list var; f_aux : list var; f_weight : weight }.

(** the arguments of MotionPlannerObjective, motion_planner.py:58-71 *)
Record config := mkC {
  c_map_size : nat; c_epsilon_dist : R; c_total_time : R; c_collision_weight : R;
  c_Qc_inv : nat -> nat -> R; c_num_time_steps : nat; c_single : bool; c_pose_type : ptype;
  c_dtype : dtype; c_nonholonomic_w : R; c_positive_vel_w : R }.
(** motion_planner.py:92 *)
Definition trajectory_len (c : config) : nat := (c_num_time_steps c + 1)%nat.

(** the objective: cost functions, optimization and auxiliary variables in
    insertion order, weights seen (core/objective.py:68-110) *)
Record obj := mkO { o_dtype : dtype; o_cfs : list cfn; o_optim : list vname; o_aux : list vname; o_weights : list string }.
Definition vname_dec (a b : vname) : {a = b} + {a <> b}.
Proof. decide equality; [apply string_dec | apply Nat.eq_dec]. Defined.
Definition dtype_eqb (a b : dtype) : bool := match a, b with F32, F32 | F64, F64 => true | _, _ => false end.
Definition mem (n : vname) (l : list vname) : bool := if in_dec vname_dec n l then true else false.
Definition insert (n : vname) (l : list vname) : list vname := if mem n l then l else l ++ [n].
(** core/objective.py:158-206 (_add_function_variables) *)
Fixpoint add_vars (d : dtype) (vs : list var) (l : list vname) : res (list vname) :=
  match vs with
  | [] => Ok l
  | v :: r => if dtype_eqb (v_dtype v) d then add_vars d r (insert (v_name v) l) else Err ValueErr
  end.
(** core/objective.py:208-300 (add); a cost function that is already present is
    never added by this program *)
Definition add (o : obj) (f : cfn) : res obj :=
  if existsb (fun g => String.eqb (f_name g) (f_name f)) (o_cfs o) then Err ValueErr else
  let! opt := add_vars (o_dtype o) (f_optim f) (o_optim o) in
  let! aux := add_vars (o_dtype o) (f_aux f) (o_aux o) in
  let new := negb (existsb (String.eqb (w_id (f_weight f))) (o_weights o)) in
  let! aux := (if new then add_vars (o_dtype o) (w_aux (f_weight f)) aux else Ok aux) in
  let ws := if new then o_weights o ++ [w_id (f_weight f)] else o_weights o in
  if existsb (fun v => mem (v_name v) aux) (f_optim f)
     || existsb (fun v => mem (v_name v) opt) (f_aux f ++ w_aux (f_weight f))
  then Err ValueErr
  else Ok (mkO (o_dtype o) (o_cfs o ++ [f]) opt aux ws).
Fixpoint add_all (o : obj) (l : list cfn) : res obj :=
  match l with [] => Ok o | f :: r => let! o' := add o f in add_all o' r end.

(** motion_planner.py:102-117, 157-161: the variables *)
Definition nv (c : config) (s : string) : var := mkVar (Named s) (c_dtype c).
Definition pose (c : config) (i : nat) : var := nv c (idx "pose" i).
Definition vel (c : config) (i : nat) : var := nv c (idx "vel" i).
(** motion_planner.py:119-150: the weights *)
Definition gp_w (c : config) : weight := mkW "gp" [mkVar (Auto 3) (c_dtype c); nv c "dt"] 0.
Definition coll_w (c : config) (i : nat) : weight :=
  if c_single c then mkW "collision_w" [nv c "collision_w"] (c_collision_weight c)
  else mkW (idx "collision_w" i) [nv c (idx "collision_w" i)] (c_collision_weight c).
Definition boundary_w (c : config) : weight := mkW "boundary" [mkVar (Auto 0) (c_dtype c)] 100.
(** motion_planner.py:199-205: made from a float, so of torch's default dtype *)
Definition nonhol_w (c : config) (dflt : dtype) : weight := mkW "nonholonomic_w" [mkVar (Auto 4) dflt] (c_nonholonomic_w c).
Definition posvel_w (c : config) (dflt : dtype) : weight := mkW "positive_vel_w" [mkVar (Auto 5) dflt] (c_positive_vel_w c).

(** motion_planner.py:169-197 *)
Definition boundary_costs (c : config) : list cfn :=
  let N := c_num_time_steps c in
  [ mkCF CDifference "pose_0" [pose c 0] [nv c "start"] (boundary_w c);
    mkCF CDifference "vel_0" [vel c 0] [mkVar (Auto 1) (c_dtype c)] (boundary_w c);
    mkCF (match c_pose_type c with PPoint2 => CDifference | PSE2 => CXYDifference end) "pose_N" [pose c N] [nv c "goal"] (boundary_w c);
    mkCF CDifference "vel_N" [vel c N] [mkVar (Auto 2) (c_dtype c)] (boundary_w c) ].

Definition gt0 (x : R) : bool := lt_b 0 x.
Definition truthy (x : R) : bool := if Req_EM_T x 0 then false else true.
(** motion_planner.py:210-256: one pass of the loop; the limits and the
    threshold of HingeCost are of torch's default dtype *)
Definition step_costs (c : config) (dflt : dtype) (i : nat) : list cfn :=
  [ mkCF CCollision2D (idx "collision" i) [pose c i]
      [nv c "sdf_origin"; nv c "sdf_data"; nv c "cell_size"; nv c "cost_eps"] (coll_w c i);
    mkCF CGPMotionModel (idx "gp" i) [pose c (i - 1); vel c (i - 1); pose c i; vel c i] [nv c "dt"] (gp_w c) ]
  ++ (if gt0 (c_nonholonomic_w c)
      then [mkCF CNonholonomic (idx "nonholonomic" i) [pose c i; vel c i] [] (nonhol_w c dflt)] else [])
  ++ (if truthy (c_positive_vel_w c)
      then [mkCF CHinge (idx "positive_vel" i) [vel c (i - 1)]
              (map (fun s => mkVar (Named (idx "positive_vel" i ++ s)%string) dflt) ["__downlimit"; "__uplimit"; "__thres"]%string)
              (posvel_w c dflt)] else []).

(** the loop of motion_planner.py:210: if positive_vel_w is negative, pvw is
    unbound when the first HingeCost is constructed (after the cost functions
    before it have been added) *)
Definition loop_costs (c : config) (dflt : dtype) : list cfn :=
  flat_map (step_costs c dflt) (seq 1 (c_num_time_steps c)).

(** motion_planner.py:58-256 (MotionPlannerObjective) with torch's default
    dtype [dflt] *)
Definition make_objective (qc : bool) (dflt : dtype) (c : config) : res obj :=
  if (c_num_time_steps c =? 0)%nat then Err ZeroDiv else
  if negb (gt0 (c_total_time c / INR (c_num_time_steps c))) then Err ValueErr else
  if negb qc then Err ValueErr else
  let! o := add_all (mkO (c_dtype c) [] [] [] []) (boundary_costs c) in
  if gt0 (c_nonholonomic_w c) && (match c_pose_type c with PSE2 => false | _ => true end) then Err AssertErr else
  if gt0 (c_positive_vel_w c) && (match c_pose_type c with PSE2 => false | _ => true end) then Err AssertErr else
  if truthy (c_positive_vel_w c) && negb (gt0 (c_positive_vel_w c))
  then (let! _ := add_all o (firstn (if gt0 (c_nonholonomic_w c) then 3 else 2) (step_costs c dflt 1)) in Err UnboundErr)
  else add_all o (loop_costs c dflt).

(** ** MotionPlanner *)
Record planner := mkP { p_config : config; p_obj : obj }.
(** motion_planner.py:261-309 without the optimizer *)
Definition make_planner (qc : bool) (dflt : dtype) (c : config) : res planner :=
  let! o := make_objective qc dflt c in Ok (mkP c o).
(** motion_planner.py:457-470 (copy): nonholonomic_w and positive_vel_w have
    their defaults *)
Definition copy_config (c : config) (collision_weight : option R) : config :=
  mkC (c_map_size c) (c_epsilon_dist c) (c_total_time c)
    (match collision_weight with
     | Some w => if truthy w then w else c_collision_weight c
     | None => c_collision_weight c
     end)
    (c_Qc_inv c) (c_num_time_steps c) (c_single c) (c_pose_type c) (c_dtype c) 0 0.
Definition copy_planner (qc : bool) (dflt : dtype) (p : planner) (collision_weight : option R) : res planner :=
  make_planner qc dflt (copy_config (p_config p) collision_weight).

(** ** trajectories *)
(** a 2-dimensional tensor (batch, entries) and a 3-dimensional one *)
Record ten2 := mkT2 { t2_n : nat; t2_m : nat; t2_at : nat -> nat -> R }.
Record ten3 := mkT3 { t3_n : nat; t3_m : nat; t3_k : nat; t3_at : nat -> nat -> nat -> R }.
Notation dict2 := (list (string * ten2)) (only parsing).
Fixpoint lookup (k : string) (d : dict2) : option ten2 :=
  match d with [] => None | (k', t) :: r => if String.eqb k' k then Some t else lookup k r end.

(** motion_planner.py:358-378 (get_variable_values_from_straight_line); start
    and goal have the same number of rows *)
Definition start_goal_dist (start goal : ten2) (b r : nat) : R := t2_at goal b r - t2_at start b r.
Definition straight_line (c : config) (start goal : ten2) : dict2 :=
  let n := t2_n start in
  let avg_vel b r := start_goal_dist start goal b r / c_total_time c in
  let unit b r := start_goal_dist start goal b r / INR (trajectory_len c - 1) in
  flat_map (fun i =>
    match c_pose_type c with
    | PSE2 =>
        [ (idx "pose" i, mkT2 n (2 + (t2_m start - 2))
             (fun b r => if (r <? 2)%nat then t2_at start b r + unit b r * INR i else t2_at start b r));
          (idx "vel" i, mkT2 n 3 (fun b r => if (r <? 2)%nat then avg_vel b r else 0)) ]
    | PPoint2 =>
        [ (idx "pose" i, mkT2 n (t2_m start) (fun b r => t2_at start b r + unit b r * INR i));
          (idx "vel" i, mkT2 n 2 avg_vel) ]
    end) (seq 0 (trajectory_len c)).

(** motion_planner.py:395-414 (get_variable_values_from_trajectory) *)
Definition values_from_trajectory (c : config) (t : ten3) : res dict2 :=
  let pn := pose_numel (c_pose_type c) in
  if ((t3_m t =? pn + dof (c_pose_type c)) && (t3_k t =? trajectory_len c))%nat then
    Ok (flat_map (fun i =>
          [ (idx "pose" i, mkT2 (t3_n t) pn (fun b r => t3_at t b r i));
            (idx "vel" i, mkT2 (t3_n t) (t3_m t - pn) (fun b r => t3_at t b (pn + r)%nat i)) ]) (seq 0 (trajectory_len c)))
  else Err AssertErr.

(** tensor[:, lo:lo+m, i] = v: v is broadcast to the shape of the slice, its
    numbers are converted to the dtype of tensor *)
Definition bcast (size k : nat) : nat := if (size =? 1)%nat then 0%nat else k.
Definition set_cols (cast : R -> R) (t : ten3) (lo m i : nat) (v : ten2) : res ten3 :=
  if (((t2_n v =? t3_n t) || (t2_n v =? 1)) && ((t2_m v =? m) || (t2_m v =? 1)))%nat then
    Ok (mkT3 (t3_n t) (t3_m t) (t3_k t)
          (fun b r j => if ((j =? i) && (lo <=? r) && (r <? lo + m))%nat
                        then cast (t2_at v (bcast (t2_n v) b) (bcast (t2_m v) (r - lo)))
                        else t3_at t b r j))
  else Err RuntimeErr.
(** motion_planner.py:421-445 (get_trajectory) with a dictionary; [bs] is
    objective.batch_size, None before the first update; [cast] converts to
    torch's default dtype, the one torch.zeros uses *)
Fixpoint fill (cast : R -> R) (p : ptype) (d : dict2) (is : list nat) (t : ten3) : res ten3 :=
  match is with
  | [] => Ok t
  | i :: r =>
      match lookup (idx "pose" i) d with
      | None => Err KeyErr
      | Some v =>
          let! t := set_cols cast t 0 (pose_numel p) i v in
          let! t := (match lookup (idx "vel" i) d with
                     | Some w => set_cols cast t (pose_numel p) (dof p) i w
                     | None => Ok t
                     end) in
          fill cast p d r t
      end
  end.
Definition get_trajectory (cast : R -> R) (c : config) (bs : option nat) (d : dict2) : res ten3 :=
  match bs with
  | None => Err TypeErr
  | Some n =>
      let p := c_pose_type c in
      fill cast p d (seq 0 (trajectory_len c)) (mkT3 n (pose_numel p + dof p) (trajectory_len c) (fun _ _ _ => 0))
  end.

(** Python's [p in s] for strings *)
Fixpoint contains (p s : string) : bool :=
  prefix p s || match s with EmptyString => false | String _ r => contains p r end.
(** motion_planner.py:447-455 (get_total_squared_errors); [mse] gives
    cf.error().square().mean() *)
Definition total_squared_errors (mse : cfn -> R) (o : obj) : R * R :=
  fold_left (fun (acc : R * R) f =>
    let '(gp, coll) := acc in
    let gp := if contains "gp" (f_name f) then gp + mse f else gp in
    let coll := if contains "collision" (f_name f) then coll + mse f else coll in
    (gp, coll)) (o_cfs o) (0, 0).

(** ** HingeCost with the infinite limits of motion_planner.py:246-256 *)
Inductive ext := NInf | Fin (x : R) | PInf.
Definition ext_add (a : ext) (x : R) : ext := match a with NInf => NInf | Fin y => Fin (y + x) | PInf => PInf end.
Definition ext_lt (a b : ext) : bool :=
  match a, b with
  | NInf, NInf | PInf, PInf => false
  | NInf, _ | _, PInf => true
  | _, NInf | PInf, _ => false
  | Fin x, Fin y => lt_b x y
  end.
(** b - a for the finite case; the infinite ones are discarded by torch.where *)
Definition ext_sub (a : ext) (x : R) : R := match a with Fin y => y - x | _ => 0 end.
(** embodied/motionmodel/misc.py:62-72, one component *)
Definition hinge_ext (down up : ext) (threshold v : R) : R :=
  let down_limit := ext_add down threshold in
  let up_limit := ext_add up (- threshold) in
  let error := where_ (ext_lt (Fin v) down_limit) (ext_sub down_limit v) 0 in
  where_ (ext_lt up_limit (Fin v)) (- ext_sub up_limit v) error.
Definition positive_vel_error (v : nat -> R) (r : nat) : R :=
  hinge_ext (match r with O => Fin 0 | _ => NInf end) PInf 1 (v r).

(** ** values of the cost functions for one batch element *)
(** the entries of the variables, by name *)
Notation valuation := (string -> nat -> R) (only parsing).
Definition at_var (val : valuation) (v : var) : nat -> R :=
  match v_name v with Named s => val s | Auto _ => fun _ => 0 end.
(** GPMotionModel.error of a cost function over Point2 poses *)
Definition gp_error_point (dt : R) (val : valuation) (f : cfn) : option ((nat -> R) * (nat -> R)) :=
  match f_optim f with
  | [p1; v1; p2; v2] =>
      @di_error (vector_group 2) dt (at_var val p1) (at_var val v1) (at_var val p2) (at_var val v2)
  | _ => None
  end.
Definition as_se2 (x : nat -> R) : SE2 := mkSE2 (x 0%nat) (x 1%nat) (x 2%nat) (x 3%nat).
Definition as_v3 (x : nat -> R) : V3 := mkV3 (x 0%nat) (x 1%nat) (x 2%nat).
(** GPMotionModel.error of a cost function over SE2 poses *)
Definition gp_error_se2 (d : dtype) (dt : R) (val : valuation) (f : cfn) : option (V3 * V3) :=
  match f_optim f with
  | [p1; v1; p2; v2] =>
      @di_error (se2_group d) dt (as_se2 (at_var val p1)) (as_v3 (at_var val v1)) (as_se2 (at_var val p2)) (as_v3 (at_var val v2))
  | _ => None
  end.

(** ** models.py: InitialTrajectoryModel.forward, one batch element *)
(** the mean trajectory, models.py:159-189: positions on the line, then bent
    along the normal; [bend] is the output of the network *)
Fixpoint line_at (start incr : R) (t : nat) : R :=
  match t with O => start | S t' => line_at start incr t' + incr end.
Fixpoint cur_t (dist : R) (steps : nat) (t : nat) : R :=
  match t with O => 0 - dist / 2 | S t' => cur_t dist steps t' + dist / INR steps end.
Definition bend_at (bend dist : R) (steps t : nat) : R :=
  let c := (dist / 2) ^ 2 in 2 * bend * ((cur_t dist steps t ^ 2 - c) / c).
(** rotation of the vector from start to goal by pi/2, normalized *)
Definition norm2 (x y : R) : R := sqrt (x * x + y * y).
Definition normal_vec (dx dy : R) : R * R :=
  let nx := cos (1 * PI / 2) * dx - sin (1 * PI / 2) * dy in
  let ny := sin (1 * PI / 2) * dx + cos (1 * PI / 2) * dy in
  (nx / norm2 nx ny, ny / norm2 nx ny).
Definition mean_pos (steps : nat) (bend : R) (s g : R * R) (t : nat) : R * R :=
  let dx := fst g - fst s in let dy := snd g - snd s in
  let dist := norm2 dx dy in
  let '(nx, ny) := normal_vec dx dy in
  let x := line_at (fst s) (dx / INR steps) t in
  let y := line_at (snd s) (dy / INR steps) t in
  match t with
  | O => (x, y)
  | _ => (x + nx * bend_at bend dist steps t, y + ny * bend_at bend dist steps t)
  end.
(** models.py:191-196: velocities (zero at time 0) *)
Definition mean_vel (steps : nat) (dt bend : R) (s g : R * R) (t : nat) : R * R :=
  match t with
  | O => (0, 0)
  | S t' => ((fst (mean_pos steps bend s g t) - fst (mean_pos steps bend s g t')) / dt,
             (snd (mean_pos steps bend s g t) - snd (mean_pos steps bend s g t')) / dt)
  end.
(** the flat mean: 4 entries per time step *)
Definition mean_flat (pos vel : nat -> R * R) (k : nat) : R :=
  let t := (k / 4)%nat in
  match (k mod 4)%nat with
  | 0%nat => fst (pos t) | 1%nat => snd (pos t) | 2%nat => fst (vel t) | _ => snd (vel t)
  end.
(** models.py:233-244: [sample] is lower_cov @ u, whose rows are those of the
    linearization of the auxiliary planner *)
Definition initial_values (steps : nat) (mean sample : nat -> R) : list (string * (nat -> R)) :=
  flat_map (fun t => [ (idx "pose" t, fun r => mean (4 * t + r)%nat + sample (4 * t + r)%nat);
                       (idx "vel" t, fun r => mean (4 * t + 2 + r)%nat + sample (4 * t + 2 + r)%nat) ]) (seq 0 (steps + 1)).
(** optimizer/dense_linearization.py, variable_ordering.py: the columns of a
    variable start after those of the variables before it in
    objective.optim_vars (here 2 columns each) *)
Fixpoint start_col (v : vname) (l : list vname) : option nat :=
  match l with
  | [] => None
  | w :: r => if vname_dec w v then Some 0%nat else option_map (fun k => 2 + k)%nat (start_col v r)
  end.
(** models.py:115: the auxiliary planner *)
Definition aux_planner (qc : bool) (dflt : dtype) (p : planner) : res planner := copy_planner qc dflt p (Some 0).

(** ** motion_planner.py:33-46 (_XYDifference), one batch element: the
    difference of the position of an SE2 pose to a Point2 (Point2.local has
    identity Jacobian in its second argument) *)
Definition xy_error (var : SE2) (target : V2) : V2 := sub2 (se2_xy var) target.
Definition xy_jacobian (var : SE2) (target : V2) : M23 := mul2_23 (mkM2 1 0 0 1) (se2_xy_jac var).
(** motion_planner.py:16-31: the constructor refuses only if both types are
    wrong *)
Definition xy_accepts (var_is_se2 target_is_point2 : bool) : bool :=
  negb (negb var_is_se2 && negb target_is_point2).
