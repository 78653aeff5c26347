(** Model of theseus/utils/examples/tactile_pose_estimation: the factor graph
    of pose_estimator.py and the inputs of models.py.  Objectives, variables and
    cost functions as in [Mp_model]; a tensor with 4 columns is the list over
    the batch of its rows (x, y, cos, sin).  Real arithmetic.  The window
    parameters and numbers of steps are natural numbers.  Not modelled: devices,
    the optimizer behind forward (C05-C07, C18-C26), the linear layer of
    TactileMeasModel (a parameter [model]), the values of sdf and weight
    tensors. *)
From Coq Require Import Reals List String Ascii Arith Bool.
From Verif Require Import Geo_spec Geo3_spec SE2_model Emb_model Mp_model.
Import ListNotations.
Local Open Scope list_scope.

(** range(a, b, s); with s = 0 it raises *)
Definition py_range (a b s : nat) : res (list nat) :=
  if s =? 0 then Err ValueErr else Ok (map (fun k => a + k * s) (seq 0 ((b - a + (s - 1)) / s))).
Fixpoint rmap {A B} (f : A -> res B) (l : list A) : res (list B) :=
  match l with [] => Ok [] | a :: r => let! b := f a in let! bs := rmap f r in Ok (b :: bs) end.
(** the cells of
      for i in range(min_win, time_steps):
          for offset in range(min_win, np.minimum(i, max_win), step_win):
    pose_estimator.py:60-65, models.py:150-151, 165-166, 199-200 *)
Definition offsets (mn mx st i : nat) : res (list nat) := py_range mn (Nat.min i mx) st.
Definition cells (N mn mx st : nat) : res (list (nat * nat)) :=
  let! l := rmap (fun i => let! os := offsets mn mx st i in Ok (map (fun o => (i, o)) os)) (seq mn (N - mn)) in
  Ok (List.concat l).

(** f"{p}_{j}_{i}" *)
Definition idx2 (p : string) (j i : nat) : string := (p ++ "_" ++ dec j ++ "_" ++ dec i)%string.

(** ** TactilePoseEstimator *)
Record params := mkPar { q_N : nat; q_min : nat; q_max : nat; q_step : nat; q_reg : R }.
Section Estimator.
Variable dflt : dtype.          (* torch's default dtype *)
Variables sdf_d cell_d origin_d : dtype.   (* of the dataset's sdf tensors *)
Variable c : params.

(** pose_estimator.py:38-41 *)
Definition obj_poses : list var := map (fun i => mkVar (Named (idx "obj_pose" i)) F64) (seq 0 (q_N c)).
Definition eff_poses : list var := map (fun i => mkVar (Named (idx "eff_pose" i)) F64) (seq 0 (q_N c)).
(** 51-57 *)
Definition dv (s : string) : var := mkVar (Named s) dflt.
Definition motion_captures : list var := map (fun i => dv (idx "motion_capture" i)) (seq 0 (q_N c)).
(** 59-66 *)
Definition nn_measurements : res (list var) :=
  let! l := cells (q_N c) (q_min c) (q_max c) (q_step c) in
  Ok (map (fun '(i, o) => dv (idx2 "nn_measurement" (i - o) i)) l).
(** 83-94 *)
Definition qsp_weight : weight := mkW "qsp_weight" [dv "qsp_weight"] 1.
Definition mf_between_weight : weight := mkW "mf_between_weight" [dv "mf_between_weight"] 1.
Definition intersect_weight : weight := mkW "intersect_weight" [dv "intersect_weight"] 1.
Definition mc_weight : weight := mkW "mc_weight" [dv "mc_weight"] 1.
(** 186-187: the only unnamed variable of the objective *)
Definition reg_w : weight := mkW "reg_w" [mkVar (Auto 0) F64] (sqrt (q_reg c)).

Definition at_list (l : list var) (i : nat) : res var :=
  match nth_error l i with Some v => Ok v | None => Err IndexErr end.
(** 140-158: the offsets of one step, nn_meas_idx threaded through *)
Fixpoint mf_costs (nn : list var) (i : nat) (os : list nat) (k : nat) : res (list cfn * nat) :=
  match os with
  | [] => Ok ([], k)
  | o :: r =>
      let! oj := at_list obj_poses (i - o) in let! oi := at_list obj_poses i in
      let! ej := at_list eff_poses (i - o) in let! ei := at_list eff_poses i in
      let! m := at_list nn k in
      let f := mkCF CMovingFrameBetween (idx2 "mf_between" (i - o) i) [oj; oi; ej; ei] [m] mf_between_weight in
      let! p := mf_costs nn i r (k + 1) in
      Ok (f :: fst p, snd p)
  end.
(** 116-182: one pass of the loop *)
Definition step_costs (nn : list var) (i k : nat) : res (list cfn * nat) :=
  let! oi := at_list obj_poses i in
  let! ei := at_list eff_poses i in
  let! mi := at_list motion_captures i in
  let prior := if i =? 0 then [mkCF CDifference (idx "obj_priors" i) [oi] [dv "obj_start_pose"] mc_weight] else [] in
  let! qsp := (if i <? q_N c - 1 then
      let! oj := at_list obj_poses (i + 1) in let! ej := at_list eff_poses (i + 1) in
      Ok [mkCF CQuasiStatic (idx "qsp" i) [oi; oj; ei; ej] [mkVar (Named ("csquare_" ++ idx "qsp" i)) F64] qsp_weight]
    else Ok []) in
  let! mf := (if q_min c <=? i then
      let! os := offsets (q_min c) (q_max c) (q_step c) i in mf_costs nn i os k
    else Ok ([], k)) in
  Ok (prior ++ qsp ++ fst mf
      ++ [mkCF CContact (idx "intersect" i) [oi; ei]
            [mkVar (Named "sdf_origin") origin_d; mkVar (Named "sdf_data") sdf_d;
             mkVar (Named "sdf_cell_size") cell_d; dv "eff_radius"] intersect_weight;
          mkCF CDifference (idx "eff_priors" i) [ei] [mi] mc_weight], snd mf).
Fixpoint loop_costs (nn : list var) (is_ : list nat) (k : nat) : res (list cfn) :=
  match is_ with
  | [] => Ok []
  | i :: r => let! p := step_costs nn i k in let! rest := loop_costs nn r (snd p) in Ok (fst p ++ rest)
  end.
(** 184-195 *)
Definition vname_str (n : vname) : string := match n with Named s => s | Auto _ => "" end.
Definition reg_costs : list cfn :=
  if gt0 (q_reg c)
  then map (fun v => mkCF CDifference ("reg_" ++ vname_str (v_name v)) [v] [dv "identity"] reg_w) (obj_poses ++ eff_poses)
  else [].
(** pose_estimator.py:17-218: the objective (of torch's default dtype); the
    cost functions are collected before they are added, which changes which
    exception is raised first but not whether one is *)
Definition make_objective : res obj :=
  let! nn := nn_measurements in
  let! l := loop_costs nn (seq 0 (q_N c)) 0 in
  add_all (mkO dflt [] [] [] []) (l ++ reg_costs).
End Estimator.

(** ** The inputs, models.py *)
(** a tensor of poses (list over the batch), or another tensor *)
Inductive val := VPoses (l : list SE2) | VOther (s : string).
(** a dictionary: the assignments made so far, the last one counts *)
Definition dict := list (string * val).
Fixpoint lookup (d : dict) (k : string) : option val :=
  match d with
  | [] => None
  | (k', v) :: r => match lookup r k with Some w => Some w | None => if String.eqb k' k then Some v else None end
  end.
Definition keys (d : dict) : list string := map fst d.

(** a batch of the dataset, misc.py:186-200: [batch_n] episodes; poses are
    (x, y, theta) and, as the features, indexed by episode and step *)
Section Inputs.
Variable F : Type.
Record batch := mkB { b_n : nat; b_eff : nat -> nat -> V3; b_obj : nat -> nat -> V3; b_img : nat -> nat -> F }.
Variable b : batch.
(** th.SE2(x_y_theta=v).tensor: geometry/se2.py:152-163 *)
Definition xycs (v : V3) : SE2 := mkSE2 (b0 v) (b1 v) (cos (b2 v)) (sin (b2 v)).
Definition over_batch {A} (f : nat -> A) : list A := map f (seq 0 (b_n b)).

(** torch.cat of 2-d tensors along the rows *)
Definition cat {A} (l : list (list A)) : res (list A) :=
  match l with [] => Err RuntimeErr | _ => Ok (List.concat l) end.
(** t.reshape(-1, n, 4) of a tensor with rows of 4 entries *)
Definition reshape {A} (rows : list A) (n : nat) : res (list (list A)) :=
  if (n =? 0) || negb (List.length rows mod n =? 0) then Err RuntimeErr
  else Ok (map (fun g => firstn n (skipn (g * n) rows)) (seq 0 (List.length rows / n))).
(** t[:, k] *)
Definition column {A} (t : list (list A)) (k : nat) : res (list A) :=
  rmap (fun r => match nth_error r k with Some a => Ok a | None => Err IndexErr end) t.

(** models.py:172-192: the relative pose of one episode as (x, y, cos, sin) *)
Definition rel_pose (e1 e2 o1 o2 : V3) : SE2 :=
  let eff_pose_1__obj := @between (se2_group F64) (xycs o1) (xycs e1) in
  let eff_pose_2__obj := @between (se2_group F64) (xycs o2) (xycs e2) in
  @between (se2_group F64) eff_pose_1__obj eff_pose_2__obj.
Definition oracle_row (e1 e2 o1 o2 : V3) : SE2 :=
  let m := rel_pose e1 e2 o1 o2 in
  mkSE2 (px m) (py m) (cos (se2_theta m)) (sin (se2_theta m)).

(** models.py:126-210; [model] is None for the oracle, else the network with
    the class label filled in *)
Fixpoint set_measurements (t : list (list SE2)) (l : list (nat * nat)) (k : nat) : res dict :=
  match l with
  | [] => Ok []
  | (i, o) :: r =>
      let! m := column t k in
      let! d := set_measurements t r (k + 1) in
      Ok ((idx2 "nn_measurement" (i - o) i, VPoses m) :: d)
  end.
Definition nn_inputs (model : option (F -> F -> SE2)) (N mn mx st : nat) : res dict :=
  let! l := cells N mn mx st in
  let! t :=
    match model with
    | Some m =>
        let! in1 := cat (map (fun '(i, o) => over_batch (fun e => b_img b e (i - o))) l) in
        let! in2 := cat (map (fun '(i, o) => over_batch (fun e => b_img b e i)) l) in
        let num_measurements := List.length in1 in
        reshape (map (fun p => m (fst p) (snd p)) (combine in1 in2)) num_measurements
    | None =>
        let ms := map (fun '(i, o) => over_batch (fun e =>
                    oracle_row (b_eff b e (i - o)) (b_eff b e i) (b_obj b e (i - o)) (b_obj b e i))) l in
        let num_measurements := List.length ms in
        let! rows := cat ms in
        reshape rows num_measurements
    end in
  set_measurements t l 0.
(** models.py:213-226 *)
Definition motion_capture_inputs (N : nat) : dict :=
  map (fun s => (idx "motion_capture" s, VPoses (over_batch (fun e => xycs (b_eff b e s))))) (seq 0 N).
(** models.py:229-230 *)
Definition cost_weight_inputs : dict := [("qsp_weight", VOther "qsp_model"); ("mf_between_weight", VOther "mf_between_model")]%string.
(** models.py:233-246 *)
Definition initial_optim_vars (N : nat) : dict :=
  flat_map (fun s => [(idx "obj_pose" s, VPoses (over_batch (fun e => xycs (b_obj b e 0))));
                      (idx "eff_pose" s, VPoses (over_batch (fun e => xycs (b_eff b e 0))))]) (seq 0 N).
(** pose_estimator.py:222-229, with misc.py:196-199 (batch["obj_start_pose"],
    batch["motion_capture_i"]) *)
Definition start_and_capture (N : nat) : dict :=
  ("obj_start_pose", VPoses (over_batch (fun e => xycs (b_obj b e 0))))%string
  :: map (fun s => (idx "motion_capture" s, VPoses (over_batch (fun e => xycs (b_eff b e s))))) (seq 0 N).
(** trainer.py:122-147 (get_batch_data), models.py:249-283 *)
Definition theseus_inputs (model : option (F -> F -> SE2)) (c : params) : res dict :=
  let! nn := nn_inputs model (q_N c) (q_min c) (q_max c) (q_step c) in
  Ok (start_and_capture (q_N c)
      ++ [("sdf_data", VOther "sdf_data"); ("sdf_cell_size", VOther "sdf_cell_size"); ("sdf_origin", VOther "sdf_origin")]%string
      ++ nn ++ motion_capture_inputs (q_N c) ++ cost_weight_inputs ++ initial_optim_vars (q_N c)).
End Inputs.

(** models.py:286-303 (get_tactile_poses_from_values): the poses of one episode
    read back as (x, y, theta) *)
Definition read_pose (g : SE2) : V3 := mkV3 (px g) (py g) (atan2 (ps g) (pc g)).
Definition poses_from_values (values : dict) (kind : string) (N : nat) : res (list (list V3)) :=
  rmap (fun t => match lookup values (idx (kind ++ "_pose") t) with
                 | Some (VPoses l) => Ok (map read_pose l) | Some (VOther _) => Err TypeErr | None => Err KeyErr end)
       (seq 0 N).

(** ** create_tactile_models and the trainer *)
(** models.py:69-118: a measurement model is made in one mode only; in an
    unknown mode the variables returned are unbound *)
Inductive mode := WeightsOnly | WeightsAndNN | OtherMode.
Definition create_models (m : mode) : res bool :=
  match m with WeightsOnly => Ok false | WeightsAndNN => Ok true | OtherMode => Err UnboundErr end.
(** trainer.py:190-246 (compute_loss) and 149-187 (_update) with respect to
    self.measurements_model: None has neither parameters nor state_dict; true
    when a batch can be processed *)
Inductive outcome := Done | AttributeErr.
Definition process_batch (has_model update : bool) : outcome :=
  let update_step := if update then (if has_model then Done else AttributeErr) else Done in
  match update_step with
  | AttributeErr => AttributeErr
  | Done => if has_model then Done else AttributeErr   (* pack_batch_results(..., measurements_model.state_dict()) *)
  end.
