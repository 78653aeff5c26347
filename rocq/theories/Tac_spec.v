(** What the tactile pose estimator is expected to contain, by names. *)
From Coq Require Import Reals List String Arith Bool.
From Verif Require Import SE2_model Mp_model Mp_spec Tac_model.
Import ListNotations.
Local Open Scope list_scope.

(** the steps j, i are paired: both are steps, j is not the first one, and
    their distance is min, min + step, min + 2 step, ... below max *)
Definition is_pair (c : params) (j i : nat) : Prop :=
  1 <= j /\ i < q_N c /\ exists k, i = j + (q_min c + k * q_step c) /\ q_min c + k * q_step c < q_max c.

(** name, class, optimization variables, auxiliary variables and weight of the
    cost functions *)
Inductive expected (c : params) : string -> cls -> list string -> list vname -> list vname -> Prop :=
| Exp_start : 0 < q_N c -> expected c "obj_priors_0" CDifference ["obj_pose_0"%string] [Named "obj_start_pose"] [Named "mc_weight"]
| Exp_qsp i : i + 1 < q_N c ->
    expected c (idx "qsp" i) CQuasiStatic [idx "obj_pose" i; idx "obj_pose" (i + 1); idx "eff_pose" i; idx "eff_pose" (i + 1)]
      [Named ("csquare_qsp_" ++ dec i)] [Named "qsp_weight"]
| Exp_mf j i : is_pair c j i ->
    expected c (idx2 "mf_between" j i) CMovingFrameBetween [idx "obj_pose" j; idx "obj_pose" i; idx "eff_pose" j; idx "eff_pose" i]
      [Named (idx2 "nn_measurement" j i)] [Named "mf_between_weight"]
| Exp_contact i : i < q_N c ->
    expected c (idx "intersect" i) CContact [idx "obj_pose" i; idx "eff_pose" i]
      [Named "sdf_origin"; Named "sdf_data"; Named "sdf_cell_size"; Named "eff_radius"] [Named "intersect_weight"]
| Exp_eff i : i < q_N c ->
    expected c (idx "eff_priors" i) CDifference [idx "eff_pose" i] [Named (idx "motion_capture" i)] [Named "mc_weight"]
| Exp_reg i p : (0 < q_reg c)%R -> i < q_N c -> p = "obj_pose"%string \/ p = "eff_pose"%string ->
    expected c ("reg_" ++ idx p i) CDifference [idx p i] [Named "identity"] [Auto 0].
Definition of_cfn (f : cfn) : string * cls * list vname * list vname * list vname :=
  (f_name f, f_cls f, names (f_optim f), names (f_aux f), names (w_aux (f_weight f))).
(** the variables that are given values from outside *)
Definition is_aux (c : params) (s : string) : Prop :=
  s = "obj_start_pose"%string \/ s = "mc_weight"%string \/ s = "intersect_weight"%string \/ s = "eff_radius"%string
  \/ s = "sdf_origin"%string \/ s = "sdf_data"%string \/ s = "sdf_cell_size"%string
  \/ (exists i, i < q_N c /\ s = idx "motion_capture" i)
  \/ (exists i, i + 1 < q_N c /\ (s = ("csquare_" ++ idx "qsp" i)%string \/ s = "qsp_weight"%string))
  \/ (exists j i, is_pair c j i /\ (s = idx2 "nn_measurement" j i \/ s = "mf_between_weight"%string))
  \/ ((0 < q_reg c)%R /\ s = "identity"%string).
