(** What the motion planner is expected to be, in terms of names. *)
From Coq Require Import Reals List String Arith Bool.
From Verif Require Import SE2_model Mp_model.
Import ListNotations.
Local Open Scope list_scope.

(** the cost functions, in order: the four boundary conditions, then those of
    the time steps 1..N *)
Definition cost_names (N : nat) (nonholonomic positive_vel : bool) : list string :=
  ["pose_0"; "vel_0"; "pose_N"; "vel_N"]%string
  ++ flat_map (fun i => [idx "collision" i; idx "gp" i]
       ++ (if nonholonomic then [idx "nonholonomic" i] else [])
       ++ (if positive_vel then [idx "positive_vel" i] else [])) (seq 1 N).
(** the optimization variables, in the order in which they are met *)
Definition time_vars (i : nat) : list vname := [Named (idx "pose" i); Named (idx "vel" i)].
Definition optim_order (N : nat) : list vname :=
  time_vars 0 ++ time_vars N ++ flat_map time_vars (seq 1 (N - 1)).
(** the keys forward accepts besides poses and velocities *)
Definition is_key (N : nat) (single posvel : bool) (s : string) : Prop :=
  In s ["sdf_origin"; "start"; "goal"; "cell_size"; "sdf_data"; "cost_eps"; "dt"]%string
  \/ (if single then s = "collision_w"%string else exists i, 1 <= i <= N /\ s = idx "collision_w" i)
  \/ (posvel = true /\ exists i, 1 <= i <= N /\ In s (map (fun e => (idx "positive_vel" i ++ e)%string)
                                                     ["__downlimit"; "__uplimit"; "__thres"]%string)).

(** there is a cost function of the given name, class, optimization variables
    and weight *)
Definition names (vs : list var) : list vname := map v_name vs.
Definition has_cost (o : obj) (name : string) (k : cls) (optim : list string) (aux : list vname)
    (scale : R) (wvars : list vname) : Prop :=
  exists f, In f (o_cfs o) /\ f_name f = name /\ f_cls f = k /\ names (f_optim f) = map Named optim
    /\ names (f_aux f) = aux /\ w_scale (f_weight f) = scale /\ names (w_aux (f_weight f)) = wvars.

(** when the objective can be built *)
Definition config_ok (qc : bool) (dflt : dtype) (c : config) : Prop :=
  c_num_time_steps c <> 0 /\ (0 < c_total_time c)%R /\ qc = true
  /\ ((0 < c_nonholonomic_w c)%R -> c_pose_type c = PSE2 /\ dflt = c_dtype c)
  /\ (c_positive_vel_w c <> 0%R -> (0 < c_positive_vel_w c)%R /\ c_pose_type c = PSE2 /\ dflt = c_dtype c).
