(** The options a user can set, and what a history of calls should leave behind. *)
From Coq Require Import List Bool String QArith.
Import ListNotations.
From Verif Require Import Gp_model.
Open Scope string_scope.

(** names and initial values, as a table *)
Definition lie_options : attrs :=
  [("so3_near_pi_eps_float32", Num (1 # 100)); ("so3_near_zero_eps_float32", Num (1 # 100));
   ("so3_d_near_zero_eps_float32", Num (2 # 10)); ("so3_matrix_eps_float32", Num (4 # 10000));
   ("so3_quat_eps_float32", Num (2 # 10000)); ("so3_hat_eps_float32", Num (5 # 1000000));
   ("se3_hat_eps_float32", Num (5 # 1000000)); ("so3_near_pi_eps_float64", Num (1 # 10000000));
   ("so3_near_zero_eps_float64", Num (5 # 1000)); ("so3_d_near_zero_eps_float64", Num (1 # 100));
   ("so3_matrix_eps_float64", Num (1 # 1000000)); ("so3_quat_eps_float64", Num (5 # 10000000));
   ("so3_hat_eps_float64", Num (5 # 10000000)); ("se3_hat_eps_float64", Num (5 # 10000000));
   ("_allow_passthrough_ops", Flag false); ("_faster_log_maps", Flag false)].
Definition th_options : attrs :=
  [("so2_norm_eps_float32", Num (1 # 1000000000000)); ("so2_matrix_eps_float32", Num (1 # 100000));
   ("se2_near_zero_eps_float32", Num (3 # 100)); ("se2_d_near_zero_eps_float32", Num (1 # 10));
   ("so3_to_quaternion_sqrt_eps_float32", Num (1 # 1000000)); ("so2_norm_eps_float64", Num 0);
   ("so2_matrix_eps_float64", Num (4 # 10000000)); ("se2_near_zero_eps_float64", Num (1 # 1000000));
   ("se2_d_near_zero_eps_float64", Num (1 # 1000)); ("so3_to_quaternion_sqrt_eps_float64", Num (1 # 1000000));
   ("fast_approx_local_jacobians", Flag false)].
Definition known (table : attrs) (k : string) : Prop := In k (map fst table).
(** the two methods can be overwritten like options; the theorems say where this is excluded *)
Definition not_method (k : string) : Prop := k <> "get_eps" /\ k <> "reset".
Definition ordinary (e : event) : Prop :=
  match e with ThSet o | LieSet o => forall k, In k (map fst o) -> not_method k | _ => True end.

(** the assignments one call makes: the options up to the first unknown name *)
Fixpoint effective (table : attrs) (opts : attrs) : attrs :=
  match opts with
  | [] => []
  | (k, v) :: opts => if existsb (String.eqb k) (map fst table) then (k, v) :: effective table opts else []
  end.
Definition mentions_lie (opts : attrs) : bool :=
  existsb (fun p => existsb (String.eqb (fst p)) lie_fields) opts.
(** assignments to the torchlie and the theseus options made by a history, oldest first *)
Definition lie_assignments (e : event) : attrs :=
  match e with
  | LieSet o => effective lie_options o
  | LieReset => firstn 14 lie_options
  | _ => []
  end.
Definition th_assignments (e : event) : attrs :=
  match e with
  | ThSet o => if mentions_lie o then [] else effective th_options o
  | ThReset => filter (fun p => negb (String.eqb (fst p) "so2_norm_eps_float64")) th_options
  | _ => []
  end.
(** the last value assigned to a name *)
Fixpoint latest (l : attrs) (k : string) (d : option val) : option val :=
  match l with [] => d | (k', v) :: l => latest l k (if String.eqb k k' then Some v else d) end.
