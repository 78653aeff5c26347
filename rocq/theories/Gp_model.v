(** Model of theseus/global_params.py and torchlie/torchlie/global_params.py: the two global parameter
    objects, [get_eps], [reset], [set_global_params], [reset_global_params]. Attribute values are exact
    rationals, booleans, methods, or other user values that cannot be called. Attributes every Python
    object has (names starting with two underscores) are not modelled. *)
From Coq Require Import List Bool String QArith.
Import ListNotations.
Open Scope string_scope.

Inductive val := Num (q : Q) | Flag (b : bool) | Method (name : string) | Other (n : nat).
(** the attributes of an instance or of a class; the first binding counts *)
Definition attrs := list (string * val).
Fixpoint find (a : attrs) (k : string) : option val :=
  match a with [] => None | (k', v) :: a => if String.eqb k k' then Some v else find a k end.
(** an object: its own attributes, then those of its class *)
Record obj := mkObj { own : attrs; cls : attrs }.
Definition getattr (o : obj) (k : string) : option val :=
  match find (own o) k with Some v => Some v | None => find (cls o) k end.
Definition hasattr (o : obj) (k : string) : bool := match getattr o k with Some _ => true | None => false end.
Definition setattr (k : string) (v : val) (o : obj) : obj := mkObj ((k, v) :: own o) (cls o).
Definition setattrs (l : attrs) (o : obj) : obj := fold_left (fun o p => setattr (fst p) (snd p) o) l o.

(** torchlie/torchlie/global_params.py 20-35: the fields of the dataclass *)
Definition lie_fields : list string :=
  ["so3_near_pi_eps_float32"; "so3_near_zero_eps_float32"; "so3_matrix_eps_float32"; "so3_quat_eps_float32";
   "so3_hat_eps_float32"; "se3_hat_eps_float32"; "so3_near_pi_eps_float64"; "so3_near_zero_eps_float64";
   "so3_matrix_eps_float64"; "so3_quat_eps_float64"; "so3_hat_eps_float64"; "se3_hat_eps_float64";
   "_allow_passthrough_ops"; "_faster_log_maps"].
(** torchlie/torchlie/global_params.py 22-42: class attributes: the defaults of the fields and the methods *)
Definition lie_class : attrs :=
  (map (fun k => (k, Num 0)) (firstn 12 lie_fields) ++
  [("_allow_passthrough_ops", Flag false); ("_faster_log_maps", Flag false); ("get_eps", Method "get_eps"); ("reset", Method "reset")])%list.
(** torchlie/torchlie/global_params.py 44-58 [reset] *)
Definition lie_reset_values : attrs :=
  [("so3_near_pi_eps_float32", Num (1 # 100)); ("so3_near_zero_eps_float32", Num (1 # 100));
   ("so3_d_near_zero_eps_float32", Num (2 # 10)); ("so3_matrix_eps_float32", Num (4 # 10000));
   ("so3_quat_eps_float32", Num (2 # 10000)); ("so3_hat_eps_float32", Num (5 # 1000000));
   ("se3_hat_eps_float32", Num (5 # 1000000)); ("so3_near_pi_eps_float64", Num (1 # 10000000));
   ("so3_near_zero_eps_float64", Num (5 # 1000)); ("so3_d_near_zero_eps_float64", Num (1 # 100));
   ("so3_matrix_eps_float64", Num (1 # 1000000)); ("so3_quat_eps_float64", Num (5 # 10000000));
   ("so3_hat_eps_float64", Num (5 # 10000000)); ("se3_hat_eps_float64", Num (5 # 10000000))].
(** torchlie/torchlie/global_params.py 36-37, 61 *)
Definition lie_init : obj := setattrs lie_reset_values (mkObj [] lie_class).

(** theseus/global_params.py 23-36: class attributes *)
Definition th_class : attrs :=
  [("so2_norm_eps_float32", Num 0); ("so2_matrix_eps_float32", Num 0); ("se2_near_zero_eps_float32", Num 0);
   ("so3_to_quaternion_sqrt_eps_float32", Num 0); ("so2_norm_eps_float64", Num 0); ("so2_matrix_eps_float64", Num 0);
   ("se2_near_zero_eps_float64", Num 0); ("so3_to_quaternion_sqrt_eps_float64", Num 0);
   ("fast_approx_local_jacobians", Flag false); ("get_eps", Method "get_eps"); ("reset", Method "reset")].
(** theseus/global_params.py 46-59 [reset] (the first attribute is assigned twice, at 47 and 52) *)
Definition th_reset_values : attrs :=
  [("so2_norm_eps_float32", Num (1 # 1000000000000)); ("so2_matrix_eps_float32", Num (1 # 100000));
   ("se2_near_zero_eps_float32", Num (3 # 100)); ("se2_d_near_zero_eps_float32", Num (1 # 10));
   ("so3_to_quaternion_sqrt_eps_float32", Num (1 # 1000000)); ("so2_norm_eps_float32", Num (1 # 1000000000000));
   ("so2_matrix_eps_float64", Num (4 # 10000000)); ("se2_near_zero_eps_float64", Num (1 # 1000000));
   ("se2_d_near_zero_eps_float64", Num (1 # 1000)); ("so3_to_quaternion_sqrt_eps_float64", Num (1 # 1000000));
   ("fast_approx_local_jacobians", Flag false)].
(** theseus/global_params.py 34-35, 62 *)
Definition th_init : obj := setattrs th_reset_values (mkObj [] th_class).

Inductive result (A : Type) := Ok (a : A) | ValueError | AttributeError | TypeError | RuntimeError.
Arguments Ok {A}. Arguments ValueError {A}. Arguments AttributeError {A}. Arguments TypeError {A}. Arguments RuntimeError {A}.

(** torchlie/torchlie/global_params.py 11-16, 39-42 *)
Definition attr_name (ltype attr dtype : string) : string := ltype ++ "_" ++ attr ++ "_eps_" ++ dtype.
Definition supported (dtype : string) : bool := String.eqb dtype "float32" || String.eqb dtype "float64".
Definition lie_get_eps (o : obj) (ltype attr dtype : string) : result val :=
  match getattr o "get_eps" with
  | Some (Method _) =>
    if supported dtype
    then match getattr o (attr_name ltype attr dtype) with Some v => Ok v | None => AttributeError end
    else ValueError
  | Some _ => TypeError
  | None => AttributeError
  end.
(** theseus/global_params.py 38-44 *)
Definition th_get_eps (lie th : obj) (ltype attr dtype : string) : result val :=
  match getattr th "get_eps" with
  | Some (Method _) =>
    match lie_get_eps lie ltype attr dtype with
    | AttributeError =>
      if supported dtype
      then match getattr th (attr_name ltype attr dtype) with Some v => Ok v | None => AttributeError end
      else ValueError
    | r => r
    end
  | Some _ => TypeError
  | None => AttributeError
  end.

(** the loop of both [set_global_params] (theseus 77-80, torchlie 65-68): assign until the first name that
    is not an attribute *)
Fixpoint set_options (opts : attrs) (o : obj) : obj * result unit :=
  match opts with
  | [] => (o, Ok tt)
  | (k, v) :: opts => if hasattr o k then set_options opts (setattr k v o) else (o, ValueError)
  end.
(** torchlie/torchlie/global_params.py 64-68 *)
Definition lie_set_global_params (opts : attrs) (lie : obj) : obj * result unit := set_options opts lie.
(** theseus/global_params.py 11, 65-80 *)
Definition th_set_global_params (opts : attrs) (th : obj) : obj * result unit :=
  if existsb (fun p => existsb (String.eqb (fst p)) lie_fields) opts then (th, RuntimeError) else set_options opts th.
(** [o.reset()] *)
Definition call_reset (values : attrs) (o : obj) : obj * result unit :=
  match getattr o "reset" with
  | Some (Method _) => (setattrs values o, Ok tt)
  | Some _ => (o, TypeError)
  | None => (o, AttributeError)
  end.
(** torchlie/torchlie/global_params.py 71-72 *)
Definition lie_reset_global_params : obj -> obj * result unit := call_reset lie_reset_values.

(** a program: calls to the public functions, and [_THESEUS_GLOBAL_PARAMS.reset()] (there is no public
    function for it); exceptions are caught by the caller *)
Inductive event := ThSet (opts : attrs) | LieSet (opts : attrs) | LieReset | ThReset.
Record state := mkState { lie : obj; th : obj }.
Definition init : state := mkState lie_init th_init.
Definition step (s : state) (e : event) : state * result unit :=
  match e with
  | ThSet opts => let '(o, r) := th_set_global_params opts (th s) in (mkState (lie s) o, r)
  | LieSet opts => let '(o, r) := lie_set_global_params opts (lie s) in (mkState o (th s), r)
  | LieReset => let '(o, r) := lie_reset_global_params (lie s) in (mkState o (th s), r)
  | ThReset => let '(o, r) := call_reset th_reset_values (th s) in (mkState (lie s) o, r)
  end.
Definition run (h : list event) : state := fold_left (fun s e => fst (step s e)) h init.
