(** Model of the constructors and [_copy_impl] methods of the standard cost
    functions and cost weights: embodied/measurements/between.py,
    moving_frame_between.py, reprojection.py, embodied/misc/local_cost_fn.py,
    embodied/motionmodel/double_integrator.py, misc.py,
    quasi_static_pushing_planar.py, embodied/collision/collision.py,
    eff_obj_contact.py, signed_distance_field.py 105-146,
    core/cost_weight.py 58-139, theseus_layer.py 284-303 and 329-336,
    utils/examples/motion_planning/motion_planner.py 17-54, core/variable.py
    18-31 and 110-124, core/theseus_function.py 21-110.
    The heap is the list of the variables created so far (a variable is its
    position, and Variable._ids counts exactly these).  A tensor is its shape and
    its entries in row-major order.  Simplified: entries are real numbers, dtypes
    and devices are not modelled; copying an SO2 or SE2 re-checks its tensor,
    which is not modelled (C55 says when that accepts it); autograd state is not
    modelled.  AutoDiffCostFunction and the robust wrappers are not in this file.  *)
From Coq Require Import Reals List String Arith Bool Lia.
From Verif Require Import Mp_model.
Import ListNotations.
Local Open Scope list_scope.

Record tensor := mkT { t_shape : list nat; t_data : list R }.
Definition numel (s : list nat) : nat := fold_right Nat.mul 1 s.
Definition ndim (t : tensor) : nat := List.length (t_shape t).
(** t.squeeze().ndim *)
Definition squeeze_ndim (t : tensor) : nat := List.length (filter (fun n => negb (n =? 1)) (t_shape t)).
(** t.view(-1, 1) *)
Definition view_col (t : tensor) : tensor := mkT [List.length (t_data t); 1] (t_data t).

Inductive vcls := KVariable | KVector | KPoint2 | KPoint3 | KSO2 | KSE2 | KSO3 | KSE3.
Definition vcls_eqb (a b : vcls) : bool :=
  match a, b with
  | KVariable, KVariable | KVector, KVector | KPoint2, KPoint2 | KPoint3, KPoint3
  | KSO2, KSO2 | KSE2, KSE2 | KSO3, KSO3 | KSE3, KSE3 => true
  | _, _ => false
  end.
(** isinstance(x, b) for x of class a; geometry/point_types.py, geometry/*.py *)
Definition subclass (a b : vcls) : bool :=
  vcls_eqb a b || vcls_eqb b KVariable
  || (vcls_eqb b KVector && (vcls_eqb a KPoint2 || vcls_eqb a KPoint3)).
Record var := mkV { v_cls : vcls; v_name : string; v_tensor : tensor }.
Definition novar : var := mkV KVariable "" (mkT [] []).
(** dof(): vector.py 49-50, point_types.py, so2.py, se2.py, so3.py, se3.py; a plain Variable has none *)
Definition dof (x : var) : option nat :=
  match v_cls x with
  | KVariable => None
  | KVector => Some (nth 1 (t_shape (v_tensor x)) 0)
  | KPoint2 => Some 2 | KPoint3 => Some 3 | KSO2 => Some 1 | KSE2 => Some 3 | KSO3 => Some 3 | KSE3 => Some 6
  end.

Definition heap := list var.
Definition getv (h : heap) (v : nat) : var := nth v h novar.
Fixpoint setv (h : heap) (v : nat) (x : var) : heap :=
  match h, v with
  | [], _ => []
  | _ :: r, 0 => x :: r
  | y :: r, S v => y :: setv r v x
  end.
Inductive exn := ValueErr | TypeErr | RuntimeErr | AttrErr | AssertErr.
(** what a call returns or raises, and the heap afterwards *)
Inductive out (A : Type) := Ret (h : heap) (a : A) | Exn (h : heap) (e : exn).
Arguments Ret {A} h a. Arguments Exn {A} h e.
Definition M (A : Type) := heap -> out A.
Definition ret {A} (a : A) : M A := fun h => Ret h a.
Definition raise {A} (e : exn) : M A := fun h => Exn h e.
Definition bind {A B} (m : M A) (k : A -> M B) : M B := fun h => match m h with Ret h a => k a h | Exn h e => Exn h e end.
Notation "'let*' x ':=' m 'in' k" := (bind m (fun x => k)) (at level 200, x pattern, m at level 100, k at level 200).
Definition get (v : nat) : M var := fun h => Ret h (getv h v).
(** v.tensor = t *)
Definition set_tensor (v : nat) (t : tensor) : M unit :=
  fun h => Ret (setv h v (mkV (v_cls (getv h v)) (v_name (getv h v)) t)) tt.
(** v.name = s *)
Definition set_name (v : nat) (s : string) : M unit :=
  fun h => Ret (setv h v (mkV (v_cls (getv h v)) s (v_tensor (getv h v)))) tt.
Definition cls_name (c : vcls) : string :=
  match c with
  | KVariable => "Variable" | KVector => "Vector" | KPoint2 => "Point2" | KPoint3 => "Point3"
  | KSO2 => "SO2" | KSE2 => "SE2" | KSO3 => "SO3" | KSE3 => "SE3"
  end%string.
(** variable.py 18-26 *)
Definition alloc (c : vcls) (name : option string) (t : tensor) : M nat :=
  fun h =>
    let s := match name with
             | Some s => if String.eqb s "" then (cls_name c ++ "__" ++ dec (List.length h))%string else s
             | None => (cls_name c ++ "__" ++ dec (List.length h))%string
             end in
    Ret (h ++ [mkV c s t]) (List.length h).
(** an argument: a variable, a float, a tensor, or None *)
Inductive arg := AV (v : nat) | AFloat (x : R) | ATensor (t : tensor) | ANone.
(** variable.py 110-124; torch.as_tensor(None) raises *)
Definition as_variable (name : option string) (a : arg) : M nat :=
  match a with
  | AV v => ret v
  | AFloat x => alloc KVariable name (mkT [1; 1] [x])
  | ATensor t => alloc KVariable name t
  | ANone => raise RuntimeErr
  end.

(** ** Preparation of one argument *)
Inductive prep :=
| PKeep                          (* the variable itself *)
| PCol                           (* as_variable, at most one dimension, view(-1, 1) *)
| PView                          (* as_variable, view(-1, 1) *)
| PScalar                        (* as_variable, at most one dimension *)
| POrigin | PSdf | PCell         (* signed_distance_field.py 105-146 *)
| PLimit (suffix : string)       (* HingeCost *)
| PCalib (name : string)         (* Reprojection: zeros when None *)
| PPosCol | PDiag | PQc.
Section Ctor.
(** torch.linalg.cholesky(Qc_inv) does not raise (see C61) *)
Variable chol_ok : tensor -> bool.
Definition all_pos (t : tensor) : bool := forallb (fun x => if Rlt_dec 0 x then true else false) (t_data t).

(** [self_name]: self.name; [name]: the constructor's argument; [vdof]: vector.dof(); [batch]: camera_pose.shape[0] *)
Definition run_prep (self_name : string) (name : option string) (vdof batch : nat) (p : prep) (a : arg) : M nat :=
  match p with
  | PKeep => match a with AV v => ret v | _ => raise AttrErr end
  (* double_integrator.py 35-40, 104-108 and 195-198; eff_obj_contact.py 36-39; cost_weight.py 67-72 *)
  | PCol =>
      let* v := as_variable None a in let* x := get v in
      if 1 <? squeeze_ndim (v_tensor x) then raise ValueErr
      else let* _ := set_tensor v (view_col (v_tensor x)) in ret v
  (* collision.py 35-36 *)
  | PView =>
      let* v := as_variable None a in let* x := get v in
      let* _ := set_tensor v (view_col (v_tensor x)) in ret v
  (* quasi_static_pushing_planar.py 37-41: the name is csquare_None when no name is given *)
  | PScalar =>
      let* v := as_variable (Some ("csquare_" ++ match name with Some s => s | None => "None" end)%string) a in
      let* x := get v in
      if 1 <? squeeze_ndim (v_tensor x) then raise ValueErr else ret v
  (* signed_distance_field.py 105-119; point_types.py 15-38, vector.py 17-38 *)
  | POrigin =>
      match a with
      | AV v => let* x := get v in if subclass (v_cls x) KPoint2 then ret v else raise ValueErr
      | ATensor t =>
          match t_shape t with
          | [2] => alloc KPoint2 None (mkT [1; 2] (t_data t))
          | [_; 2] => alloc KPoint2 None t
          | _ => raise ValueErr
          end
      | _ => raise ValueErr
      end
  (* signed_distance_field.py 139-146 *)
  | PSdf =>
      match a with
      | AFloat _ => raise ValueErr
      | _ => let* v := as_variable None a in let* x := get v in
             if ndim (v_tensor x) =? 3 then ret v else raise ValueErr
      end
  (* signed_distance_field.py 122-136; a tensor is checked when the field is made, 158-160 *)
  | PCell =>
      match a with
      | ANone => raise ValueErr
      | _ => let* v := as_variable None a in let* x := get v in
             if (ndim (v_tensor x) =? 1) || ((ndim (v_tensor x) =? 2) && (nth 1 (t_shape (v_tensor x)) 0 =? 1))
             then ret v else raise ValueErr
      end
  (* motionmodel/misc.py 26-31, 52-58 *)
  | PLimit suffix =>
      match a with
      | AFloat x => alloc KVariable (Some (self_name ++ suffix)%string) (mkT [1; vdof] (repeat x vdof))
      | _ => as_variable (Some (self_name ++ suffix)%string) a
      end
  (* reprojection.py 33-43 *)
  | PCalib nm =>
      match a with
      | AV v => ret v
      | ANone => alloc KVector (Some nm) (mkT [batch; 1] (repeat 0%R batch))
      | _ => raise AttrErr
      end
  (* double_integrator.py 104-110 *)
  | PPosCol =>
      let* v := as_variable None a in let* x := get v in
      if 1 <? squeeze_ndim (v_tensor x) then raise ValueErr
      else let* _ := set_tensor v (view_col (v_tensor x)) in
           if all_pos (v_tensor x) then ret v else raise ValueErr
  (* cost_weight.py 105-115 *)
  | PDiag =>
      let* v := as_variable None a in let* x := get v in
      let t := v_tensor x in
      if negb (squeeze_ndim t <? 3) then raise ValueErr
      else if ndim t =? 0 then let* _ := set_tensor v (mkT [1; 1] (t_data t)) in ret v
      else if ndim t =? 1 then let* _ := set_tensor v (mkT [1; List.length (t_data t)] (t_data t)) in ret v
      else ret v
  (* double_integrator.py 112-125 *)
  | PQc =>
      let* v := as_variable None a in let* x := get v in
      let t := v_tensor x in
      let s := t_shape t in
      if negb ((ndim t =? 2) || (ndim t =? 3)) then raise ValueErr
      else if negb (nth (ndim t - 2) s 0 =? nth (ndim t - 1) s 0) then raise ValueErr
      else let t' := if ndim t =? 3 then t else mkT (1 :: s) (t_data t) in
           let* _ := set_tensor v t' in
           if chol_ok t' then ret v else raise ValueErr
  end.

(** ** The classes *)
Inductive wcls := WScale | WDiagonal | WGP.
Inductive fcls := CBetween | CMovingFrame | CLocal | CReprojection | CDoubleIntegrator | CGPMotion | CHinge
  | CNonholonomic | CQuasiStatic | CCollision | CContact | CDLM | CXY.
Record wobj := mkWO { w_cls : wcls; w_name : string; w_attrs : list (string * nat) }.
Record fobj := mkFO { f_cls : fcls; f_name : string; f_attrs : list (string * nat); f_weight : wobj }.

Definition wcls_name (c : wcls) : string :=
  match c with WScale => "ScaleCostWeight" | WDiagonal => "DiagonalCostWeight" | WGP => "GPCostWeight" end%string.
Definition fcls_name (c : fcls) : string :=
  match c with
  | CBetween => "Between" | CMovingFrame => "MovingFrameBetween" | CLocal => "Local" | CReprojection => "Reprojection"
  | CDoubleIntegrator => "DoubleIntegrator" | CGPMotion => "GPMotionModel" | CHinge => "HingeCost"
  | CNonholonomic => "Nonholonomic" | CQuasiStatic => "QuasiStaticPushingPlanar" | CCollision => "Collision2D"
  | CContact => "EffectorObjectContactPlanar" | CDLM => "_DLMPerturbation" | CXY => "_XYDifference"
  end%string.
Local Open Scope string_scope.
Local Open Scope nat_scope.
(** the variables among the constructor's parameters, in positional order:
    cost_weight.py 61-65, 99-103; double_integrator.py 97-102 *)
Definition w_params (c : wcls) : list string :=
  match c with WScale => ["scale"] | WDiagonal => ["diagonal"] | WGP => ["Qc_inv"; "dt"] end.
(** in the order in which they are prepared: cost_weight.py 67-73, 105-116; double_integrator.py 104-127 *)
Definition w_preps (c : wcls) : list (string * prep) :=
  match c with WScale => [("scale", PCol)] | WDiagonal => [("diagonal", PDiag)] | WGP => [("dt", PPosCol); ("Qc_inv", PQc)] end.
(** registered auxiliary variables: cost_weight.py 73, 116; double_integrator.py 127 *)
Definition w_aux (c : wcls) : list string :=
  match c with WScale => ["scale"] | WDiagonal => ["diagonal"] | WGP => ["Qc_inv"; "dt"] end.
(** the attributes passed by _copy_impl: cost_weight.py 92-93, 138-139; double_integrator.py 172-176 *)
Definition w_copy_args (c : wcls) : list string :=
  match c with WScale => ["scale"] | WDiagonal => ["diagonal"] | WGP => ["Qc_inv"; "dt"] end.

(** the same for the cost functions.  between.py 15-32; moving_frame_between.py 15-38; local_cost_fn.py
    16-37; reprojection.py 14-52; double_integrator.py 17-48, 180-199; motionmodel/misc.py 15-43, 98-112;
    quasi_static_pushing_planar.py 20-42; collision.py 18-43; eff_obj_contact.py 18-56; theseus_layer.py
    284-303; motion_planner.py 17-33 *)
Definition f_params (c : fcls) : list string :=
  match c with
  | CBetween => ["v0"; "v1"; "measurement"]
  | CMovingFrame => ["frame1"; "frame2"; "pose1"; "pose2"; "measurement"]
  | CLocal | CXY => ["var"; "target"]
  | CReprojection => ["camera_pose"; "world_point"; "image_feature_point"; "focal_length"; "calib_k1"; "calib_k2"]
  | CDoubleIntegrator | CGPMotion => ["pose1"; "vel1"; "pose2"; "vel2"; "dt"]
  | CHinge => ["vector"; "down_limit"; "up_limit"; "threshold"]
  | CNonholonomic => ["pose"; "vel"]
  | CQuasiStatic => ["obj1"; "obj2"; "eff1"; "eff2"; "c_square"]
  | CCollision => ["pose"; "sdf_origin"; "sdf_data"; "sdf_cell_size"; "cost_eps"]
  | CContact => ["obj"; "eff"; "sdf_origin"; "sdf_data"; "sdf_cell_size"; "eff_radius"]
  | CDLM => ["var"; "epsilon"; "grad"]
  end.
Definition f_preps (c : fcls) : list (string * prep) :=
  match c with
  | CBetween => [("v0", PKeep); ("v1", PKeep); ("measurement", PKeep)]
  | CMovingFrame => [("frame1", PKeep); ("frame2", PKeep); ("pose1", PKeep); ("pose2", PKeep); ("measurement", PKeep)]
  | CLocal | CXY => [("var", PKeep); ("target", PKeep)]
  | CReprojection => [("camera_pose", PKeep); ("focal_length", PKeep); ("calib_k1", PCalib "calib_k1"); ("calib_k2", PCalib "calib_k2");
                      ("world_point", PKeep); ("image_feature_point", PKeep)]
  | CDoubleIntegrator | CGPMotion => [("dt", PCol); ("pose1", PKeep); ("vel1", PKeep); ("pose2", PKeep); ("vel2", PKeep)]
  | CHinge => [("vector", PKeep); ("down_limit", PLimit "__downlimit"); ("up_limit", PLimit "__uplimit"); ("threshold", PLimit "__thres")]
  | CNonholonomic => [("pose", PKeep); ("vel", PKeep)]
  | CQuasiStatic => [("obj1", PKeep); ("obj2", PKeep); ("eff1", PKeep); ("eff2", PKeep); ("c_square", PScalar)]
  | CCollision => [("pose", PKeep); ("sdf_origin", POrigin); ("sdf_data", PSdf); ("sdf_cell_size", PCell); ("cost_eps", PView)]
  | CContact => [("obj", PKeep); ("eff", PKeep); ("sdf_origin", POrigin); ("sdf_data", PSdf); ("sdf_cell_size", PCell); ("eff_radius", PCol)]
  | CDLM => [("var", PKeep); ("epsilon", PKeep); ("grad", PKeep)]
  end.
Definition f_optim (c : fcls) : list string :=
  match c with
  | CBetween => ["v0"; "v1"]
  | CMovingFrame => ["frame1"; "frame2"; "pose1"; "pose2"]
  | CLocal | CXY | CDLM => ["var"]
  | CReprojection => ["camera_pose"; "world_point"]
  | CDoubleIntegrator | CGPMotion => ["pose1"; "vel1"; "pose2"; "vel2"]
  | CHinge => ["vector"]
  | CNonholonomic => ["pose"; "vel"]
  | CQuasiStatic => ["obj1"; "obj2"; "eff1"; "eff2"]
  | CCollision => ["pose"]
  | CContact => ["obj"; "eff"]
  end.
Definition f_aux (c : fcls) : list string :=
  match c with
  | CBetween | CMovingFrame => ["measurement"]
  | CLocal | CXY => ["target"]
  | CReprojection => ["focal_length"; "image_feature_point"; "calib_k1"; "calib_k2"]
  | CDoubleIntegrator | CGPMotion => ["dt"]
  | CHinge => ["down_limit"; "up_limit"; "threshold"]
  | CNonholonomic => []
  | CQuasiStatic => ["c_square"]
  | CCollision => ["sdf_origin"; "sdf_data"; "sdf_cell_size"; "cost_eps"]
  | CContact => ["sdf_origin"; "sdf_data"; "sdf_cell_size"; "eff_radius"]
  | CDLM => ["epsilon"; "grad"]
  end.
(** the attributes passed by _copy_impl, in positional order: between.py 50-57; moving_frame_between.py
    68-77; local_cost_fn.py 66-69; reprojection.py 102-112; double_integrator.py 82-91 (and 201-202);
    motionmodel/misc.py 86-94, 180-186; quasi_static_pushing_planar.py 288-297; collision.py 75-84;
    eff_obj_contact.py 106-118; theseus_layer.py 329-336; motion_planner.py 51-54 *)
Definition f_copy_args (c : fcls) : list string :=
  match c with
  | CBetween => ["v0"; "v1"; "measurement"]
  | CMovingFrame => ["frame1"; "frame2"; "pose1"; "pose2"; "measurement"]
  | CLocal | CXY => ["var"; "target"]
  | CReprojection => ["camera_pose"; "world_point"; "image_feature_point"; "focal_length"; "calib_k1"; "calib_k2"]
  | CDoubleIntegrator | CGPMotion => ["pose1"; "vel1"; "pose2"; "vel2"; "dt"]
  | CHinge => ["vector"; "down_limit"; "up_limit"; "threshold"]
  | CNonholonomic => ["pose"; "vel"]
  | CQuasiStatic => ["obj1"; "obj2"; "eff1"; "eff2"; "c_square"]
  | CCollision => ["pose"; "sdf_origin"; "sdf_data"; "sdf_cell_size"; "cost_eps"]
  | CContact => ["obj"; "eff"; "sdf_origin"; "sdf_data"; "sdf_cell_size"; "eff_radius"]
  | CDLM => ["var"; "epsilon"; "grad"]
  end.
(** the class _copy_impl constructs; GPMotionModel's calls DoubleIntegrator's (double_integrator.py 201-202) *)
Definition copy_cls (c : fcls) : fcls := match c with CGPMotion => CDoubleIntegrator | _ => c end.

(** ** The checks of the classes *)
Fixpoint assoc {A} (l : list (string * A)) (k : string) : option A :=
  match l with [] => None | (k', a) :: l => if String.eqb k' k then Some a else assoc l k end.
Definition look (get : string -> option var) (k : string) : var := match get k with Some x => x | None => novar end.
Fixpoint dofs (l : list var) : option (list nat) :=
  match l with
  | [] => Some []
  | x :: l => match dof x, dofs l with Some d, Some ds => Some (d :: ds) | _, _ => None end
  end.
(** dof() of all, compared with the first *)
Definition same_dof (l : list var) : option exn :=
  match dofs l with
  | None => Some AttrErr
  | Some [] => None
  | Some (d :: ds) => if forallb (Nat.eqb d) ds then None else Some ValueErr
  end.
(** before anything else: moving_frame_between.py 25-29; local_cost_fn.py 24-31; double_integrator.py 29-33
    (GPMotionModel: 190-194); motionmodel/misc.py 105-109; collision.py 28-29; theseus_layer.py 292-297;
    motion_planner.py 24-27.  [get] gives the variables passed *)
Definition pre_check (c : fcls) (wc : wcls) (get : string -> option var) : option exn :=
  let g := look get in
  match c with
  | CMovingFrame =>
      if forallb (fun k => vcls_eqb (v_cls (g k)) (v_cls (g "frame1"))) ["frame2"; "pose1"; "pose2"; "measurement"]
      then None else Some ValueErr
  | CLocal => if subclass (v_cls (g "var")) (v_cls (g "target")) then same_dof [g "var"; g "target"] else Some ValueErr
  | CDoubleIntegrator => same_dof [g "pose1"; g "vel1"; g "pose2"; g "vel2"]
  | CGPMotion => match wc with WGP => None | _ => Some ValueErr end
  | CNonholonomic =>
      match dof (g "vel"), dof (g "pose") with
      | Some 3, Some 3 => None | Some _, Some _ => Some ValueErr | _, _ => Some AttrErr
      end
  | CCollision => if subclass (v_cls (g "pose")) KPoint2 || subclass (v_cls (g "pose")) KSE2 then None else Some ValueErr
  | CDLM =>
      if vcls_eqb (v_cls (g "var")) KVariable then Some ValueErr
      else if (ndim (v_tensor (g "epsilon")) =? 2) && (nth 1 (t_shape (v_tensor (g "epsilon"))) 0 =? 1) then None else Some AssertErr
  | CXY => if negb (subclass (v_cls (g "var")) KSE2) && negb (subclass (v_cls (g "target")) KPoint2) then Some ValueErr else None
  | _ => None
  end.
(** motionmodel/misc.py 44-49: down_limit <= up_limit, the batches broadcast *)
Definition entry (t : tensor) (i j : nat) : R :=
  nth ((if nth 0 (t_shape t) 0 =? 1 then 0 else i) * nth 1 (t_shape t) 0 + j) (t_data t) 0%R.
Definition check_limits (d u : tensor) : option exn :=
  let n := nth 1 (t_shape d) 0 in
  let b1 := nth 0 (t_shape d) 0 in let b2 := nth 0 (t_shape u) 0 in
  if n =? 0 then None
  else if negb ((b1 =? b2) || (b1 =? 1) || (b2 =? 1)) then Some RuntimeErr
  else if forallb (fun j => forallb (fun i => if Rle_dec (entry d i j) (entry u i j) then true else false)
                              (seq 0 (if b1 =? 1 then b2 else b1))) (seq 0 n)
  then None else Some ValueErr.
(** after the arguments are prepared: between.py 28-31; double_integrator.py 29-33 (called by
    GPMotionModel after its dt); motionmodel/misc.py 32-41 *)
Definition post_check (c : fcls) (get : string -> option var) : option exn :=
  let g := look get in
  match c with
  | CBetween =>
      if subclass (v_cls (g "v0")) (v_cls (g "v1")) && subclass (v_cls (g "v0")) (v_cls (g "measurement"))
      then None else Some ValueErr
  | CGPMotion => same_dof [g "pose1"; g "vel1"; g "pose2"; g "vel2"]
  | CHinge =>
      match dof (g "vector") with
      | None => Some AttrErr
      | Some n =>
          if negb (forallb (fun k => (ndim (v_tensor (g k)) =? 2) && (nth 1 (t_shape (v_tensor (g k))) 0 =? n))
                    ["down_limit"; "up_limit"; "threshold"]) then Some ValueErr else
          match check_limits (v_tensor (g "down_limit")) (v_tensor (g "up_limit")) with
          | Some e => Some e
          | None =>
              if List.length (t_data (v_tensor (g "threshold"))) =? 0 then Some RuntimeErr
              else if forallb (fun x => if Rlt_dec x 0 then true else false) (t_data (v_tensor (g "threshold"))) then Some ValueErr
              else None
          end
      end
  | _ => None
  end.

(** ** Constructors *)
Definition check (o : option exn) : M unit := match o with None => ret tt | Some e => raise e end.
(** theseus_function.py 24-29; [id]: TheseusFunction._ids *)
Definition fn_name (cn : string) (id : nat) (name : option string) : string :=
  match name with Some s => if String.eqb s "" then cn ++ "__" ++ dec id else s | None => cn ++ "__" ++ dec id end.
Definition arg_of (args : list (string * arg)) (k : string) : arg := match assoc args k with Some a => a | None => ANone end.
(** the preparations of a class in turn, assigning the attributes *)
Fixpoint run_preps (sn : string) (name : option string) (vdof batch : nat) (args : list (string * arg)) (ps : list (string * prep))
  : M (list (string * nat)) :=
  match ps with
  | [] => ret []
  | (k, p) :: ps =>
      let* v := run_prep sn name vdof batch p (arg_of args k) in
      let* l := run_preps sn name vdof batch args ps in
      ret ((k, v) :: l)
  end.
(** the variables among the arguments *)
Definition arg_vars (h : heap) (args : list (string * arg)) (k : string) : option var :=
  match assoc args k with Some (AV v) => Some (getv h v) | _ => None end.
(** the variables held by the attributes *)
Definition attr_vars (h : heap) (attrs : list (string * nat)) (k : string) : option var :=
  match assoc attrs k with Some v => Some (getv h v) | None => None end.
Definition first_dim (x : var) : nat := nth 0 (t_shape (v_tensor x)) 0.

Definition make_weight (c : wcls) (id : nat) (name : option string) (args : list arg) : M wobj :=
  let* l := run_preps "" None 0 0 (combine (w_params c) args) (w_preps c) in
  ret (mkWO c (fn_name (wcls_name c) id name) l).
Definition make (c : fcls) (id : nat) (name : option string) (args : list arg) (w : wobj) : M fobj :=
  fun h =>
    let kw := combine (f_params c) args in
    let g := look (arg_vars h kw) in
    let sn := fn_name (fcls_name c) id name in
    (let* _ := check (pre_check c (w_cls w) (arg_vars h kw)) in
     let* l := run_preps sn name (match dof (g "vector") with Some n => n | None => 0 end) (first_dim (g "camera_pose")) kw (f_preps c) in
     fun h' => (let* _ := check (post_check c (attr_vars h' l)) in ret (mkFO c sn l w)) h') h.

(** ** Copies *)
(** variable.py 28-31, geometry/manifold.py 163-167 and the _copy_impl of the geometry classes *)
Definition copy_var (v : nat) : M nat :=
  let* x := get v in alloc (v_cls x) (Some (v_name x ++ "_copy")) (v_tensor x).
Fixpoint copy_attrs (attrs : list (string * nat)) (ks : list string) : M (list arg) :=
  match ks with
  | [] => ret []
  | k :: ks => match assoc attrs k with
               | None => raise AttrErr
               | Some v => let* v' := copy_var v in let* l := copy_attrs attrs ks in ret (AV v' :: l)
               end
  end.
(** zip(self.xs, new.xs): new.name = old.name *)
Fixpoint keep_names (l l' : list nat) : M unit :=
  match l, l' with
  | v :: l, v' :: l' => let* x := get v in let* _ := set_name v' (v_name x) in keep_names l l'
  | _, _ => ret tt
  end.
Definition vars_at (attrs : list (string * nat)) (ks : list string) : list nat :=
  map (fun k => match assoc attrs k with Some v => v | None => 0 end) ks.
Definition share (l l' : list nat) : bool := existsb (fun v => existsb (Nat.eqb v) l') l.
Definition copy_name (new_name : option string) (old : string) : string :=
  match new_name with Some s => if String.eqb s "" then old ++ "_copy" else s | None => old ++ "_copy" end.
(** theseus_function.py 90-110 around w_copy_args *)
Definition copy_weight (w : wobj) (id : nat) (new_name : option string) (keep : bool) : M wobj :=
  let c := w_cls w in
  let* args := copy_attrs (w_attrs w) (w_copy_args c) in
  let* w' := make_weight c id (Some (copy_name new_name (w_name w))) args in
  let* _ := (if keep then keep_names (vars_at (w_attrs w) (w_aux c)) (vars_at (w_attrs w') (w_aux c)) else ret tt) in
  if share (vars_at (w_attrs w) (w_aux c)) (vars_at (w_attrs w') (w_aux c)) then raise RuntimeErr else ret w'.
(** theseus_function.py 90-110 around f_copy_args, f.weight.copy() and the constructor *)
Definition copy (f : fobj) (id id_w : nat) (new_name : option string) (keep : bool) : M fobj :=
  let c := f_cls f in let c' := copy_cls c in
  let* args := copy_attrs (f_attrs f) (f_copy_args c) in
  let* w' := copy_weight (f_weight f) id_w None false in
  let* f' := make c' id (Some (copy_name new_name (f_name f))) args w' in
  let o := vars_at (f_attrs f) (f_optim c) in let o' := vars_at (f_attrs f') (f_optim c') in
  let a := vars_at (f_attrs f) (f_aux c) in let a' := vars_at (f_attrs f') (f_aux c') in
  let* _ := (if keep then let* _ := keep_names o o' in keep_names a a' else ret tt) in
  if share o o' || share a a' then raise RuntimeErr else ret f'.
End Ctor.
