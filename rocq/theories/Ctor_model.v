(** Model of the constructors of the geometric variables: Vector, Point2, Point3, SO2, SE2, SO3, SE3
    (theseus/geometry), of the methods that replace their value from an angle, a pose vector, a
    quaternion or a rotation and a translation, and of rand / randn.
    A tensor is its memory, dtype, shape, entries (a function of the index), requires_grad and is_leaf.
    The entries are elements of an arbitrary type, their functions (cos, sin, the rotation of a quaternion,
    the numeric part of the checks, normalize) are parameters: C34-C38, C50, C52, C55 are about them.
    Not modelled: devices, the vmap mode, the texts of exceptions and warnings, negative or non-integer
    sizes, empty batches while checks are enabled (their max() raises). Gradients are enabled. *)
From Coq Require Import List String Arith Bool.
From Coq Require Import DecimalString.
Import ListNotations.
Local Open Scope list_scope.
Local Open Scope nat_scope.

Inductive dtype := F16 | F32 | F64 | I64.
Definition dt_eqb (a b : dtype) : bool :=
  match a, b with F16, F16 | F32, F32 | F64, F64 | I64, I64 => true | _, _ => false end.
(** constants.py 17-22 [_CHECK_DTYPE_SUPPORTED] *)
Definition supported (d : dtype) : bool := match d with F32 | F64 => true | _ => false end.

Inductive cls := CVector | CPoint2 | CPoint3 | CSO2 | CSE2 | CSO3 | CSE3.
(** [self.__class__.__name__] *)
Definition cls_name (c : cls) : string :=
  match c with CVector => "Vector" | CPoint2 => "Point2" | CPoint3 => "Point3"
             | CSO2 => "SO2" | CSE2 => "SE2" | CSO3 => "SO3" | CSE3 => "SE3" end%string.
Inductive exn := ValueErr | IndexErr | RuntimeErr.
Inductive warning := WUnchecked | WNormalized | WDtype.

Section Model.
Context {V : Type}.
Variables (v0 v1 : V) (vcos vsin : V -> V).
(** the rotation matrix of one quaternion (torchlie so3_impl.py 821-860, C50) *)
Variable q2r : (nat -> V) -> nat -> nat -> V.

Record tensor := mkT { t_mem : nat; t_dt : dtype; t_shape : list nat; t_at : list nat -> V; t_req : bool; t_leaf : bool }.
(** the numeric part of [_check_tensor_impl] and [normalize] of a class (C55, C38, C52), the norm test of
    [check_unit_quaternion] *)
Variable group_ok : cls -> tensor -> bool.
Variable norm_at : cls -> tensor -> list nat -> V.
Variable unit_ok : tensor -> bool.

(** [Variable]: core/variable.py 20-28 *)
Record obj := mkO { o_cls : cls; o_id : nat; o_name : string; o_tensor : tensor; o_updates : nat }.

(** The world: [Variable._ids], a counter of memories, torch's default dtype, the settings of
    lie_group_check.py (checks_enabled, silent, silence_internal_warnings), whether torchlie checks are
    enabled, the warnings issued so far. *)
Record world := mkW { w_ids : nat; w_mem : nat; w_default : dtype; w_checks : bool; w_silent : bool; w_quiet : bool;
                      w_lie : bool; w_warn : list warning }.
Inductive res (A : Type) := Ok (w : world) (x : A) | Exn (w : world) (e : exn).
Arguments Ok {A}. Arguments Exn {A}.
Definition M (A : Type) := world -> res A.
Definition ret {A} (x : A) : M A := fun w => Ok w x.
Definition raise {A} (e : exn) : M A := fun w => Exn w e.
Definition bind {A B} (m : M A) (k : A -> M B) : M B := fun w => match m w with Ok w' x => k x w' | Exn w' e => Exn w' e end.
Notation "'let*' x := m 'in' k" := (bind m (fun x => k)) (at level 200, x pattern, right associativity).
Definition ask {A} (f : world -> A) : M A := fun w => Ok w (f w).
Definition warn (x : warning) : M unit := fun w =>
  Ok (mkW (w_ids w) (w_mem w) (w_default w) (w_checks w) (w_silent w) (w_quiet w) (w_lie w) (w_warn w ++ [x])) tt.
(** [next(Variable._ids)] *)
Definition next_id : M nat := fun w =>
  Ok (mkW (S (w_ids w)) (w_mem w) (w_default w) (w_checks w) (w_silent w) (w_quiet w) (w_lie w) (w_warn w)) (w_ids w).
(** a new tensor computed by an operation: it is not a leaf if it requires a gradient *)
Definition fresh (d : dtype) (sh : list nat) (at_ : list nat -> V) (req : bool) : M tensor := fun w =>
  Ok (mkW (w_ids w) (S (w_mem w)) (w_default w) (w_checks w) (w_silent w) (w_quiet w) (w_lie w) (w_warn w))
     (mkT (w_mem w) d sh at_ req (negb req)).
(** a view: the same memory *)
Definition view (t : tensor) (sh : list nat) (at_ : list nat -> V) : tensor :=
  mkT (t_mem t) (t_dt t) sh at_ (t_req t) (negb (t_req t)).

(** ---- core/variable.py ---- *)
(** f"{cls}__{id}" *)
Definition default_name (c : cls) (i : nat) : string :=
  (cls_name c ++ "__" ++ NilEmpty.string_of_uint (Nat.to_uint i))%string.
(** variable.py 20-28 [__init__]; [if name:] is false for None and "" *)
Definition variable_init (c : cls) (t : tensor) (name : option string) : M obj :=
  let* i := next_id in
  let n := match name with Some s => if String.eqb s "" then default_name c i else s | None => default_name c i end in
  ret (mkO c i n t 0).
(** variable.py 44-72 [update] without mask: the checks, then the given tensor itself is stored *)
Definition shape_eqb (a b : list nat) : bool := if list_eq_dec Nat.eq_dec a b then true else false.
Definition update (o : obj) (t : tensor) : M obj :=
  if negb (List.length (t_shape t) =? List.length (t_shape (o_tensor o))) || negb (shape_eqb (tl (t_shape t)) (tl (t_shape (o_tensor o))))
  then raise ValueErr
  else if negb (dt_eqb (t_dt t) (t_dt (o_tensor o))) then raise ValueErr
  else ret (mkO (o_cls o) (o_id o) (o_name o) t (S (o_updates o))).

(** ---- geometry/manifold.py ---- *)
(** [_init_tensor]: vector.py 39-40, so2.py 90-91, se2.py 110-111, so3.py 82-83, se3.py 79-80 *)
Definition init_shape (c : cls) (dof : nat) : list nat :=
  match c with CVector | CPoint2 | CPoint3 => [1; dof] | CSO2 => [1; 2] | CSE2 => [1; 4] | CSO3 => [1; 3; 3] | CSE3 => [1; 3; 4] end.
Definition init_at (c : cls) (ix : list nat) : V :=
  match c, ix with
  | CSO2, [_; 0] => v1
  | CSE2, [_; 2] => v1
  | (CSO3 | CSE3), [_; r; k] => if r =? k then v1 else v0
  | _, _ => v0
  end.
(** the shape tests of [_check_tensor_impl] and [normalize]: vector.py 217-228, point_types.py 91-95,
    187-191, so2.py 134, 189, se2.py 233, 304, so3.py 119, 168, se3.py 118, 162 *)
Definition shape_test (c : cls) (sh : list nat) : bool :=
  match c, sh with
  | CVector, [_; _] => true
  | CPoint2, [_; n] => n =? 2
  | CPoint3, [_; n] => n =? 3
  | CSO2, [_; n] => n =? 2
  | CSE2, [_; n] => n =? 4
  | CSO3, [_; r; k] => (r =? 3) && (k =? 3)
  | CSE3, [_; r; k] => (r =? 3) && (k =? 4)
  | _, _ => false
  end.
(** [_check_tensor_impl]: so2.py 132-145 and se2.py 231-236 ([get_eps] refuses other dtypes);
    so3.py 113-122, se3.py 117-124: the ValueError of torchlie, also that of [get_eps], is caught *)
Definition check_impl (c : cls) (t : tensor) : M bool :=
  if negb (shape_test c (t_shape t)) then raise ValueErr else
  match c with
  | CVector | CPoint2 | CPoint3 => ret true
  | CSO2 | CSE2 => if supported (t_dt t) then ret (group_ok c t) else raise ValueErr
  | CSO3 | CSE3 => let* lie := ask w_lie in ret (if lie then supported (t_dt t) && group_ok c t else true)
  end.
(** [normalize]: torch.svd refuses other dtypes (so3_impl.py 1136) *)
Definition normalize (c : cls) (t : tensor) : M tensor :=
  if negb (shape_test c (t_shape t)) then raise ValueErr else
  match c with
  | CVector | CPoint2 | CPoint3 => ret t
  | _ => if supported (t_dt t) then fresh (t_dt t) (t_shape t) (norm_at c t) (t_req t) else raise RuntimeErr
  end.
(** manifold.py 124-146 [_check_tensor] *)
Definition check_tensor (c : cls) (t : tensor) (strict quiet : bool) : M tensor :=
  let* ok := check_impl c t in
  if ok then ret t
  else if strict then raise ValueErr
  else let* t' := normalize c t in
       let* _ := (if quiet then ret tt else warn WNormalized) in ret t'.
(** manifold.py 32-80 [__init__] (lie_group.py 26-42 passes its arguments on); [dof]: the positional
    argument of [_init_tensor] of Vector *)
Definition manifold_init (c : cls) (dof : nat) (tens : option tensor) (name : option string) (dt : option dtype)
    (strict disable : bool) : M obj :=
  let* def := ask w_default in
  let dt := match tens, dt with None, None => Some def | _, _ => dt end in
  let* td := (match tens with
    | None => ret (None, match dt with Some d => d | None => def end)
    | Some t =>
      let* ce := ask w_checks in let* su := ask w_silent in let* qi := ask w_quiet in
      let '(ce, su, qi) := if disable then (false, true, true) else (ce, su, qi) in
      let* t := (if ce then check_tensor c t strict qi
                 else let* _ := (if su then ret tt else warn WUnchecked) in ret t) in
      let* _ := (match dt with Some d => if dt_eqb (t_dt t) d then ret tt else warn WDtype | None => ret tt end) in
      ret (Some t, t_dt t)
    end) in
  let '(tens, d) := td in
  if negb (supported d) then raise ValueErr else
  let* it := fresh d (init_shape c dof) (init_at c) false in
  let* o := variable_init c it name in
  match tens with Some t => update o t | None => ret o end.

(** ---- Vector and points ---- *)
Definition unsqueeze0 (t : tensor) (n : nat) : tensor := view t [1; n] (fun ix => t_at t (tl ix)).
(** vector.py 18-36 *)
Definition vector_init (c : cls) (dof : option nat) (tens : option tensor) (name : option string) (dt : option dtype) : M obj :=
  match dof, tens with
  | Some _, Some _ => raise ValueErr
  | Some n, None => manifold_init c n None name dt false false
  | None, None => raise ValueErr
  | None, Some t =>
    let t := match t_shape t with [n] => unsqueeze0 t n | _ => t end in
    match t_shape t with
    | [b; n] => manifold_init c n (Some t) name dt false false
    | _ => raise ValueErr
    end
  end.
(** point_types.py 15-29 [_prepare_dof_and_tensor], 32-40, 129-137 *)
Definition point_init (c : cls) (k : nat) (tens : option tensor) (name : option string) (dt : option dtype) : M obj :=
  match tens with
  | None => vector_init c (Some k) None name dt
  | Some t =>
    let t := match t_shape t with [n] => unsqueeze0 t n | _ => t end in
    match t_shape t with
    | _ :: n :: _ => if n =? k then vector_init c None (Some t) name dt else raise ValueErr
    | _ => raise IndexErr                                         (* tensor.shape[1] of a 0-dimensional tensor *)
    end
  end.

(** ---- SO2 ---- *)
(** so2.py 93-94 [update_from_angle], a (b, 1) argument: torch.cat of cos and sin *)
Definition update_from_angle (o : obj) (theta : tensor) : M obj :=
  match t_shape theta with
  | [b; k] =>
    let* t := fresh (t_dt theta) [b; k + k]
      (fun ix => match ix with
                 | [i; j] => if j <? k then vcos (t_at theta [i; j]) else vsin (t_at theta [i; j - k])
                 | _ => v0 end) (t_req theta) in
    update o t
  | [] | [_] => raise IndexErr                                    (* torch.cat(dim=1) *)
  | b :: k :: r =>
    let* t := fresh (t_dt theta) (b :: (k + k) :: r)
      (fun ix => match ix with
                 | i :: j :: l => if j <? k then vcos (t_at theta (i :: j :: l)) else vsin (t_at theta (i :: j - k :: l))
                 | _ => v0 end) (t_req theta) in
    update o t
  end.
(** so2.py 20-51 *)
Definition so2_init (theta tens : option tensor) (name : option string) (dt : option dtype) (strict disable : bool) : M obj :=
  match theta, tens with
  | Some _, Some _ => raise ValueErr
  | None, _ => manifold_init CSO2 0 tens name dt strict disable
  | Some th, None =>
    let* o := manifold_init CSO2 0 None name (Some (t_dt th)) strict disable in
    let th := match t_shape th with [n] => view th [n; 1] (fun ix => t_at th [hd 0 ix]) | _ => th end in
    match t_shape th with
    | [b; 1] => update_from_angle o th
    | _ => raise ValueErr
    end
  end.

(** ---- SE2 ---- *)
(** [t[:, a:]], [t[:, :a]] on the second dimension; [None]: IndexError *)
Definition cols_from (t : tensor) (a : nat) : option tensor :=
  match t_shape t with
  | b :: n :: r => Some (view t (b :: n - a :: r) (fun ix => match ix with i :: j :: l => t_at t (i :: a + j :: l) | _ => v0 end))
  | _ => None
  end.
Definition cols_to (t : tensor) (a : nat) : option tensor :=
  match t_shape t with
  | b :: n :: r => Some (view t (b :: Nat.min n a :: r) (t_at t))
  | _ => None
  end.
(** se2.py 157-163 [update_from_rot_and_trans]: assigns [self.tensor] directly; the translation is
    broadcast by the item assignment (RuntimeError otherwise) and converted to the rotation's dtype *)
Definition se2_from_rot_trans (o rot trans : obj) : M obj :=
  match t_shape (o_tensor rot), t_shape (o_tensor trans) with
  | [b; _], [b2; _] =>
    if (b2 =? b) || (b2 =? 1) then
      let* t := fresh (t_dt (o_tensor rot)) [b; 4]
        (fun ix => match ix with
                   | [i; 0] => t_at (o_tensor trans) [if b2 =? 1 then 0 else i; 0]
                   | [i; 1] => t_at (o_tensor trans) [if b2 =? 1 then 0 else i; 1]
                   | [i; 2] => t_at (o_tensor rot) [i; 0]
                   | [i; 3] => t_at (o_tensor rot) [i; 1]
                   | _ => v0 end) (t_req (o_tensor rot) || t_req (o_tensor trans)) in
      ret (mkO (o_cls o) (o_id o) (o_name o) t (o_updates o))
    else raise RuntimeErr
  | _, _ => raise RuntimeErr
  end.
(** se2.py 152-155 [update_from_x_y_theta] *)
Definition update_from_x_y_theta (o : obj) (x : tensor) : M obj :=
  match cols_from x 2, cols_to x 2 with
  | Some th, Some p =>
    let* rot := so2_init (Some th) None None None false false in
    let* trans := point_init CPoint2 2 (Some p) None None in
    se2_from_rot_trans o rot trans
  | _, _ => raise IndexErr
  end.
(** se2.py 22-46 *)
Definition se2_init (xyt tens : option tensor) (name : option string) (dt : option dtype) (strict disable : bool) : M obj :=
  match xyt, tens with
  | Some _, Some _ => raise ValueErr
  | None, _ => manifold_init CSE2 0 tens name dt strict disable
  | Some x, None =>
    let* o := manifold_init CSE2 0 None name (Some (t_dt x)) strict disable in
    update_from_x_y_theta o x
  end.

(** ---- SO3 ---- *)
(** [ix = lead ++ [r; k]] *)
Definition split_last2 (ix : list nat) : list nat * nat * nat :=
  let n := List.length ix in (firstn (n - 2) ix, nth (n - 2) ix 0, nth (n - 1) ix 0).
(** so3.py 272-277 [unit_quaternion_to_SO3] with torchlie so3_impl.py 108-121, 821-860; [so3_init] of a
    tensor with [disable_checks] is inlined as [manifold_init] *)
Definition unit_quaternion_to_SO3 (q : tensor) : M obj :=
  let q := match t_shape q with [n] => unsqueeze0 q n | _ => q end in
  match rev (t_shape q) with
  | [] => raise IndexErr                                          (* quaternion.shape[-1] *)
  | n :: r =>
    if negb (n =? 4) then raise ValueErr else
    let* lie := ask w_lie in
    if lie && negb (supported (t_dt q) && unit_ok q) then raise ValueErr else
    let* t := fresh (t_dt q) (rev r ++ [3; 3])
      (fun ix => let '(lead, i, j) := split_last2 ix in q2r (fun k => t_at q (lead ++ [k])) i j) (t_req q) in
    manifold_init CSO3 0 (Some t) None None false true
  end.
(** so3.py 85-86 [update_from_unit_quaternion] *)
Definition update_from_unit_quaternion (o : obj) (q : tensor) : M obj :=
  let* g := unit_quaternion_to_SO3 q in update o (o_tensor g).
(** so3.py 21-45 *)
Definition so3_init (q tens : option tensor) (name : option string) (dt : option dtype) (strict disable : bool) : M obj :=
  match q, tens with
  | Some _, Some _ => raise ValueErr
  | None, _ => manifold_init CSO3 0 tens name dt strict disable
  | Some x, None =>
    let* o := manifold_init CSO3 0 None name (Some (t_dt x)) strict disable in
    update_from_unit_quaternion o x
  end.

(** ---- SE3 ---- *)
(** se3.py 127-145 [x_y_z_unit_quaternion_to_SE3]; the test in line 132 says [and]. [SE3()] is made with
    torch's default dtype; the item assignments need a (b, 3, 3) rotation and a (b, 3) translation *)
Definition xyzq_to_SE3 (x : tensor) : M obj :=
  let x := match t_shape x with [n] => unsqueeze0 x n | _ => x end in
  match t_shape x with
  | [] | [_] => raise IndexErr                                    (* x_y_z_quaternion.shape[1] *)
  | b :: n :: r =>
    if negb (List.length r =? 0) && negb (n =? 7) then raise ValueErr else
    let* o := manifold_init CSE3 0 None None None false false in
    match cols_from x 3 with
    | None => raise IndexErr
    | Some q =>
      let* g := unit_quaternion_to_SO3 q in
      let* t := fresh (t_dt x) [b; 3; 4]
        (fun ix => match ix with
                   | [i; r; k] => if k <? 3 then t_at (o_tensor g) [i; r; k] else t_at x [i; r]
                   | _ => v0 end) (t_req x) in
      ret (mkO (o_cls o) (o_id o) (o_name o) t (o_updates o))
    end
  end.
(** se3.py 193-194 [update_from_x_y_z_quaternion] *)
Definition update_from_xyzq (o : obj) (x : tensor) : M obj :=
  let* g := xyzq_to_SE3 x in update o (o_tensor g).
(** se3.py 196-208 [update_from_rot_and_trans]: assigns [self.tensor] directly *)
Definition se3_from_rot_trans (o rot trans : obj) : M obj :=
  match t_shape (o_tensor rot), t_shape (o_tensor trans) with
  | b :: _, b2 :: _ =>
    if negb (b =? b2) then raise ValueErr
    else if negb (dt_eqb (t_dt (o_tensor rot)) (t_dt (o_tensor trans))) then raise ValueErr
    else let* t := fresh (t_dt (o_tensor rot)) [b; 3; 4]
           (fun ix => match ix with
                      | [i; r; k] => if k <? 3 then t_at (o_tensor rot) [i; r; k] else t_at (o_tensor trans) [i; r]
                      | _ => v0 end) (t_req (o_tensor rot) || t_req (o_tensor trans)) in
         ret (mkO (o_cls o) (o_id o) (o_name o) t (o_updates o))
  | _, _ => raise IndexErr
  end.
(** se3.py 21-44 *)
Definition se3_init (x tens : option tensor) (name : option string) (dt : option dtype) (strict disable : bool) : M obj :=
  match x, tens with
  | Some _, Some _ => raise ValueErr
  | None, _ => manifold_init CSE3 0 tens name dt strict disable
  | Some q, None =>
    let* o := manifold_init CSE3 0 None name (Some (t_dt q)) strict disable in
    update_from_xyzq o q
  end.

(** ---- one call ---- *)
(** [a_alt]: theta, x_y_theta, quaternion, x_y_z_quaternion. Arguments that a class does not have are
    ignored. *)
Record args := mkA { a_dof : option nat; a_alt : option tensor; a_tensor : option tensor; a_name : option string;
                     a_dtype : option dtype; a_strict : bool; a_disable : bool }.
Definition construct (c : cls) (a : args) : M obj :=
  match c with
  | CVector => vector_init CVector (a_dof a) (a_tensor a) (a_name a) (a_dtype a)
  | CPoint2 => point_init CPoint2 2 (a_tensor a) (a_name a) (a_dtype a)
  | CPoint3 => point_init CPoint3 3 (a_tensor a) (a_name a) (a_dtype a)
  | CSO2 => so2_init (a_alt a) (a_tensor a) (a_name a) (a_dtype a) (a_strict a) (a_disable a)
  | CSE2 => se2_init (a_alt a) (a_tensor a) (a_name a) (a_dtype a) (a_strict a) (a_disable a)
  | CSO3 => so3_init (a_alt a) (a_tensor a) (a_name a) (a_dtype a) (a_strict a) (a_disable a)
  | CSE3 => se3_init (a_alt a) (a_tensor a) (a_name a) (a_dtype a) (a_strict a) (a_disable a)
  end.
(** A program that calls constructors; exceptions are caught. The objects made, in order, with whether a
    non-empty name was given. *)
Definition given_name (a : args) : option string :=
  match a_name a with Some s => if String.eqb s "" then None else Some s | None => None end.
Fixpoint program (l : list (cls * args)) (w : world) : list (obj * bool) :=
  match l with
  | [] => []
  | (c, a) :: r => match construct c a w with
                   | Ok w' o => (o, match given_name a with Some _ => true | None => false end) :: program r w'
                   | Exn w' _ => program r w'
                   end
  end.

(** ---- rand, randn ---- *)
(** [torch.rand(shape, dtype, requires_grad)]: a new leaf; dtype None is the default *)
Definition torch_rand (sh : list nat) (dt : option dtype) (req : bool) (u : list nat -> V) : M tensor := fun w =>
  let d := match dt with Some d => d | None => w_default w end in
  match d with
  | I64 => Exn w RuntimeErr
  | _ => match fresh d sh u req w with
         | Ok w' t => Ok w' (mkT (t_mem t) (t_dt t) (t_shape t) (t_at t) req true)
         | Exn w' e => Exn w' e
         end
  end.
(** [x[:, 2] = ...]: refused for a leaf that requires a gradient *)
Definition set_col2 (t : tensor) (f : V -> V) : M tensor :=
  if t_leaf t && t_req t then raise RuntimeErr
  else ret (mkT (t_mem t) (t_dt t) (t_shape t)
              (fun ix => match ix with [i; 2] => f (t_at t [i; 2]) | _ => t_at t ix end) (t_req t) (t_leaf t)).
(** vector.py 45-86, point_types.py 42-82, 139-179, so2.py 53-88, se2.py 48-91, so3.py 47-80, se3.py 46-77
    with torchlie so3_impl.py 155-200, se3_impl.py 121-153 (the result is made a leaf by requires_grad_).
    [u]: the random numbers as entries of the drawn tensor; [f]: the map of the angle (rand and randn
    differ in it only); [m]: the entries torchlie computes *)
Definition rand (c : cls) (size : list nat) (dt : option dtype) (req : bool) (u m : list nat -> V) (f : V -> V) : M obj :=
  match c, size with
  | CVector, [b; n] => let* t := torch_rand [b; n] dt req u in vector_init CVector None (Some t) None None
  | CPoint2, [b] => let* t := torch_rand [b; 2] dt req u in point_init CPoint2 2 (Some t) None None
  | CPoint3, [b] => let* t := torch_rand [b; 3] dt req u in point_init CPoint3 3 (Some t) None None
  | CSO2, [b] =>
    let* t := torch_rand [b; 1] dt req u in
    let* t' := fresh (t_dt t) [b; 1] (fun ix => f (t_at t ix)) (t_req t) in
    let* o := manifold_init CSO2 0 None None (Some (t_dt t')) false false in
    update_from_angle o t'
  | CSE2, [b] =>
    let* t := torch_rand [b; 3] dt req u in
    let* t' := set_col2 t f in
    se2_init (Some t') None None None false false
  | CSO3, [b] => let* t := torch_rand [b; 3; 3] dt req m in so3_init None (Some t) None None false true
  | CSE3, [b] => let* t := torch_rand [b; 3; 4] dt req m in se3_init None (Some t) None None false true
  | _, _ => raise ValueErr
  end.
End Model.
Arguments Ok {A}. Arguments Exn {A}.

(** The parameters on batches, from the one-item functions: the checks reduce with max() over the batch,
    normalize acts item by item (so2.py 141-143, 188-207, so3_impl.py 30-48, 1133-1146, se2.py 236, 307) *)
Section Batches.
Context {V : Type}.
Variables (v0 v1 : V) (vcos vsin : V -> V).
Variable q2r : (nat -> V) -> nat -> nat -> V.
Variable item_ok : cls -> dtype -> (list nat -> V) -> bool.
Variable item_norm : cls -> dtype -> (list nat -> V) -> list nat -> V.
Variable unit_q : dtype -> (nat -> V) -> bool.
Definition batch (t : @tensor V) : nat := hd 0 (t_shape t).
Definition item (t : @tensor V) (i : nat) : list nat -> V := fun ix => t_at t (i :: ix).
Definition batch_ok (c : cls) (t : @tensor V) : bool := forallb (fun i => item_ok c (t_dt t) (item t i)) (seq 0 (batch t)).
Definition batch_norm (c : cls) (t : @tensor V) (ix : list nat) : V :=
  match ix with i :: l => item_norm c (t_dt t) (item t i) l | [] => v0 end.
Definition batch_unit (q : @tensor V) : bool := forallb (fun i => unit_q (t_dt q) (fun k => t_at q [i; k])) (seq 0 (batch q)).
(** a call of a constructor; a program; rand and randn; the methods *)
Definition make := construct v0 v1 vcos vsin q2r batch_ok batch_norm batch_unit.
Definition run := program v0 v1 vcos vsin q2r batch_ok batch_norm batch_unit.
Definition random := rand v0 v1 vcos vsin q2r batch_ok batch_norm batch_unit.
Definition set_angle := update_from_angle v0 vcos vsin.
Definition set_x_y_theta := update_from_x_y_theta v0 v1 vcos vsin batch_ok batch_norm.
Definition set_quaternion := update_from_unit_quaternion v0 v1 q2r batch_ok batch_norm batch_unit.
Definition set_x_y_z_quaternion := update_from_xyzq v0 v1 q2r batch_ok batch_norm batch_unit.
Definition set_rot_trans2 := se2_from_rot_trans v0.
Definition set_rot_trans3 := se3_from_rot_trans v0.
End Batches.
