(** Model of the batched operations of theseus/geometry/vector.py,
    theseus/geometry/point_types.py, theseus/geometry/so2.py,
    theseus/geometry/se2.py and theseus/geometry/lie_group.py: tensors with
    their shapes, torch broadcasting, the shape checks and the exceptions.
    Real arithmetic replaces floating point; dtypes, devices, names and
    autograd are not modelled. *)
From Coq Require Import Reals List Arith Bool.
From Verif Require SE2_model.
Import ListNotations.
Local Open Scope R_scope.

(** exceptions: ValueError, RuntimeError (torch shape errors), IndexError,
    AttributeError *)
Inductive exn := ValueErr | RuntimeErr | IndexErr | AttrErr.
Inductive res (A : Type) := Ok (a : A) | Err (e : exn).
Arguments Ok {A} a.
Arguments Err {A} e.
Definition rbind {A B} (x : res A) (f : A -> res B) : res B :=
  match x with Ok a => f a | Err e => Err e end.
Notation "'let!' x ':=' e 'in' f" := (rbind e (fun x => f)) (at level 200, x pattern, e at level 100, f at level 200).

(** a torch tensor: its shape and its entry at each multi-index (only the
    indices within the shape are meaningful) *)
Record ten := T { shp : list nat; at_ : list nat -> R }.

(** ** torch broadcasting (shapes aligned at the last dimension) *)
Definition bdim (x y : nat) : option nat :=
  if (x =? y)%nat then Some x else if (x =? 1)%nat then Some y else if (y =? 1)%nat then Some x else None.
Fixpoint bsh_r (a b : list nat) : option (list nat) :=
  match a, b with
  | [], l => Some l
  | l, [] => Some l
  | x :: a', y :: b' =>
      match bdim x y, bsh_r a' b' with Some z, Some l => Some (z :: l) | _, _ => None end
  end.
Fixpoint clip_r (s i : list nat) : list nat :=
  match s, i with
  | x :: s', k :: i' => (if (x =? 1)%nat then 0%nat else k) :: clip_r s' i'
  | _, _ => []
  end.
Definition bshape (a b : list nat) : option (list nat) := option_map (@rev nat) (bsh_r (rev a) (rev b)).
Definition clip (s i : list nat) : list nat := rev (clip_r (rev s) (rev i)).

(** torch.add / sub / mul / div *)
Definition ew2 (f : R -> R -> R) (a b : ten) : res ten :=
  match bshape (shp a) (shp b) with
  | Some s => Ok (T s (fun i => f (at_ a (clip (shp a) i)) (at_ b (clip (shp b) i))))
  | None => Err RuntimeErr
  end.
Definition ew1 (f : R -> R) (a : ten) : ten := T (shp a) (fun i => f (at_ a i)).
Definition tneg (a : ten) : ten := ew1 Ropp a.

(** t.view(1, -1) of a 1-dimensional tensor *)
Definition view1 (t : ten) (n : nat) : ten := T [1%nat; n] (fun i => at_ t (tl i)).
(** t.unsqueeze(k) *)
Definition unsq (k : nat) (t : ten) : ten :=
  T (firstn k (shp t) ++ [1%nat] ++ skipn k (shp t)) (fun i => at_ t (firstn k i ++ skipn (S k) i)).
(** t.squeeze(k): no effect when that dimension is not 1 *)
Definition sq (k : nat) (t : ten) : ten :=
  if (nth k (shp t) 0 =? 1)%nat
  then T (firstn k (shp t) ++ skipn (S k) (shp t)) (fun i => at_ t (firstn k i ++ [0%nat] ++ skipn k i))
  else t.

Fixpoint sumf (n : nat) (f : nat -> R) : R := match n with O => 0 | S k => sumf k f + f k end.
(** t.sum(-1) *)
Definition sumlast (t : ten) : ten :=
  T (removelast (shp t)) (fun i => sumf (last (shp t) 0%nat) (fun k => at_ t (i ++ [k]))).

(** torch.bmm: 3-dimensional operands, equal batch sizes, no broadcasting *)
Definition bmm (a b : ten) : res ten :=
  match shp a, shp b with
  | [n; p; q], [n'; q'; r] =>
      if (n =? n')%nat && (q =? q')%nat
      then Ok (T [n; p; r] (fun i => match i with
             | [x; y; z] => sumf q (fun k => at_ a [x; y; k] * at_ b [x; k; z]) | _ => 0 end))
      else Err RuntimeErr
  | _, _ => Err RuntimeErr
  end.
(** torch.matmul of 3-dimensional operands: the batch dimension broadcasts *)
Definition matmul3 (a b : ten) : res ten :=
  match shp a, shp b with
  | [n; p; q], [n'; q'; r] =>
      match bdim n n' with
      | Some m =>
          if (q =? q')%nat
          then Ok (T [m; p; r] (fun i => match i with
                 | [x; y; z] => sumf q (fun k => at_ a [if (n =? 1)%nat then 0%nat else x; y; k]
                                               * at_ b [if (n' =? 1)%nat then 0%nat else x; k; z])
                 | _ => 0 end))
          else Err RuntimeErr
      | None => Err RuntimeErr
      end
  | _, _ => Err RuntimeErr
  end.
(** torch.eye(d).repeat(b, 1, 1) *)
Definition eye_rep (d b : nat) : ten :=
  T [b; d; d] (fun i => match i with [_; r; c] => if (r =? c)%nat then 1 else 0 | _ => 0 end).
(** torch.cat of 2-dimensional tensors along dimension 1 *)
Fixpoint cat1 (a : ten) (l : list ten) : res ten :=
  match l with
  | [] => Ok a
  | b :: l' =>
      match shp a, shp b with
      | [n; p], [n'; q] =>
          if (n =? n')%nat
          then cat1 (T [n; (p + q)%nat] (fun i => match i with
                 | [x; y] => if (y <? p)%nat then at_ a [x; y] else at_ b [x; (y - p)%nat] | _ => 0 end)) l'
          else Err RuntimeErr
      | _, _ => Err RuntimeErr
      end
  end.
(** t[:, j] *)
Definition col (t : ten) (j : nat) : ten := T (firstn 1 (shp t)) (fun i => at_ t (i ++ [j])).
(** t[:, lo:lo+w] of a 2-dimensional tensor with at least lo+w columns *)
Definition slice2 (t : ten) (lo w : nat) : ten :=
  T (firstn 1 (shp t) ++ [w]) (fun i => match i with [x; y] => at_ t [x; (lo + y)%nat] | _ => 0 end).
(** torch.stack([a, b], dim=1) of 1-dimensional tensors *)
Definition stack1 (a b : ten) : res ten :=
  match shp a, shp b with
  | [n], [n'] =>
      if (n =? n')%nat
      then Ok (T [n; 2%nat] (fun i => match i with [x; y] => if (y =? 0)%nat then at_ a [x] else at_ b [x] | _ => 0 end))
      else Err RuntimeErr
  | _, _ => Err RuntimeErr
  end.
(** t.expand(n, -1, -1) *)
Definition expand3 (n : nat) (t : ten) : res ten :=
  match shp t with
  | [b; p; q] =>
      if (b =? n)%nat then Ok t
      else if (b =? 1)%nat then Ok (T [n; p; q] (fun i => match i with [_; y; z] => at_ t [0%nat; y; z] | _ => 0 end))
      else Err RuntimeErr
  | _ => Err RuntimeErr
  end.
(** t.transpose(2, 1) *)
Definition trans21 (t : ten) : ten :=
  match shp t with
  | [b; p; q] => T [b; q; p] (fun i => match i with [x; y; z] => at_ t [x; z; y] | _ => 0 end)
  | _ => t
  end.
(** t.new_empty(...): whatever the memory holds; t.new_zeros(...) *)
Definition new_empty (junk : list nat -> R) (s : list nat) : ten := T s junk.
Definition new_zeros (s : list nat) : ten := T s (fun _ => 0).
(** t[:, r, c] = src, with src of shape [k]: torch copies with broadcasting *)
Definition set3 (t : ten) (r c : nat) (src : ten) : res ten :=
  match shp t, shp src with
  | [b; p; q], [k] =>
      if (k =? b)%nat || (k =? 1)%nat
      then Ok (T [b; p; q] (fun i => match i with
             | [x; y; z] => if (y =? r)%nat && (z =? c)%nat then at_ src [if (k =? 1)%nat then 0%nat else x] else at_ t i
             | _ => at_ t i end))
      else Err RuntimeErr
  | _, _ => Err RuntimeErr
  end.
(** t[:, r, c] = x, a Python number *)
Definition fill3 (t : ten) (r c : nat) (v : R) : ten :=
  T (shp t) (fun i => match i with [x; y; z] => if (y =? r)%nat && (z =? c)%nat then v else at_ t i | _ => at_ t i end).
(** t[:, :2, :2] = src, with src of shape [k, 2, 2] *)
Definition set_block3 (t : ten) (src : ten) : res ten :=
  match shp t, shp src with
  | [b; p; q], [k; 2%nat; 2%nat] =>
      if (k =? b)%nat || (k =? 1)%nat
      then Ok (T [b; p; q] (fun i => match i with
             | [x; y; z] => if (y <? 2)%nat && (z <? 2)%nat then at_ src [if (k =? 1)%nat then 0%nat else x; y; z] else at_ t i
             | _ => at_ t i end))
      else Err RuntimeErr
  | _, _ => Err RuntimeErr
  end.
(** t[:, c] = src of a 2-dimensional t *)
Definition set2 (t : ten) (c : nat) (src : ten) : res ten :=
  match shp t, shp src with
  | [b; p], [k] =>
      if (k =? b)%nat || (k =? 1)%nat
      then Ok (T [b; p] (fun i => match i with
             | [x; y] => if (y =? c)%nat then at_ src [if (k =? 1)%nat then 0%nat else x] else at_ t i
             | _ => at_ t i end))
      else Err RuntimeErr
  | _, _ => Err RuntimeErr
  end.
(** t[:, :2] = src, with src of shape [k, 2] *)
Definition set_cols2 (t : ten) (src : ten) : res ten :=
  match shp t, shp src with
  | [b; p], [k; 2%nat] =>
      if (k =? b)%nat || (k =? 1)%nat
      then Ok (T [b; p] (fun i => match i with
             | [x; y] => if (y <? 2)%nat then at_ src [if (k =? 1)%nat then 0%nat else x; y] else at_ t i
             | _ => at_ t i end))
      else Err RuntimeErr
  | _, _ => Err RuntimeErr
  end.

(** ** Vector, Point2, Point3 *)
Inductive vcls := CVector | CPoint2 | CPoint3.
Definition class_dof (c : vcls) : option nat :=
  match c with CVector => None | CPoint2 => Some 2%nat | CPoint3 => Some 3%nat end.
Record vec := Vc { cls : vcls; tn : ten }.

(** vector.py:17-35 (Vector.__init__) with a tensor and no dof *)
Definition vector_init (t : ten) : res ten :=
  match shp t with [n] => Ok (view1 t n) | [_; _] => Ok t | _ => Err ValueErr end.
(** point_types.py:15-28 (_prepare_dof_and_tensor) with a tensor *)
Definition prepare (e : nat) (t : ten) : res ten :=
  match shp t with
  | [] => Err IndexErr
  | [n] => if (n =? e)%nat then Ok (view1 t n) else Err ValueErr
  | _ :: d :: _ => if (d =? e)%nat then Ok t else Err ValueErr
  end.
(** self.__class__(tensor=t): vector.py:17-35, point_types.py:32-39, 134-141 *)
Definition construct (c : vcls) (t : ten) : res vec :=
  match class_dof c with
  | None => let! t' := vector_init t in Ok (Vc c t')
  | Some e => let! t' := prepare e t in let! t'' := vector_init t' in Ok (Vc c t'')
  end.
(** vector.py:42-43 *)
Definition vdof (v : vec) : nat := nth 1 (shp (tn v)) 0%nat.
(** self.shape[0] *)
Definition vbatch (v : vec) : nat := nth 0 (shp (tn v)) 0%nat.

(** the other operand of a Python operator *)
Inductive operand := OVec (v : vec) | OTen (t : ten) | OOther.

(** vector.py:181-182 (_compose_impl), 178-179 (_retract_impl), 190-191 (_inverse_impl) *)
Definition v_compose_impl (u v : vec) : res vec := let! t := ew2 Rplus (tn u) (tn v) in construct (cls u) t.
Definition v_retract (u : vec) (delta : ten) : res vec := let! t := ew2 Rplus (tn u) delta in construct (cls u) t.
Definition v_inverse_impl (u : vec) : res vec := construct (cls u) (tneg (tn u)).
(** vector.py:94-101: __add__, __sub__, __neg__; point_types.py:90-106, 192-208 only cast *)
Definition v_add (u v : vec) : res vec := v_compose_impl u v.
Definition v_sub (u v : vec) : res vec := let! t := ew2 Rminus (tn u) (tn v) in construct (cls u) t.
Definition v_neg (u : vec) : res vec := v_inverse_impl u.
(** vector.py:103-113 (__mul__, __rmul__) *)
Definition v_mul (u : vec) (o : operand) : res vec :=
  match o with
  | OVec v => let! t := ew2 Rmult (tn u) (tn v) in construct (cls u) t
  | OTen x => let! t := ew2 Rmult (tn u) x in construct (cls u) t
  | OOther => Err ValueErr
  end.
(** vector.py:135-143 (__truediv__); an entry divided by 0 is not meaningful here *)
Definition v_div (u : vec) (o : operand) : res vec :=
  match o with
  | OVec v => let! t := ew2 Rdiv (tn u) (tn v) in construct (cls u) t
  | OTen x => let! t := ew2 Rdiv (tn u) x in construct (cls u) t
  | OOther => Err ValueErr
  end.
(** vector.py:115-123 (__matmul__): self @ other *)
Definition v_matmul (u : vec) (o : operand) : res ten :=
  match o with
  | OTen x =>
      if negb (length (shp x) =? 3)%nat then Err ValueErr
      else let! t := bmm (unsq 1 (tn u)) x in Ok (sq 1 t)
  | _ => Err ValueErr
  end.
(** vector.py:125-133 (__rmatmul__): other @ self *)
Definition v_rmatmul (o : operand) (u : vec) : res ten :=
  match o with
  | OVec _ => Err ValueErr
  | OTen x =>
      if negb (length (shp x) =? 3)%nat then Err ValueErr
      else let! t := bmm x (unsq 2 (tn u)) in Ok (sq 2 t)
  | OOther => Err AttrErr
  end.
(** vector.py:145-148 (dot, inner), 150-151 (abs), 153-154 (outer) *)
Definition v_dot (u v : vec) : res ten := let! t := ew2 Rmult (tn u) (tn v) in Ok (sumlast t).
Definition v_abs (u : vec) : res vec := construct (cls u) (ew1 Rabs (tn u)).
Definition v_outer (u v : vec) : res ten := matmul3 (unsq 2 (tn u)) (unsq 1 (tn v)).
(** vector.py:156-157 (norm): norm() over all entries, norm(dim=1) per row *)
Definition v_norm_all (u : vec) : ten :=
  T [] (fun _ => sqrt (sumf (vbatch u) (fun i => sumf (vdof u) (fun j => at_ (tn u) [i; j] * at_ (tn u) [i; j])))).
Definition v_norm_rows (u : vec) : ten :=
  T [vbatch u] (fun i => sqrt (sumf (vdof u) (fun j => at_ (tn u) (i ++ [j]) * at_ (tn u) (i ++ [j])))).
(** vector.py:159-164 (cat): a Vector whatever self is *)
Definition v_cat (u : vec) (l : list vec) : res vec :=
  let! t := cat1 (tn u) (map tn l) in construct CVector t.

(** ** lie_group.py: the operations shared by the groups *)
Notation jlist := (option (list ten)) (only parsing).
(** lie_group.py:43-46 (_check_jacobians_list) and list.extend *)
Definition jextend (J : jlist) (new : res (list ten)) : res jlist :=
  match J with
  | None => Ok None
  | Some (_ :: _) => Err ValueErr
  | Some [] => let! l := new in Ok (Some l)
  end.
(** the methods a group class supplies *)
Record group (G : Type) := {
  g_inv : G -> res G;
  g_cmp : G -> G -> res G;
  g_adj : G -> res ten;
  g_cjac : G -> G -> res (ten * ten);
}.
Arguments g_inv {G}. Arguments g_cmp {G}. Arguments g_adj {G}. Arguments g_cjac {G}.
(** lie_group.py:162-174 (_compose_jacobian); both operands are of one class here *)
Definition generic_cjac {G} (inv : G -> res G) (adj : G -> res ten) (dof : nat) (batch : G -> nat) (g h : G) : res (ten * ten) :=
  let! hi := inv h in let! j1 := adj hi in Ok (j1, eye_rep dof (batch h)).
(** lie_group.py:176-178 *)
Definition inverse_jacobian {G} (C : group G) (g : G) : res ten := let! a := g_adj C g in Ok (tneg a).
(** lie_group.py:142-149 *)
Definition compose {G} (C : group G) (g h : G) (J : jlist) : res (G * jlist) :=
  let! r := g_cmp C g h in
  let! J' := jextend J (let! p := g_cjac C g h in Ok [fst p; snd p]) in
  Ok (r, J').
(** lie_group.py:125-136 *)
Definition between {G} (C : group G) (g h : G) (J : jlist) : res (G * jlist) :=
  let! gi := g_inv C g in
  let! r := g_cmp C gi h in
  let! J' := jextend J
    (let! p := g_cjac C gi h in
     let! ji := inverse_jacobian C g in
     let! j0 := matmul3 (fst p) ji in
     Ok [j0; snd p]) in
  Ok (r, J').
(** lie_group.py:155-160 *)
Definition inverse {G} (C : group G) (g : G) (J : jlist) : res (G * jlist) :=
  let! r := g_inv C g in
  let! J' := jextend J (let! ji := inverse_jacobian C g in Ok [ji]) in
  Ok (r, J').
(** lie_group.py:180-195 (_local_impl): [log] is log_map with the Jacobian it appends *)
Definition local {G} (C : group G) (log : G -> ten * ten) (g h : G) (J : jlist) : res (ten * jlist) :=
  let! (diff, _) := between C g h None in
  let! J' := jextend J
    (let! (di, _) := inverse C diff None in
     let! a := g_adj C di in
     let! j0 := matmul3 (tneg a) (snd (log diff)) in
     Ok [j0; snd (log diff)]) in
  Ok (fst (log diff), J').

(** vector.py:184-188 (_compose_jacobian), 193-198 (_adjoint_impl) *)
Definition v_adjoint (u : vec) : res ten := Ok (eye_rep (vdof u) (vbatch u)).
Definition v_cjac (u v : vec) : res (ten * ten) := Ok (eye_rep (vdof u) (vbatch u), eye_rep (vdof u) (vbatch u)).
Definition vec_group : group vec :=
  {| g_inv := v_inverse_impl; g_cmp := v_compose_impl; g_adj := v_adjoint; g_cjac := v_cjac |}.
(** vector.py:242-257 (_log_map_impl) *)
Definition v_log (u : vec) : ten * ten := (tn u, eye_rep (vdof u) (vbatch u)).
(** vector.py:207-217 (exp_map), 229-240; point_types.py:118-126, 223-231 *)
Definition v_exp (c : vcls) (t : ten) (J : jlist) : res (vec * jlist) :=
  match shp t with
  | [b; d] =>
      if (match class_dof c with None => true | Some e => (d =? e)%nat end)
      then let! J' := jextend J (Ok [eye_rep d b]) in
           let! v := construct c t in Ok (v, J')
      else Err ValueErr
  | _ => Err ValueErr
  end.
(** lie_group.py:109-123 (_project_check, shapes only) and vector.py:200-204 *)
Definition v_project (u : vec) (grad : ten) (is_sparse : bool) : res ten :=
  let n := (if is_sparse then 1 else 2)%nat in
  let tail := skipn (length (shp grad) - n) (shp grad) in
  if list_eq_dec Nat.eq_dec tail (skipn (2 - n) (shp (tn u))) then Ok grad else Err ValueErr.

(** ** SO2 (tensors [b, 2]: cos, sin) and SE2 (tensors [b, 4]: x, y, cos, sin) *)
Definition batch (t : ten) : nat := nth 0 (shp t) 0%nat.
(** a point argument: a Vector (Point2) or a tensor *)
Inductive point := PVec (v : vec) | PTen (t : ten).
Definition pten (p : point) : ten := match p with PVec v => tn v | PTen t => t end.
(** so2.py:236-254 (_rotate_shape_check), se2.py:89-107 (_transform_shape_check) *)
Definition shape_check (b : nat) (p : point) : res unit :=
  if (match p with
      | PTen t => (length (shp t) =? 2)%nat && (nth 1 (shp t) 0 =? 2)%nat
      | PVec v => (vdof v =? 2)%nat end)
  then let n := batch (pten p) in
       if negb (n =? b)%nat && negb (n =? 1)%nat && negb (b =? 1)%nat then Err ValueErr else Ok tt
  else Err ValueErr.
(** so2.py:257-276 (_rotate_from_cos_sin); its own check of tensors *)
Definition rotate_cs (p : point) (c s : ten) : res vec :=
  if (match p with PTen t => (length (shp t) =? 2)%nat && (nth 1 (shp t) 0 =? 2)%nat | PVec _ => true end)
  then
    let px := col (pten p) 0 in let py := col (pten p) 1 in
    let! a := ew2 Rmult c px in let! b := ew2 Rmult s py in
    let! d := ew2 Rmult s px in let! e := ew2 Rmult c py in
    let! x := ew2 Rminus a b in let! y := ew2 Rplus d e in
    let! t := stack1 x y in construct CPoint2 t
  else Err ValueErr.
(** so2.py:311-318 (to_matrix) *)
Definition so2_to_matrix_b (junk : list nat -> R) (g : ten) : res ten :=
  let c := col g 0 in let s := col g 1 in
  let! m := set3 (new_empty junk [batch g; 2%nat; 2%nat]) 0 0 c in
  let! m := set3 m 0 1 (tneg s) in
  let! m := set3 m 1 0 s in
  set3 m 1 1 c.
(** stack([a, b], dim=1).view(-1, 2, 1) *)
Definition stack_view (a b : ten) : res ten :=
  let! t := stack1 a b in
  Ok (T (shp t ++ [1%nat]) (fun i => at_ t (removelast i))).
(** so2.py:278-291 (rotate), 293-306 (unrotate) *)
Definition so2_rotate_b (junk : list nat -> R) (g : ten) (p : point) (J : jlist) : res (vec * jlist) :=
  let! _ := shape_check (batch g) p in
  let! ret := rotate_cs p (col g 0) (col g 1) in
  let! J' := jextend J
    (let! jr := stack_view (tneg (col (tn ret) 1)) (col (tn ret) 0) in
     let! m := so2_to_matrix_b junk g in
     let! jp := expand3 (vbatch ret) m in Ok [jr; jp]) in
  Ok (ret, J').
Definition so2_unrotate_b (junk : list nat -> R) (g : ten) (p : point) (J : jlist) : res (vec * jlist) :=
  let! _ := shape_check (batch g) p in
  let! ret := rotate_cs p (col g 0) (tneg (col g 1)) in
  let! J' := jextend J
    (let! jr := stack_view (col (tn ret) 1) (tneg (col (tn ret) 0)) in
     let! m := so2_to_matrix_b junk g in
     let! jp := expand3 (vbatch ret) (trans21 m) in Ok [jr; jp]) in
  Ok (ret, J').
(** so2.py:224-230 (_compose_impl), 232-234 (_inverse_impl), 116-117 (_adjoint_impl) *)
Definition so2_compose_b (g h : ten) : res ten :=
  let c1 := col g 0 in let s1 := col g 1 in let c2 := col h 0 in let s2 := col h 1 in
  let! cc := ew2 Rmult c1 c2 in let! ss := ew2 Rmult s1 s2 in
  let! sc := ew2 Rmult s1 c2 in let! cs := ew2 Rmult c1 s2 in
  let! nc := ew2 Rminus cc ss in let! ns := ew2 Rplus sc cs in
  stack1 nc ns.
Definition so2_inverse_b (g : ten) : res ten := stack1 (col g 0) (tneg (col g 1)).
Definition so2_adjoint_b (g : ten) : res ten := Ok (T [batch g; 1%nat; 1%nat] (fun _ => 1)).
Definition so2_group : group ten :=
  {| g_inv := so2_inverse_b; g_cmp := so2_compose_b; g_adj := so2_adjoint_b;
     g_cjac := generic_cjac so2_inverse_b so2_adjoint_b 1 batch |}.

(** se2.py:126-128 (rotation), 139-141, 143-150 (translation, xy without its Jacobian) *)
Definition se2_rotation_b (g : ten) : ten := slice2 g 2 2.
Definition se2_translation_b (g : ten) : res vec := construct CPoint2 (slice2 g 0 2).
(** se2.py:157-163 (update_from_rot_and_trans): the batch size is the rotation's *)
Definition se2_from_rot_trans (junk : list nat -> R) (r : ten) (p : vec) : res ten :=
  let! t := set_cols2 (new_empty junk [batch r; 4%nat]) (tn p) in
  let! t := set2 t 2 (col r 0) in
  set2 t 3 (col r 1).
(** se2.py:318-332 (_compose_impl) *)
Definition se2_compose_b (junk : list nat -> R) (g h : ten) : res ten :=
  let r1 := se2_rotation_b g in let r2 := se2_rotation_b h in
  let! t1 := se2_translation_b g in let! t2 := se2_translation_b h in
  let! (nr, _) := compose so2_group r1 r2 None in
  let! (rt, _) := so2_rotate_b junk r1 (PVec t2) None in
  let! (nt, _) := compose vec_group t1 rt None in
  cat1 (tn nt) [nr].
(** se2.py:334-339 (_inverse_impl) *)
Definition se2_inverse_b (junk : list nat -> R) (g : ten) : res ten :=
  let! ir := so2_inverse_b (se2_rotation_b g) in
  let! t := se2_translation_b g in
  let! nt := v_neg t in
  let! (it, _) := so2_rotate_b junk ir (PVec nt) None in
  se2_from_rot_trans junk ir it.
(** se2.py:309-316 (_adjoint_impl) *)
Definition se2_adjoint_b (junk : list nat -> R) (g : ten) : res ten :=
  let! m := so2_to_matrix_b junk (se2_rotation_b g) in
  let! t := set_block3 (new_zeros [batch g; 3%nat; 3%nat]) m in
  let! t := set3 t 0 2 (col g 1) in
  let! t := set3 t 1 2 (tneg (col g 0)) in
  Ok (fill3 (fill3 t 2 0 0) 2 2 1).
Definition se2_group (junk : list nat -> R) : group ten :=
  {| g_inv := se2_inverse_b junk; g_cmp := se2_compose_b junk; g_adj := se2_adjoint_b junk;
     g_cjac := generic_cjac (se2_inverse_b junk) (se2_adjoint_b junk) 3 batch |}.
(** so2.py:206-222 (_log_map_impl); torch.atan2 is [atan2] of [SE2_model] *)
Definition so2_log_b (g : ten) : ten * ten :=
  (T [batch g; 1%nat] (fun i => match i with x :: _ => SE2_model.atan2 (at_ g [x; 1%nat]) (at_ g [x; 0%nat]) | _ => 0 end),
   T [batch g; 1%nat; 1%nat] (fun _ => 1)).
(** se2.py:399-432 (transform_to) *)
Definition se2_transform_to_b (g : ten) (p : point) (J : jlist) : res (vec * jlist) :=
  let! _ := shape_check (batch g) p in
  let B := Nat.max (batch g) (batch (pten p)) in
  let c := col g 2 in let s := col g 3 in
  let! temp := ew2 Rminus (pten p) (slice2 g 0 2) in
  let! ret := rotate_cs (PTen temp) c (tneg s) in
  let! J' := jextend J
    (let jg := fill3 (fill3 (new_zeros [B; 2%nat; 3%nat]) 0 0 (-1)) 1 1 (-1) in
     let! jg := set3 jg 0 2 (col (tn ret) 1) in
     let! jg := set3 jg 1 2 (tneg (col (tn ret) 0)) in
     let! jp := set3 (new_zeros [B; 2%nat; 2%nat]) 0 0 c in
     let! jp := set3 jp 0 1 s in
     let! jp := set3 jp 1 0 (tneg s) in
     let! jp := set3 jp 1 1 c in
     Ok [jg; jp]) in
  Ok (ret, J').
(** se2.py:434-465 (transform_from) *)
Definition se2_transform_from_b (g : ten) (p : point) (J : jlist) : res (vec * jlist) :=
  let! _ := shape_check (batch g) p in
  let B := Nat.max (batch g) (batch (pten p)) in
  let c := col g 2 in let s := col g 3 in
  let! temp := rotate_cs p c s in
  let! t := ew2 Rplus (tn temp) (slice2 g 0 2) in
  let! ret := construct CPoint2 t in
  let! J' := jextend J
    (let! jg := set3 (new_zeros [B; 2%nat; 3%nat]) 0 0 c in
     let! jg := set3 jg 0 1 (tneg s) in
     let! jg := set3 jg 1 0 s in
     let! jg := set3 jg 1 1 c in
     let! jg := set3 jg 0 2 (tneg (col (tn temp) 1)) in
     let! jg := set3 jg 1 2 (col (tn temp) 0) in
     let! jp := set3 (new_zeros [B; 2%nat; 2%nat]) 0 0 c in
     let! jp := set3 jp 0 1 (tneg s) in
     let! jp := set3 jp 1 0 s in
     let! jp := set3 jp 1 1 c in
     Ok [jg; jp]) in
  Ok (ret, J').
