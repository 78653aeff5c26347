(** Robots described by URDF files: trees of links and joints.  The pose of a
    link is the product of the transforms of the joints on its path from the root. *)
From Coq Require Import Reals List Arith.
From Verif Require Import Geo_spec Geo3_spec Geo4_spec.
Local Open Scope R_scope.

(** ** The description *)
Inductive JType := Revolute | Prismatic | Fixed.
(** links are numbered in the order of the file; the origin is the optional translation and the optional roll, pitch, yaw *)
Record UJoint := mkUJ { uj_parent : nat; uj_child : nat; uj_type : JType; uj_axis : V3;
  uj_xyz : option V3; uj_rpy : option V3 }.
Record Urdf := mkUrdf { u_nlinks : nat; u_joints : list UJoint }.
Definition fixed_joint (uj : UJoint) : bool := match uj_type uj with Fixed => true | _ => false end.

(** a tree: every link but the root is the child of exactly one joint, and going to the child never returns *)
Definition tree_of (u : Urdf) (root : nat) (depth : nat -> nat) :=
  (root < u_nlinks u)%nat
  /\ NoDup (map uj_child (u_joints u))
  /\ (forall l, (l < u_nlinks u)%nat -> (In l (map uj_child (u_joints u)) <-> l <> root))
  /\ forall uj, In uj (u_joints u) ->
       (uj_parent uj < u_nlinks u)%nat /\ (uj_child uj < u_nlinks u)%nat /\ (depth (uj_parent uj) < depth (uj_child uj))%nat.
Definition is_tree (u : Urdf) (root : nat) := exists depth, tree_of u root depth.

(** ** Transforms *)
Definition rot_x (a : R) : M3 := mkM3 1 0 0 0 (cos a) (- sin a) 0 (sin a) (cos a).
Definition rot_y (a : R) : M3 := mkM3 (cos a) 0 (sin a) 0 1 0 (- sin a) 0 (cos a).
Definition rot_z (a : R) : M3 := mkM3 (cos a) (- sin a) 0 (sin a) (cos a) 0 0 0 1.
(** the frame of a joint in the frame of its parent link *)
Definition joint_origin (uj : UJoint) : Rig :=
  mkRig (match uj_rpy uj with Some a => mul3 (rot_z (b2 a)) (mul3 (rot_y (b1 a)) (rot_x (b0 a))) | None => I3 end)
        (match uj_xyz uj with Some t => t | None => zero3 end).
(** the motion of a joint by the amount q *)
Definition joint_motion (uj : UJoint) (q : R) (m : Rig) := match uj_type uj with
  | Revolute => is_exp_m3 (so3_alg (scal3 q (uj_axis uj))) (rr m) /\ rp m = zero3
  | Prismatic => m = mkRig I3 (scal3 q (uj_axis uj))
  | Fixed => m = mkRig I3 zero3
  end.
(** product of rigid motions *)
Definition rig_mul (g h : Rig) : Rig := mkRig (mul3 (rr g) (rr h)) (add3 (app3 (rr g) (rp h)) (rp g)).
(** [T] is the pose of link [l] in the frame of the root when joint number j has moved by [q j]; [mot] is the motion of a joint *)
Inductive link_pose (mot : UJoint -> R -> Rig -> Prop) (u : Urdf) (root : nat) (q : nat -> R) : nat -> Rig -> Prop :=
| lp_root : link_pose mot u root q root (mkRig I3 zero3)
| lp_joint : forall j uj T m, nth_error (u_joints u) j = Some uj -> link_pose mot u root q (uj_parent uj) T -> mot uj (q j) m ->
    link_pose mot u root q (uj_child uj) (rig_mul (rig_mul T (joint_origin uj)) m).

(** the curve h of poses passes through g with spatial velocity xi: the derivative of its matrix is hat(xi) times that of g *)
Definition moves6_spatial (h : R -> Rig) (g : Rig) (xi : Tw) :=
  h 0 = g /\ deriv_m44 (fun t => hmat (h t)) 0 (mul44 (se3_alg xi) (hmat g)).
(** sum of columns: sum over c < n of q c times the column J c *)
Fixpoint tsum (n : nat) (f : nat -> Tw) : Tw := match n with O => tzero | S k => tadd (tsum k f) (f k) end.
Fixpoint rsum_list (l : list R) : R := match l with nil => 0 | x :: r => x + rsum_list r end.
