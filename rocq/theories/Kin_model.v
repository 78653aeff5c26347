(** Model of torchkin: Robot.from_urdf_file (on a parsed URDF), the joint
    classes, ForwardKinematicsFactory and get_forward_kinematics_fns, and
    theseus' UrdfRobotModel, for one batch element.  Links and joints are numbered in the order of the file
    (the order of link_map and joint_map); raised exceptions are [None]. *)
From Coq Require Import Reals List Arith Bool ZArith.
Import ListNotations.
From Verif Require Import Geo_spec Geo3_spec Geo4_spec SE2_model SO3_model SE3_model Kin_spec.
Local Open Scope R_scope.

Definition upd {A} (f : nat -> A) (i : nat) (v : A) : nat -> A := fun k => if Nat.eqb k i then v else f k.

(** ** robot.py: Robot.from_urdf_file *)
(** robot.py:60-84 (get_origin); rpy.cos() unpacked into c3, c2, c1 *)
Definition get_origin (xyz rpy : option V3) : Rig :=
  let origin := mkRig I3 zero3 in
  let origin := match xyz with Some t => mkRig (rr origin) t | None => origin end in
  match rpy with
  | None => origin
  | Some a =>
    let c3 := cos (b0 a) in let c2 := cos (b1 a) in let c1 := cos (b2 a) in
    let s3 := sin (b0 a) in let s2 := sin (b1 a) in let s1 := sin (b2 a) in
    mkRig (mkM3 (c1 * c2) (c1 * s2 * s3 - c3 * s1) (s1 * s3 + c1 * c3 * s2)
                (c2 * s1) (c1 * c3 + s1 * s2 * s3) (c3 * s1 * s2 - c1 * s3)
                (- s2) (c2 * s3) (c2 * c3)) (rp origin)
  end.

(** the attributes _child_joints and _parent_joint of links, _parent_link and _origin of joints *)
Record Tree := mkTree { t_children : nat -> list nat; t_pjoint : nat -> option nat; t_jparent : nat -> nat; t_origin : nat -> Rig }.
Definition joint_fixed (u : Urdf) (j : nat) : bool := match nth_error (u_joints u) j with Some uj => fixed_joint uj | None => true end.
Definition joint_child (u : Urdf) (j : nat) : nat := match nth_error (u_joints u) j with Some uj => uj_child uj | None => 0%nat end.

(** robot.py:86-89, 91-116 (create_links, create_joints): one iteration of the loop; link_map[...] raises for an unknown link *)
Definition create_joint (u : Urdf) (st : option (nat * Tree)) (uj : UJoint) : option (nat * Tree) :=
  do st <- st; let '(j, t) := st in
  if (Nat.ltb (uj_parent uj) (u_nlinks u) && Nat.ltb (uj_child uj) (u_nlinks u))%bool then
    Some (S j, mkTree (upd (t_children t) (uj_parent uj) (t_children t (uj_parent uj) ++ [j]))
                      (upd (t_pjoint t) (uj_child uj) (Some j))
                      (upd (t_jparent t) j (uj_parent uj))
                      (upd (t_origin t) j (get_origin (uj_xyz uj) (uj_rpy uj))))
  else None.
Definition create_tree (u : Urdf) : option Tree :=
  do st <- fold_left (create_joint u) (u_joints u)
             (Some (0%nat, mkTree (fun _ => []) (fun _ => None) (fun _ => 0%nat) (fun _ => mkRig I3 zero3)));
  Some (snd st).

(** robot.py:125-130: the body of the innermost loop *)
Definition move_subjoint (joint link : nat) (t : Tree) (subjoint : nat) : Tree :=
  let t := mkTree (t_children t) (t_pjoint t) (upd (t_jparent t) subjoint link)
                  (upd (t_origin t) subjoint (se3_compose (t_origin t joint) (t_origin t subjoint))) in
  mkTree (upd (t_children t) link (t_children t link ++ [subjoint])) (t_pjoint t) (t_jparent t) (t_origin t).
(** robot.py:121-130: one joint of the loop over link._child_joints *)
Definition simplify_joint (u : Urdf) (link : nat) (t : Tree) (joint : nat) : Tree :=
  if joint_fixed u joint then
    let c := joint_child u joint in
    let subjoints := t_children t c in
    let t := mkTree (upd (t_children t) c []) (t_pjoint t) (t_jparent t) (t_origin t) in
    fold_left (move_subjoint joint link) subjoints t
  else t.
(** robot.py:120: the loop runs over the live list, which grows; [fuel] bounds the number of iterations *)
Fixpoint simplify_link (fuel : nat) (u : Urdf) (link i : nat) (t : Tree) : option Tree :=
  match nth_error (t_children t link) i with
  | None => Some t
  | Some joint => match fuel with
                  | O => None
                  | S f => simplify_link f u link (S i) (simplify_joint u link t joint)
                  end
  end.
(** robot.py:118-130 (simplify_kinematics_tree) *)
Definition simplify_tree (u : Urdf) (t : Tree) : option Tree :=
  fold_left (fun t link => do t <- t; simplify_link (length (u_joints u)) u link 0 t) (seq 0 (u_nlinks u)) (Some t).

(** the attributes _joints, _links, _dof of the robot, _id of joints and links *)
Record Num := mkNum { n_joints : list nat; n_links : list nat; n_dof : nat; n_jid : nat -> option nat; n_lid : nat -> option nat }.
(** joint.py: dof of the joint classes *)
Definition joint_dof (u : Urdf) (j : nat) : nat := if joint_fixed u j then 0%nat else 1%nat.
(** robot.py:132-139 (update_kinematics_tree) *)
Definition number_joint (u : Urdf) (n : Num) (j : nat) : Num :=
  mkNum (n_joints n ++ [j]) (n_links n ++ [joint_child u j]) (n_dof n + joint_dof u j)%nat
        (upd (n_jid n) j (Some (length (n_joints n)))) (upd (n_lid n) (joint_child u j) (Some (length (n_links n)))).
(** robot.py:154-160: the breadth-first search *)
Fixpoint bfs (fuel : nat) (u : Urdf) (t : Tree) (queue : list nat) (n : Num) : option Num :=
  match queue with
  | [] => Some n
  | j :: rest =>
    match fuel with
    | O => None
    | S f => if joint_fixed u j then bfs f u t rest n
             else bfs f u t (rest ++ t_children t (joint_child u j)) (number_joint u n j)
    end
  end.
(** robot.py:162-169: joints without id *)
Definition number_rest (u : Urdf) (n : option Num) (j : nat) : option Num :=
  do n <- n;
  match n_jid n j with
  | Some _ => Some n
  | None => if joint_fixed u j then Some (number_joint u n j) else None
  end.
(** third_party/urdf_parser_py/urdf.py:533-540 (get_root): the only link that is no joint's child *)
Definition get_root (u : Urdf) : option nat :=
  match filter (fun l => negb (existsb (Nat.eqb l) (map uj_child (u_joints u)))) (seq 0 (u_nlinks u)) with
  | [r] => Some r
  | _ => None
  end.
(** robot.py:141-169 (build_kinematics_tree) *)
Definition build_tree (u : Urdf) (t : Tree) : option Num :=
  do root <- get_root u;
  do n <- bfs (length (u_joints u)) u t (t_children t root)
            (mkNum [] [root] 0 (fun _ => None) (upd (fun _ => None) root (Some 0%nat)));
  fold_left (number_rest u) (seq 0 (length (u_joints u))) (Some n).

(** the robot: the tree, the numbering and the caches _ancestor_links and _ancestor_non_fixed_joint_ids *)
Record Robot := mkRobot { r_tree : Tree; r_num : Num; r_anc : nat -> list nat; r_ancj : nat -> list nat }.
(** robot.py:171-185: one link; joint.id of a numbered joint *)
Definition cache_link (u : Urdf) (r : option Robot) (link : nat) : option Robot :=
  do r <- r;
  match t_pjoint (r_tree r) link with
  | None => Some r
  | Some pj =>
    let parent := t_jparent (r_tree r) pj in
    do id <- n_jid (r_num r) pj;
    Some (mkRobot (r_tree r) (r_num r) (upd (r_anc r) link (r_anc r parent ++ [parent]))
            (upd (r_ancj r) link (if joint_fixed u pj then r_ancj r parent else r_ancj r parent ++ [id])))
  end.
(** robot.py:39-195 (from_urdf_file) *)
Definition from_urdf (u : Urdf) : option Robot :=
  do t <- create_tree u;
  do t <- simplify_tree u t;
  do n <- build_tree u t;
  fold_left (cache_link u) (n_links n) (Some (mkRobot t n (fun _ => []) (fun _ => []))).

(** ** joint.py *)
(** joint.py:178-181, 217-228 with 253-254, 389-401 with 434-435 (relative_pose of FixedJoint, RevoluteJoint, PrismaticJoint);
    the argument is missing or one angle *)
Definition relative_pose (d : dtype) (uj : UJoint) (origin : Rig) (angle : option R) : option Rig :=
  match uj_type uj, angle with
  | Fixed, None => Some origin
  | Revolute, Some q =>
      do rot <- so3_exp d (scal3 q (uj_axis uj)); Some (mkRig (mul3 (rr origin) rot) (rp origin))
  | Prismatic, Some q => Some (mkRig (rr origin) (add3 (app3 (rr origin) (scal3 q (uj_axis uj))) (rp origin)))
  | _, _ => None
  end.
(** joint.py:251 and 432: the 6-vector axis (6 x 0 for fixed joints) *)
Definition joint_axis (uj : UJoint) : Tw := match uj_type uj with
  | Revolute => mkTw zero3 (uj_axis uj) | Prismatic => mkTw (uj_axis uj) zero3 | Fixed => tzero end.

(** ** forward_kinematics.py *)
(** sorted(list(set(l))) *)
Definition sorted_set (l : list nat) : list nat := filter (fun i => existsb (Nat.eqb i) l) (seq 0 (S (list_max l))).
Fixpoint opt_all {A} (l : list (option A)) : option (list A) := match l with
  | [] => Some [] | None :: _ => None | Some x :: r => do r <- opt_all r; Some (x :: r) end.
(** robot.py:197-202 (get_links) *)
Definition get_links (u : Urdf) (r : Robot) (names : option (list nat)) : option (list nat) := match names with
  | None => Some (n_links (r_num r))
  | Some l => if forallb (fun i => Nat.ltb i (u_nlinks u)) l then Some l else None
  end.
(** forward_kinematics.py:18-28: link_ids, joint_ids, related_link_ids *)
Definition fk_ids (u : Urdf) (r : Robot) (names : option (list nat)) : option (list nat * list nat * list nat) :=
  do links <- get_links u r names;
  do link_ids <- opt_all (map (n_lid (r_num r)) links);
  do anc_ids <- opt_all (map (n_lid (r_num r)) (flat_map (r_anc r) links));
  Some (link_ids, sorted_set (flat_map (r_ancj r) links), sorted_set (anc_ids ++ link_ids)).
(** forward_kinematics.py:43-52: one iteration of the loop over related_link_ids[1:] *)
Definition fk_step (d : dtype) (u : Urdf) (r : Robot) (angles : nat -> R) (poses : option (nat -> option Rig)) (id : nat)
  : option (nat -> option Rig) :=
  do poses <- poses;
  do curr <- nth_error (n_links (r_num r)) id;
  do joint <- t_pjoint (r_tree r) curr;
  do uj <- nth_error (u_joints u) joint;
  do jid <- n_jid (r_num r) joint;
  do prev <- n_lid (r_num r) (t_jparent (r_tree r) joint);
  do rel <- relative_pose d uj (t_origin (r_tree r) joint) (if Nat.ltb jid (n_dof (r_num r)) then Some (angles jid) else None);
  do p <- poses prev;
  Some (upd poses id (Some (se3_compose p rel))).
(** forward_kinematics.py:30-54 (_forward_kinematics_helper); [dim] is angles.shape[1] *)
Definition fk_helper (d : dtype) (u : Urdf) (r : Robot) (related : list nat) (dim : nat) (angles : nat -> R) : option (nat -> option Rig) :=
  if Nat.eqb dim (n_dof (r_num r)) then
    fold_left (fk_step d u r angles) (tl related) (Some (upd (fun _ => None) 0%nat (Some (mkRig I3 zero3))))
  else None.
(** forward_kinematics.py:56-58, 80-84 (forward): the poses of the links *)
Definition fk_forward (d : dtype) (u : Urdf) (r : Robot) (names : option (list nat)) (dim : nat) (angles : nat -> R) : option (list Rig) :=
  do ids <- fk_ids u r names; let '(link_ids, _, related) := ids in
  do poses <- fk_helper d u r related dim angles;
  opt_all (map poses link_ids).
(** forward_kinematics.py:60-72 (_forward_kinematics_backward_helper): the columns; the loop stops at the first fixed joint *)
Fixpoint fk_jposes (u : Urdf) (r : Robot) (poses : nat -> option Rig) (ids : list nat) (jposes : nat -> Tw) : option (nat -> Tw) :=
  match ids with
  | [] => Some jposes
  | id :: rest =>
    do link <- nth_error (n_links (r_num r)) id;
    do joint <- t_pjoint (r_tree r) link;
    do uj <- nth_error (u_joints u) joint;
    do jid <- n_jid (r_num r) joint;
    if Nat.leb (n_dof (r_num r)) jid then Some jposes
    else do p <- poses id;
         fk_jposes u r poses rest (upd jposes jid (app66 (se3_adjoint p) (joint_axis uj)))
  end.
(** forward_kinematics.py:86-118 (backward): grad_outputs for the links, the gradient of the angles *)
Definition fk_backward (u : Urdf) (r : Robot) (ids : list nat * list nat * list nat) (poses : nat -> option Rig) (grads : list Rig)
  : option (nat -> R) :=
  let '(link_ids, joint_ids, related) := ids in
  do jposes <- fk_jposes u r poses (tl related) (fun _ => tzero);
  do grad_pose <- fold_left (fun (gp : option (nat -> Tw)) (lg : nat * Rig) =>
      do gp <- gp; let '(link_id, grad_output) := lg in
      do link <- nth_error (n_links (r_num r)) link_id;
      do ret <- poses link_id;
      let temp := se3_project (mkRig (plus_m3 (mul3 (rr grad_output) (tr3 (rr ret))) (outer (rp grad_output) (rp ret))) (rp grad_output)) in
      Some (fun c => if existsb (Nat.eqb c) (r_ancj r link) then tadd (gp c) temp else gp c))
    (combine link_ids grads) (Some (fun _ => tzero));
  Some (fun c => if existsb (Nat.eqb c) joint_ids then dot6 (jposes c) (grad_pose c) else 0).
(** forward_kinematics.py:144-149: the poses of the related links, by id *)
Definition poses_of (related : list nat) (poses : list Rig) : nat -> option Rig :=
  fold_left (fun f (ip : nat * Rig) => upd f (fst ip) (Some (snd ip))) (combine related poses) (fun _ => None).
(** forward_kinematics.py:131-163 (forward_kinematics_spatial_jacobian): the columns of one Jacobian per link, and the poses *)
Definition fk_spatial (d : dtype) (u : Urdf) (r : Robot) (names : option (list nat)) (dim : nat) (angles : nat -> R)
  : option (list (nat -> Tw) * list Rig) :=
  do ids <- fk_ids u r names; let '(link_ids, _, related) := ids in
  do selected <- opt_all (map (nth_error (n_links (r_num r))) related);
  do selected_poses <- fk_forward d u r (Some selected) dim angles;
  let poses := poses_of related selected_poses in
  do pose0 <- poses 0%nat;                             (* poses[0].new_zeros *)
  do jposes <- fk_jposes u r poses (tl related) (fun _ => tzero);
  do rets <- opt_all (map poses link_ids);
  do links <- opt_all (map (nth_error (n_links (r_num r))) link_ids);
  Some (map (fun link c => if existsb (Nat.eqb c) (r_ancj r link) then jposes c else tzero) links, rets).
(** forward_kinematics.py:165-172 (forward_kinematics_body_jacobian) *)
Definition fk_body (d : dtype) (u : Urdf) (r : Robot) (names : option (list nat)) (dim : nat) (angles : nat -> R)
  : option (list (nat -> Tw) * list Rig) :=
  do jr <- fk_spatial d u r names dim angles; let '(jacs_s, rets) := jr in
  Some (map (fun (jp : (nat -> Tw) * Rig) c => app66 (se3_adjoint (se3_inverse (snd jp))) (fst jp c)) (combine jacs_s rets), rets).

(** ** theseus/embodied/kinematics/kinematics_model.py: UrdfRobotModel.forward_kinematics, 66-127, without Jacobians *)
(** the dictionary from link names to poses; enumerating None raises *)
Definition urdf_fk (d : dtype) (u : Urdf) (r : Robot) (link_names : option (list nat)) (dim : nat) (angles : nat -> R)
  : option (list (nat * Rig)) :=
  if Nat.eqb dim (n_dof (r_num r)) then
    do poses <- fk_forward d u r link_names dim angles;
    do names <- link_names;
    Some (combine names poses)
  else None.

(** ** joint.py:257-341 (RevoluteJointX, Y, Z): the constructor of the base class takes (name, axis_id, id) and is called with (name, id, k) *)
Definition xyz_init (axis_id id : option Z) : option (Z * option Z) :=
  do a <- axis_id;                                     (* None < 0: TypeError *)
  if ((a <? 0) || (3 <=? a))%Z%bool then None else Some (a, id).
Definition revolute_xyz (k : Z) (id : option Z) : option (Z * option Z) := xyz_init id (Some k).
