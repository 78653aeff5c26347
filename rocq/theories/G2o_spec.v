(** C84, specification: the g2o format for pose graphs and what the user expects of the readers, the
    writer and the batches. *)
From Coq Require Import Reals List Arith Bool ZArith String Sorted.
From Verif Require Import Geo_spec Geo3_spec Geo4_spec SE2_model SO3_model SE3_model G2o_model.
Import ListNotations.
Local Open Scope R_scope.

(** what a line of a 3D g2o file says (file format of g2o): the pose of a vertex; a relative pose
    between two vertices with its symmetric 6x6 information matrix; or something else *)
Inductive entry :=
| Vertex (id : Z) (p : V3) (q : Quat)
| Constraint (i j : Z) (p : V3) (q : Quat) (info : nat -> nat -> R)
| Other (w : string).
(** a number may be written as an integer or as a decimal *)
Definition writes (t : tok) (x : R) : Prop := t = TNum (Some x) \/ exists z, t = TInt z /\ x = IZR z.
Definition upper (info : nat -> nat -> R) : list R :=
  flat_map (fun r => map (fun c => info r c) (seq r (6 - r))) (seq 0 6).
Definition xyzw (p : V3) (q : Quat) : list R := [b0 p; b1 p; b2 p; qx q; qy q; qz q; qw q].
Definition line_says (e : entry) (l : list tok) : Prop :=
  match e with
  | Vertex id p q => exists ts, l = TWord "VERTEX_SE3:QUAT" :: TInt id :: ts /\ Forall2 writes ts (xyzw p q)
  | Constraint i j p q info =>
      exists ts, l = TWord "EDGE_SE3:QUAT" :: TInt i :: TInt j :: ts /\ Forall2 writes ts (xyzw p q ++ upper info)
  | Other w => w <> "VERTEX_SE3:QUAT"%string /\ w <> "EDGE_SE3:QUAT"%string /\ exists ts, l = TWord w :: ts
  end.

(** the rigid motion x -> q x q* / |q|^2 + p; a zero quaternion is not a pose *)
Definition is_pose (p : V3) (q : Quat) (o : option Rig) : Prop :=
  (qnorm2 q = 0 /\ o = None) \/
  (qnorm2 q <> 0 /\ exists k, o = Some k /\ rigid3 k /\
     forall x, qadd (qmul (qmul q (qpure x)) (qconj q)) (qscal (qnorm2 q) (qpure p))
               = qscal (qnorm2 q) (qpure (add3 (rp k) (app3 (rr k) x)))).
(** the ids a file mentions *)
Definition ids (es : list entry) : list Z :=
  flat_map (fun e => match e with Vertex i _ _ => [i] | Constraint i j _ _ _ => [i; j] | Other _ => [] end) es.
(** the last line about a vertex *)
Definition last_vertex (es : list entry) (id : Z) (p : V3) (q : Quat) : Prop :=
  exists es1 es2, es = es1 ++ Vertex id p q :: es2 /\ forall p' q', ~ In (Vertex id p' q') es2.
Definition constraints (es : list entry) : list entry :=
  filter (fun e => match e with Constraint _ _ _ _ _ => true | _ => false end) es.
(** the square root of an entry; of a negative one it is a nan *)
Definition root_of (x : R) (o : option R) : Prop :=
  (x < 0 /\ o = None) \/ exists w, o = Some w /\ 0 <= w /\ w * w = x.
Definition edge_says (c : entry) (e : Edge) : Prop :=
  match c with
  | Constraint i j p q info =>
      e_i e = i /\ e_j e = j /\ is_pose p q (e_pose e) /\ List.length (e_weight e) = 6%nat /\
      forall k, (k < 6)%nat -> root_of (info k k) (nth k (e_weight e) None)
  | _ => False
  end.
Definition by_id (a b : Z * option Rig) : Prop := (fst a < fst b)%Z.

(** a dataset of [n] graphs that the writer can write: rigid motions whose quaternion is defined, weights
    of six columns *)
Definition quat_defined (d : dtype) (g : Rig) : Prop := rigid3 g /\ so3_to_quaternion d (rr g) <> None.
Definition writable (d : dtype) (ds : Dataset Rig (list R)) (n : nat) : Prop :=
  (forall p, In p (ds_poses ds) -> exists g, nth_error p n = Some g /\ quat_defined d g) /\
  (forall e, In e (ds_edges ds) ->
     (exists g, nth_error (de_rel e) n = Some g /\ quat_defined d g) /\
     (exists w rows, de_weight e = Some (w :: rows) /\ List.length w = 6%nat)).
(** the weight a graph reads back: the absolute values of the first row of the weight of the dataset *)
Definition first_row (e : DEdge Rig (list R)) : list R := match de_weight e with Some (w :: _) => w | _ => [] end.
Definition edge_back (n : nat) (e : DEdge Rig (list R)) (e' : Edge) : Prop :=
  e_i e' = de_i e /\ e_j e' = de_j e /\ e_pose e' = nth_error (de_rel e) n /\
  e_weight e' = map (fun w => Some (Rabs w)) (first_row e).
