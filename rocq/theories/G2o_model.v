(** Model of theseus/utils/examples/pose_graph/dataset.py (reading, writing, batching and generating pose
    graphs). A file is a list of lines, a line the list of its tokens (str.split): a word, an integer
    literal or a decimal literal. Printing a number and parsing it back is exact here; real arithmetic
    replaces floating point and [None] is a nan. dtypes, devices and the text of variable names are not
    modelled: a vertex keeps its id and an edge the number its name is built from. *)
From Coq Require Import Reals List Arith Bool ZArith String.
From Verif Require Import Geo_spec Geo3_spec Geo4_spec SE2_model SO3_model SE3_model Rand_model.
Import ListNotations.
Local Open Scope R_scope.

Inductive exn := IndexError | ValueError | TypeError | RuntimeError | AssertionError | AttributeError | ZeroDivisionError.
Inductive exc (A : Type) := Ret (a : A) | Raise (e : exn).
Arguments Ret {A}. Arguments Raise {A}.
Definition ebind {A B} (x : exc A) (f : A -> exc B) : exc B := match x with Ret a => f a | Raise e => Raise e end.
Notation "'let!' x ':=' e 'in' f" := (ebind e (fun x => f)) (at level 200, x pattern, e at level 100, f at level 200).

Inductive tok := TWord (s : string) | TInt (z : Z) | TNum (x : option R).
(** tokens[k] *)
Definition tok_at (l : list tok) (k : nat) : exc tok := match nth_error l k with Some t => Ret t | None => Raise IndexError end.
(** int(token) *)
Definition int_of (t : tok) : exc Z := match t with TInt z => Ret z | _ => Raise ValueError end.
(** np.array(tokens, dtype=np.float64) *)
Fixpoint floats_of (l : list tok) : exc (list (option R)) :=
  match l with
  | [] => Ret []
  | TWord _ :: _ => Raise ValueError
  | TInt z :: l => let! r := floats_of l in Ret (Some (IZR z) :: r)
  | TNum x :: l => let! r := floats_of l in Ret (x :: r)
  end.
(** Tensor.sqrt of one entry *)
Definition sqrt_ (x : option R) : option R :=
  match x with Some x => if Rlt_dec x 0 then None else Some (sqrt x) | None => None end.

(** dataset.py 54-61 and 85-90: the quaternion is divided by its norm and x y z w becomes w x y z; with
    fewer than seven columns the gather [6, 3, 4, 5] is out of range, with more the four gathered columns
    do not fit. Then SE3(x_y_z_quaternion=...), se3.py 128-144 *)
Definition pose_of (xs : list (option R)) : exc (option Rig) :=
  match xs with
  | [x; y; z; a; b; c; w] => Ret (
      do x <- x; do y <- y; do z <- z; do a <- a; do b <- b; do c <- c; do w <- w;
      let n := sqrt (a * a + b * b + c * c + w * w) in
      do a <- div_ a n; do b <- div_ b n; do c <- div_ c n; do w <- div_ w n;
      se3_from_xyz_quaternion (mkV3 x y z) (mkQ w a b c))
  | _ => if (List.length xs <? 7)%nat then Raise IndexError else Raise RuntimeError
  end.
(** a[sel] *)
Fixpoint gather {A} (a : list A) (sel : list nat) : exc (list A) :=
  match sel with
  | [] => Ret []
  | k :: sel => match nth_error a k with
                | None => Raise IndexError
                | Some x => let! r := gather a sel in Ret (x :: r)
                end
  end.

(** dataset.py 14-29 (PoseGraphEdge, read from a file: one batch element, weight of one row), with the n
    of its names *)
Record Edge := mkEdge { e_i : Z; e_j : Z; e_pose : option Rig; e_weight : list (option R); e_name : nat }.

(** verts[i] = x *)
Fixpoint dict_set {A} (k : Z) (x : A) (d : list (Z * A)) : list (Z * A) :=
  match d with
  | [] => [(k, x)]
  | (k', y) :: d => if (k =? k')%Z then (k', x) :: d else (k', y) :: dict_set k x d
  end.
(** sorted(verts.items()): the keys are different *)
Fixpoint insert_key {A} (p : Z * A) (l : list (Z * A)) : list (Z * A) :=
  match l with
  | [] => [p]
  | q :: l => if (fst p <? fst q)%Z then p :: q :: l else q :: insert_key p l
  end.
Definition sorted_items {A} (d : list (Z * A)) : list (Z * A) := fold_right insert_key [] d.

Record RState := mkR { r_num : Z; r_verts : list (Z * option Rig); r_edges : list Edge }.
Local Open Scope string_scope.
(** dataset.py 45-92: the body of the loop over the lines *)
Definition read_line (s : RState) (line : list tok) : exc RState :=
  let! t0 := tok_at line 0 in
  match t0 with
  | TWord w =>
    if w =? "EDGE_SE3:QUAT" then
      let! t1 := tok_at line 1 in let! i := int_of t1 in
      let! t2 := tok_at line 2 in let! j := int_of t2 in
      let n := List.length (r_edges s) in
      let! xs := floats_of (firstn 7 (skipn 3 line)) in
      let! p := pose_of xs in
      let! info := floats_of (skipn 10 line) in
      let! sel := gather info [0; 6; 11; 15; 18; 20]%nat in
      Ret (mkR (Z.max (Z.max (r_num s) i) j) (r_verts s)
               (r_edges s ++ [mkEdge i j p (map sqrt_ sel) n]))
    else if w =? "VERTEX_SE3:QUAT" then
      let! t1 := tok_at line 1 in let! i := int_of t1 in
      let! xs := floats_of (skipn 2 line) in
      let! p := pose_of xs in
      Ret (mkR (Z.max (r_num s) i) (dict_set i p (r_verts s)) (r_edges s))
    else Ret s
  | _ => Ret s
  end.
Fixpoint read_lines (s : RState) (ls : list (list tok)) : exc RState :=
  match ls with [] => Ret s | l :: ls => let! s := read_line s l in read_lines s ls end.
(** dataset.py 35-104 (read_3D_g2o_file); a vertex is its id (the number in its name) and its pose *)
Definition read_3D_g2o_file (ls : list (list tok)) : exc (Z * list (Z * option Rig) * list Edge) :=
  let! s := read_lines (mkR 0 [] []) ls in
  Ret ((r_num s + 1)%Z, sorted_items (r_verts s), r_edges s).

(** dataset.py 110-175 (read_2D_g2o_file). Line 138 calls np.array(1, tokens[6:], dtype=np.float64):
    two values for dtype, a TypeError. SE2(x_y_theta=...) takes three columns. *)
Record RState2 := mkR2 { r2_num : Z; r2_verts : list (Z * option SE2) }.
Definition pose2_of (xs : list (option R)) : exc (option SE2) :=
  match xs with
  | [x; y; th] => Ret (do x <- x; do y <- y; do th <- th; Some (from_x_y_theta x y th))
  | _ => Raise ValueError
  end.
Definition read_line2 (s : RState2) (line : list tok) : exc RState2 :=
  let! t0 := tok_at line 0 in
  match t0 with
  | TWord w =>
    if w =? "EDGE_SE2" then
      let! t1 := tok_at line 1 in let! i := int_of t1 in
      let! t2 := tok_at line 2 in let! j := int_of t2 in
      let! xs := floats_of (firstn 3 (skipn 3 line)) in
      let! p := pose2_of xs in
      Raise TypeError
    else if w =? "VERTEX_SE2" then
      let! t1 := tok_at line 1 in let! i := int_of t1 in
      let! xs := floats_of (skipn 2 line) in
      let! p := pose2_of xs in
      Ret (mkR2 (Z.max (r2_num s) i) (dict_set i p (r2_verts s)))
    else Ret s
  | _ => Ret s
  end.
Fixpoint read_lines2 (s : RState2) (ls : list (list tok)) : exc RState2 :=
  match ls with [] => Ret s | l :: ls => let! s := read_line2 s l in read_lines2 s ls end.
Definition read_2D_g2o_file (ls : list (list tok)) : exc (Z * list (Z * option SE2)) :=
  let! s := read_lines2 (mkR2 0 []) ls in
  Ret ((r2_num s + 1)%Z, sorted_items (r2_verts s)).

(** dataset.py 178-203: a dataset. [A] is a pose of one batch element, [W] one row of a weight; a tensor
    is the list of its batch elements *)
Record DEdge (A W : Type) := mkDE { de_i : Z; de_j : Z; de_rel : list A; de_weight : option (list W) }.
Arguments mkDE {A W}. Arguments de_i {A W}. Arguments de_j {A W}. Arguments de_rel {A W}. Arguments de_weight {A W}.
Record Dataset (A W : Type) := mkD { ds_poses : list (list A); ds_edges : list (DEdge A W);
  ds_gt : option (list (list A)); ds_batch : Z; ds_size : nat; ds_num : Z }.
Arguments mkD {A W}. Arguments ds_poses {A W}. Arguments ds_edges {A W}. Arguments ds_gt {A W}.
Arguments ds_batch {A W}. Arguments ds_size {A W}. Arguments ds_num {A W}.

Definition dataset_sizes {A W} (poses : list (list A)) (edges : list (DEdge A W)) (gt : option (list (list A))) : list nat :=
  (map (@List.length A) poses ++ match gt with Some g => map (@List.length A) g | None => [] end
   ++ map (fun e => List.length (de_rel e)) edges)%list.
(** dataset.py 179-203; the call to(device) at the end reaches edge.weight.to, lines 27-29 and 441-452 *)
Definition make_dataset {A W} (poses : list (list A)) (edges : list (DEdge A W)) (gt : option (list (list A)))
  (batch_size : Z) : exc (Dataset A W) :=
  match nodup Nat.eq_dec (dataset_sizes poses edges gt) with
  | [n] =>
      if (batch_size =? 0)%Z then Raise ZeroDivisionError
      else if forallb (fun e => match de_weight e with Some _ => true | None => false end) edges
      then Ret (mkD poses edges gt batch_size n (Z.div (Z.of_nat n - 1) batch_size + 1))
      else Raise AttributeError
  | _ => Raise ValueError
  end.
(** a[start:end] of Python *)
Definition py_index (n : nat) (k : Z) : nat :=
  Z.to_nat (Z.min (Z.of_nat n) (if (k <? 0)%Z then Z.max 0 (k + Z.of_nat n) else k)).
Definition py_slice {A} (l : list A) (start stop : Z) : list A :=
  let a := py_index (List.length l) start in let b := py_index (List.length l) stop in
  firstn (b - a) (skipn a l).
(** dataset.py 401-439 (get_batch_dataset) *)
Definition get_batch_dataset {A W} (d : Dataset A W) (batch_idx : Z) : exc (Dataset A W) :=
  if (batch_idx <? ds_num d)%Z then
    let start := (batch_idx * ds_batch d)%Z in
    let stop := Z.min (start + ds_batch d) (Z.of_nat (ds_size d)) in
    match ds_poses d with
    | [] => Raise IndexError
    | _ =>
      make_dataset (map (fun p => py_slice p start stop) (ds_poses d))
        (map (fun e => mkDE (de_i e) (de_j e) (py_slice (de_rel e) start stop) (de_weight e)) (ds_edges d))
        (match ds_gt d with Some g => Some (map (fun p => py_slice p start stop) g) | None => None end)
        (ds_batch d)
    end
  else Raise AssertionError.

(** dataset.py 367-399 (write_3D_g2o): the lines of the file of batch element n. The weight is squared and
    its row 0 is written. A weight of fewer than six columns raises. *)
Definition quat_toks (d : dtype) (g : Rig) : list tok :=
  let q := so3_to_quaternion d (rr g) in
  let t f := TNum (match q with Some q => Some (f q) | None => None end) in
  [TNum (Some (b0 (rp g))); TNum (Some (b1 (rp g))); TNum (Some (b2 (rp g))); t qx; t qy; t qz; t qw].
Definition info_toks (w : list R) : exc (list tok) :=
  let! sel := gather w [0; 1; 2; 3; 4; 5]%nat in
  match sel with
  | [a; b; c; d; e; f] =>
      let sq x := TNum (Some (x * x)) in let z := TInt 0 in
      Ret [sq a; z; z; z; z; z; sq b; z; z; z; z; sq c; z; z; z; sq d; z; z; sq e; z; sq f]
  | _ => Raise IndexError
  end.
Definition edge_line (d : dtype) (n : nat) (e : DEdge Rig (list R)) : exc (list tok) :=
  match nth_error (de_rel e) n with
  | None => Raise IndexError
  | Some g =>
    match de_weight e with
    | None => Raise AttributeError
    | Some rows =>
      match rows with
      | [] => Raise IndexError
      | w :: _ => let! info := info_toks w in
                  Ret (TWord "EDGE_SE3:QUAT" :: TInt (de_i e) :: TInt (de_j e) :: quat_toks d g ++ info)%list
      end
    end
  end.
Definition vertex_line (d : dtype) (n : nat) (ip : nat * list Rig) : exc (list tok) :=
  match nth_error (snd ip) n with
  | None => Raise IndexError
  | Some g => Ret (TWord "VERTEX_SE3:QUAT" :: TInt (Z.of_nat (fst ip)) :: quat_toks d g)%list
  end.
Fixpoint mapE {A B} (f : A -> exc B) (l : list A) : exc (list B) :=
  match l with [] => Ret [] | x :: l => let! y := f x in let! r := mapE f l in Ret (y :: r) end.
Definition write_3D_g2o (d : dtype) (ds : Dataset Rig (list R)) (n : nat) : exc (list (list tok)) :=
  let! es := mapE (edge_line d n) (ds_edges ds) in
  let! vs := mapE (vertex_line d n) (combine (seq 0 (List.length (ds_poses ds))) (ds_poses ds)) in
  Ret (es ++ vs)%list.
