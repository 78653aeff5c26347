(** Model of the construction of a SignedDistanceField2D from an occupancy map:
    theseus/embodied/collision/signed_distance_field.py 19-102. Real arithmetic; a map is a function of
    row and column with a number of rows and columns. dtypes and devices are not modelled. *)
From Coq Require Import Reals List Arith Bool ZArith.
From Verif Require Import Geo_spec Geo3_spec Geo4_spec SE2_model Emb_model Emb2_model.
Import ListNotations.
Local Open Scope R_scope.

Section Occ.
(** what scipy returns when there is no cell to measure the distance to: unspecified *)
Variable unspecified : nat -> nat -> nat -> nat -> R.

Definition cells (rows cols : nat) : list (nat * nat) := list_prod (seq 0 rows) (seq 0 cols).
Definition index_dist (r c r' c' : nat) : R := sqrt ((INR r - INR r') * (INR r - INR r') + (INR c - INR c') * (INR c - INR c')).
Definition min_dist (r c : nat) (l : list (nat * nat)) (x : R) : R :=
  fold_right (fun q m => Rmin (index_dist r c (fst q) (snd q)) m) x l.
(** scipy.ndimage.distance_transform_edt: for each cell the distance, in cells, to the nearest cell
    that is zero (scipy documentation) *)
Definition distance_transform_edt (rows cols : nat) (nonzero : nat -> nat -> bool) (r c : nat) : R :=
  match filter (fun q => negb (nonzero (fst q) (snd q))) (cells rows cols) with
  | [] => unspecified rows cols r c
  | q :: l => min_dist r c l (index_dist r c (fst q) (snd q))
  end.

(** signed_distance_field.py 71-72: occupancy_map > threshold *)
Definition cur_map (threshold : R) (m : nat -> nat -> R) (r c : nat) : bool := lt_b threshold (m r c).
(** signed_distance_field.py 74-96, one map *)
Definition sdf_of_map (threshold cell : R) (rows cols : nat) (m : nat -> nat -> R) : nat -> nat -> R :=
  if forallb (fun q => negb (cur_map threshold m (fst q) (snd q))) (cells rows cols)
  then fun _ _ => 1 * (2 * cell * INR (Nat.max rows cols))
  else fun r c => (distance_transform_edt rows cols (fun r c => negb (cur_map threshold m r c)) r c
                   - distance_transform_edt rows cols (cur_map threshold m) r c) * cell.
(** signed_distance_field.py 51-102; [None]: raises (torch.max of an empty map, a batch of cell sizes
    that cannot be expanded to the batch of maps, stacking nothing) *)
Definition compute_sdf_data_from_map (threshold : R) (rows cols : nat) (maps : list (nat -> nat -> R)) (cell_size : list R)
  : option (list (nat -> nat -> R)) :=
  let cs := if length cell_size =? length maps then Some cell_size
            else match cell_size with [x] => Some (repeat x (length maps)) | _ => None end in
  match cs with
  | None => None
  | Some cs => if (length maps =? 0) || (rows * cols =? 0) then None
               else Some (map (fun p => sdf_of_map threshold (snd p) rows cols (fst p)) (combine maps cs))
  end.
(** signed_distance_field.py 28-44: the data of the field ([sdf_init] of Emb2_model for each element of
    the batch). [None]: raises *)
Definition sdf_construct (threshold : R) (rows cols : nat) (cell_size : list R)
  (sdf_data occupancy_map : option (list (nat -> nat -> R))) : option (list (nat -> nat -> R)) :=
  match occupancy_map, sdf_data with
  | Some _, Some _ => None
  | Some m, None => compute_sdf_data_from_map threshold rows cols m cell_size
  | None, Some d => Some d
  | None, None => None
  end.
End Occ.
