(** Model of theseus/utils/examples/tactile_pose_estimation/misc.py:19-200
    (TactilePushingDataset).  A row of the file is its episode number and the
    values of all keys at that row (every key is indexed alike); episode numbers
    and sizes are natural numbers, val_ratio a real number (n * val_ratio is not
    rounded).  Not modelled: the sdf file, devices, JSON, prints. *)
From Coq Require Import Reals List Arith Bool ZArith.
From Verif Require Import Mp_model.
Import ListNotations.
Local Open Scope list_scope.

Section Data.
Variable A : Type.
Definition row := (nat * A)%type.

(** Tensor.unique(): the distinct values in increasing order *)
Definition unique (l : list nat) : list nat :=
  filter (fun e => existsb (Nat.eqb e) l) (seq 0 (S (list_max l))).
(** rows of one episode, in file order: torch.nonzero(... == episode) *)
Definition rows_of (file : list row) (e : nat) : list row := filter (fun r => fst r =? e) file.
(** misc.py:132-146: reshape of the first num_splits * episode_length rows *)
Definition splits (rows : list row) (L : nat) : res (list (list row)) :=
  if L =? 0 then Err ZeroDiv
  else Ok (map (fun k => firstn L (skipn (k * L) (firstn (List.length rows / L * L) rows))) (seq 0 (List.length rows / L))).
(** misc.py:106-124; len() of the squeezed index of a single row raises *)
Fixpoint load_loop (file : list row) (L max_episodes : nat) (split : bool) (eps : list nat) (data : list (list row))
  : res (list (list row)) :=
  match eps with
  | [] => Ok data
  | e :: r =>
      if max_episodes <=? List.length data then Ok data else
      let rows := rows_of file e in
      if List.length rows =? 1 then Err TypeErr else
      if List.length rows <? L then load_loop file L max_episodes split r data else
      let! ts := (if split then splits rows L else Ok [firstn L rows]) in
      load_loop file L max_episodes split r (data ++ ts)
  end.
(** misc.py:73-130; torch.stack of an empty list raises *)
Definition load (file : list row) (L max_episodes : nat) (split : bool) : res (list (list row)) :=
  let! data := load_loop file L max_episodes split (unique (map fst file)) [] in
  match data with [] => Err RuntimeErr | _ => Ok data end.

(** misc.py:44-52 *)
Inductive data_mode := All | Train | Val.
Definition ceil (x : R) : Z := (- Int_part (- x))%Z.
(** int(np.ceil(num_episodes * val_ratio)), at least 2 *)
Definition stop_of (n : nat) (val_ratio : R) : nat := Z.to_nat (Z.max (ceil (INR n * val_ratio)) 2).
(** [order] is rng.permutation(num_episodes) for the given seed *)
Definition indices (m : data_mode) (n : nat) (order : list nat) (val_ratio : R) : list nat :=
  match m with
  | All => seq 0 n
  | Val => firstn (stop_of n val_ratio) order
  | Train => skipn (stop_of n val_ratio) order
  end.
(** data[key][idx] *)
Definition gather {B} (l : list B) (idx : list nat) : list B :=
  flat_map (fun i => match nth_error l i with Some x => [x] | None => [] end) idx.

Record dataset := mkDS { ds_items : list (list row); ds_batch : nat; ds_steps : nat }.
(** misc.py:20-71 *)
Definition make (file : list row) (L batch_size max_episodes max_steps : nat) (split : bool)
    (m : data_mode) (order : list nat) (val_ratio : R) : res dataset :=
  let batch_size := Nat.min batch_size max_episodes in
  let! data := load file L max_episodes split in
  if batch_size =? 0 then Err ZeroDiv else
  Ok (mkDS (gather data (indices m (List.length data) order val_ratio)) batch_size (Nat.min max_steps L)).
(** (dataset_size - 1) // batch_size + 1, floor division *)
Definition num_batches (d : dataset) : Z :=
  ((Z.of_nat (List.length (ds_items d)) - 1) / Z.of_nat (ds_batch d) + 1)%Z.
(** t[start:end] of a tensor, Python slices *)
Definition clip (n : nat) (i : Z) : nat := Z.to_nat (Z.min (Z.of_nat n) (Z.max 0 (if (i <? 0)%Z then i + Z.of_nat n else i))).
Definition slice {B} (l : list B) (a b : Z) : list B :=
  let n := List.length l in firstn (clip n b - clip n a) (skipn (clip n a) l).
(** misc.py:182-200: the first time_steps steps of the episodes of the batch *)
Definition get_batch (d : dataset) (batch_idx : Z) : res (list (list row)) :=
  if (batch_idx <? num_batches d)%Z then
    let start := (batch_idx * Z.of_nat (ds_batch d))%Z in
    let stop := Z.min (start + Z.of_nat (ds_batch d)) (Z.of_nat (List.length (ds_items d))) in
    Ok (map (firstn (ds_steps d)) (slice (ds_items d) start stop))
  else Err AssertErr.
End Data.
