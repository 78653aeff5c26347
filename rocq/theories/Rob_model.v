(** Model of robust losses and robust cost functions, over the reals. *)
From Coq Require Import List Arith Bool Reals.
From Verif Require Import RSum.
Local Open Scope R_scope.

(** robust_loss.py 10 [_LOSS_EPS]; robust_cost_function.py 54 [RobustCostFunction._EPS] *)
Definition LOSS_EPS : R := / 10 ^ 20.
Definition ROBUST_EPS : R := / 10 ^ 20.

(** [a > b] of floats *)
Definition rgtb (a b : R) : bool := if Rlt_dec b a then true else false.

(** A loss: [_evaluate_impl] and [_linearize_impl], functions of the squared norm and of the radius (for
    GNC losses, of the radius and of mu, packed in one parameter by [geman]). *)
Record loss := mkLoss { evaluate_impl : R -> R -> R; linearize_impl : R -> R -> R }.

(** robust_loss.py 33-40 *)
Definition welsch : loss := mkLoss
  (fun x radius => radius - radius * exp (- x / (radius + LOSS_EPS)))
  (fun x radius => exp (- x / (radius + LOSS_EPS))).
(** robust_loss.py 43-52 *)
Definition huber : loss := mkLoss
  (fun x radius => if rgtb x radius then 2 * sqrt (radius * Rmax x radius + LOSS_EPS) - radius else x)
  (fun x radius => sqrt (radius / Rmax x radius + LOSS_EPS)).
(** robust_loss.py 55-62 *)
Definition hinge : loss := mkLoss
  (fun x radius => if rgtb x radius then sqrt x - sqrt radius else LOSS_EPS)
  (fun x radius => if rgtb x radius then 1 / (2 * sqrt x + LOSS_EPS) else 0).
(** robust_loss.py 100-119, for a control parameter [mu] *)
Definition geman (mu : R) : loss := mkLoss
  (fun x radius => mu * radius * x / (mu * radius + x + LOSS_EPS))
  (fun x radius => (mu * radius) ^ 2 / ((mu * radius + x) ^ 2 + LOSS_EPS)).

(** robust_loss.py 14-20 [evaluate], [linearize]: the radius is exp(log_radius) *)
Definition evaluate (l : loss) (x log_radius : R) : R := evaluate_impl l x (exp log_radius).
Definition linearize (l : loss) (x log_radius : R) : R := linearize_impl l x (exp log_radius).

(** A two dimensional tensor: number of rows and columns, entries. *)
Record ten := mkT { t_rows : nat; t_cols : nat; t_at : nat -> nat -> R }.

(** Elementwise operation of an (N, 1) tensor with a variable tensor (Nr, 1): torch broadcasting of the
    rows, [None] is the RuntimeError of a shape mismatch. *)
Definition broadcast1 (f : R -> R -> R) (a : ten) (radius : ten) : option ten :=
  if (t_rows radius =? 1)%nat then Some (mkT (t_rows a) 1 (fun i _ => f (t_at a i 0%nat) (t_at radius 0%nat 0%nat)))
  else if (t_rows a =? t_rows radius)%nat then Some (mkT (t_rows a) 1 (fun i _ => f (t_at a i 0%nat) (t_at radius i 0%nat)))
  else if (t_rows a =? 1)%nat then Some (mkT (t_rows radius) 1 (fun i _ => f (t_at a 0%nat 0%nat) (t_at radius i 0%nat)))
  else None.

(** the row that broadcasting reads: tensors with one row are repeated *)
Definition brow (rows i : nat) : nat := if (rows =? 1)%nat then 0%nat else i.

(** torch reshape(-1, 1), reshape(-1, d): row major *)
Definition reshape_col (a : ten) : ten :=
  mkT (t_rows a * t_cols a) 1 (fun k _ => t_at a (k / t_cols a)%nat (k mod t_cols a)%nat).
Definition reshape_rows (d : nat) (a : ten) : ten :=
  mkT (t_rows a * t_cols a / d) d (fun i j => t_at a ((i * d + j) / t_cols a)%nat ((i * d + j) mod t_cols a)%nat).

(** torch.sum(e**2, dim=1, keepdim=True) *)
Definition squared_norm (e : ten) : ten := mkT (t_rows e) 1 (fun i _ => rsum (t_cols e) (fun j => t_at e i j ^ 2)).

Definition omap {A B} (f : A -> B) (o : option A) : option B := match o with Some a => Some (f a) | None => None end.

(** robust_cost_function.py 88-107 [weighted_error]; [we]: the wrapped cost function's weighted error,
    [d]: its dim(); [radius]: log_loss_radius. *)
Definition weighted_error (l : loss) (flatten_dims : bool) (d : nat) (we radius : ten) : option ten :=
  let we' := if flatten_dims then reshape_col we else we in
  let sq := squared_norm we' in
  omap (fun error_loss =>
    if flatten_dims then
      let r := reshape_rows d error_loss in mkT (t_rows r) (t_cols r) (fun i j => sqrt (t_at r i j + ROBUST_EPS))
    else
      (* ones_like(weighted_error) * column *)
      mkT (t_rows error_loss) (t_cols we') (fun i _ => 1 * sqrt (t_at error_loss i 0%nat / INR d + ROBUST_EPS)))
    (broadcast1 (evaluate l) sq radius).

(** A Jacobian tensor (B, d, n). *)
Record ten3 := mkT3 { j_rows : nat; j_mid : nat; j_cols : nat; j_at : nat -> nat -> nat -> R }.
(** view(-1, 1, n) and reshape(-1, d, n) *)
Definition view_col3 (j : ten3) : ten3 :=
  mkT3 (j_rows j * j_mid j) 1 (j_cols j) (fun k _ c => j_at j (k / j_mid j)%nat (k mod j_mid j)%nat c).
Definition reshape_rows3 (d : nat) (j : ten3) : ten3 :=
  mkT3 (j_rows j * j_mid j / d) d (j_cols j) (fun i r c => j_at j ((i * d + r) / j_mid j)%nat ((i * d + r) mod j_mid j)%nat c).

(** robust_cost_function.py 116-138 [weighted_jacobians_error]; [js]: the Jacobians of the wrapped cost
    function's variables, with the batch size of the error. *)
Definition weighted_jacobians_error (l : loss) (flatten_dims : bool) (d : nat) (js : list ten3) (we radius : ten)
  : option (list ten3 * ten) :=
  let we' := if flatten_dims then reshape_col we else we in
  let js' := if flatten_dims then map view_col3 js else js in
  let sq := squared_norm we' in
  omap (fun lin =>
    let rescale := fun i => sqrt (t_at lin i 0%nat + ROBUST_EPS) in
    let rj := map (fun j => mkT3 (t_rows lin) (j_mid j) (j_cols j) (fun i r c => rescale i * j_at j (brow (j_rows j) i) r c)) js' in
    let re := mkT (t_rows lin) (t_cols we') (fun i r => rescale i * t_at we' (brow (t_rows we') i) r) in
    if flatten_dims then (map (reshape_rows3 d) rj, reshape_rows d re) else (rj, re))
    (broadcast1 (linearize l) sq radius).
