(** Model of the constructors of random and identity group elements:
    torchlie/torchlie/functional/so3_impl.py:155-214 and se3_impl.py:119-170
    (rand, randn, identity), theseus/geometry/so3.py:44-80, se3.py:44-80,
    so2.py:49-93 and se2.py:45-87 (rand, randn).

    torch.rand and torch.randn are modelled by the numbers they return: a
    sequence [s] of reals, of which a call takes the next ones and puts them in
    the tensor in row-major order.  What is assumed of the numbers is said in
    each theorem.  Real arithmetic replaces floating point; a division by zero
    (inf or nan in torch) makes the element [None].  Of the result tensor the
    model keeps the batch elements, requires_grad and is_leaf; a call that raises
    is [None].  dtype and device arguments only select the numbers. *)
From Coq Require Import Reals List Lia Lra.
From Verif Require Import Geo_spec Geo3_spec Geo4_spec SE2_model SO3_model SE3_model.
Import ListNotations.
Local Open Scope R_scope.

Notation stream := (nat -> R) (only parsing).
Record Tens (A : Type) := mkTens { t_val : list A; t_req : bool; t_leaf : bool }.
Arguments mkTens {A}. Arguments t_val {A}. Arguments t_req {A}. Arguments t_leaf {A}.

(** the number of elements of a batch of shape [size] *)
Definition numel (size : list nat) : nat := fold_right Nat.mul 1%nat size.

(** so3_impl.py:166-178: u1 = u[0]; u2, u3 = u[1:3] * 2 * PI; the quaternion *)
Definition rand_quat (u1 v2 v3 : R) : Quat :=
  let u2 := v2 * 2 * PI in let u3 := v3 * 2 * PI in
  let a := sqrt (1 - u1) in let b := sqrt u1 in
  mkQ (a * sin u2) (a * cos u2) (b * sin u3) (b * cos u3).
(** so3_impl.py:164-182 (rand): u has shape 3 x size, so element i is made of
    the numbers i, n + i and 2 n + i *)
Definition so3_rand_at (n : nat) (s : stream) (i : nat) : option M3 :=
  so3_quaternion_to_rotation (rand_quat (s i) (s (n + i)%nat) (s (2 * n + i)%nat)).
Definition so3_rand (size : list nat) (s : stream) (rg : bool) : Tens (option M3) :=
  let n := numel size in mkTens (map (so3_rand_at n s) (seq 0 n)) rg true.
(** so3_impl.py:188-200 (randn) *)
Definition so3_randn_at (d : dtype) (s : stream) (i : nat) : option M3 :=
  so3_exp d (mkV3 (PI * s (3 * i)%nat) (PI * s (3 * i + 1)%nat) (PI * s (3 * i + 2)%nat)).
Definition so3_randn (d : dtype) (size : list nat) (s : stream) (rg : bool) : Tens (option M3) :=
  mkTens (map (so3_randn_at d s) (seq 0 (numel size))) rg true.
(** so3_impl.py:206-214 (identity) *)
Definition so3_identity (size : list nat) (rg : bool) : Tens M3 :=
  mkTens (repeat I3 (numel size)) rg true.

(** se3_impl.py:121-135 (rand): the rotations take the first 3 n numbers, the
    translations, of shape size x 3 x 1, the next 3 n *)
Definition cat_rt (r : option M3) (t : V3) : option Rig :=
  match r with Some r => Some (mkRig r t) | None => None end.
Definition trans_at (n : nat) (s : stream) (i : nat) : V3 :=
  mkV3 (s (3 * n + 3 * i)%nat) (s (3 * n + 3 * i + 1)%nat) (s (3 * n + 3 * i + 2)%nat).
Definition se3_rand (size : list nat) (s : stream) (rg : bool) : Tens (option Rig) :=
  let n := numel size in
  mkTens (map (fun i => cat_rt (so3_rand_at n s i) (trans_at n s i)) (seq 0 n)) rg true.
(** se3_impl.py:141-155 (randn) *)
Definition se3_randn (d : dtype) (size : list nat) (s : stream) (rg : bool) : Tens (option Rig) :=
  let n := numel size in
  mkTens (map (fun i => cat_rt (so3_randn_at d s i) (trans_at n s i)) (seq 0 n)) rg true.
(** se3_impl.py:159-170 (identity) *)
Definition se3_identity (size : list nat) (rg : bool) : Tens Rig :=
  mkTens (repeat (mkRig (mkM3 1 0 0 0 1 0 0 0 1) (mkV3 0 0 0)) (numel size)) rg true.

(** theseus/geometry/so3.py:44-80 and se3.py:44-80: only 1-D sizes *)
Definition one_d {A} (size : list nat) (r : A) : option A :=
  if Nat.eqb (length size) 1 then Some r else None.
Definition th_so3_rand size s rg := one_d size (so3_rand size s rg).
Definition th_so3_randn d size s rg := one_d size (so3_randn d size s rg).
Definition th_se3_rand size s rg := one_d size (se3_rand size s rg).
Definition th_se3_randn d size s rg := one_d size (se3_randn d size s rg).

(** so2.py:49-93: exp_map of a computed angle, so the result is not a leaf when
    it requires grad; [ge] is torch.is_grad_enabled() *)
Definition th_so2_rand (ge : bool) (size : list nat) (s : stream) (rg : bool) : option (Tens SO2) :=
  one_d size (mkTens (map (fun i => so2_exp_map (2 * PI * s i - PI)) (seq 0 (numel size)))
                (andb rg ge) (negb (andb rg ge))).
Definition th_so2_randn (ge : bool) (size : list nat) (s : stream) (rg : bool) : option (Tens SO2) :=
  one_d size (mkTens (map (fun i => so2_exp_map (PI * s i)) (seq 0 (numel size)))
                (andb rg ge) (negb (andb rg ge))).

(** se2.py:45-87: [x_y_theta[:, 2] = ...] writes in place into the tensor that
    torch.rand returned; torch refuses this when that tensor is a leaf that
    requires grad and grad mode is on.  se2.py:152-163 (update_from_x_y_theta) *)
Definition from_x_y_theta (x y th : R) : SE2 := se2_of (so2_exp_map th) (mkV2 x y).
Definition th_se2_rand (ge : bool) (size : list nat) (s : stream) (rg : bool) : option (Tens SE2) :=
  match one_d size tt with
  | None => None
  | Some _ =>
      if andb rg ge then None
      else Some (mkTens (map (fun i => from_x_y_theta (s (3 * i)%nat) (s (3 * i + 1)%nat)
                                         (2 * PI * (s (3 * i + 2)%nat - 1 / 2))) (seq 0 (numel size))) false true)
  end.
Definition th_se2_randn (ge : bool) (size : list nat) (s : stream) (rg : bool) : option (Tens SE2) :=
  match one_d size tt with
  | None => None
  | Some _ =>
      if andb rg ge then None
      else Some (mkTens (map (fun i => from_x_y_theta (s (3 * i)%nat) (s (3 * i + 1)%nat)
                                         (s (3 * i + 2)%nat * PI)) (seq 0 (numel size))) false true)
  end.
