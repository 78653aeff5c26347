(** Model of the dogleg step over the real numbers. *)
From Coq Require Import List Arith Bool Reals Lra.
From Verif Require Import RSum.
Local Open Scope R_scope.

Definition EPS : R := 1 / 10000000.                       (* dogleg.py 19 *)
Definition Rltb (a b : R) : bool := if Rlt_dec a b then true else false.
Definition Rleb (a b : R) : bool := if Rle_dec a b then true else false.

(** what the step of one batch element is computed from: the linearization, the Gauss-Newton step
    returned by [linear_solver.solve()] and the trust region radius *)
Record elt_in := mkIn { d_m : nat; d_n : nat; d_A : nat -> nat -> R; d_b : nat -> R; d_gn : nat -> R; d_tr : R }.

(** trust_region.py 87-88 [_squared_norm] *)
Definition sqn (n : nat) (v : nat -> R) : R := dot n v v.

Section One.
Variable I : elt_in.
Definition d_sd : nat -> R := tmv (d_m I) (d_A I) (d_b I).                              (* dogleg.py 64 *)
Definition d_Asd : nat -> R := mv (d_n I) (d_A I) d_sd.                                  (* 65 *)
Definition cauchy_step_size : R := sqn (d_n I) d_sd / (sqn (d_m I) d_Asd + EPS).        (* 66-68 *)
Definition d_c : nat -> R := fun i => d_sd i * cauchy_step_size.                        (* 69 *)
Definition d_c_norm2 : R := sqn (d_n I) d_sd * cauchy_step_size ^ 2.                    (* 70 *)
Definition c_within : bool := Rleb d_c_norm2 (d_tr I ^ 2).                              (* 71 *)
(** dogleg.py 74-79: the truncated Cauchy step *)
Definition d_trunc : nat -> R := fun i => d_c i * d_tr I / sqrt (d_c_norm2 + EPS).
Definition d_diff : nat -> R := fun i => d_gn I i - d_c i.                              (* 89 *)
Definition q_a : R := sqn (d_n I) d_diff.                                               (* 90 *)
Definition q_b : R := rsum (d_n I) (fun i => 2 * d_c i * d_diff i).                     (* 91 *)
Definition q_c : R := d_c_norm2 - d_tr I ^ 2.                                           (* 92 *)
Definition disc : R := Rmax (q_b ^ 2 - 4 * q_a * q_c) EPS.                              (* 93 *)
Definition tau : R := Rmin ((- q_b + sqrt disc) / (2 * q_a + EPS)) 1.                   (* 95 *)
(** dogleg.py 96-100 and 74-81: the step of an element in a batch that needs a dogleg step. The
    branches on [all()] and [any()] only skip computations whose result is not selected. *)
Definition d_dogleg : nat -> R := fun i => if c_within then d_c i + tau * d_diff i else d_trunc i.
(** dogleg.py 52-56: this element's Gauss-Newton step is strictly inside *)
Definition gn_inside : bool := Rltb (sqn (d_n I) (d_gn I)) (d_tr I ^ 2).
End One.

(** dogleg.py 49-105 [_compute_delta_impl] for a batch *)
Definition dogleg (batch : list elt_in) : list (nat -> R) :=
  if forallb gn_inside batch then List.map d_gn batch else List.map d_dogleg batch.
