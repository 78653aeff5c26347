(** Model of PoseGraphDataset.generate_synthetic_3D and histogram
    (theseus/utils/examples/pose_graph/dataset.py 217-365). The random numbers are inputs: what torch.rand,
    numpy.random and SE3.rand return. Real arithmetic; a tensor is the list of its batch elements; names
    and dtypes are not modelled. *)
From Coq Require Import Reals List Arith Bool ZArith.
From Verif Require Import Geo_spec Geo3_spec Geo4_spec SE2_model SO3_model SE3_model G2o_model.
Import ListNotations.
Local Open Scope R_scope.

(** torch.rand(.., 3) - 0.5 and 2.0 * torch.rand(.., 3) - 1 (dataset.py 273-281): [u] holds the six numbers *)
Definition affine3 (a b : R) (u : V3) : V3 := mkV3 (a * b0 u + b) (a * b1 u + b) (a * b2 u + b).
Definition gt_twist (u : Tw) : Tw := mkTw (affine3 1 (- (1 / 2)) (lin u)) (affine3 2 (-1) (ang u)).
(** dataset.py 282-292, 322-332 and 354-362 *)
Definition noise_twist (tn rn : R) (u : Tw) : Tw :=
  mkTw (scal3 tn (affine3 2 (-1) (lin u))) (scal3 rn (affine3 2 (-1) (ang u))).

(** a tensor operation that may give a nan *)
Fixpoint mapO {A B} (f : A -> option B) (l : list A) : option (list B) :=
  match l with [] => Some [] | x :: l => do y <- f x; do r <- mapO f l; Some (y :: r) end.
(** compose, batch element by batch element; a batch of one is broadcast *)
Definition zip_compose (a b : list Rig) : list Rig := map (fun p => se3_compose (fst p) (snd p)) (combine a b).
Definition compose_batch (a b : list Rig) : list Rig :=
  match b with [h] => map (fun g => se3_compose g h) a | _ => zip_compose a b end.

(** the numbers drawn in round n: for the relative pose, for its noise, and for each loop closure the index
    and either the numbers of the noise (an inlier) or the pose of SE3.rand (an outlier) *)
Record Round := mkRound { ro_gt : list Tw; ro_noise : list Tw; ro_loops : list (nat * (Tw + list Rig)) }.
Record GenState := mkG { g_gt : list (list Rig); g_edges : list (DEdge Rig (list R)); g_inliers : list bool }.

Definition info_row (tn rn : R) : list R := [1 / tn; 1 / tn; 1 / tn; 1 / rn; 1 / rn; 1 / rn].
(** dataset.py 317-351: one loop closure from [i] to [n] *)
Definition gen_closure (d : dtype) (tn rn : R) (n : nat) (s : GenState) (c : nat * (Tw + list Rig)) : option GenState :=
  let gti := nth (fst c) (g_gt s) [] in let gtj := nth n (g_gt s) [] in
  let gt_rel := zip_compose (map se3_inverse gti) gtj in
  do noise <- match snd c with
              | inl u => do h <- se3_exp d (noise_twist tn rn u); Some [h]
              | inr p => Some p
              end;
  let rel := compose_batch gt_rel noise in
  Some (mkG (g_gt s) (g_edges s ++ [mkDE (Z.of_nat (fst c)) (Z.of_nat n) rel (Some [info_row tn rn])])
            (g_inliers s ++ [match snd c with inl _ => true | inr _ => false end])).
Fixpoint gen_closures d tn rn n s (cs : list (nat * (Tw + list Rig))) : option GenState :=
  match cs with [] => Some s | c :: cs => do s <- gen_closure d tn rn n s c; gen_closures d tn rn n s cs end.
(** dataset.py 273-312: round n *)
Definition gen_round (d : dtype) (tn rn : R) (n : nat) (s : GenState) (r : Round) : option GenState :=
  do gt_rel <- mapO (fun u => se3_exp d (gt_twist u)) (ro_gt r);
  do noise <- mapO (fun u => se3_exp d (noise_twist tn rn u)) (ro_noise r);
  let rel := zip_compose gt_rel noise in
  let gt := zip_compose (last (g_gt s) []) gt_rel in
  let s := mkG (g_gt s ++ [gt]) (g_edges s ++ [mkDE (Z.of_nat (n - 1)) (Z.of_nat n) rel (Some [info_row tn rn])])
               (g_inliers s ++ [true]) in
  gen_closures d tn rn n s (ro_loops r).
Fixpoint gen_rounds d tn rn n s (rs : list Round) : option GenState :=
  match rs with [] => Some s | r :: rs => do s <- gen_round d tn rn n s r; gen_rounds d tn rn (S n) s rs end.
(** dataset.py 238-365: [rs] are the rounds 1 .. num_poses - 1, [fin] the numbers of the final noise *)
Definition generate_synthetic_3D (d : dtype) (tn rn : R) (N : nat) (batch_size : Z) (rs : list Round) (fin : list Tw)
  : exc (option (Dataset Rig (list R) * list bool)) :=
  if Req_EM_T tn 0 then Raise ZeroDivisionError else if Req_EM_T rn 0 then Raise ZeroDivisionError else
  match gen_rounds d tn rn 1 (mkG [repeat (mkRig I3 zero3) N] [] []) rs with
  | None => Ret None
  | Some s =>
    match mapO (fun p => do h <- se3_exp d (noise_twist tn rn (snd p)); Some (compose_batch (fst p) [h])) (combine (g_gt s) fin) with
    | None => Ret None
    | Some poses =>
        let! ds := make_dataset poses (g_edges s) (Some (g_gt s)) batch_size in
        Ret (Some (ds, g_inliers s))
    end
  end.

(** dataset.py 217-227: the bucket of an error norm: (10 * norm).to(int) truncates; at most 10 *)
Definition bucket (x : R) : nat := let k := Z.to_nat (Int_part (10 * x)) in if (10 <? k)%nat then 10%nat else k.
Fixpoint incr (k : nat) (l : list nat) : list nat :=
  match l, k with [], _ => [] | x :: l, O => S x :: l | x :: l, S k => x :: incr k l end.
(** dataset.py 217-235 (histogram), on the error norms of the edges; the counts. Without any error
    the bar length is round(nan), a ValueError *)
Definition histogram (errs : list R) : exc (list nat) :=
  let counts := fold_left (fun l x => incr (bucket x) l) errs (repeat 0%nat 11) in
  if forallb (Nat.eqb 0) counts then Raise ValueError else Ret counts.
