(** C82, concrete cases and the exception *)
From Coq Require Import List Arith Bool ZArith QArith Lia.
From Verif Require Import Dict Obj_model Obj_spec Obj_proofs Obj_proofs2 Upd_model Upd_proofs Upd_props QSum NL_model LM_model LU_model LU_props Sess_model Sess_spec Sess_props Sess_main.
Import ListNotations.
Local Open Scope nat_scope.

(** one optimization variable [x] and one auxiliary variable [a], error [x - a], exact solver *)
Definition e_get (l : list Q) : Q := nth 0 l 0%Q.
Definition e_err (x : list Q * list Q) : ext := let r := (e_get (fst x) - e_get (snd x))%Q in Fin (r * r / 2)%Q.
Definition e_lin (x : list Q * list Q) : linz := mkLin 1 1 (fun _ _ => 1%Q) (fun _ => e_get (snd x) - e_get (fst x))%Q.
Definition e_retr (l : list Q) (d : nat -> Q) : list Q := [Qred (e_get l + d 0)].
Definition e_solve (L : linz) (damp : option (Q * bool * Q)) : option (nat -> Q) :=
  let a := (AtA L 0 0 + match damp with Some (l, _, _) => l | None => 0%Q end)%Q in
  if Qeq_bool a 0 then None else Some (fun _ => Atb L 0 / a)%Q.
Definition e_dogleg (n : nat) (A : nat -> linz) (atb : nat -> nat -> Q) (gn : nat -> nat -> Q) (r : nat -> Q) : nat -> nat -> Q := gn.
Definition e_kw (b : option nat) : kwargs :=
  mkKw (1#2) true false None 0 9 11 1 tr_default UNROLL None b None false.
Definition e_cfg (k : kind) (l : lsolver) : cfg := mkCfg k l 1 0 0 3.
Definition e_t (rows : list Q) : tensor Q := {| t_dtype := 0; t_dev := 0; t_shape := [1]; t_rows := rows |}.
Definition e_o : ostate Q :=
  {| reg := Obj_model.run ex_w [Add 0] init; store := fun _ => e_t [0%Q]; nupd := fun _ => 0; bsize := None; o_dtype := 0; o_dev := 0 |}.
Definition e_forward c kw g input s := forward 0%Q e_err e_lin e_retr e_solve e_dogleg c kw g input s.
Definition e_history c s h := history 0%Q e_err e_lin e_retr e_solve e_dogleg c s h.
Definition rows_of (r : @fres Q) : option (list (list Q)) := match r with FOk _ vs => Some (map t_rows vs) | FRaise => None end.

(** the damping and the contexts do change between calls, the buffers are left behind, a call that
    raises happens in the history, and the batch size changes *)
Definition e_hist : list (@event Q) :=
  [EForward (e_kw None) true [(0, e_t [5; 7; 9]%Q); (4, e_t [1%Q])]; EForward (e_kw None) true [(0, e_t [5; 7]%Q); (4, e_t [1; 2; 3]%Q)];
   EUpdate [(4, e_t [2; 8]%Q)] None; EOptimize (e_kw (Some 2)) false; ELinearize; ESolve None; EReset (Some 7) (Some 2)].
Definition e_input : list (name * tensor Q) := [(4, e_t [3; 4]%Q); (0, e_t [10; 20]%Q)].

Lemma e_built : built e_o. Proof. exists ex_w, [Add 0]; repeat split; reflexivity. Qed.
Lemma e_full : gives_all e_o e_input.
Proof. intros k v H. vm_compute in H. destruct H as [[H|[]]|[H|[]]]; injection H as <- <-; cbn; auto. Qed.

Example C82_hypotheses_satisfiable :
  let c := e_cfg LM LUcuda in
  let s1 := new_session true e_o in let s2 := e_history c (new_session true e_o) e_hist in
  built e_o /\ NoDup (map fst e_input) /\ gives_all e_o e_input /\
  z_damp (ss_opt s1) 0 <> z_damp (ss_opt s2) 0 /\ ctxs (z_lu (ss_opt s1)) <> ctxs (z_lu (ss_opt s2)) /\
  bsize (ss_obj s2) <> bsize (ss_obj s1) /\
  rows_of (snd (e_forward c (e_kw None) true e_input s2)) = rows_of (snd (e_forward c (e_kw None) true e_input s1)) /\
  (exists r, rows_of (snd (e_forward c (e_kw None) true e_input s2)) = Some [r] /\ length r = 2 /\ r <> [10; 20]%Q) /\
  rows_of (snd (e_forward c (e_kw None) true [] s2)) <> rows_of (snd (e_forward c (e_kw None) true [] s1)).
Proof.
  cbv zeta. split; [exact e_built|]. split; [repeat constructor; cbn; intuition discriminate|]. split; [exact e_full|].
  split; [vm_compute; discriminate|]. split; [vm_compute; discriminate|]. split; [vm_compute; discriminate|]. split; [vm_compute; reflexivity|].
  split; [eexists; split; [vm_compute; reflexivity|]; split; [reflexivity|discriminate]|]. vm_compute; discriminate.
Qed.

(** With auto_reset=False the calls do have a memory: a call with batch_size=2 leaves contexts for two
    elements; the next call without batch_size succeeds. The same call on a new layer raises. *)
Theorem C82_history_independent_refuted :
  ~ forall c auto1 auto2 (o : ostate Q) h1 h2 kw g input,
      built o -> NoDup (map fst input) -> gives_all o input ->
      snd (e_forward c kw g input (e_history c (new_session auto1 o) h1)) = snd (e_forward c kw g input (e_history c (new_session auto2 o) h2)).
Proof.
  intros H.
  specialize (H (e_cfg GN LUcuda) false false e_o [EForward (e_kw (Some 2)) true e_input] [] (e_kw None) true e_input e_built).
  apply (f_equal rows_of) in H; [|repeat constructor; cbn; intuition discriminate|exact e_full]. vm_compute in H. discriminate.
Qed.
Print Assumptions C82_call_is_a_function.
Print Assumptions C82_history_independent.
Print Assumptions C82_warm_start.
Print Assumptions C82_history_independent_refuted.
