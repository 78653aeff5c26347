(** C82, main theorems *)
From Coq Require Import List Arith Bool ZArith QArith Lia.
From Verif Require Import Dict Obj_model Obj_spec Obj_proofs Obj_proofs2 Upd_model Upd_proofs Upd_props QSum NL_model LM_model LU_model LU_props Sess_model Sess_spec Sess_props.
Import ListNotations.
Local Open Scope nat_scope.

Section Main.
Context {E : Type}.
Variable dflt : E.
Notation X := (list E * list E)%type.
Notation D := (nat -> Q).
Variable errf : X -> ext.
Variable linf : X -> linz.
Variable retrf : list E -> D -> list E.
Variable solve1 : linz -> option (Q * bool * Q) -> option D.
Variable dogleg : nat -> (nat -> linz) -> (nat -> nat -> Q) -> (nat -> D) -> (nat -> Q) -> nat -> D.
Variable c : cfg.
Notation forward := (forward dflt errf linf retrf solve1 dogleg c).
Notation optimize := (optimize dflt errf linf retrf solve1 dogleg c).
Notation history := (history dflt errf linf retrf solve1 dogleg c).
Notation event_step := (event_step dflt errf linf retrf solve1 dogleg c).
Notation pure_call := (pure_call dflt errf linf retrf solve1 dogleg c).
Notation the_loop := (the_loop errf linf retrf solve1 dogleg c).

(** ---- what every history preserves ---- *)
Definition okz (a : bool) (z : ost) : Prop := lu_wf (z_lu z) /\ auto_reset (z_lu z) = a.
Lemma solve_wf ob ab ok s : lu_wf s -> lu_wf (fst (solve ob ab ok s)) /\ auto_reset (fst (solve ob ab ok s)) = auto_reset s.
Proof.
  intros (I & B & R). pose proof (inv_step s (OSolve ob ab ok) I) as I'. cbn [step] in I'. pose proof (binv_solve ob ab ok s I B) as B'.
  pose proof (solve_cases ob ab ok s) as C. destruct (prepared ob s) as [s1|] eqn:P; [|rewrite C; split; [split|]; auto].
  assert (Q : auto_reset s1 = auto_reset s /\ match rctx s1 with (Some _, None) | (None, Some _) => False | _ => True end).
  { destruct (prepared_cases _ _ _ P) as [->| ->]; [auto|]. split; [apply reset_auto|].
    destruct (reset_cases (Some ob) None s) as [->|(b' & k' & -> & _)]; [exact R|exact Logic.I]. }
  destruct Q as [Qa Qr]. destruct C; cbn [fst] in *; (split; [split; [exact I'|split; [exact B'|exact Qr]]|exact Qa]).
Qed.
Lemma reset_wf b k s : lu_wf s -> lu_wf (LU_model.reset b k s) /\ auto_reset (LU_model.reset b k s) = auto_reset s.
Proof.
  intros (I & B & R). split; [|apply reset_auto]. split; [now apply inv_reset|]. split; [now apply reset_batch|].
  destruct (reset_cases b k s) as [->|(b' & k' & -> & _)]; [exact R|exact Logic.I].
Qed.
Lemma ss_wf a n damp z : okz a z -> okz a (fst (solver_solve solve1 c n damp z)).
Proof.
  intros [W A]. unfold solver_solve. cbv zeta. destruct (c_solver c); try (split; assumption).
  match goal with |- context [solve n n ?ok (z_lu z)] => pose proof (solve_wf n n ok _ W) as [S1 S2]; destruct (solve n n ok (z_lu z)) as [l o] end.
  cbn in *. split; cbn; congruence.
Qed.
Lemma lin_wf a z x : okz a z -> okz a (linearize linf c z x).
Proof. intros H. unfold linearize. destruct (c_solver c); exact H. Qed.
Lemma atb_wf a z : okz a z -> okz a (fst (read_Atb z)).
Proof. intros H. unfold read_Atb. destruct (z_Atb z); exact H. Qed.
Lemma diag_wf a z : okz a z -> okz a (fst (read_diag z)).
Proof. intros H. unfold read_diag. destruct (z_diag z); exact H. Qed.
Lemma cd_wf a kw n z x : okz a z -> okz a (fst (compute_delta linf solve1 dogleg c kw n z x)).
Proof.
  intros H. unfold compute_delta. apply lin_wf with (x := x) in H. set (z1 := linearize linf c z x) in *. clearbody z1.
  destruct (c_kind c).
  - now apply ss_wf.
  - destruct (c_solver c); try destruct (k_ell kw || _); try (now apply ss_wf); exact H.
  - pose proof (ss_wf a n (fun _ => None) z1 H) as S. destruct (solver_solve solve1 c n _ z1) as [z2 [gn|]]; cbn [fst] in S; [|exact S].
    pose proof (atb_wf a z2 S) as T. destruct (read_Atb z2). exact T.
Qed.
Lemma comp_wf a kw z (x : nat -> X) d e p : okz a z -> okz a (fst (complete c kw z x d e p)).
Proof.
  intros H. unfold complete. destruct (c_kind c); [exact H| |].
  - destruct (k_adaptive kw); [|exact H].
    assert (G : okz a (fst (if k_ell kw then read_diag z else (z, fun _ _ => 0%Q)))) by (destruct (k_ell kw); [now apply diag_wf|exact H]).
    destruct (if k_ell kw then read_diag z else _) as [z1 dg]. cbn [fst] in G. apply atb_wf in G. destruct (read_Atb z1). exact G.
  - apply atb_wf in H. destruct (read_Atb z). exact H.
Qed.
Lemma loop_wf a kw n num g li z x o : okz a z -> the_loop kw n num g li z x = Some o -> okz a (l_z (stopped o)).
Proof.
  intros H EL. unfold Sess_model.the_loop in EL.
  assert (S : oorel (fun z w => z = w /\ okz a z) (the_loop kw n num g li z x) (the_loop kw n num g li z x)).
  { unfold Sess_model.the_loop. eapply loop_sim with (Lin := fun _ z w => z = w /\ okz a z).
    - auto.
    - intros ? ? ? [<- K]. split; [reflexivity|]. split; [reflexivity|now apply cd_wf].
    - intros ? ? ? [<- K]. split; [reflexivity|]. split; [reflexivity|]. unfold gn_solve. apply ss_wf. now apply lin_wf.
    - intros ? ? ? ? ? ? [<- K]. split; [reflexivity|]. split; [reflexivity|now apply comp_wf].
    - apply init_sim. auto. }
  unfold Sess_model.the_loop in S. rewrite EL in S. cbn [oorel] in S. destruct S as [? ? S|? ? S|? ? S]; destruct S as ((S0 & S) & _); rewrite S0 in S; exact S.
Qed.

(** the registry, the dtype, the device and the shapes and dtypes of the tensors *)
Definition same_meta (o1 o2 : ostate E) : Prop :=
  reg o1 = reg o2 /\ o_dtype o1 = o_dtype o2 /\ o_dev o1 = o_dev o2 /\
  forall v, t_shape (store o1 v) = t_shape (store o2 v) /\ t_dtype (store o1 v) = t_dtype (store o2 v).
Lemma meta_refl o : same_meta o o. Proof. repeat split. Qed.
Lemma meta_trans a b d : same_meta a b -> same_meta b d -> same_meta a d.
Proof.
  intros (R & T & V & S) (R' & T' & V' & S'). repeat split; try congruence; [rewrite (proj1 (S v)); apply S'|rewrite (proj2 (S v)); apply S'].
Qed.
Lemma meta_sym a b : same_meta a b -> same_meta b a.
Proof. intros (R & T & V & S). repeat split; try congruence; symmetry; apply S. Qed.
Lemma meta_update mask o l : same_meta (rstate (update o l mask)) o.
Proof.
  pose proof (update_all_frame mask l o) as (R & _ & T & V & _). pose proof (update_all_meta mask l o) as S. cbv zeta in S.
  unfold update. destruct (update_all mask o l) as [[] o'|e o']; cbn in *.
  - unfold resolve_batch_size. destruct (get_batch_size (batch_sizes o')); cbn; (split; [auto|]; split; [auto|]; split; [auto|exact S]).
  - repeat split; auto; apply S.
Qed.
Lemma meta_write o n x : same_meta (write_back dflt o n x) o.
Proof. repeat split; cbn; destruct (index_of v _); reflexivity. Qed.

Lemma opt_inv a kw g s : okz a (ss_opt s) ->
  same_meta (ss_obj (fst (optimize kw g s))) (ss_obj s) /\ okz a (ss_opt (fst (optimize kw g s))).
Proof.
  intros H. unfold Sess_model.optimize. destruct (bsize (ss_obj s)) as [n|]; [|split; [apply meta_refl|exact H]].
  destruct (split_backward_iters _ _ _) as [[b ng]|]; [|split; [apply meta_refl|exact H]]. cbv zeta.
  assert (HZ : okz a (fst (reset c kw (Z.to_nat b) (ss_opt s)))).
  { unfold reset. cbv zeta.
    assert (G : okz a (mkO (z_damp (ss_opt s)) (z_radius (ss_opt s)) (z_A (ss_opt s)) (z_Atb (ss_opt s)) (z_diag (ss_opt s))
        (match c_solver c with LUcuda => nlls_reset (k_ctxs kw) (Z.to_nat b) (k_batch kw) (z_lu (ss_opt s)) | _ => z_lu (ss_opt s) end))).
    { destruct H as [W A]. destruct (c_solver c); try (split; assumption). unfold nlls_reset.
      match goal with |- okz a (mkO _ _ _ _ _ (LU_model.reset ?bb ?kk ?ss)) => pose proof (reset_wf bb kk ss W) as [R1 R2] end. split; cbn; congruence. }
    destruct (c_kind c); [exact G| |exact G]. destruct (c_solver c); try exact G. destruct (k_adaptive kw); exact G. }
  destruct (reset c kw (Z.to_nat b) (ss_opt s)) as [z ok]. cbn [fst] in HZ.
  destruct (negb ok || _); [split; [apply meta_refl|exact HZ]|].
  assert (W1 : forall num x g' li z', okz a z' -> forall o, the_loop kw n num g' li z' x = Some o -> okz a (l_z (stopped o))) by (intros; eapply loop_wf; eauto).
  set (x := elements dflt _). clearbody x.
  assert (T1 : forall (o : option (@outcome X ost)) (r : @lstate X ost -> ostate E -> @fres E), (forall p, o = Some p -> okz a (l_z (stopped p))) ->
     let q := match o with None => (mkS (ss_obj s) z, @FRaise E)
       | Some (Raised ls) => (mkS (write_back dflt (ss_obj s) n (l_x ls)) (l_z ls), @FRaise E)
       | Some (Finished ls) | Some (Failed ls) => (mkS (write_back dflt (ss_obj s) n (l_x ls)) (l_z ls), r ls (write_back dflt (ss_obj s) n (l_x ls))) end in
     same_meta (ss_obj (fst q)) (ss_obj s) /\ okz a (ss_opt (fst q))).
  { intros [[ls|ls|ls]|] r Hp; cbn; (split; [try apply meta_write; apply meta_refl|]); try exact HZ; exact (Hp _ eq_refl). }
  assert (T2 : forall m, let q := match the_loop kw n (Z.to_nat ng) false false z x with
      | None => (mkS (ss_obj s) z, @FRaise E)
      | Some (Raised ls) => (mkS (write_back dflt (ss_obj s) n (l_x ls)) (l_z ls), @FRaise E)
      | Some (Finished l1) | Some (Failed l1) =>
        match the_loop kw n (Z.to_nat b) g m (l_z l1) (l_x l1) with
        | None => (mkS (write_back dflt (ss_obj s) n (l_x l1)) (l_z l1), @FRaise E)
        | Some (Raised ls) => (mkS (write_back dflt (ss_obj s) n (l_x ls)) (l_z ls), @FRaise E)
        | Some (Finished l2) | Some (Failed l2) =>
          match merge_infos n (l_info l2) (l_iters_done l1) (l_iters_done l2) (l_info l1) with
          | None => (mkS (write_back dflt (ss_obj s) n (l_x l2)) (l_z l2), @FRaise E)
          | Some f => (mkS (write_back dflt (ss_obj s) n (l_x l2)) (l_z l2), FOk f (fst (tensors (write_back dflt (ss_obj s) n (l_x l2)))))
          end
        end
      end in same_meta (ss_obj (fst q)) (ss_obj s) /\ okz a (ss_opt (fst q))).
  { intros m. cbv zeta. pose proof (W1 (Z.to_nat ng) x false false z HZ) as L1.
    destruct (the_loop kw n (Z.to_nat ng) false false z x) as [[l1|l1|l1]|];
      [| |cbn; split; [apply meta_write|exact (L1 _ eq_refl)]|cbn; split; [apply meta_refl|exact HZ]];
      specialize (L1 _ eq_refl); cbn [stopped] in L1; pose proof (W1 (Z.to_nat b) (l_x l1) g m (l_z l1) L1) as L2;
      (destruct (the_loop kw n (Z.to_nat b) g m (l_z l1) (l_x l1)) as [[l2|l2|l2]|];
        [| |cbn; split; [apply meta_write|exact (L2 _ eq_refl)]|cbn; split; [apply meta_write|exact L1]]);
      specialize (L2 _ eq_refl); cbn [stopped] in L2; destruct (merge_infos _ _ _ _ _); cbn; (split; [apply meta_write|exact L2]). }
  destruct (k_mode kw).
  - apply (T1 _ (fun ls o' => FOk (with_converged_iter (l_info ls) (fun i => if status_eqb (i_status (l_info ls) i) MAX_ITERATIONS then (-1)%Z else i_converged_iter (l_info ls) i)) (fst (tensors o')))). now apply W1.
  - apply T2.
  - apply T2.
  - apply (T1 _ (fun ls o' => FOk (with_converged_iter (l_info ls) (fun i => if status_eqb (i_status (l_info ls) i) MAX_ITERATIONS then (-1)%Z else i_converged_iter (l_info ls) i)) (fst (tensors o')))). now apply W1.
Qed.
Lemma hist_inv a h : forall s, okz a (ss_opt s) -> same_meta (ss_obj (history s h)) (ss_obj s) /\ okz a (ss_opt (history s h)).
Proof.
  induction h as [|e h IH]; intros s H; [split; [apply meta_refl|exact H]|]. cbn [Sess_model.history fold_left].
  assert (G : same_meta (ss_obj (event_step s e)) (ss_obj s) /\ okz a (ss_opt (event_step s e))).
  { destruct e as [kw g inp|inp m|kw g| |d|b k]; cbn [Sess_model.event_step].
    - unfold Sess_model.forward. pose proof (meta_update None (ss_obj s) inp) as M. destruct (update (ss_obj s) inp None) as [[] o|x o]; cbn [rstate] in M.
      + destruct (opt_inv a kw g (mkS o (ss_opt s)) H) as [M' K]. split; [eapply meta_trans; eauto|exact K].
      + split; [exact M|exact H].
    - split; [apply meta_update|exact H].
    - now apply opt_inv.
    - split; [apply meta_refl|now apply lin_wf].
    - split; [apply meta_refl|now apply ss_wf].
    - split; [apply meta_refl|]. cbn. destruct H as [W A]. destruct (c_solver c); try (split; assumption).
      pose proof (reset_wf b k _ W) as [R1 R2]. split; cbn; congruence. }
  destruct G as [G1 G2]. destruct (IH _ G2) as [I1 I2]. split; [eapply meta_trans; eauto|exact I2].
Qed.
Lemma new_ok a (o : ostate E) : okz a (ss_opt (new_session a o)).
Proof. split; [|reflexivity]. split; [apply inv_fresh|]. split; [apply binv_fresh|exact Logic.I]. Qed.

(** ---- the result of a call ---- *)
Lemma index_nth l : NoDup l -> forall j, j < length l -> index_of (nth j l 0) l = Some j.
Proof.
  induction l as [|v l IH]; intros ND j Hj; cbn in Hj; [lia|]. inversion ND as [|? ? Hn ND']; subst.
  destruct j as [|j]; cbn [nth index_of]; [now rewrite Nat.eqb_refl|].
  destruct (Nat.eqb_spec (nth j l 0) v) as [Ev|_]; [|rewrite IH; auto; lia].
  exfalso. apply Hn. rewrite <- Ev. apply nth_In. lia.
Qed.
Definition no_tensor : tensor E := {| t_dtype := 0; t_dev := 0; t_shape := []; t_rows := [] |}.
Lemma values_after o n x : NoDup (values (optim_vars (reg o))) ->
  fst (tensors (write_back dflt o n x)) =
  map (fun j => result_tensor dflt (nth j (fst (tensors o)) no_tensor) n x j) (seq 0 (length (fst (tensors o)))).
Proof.
  intros ND. unfold tensors. cbn [fst]. change (reg (write_back dflt o n x)) with (reg o).
  set (l := values (optim_vars (reg o))) in *. rewrite map_length.
  apply nth_ext with (d := store (write_back dflt o n x) 0) (d' := result_tensor dflt (nth 0 (map (store o) l) no_tensor) n x 0).
  - now rewrite !map_length, seq_length.
  - intros j Hj. rewrite map_length in Hj. rewrite map_nth.
    rewrite (map_nth (fun j0 => result_tensor dflt (nth j0 (map (store o) l) no_tensor) n x j0) (seq 0 (length l)) 0 j).
    rewrite seq_nth by exact Hj. cbn [Nat.add].
    cbn [write_back store]. fold l. rewrite index_nth by auto. unfold result_tensor.
    rewrite (nth_indep (map (store o) l) no_tensor (store o 0)) by (now rewrite map_length). now rewrite map_nth.
Qed.

Lemma optimize_pure kw g n s : (c_solver c = LUcuda -> okz true (ss_opt s)) ->
  NoDup (values (optim_vars (reg (ss_obj s)))) -> bsize (ss_obj s) = Some n ->
  snd (optimize kw g s) = pure_call kw g n (tensors (ss_obj s)).
Proof.
  intros W ND HB. unfold Sess_model.optimize, Sess_spec.pure_call, ideal. rewrite HB.
  destruct (split_backward_iters _ _ _) as [[b ng]|]; [|reflexivity]. cbv zeta.
  destruct (reset_sim c kw (Z.to_nat b) (ss_opt s)) as [R1 R2]; [exact W|].
  destruct (reset c kw (Z.to_nat b) (ss_opt s)) as [z ok]. cbn [fst snd] in R1, R2. rewrite R1.
  destruct (unsupported c kw (Z.to_nat b)); [reflexivity|]. specialize (R2 eq_refl).
  set (x := elements dflt (tensors (ss_obj s))). clearbody x.
  assert (S : forall num gg li z w x, Rel c z w -> oorel (Rel c) (the_loop kw n num gg li z x)
    (loop n errf (retr retrf) (ideal_delta linf solve1 dogleg c kw n) (ideal_gn linf solve1 n) (ideal_complete linf c kw) (scale c) (c_abs c) (c_rel c)
       (3 * num) num gg li (k_strict kw) (loop_init w x (init_info errf x)))) by (intros; now apply loop_ideal).
  assert (T1 : snd (match the_loop kw n (Z.to_nat b) g false z x with
      | None => (mkS (ss_obj s) z, FRaise)
      | Some (Raised ls) => (mkS (write_back dflt (ss_obj s) n (l_x ls)) (l_z ls), FRaise)
      | Some (Finished ls) | Some (Failed ls) =>
        (mkS (write_back dflt (ss_obj s) n (l_x ls)) (l_z ls),
         FOk (with_converged_iter (l_info ls) (fun i => if status_eqb (i_status (l_info ls) i) MAX_ITERATIONS then (-1)%Z else i_converged_iter (l_info ls) i))
           (fst (tensors (write_back dflt (ss_obj s) n (l_x ls)))))
      end) =
    match optimize_unroll n errf (retr retrf) (ideal_delta linf solve1 dogleg c kw n) (ideal_gn linf solve1 n) (ideal_complete linf c kw) (scale c) (c_abs c) (c_rel c)
        (Z.to_nat b) g (k_strict kw) (start kw) x with
    | None => FRaise
    | Some (f, x0) => FOk f (map (fun j => result_tensor dflt (nth j (fst (tensors (ss_obj s))) no_tensor) n x0 j) (seq 0 (length (fst (tensors (ss_obj s))))))
    end).
  { unfold optimize_unroll. pose proof (S (Z.to_nat b) g false z (start kw) x R2) as L.
    destruct (the_loop kw n (Z.to_nat b) g false z x) as [o|]; destruct (loop _ _ _ _ _ _ _ _ _ _ _ _ _ _ _) as [o2|]; cbn [oorel] in L; try contradiction; [|reflexivity].
    destruct L as [a d L|a d L|a d L]; destruct L as (_ & Lx & _ & _ & _ & Li & _); cbn [outcome_state snd]; try reflexivity;
      rewrite <- Lx, <- Li, values_after by exact ND; reflexivity. }
  assert (T2 : forall m, snd (match the_loop kw n (Z.to_nat ng) false false z x with
      | None => (mkS (ss_obj s) z, FRaise)
      | Some (Raised ls) => (mkS (write_back dflt (ss_obj s) n (l_x ls)) (l_z ls), FRaise)
      | Some (Finished l1) | Some (Failed l1) =>
        match the_loop kw n (Z.to_nat b) g m (l_z l1) (l_x l1) with
        | None => (mkS (write_back dflt (ss_obj s) n (l_x l1)) (l_z l1), FRaise)
        | Some (Raised ls) => (mkS (write_back dflt (ss_obj s) n (l_x ls)) (l_z ls), FRaise)
        | Some (Finished l2) | Some (Failed l2) =>
          match merge_infos n (l_info l2) (l_iters_done l1) (l_iters_done l2) (l_info l1) with
          | None => (mkS (write_back dflt (ss_obj s) n (l_x l2)) (l_z l2), FRaise)
          | Some f => (mkS (write_back dflt (ss_obj s) n (l_x l2)) (l_z l2), FOk f (fst (tensors (write_back dflt (ss_obj s) n (l_x l2)))))
          end
        end
      end) =
    match optimize_two_loops n errf (retr retrf) (ideal_delta linf solve1 dogleg c kw n) (ideal_gn linf solve1 n) (ideal_complete linf c kw) (scale c) (c_abs c) (c_rel c)
        (Z.to_nat b) (Z.to_nat ng) m g (k_strict kw) (start kw) x with
    | None => FRaise
    | Some (f, x0) => FOk f (map (fun j => result_tensor dflt (nth j (fst (tensors (ss_obj s))) no_tensor) n x0 j) (seq 0 (length (fst (tensors (ss_obj s))))))
    end).
  { intros m. unfold optimize_two_loops. pose proof (S (Z.to_nat ng) false false z (start kw) x R2) as L.
    destruct (the_loop kw n (Z.to_nat ng) false false z x) as [o|]; destruct (loop _ _ _ _ _ _ _ _ _ _ _ _ _ _ (loop_init (start kw) _ _)) as [o2|]; cbn [oorel] in L; try contradiction; [|reflexivity].
    assert (G : forall l1 d, srel (Rel c) l1 d -> 
      snd (match the_loop kw n (Z.to_nat b) g m (l_z l1) (l_x l1) with
        | None => (mkS (write_back dflt (ss_obj s) n (l_x l1)) (l_z l1), FRaise)
        | Some (Raised ls) => (mkS (write_back dflt (ss_obj s) n (l_x ls)) (l_z ls), FRaise)
        | Some (Finished l2) | Some (Failed l2) =>
          match merge_infos n (l_info l2) (l_iters_done l1) (l_iters_done l2) (l_info l1) with
          | None => (mkS (write_back dflt (ss_obj s) n (l_x l2)) (l_z l2), FRaise)
          | Some f => (mkS (write_back dflt (ss_obj s) n (l_x l2)) (l_z l2), FOk f (fst (tensors (write_back dflt (ss_obj s) n (l_x l2)))))
          end
        end) =
      match match loop n errf (retr retrf) (ideal_delta linf solve1 dogleg c kw n) (ideal_gn linf solve1 n) (ideal_complete linf c kw) (scale c) (c_abs c) (c_rel c)
           (3 * Z.to_nat b) (Z.to_nat b) g m (k_strict kw) (loop_init (l_z d) (l_x d) (init_info errf (l_x d))) with
        | None => None
        | Some o2 =>
          match outcome_state o2 with
          | None => None
          | Some s2 => match merge_infos n (l_info s2) (l_iters_done d) (l_iters_done s2) (l_info d) with
                       | None => None
                       | Some f => Some (f, l_x s2)
                       end
          end
        end with
      | None => FRaise
      | Some (f, x0) => FOk f (map (fun j => result_tensor dflt (nth j (fst (tensors (ss_obj s))) no_tensor) n x0 j) (seq 0 (length (fst (tensors (ss_obj s))))))
      end).
    { intros l1 d (Lz & Lx & _ & _ & _ & Li & Ld & _). rewrite <- Lx, <- Li, <- Ld. pose proof (S (Z.to_nat b) g m (l_z l1) (l_z d) (l_x l1) Lz) as M.
      destruct (the_loop kw n (Z.to_nat b) g m (l_z l1) (l_x l1)) as [p|]; destruct (loop _ _ _ _ _ _ _ _ _ _ _ _ _ _ (loop_init (l_z d) _ _)) as [p2|]; cbn [oorel] in M; try contradiction; [|reflexivity].
      destruct M as [e f M|e f M|e f M]; cbn [outcome_state snd]; try reflexivity; destruct M as (_ & Mx & _ & _ & _ & Mi & Md & _); rewrite <- Mi, <- Md;
        destruct (merge_infos _ _ _ _ _); try reflexivity; cbn [snd]; rewrite <- Mx, values_after by exact ND; reflexivity. }
    destruct L as [a d L|a d L|a d L]; cbn [outcome_state]; [now apply G|now apply G|reflexivity]. }
  destruct (k_mode kw); [exact T1|apply T2|apply T2|exact T1].
Qed.
(** ---- the registry ---- *)
Lemma built_facts (o : ostate E) : built o ->
  NoDup (values (optim_vars (reg o))) /\ (forall v, In v (values (optim_vars (reg o))) -> In v (values (aux_vars (reg o))) -> False) /\
  (forall k v, In (k, v) (optim_vars (reg o)) \/ In (k, v) (aux_vars (reg o)) <-> find_var (reg o) k = Some v).
Proof.
  intros (w & ops & Hm & Hok & Hr). assert (HI : Inv3 w (reg o)) by (rewrite Hr; apply run_Inv3; auto; apply Inv3_init).
  clear Hr Hok ops. destruct HI as (u & HJ & Hcw & _).
  assert (HO : forall k v, In (k, v) (optim_vars (reg o)) <-> lookup k (optim_vars (reg o)) = Some v).
  { intros k v. split; [apply In_lookup, HJ|apply lookup_Some_In]. }
  assert (HA : forall k v, In (k, v) (aux_vars (reg o)) <-> lookup k (aux_vars (reg o)) = Some v).
  { intros k v. split; [apply In_lookup, HJ|apply lookup_Some_In]. }
  split; [|split].
  - unfold values. pose proof (J_ndo _ _ _ HJ) as ND. unfold keys in ND.
    assert (K : forall kv kv', In kv (optim_vars (reg o)) -> In kv' (optim_vars (reg o)) -> snd kv = snd kv' -> fst kv = fst kv').
    { intros [k v] [k' v'] H H' Ev. cbn in *. subst v'. apply HO, (J_o _ _ _ HJ) in H. apply HO, (J_o _ _ _ HJ) in H'. destruct H, H'. congruence. }
    clear HO HA. revert ND K. generalize (optim_vars (reg o)) as l. induction l as [|[k v] l IH]; intros ND K; [constructor|].
    cbn in *. inversion ND as [|? ? Hn ND']; subst. constructor; [|apply IH; auto].
    intros Hin. apply in_map_iff in Hin. destruct Hin as ([k' v'] & Ev & Hin). cbn in Ev. subst v'.
    apply Hn. apply in_map_iff. exists (k', v). split; [|exact Hin]. symmetry. apply (K (k, v) (k', v)); auto.
  - intros v Ho Ha. apply in_map_iff in Ho, Ha. destruct Ho as ([k v1] & E1 & Ho), Ha as ([k' v2] & E2 & Ha). cbn in *. subst v1 v2.
    apply HO, (J_o _ _ _ HJ) in Ho. apply HA, (J_a _ _ _ HJ) in Ha. exact (J_disj _ _ _ HJ v (proj2 Ho) (proj2 Ha)).
  - intros k v. unfold find_var. rewrite Hcw. cbn [lookup]. rewrite HO, HA. split.
    + intros [->|Ha]; [reflexivity|]. destruct (lookup k (optim_vars (reg o))) as [v'|] eqn:Eo; [|now rewrite Ha].
      exfalso. pose proof (proj1 (J_o _ _ _ HJ k v') Eo) as [N1 A1]. pose proof (proj1 (J_a _ _ _ HJ k v) Ha) as [N2 A2].
      assert (L1 : lookup k (all_vars (reg o)) = Some v') by (apply (J_all _ _ _ HJ); split; [exact N1|now left]).
      assert (L2 : lookup k (all_vars (reg o)) = Some v) by (apply (J_all _ _ _ HJ); split; [exact N2|now right]).
      assert (v' = v) by congruence. subst v'. exact (J_disj _ _ _ HJ v A1 A2).
    + destruct (lookup k (optim_vars (reg o))) as [v'|]; [intros [= ->]; now left|]. destruct (lookup k (aux_vars (reg o))) as [v'|]; [intros [= ->]; now right|discriminate].
Qed.
(** ---- the update at the start of a call ---- *)
Lemma upd_all_none : forall l (o : ostate E), NoDup (map fst l) -> built o ->
  if forallb (accepts o) l then
    exists o', update_all None o l = RetV tt o' /\ reg o' = reg o /\
      (forall k v, find_var (reg o) k = Some v -> store o' v = given_or_current o l (k, v))
  else exists e o', update_all None o l = Exc e o'.
Proof.
  intros l o ND HB. destruct (built_facts o HB) as (_ & _ & HF). pose proof (built_inj o HB) as Hinj.
  assert (Hacc : forall nt, accepts o nt = true <-> acceptable o None nt).
  { intros [k t]. unfold accepts, acceptable. rewrite !andb_true_iff, negb_true_iff, Nat.eqb_neq, !Nat.eqb_eq, forallb_forall.
    assert (HU : forall v, var_update (store o v) t None = if shape_eqb (t_shape t) (t_shape (store o v)) && (t_dtype t =? t_dtype (store o v)) then inl t else inr UValueError).
    { intros v. unfold var_update. destruct (shape_eqb _ _); cbn; [|reflexivity]. destruct (_ =? _); reflexivity. }
    split.
    - intros (((H1 & H2) & H3) & H4). split; [intros E0; apply H1; now rewrite E0|]. split; [auto|]. split; [auto|].
      intros v Hf. rewrite HU. assert (Hin : In (k, v) (optim_vars (reg o) ++ aux_vars (reg o))) by (apply in_or_app; now apply HF).
      specialize (H4 _ Hin). cbn [fst snd] in H4. rewrite Nat.eqb_refl in H4. cbn [negb orb] in H4. rewrite H4. eauto.
    - intros (H1 & H2 & H3 & H4). split; [split; [split; [|auto]|auto]|].
      + intros E0. apply H1. now destruct (t_shape t).
      + intros [k' v] Hin. cbn [fst snd]. destruct (Nat.eqb_spec k' k) as [->|]; [|reflexivity]. cbn [negb orb].
        apply in_app_or, HF in Hin. destruct (H4 v Hin) as [t' Ht]. rewrite HU in Ht. destruct (shape_eqb _ _ && _); [reflexivity|discriminate]. }
  destruct (forallb (accepts o) l) eqn:EA.
  - rewrite forallb_forall in EA.
    destruct (update_all_ok None l o ND Hinj) as (o' & E1 & E2 & _ & E3 & E4); [intros nt Hin; apply Hacc, EA, Hin|].
    exists o'. split; [exact E1|]. split; [exact E2|]. intros k v Hf. unfold given_or_current. cbn [fst snd].
    destruct (lookup k l) as [t|] eqn:EL.
    + apply lookup_Some_In in EL. destruct (E3 _ _ _ EL Hf) as [-> _]. unfold new_tensor.
      pose proof (proj1 (Hacc _) (EA _ EL)) as (_ & _ & _ & H4). destruct (H4 v Hf) as [t' Ht]. rewrite Ht.
      unfold var_update in Ht. destruct (negb (shape_eqb _ _)); [discriminate|]. destruct (negb _); [discriminate|]. congruence.
    + apply E4. intros n t Hin Hf'. assert (n = k) by eauto. subst n. apply In_lookup in Hin; [congruence|exact ND].
  - destruct (update_all_rejected None l o ND Hinj) as (e & o' & E1); [|eauto].
    assert (HN : ~ forall nt, In nt l -> accepts o nt = true) by (rewrite <- forallb_forall; congruence).
    clear - HN Hacc. induction l as [|nt l IH]; [exfalso; apply HN; now intros|].
    destruct (accepts o nt) eqn:EN.
    + destruct IH as (x & Hx & Hb); [|exists x; split; [now right|exact Hb]]. intros H. apply HN. intros y [<-|Hy]; auto.
    + exists nt. split; [now left|]. intros H. apply Hacc in H. congruence.
Qed.
Lemma built_meta (o1 o2 : ostate E) : reg o1 = reg o2 -> built o1 -> built o2.
Proof. intros H (w & ops & A & B & D). exists w, ops. rewrite <- H. auto. Qed.

Lemma forward_spec kw g input s : (c_solver c = LUcuda -> okz true (ss_opt s)) -> built (ss_obj s) -> NoDup (map fst input) ->
  snd (forward kw g input s) = call_spec dflt errf linf retrf solve1 dogleg c kw g (ss_obj s) input.
Proof.
  intros W HB ND. unfold Sess_model.forward, call_spec, update. pose proof (upd_all_none input (ss_obj s) ND HB) as U.
  destruct (built_facts (ss_obj s) HB) as (NV & _ & HF).
  destruct (forallb (accepts (ss_obj s)) input); [|destruct U as (e & o' & ->); reflexivity].
  destruct U as (o' & -> & Hr & Hs).
  assert (HT : tensors o' = start_tensors (ss_obj s) input).
  { unfold tensors, start_tensors. rewrite Hr. unfold values. rewrite !map_map. f_equal; apply map_ext_in; intros [k v] Hin; apply Hs, HF; auto. }
  assert (HS : batch_sizes o' = map batch (fst (start_tensors (ss_obj s) input) ++ snd (start_tensors (ss_obj s) input))).
  { rewrite <- HT. unfold batch_sizes, tensors. cbn [fst snd]. now rewrite !map_app, !map_map. }
  unfold resolve_batch_size. cbv zeta. rewrite <- HS. destruct (get_batch_size (batch_sizes o')) as [n|] eqn:EB; [|reflexivity].
  rewrite optimize_pure with (n := n); cbn [ss_opt ss_obj]; [|exact W| |reflexivity].
  - rewrite <- HT. reflexivity.
  - cbn [with_bsize reg]. rewrite Hr. exact NV.
Qed.

(** After any history of a layer, a call is [call_spec] of its arguments and of the current tensors. *)
Theorem C82_call_is_a_function : forall auto o h kw g input,
  (c_solver c = LUcuda -> auto = true) -> built o -> NoDup (map fst input) ->
  let s := history (new_session auto o) h in
  snd (forward kw g input s) = call_spec dflt errf linf retrf solve1 dogleg c kw g (ss_obj s) input.
Proof.
  intros auto o h kw g input HL HB ND s. destruct (hist_inv auto h (new_session auto o) (new_ok auto o)) as [M K].
  apply forward_spec; [|eapply built_meta; [symmetry; apply M|exact HB]|exact ND]. intros HS. rewrite <- (HL HS). exact K.
Qed.

Lemma call_spec_full kw g o1 o2 input : same_meta o1 o2 -> gives_all o1 input ->
  call_spec dflt errf linf retrf solve1 dogleg c kw g o1 input = call_spec dflt errf linf retrf solve1 dogleg c kw g o2 input.
Proof.
  intros (HR & HT & HD & HV) HG. unfold call_spec.
  assert (EA : forallb (accepts o1) input = forallb (accepts o2) input).
  { clear HG. induction input as [|[k t] l IH]; [reflexivity|]. cbn [forallb]. rewrite IH. f_equal. unfold accepts. rewrite HT, HD, HR. f_equal.
    clear IH. induction (optim_vars (reg o2) ++ aux_vars (reg o2)) as [|[k' v] r IH]; [reflexivity|]. cbn [forallb fst snd]. rewrite IH, (proj1 (HV v)), (proj2 (HV v)). reflexivity. }
  assert (ES : start_tensors o1 input = start_tensors o2 input).
  { unfold start_tensors. rewrite <- HR. f_equal; apply map_ext_in; intros [k v] Hin; unfold given_or_current; cbn [fst snd];
      (destruct (lookup k input) eqn:EL; [reflexivity|]; exfalso; apply lookup_None_keys in EL; apply EL; eapply HG; eauto). }
  now rewrite EA, ES.
Qed.

(** Two layers with the same objective, whatever happened to each of them before, return the same
    (or both raise) when a call gives all variables. *)
Theorem C82_history_independent : forall auto1 auto2 o h1 h2 kw g input,
  (c_solver c = LUcuda -> auto1 = true /\ auto2 = true) -> built o -> NoDup (map fst input) -> gives_all o input ->
  snd (forward kw g input (history (new_session auto1 o) h1)) = snd (forward kw g input (history (new_session auto2 o) h2)).
Proof.
  intros a1 a2 o h1 h2 kw g input HL HB ND HG.
  rewrite (C82_call_is_a_function a1 o h1), (C82_call_is_a_function a2 o h2) by (auto; intros HS; now apply HL).
  destruct (hist_inv a1 h1 (new_session a1 o) (new_ok a1 o)) as [M1 _]. destruct (hist_inv a2 h2 (new_session a2 o) (new_ok a2 o)) as [M2 _].
  apply call_spec_full; [eapply meta_trans; [exact M1|apply meta_sym; exact M2]|].
  intros k v Hin. apply (HG k v). destruct M1 as [M1 _]. cbn [new_session ss_obj] in M1. now rewrite <- M1.
Qed.

(** Otherwise the variables not given start from the values the previous calls left: the call is the
    call with these values given explicitly. *)
Lemma given_full (o : ostate E) (input full : list (name * tensor E)) kv : NoDup (map fst full) -> In kv (optim_vars (reg o)) \/ In kv (aux_vars (reg o)) ->
  (forall k t, In (k, t) full <-> In (k, t) input \/ (~ In k (map fst input) /\ exists v, (In (k, v) (optim_vars (reg o)) \/ In (k, v) (aux_vars (reg o))) /\ t = store o v)) ->
  NoDup (map fst input) -> given_or_current o full kv = given_or_current o input kv.
Proof.
  intros NF Hin HF NI. destruct kv as [k v]. unfold given_or_current. cbn [fst snd]. destruct (lookup k input) as [t|] eqn:EI.
  - apply lookup_Some_In in EI. rewrite (In_lookup k t full); [reflexivity|exact NF|]. apply HF. now left.
  - apply lookup_None_keys in EI. rewrite (In_lookup k (store o v) full); [reflexivity|exact NF|]. apply HF. right. split; [exact EI|]. eauto.
Qed.
Theorem C82_warm_start : forall auto o h kw g input full,
  (c_solver c = LUcuda -> auto = true) -> built o ->
  let s := history (new_session auto o) h in
  NoDup (map fst input) -> NoDup (map fst full) ->
  (forall k t, In (k, t) full <->
     In (k, t) input \/
     (~ In k (map fst input) /\ exists v, (In (k, v) (optim_vars (reg o)) \/ In (k, v) (aux_vars (reg o))) /\ t = store (ss_obj s) v)) ->
  (forall k v, In (k, v) (optim_vars (reg o)) \/ In (k, v) (aux_vars (reg o)) -> accepts (ss_obj s) (k, store (ss_obj s) v) = true) ->
  snd (forward kw g input s) = snd (forward kw g full s).
Proof.
  intros auto o h kw g input full HL HB s NI NF HF HA. subst s.
  rewrite !(C82_call_is_a_function auto o h) by auto.
  destruct (hist_inv auto h (new_session auto o) (new_ok auto o)) as [(M & _) _]. set (os := ss_obj (history (new_session auto o) h)) in *. clearbody os.
  cbn [new_session ss_obj] in M. rewrite <- M in HF, HA. unfold call_spec.
  assert (EA : forallb (accepts os) input = forallb (accepts os) full).
  { apply eq_true_iff_eq. rewrite !forallb_forall. split; intros H [k t] Hin.
    - apply HF in Hin. destruct Hin as [Hin|(_ & v & Hin & ->)]; [auto|]. now apply HA.
    - apply H, HF. now left. }
  assert (ES : start_tensors os input = start_tensors os full).
  { unfold start_tensors. f_equal; apply map_ext_in; intros kv Hin; symmetry; apply given_full; auto. }
  now rewrite EA, ES.
Qed.
(** The returned tensors are the ones the optimization variables hold afterwards, and the auxiliary
    variables hold what was given or what they held. *)
Theorem C82_returned_is_held : forall kw g input s f vs,
  built (ss_obj s) -> NoDup (map fst input) ->
  snd (forward kw g input s) = FOk f vs ->
  fst (tensors (ss_obj (fst (forward kw g input s)))) = vs /\
  snd (tensors (ss_obj (fst (forward kw g input s)))) = snd (start_tensors (ss_obj s) input).
Proof.
  intros kw g input s f vs HB ND. unfold Sess_model.forward, update. pose proof (upd_all_none input (ss_obj s) ND HB) as U.
  destruct (forallb (accepts (ss_obj s)) input); [|destruct U as (e & o' & ->); discriminate].
  destruct U as (o' & -> & Hr & Hs). destruct (built_facts (ss_obj s) HB) as (_ & HDJ & HF).
  unfold resolve_batch_size. destruct (get_batch_size (batch_sizes o')) as [n|]; [|discriminate].
  assert (HA : forall x, snd (tensors (write_back dflt (with_bsize o' (Some n)) n x)) = snd (start_tensors (ss_obj s) input)).
  { intros x. unfold tensors, start_tensors. cbn [snd write_back with_bsize reg store]. rewrite Hr. change (values (aux_vars (reg (ss_obj s)))) with (map snd (aux_vars (reg (ss_obj s)))). rewrite map_map. apply map_ext_in. intros [k v] Hin. cbn [snd].
    destruct (index_of v (values (optim_vars (reg (ss_obj s))))) as [j|] eqn:EI; [|apply Hs, HF; auto].
    exfalso. apply (HDJ v); [|unfold values; apply in_map_iff; exists (k, v); auto].
    clear - EI. revert j EI. induction (values (optim_vars (reg (ss_obj s)))) as [|w l IH]; intros j EI; [discriminate|]. cbn in EI.
    destruct (Nat.eqb_spec v w); [now left|]. destruct (index_of v l); [right; eauto|discriminate]. }
  unfold Sess_model.optimize. cbn [ss_obj ss_opt with_bsize bsize]. destruct (split_backward_iters _ _ _) as [[b ng]|]; [|discriminate]. cbv zeta.
  destruct (reset c kw (Z.to_nat b) (ss_opt s)) as [z ok]. destruct (negb ok || _); [discriminate|].
  fold (with_bsize o' (Some n)). set (w := with_bsize o' (Some n)) in *. clearbody w. set (x := elements dflt (tensors w)). clearbody x.
  destruct (k_mode kw).
  - destruct (the_loop kw n (Z.to_nat b) g false z x) as [[l|l|l]|]; cbn [fst snd ss_obj]; try discriminate; intros [= _ <-]; auto.
  - destruct (the_loop kw n (Z.to_nat ng) false false z x) as [[l|l|l]|]; try discriminate;
      (destruct (the_loop kw n (Z.to_nat b) g true (l_z l) (l_x l)) as [[m|m|m]|]; try discriminate; destruct (merge_infos _ _ _ _ _); try discriminate; cbn [fst snd ss_obj]; intros [= _ <-]; auto).
  - destruct (the_loop kw n (Z.to_nat ng) false false z x) as [[l|l|l]|]; try discriminate;
      (destruct (the_loop kw n (Z.to_nat b) g false (l_z l) (l_x l)) as [[m|m|m]|]; try discriminate; destruct (merge_infos _ _ _ _ _); try discriminate; cbn [fst snd ss_obj]; intros [= _ <-]; auto).
  - destruct (the_loop kw n (Z.to_nat b) g false z x) as [[l|l|l]|]; cbn [fst snd ss_obj]; try discriminate; intros [= _ <-]; auto.
Qed.
End Main.
