(** theseus/third_party/lml.py on a batch: one mask of active rows per iteration, and a second mask, over the active rows only, that
    indexes all rows (lines 111-122). *)
From Coq Require Import Reals List Arith Bool Lra Lia.
From Verif Require Import RSum Adj_props Adj_diff Lml_model Lml_spec Lml_props Lml_fwd Lml_rec.
Import ListNotations.
Local Open Scope R_scope.

(** ** model *)
(** a row: its scores, nu_lower and nu_upper *)
Notation lrow := (((nat -> R) * (R * R))%type) (only parsing).
(** lml.py:104-117 for one active row: nu_lower, nu_upper before the correction of line 122, and the entry of J *)
Definition lml_pick (branch N nx : nat) (x : nat -> R) (nu_lower nu_upper : R) : option (R * R * bool) :=
  let r := nu_upper - nu_lower in
  let nus k := r * (INR k / INR (branch - 1)) + nu_lower in
  let negative := length (filter (fun k => below (excess N nx x (nus k)) 0) (seq 0 branch)) in
  match negative with
  | O => Some (nus 0%nat, nus 1%nat, true)
  | S i_lower => if Nat.ltb (S i_lower) branch then Some (nus i_lower, nus (S i_lower), false) else None
  end.
(** lml.py:98, 118-119: rows with I false keep their interval and have no entry in J *)
Definition row_pick (branch N nx : nat) (eps : R) (row : lrow) : option (lrow * list bool) :=
  let '(x, (lo, hi)) := row in
  if below eps (hi - lo) then match lml_pick branch N nx x lo hi with
                              | Some (lo', hi', j) => Some ((x, (lo', hi')), [j])
                              | None => None
                              end
  else Some ((x, (lo, hi)), []).
Fixpoint all_some {A} (l : list (option A)) : option (list A) := match l with
  | [] => Some []
  | None :: _ => None
  | Some a :: r => match all_some r with Some s => Some (a :: s) | None => None end
  end.
(** lml.py:98-122: one iteration; J has one entry per active row, so nu_lower[J] raises if some row is not active *)
Definition lml_rows_iter (branch N nx : nat) (eps : R) (st : list lrow) : option (list lrow) :=
  match all_some (map (row_pick branch N nx eps) st) with
  | None => None
  | Some picks =>
      let rows := map fst picks in
      let J := flat_map snd picks in
      if existsb (fun j => j) J
      then if Nat.eqb (length J) (length rows)
           then Some (map (fun rj => let '((x, (lo, hi)), j) := rj in (x, (if j : bool then lo - 7 else lo, hi))) (combine rows J))
           else None
      else Some rows
  end.
Definition width (row : lrow) : R := snd (snd row) - fst (snd row).
(** lml.py:96-122; the result is nu_lower and the last r of every row *)
Fixpoint lml_rows_loop (n_iter branch N nx : nat) (eps : R) (st : list lrow) (r : list R) : option (list (R * R)) :=
  match n_iter with
  | O => Some (combine (map (fun row => fst (snd row)) st) r)
  | S n => let r := map width st in
           if existsb (below eps) r then match lml_rows_iter branch N nx eps st with
                                         | Some st' => lml_rows_loop n branch N nx eps st' r
                                         | None => None
                                         end
           else Some (combine (map (fun row => fst (snd row)) st) r)
  end.
(** lml.py:55-140 on the rows xs *)
Definition lml_forward_rows (n_iter branch N nx : nat) (eps : R) (xs : list (nat -> R)) : option (list (nat -> R)) :=
  if Nat.leb nx N then Some (map (fun _ _ => (1 - / 100000) * 1) xs)
  else
    let st := map (fun x => let x_sorted := sort_desc (entries_of nx x) in
                            (x, (- nth (N - 1) x_sorted 0 - 7, - nth N x_sorted 0 + 7))) xs in
    match lml_rows_loop n_iter branch N nx eps st (map (fun _ => 0) xs) with
    | Some res => Some (map (fun xr => let '(x, (lo, r)) := xr in fun i => sigmoid (x i + (lo + r / 2))) (combine xs res))
    | None => None
    end.

(** ** proofs *)
Lemma all_some_ext {A B} (f g : A -> option B) l : (forall a, In a l -> f a = g a) -> all_some (map f l) = all_some (map g l).
Proof. intros H. f_equal. apply map_ext_in, H. Qed.
Lemma all_some_map {A B} (f : A -> option B) (g : A -> B) l : (forall a, In a l -> f a = Some (g a)) -> all_some (map f l) = Some (map g l).
Proof.
  induction l as [|a l IH]; intros H; [reflexivity|]. cbn [map all_some]. rewrite (H a (or_introl eq_refl)), IH; [reflexivity|].
  intros b Hb. apply H. now right.
Qed.
Lemma all_some_In {A} (l : list (option A)) r : all_some l = Some r -> forall b, In b r -> In (Some b) l.
Proof.
  revert r. induction l as [|[a|] l IH]; cbn [all_some]; intros r H b Hb; [injection H as <-; destruct Hb| |discriminate].
  destruct (all_some l) as [s|]; [|discriminate]. injection H as <-. destruct Hb as [<-|Hb]; [now left|right; now apply (IH s)].
Qed.
Lemma all_some_post {A B C} (f : A -> option B) (h : B -> C) l :
  all_some (map (fun a => match f a with Some b => Some (h b) | None => None end) l)
  = match all_some (map f l) with Some r => Some (map h r) | None => None end.
Proof.
  induction l as [|a l IH]; [reflexivity|]. cbn [map all_some]. destruct (f a); [|reflexivity]. rewrite IH.
  destruct (all_some (map f l)); reflexivity.
Qed.
Definition row_step (branch N nx : nat) (eps : R) (row : lrow) : option lrow :=
  let '(x, (lo, hi)) := row in
  if below eps (hi - lo) then match lml_iter branch N nx x lo hi with Some p => Some (x, p) | None => None end else Some row.
Lemma iter_pick branch N nx x lo hi : lml_iter branch N nx x lo hi =
  match lml_pick branch N nx x lo hi with Some (lo', hi', j) => Some (if j : bool then lo' - 7 else lo', hi') | None => None end.
Proof.
  unfold lml_iter, lml_pick. cbv zeta. destruct (length _) as [|m]; [reflexivity|]. destruct (Nat.ltb (S m) branch); reflexivity.
Qed.
Lemma nus_mono branch lo hi : (2 <= branch)%nat -> lo <= hi -> forall a b, (a <= b)%nat ->
  (hi - lo) * (INR a / INR (branch - 1)) + lo <= (hi - lo) * (INR b / INR (branch - 1)) + lo.
Proof.
  intros Hb H a b Hab. assert (B1 : 0 < INR (branch - 1)) by (apply lt_0_INR; lia). apply Rplus_le_compat_r, Rmult_le_compat_l; [lra|].
  unfold Rdiv. apply Rmult_le_compat_r; [left; now apply Rinv_0_lt_compat|]. now apply le_INR.
Qed.
(** what one iteration of one row does *)
Lemma pick_spec branch N nx x lo hi lo' hi' j : (2 <= branch)%nat -> lo <= hi -> lml_pick branch N nx x lo hi = Some (lo', hi', j) ->
  hi' - lo' = (hi - lo) / INR (branch - 1) /\ (if j then lo' = lo /\ 0 <= excess N nx x lo else excess N nx x lo' < 0 /\ excess N nx x lo < 0).
Proof.
  intros Hb Hw. unfold lml_pick. cbv zeta. set (nus := fun k => (hi - lo) * (INR k / INR (branch - 1)) + lo).
  assert (B1 : 0 < INR (branch - 1)) by (apply lt_0_INR; lia).
  destruct (filter_prefix (fun k => below (excess N nx x (nus k)) 0)) with (n := branch) as (I1 & I2 & I3).
  { intros a b Hab. rewrite !below_true. intros H. pose proof (excess_le N nx x _ _ (nus_mono branch lo hi Hb Hw a b Hab)). unfold nus in *. lra. }
  change (filter (fun k : nat => below (excess N nx x ((hi - lo) * (INR k / INR (branch - 1)) + lo)) 0) (seq 0 branch)) with (filter (fun k : nat => below (excess N nx x (nus k)) 0) (seq 0 branch)).
  set (m := length (filter (fun k : nat => below (excess N nx x (nus k)) 0) (seq 0 branch))) in *. clearbody m.
  change ((hi - lo) * (INR 0 / INR (branch - 1)) + lo) with (nus 0%nat). change ((hi - lo) * (INR 1 / INR (branch - 1)) + lo) with (nus 1%nat).
  assert (N0 : nus 0%nat = lo) by (unfold nus; cbn [INR]; unfold Rdiv; ring).
  destruct m as [|m].
  - intros E. apply (f_equal (fun o => match o with Some p => p | None => (0, 0, true) end)) in E. apply pair_equal_spec in E. destruct E as [E Ej].
    apply pair_equal_spec in E. destruct E as [E1 E2]. subst j. rewrite <- E1, <- E2. split; [unfold nus; cbn [INR]; field; lra|].
    split; [exact N0|]. specialize (I3 0%nat ltac:(lia)). apply below_false in I3. now rewrite N0 in I3.
  - destruct (Nat.ltb_spec (S m) branch) as [H|H]; [|discriminate]. intros E.
    apply (f_equal (fun o => match o with Some p => p | None => (0, 0, true) end)) in E. apply pair_equal_spec in E. destruct E as [E Ej].
    apply pair_equal_spec in E. destruct E as [E1 E2]. subst j. rewrite <- E1, <- E2.
    split; [rewrite S_INR; field; lra|]. split; [apply below_true, (I2 m); lia|].
    rewrite <- N0. apply below_true, (I2 0%nat). lia.
Qed.
(** either no active row needs the correction, or all rows are active *)
Definition safe (N nx : nat) (eps : R) (st : list lrow) : Prop :=
  (forall x lo hi, In (x, (lo, hi)) st -> excess N nx x lo < 0) \/ (forall row, In row st -> eps < width row).
Lemma rows_iter_eq branch N nx eps st : (2 <= branch)%nat -> (forall row, In row st -> 0 < width row) -> safe N nx eps st ->
  lml_rows_iter branch N nx eps st = all_some (map (row_step branch N nx eps) st).
Proof.
  intros Hb Hw Sf.
  assert (Step : forall row, In row st -> row_step branch N nx eps row =
     match row_pick branch N nx eps row with
     | Some ((x, (lo, hi)), J) => Some (x, (if existsb (fun j => j) J then lo - 7 else lo, hi)) | None => None end).
  { intros (x & lo & hi) _. unfold row_step, row_pick. destruct (below eps (hi - lo)); [|reflexivity]. rewrite iter_pick.
    destruct (lml_pick branch N nx x lo hi) as [[[lo' hi'] j]|]; [|reflexivity]. cbn [existsb]. now rewrite orb_false_r. }
  unfold lml_rows_iter. destruct Sf as [Sf|Sf].
  - (* no corrections *)
    assert (NJ : forall row, In row st -> forall q, row_pick branch N nx eps row = Some q -> existsb (fun j => j) (snd q) = false).
    { intros (x & lo & hi) Hin q. unfold row_pick. specialize (Sf _ _ _ Hin). specialize (Hw _ Hin). unfold width in Hw. cbn [fst snd] in Hw.
      destruct (below eps (hi - lo)); [|intros E; injection E as <-; reflexivity].
      destruct (lml_pick branch N nx x lo hi) as [[[lo' hi'] j]|] eqn:P; [|discriminate]. intros E. injection E as <-. cbn [snd existsb].
      apply pick_spec in P; [|exact Hb|lra]. destruct j; [|reflexivity]. lra. }
    rewrite (all_some_ext (row_step branch N nx eps) (fun row => match row_pick branch N nx eps row with Some q => Some (fst q) | None => None end)).
    2: { intros row Hin. rewrite (Step row Hin). destruct (row_pick branch N nx eps row) as [[[x [lo hi]] J]|] eqn:E; [|reflexivity].
         rewrite (NJ row Hin _ E : existsb (fun j => j) J = false). reflexivity. }
    rewrite all_some_post. destruct (all_some (map (row_pick branch N nx eps) st)) as [picks|] eqn:E; [|reflexivity].
    replace (existsb (fun j => j) (flat_map snd picks)) with false; [reflexivity|]. symmetry.
    assert (NP : forall q, In q picks -> existsb (fun j => j) (snd q) = false).
    { intros q Hq. pose proof (all_some_In _ _ E q Hq) as Hi. apply in_map_iff in Hi. destruct Hi as (row & Er & Hr). exact (NJ row Hr q Er). }
    clear - NP. induction picks as [|q l IH]; [reflexivity|]. cbn [flat_map]. rewrite existsb_app, (NP q (or_introl eq_refl)). cbn [orb]. apply IH.
    intros p Hp. apply NP. now right.
  - (* all active *)
    assert (A1 : forall row, In row st -> row_pick branch N nx eps row =
       match lml_pick branch N nx (fst row) (fst (snd row)) (snd (snd row)) with
       | Some (lo', hi', j) => Some ((fst row, (lo', hi')), [j]) | None => None end).
    { intros (x & lo & hi) Hin. unfold row_pick. cbn [fst snd]. specialize (Sf _ Hin). unfold width in Sf. cbn [fst snd] in Sf.
      replace (below eps (hi - lo)) with true by (symmetry; now apply below_true). reflexivity. }
    set (f := fun row : lrow => match lml_pick branch N nx (fst row) (fst (snd row)) (snd (snd row)) with
       | Some (lo', hi', j) => Some ((fst row, (lo', hi')), j) | None => None end).
    rewrite (all_some_ext (row_pick branch N nx eps) (fun row => match f row with Some q => Some (fst q, [snd q]) | None => None end)).
    2: { intros row Hin. rewrite (A1 row Hin). unfold f. destruct (lml_pick _ _ _ _ _ _) as [[[lo' hi'] j]|]; reflexivity. }
    rewrite (all_some_ext (row_step branch N nx eps) (fun row => match f row with Some q => Some (let '((x, (lo, hi)), j) := q in (x, (if j : bool then lo - 7 else lo, hi))) | None => None end)).
    2: { intros row Hin. rewrite (Step row Hin), (A1 row Hin). unfold f. destruct (lml_pick _ _ _ _ _ _) as [[[lo' hi'] j]|]; [|reflexivity].
         cbn [existsb]. now rewrite orb_false_r. }
    rewrite !all_some_post. destruct (all_some (map f st)) as [P|]; [|reflexivity]. clear. cbv zeta.
    assert (F1 : flat_map snd (map (fun q : lrow * bool => (fst q, [snd q])) P) = map snd P).
    { induction P as [|q l IH]; [reflexivity|]. cbn [map flat_map snd app]. now rewrite IH. }
    assert (F2 : map fst (map (fun q : lrow * bool => (fst q, [snd q])) P) = map fst P) by (rewrite map_map; reflexivity).
    rewrite F1, F2, !map_length, Nat.eqb_refl. destruct (existsb (fun j => j) (map snd P)) eqn:E.
    + f_equal. clear. induction P as [|q l IH]; [reflexivity|]. cbn [map combine]. rewrite IH. destruct q as [[x [lo hi]] j]. reflexivity.
    + f_equal. clear - E. induction P as [|q l IH]; [reflexivity|]. cbn [map existsb] in *. apply orb_false_iff in E. destruct E as [E1 E2].
      rewrite <- IH by exact E2. destruct q as [[x [lo hi]] j]. cbn [fst snd] in *. rewrite E1. reflexivity.
Qed.
Definition row_inv (branch N nx k : nat) (j : nat) (row : lrow) : Prop :=
  14 <= width row * INR (branch - 1) ^ j /\ excess N nx (fst row) (fst (snd row) - 7 * INR (k - j)) < 0.
Lemma row_step_inv branch N nx eps k j row row' : (2 <= branch)%nat -> 0 < eps ->
  ((j < k)%nat -> eps * INR (branch - 1) ^ j < 14) ->
  row_inv branch N nx k j row -> row_step branch N nx eps row = Some row' -> row_inv branch N nx k (S j) row'.
Proof.
  intros Hb He Hk [W Ex]. destruct row as (x & lo & hi). unfold row_step, width in *. cbn [fst snd] in *.
  assert (B1 : 1 <= INR (branch - 1)) by (change 1 with (INR 1); apply le_INR; lia).
  assert (Bj : 0 < INR (branch - 1) ^ j) by (apply pow_lt; lra).
  assert (Pos : 0 < hi - lo) by nra.
  destruct (below eps (hi - lo)) eqn:A.
  - rewrite iter_pick. destruct (lml_pick branch N nx x lo hi) as [[[lo' hi'] jj]|] eqn:P; [|discriminate]. intros E. injection E as <-.
    apply pick_spec in P; [|exact Hb|lra]. destruct P as [D C]. unfold row_inv, width. cbn [fst snd].
    assert (D' : (hi' - lo') * INR (branch - 1) = hi - lo) by (rewrite D; field; lra).
    assert (W' : 14 <= (hi' - lo') * INR (branch - 1) ^ S j) by (cbn [pow]; rewrite <- D' in W; nra).
    destruct jj.
    + destruct C as [-> C]. split.
      * assert (0 < INR (branch - 1) ^ S j) by (apply pow_lt; lra). nra.
      * destruct (Nat.le_gt_cases k j) as [L|L].
        { replace (k - j)%nat with 0%nat in Ex by lia. cbn [INR] in Ex. rewrite Rmult_0_r, Rminus_0_r in Ex. lra. }
        replace (lo - 7 - 7 * INR (k - S j)) with (lo - 7 * INR (k - j)) by (replace (k - j)%nat with (S (k - S j)) by lia; rewrite S_INR; ring). exact Ex.
    + destruct C as [C _]. split; [exact W'|]. pose proof (excess_le N nx x (lo' - 7 * INR (k - S j)) lo'). pose proof (pos_INR (k - S j)). lra.
  - intros E. injection E as <-. apply below_false in A. unfold row_inv, width. cbn [fst snd]. split.
    + cbn [pow]. nra.
    + destruct (Nat.le_gt_cases k j) as [L|L].
      * replace (k - S j)%nat with 0%nat by lia. replace (k - j)%nat with 0%nat in Ex by lia. exact Ex.
      * specialize (Hk L). nra.
Qed.
Lemma inv_safe branch N nx eps k j st : (2 <= branch)%nat -> 0 < eps -> ((j < k)%nat -> eps * INR (branch - 1) ^ j < 14) ->
  (forall row, In row st -> row_inv branch N nx k j row) -> safe N nx eps st.
Proof.
  intros Hb He Hk I. assert (B1 : 1 <= INR (branch - 1)) by (change 1 with (INR 1); apply le_INR; lia).
  assert (Bj : 0 < INR (branch - 1) ^ j) by (apply pow_lt; lra).
  destruct (Nat.le_gt_cases k j) as [L|L].
  - left. intros x lo hi Hin. destruct (I _ Hin) as [_ Ex]. cbn [fst snd] in Ex. replace (k - j)%nat with 0%nat in Ex by lia. cbn [INR] in Ex.
    now rewrite Rmult_0_r, Rminus_0_r in Ex.
  - right. intros row Hin. destruct (I _ Hin) as [W _]. specialize (Hk L). nra.
Qed.
Lemma loop_step n branch N nx eps x lo hi r : lml_loop (S n) branch N nx eps x lo hi r =
  match row_step branch N nx eps (x, (lo, hi)) with Some (_, (lo', hi')) => lml_loop n branch N nx eps x lo' hi' (hi - lo) | None => None end.
Proof.
  cbn [lml_loop]. unfold row_step. destruct (below eps (hi - lo)) eqn:E.
  - destruct (lml_iter branch N nx x lo hi) as [[lo' hi']|]; reflexivity.
  - destruct n as [|n]; [reflexivity|]. cbn [lml_loop]. now rewrite E.
Qed.
Lemma row_step_x branch N nx eps row row' : row_step branch N nx eps row = Some row' -> fst row' = fst row.
Proof.
  destruct row as (x & lo & hi). unfold row_step. destruct (below eps (hi - lo)); [|intros E; now injection E as <-].
  destruct (lml_iter branch N nx x lo hi); [|discriminate]. intros E. now injection E as <-.
Qed.
Definition row_loop (n branch N nx : nat) (eps : R) (rr : lrow * R) : option (R * R) :=
  lml_loop n branch N nx eps (fst (fst rr)) (fst (snd (fst rr))) (snd (snd (fst rr))) (snd rr).
Lemma seq_loop n branch N nx eps : forall st rs, length rs = length st ->
  all_some (map (row_loop (S n) branch N nx eps) (combine st rs)) =
  match all_some (map (row_step branch N nx eps) st) with
  | Some st' => all_some (map (row_loop n branch N nx eps) (combine st' (map width st)))
  | None => None
  end.
Proof.
  induction st as [|row st IH]; intros [|r rs] Hl; cbn [length] in Hl; try discriminate; [reflexivity|].
  injection Hl as Hl. cbn [combine map all_some]. rewrite (IH rs Hl). destruct row as (x & lo & hi).
  unfold row_loop at 1. cbn [fst snd]. rewrite loop_step. destruct (row_step branch N nx eps (x, (lo, hi))) as [[x' [lo' hi']]|] eqn:E; [|reflexivity].
  apply row_step_x in E. cbn [fst] in E. subst x'. destruct (all_some (map (row_step branch N nx eps) st)) as [st'|].
  - cbn [combine map all_some]. unfold row_loop at 2. cbn [fst snd]. reflexivity.
  - destruct (lml_loop n branch N nx eps x lo' hi' (hi - lo)); reflexivity.
Qed.
Lemma rows_loop_eq branch N nx eps k : (2 <= branch)%nat -> 0 < eps -> (forall j, (j < k)%nat -> eps * INR (branch - 1) ^ j < 14) ->
  forall n j st rs, length rs = length st -> (forall row, In row st -> row_inv branch N nx k j row) ->
  lml_rows_loop n branch N nx eps st rs = all_some (map (row_loop n branch N nx eps) (combine st rs)).
Proof.
  intros Hb He Hk. induction n as [|n IH]; intros j st rs Hl I.
  - cbn [lml_rows_loop]. rewrite (all_some_map _ (fun rr : lrow * R => (fst (snd (fst rr)), snd rr))) by reflexivity. f_equal.
    clear - Hl. revert rs Hl. induction st as [|row st IH]; intros [|r rs] Hl; try discriminate; [reflexivity|]. injection Hl as Hl. cbn [map combine fst snd]. now rewrite (IH rs Hl).
  - cbn [lml_rows_loop]. destruct (existsb (below eps) (map width st)) eqn:Act.
    + rewrite seq_loop by exact Hl. rewrite rows_iter_eq; [|exact Hb| |exact (inv_safe branch N nx eps k j st Hb He (Hk j) I)].
      2: { intros row Hin. destruct (I _ Hin) as [W _]. assert (B1 : 1 <= INR (branch - 1)) by (change 1 with (INR 1); apply le_INR; lia).
           assert (0 < INR (branch - 1) ^ j) by (apply pow_lt; lra). nra. }
      destruct (all_some (map (row_step branch N nx eps) st)) as [st'|] eqn:E; [|reflexivity]. apply (IH (S j)).
      * rewrite map_length. clear - E. revert st' E. induction st as [|a st IH]; cbn [map all_some]; intros st' E; [now injection E as <-|].
        destruct (row_step branch N nx eps a); [|discriminate]. destruct (all_some (map (row_step branch N nx eps) st)); [|discriminate]. injection E as <-.
        cbn [length]. f_equal. now apply IH.
      * intros row' Hr. pose proof (all_some_In _ _ E row' Hr) as Hi. apply in_map_iff in Hi. destruct Hi as (row & Er & Hr').
        exact (row_step_inv branch N nx eps k j row row' Hb He (Hk j) (I row Hr') Er).
    + symmetry. rewrite (all_some_map _ (fun rr : lrow * R => (fst (snd (fst rr)), width (fst rr)))).
      * f_equal. clear - Hl. revert rs Hl. induction st as [|row st IH]; intros [|r rs] Hl; try discriminate; [reflexivity|]. injection Hl as Hl. cbn [map combine fst snd]. now rewrite (IH rs Hl).
      * intros [row r] Hin. apply in_combine_l in Hin. unfold row_loop, width. cbn [fst snd lml_loop].
        replace (below eps (snd (snd row) - fst (snd row))) with false; [reflexivity|]. symmetry.
        destruct (below eps (snd (snd row) - fst (snd row))) eqn:B; [|reflexivity]. rewrite <- Act. symmetry. apply existsb_exists. exists (width row).
        split; [now apply in_map|exact B].
Qed.
(** The rows of a batch do not influence each other: LML on a batch is LML on every row.  [k] is the number of times the lower end can have
    to be lowered; for nx - N < exp 7 it is 0 and the last hypothesis is void. *)
Theorem C68_lml_rows : forall n_iter branch N nx eps xs k, (0 < N)%nat -> (2 <= branch)%nat -> 0 < eps ->
  INR (nx - N) < exp (7 * (INR k + 1)) -> (forall j, (j < k)%nat -> eps * INR (branch - 1) ^ j < 14) ->
  lml_forward_rows n_iter branch N nx eps xs = all_some (map (lml_forward n_iter branch N nx eps) xs).
Proof.
  intros n_iter branch N nx eps xs k HN Hb He Hx Hk. unfold lml_forward_rows.
  destruct (Nat.leb nx N) eqn:L.
  - symmetry. apply all_some_map. intros x _. unfold lml_forward. now rewrite L.
  - apply Nat.leb_gt in L. cbv zeta.
    set (init := fun x => (x, (- nth (N - 1) (sort_desc (entries_of nx x)) 0 - 7, - nth N (sort_desc (entries_of nx x)) 0 + 7))).
    rewrite (rows_loop_eq branch N nx eps k Hb He Hk n_iter 0).
    + induction xs as [|x xs IH]; [reflexivity|]. cbn [map combine all_some]. unfold lml_forward at 1. destruct (Nat.leb_spec nx N) as [|_]; [lia|]. cbv zeta.
      unfold row_loop at 1. cbn [fst snd init]. 
      destruct (lml_loop n_iter branch N nx eps x (- nth (N - 1) (sort_desc (entries_of nx x)) 0 - 7) (- nth N (sort_desc (entries_of nx x)) 0 + 7) 0) as [[lo r]|]; [|reflexivity].
      rewrite <- IH. destruct (all_some (map (row_loop n_iter branch N nx eps) (combine (map init xs) (map (fun _ => 0) xs)))) as [res|]; [|reflexivity].
      reflexivity.
    + now rewrite !map_length.
    + intros row Hr. apply in_map_iff in Hr. destruct Hr as (x & <- & _). unfold row_inv, init, width. cbn [fst snd pow]. split.
      * destruct (sorted_facts nx x) as (_ & _ & O & _). pose proof (O (N - 1)%nat N ltac:(lia) L). lra.
      * rewrite Nat.sub_0_r. replace (- nth (N - 1) (sort_desc (entries_of nx x)) 0 - 7 - 7 * INR k) with (- nth (N - 1) (sort_desc (entries_of nx x)) 0 - 7 * (INR k + 1)) by ring.
        apply lower_end; [lia|exact Hx].
Qed.
(** In general they do: if one row is done while another one still has to be lowered, the mask has the wrong length and the whole batch
    raises.  Two rows, each of which succeeds alone. *)
Definition flat_row : nat -> R := fun _ => 0.
Definition peak_row : nat -> R := fun i => match i with O => 20 | _ => 0 end.
Lemma peak_sorted n : nth 0 (sort_desc (entries_of (S (S n)) peak_row)) 0 = 20 /\ nth 1 (sort_desc (entries_of (S (S n)) peak_row)) 0 = 0.
Proof.
  unfold entries_of. change (seq 0 (S (S n))) with (0%nat :: seq 1 (S n)). cbn [map]. rewrite <- seq_shift, map_map.
  change (map (fun x => peak_row (S x)) (seq 0 (S n))) with (entries_of (S n) (fun _ => 0)). cbn [sort_desc fold_right]. fold (sort_desc (entries_of (S n) (fun _ => 0))).
  pose proof (sorted_const (S n) 0 0 ltac:(lia)) as E0. destruct (sorted_facts (S n) (fun _ => 0)) as (Len & _).
  destruct (sort_desc (entries_of (S n) (fun _ => 0))) as [|a l]; [discriminate|]. cbn [nth] in E0. subst a. cbn [insert_desc]. unfold peak_row.
  replace (below 20 0) with false by (symmetry; apply below_false; lra). split; reflexivity.
Qed.
Lemma sigm c : sigmoid (- c) = / (1 + exp c).
Proof. unfold sigmoid. f_equal. f_equal. f_equal. ring. Qed.
Lemma flat_excess nx c : exp c <= INR (nx - 1) -> (1 <= nx)%nat -> 0 <= excess 1 nx flat_row (- c).
Proof.
  intros H Hn. unfold excess, flat_row. rewrite rsum_const. rewrite Rplus_0_l, sigm. cbn [INR]. pose proof (exp_pos c) as P.
  assert (Q1 : / (1 + exp c) * (1 + exp c) = 1) by (apply Rinv_l; lra). assert (Q : 0 < / (1 + exp c)) by (apply Rinv_0_lt_compat; lra).
  rewrite minus_INR in H by exact Hn. cbn [INR] in H. nra.
Qed.
Theorem C68_lml_rows_refuted : forall n_iter nx, (4 <= n_iter)%nat -> exp 14 <= INR (nx - 1) -> INR (nx - 1) <= exp 20 ->
  lml_forward_rows n_iter 100 1 nx 1 [flat_row; peak_row] = None
  /\ (exists y, lml_forward n_iter 100 1 nx 1 flat_row = Some y) /\ (exists y, lml_forward n_iter 100 1 nx 1 peak_row = Some y).
Proof.
  intros n_iter nx Hi H14 H20.
  assert (E14 : 1 < exp 14) by (pose proof (exp_ineq1 14); lra). assert (E7 : exp 7 < exp 14) by (apply exp_increasing; lra).
  assert (E1 : 1 <= exp 7) by (pose proof (exp_ineq1 7); lra).
  assert (Hn : exists n, nx = S (S n)). { destruct nx as [|[|n]]; [cbn [Nat.sub INR] in H14; lra|cbn [Nat.sub INR] in H14; lra|now exists n]. }
  destruct Hn as (n & ->). set (nx := S (S n)) in *.
  assert (B99 : INR (100 - 1) = 99) by (rewrite INR_IZR_INZ; apply f_equal; reflexivity).
  assert (big : forall c, c <= 34 -> c <= 1 * INR (100 - 1) ^ (n_iter - 1 - 2)).
  { intros c Hc. rewrite Rmult_1_l, B99. replace (n_iter - 1 - 2)%nat with (S (n_iter - 4)) by lia. cbn [pow].
    assert (1 <= 99 ^ (n_iter - 4)) by (apply pow_R1_Rle; lra). lra. }
  assert (E21 : INR (nx - 1) < exp (7 * (INR 2 + 1))).
  { eapply Rle_lt_trans; [exact H20|]. apply exp_increasing. cbn [INR]. lra. }
  split; [|split].
  2: { destruct (C68_lml_forward_any_size n_iter 100 1 nx 1 flat_row 0 2) as (y & _ & E & _); [unfold nx; lia|cbn [INR]; lra|exact E21|lia|lia|lra| |apply big; lra|exists y; exact E].
       intros i j _ _. unfold flat_row. lra. }
  2: { destruct (C68_lml_forward_any_size n_iter 100 1 nx 1 peak_row 20 2) as (y & _ & E & _); [unfold nx; lia|cbn [INR]; lra|exact E21|lia|lia|lra| |apply big; lra|exists y; exact E].
       intros [|i] [|j] _ _; unfold peak_row; lra. }
  assert (F14 : 0 <= excess 1 nx flat_row (- (14))) by (apply flat_excess; [exact H14|unfold nx; lia]).
  assert (F7 : 0 <= excess 1 nx flat_row (- (7))) by (apply flat_excess; [lra|unfold nx; lia]).
  replace (- (14)) with (-14) in F14 by ring. replace (- (7)) with (-7) in F7 by ring.
  unfold lml_forward_rows. replace (Nat.leb nx 1) with false by reflexivity. cbn [map]. cbv zeta. change (1 - 1)%nat with 0%nat.
  destruct (peak_sorted n) as [P0 P1]. fold nx in P0, P1. rewrite P0, P1. unfold flat_row at 2 3. rewrite !sorted_const by (unfold nx; lia).
  fold flat_row. replace (- 0 - 7) with (-7) by ring. replace (- 0 + 7) with 7 by ring. replace (- (20) - 7) with (-27) by ring.
  (* the peaked row is bracketed *)
  assert (G27 : excess 1 nx peak_row (-27) < 0).
  { unfold excess, nx. change (S (S n)) with (1 + S n)%nat. rewrite rsum_app. change (rsum 1 (fun i => sigmoid (peak_row i + -27))) with (0 + sigmoid (20 + -27)). replace (20 + -27) with (- (7)) by ring.
    rewrite (rsum_ext (S n) _ (fun _ => sigmoid (- (27)))).
    2: { intros i _. f_equal. cbn [Nat.add peak_row]. ring. }
    rewrite rsum_const, !sigm. change (INR 1) with 1. replace (nx - 1)%nat with (S n) in H20 by (unfold nx; lia).
    pose proof (exp_pos 27). pose proof (exp_pos 7). assert (X27 : exp 27 = exp 20 * exp 7) by (rewrite <- exp_plus; f_equal; ring).
    pose proof (exp_pos 20). assert (E8 : 8 < exp 7) by (pose proof (exp_ineq1 7); lra).
    assert (T1 : / (1 + exp 7) < / 9) by (apply Rinv_lt_contravar; lra).
    assert (T2 : INR (S n) * / (1 + exp 27) <= / 8).
    { apply (Rmult_le_reg_r (1 + exp 27)); [lra|]. rewrite Rmult_assoc, Rinv_l by lra. nra. }
    lra. }
  assert (G7 : 0 <= excess 1 nx peak_row 7).
  { pose proof (upper_end 1 nx peak_row ltac:(unfold nx; lia) ltac:(cbn [INR]; lra)) as U. rewrite P1 in U. now replace (- 0 + 7) with 7 in U by ring. }
  destruct (iter_bracket 100 1 nx peak_row (-27) 7 ltac:(lia) ltac:(unfold nx; lia) G27 G7) as (lo & hi & EP & DP & _ & _).
  destruct (iter_recover 100 1 nx flat_row (-7) 7 ltac:(lia) ltac:(lra) F7) as (hf & EF & DF & _).
  replace (-7 - 7) with (-14) in EF, DF by ring. rewrite B99 in DP, DF.
  destruct (iter_recover 100 1 nx flat_row (-14) hf ltac:(lia) ltac:(lra) F14) as (hf2 & EF2 & DF2 & _).
  destruct n_iter as [|[|m]]; try lia. cbn [lml_rows_loop map existsb]. unfold width at 1 2. cbn [fst snd].
  replace (below 1 (7 - -7)) with true by (symmetry; apply below_true; lra). cbn [orb].
  rewrite rows_iter_eq; [|lia| |].
  2: { intros row [<-|[<-|[]]]; unfold width; cbn [fst snd]; lra. }
  2: { right. intros row [<-|[<-|[]]]; unfold width; cbn [fst snd]; lra. }
  cbn [map all_some]. unfold row_step. replace (below 1 (7 - -7)) with true by (symmetry; apply below_true; lra).
  replace (below 1 (7 - -27)) with true by (symmetry; apply below_true; lra). rewrite EF, EP. cbn [map existsb]. unfold width at 1 2. cbn [fst snd].
  replace (below 1 (hf - -14)) with true by (symmetry; apply below_true; lra). cbn [orb].
  enough (lml_rows_iter 100 1 nx 1 [(flat_row, (-14, hf)); (peak_row, (lo, hi))] = None) as -> by reflexivity.
  unfold lml_rows_iter. cbn [map]. unfold row_pick.
  replace (below 1 (hf - -14)) with true by (symmetry; apply below_true; lra).
  replace (below 1 (hi - lo)) with false by (symmetry; apply below_false; lra).
  rewrite iter_pick in EF2. destruct (lml_pick 100 1 nx flat_row (-14) hf) as [[[l' h'] j]|] eqn:Pk; [|reflexivity].
  apply pick_spec in Pk; [|lia|lra]. destruct j.
  - cbn [all_some map flat_map snd fst app existsb orb length Nat.eqb]. reflexivity.
  - exfalso. apply (f_equal (fun o => match o with Some p => fst p | None => 0 end)) in EF2. cbn [fst] in EF2. subst l'.
    destruct Pk as (_ & _ & Pk). lra.
Qed.
(** such nx exist *)
Lemma C68_rows_refuted_example : exists nx, exp 14 <= INR (nx - 1) <= exp 20.
Proof.
  destruct (archimed (exp 14)) as [A B]. pose proof (exp_pos 14) as P. exists (S (Z.to_nat (up (exp 14)))). rewrite Nat.sub_succ, Nat.sub_0_r.
  assert (0 <= up (exp 14))%Z by (apply le_IZR; lra). rewrite INR_IZR_INZ, Z2Nat.id by assumption. split; [lra|].
  replace 20 with (14 + 6) by ring. rewrite exp_plus. pose proof (exp_ineq1 6 ltac:(lra)). pose proof (exp_ineq1 14 ltac:(lra)). nra.
Qed.
(** the positive theorem at the defaults (eps = 1e-4, branch 10) covers every nx - N < exp 49, that is every tensor *)
Lemma C68_rows_example : forall n_iter N nx xs, (0 < N)%nat -> INR (nx - N) < exp 49 ->
  lml_forward_rows n_iter 10 N nx (/ 10000) xs = all_some (map (lml_forward n_iter 10 N nx (/ 10000)) xs).
Proof.
  intros n_iter N nx xs HN H. apply (C68_lml_rows n_iter 10 N nx (/ 10000) xs 6); [exact HN|lia|apply Rinv_0_lt_compat; lra| |].
  - replace (7 * (INR 6 + 1)) with 49 by (cbn [INR]; ring). exact H.
  - intros j Hj. replace (INR (10 - 1)) with 9 by (cbn; ring). destruct j as [|[|[|[|[|[|j]]]]]]; [cbn [pow]; lra ..|lia].
Qed.
