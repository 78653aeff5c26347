(** C76: the BaSpaCho solver solves the (damped) normal equations. *)
From Coq Require Import List Arith Bool Reals Lia Lra Permutation.
From Verif Require Import RSum Csr_spec Csr_model Lin_proofs Csr_props Damp_model Damp_props Bas_model Bas_spec Bas_blocks Bas_adds.
Import ListNotations.
Local Open Scope nat_scope.

Lemma map_flat_map {X Y Z} (g : Y -> Z) (f : X -> list Y) l : map g (flat_map f l) = flat_map (fun x => map g (f x)) l.
Proof. induction l as [|x l IH]; [reflexivity|]. cbn [flat_map]. now rewrite map_app, IH. Qed.
Lemma nodup_fm {X Y} (f : X -> list Y) l : NoDup l -> (forall x, In x l -> NoDup (f x)) ->
  (forall x x' y, In x l -> In x' l -> In y (f x) -> In y (f x') -> x = x') -> NoDup (flat_map f l).
Proof.
  induction l as [|x l IH]; intros Hn Hf Hd; cbn [flat_map]; [constructor|]. inversion Hn as [|? ? Nx Nl]; subst. apply NoDup_app_intro.
  - apply Hf. now left.
  - apply IH; [exact Nl|intros; apply Hf; now right|]. intros x1 x2 y H1 H2. apply Hd; now right.
  - intros y H1 H2. apply in_flat_map in H2. destruct H2 as (x' & Hx' & Hy'). rewrite (Hd x x' y (or_introl eq_refl) (or_intror Hx') H1 Hy') in Nx. contradiction.
Qed.
Lemma nodup_map_seq {Y} (f : nat -> Y) s k : (forall i j, s <= i < s + k -> s <= j < s + k -> f i = f j -> i = j) -> NoDup (map f (seq s k)).
Proof.
  intros H. assert (G : forall l, NoDup l -> (forall x, In x l -> s <= x < s + k) -> NoDup (map f l)).
  { induction l as [|a l IH]; intros Hn Hl; cbn [map]; [constructor|]. inversion Hn as [|? ? Na Nl]; subst. constructor; [|apply IH; [exact Nl|intros; apply Hl; now right]].
    intros Hin. apply in_map_iff in Hin. destruct Hin as (x & E & Hx). apply H in E; [subst; contradiction|apply Hl; now right|apply Hl; now left]. }
  apply G; [apply seq_NoDup|]. intros x Hx. apply in_seq in Hx. lia.
Qed.
Lemma run_copies_at l src : forall dst a s, NoDup (map fst l) -> In (a, s) l -> run_copies l src dst a = src s.
Proof.
  assert (K : forall l dst a, ~ In a (map fst l) -> run_copies l src dst a = dst a).
  { clear. induction l as [|x l IH]; intros dst a H; [reflexivity|]. unfold run_copies in *. cbn [fold_left]. rewrite IH by (intros Q; apply H; now right).
    destruct (Nat.eqb_spec a (fst x)) as [E|]; [|reflexivity]. exfalso. apply H. left. now symmetry. }
  induction l as [|x l IH]; intros dst a s Hn Hin; [destruct Hin|]. inversion Hn as [|? ? Nx Nl]; subst. unfold run_copies in *. cbn [fold_left]. destruct Hin as [->|Hin].
  - rewrite K by exact Nx. cbn [fst snd]. now rewrite Nat.eqb_refl.
  - now apply IH.
Qed.
Lemma run_damp_cons alpha beta x l mem : run_damp alpha beta (x :: l) mem =
  run_damp alpha beta l (fun a => if Nat.eqb a (fst x) then (mem a * (1 + alpha (snd x)) + beta (snd x))%R else mem a).
Proof. reflexivity. Qed.
Lemma run_damp_out alpha beta l : forall mem a, ~ In a (map fst l) -> run_damp alpha beta l mem a = mem a.
Proof.
  induction l as [|x l IH]; intros mem a H; [reflexivity|]. rewrite run_damp_cons, IH by (intros Q; apply H; now right).
  destruct (Nat.eqb_spec a (fst x)) as [E|]; [|reflexivity]. exfalso. apply H. left. now symmetry.
Qed.
Lemma run_damp_at alpha beta l : forall mem a b, NoDup (map fst l) -> In (a, b) l -> run_damp alpha beta l mem a = (mem a * (1 + alpha b) + beta b)%R.
Proof.
  induction l as [|x l IH]; intros mem a b Hn Hin; [destruct Hin|]. inversion Hn as [|? ? Nx Nl]; subst. rewrite run_damp_cons. destruct Hin as [->|Hin].
  - rewrite run_damp_out by exact Nx. cbn [fst snd]. now rewrite Nat.eqb_refl.
  - rewrite (IH _ a b Nl Hin). destruct (Nat.eqb_spec a (fst x)) as [E|]; [|reflexivity]. exfalso. apply Nx. rewrite <- E. apply in_map_iff. now exists (a, b).
Qed.
Lemma collect_map {A} (l : list (option A)) s : collect l = Some s -> l = map Some s.
Proof.
  revert s. induction l as [|[a|] l IH]; intros s; cbn [collect]; [intros H; injection H as <-; reflexivity| |discriminate].
  destruct (collect l) as [t|]; [|discriminate]. intros H. injection H as <-. cbn [map]. f_equal. now apply IH.
Qed.
Lemma collect_none {A} (l : list (option A)) : collect l = None -> In None l.
Proof.
  induction l as [|[a|] l IH]; cbn [collect]; [discriminate| |intros _; now left]. destruct (collect l); [discriminate|]. intros _. right. now apply IH.
Qed.

Section P.
Variables (L : layout) (sizes : list nat) (struct : list (list nat)).
Hypothesis OK : layout_ok L sizes struct.
Notation n := (list_sum sizes).
Notation N := (length sizes).
Notation F := (l_dataSize L).
Notation px := (pidx L sizes).
(** ** damping *)
Lemma diag_offset p k : p < N -> k < nth p sizes 0 ->
  offsetInFactor L sizes (start_of sizes p + k) (start_of sizes p + k) =
  match l_off L (l_pos L p) (l_pos L p) with Some off => Some (off + (l_stride L (l_pos L p) (l_pos L p) * k + k)) | None => None end.
Proof.
  intros Hp Hk. destruct (block_start sizes p k Hp Hk) as [E1 E2]. unfold offsetInFactor. cbv zeta. rewrite tpi_spec by exact E2. rewrite E1. cbn [Nat.add]. rewrite ps_spec by exact Hp.
  cbn [Nat.add]. replace (start_of sizes p + k - start_of sizes p) with k by lia. unfold blockOffset. rewrite Nat.ltb_irrefl. destruct (l_off L _ _); reflexivity.
Qed.
Lemma damp_spec B : exists l, damp_list L sizes B = Some l /\ NoDup (map fst l) /\
  forall a b, In (a, b) l <-> b < B /\ exists r o, r < n /\ offsetInFactor L sizes r r = Some o /\ a = o + b * F.
Proof.
  set (doff := fun p => match l_off L (l_pos L p) (l_pos L p) with Some o => o | None => 0 end).
  set (dplace := fun p k => doff p + (l_stride L (l_pos L p) (l_pos L p) * k + k)).
  assert (D : forall p k, p < N -> k < nth p sizes 0 -> start_of sizes p + k < n /\ block_of sizes (start_of sizes p + k) = p /\
    offsetInFactor L sizes (start_of sizes p + k) (start_of sizes p + k) = Some (dplace p k)).
  { intros p k Hp Hk. destruct (block_start sizes p k Hp Hk) as [E1 E2]. split; [exact E2|]. split; [exact E1|]. rewrite diag_offset by assumption. unfold dplace, doff.
    pose proof (lo_diag _ _ _ OK (l_pos L p) (lo_pos _ _ _ OK p Hp)) as Dg. destruct (l_off L _ _); [reflexivity|contradiction]. }
  set (l := flat_map (fun b => flat_map (fun p => map (fun k => (b * F + dplace p k, b)) (seq 0 (nth p sizes 0))) (seq 0 N)) (seq 0 B)).
  exists l. split; [|split].
  - unfold damp_list. rewrite <- (map_id l). set (l0 := flat_map _ _). assert (E : l0 = map Some l).
    { unfold l0, l. rewrite map_flat_map. apply flat_map_ext. intros b. rewrite map_flat_map. rewrite !flat_map_concat_map. f_equal. apply map_ext_in. intros p Hp. apply in_seq in Hp.
      unfold diag_places. rewrite map_map. apply map_ext. intros k. unfold dplace, doff.
      pose proof (lo_diag _ _ _ OK (l_pos L p) (lo_pos _ _ _ OK p ltac:(lia))) as Dg. destruct (l_off L _ _); [reflexivity|contradiction]. }
    rewrite E, map_id. clear. induction l as [|x l IH]; cbn [map collect]; [reflexivity|]. now rewrite IH.
  - unfold l. rewrite map_flat_map. apply nodup_fm; [apply seq_NoDup| |].
    + intros b Hb. rewrite map_flat_map. apply nodup_fm; [apply seq_NoDup| |].
      * intros p Hp. apply in_seq in Hp. rewrite map_map. cbn [fst]. apply nodup_map_seq. intros i j Hi Hj E. destruct (D p i ltac:(lia) ltac:(lia)) as (R1 & _ & O1). destruct (D p j ltac:(lia) ltac:(lia)) as (R2 & _ & O2).
        replace (dplace p i) with (dplace p j) in O1 by lia. destruct (offset_inj L sizes struct OK _ _ _ _ _ R1 (le_n _) R2 (le_n _) O1 O2). lia.
      * intros p p' y Hp Hp' Hy Hy'. rewrite map_map in Hy, Hy'. cbn [fst] in Hy, Hy'. apply in_seq in Hp, Hp'. apply in_map_iff in Hy, Hy'. destruct Hy as (k & Ek & Hk). destruct Hy' as (k' & Ek' & Hk'). apply in_seq in Hk, Hk'.
        destruct (D p k ltac:(lia) ltac:(lia)) as (R1 & B1 & O1). destruct (D p' k' ltac:(lia) ltac:(lia)) as (R2 & B2 & O2).
        replace (dplace p k) with (dplace p' k') in O1 by lia. destruct (offset_inj L sizes struct OK _ _ _ _ _ R1 (le_n _) R2 (le_n _) O1 O2) as [Q _]. rewrite <- B1, <- B2, Q. reflexivity.
    + intros b b' y Hb Hb' Hy Hy'. rewrite map_flat_map in Hy, Hy'. apply in_flat_map in Hy, Hy'. destruct Hy as (p & Hp & Hy). destruct Hy' as (p' & Hp' & Hy').
      rewrite map_map in Hy, Hy'. cbn [fst] in Hy, Hy'. apply in_seq in Hp, Hp'. apply in_map_iff in Hy, Hy'. destruct Hy as (k & Ek & Hk). destruct Hy' as (k' & Ek' & Hk'). apply in_seq in Hk, Hk'.
      destruct (D p k ltac:(lia) ltac:(lia)) as (R1 & _ & O1). destruct (D p' k' ltac:(lia) ltac:(lia)) as (R2 & _ & O2).
      apply (offset_bound L sizes struct OK) in O1; [|exact R1|lia]. apply (offset_bound L sizes struct OK) in O2; [|exact R2|lia].
      destruct (batch_place L (dplace p k) b (dplace p' k') b' O1 O2) as [_ Q]; [lia|exact Q].
  - intros a b. unfold l. rewrite in_flat_map. split.
    + intros (b' & Hb & Hx). apply in_flat_map in Hx. destruct Hx as (p & Hp & Hx). apply in_map_iff in Hx. destruct Hx as (k & E & Hk). injection E as E1 E2. subst b'. apply in_seq in Hb, Hp, Hk.
      destruct (D p k ltac:(lia) ltac:(lia)) as (R1 & _ & O1). split; [lia|]. exists (start_of sizes p + k), (dplace p k). split; [exact R1|]. split; [exact O1|lia].
    + intros (Hb & r & o & Hr & Eo & ->). exists b. split; [apply in_seq; lia|]. destruct (block_spec sizes r Hr) as (A1 & A2). apply in_flat_map. exists (block_of sizes r). split; [apply in_seq; lia|].
      apply in_map_iff. exists (r - start_of sizes (block_of sizes r)). split; [|apply in_seq; lia]. destruct (D (block_of sizes r) (r - start_of sizes (block_of sizes r)) A1 ltac:(lia)) as (_ & _ & O1).
      replace (start_of sizes (block_of sizes r) + (r - start_of sizes (block_of sizes r))) with r in O1 by lia. rewrite Eo in O1. injection O1 as <-. f_equal. lia.
Qed.
(** ** permutation of the vectors *)
Lemma acc_pidx p k : p < N -> k < nth p sizes 0 -> acc_start L p + k = px (start_of sizes p + k).
Proof.
  intros Hp Hk. destruct (block_start sizes p k Hp Hk) as [E1 E2]. unfold acc_start, pidx. rewrite E1, ps_spec by (rewrite (lo_len _ _ _ OK); now apply (lo_pos _ _ _ OK)). lia.
Qed.
Lemma copies_spec B (f : nat -> nat -> nat * nat) (l : list (nat * nat)) :
  l = flat_map (fun p => flat_map (fun b => map (fun k => f (start_of sizes p + k) b) (seq 0 (nth p sizes 0))) (seq 0 B)) (seq 0 N) ->
  (forall r r' b b', r < n -> r' < n -> fst (f r b) = fst (f r' b') -> r = r' /\ b = b') ->
  NoDup (map fst l) /\ forall r b, r < n -> b < B -> In (f r b) l.
Proof.
  intros -> Hf. split.
  - rewrite map_flat_map. apply nodup_fm; [apply seq_NoDup| |].
    + intros p Hp. apply in_seq in Hp. rewrite map_flat_map. apply nodup_fm; [apply seq_NoDup| |].
      * intros b _. rewrite map_map. apply nodup_map_seq. intros i j Hi Hj E. apply Hf in E; [lia|apply block_start; lia|apply block_start; lia].
      * intros b b' y _ _ Hy Hy'. rewrite map_map in Hy, Hy'. apply in_map_iff in Hy, Hy'. destruct Hy as (k & Ek & Hk). destruct Hy' as (k' & Ek' & Hk'). apply in_seq in Hk, Hk'.
        rewrite <- Ek' in Ek. apply Hf in Ek; [tauto|apply block_start; lia|apply block_start; lia].
    + intros p p' y Hp Hp' Hy Hy'. apply in_seq in Hp, Hp'. rewrite map_flat_map in Hy, Hy'. apply in_flat_map in Hy, Hy'. destruct Hy as (b & _ & Hy). destruct Hy' as (b' & _ & Hy').
      rewrite map_map in Hy, Hy'. apply in_map_iff in Hy, Hy'. destruct Hy as (k & Ek & Hk). destruct Hy' as (k' & Ek' & Hk'). apply in_seq in Hk, Hk'. rewrite <- Ek' in Ek.
      destruct (block_start sizes p k ltac:(lia) ltac:(lia)) as [B1 R1]. destruct (block_start sizes p' k' ltac:(lia) ltac:(lia)) as [B2 R2].
      apply Hf in Ek; [|exact R1|exact R2]. destruct Ek as [Ek _]. rewrite <- B1, <- B2, Ek. reflexivity.
  - intros r b Hr Hb. destruct (block_spec sizes r Hr) as (A1 & A2). apply in_flat_map. exists (block_of sizes r). split; [apply in_seq; lia|]. apply in_flat_map. exists b. split; [apply in_seq; lia|].
    apply in_map_iff. exists (r - start_of sizes (block_of sizes r)). split; [f_equal; lia|apply in_seq; lia].
Qed.
Lemma place_order x y b b' : x < n -> y < n -> x + n * b = y + n * b' -> x = y /\ b = b'.
Proof. intros H H' E. destruct (Nat.lt_trichotomy b b') as [Q|[Q|Q]]; [exfalso; nia|subst; lia|exfalso; nia]. Qed.
Lemma flat_map_ext_in {X Y} (f g : X -> list Y) l : (forall x, In x l -> f x = g x) -> flat_map f l = flat_map g l.
Proof. intros H. rewrite !flat_map_concat_map. f_equal. now apply map_ext_in. Qed.
Lemma scramble_spec B : NoDup (map fst (scramble_list L sizes n B)) /\ forall r b, r < n -> b < B -> In (px r + n * b, r + n * b) (scramble_list L sizes n B).
Proof.
  apply (copies_spec B (fun r b => (px r + n * b, r + n * b))).
  - unfold scramble_list. apply flat_map_ext_in. intros p Hp. apply in_seq in Hp. apply flat_map_ext. intros b. apply map_ext_in. intros k Hk. apply in_seq in Hk.
    rewrite ps_spec by lia. cbn [Nat.add]. rewrite acc_pidx by lia. reflexivity.
  - intros r r' b b' Hr Hr' E. cbn [fst] in E. apply place_order in E; [|now apply (pidx_spec L sizes struct OK)|now apply (pidx_spec L sizes struct OK)]. destruct E as [E ->]. split; [|reflexivity].
    now apply (pidx_inj L sizes struct OK).
Qed.
Lemma unscramble_spec B : NoDup (map fst (unscramble_list L sizes n B)) /\ forall r b, r < n -> b < B -> In (r + n * b, px r + n * b) (unscramble_list L sizes n B).
Proof.
  apply (copies_spec B (fun r b => (r + n * b, px r + n * b))).
  - unfold unscramble_list. apply flat_map_ext_in. intros p Hp. apply in_seq in Hp. apply flat_map_ext. intros b. apply map_ext_in. intros k Hk. apply in_seq in Hk.
    rewrite ps_spec by lia. cbn [Nat.add]. rewrite acc_pidx by lia. reflexivity.
  - intros r r' b b' Hr Hr' E. cbn [fst] in E. now apply place_order in E.
Qed.
(** sums over permuted indices *)
Lemma rsum_pidx (f : nat -> R) : rsum n (fun r => f (px r)) = rsum n f.
Proof. rewrite <- !lsum_seq. rewrite <- (lsum_map f px). apply lsum_perm. exact (pidx_perm L sizes struct OK). Qed.
(** the solution of the systems of the library, read at the original indices *)
Lemma solve_spec bsolve scr uns junk B data x M : solver_sound L n bsolve ->
  Permutation (scramble_list L sizes n B) scr -> Permutation (unscramble_list L sizes n B) uns ->
  (forall b r c, b < B -> r < n -> c < n -> sym L (fun o => data (F * b + o)) (px r) (px c) = M b r c) ->
  forall x', solve L bsolve scr uns junk n B data x = Some x' ->
  forall b r, b < B -> r < n -> rsum n (fun c => (M b r c * x' (c + n * b)%nat)%R) = x (r + n * b).
Proof.
  intros So Ps Pu HM x' E b r Hb Hr. unfold solve in E. cbv zeta in E. destruct (scramble_spec B) as [Sn Si]. destruct (unscramble_spec B) as [Un Ui].
  set (permX := run_copies scr x junk) in E.
  destruct (collect (map _ (seq 0 B))) as [ys|] eqn:Ec; [|discriminate]. apply collect_map in Ec. injection E as <-.
  assert (Ly : length ys = B) by (rewrite <- (map_length Some), <- Ec, map_length; apply seq_length).
  assert (Ey : bsolve (fun o => data (F * b + o)) (fun i => permX (n * b + i)) = Some (nth b ys (fun _ => 0%R))).
  { apply (f_equal (fun l => nth b l None)) in Ec. rewrite (nth_indep (map Some ys) None (Some (fun _ => 0%R))) in Ec by (rewrite map_length; lia).
    rewrite (map_nth Some) in Ec. rewrite <- Ec. set (g := fun b0 => bsolve _ _). rewrite (nth_indep _ None (g 0)) by (rewrite map_length, seq_length; lia).
    rewrite (map_nth g), seq_nth by exact Hb. reflexivity. }
  destruct (pidx_spec L sizes struct OK r Hr) as (Pr & _). pose proof (So _ _ _ Ey (px r) Pr) as S. cbv beta in S.
  rewrite (Nat.add_comm (n * b)) in S. unfold permX in S. rewrite (run_copies_at scr x junk (px r + n * b) (r + n * b)) in S.
  2: { apply (Permutation_NoDup (Permutation_map fst Ps)). exact Sn. }
  2: { apply (Permutation_in _ Ps). now apply Si. }
  rewrite <- S. rewrite <- (rsum_pidx (fun j => (sym L (fun o => data (F * b + o)%nat) (px r) j * nth b ys (fun _ => 0) j)%R)). apply rsum_ext. intros c Hc. rewrite (HM b r c Hb Hr Hc). f_equal.
  destruct (pidx_spec L sizes struct OK c Hc) as (Pc & _).
  rewrite (run_copies_at uns _ x (c + n * b) (px c + n * b)).
  - replace ((px c + n * b) / n) with b. 2: { rewrite Nat.mul_comm, Nat.div_add by lia. rewrite Nat.div_small by exact Pc. lia. }
    replace ((px c + n * b) mod n) with (px c); [reflexivity|]. rewrite Nat.mul_comm, Nat.mod_add by lia. now rewrite Nat.mod_small.
  - apply (Permutation_NoDup (Permutation_map fst Pu)). exact Un.
  - apply (Permutation_in _ Pu). now apply Ui.
Qed.
Lemma solve_some bsolve scr uns junk B data x M : solver_complete L n bsolve ->
  (forall b r c, b < B -> r < n -> c < n -> sym L (fun o => data (F * b + o)) (px r) (px c) = M b r c) ->
  (forall b, b < B -> posdef n (M b)) -> solve L bsolve scr uns junk n B data x <> None.
Proof.
  intros Co HM Pd E. unfold solve in E. cbv zeta in E. destruct (collect _) eqn:Ec; [discriminate|]. apply collect_none in Ec. apply in_map_iff in Ec. destruct Ec as (b & Eb & Hb).
  apply in_seq in Hb. revert Eb. apply Co. intros v (i & Hi & Hv). destruct (pidx_surj L sizes struct OK i Hi) as (r & Hr & Er).
  pose proof (Pd b ltac:(lia) (fun r => v (px r))) as P. rewrite <- rsum_pidx. erewrite rsum_ext; [apply P|].
  - exists r. split; [exact Hr|]. now rewrite Er.
  - intros r' Hr'. cbv beta. rewrite <- rsum_pidx. apply rsum_ext. intros c Hc. now rewrite HM by (assumption || lia).
Qed.
End P.

Section M.
Variables (m : nat) (rp ci : list nat) (L : layout) (sizes : list nat).
Notation n := (list_sum sizes).
Notation struct := (block_struct rp ci (param_start 0 sizes) n).
Hypothesis W : csr_wf m n rp ci.
Hypothesis OK : layout_ok L sizes struct.
Notation F := (l_dataSize L).
Notation px := (pidx L sizes).
Variables (val : nat -> R) (B : nat).
Notation A := (mat_of rp ci val).
(** the place of (r, c), any order *)
Lemma sym_offset data r c : r < n -> c < n -> sym L data (px r) (px c) = match offsetInFactor L sizes (max r c) (min r c) with Some o => data o | None => 0%R end.
Proof.
  intros Hr Hc. rewrite (offset_place L sizes struct OK) by lia.
  assert (E : place L (max (px (max r c)) (px (min r c))) (min (px (max r c)) (px (min r c))) = place L (max (px r) (px c)) (min (px r) (px c))).
  { destruct (Nat.le_ge_cases r c) as [Q|Q].
    - rewrite (Nat.max_r r c Q), (Nat.min_l r c Q). f_equal; lia.
    - rewrite (Nat.max_l r c Q), (Nat.min_r r c Q). reflexivity. }
  rewrite E. unfold sym. destruct (Nat.leb_spec (px c) (px r)) as [Q|Q]; rewrite lower_place.
  - now rewrite Nat.max_l, Nat.min_r by lia.
  - now rewrite Nat.max_r, Nat.min_l by lia.
Qed.
Lemma gram_maxmin M r c : gram m M (max r c) (min r c) = gram m M r c.
Proof.
  destruct (Nat.le_ge_cases r c) as [Q|Q]; [rewrite Nat.max_r, Nat.min_l by exact Q|rewrite Nat.max_l, Nat.min_r by exact Q; reflexivity].
  unfold gram. apply rsum_ext. intros. ring.
Qed.
Lemma data_spec l adds : add_MtM_cpu L sizes rp ci val B = Some l \/ add_MtM_cuda L sizes rp ci val B = Some l -> Permutation l adds ->
  forall b r c, b < B -> r < n -> c < n -> sym L (fun o => run_adds (fun _ => 0%R) adds (F * b + o)) (px r) (px c) = gram m (A b) r c.
Proof.
  intros Hl P b r c Hb Hr Hc. rewrite sym_offset by assumption. rewrite <- gram_maxmin. destruct (offsetInFactor L sizes (max r c) (min r c)) as [o|] eqn:E.
  - rewrite run_adds_sum, Rplus_0_l. rewrite <- (lsum_perm _ l adds P). replace (F * b + o) with (o + b * F) by lia.
    destruct (cpu_adds m rp ci L sizes W OK val B) as (l1 & E1 & H1). destruct (cuda_adds m rp ci L sizes W OK val B) as (l2 & E2 & H2).
    destruct Hl as [Hl|Hl]; [rewrite Hl in E1; injection E1 as <-; apply H1|rewrite Hl in E2; injection E2 as <-; apply H2]; try assumption; lia.
  - symmetry. apply (not_stored m rp ci L sizes W OK val b); [lia|lia|exact E].
Qed.
Lemma damped_spec l adds d dl alpha beta : add_MtM_cpu L sizes rp ci val B = Some l \/ add_MtM_cuda L sizes rp ci val B = Some l -> Permutation l adds ->
  damp_list L sizes B = Some d -> Permutation d dl ->
  forall b r c, b < B -> r < n -> c < n -> sym L (fun o => run_damp alpha beta dl (run_adds (fun _ => 0%R) adds) (F * b + o)) (px r) (px c) =
    (gram m (A b) r c + if r =? c then alpha b * gram m (A b) r c + beta b else 0)%R.
Proof.
  intros Hl P Ed Pd b r c Hb Hr Hc. pose proof (data_spec l adds Hl P b r c Hb Hr Hc) as D. rewrite sym_offset in * by assumption.
  destruct (damp_spec L sizes struct OK B) as (d' & Ed' & Nd & Hd). rewrite Ed in Ed'. injection Ed' as <-.
  assert (Nl : NoDup (map fst dl)) by (apply (Permutation_NoDup (Permutation_map fst Pd)); exact Nd).
  destruct (offsetInFactor L sizes (max r c) (min r c)) as [o|] eqn:E.
  - destruct (Nat.eqb_spec r c) as [->|Ne].
    + rewrite Nat.max_id, Nat.min_id in E. rewrite (run_damp_at alpha beta dl _ _ b Nl).
      * rewrite D. ring.
      * apply (Permutation_in _ Pd). apply Hd. split; [exact Hb|]. exists c, o. split; [exact Hc|]. split; [exact E|lia].
    + rewrite run_damp_out; [rewrite D; ring|]. intros Hin. apply in_map_iff in Hin. destruct Hin as ((a & b') & Ea & Hin). cbn [fst] in Ea.
      apply (Permutation_in _ (Permutation_sym Pd)) in Hin. apply Hd in Hin. destruct Hin as (Hb' & r' & o' & Hr' & Eo' & ->).
      pose proof (offset_bound L sizes struct OK (max r c) (min r c) o ltac:(lia) ltac:(lia) E) as B1. pose proof (offset_bound L sizes struct OK _ _ _ Hr' (le_n _) Eo') as B2.
      destruct (batch_place L o' b' o b B2 B1 ltac:(lia)) as [Qo Qb]. rewrite Qo in Eo'. destruct (offset_inj L sizes struct OK (max r c) (min r c) r' r' o ltac:(lia) ltac:(lia) Hr' (le_n _) E Eo'). lia.
  - destruct (Nat.eqb_spec r c) as [->|Ne]; [|rewrite <- D; ring]. exfalso. rewrite Nat.max_id, Nat.min_id in E.
    destruct (block_spec sizes c Hc) as (A1 & A2). pose proof (diag_offset L sizes (block_of sizes c) (c - start_of sizes (block_of sizes c)) A1 ltac:(lia)) as Dg.
    replace (start_of sizes (block_of sizes c) + (c - start_of sizes (block_of sizes c))) with c in Dg by lia. rewrite E in Dg.
    pose proof (lo_diag _ _ _ OK _ (lo_pos _ _ _ OK _ A1)) as Q. destruct (l_off L _ _); [discriminate|contradiction].
Qed.
End M.
