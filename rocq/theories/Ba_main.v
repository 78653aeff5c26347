(** C86, main theorems: synthetic problems, the histogram, the losses *)
From Coq Require Import Reals Lra Psatz List Arith Lia Bool ZArith.
From Verif Require Import Geo_spec Geo3_spec Geo4_spec SE2_model SO3_model SO3_group SE3_model SE3_group SE3_exp
  Emb2_spec G2o_model Syn_model Syn_props Syn_main Ba_model Ba_spec Ba_props Ba_gen.
Import ListNotations.
Local Open Scope R_scope.

Lemma add_spread_close r s q u q0 : 0 <= r -> 0 <= s -> in01_2 u -> close2 s q q0 -> close2 (s + r) (add_spread r q u) q0.
Proof.
  intros Hr Hs [[U0 U0'] [U1 U1']] [C0 C1]. unfold close2, close, add_spread in *. cbn [a0 a1].
  assert (T : forall x y w, 0 <= w < 1 -> Rabs (x - y) <= s -> Rabs (x + (w * 2 - 1) * r - y) <= s + r).
  { intros x y w W X. replace (x + (w * 2 - 1) * r - y) with ((x - y) + (w * 2 - 1) * r) by ring.
    eapply Rle_trans; [apply Rabs_triang|]. apply Rplus_le_compat; [exact X|]. apply Rabs_le. nra. }
  split; apply T; auto.
Qed.

Section Gen.
Variables (fr po orr : R) (gc : list Camera) (gp : list V3) (nc np ppc loc : nat).
Hypotheses (Hfr : 0 <= fr) (Horr : 0 <= orr) (Lgc : length gc = nc) (Lgp : length gp = np).

Lemma gen_obs_ok i j u : (i < nc)%nat -> (j < np)%nat -> obs_draw u ->
  exists o, gen_obs fr po orr (map Some gc) gp i j u = Ret o /\ o_cam o = Z.of_nat i /\ o_pt o = Z.of_nat j /\
    good_obs (fr + orr) gc gp o /\ (po <= 0 -> good_obs fr gc gp o).
Proof.
  intros Hi Hj (UF & UW & UO). unfold gen_obs.
  destruct (nth_error gc i) as [c|] eqn:Ec; [|apply nth_error_None in Ec; lia].
  destruct (nth_error gp j) as [p|] eqn:Ep; [|apply nth_error_None in Ep; lia].
  rewrite nth_error_map, Ec. cbn [option_map]. eexists. split; [reflexivity|]. cbn [o_cam o_pt]. split; [reflexivity|]. split; [reflexivity|].
  assert (C0 : forall q, close2 0 q q).
  { intros q. unfold close2, close, Rminus. rewrite !Rplus_opp_r, Rabs_R0. lra. }
  split.
  - exists i, j, c, p. cbn [o_cam o_pt o_feat]. split; [reflexivity|]. split; [reflexivity|]. split; [exact Ec|]. split; [exact Ep|].
    intros q Hq. apply C86_projection in Hq. rewrite Hq. cbn [bind]. eexists. split; [reflexivity|].
    pose proof (add_spread_close fr 0 q (od_feat u) q Hfr ltac:(lra) UF (C0 q)) as C1. rewrite Rplus_0_l in C1.
    destruct (Rlt_dec (od_w u) po); [now apply add_spread_close|].
    destruct C1 as [A B]. split; unfold close in *; lra.
  - intros Hpo. exists i, j, c, p. cbn [o_cam o_pt o_feat]. split; [reflexivity|]. split; [reflexivity|]. split; [exact Ec|]. split; [exact Ep|].
    intros q Hq. apply C86_projection in Hq. rewrite Hq. cbn [bind]. eexists. split; [reflexivity|].
    pose proof (add_spread_close fr 0 q (od_feat u) q Hfr ltac:(lra) UF (C0 q)) as C1. rewrite Rplus_0_l in C1.
    destruct (Rlt_dec (od_w u) po); [|exact C1]. destruct UW. lra.
Qed.

Lemma gen_cam_ok i js us : (i < nc)%nat -> (forall j, In j js -> (j < np)%nat) -> length us = length js -> Forall obs_draw us ->
  exists os, mapE (fun ju => gen_obs fr po orr (map Some gc) gp i (fst ju) (snd ju)) (combine js us) = Ret os /\
    map o_pt os = map Z.of_nat js /\ (forall o, In o os -> o_cam o = Z.of_nat i) /\
    Forall (good_obs (fr + orr) gc gp) os /\ (po <= 0 -> Forall (good_obs fr gc gp) os).
Proof.
  intros Hi. revert us. induction js as [|j js IH]; intros [|u us] Hj L Hu; try discriminate.
  - exists []. split; [reflexivity|]. split; [reflexivity|]. split; [easy|]. split; [constructor|intros; constructor].
  - pose proof (Forall_inv Hu) as Hu1. pose proof (Forall_inv_tail Hu) as Hu2.
    destruct (gen_obs_ok i j u Hi (Hj j (or_introl eq_refl)) Hu1) as (o & E & Eo & Ep & G1 & G2).
    destruct (IH us (fun x Hx => Hj x (or_intror Hx)) ltac:(cbn in L; lia) Hu2) as (os & E' & P & C & F1 & F2).
    exists (o :: os). cbn [combine mapE fst snd]. rewrite E. cbn [ebind]. rewrite E'. cbn [ebind]. split; [reflexivity|].
    cbn [map]. split; [now rewrite Ep, P|]. split; [intros x [<-|Hx]; [exact Eo|now apply C]|].
    split; [now constructor|]. intros H. constructor; auto.
Qed.

Let span := span_size np ppc loc.
Lemma span_le : (span <= np)%nat. Proof. unfold span, span_size. lia. Qed.
Lemma start_le i : (i < nc)%nat -> (span_start nc np ppc loc i + span <= np)%nat /\ ((span < np)%nat -> (span_start nc np ppc loc i + span < np)%nat).
Proof.
  intros Hi. unfold span_start. fold span. pose proof span_le. set (x := (np - span)%nat).
  split.
  - assert ((x * i / nc <= x)%nat); [|unfold x in *; lia]. apply Nat.div_le_upper_bound; [lia|]. nia.
  - intros L. assert ((x * i / nc < x)%nat); [|unfold x in *; lia]. apply Nat.div_lt_upper_bound; [lia|]. unfold x. nia.
Qed.
Lemma obs_pts_ok i perm : (i < nc)%nat -> is_perm span perm ->
  NoDup (obs_pts nc np ppc loc i perm) /\ length (obs_pts nc np ppc loc i perm) = Nat.min ppc np /\
  (forall j, In j (obs_pts nc np ppc loc i perm) -> (j < np)%nat /\ ((span < np)%nat -> (j < np - 1)%nat)).
Proof.
  intros Hi (N & L & B). unfold obs_pts. set (st := span_start nc np ppc loc i).
  destruct (start_le i Hi) as [S1 S2]. fold st in S1, S2.
  assert (FI : forall (A : Type) (l : list A) k x, In x (firstn k l) -> In x l).
  { intros A l k x H. rewrite <- (firstn_skipn k l). apply in_app_iff. now left. }
  split; [|split].
  - apply FinFun.Injective_map_NoDup; [intros a b; lia|]. clear -N. revert ppc.
    induction N as [|x l Hx N IH]; intros [|k]; cbn; try constructor; [|apply IH]. intros H. apply Hx. rewrite <- (firstn_skipn k l). apply in_app_iff. now left.
  - rewrite map_length, firstn_length, L. unfold span, span_size. lia.
  - intros j Hj. apply in_map_iff in Hj. destruct Hj as (x & <- & Hx). apply FI, B in Hx. lia.
Qed.

Lemma gen_all_ok draws : forall i, (i + length draws <= nc)%nat -> draws_ok span (Nat.min ppc np) draws ->
  exists os, gen_all fr po orr (map Some gc) gp nc np ppc loc i draws = Ret os /\
    Forall (good_obs (fr + orr) gc gp) os /\ (po <= 0 -> Forall (good_obs fr gc gp) os) /\
    (forall o, In o os -> exists k, (i <= k < i + length draws)%nat /\ o_cam o = Z.of_nat k) /\
    (forall k, (i <= k < i + length draws)%nat -> NoDup (points_of (of_cam k os)) /\ length (of_cam k os) = Nat.min ppc np) /\
    length os = (length draws * Nat.min ppc np)%nat /\
    ((span < np)%nat -> forall o, In o os -> o_pt o <> Z.of_nat (np - 1)).
Proof.
  induction draws as [|[perm us] draws IH]; intros i Hi Hd.
  - exists []. split; [reflexivity|]. split; [constructor|]. split; [intros; constructor|]. split; [easy|]. split; [cbn; lia|]. split; [reflexivity|easy].
  - destruct (Hd perm us (or_introl eq_refl)) as (HP & LU & FU). cbn [length] in Hi.
    destruct (obs_pts_ok i perm ltac:(lia) HP) as (ND & LO & BO).
    destruct (gen_cam_ok i (obs_pts nc np ppc loc i perm) us ltac:(lia) (fun j Hj => proj1 (BO j Hj)) ltac:(lia) FU) as (os & E & P & C & F1 & F2).
    destruct (IH (S i) ltac:(lia) (fun a b H => Hd a b (or_intror H))) as (os' & E' & F1' & F2' & C' & N' & L' & U').
    exists (os ++ os'). cbn [gen_all]. rewrite E. cbn [ebind]. rewrite E'. cbn [ebind].
    assert (LP : length os = Nat.min ppc np) by (rewrite <- (map_length o_pt os), P, map_length; exact LO).
    split; [reflexivity|]. split; [apply Forall_app; split; assumption|]. split; [intros H; apply Forall_app; split; auto|]. cbn [length].
    split; [|split; [|split]].
    + intros o Ho. apply in_app_iff in Ho. destruct Ho as [Ho|Ho]; [exists i; split; [lia|now apply C]|].
      destruct (C' o Ho) as (k & K1 & K2). exists k. split; [lia|exact K2].
    + intros k Hk. unfold of_cam, points_of in *. rewrite filter_app.
      assert (A1 : forall l, (forall o, In o l -> o_cam o = Z.of_nat k) -> filter (fun o => (o_cam o =? Z.of_nat k)%Z) l = l).
      { induction l as [|x l IHl]; intros H; [reflexivity|]. cbn [filter]. rewrite (H x (or_introl eq_refl)), Z.eqb_refl. f_equal. apply IHl. intros o Ho. apply H. now right. }
      assert (A2 : forall l, (forall o, In o l -> o_cam o <> Z.of_nat k) -> filter (fun o => (o_cam o =? Z.of_nat k)%Z) l = []).
      { induction l as [|x l IHl]; intros H; [reflexivity|]. cbn [filter]. destruct (Z.eqb_spec (o_cam x) (Z.of_nat k)) as [Q|Q]; [exfalso; exact (H x (or_introl eq_refl) Q)|].
        apply IHl. intros o Ho. apply H. now right. }
      destruct (Nat.eq_dec k i) as [->|Nk].
      * rewrite (A1 os C), (A2 os'), app_nil_r. 2: { intros o Ho Q. destruct (C' o Ho) as (k & K1 & K2). lia. }
        rewrite P. split; [|exact LP]. apply FinFun.Injective_map_NoDup; [intros a b; lia|exact ND].
      * rewrite (A2 os). 2: { intros o Ho Q. rewrite (C o Ho) in Q. lia. } cbn [app]. apply N'. lia.
    + rewrite app_length, LP, L'. lia.
    + intros S o Ho. apply in_app_iff in Ho. destruct Ho as [Ho|Ho]; [|now apply U'].
      assert (I : In (o_pt o) (map Z.of_nat (obs_pts nc np ppc loc i perm))) by (rewrite <- P; now apply List.in_map).
      apply in_map_iff in I. destruct I as (j & Q & Hj). destruct (BO j Hj) as [B1 B2]. specialize (B2 S). lia.
Qed.
End Gen.

Lemma map_F2 {A B} (f : A -> option B) (Q : A -> B -> Prop) l : (forall x, In x l -> exists y, f x = Some y /\ Q x y) ->
  exists r, map f l = map Some r /\ Forall2 Q l r.
Proof.
  induction l as [|x l IH]; intros H; [exists []; split; [reflexivity|constructor]|].
  destruct (H x (or_introl eq_refl)) as (y & E & Qy). destruct (IH (fun z Hz => H z (or_intror Hz))) as (r & Er & F).
  exists (y :: r). cbn [map]. rewrite E, Er. split; [reflexivity|now constructor].
Qed.
Lemma F2_nth {A B} (Q : A -> B -> Prop) l r : Forall2 Q l r -> forall k y, nth_error r k = Some y -> exists x, nth_error l k = Some x /\ Q x y.
Proof. induction 1 as [|a b l r H F IH]; intros [|k] y E; cbn in *; try discriminate; [injection E as <-; now exists a|now apply IH]. Qed.
Lemma combine_seq_nth {A} (l : list A) n k x : nth_error (combine (seq 0 n) l) k = Some x -> fst x = k /\ nth_error l k = Some (snd x).
Proof.
  assert (G : forall n (l : list A) s k x, nth_error (combine (seq s n) l) k = Some x -> fst x = (s + k)%nat /\ nth_error l k = Some (snd x)).
  { clear. induction n as [|n IH]; intros [|a l] s [|k] x H; cbn in *; try discriminate.
    - injection H as <-. cbn. split; [lia|reflexivity].
    - apply IH in H. destruct H as [H1 H2]. split; [lia|exact H2]. }
  intros H. apply G in H. exact H.
Qed.

Definition located (gt_cams : list Camera) (gt_pts : list V3) (nc np : nat) : Prop :=
  (forall i c, nth_error gt_cams i = Some c -> placed 40 1 (mkV3 (- INR i * 100 / (INR nc - 1)) 0 (- (100))) c /\
      900 <= c_f c <= 1100 /\ Rabs (c_k1 c) <= 1 / 10 /\ Rabs (c_k2 c) <= 1 / 20) /\
  (forall j p, nth_error gt_pts j = Some p -> close3 20 p (mkV3 (INR j * 100 / INR np) 0 0)).

Theorem C86_synthetic : forall nc np avg tl fr po orr cds pds gps ps draws,
  (2 <= nc)%nat -> 0 <= tl -> 0 <= fr -> 0 <= orr ->
  length cds = nc -> length pds = nc -> length gps = np -> length ps = np -> length draws = nc ->
  Forall cam_draw cds -> Forall pose_draw pds -> Forall in01_3 gps -> Forall in01_3 ps ->
  let seen := (avg * np / nc)%nat in
  let span := Nat.min (seen + Z.to_nat (Int_part (tl * INR np))) np in
  draws_ok span (Nat.min seen np) draws ->
  exists b gt_cams gt_pts cams pts, generate_synthetic nc np avg tl fr po orr cds pds gps ps draws = Ret b /\
    ba_gt_cams b = Some (map (fun c => OCam (Some c)) gt_cams) /\ ba_gt_pts b = Some (map (fun p => OPt (Some p)) gt_pts) /\
    ba_cams b = map Some cams /\ ba_pts b = map Some pts /\
    length gt_cams = nc /\ length gt_pts = np /\ located gt_cams gt_pts nc np /\
    Forall2 (moved (1 / 5) (1 / 5)) gt_cams cams /\ Forall (fun c => rigid3 (c_pose c)) cams /\ Forall2 (close3 (1 / 5)) pts gt_pts /\
    Forall (good_obs (fr + orr) gt_cams gt_pts) (ba_obs b) /\ (po <= 0 -> Forall (good_obs fr gt_cams gt_pts) (ba_obs b)) /\
    (forall i, (i < nc)%nat -> NoDup (points_of (of_cam i (ba_obs b))) /\ length (of_cam i (ba_obs b)) = Nat.min seen np) /\
    length (ba_obs b) = (nc * Nat.min seen np)%nat /\
    ((span < np)%nat -> forall o, In o (ba_obs b) -> o_pt o <> Z.of_nat (np - 1)).
Proof.
  intros nc np avg tl fr po orr cds pds gps ps draws Hnc Htl Hfr Horr Lc Lp Lg Lq Ld Fc Fp Fg Fq seen span Hd.
  unfold generate_synthetic. destruct (Nat.eqb_spec nc 1); [lia|]. destruct (Nat.eqb_spec nc 0); [lia|].
  destruct (map_F2 (fun iu => gen_camera 20 1 (mkV3 (- INR (fst iu) * 100 / (INR nc - 1)) 0 (- (100))) 100 1000 (1 / 10) 0 (1 / 20) 0 (snd iu))
    (fun iu c => placed 40 1 (mkV3 (- INR (fst iu) * 100 / (INR nc - 1)) 0 (- (100))) c /\ 900 <= c_f c <= 1100 /\ Rabs (c_k1 c) <= 1 / 10 /\ Rabs (c_k2 c) <= 1 / 20)
    (combine (seq 0 nc) cds)) as (gc & Egc & Fgc).
  { intros [i u] Hi. apply in_combine_r in Hi. rewrite Forall_forall in Fc. cbn [fst snd].
    destruct (C86_camera 20 1 (mkV3 (- INR i * 100 / (INR nc - 1)) 0 (- (100))) 100 1000 (1 / 10) 0 (1 / 20) 0 u
      ltac:(lra) ltac:(lra) ltac:(lra) ltac:(lra) ltac:(lra) (Fc u Hi)) as (c & E & Pl & C1 & C2 & C3).
    exists c. split; [exact E|]. replace (2 * 20) with 40 in Pl by ring. split; [exact Pl|]. unfold close in *. rewrite Rminus_0_r in C2, C3.
    split; [|split; assumption]. pose proof (Rle_abs (c_f c - 1000)) as V1. pose proof (Rle_abs (- (c_f c - 1000))) as V2. rewrite Rabs_Ropp in V2. lra. }
  assert (Lgc : length gc = nc).
  { apply F2_len in Fgc. rewrite combine_length, seq_length in Fgc. lia. }
  assert (Rgc : forall c, In c gc -> rigid3 (c_pose c)).
  { intros c Hc. apply In_nth_error in Hc. destruct Hc as (k & Hk). destruct (F2_nth _ _ _ Fgc k c Hk) as (x & _ & Pl & _). apply Pl. }
  destruct (map_F2 (fun cu => perturbed (1 / 10) (1 / 5) (snd cu) (fst cu))
     (fun cu c' => exists c, fst cu = Some c /\ moved (1 / 5) (1 / 5) c c' /\ rigid3 (c_pose c')) (combine (map Some gc) pds)) as (cams & Ecams & Fcams).
  { intros [oc u] Hi. pose proof (in_combine_r _ _ _ _ Hi) as Hu. apply in_combine_l in Hi. apply in_map_iff in Hi. destruct Hi as (c & <- & Hc).
    rewrite Forall_forall in Fp. cbn [fst snd]. destruct (C86_perturbed (1 / 10) (1 / 5) u c ltac:(lra) ltac:(lra) (Fp u Hu) (Rgc c Hc)) as (c' & E & M & Rc & _).
    exists c'. split; [exact E|]. exists c. split; [reflexivity|]. replace (2 * (1 / 10)) with (1 / 5) in M by field. now split. }
  rewrite Egc, Ecams. cbv zeta.
  set (gp := map (fun iu => spread3 20 (mkV3 (INR (fst iu) * 100 / INR np) 0 0) (snd iu)) (combine (seq 0 np) gps)).
  assert (Lgp : length gp = np) by (unfold gp; rewrite map_length, combine_length, seq_length; lia).
  fold seen. 
  destruct (gen_all_ok fr po orr gc gp nc np seen (Z.to_nat (Int_part (tl * INR np))) Hfr Horr Lgc Lgp draws 0 ltac:(lia) Hd)
    as (os & Eos & G1 & G2 & _ & N & L & U).
  rewrite Eos. cbn [ebind].
  exists (mkBA (map Some cams) (map (fun pu => Some (spread3 (1 / 5) (fst pu) (snd pu))) (combine gp ps)) os
            (Some (map OCam (map Some gc))) (Some (map (fun p => OPt (Some p)) gp))), gc, gp, cams, (map (fun pu => spread3 (1 / 5) (fst pu) (snd pu)) (combine gp ps)).
  cbn [ba_cams ba_pts ba_obs ba_gt_cams ba_gt_pts].
  split; [reflexivity|]. split; [now rewrite map_map|]. split; [reflexivity|]. split; [reflexivity|]. split; [now rewrite map_map|].
  split; [exact Lgc|]. split; [exact Lgp|]. split; [split|].
  - intros i c Hi. destruct (F2_nth _ _ _ Fgc i c Hi) as (x & Hx & Q). apply combine_seq_nth in Hx. destruct Hx as [<- _]. exact Q.
  - intros j p Hj. unfold gp in Hj. rewrite nth_error_map in Hj. destruct (nth_error (combine (seq 0 np) gps) j) as [x|] eqn:E; [|discriminate].
    injection Hj as <-. apply combine_seq_nth in E. destruct E as [<- Hu]. apply spread3_close; [lra|]. rewrite Forall_forall in Fg. apply Fg. eapply nth_error_In; eassumption.
  - split; [|split; [|split; [|split; [exact G1|split; [exact G2|split; [intros i Hi; apply N; lia|split; [lia|exact U]]]]]]].
    + assert (LL : length gc = length pds) by lia. clear -Fcams LL. revert cams pds LL Fcams.
      induction gc as [|c gc IH]; intros cams [|u pds] LL F; try discriminate; cbn in F; inversion F as [|? ? ? ? Q F']; subst; [constructor|].
      destruct Q as (c0 & E & M & _). cbn in E. injection E as <-. constructor; [exact M|]. apply (IH l' pds); [cbn in LL; lia|exact F'].
    + apply Forall_forall. intros c Hc. apply In_nth_error in Hc. destruct Hc as (k & Hk). destruct (F2_nth _ _ _ Fcams k c Hk) as (x & _ & c0 & _ & _ & Rc). exact Rc.
    + assert (LL : length gp = length ps) by lia. clear -LL Fq. revert ps LL Fq. induction gp as [|p gp IH]; intros [|u ps] LL F; try discriminate; [constructor|].
      inversion F; subst. cbn [combine map fst snd]. constructor; [apply spread3_close; [lra|assumption]|]. apply IH; [cbn in LL; lia|assumption].
Qed.

(** one camera is too few: a division by zero *)
Theorem C86_one_camera_refuted : forall np avg tl fr po orr cds pds gps ps draws,
  generate_synthetic 1 np avg tl fr po orr cds pds gps ps draws = Raise ZeroDivisionError.
Proof. reflexivity. Qed.
(** unless the span of a camera covers all the points, the last point is seen by no camera *)
Theorem C86_last_point_refuted : forall nc np avg tl fr po orr cds pds gps ps draws,
  (2 <= nc)%nat -> 0 <= tl -> 0 <= fr -> 0 <= orr ->
  length cds = nc -> length pds = nc -> length gps = np -> length ps = np -> length draws = nc ->
  Forall cam_draw cds -> Forall pose_draw pds -> Forall in01_3 gps -> Forall in01_3 ps ->
  let seen := (avg * np / nc)%nat in
  let span := Nat.min (seen + Z.to_nat (Int_part (tl * INR np))) np in
  draws_ok span (Nat.min seen np) draws -> (span < np)%nat ->
  exists b p, generate_synthetic nc np avg tl fr po orr cds pds gps ps draws = Ret b /\
    nth_error (ba_pts b) (np - 1) = Some (Some p) /\ forall o, In o (ba_obs b) -> o_pt o <> Z.of_nat (np - 1).
Proof.
  intros nc np avg tl fr po orr cds pds gps ps draws Hnc Htl Hfr Horr Lc Lp Lg Lq Ld Fc Fp Fg Fq seen span Hd S.
  destruct (C86_synthetic nc np avg tl fr po orr cds pds gps ps draws Hnc Htl Hfr Horr Lc Lp Lg Lq Ld Fc Fp Fg Fq Hd)
    as (b & gc & gp & cams & pts & E & _ & _ & _ & Ep & _ & Lgp & _ & _ & _ & F & _ & _ & _ & _ & U).
  destruct (nth_error pts (np - 1)) as [p|] eqn:EN.
  - exists b, p. split; [exact E|]. split; [rewrite Ep, nth_error_map, EN; reflexivity|]. now apply U.
  - apply F2_len in F. apply nth_error_None in EN. lia.
Qed.

(** the hypotheses are met: two cameras, two points, one observation each; the span is one point *)
Lemma half_in : in01 (1 / 2). Proof. unfold in01. lra. Qed.
Example C86_synthetic_case :
  let h := 1 / 2 in let t := mkV3 h h h in let pd := mkPD h h h t in let u := mkOD (mkV2 h h) h (mkV2 h h) in
  Forall cam_draw [mkCD pd h h h; mkCD pd h h h] /\ Forall pose_draw [pd; pd] /\ Forall in01_3 [t; t] /\
  draws_ok (Nat.min (1 * 2 / 2 + Z.to_nat (Int_part (0 * INR 2))) 2) (Nat.min (1 * 2 / 2) 2) [([0%nat], [u]); ([0%nat], [u])] /\
  (Nat.min (1 * 2 / 2 + Z.to_nat (Int_part (0 * INR 2))) 2 < 2)%nat.
Proof.
  cbv zeta. pose proof half_in as H.
  assert (T : in01_3 (mkV3 (1 / 2) (1 / 2) (1 / 2))) by (split; [|split]; exact H).
  assert (P : pose_draw (mkPD (1 / 2) (1 / 2) (1 / 2) (mkV3 (1 / 2) (1 / 2) (1 / 2)))) by (split; [|split; [|split]]; assumption).
  assert (O : obs_draw (mkOD (mkV2 (1 / 2) (1 / 2)) (1 / 2) (mkV2 (1 / 2) (1 / 2)))) by (split; [split|split; [|split]]; assumption).
  assert (C : cam_draw (mkCD (mkPD (1 / 2) (1 / 2) (1 / 2) (mkV3 (1 / 2) (1 / 2) (1 / 2))) (1 / 2) (1 / 2) (1 / 2))) by (split; [|split; [|split]]; assumption).
  assert (I : Int_part (0 * INR 2) = 0%Z).
  { rewrite Rmult_0_l. unfold Int_part. assert (E : up 0 = 1%Z); [|rewrite E; reflexivity]. symmetry. apply tech_up; simpl; lra. }
  rewrite I. change (Z.to_nat 0) with 0%nat. change (Nat.min (1 * 2 / 2 + 0) 2) with 1%nat. change (Nat.min (1 * 2 / 2) 2) with 1%nat.
  split; [now constructor; [|constructor]|]. split; [now constructor; [|constructor]|]. split; [now constructor; [|constructor]|]. split; [|lia].
  assert (PM : is_perm 1 [0%nat]). { split; [constructor; [easy|constructor]|]. split; [reflexivity|]. intros x [<-|[]]. lia. }
  intros perm us [E|[E|[]]]; injection E as <- <-; (split; [exact PM|]; split; [reflexivity|now constructor]).
Qed.

(** ** the histogram *)
Lemma bucket1_bucket x : bucket1 x = bucket (x / 10).
Proof.
  unfold bucket1, bucket. replace (10 * (x / 10)) with x by field. set (k := Z.to_nat (Int_part x)). clearbody k.
  destruct (Nat.ltb_spec 10 k); lia.
Qed.
Lemma fold_bucket1 errs : forall c, fold_left (fun l x => incr (bucket1 x) l) errs c = fold_left (fun l x => incr (bucket x) l) (map (fun x => x / 10) errs) c.
Proof. induction errs as [|x errs IH]; intros c; cbn; [reflexivity|]. now rewrite bucket1_bucket, IH. Qed.
Lemma tally_map P Q errs : (forall x, P (x / 10) = Q x) -> tally P (map (fun x => x / 10) errs) = tally Q errs.
Proof.
  intros H. unfold tally. induction errs as [|x errs IH]; [reflexivity|]. cbn [map filter]. rewrite H. destruct (Q x); cbn [length]; now rewrite IH.
Qed.
(** The histogram counts every pixel error once, in buckets one pixel wide; the last takes those from 10 on. *)
Theorem C86_histogram : forall b cams pts errs, ba_cams b = map Some cams -> ba_pts b = map Some pts ->
  Forall2 (pixel_error cams pts) (ba_obs b) errs ->
  (errs = [] -> ba_histogram b = Raise ValueError) /\
  (errs <> [] -> exists counts, ba_histogram b = Ret counts /\ length counts = 11%nat /\ list_sum counts = length (ba_obs b) /\
     (forall k, (k < 10)%nat -> nth k counts 0%nat = tally (fun x => andb (le_b (INR k) x) (lt_b x (INR k + 1))) errs) /\
     nth 10 counts 0%nat = tally (fun x => le_b 10 x) errs).
Proof.
  intros b cams pts errs Ec Ep F.
  assert (Pos : forall x, In x (map (fun x => x / 10) errs) -> 0 <= x).
  { intros x Hx. apply in_map_iff in Hx. destruct Hx as (e & <- & He). apply In_nth_error in He. destruct He as (k & Hk).
    destruct (F2_nth _ _ _ F k e Hk) as (o & _ & i & j & c & p & q & f & _ & _ & _ & _ & _ & _ & ->).
    apply Rmult_le_pos; [apply sqrt_pos|lra]. }
  assert (ME : mapE (obs_error b) (ba_obs b) = Ret errs).
  { revert F. generalize (ba_obs b). intros obs F. induction F as [|o e obs errs Q F IH]; [reflexivity|]. cbn [mapE].
    rewrite IH by (intros x Hx; apply Pos; now right). clear IH.
    assert (E : obs_error b o = Ret e); [|now rewrite E].
    destruct Q as (i & j & c & p & q & f & Ei & Ej & Nc & Np & S & Ef & ->).
    unfold obs_error. rewrite Ei, Ej, Ec, Ep.
    assert (PN : forall (A : Type) (l : list A) k x, nth_error l k = Some x -> py_nth (map Some l) (Z.of_nat k) = Ret (Some x)).
    { intros A l k x H. unfold py_nth. destruct (Z.ltb_spec (Z.of_nat k) 0); [lia|]. destruct (Z.ltb_spec (Z.of_nat k) 0); [lia|].
      rewrite Nat2Z.id, nth_error_map, H. reflexivity. }
    rewrite (PN _ cams i c Nc). cbn [ebind]. rewrite (PN _ pts j p Np). cbn [ebind]. apply C86_projection in S. rewrite S, Ef. reflexivity. }
  destruct (C85_histogram (map (fun x => x / 10) errs) Pos) as [H0 H1].
  assert (HH : ba_histogram b = histogram (map (fun x => x / 10) errs)).
  { unfold ba_histogram, histogram. rewrite ME. cbn [ebind]. now rewrite fold_bucket1. }
  rewrite HH. split.
  - intros ->. apply H0. reflexivity.
  - intros NE. destruct H1 as (counts & E & L & Sm & K & K10); [now destruct errs|]. exists counts. split; [exact E|]. split; [exact L|].
    split; [rewrite Sm, map_length; symmetry; now apply F2_len in F|].
    assert (LB : forall u v, le_b (u / 10) (v / 10) = le_b u v).
    { intros u v. unfold le_b. destruct (Rle_dec (u / 10) (v / 10)), (Rle_dec u v); try reflexivity; lra. }
    assert (LT : forall u v, lt_b (u / 10) (v / 10) = lt_b u v).
    { intros u v. unfold lt_b. destruct (Rlt_dec (u / 10) (v / 10)), (Rlt_dec u v); try reflexivity; lra. }
    split.
    + intros k Hk. rewrite (K k Hk). apply tally_map. intros x. now rewrite LB, LT.
    + rewrite K10. apply tally_map. intros x. rewrite <- (LB 10 x). f_equal. field.
Qed.
(** an observation of a camera or a point that does not exist is refused *)
Theorem C86_histogram_range : forall b o rest, ba_obs b = o :: rest ->
  (Z.of_nat (length (ba_cams b)) <= o_cam o)%Z -> ba_histogram b = Raise IndexError.
Proof.
  intros b o rest E H. unfold ba_histogram. rewrite E. cbn [mapE].
  assert (P : py_nth (ba_cams b) (o_cam o) = Raise IndexError).
  { unfold py_nth. destruct (Z.ltb_spec (o_cam o) 0); [lia|]. destruct (Z.ltb_spec (o_cam o) 0); [lia|].
    destruct (nth_error (ba_cams b) (Z.to_nat (o_cam o))) eqn:N; [|reflexivity].
    assert (Z.to_nat (o_cam o) < length (ba_cams b))%nat by (apply nth_error_Some; congruence). lia. }
  unfold obs_error. rewrite P. reflexivity.
Qed.
(** a negative index counts from the end: an observation of camera -k is compared with the k-th camera from the
    end instead of being refused, and below minus the number of cameras it is refused *)
Theorem C86_negative_index : forall b o (k : nat) c p q f, ba_obs b = [o] -> o_cam o = (- Z.of_nat (S k))%Z ->
  (S k <= length (ba_cams b))%nat -> nth_error (rev (ba_cams b)) k = Some (Some c) ->
  (0 <= o_pt o)%Z -> nth_error (ba_pts b) (Z.to_nat (o_pt o)) = Some (Some p) ->
  project_point (Some c) (Some p) = Some q -> o_feat o = Some f ->
  exists counts, ba_histogram b = Ret counts /\ list_sum counts = 1%nat /\
    obs_error b o = Ret (sqrt ((a0 f - a0 q) ^ 2 + (a1 f - a1 q) ^ 2)).
Proof.
  intros b o k c p q f E Ek Lk Nc Hp Np P F.
  assert (PC : py_nth (ba_cams b) (o_cam o) = Ret (Some c)).
  { unfold py_nth. rewrite Ek. destruct (Z.ltb_spec (- Z.of_nat (S k)) 0); [|lia].
    destruct (Z.ltb_spec (- Z.of_nat (S k) + Z.of_nat (length (ba_cams b))) 0); [lia|].
    replace (Z.to_nat (- Z.of_nat (S k) + Z.of_nat (length (ba_cams b)))) with (length (ba_cams b) - S k)%nat by lia.
    assert (H1 : nth k (rev (ba_cams b)) None = nth (length (ba_cams b) - S k) (ba_cams b) None) by (apply rev_nth; lia).
    rewrite (nth_error_nth _ _ _ Nc) in H1. rewrite (nth_error_nth' _ None) by lia. now rewrite <- H1. }
  assert (PP : py_nth (ba_pts b) (o_pt o) = Ret (Some p)).
  { unfold py_nth. destruct (Z.ltb_spec (o_pt o) 0); [lia|]. destruct (Z.ltb_spec (o_pt o) 0); [lia|]. now rewrite Np. }
  assert (OE : obs_error b o = Ret (sqrt ((a0 f - a0 q) ^ 2 + (a1 f - a1 q) ^ 2))).
  { unfold obs_error. rewrite PC, PP. cbn [ebind]. now rewrite P, F. }
  unfold ba_histogram. rewrite E. cbn [mapE]. rewrite OE. cbn [ebind fold_left].
  set (x := sqrt _). assert (H : (bucket1 x <= 10)%nat) by (unfold bucket1; lia).
  destruct (bucket1 x) as [|[|[|[|[|[|[|[|[|[|[|n]]]]]]]]]]] eqn:B; try lia; eexists; (split; [cbn; reflexivity|]); (split; [reflexivity|reflexivity]).
Qed.
Theorem C86_negative_index_range : forall b o rest, ba_obs b = o :: rest ->
  (o_cam o < - Z.of_nat (length (ba_cams b)))%Z -> ba_histogram b = Raise IndexError.
Proof.
  intros b o rest E H. unfold ba_histogram. rewrite E. cbn [mapE].
  assert (P : py_nth (ba_cams b) (o_cam o) = Raise IndexError).
  { unfold py_nth. destruct (Z.ltb_spec (o_cam o) 0); [|lia]. destruct (Z.ltb_spec (o_cam o + Z.of_nat (length (ba_cams b))) 0); [reflexivity|lia]. }
  unfold obs_error. rewrite P. reflexivity.
Qed.

(** ** the soft losses *)
Lemma ln_mono x y : 0 < x -> x <= y -> ln x <= ln y.
Proof. intros H [L|<-]; [left; now apply ln_increasing|lra]. Qed.
Lemma ln_le_sub x : 0 < x -> ln x <= x - 1.
Proof. intros H. pose proof (exp_ineq1_le (ln x)) as E. rewrite exp_ln in E by exact H. lra. Qed.
(** Both losses vanish at 0, the second result is the derivative of the first, and it is positive, at most
    that at 0 and decreasing; the loss lies below its tangent at 0. The slope at 0 is 1 and 1/2. *)
Definition soft_loss (loss : R -> R -> R * R) (slope : R) : Prop := forall r, 0 < r ->
  fst (loss 0 r) = 0 /\ snd (loss 0 r) = slope /\
  (forall x, - r < x -> derivable_pt_lim (fun x => fst (loss x r)) x (snd (loss x r)) /\ 0 < snd (loss x r)) /\
  (forall x y, - r < x -> x <= y -> snd (loss y r) <= snd (loss x r)) /\
  (forall x, 0 <= x -> 0 <= fst (loss x r) <= slope * x).
Theorem C86_soft_losses : soft_loss soft_loss_cauchy 1 /\ soft_loss soft_loss_huber_like (1 / 2).
Proof.
  assert (RP : forall r x, 0 < r -> - r < x -> 0 < (x + r) / r).
  { intros r x Hr Hx. apply Rmult_lt_0_compat; [lra|now apply Rinv_0_lt_compat]. }
  assert (D : forall r x, 0 < r -> derivable_pt_lim (fun x => (x + r) / r) x (/ r)).
  { intros r x Hr. replace (/ r) with ((1 + 0) * / r) by ring.
    apply (derivable_pt_lim_scal_right (fun x => x + r) x (1 + 0) (/ r)). apply derivable_pt_lim_plus; [apply derivable_pt_lim_id|apply derivable_pt_lim_const]. }
  split; intros r Hr.
  - unfold soft_loss_cauchy. cbn [fst snd].
    assert (E0 : (0 + r) / r = 1) by (field; lra). rewrite E0, ln_1.
    split; [ring|]. split; [field|]. split; [|split].
    + intros x Hx. pose proof (RP r x Hr Hx) as P. split; [|unfold Rdiv at 1; rewrite Rmult_1_l; now apply Rinv_0_lt_compat].
      replace (1 / ((x + r) / r)) with ((/ ((x + r) / r) * / r) * r) by (field; split; lra).
      apply (derivable_pt_lim_scal_right (fun x => ln ((x + r) / r)) x _ r).
      apply (derivable_pt_lim_comp (fun x => (x + r) / r) ln); [now apply D|]. now apply derivable_pt_lim_ln.
    + intros x y Hx Hy. pose proof (RP r x Hr Hx). unfold Rdiv at 1 3. rewrite !Rmult_1_l. apply Rinv_le_contravar; [assumption|].
      apply Rmult_le_compat_r; [left; now apply Rinv_0_lt_compat|lra].
    + intros x Hx. pose proof (RP r x Hr ltac:(lra)) as P. split.
      * apply Rmult_le_pos; [|lra]. rewrite <- ln_1. apply ln_mono; [lra|].
        apply (Rmult_le_reg_r r); [lra|]. replace ((x + r) / r * r) with (x + r) by (field; lra). lra.
      * pose proof (ln_le_sub _ P) as L. assert (E : (x + r) / r - 1 = x / r) by (field; lra). rewrite E in L.
        apply (Rmult_le_compat_r r) in L; [|lra]. replace (x / r * r) with x in L by (field; lra). lra.
  - unfold soft_loss_huber_like. cbn [fst snd].
    assert (E0 : (0 + r) / r = 1) by (field; lra). rewrite E0, sqrt_1.
    split; [ring|]. split; [field|]. split; [|split].
    + intros x Hx. pose proof (RP r x Hr Hx) as P. pose proof (sqrt_lt_R0 _ P) as SP.
      split; [|apply Rmult_lt_0_compat; [lra|now apply Rinv_0_lt_compat]].
      replace (1 / 2 / sqrt ((x + r) / r)) with (((/ (2 * sqrt ((x + r) / r))) * / r - 0) * r) by (field; split; lra).
      apply (derivable_pt_lim_scal_right (fun x => sqrt ((x + r) / r) - 1) x _ r).
      apply (derivable_pt_lim_minus (fun x => sqrt ((x + r) / r)) (fun _ => 1)); [|apply derivable_pt_lim_const].
      apply (derivable_pt_lim_comp (fun x => (x + r) / r) sqrt); [now apply D|]. now apply derivable_pt_lim_sqrt.
    + intros x y Hx Hy. pose proof (RP r x Hr Hx). apply Rmult_le_compat_l; [lra|]. apply Rinv_le_contravar; [now apply sqrt_lt_R0|].
      apply sqrt_le_1_alt. apply Rmult_le_compat_r; [left; now apply Rinv_0_lt_compat|lra].
    + intros x Hx. pose proof (RP r x Hr ltac:(lra)) as P. set (q := (x + r) / r) in *.
      assert (Q : x = (q - 1) * r) by (unfold q; field; lra).
      assert (Q1 : 1 <= q) by nra. pose proof (sqrt_sqrt q ltac:(lra)) as SS.
      assert (S1 : 1 <= sqrt q) by (rewrite <- sqrt_1; apply sqrt_le_1_alt; lra).
      split; [apply Rmult_le_pos; lra|]. rewrite Q. set (s := sqrt q) in *. clearbody s q.
      assert (s - 1 <= 1 / 2 * (q - 1)) by nra. nra.
Qed.
