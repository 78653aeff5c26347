(** C85, theorems *)
From Coq Require Import Reals Lra Psatz List Arith Lia Bool ZArith.
From Verif Require Import Geo_spec Geo3_spec Geo4_spec SE2_model SO3_model SO3_group SE3_model SE3_group SE3_exp
  G2o_model G2o_spec G2o_data Syn_model Syn_spec Syn_props.
Import ListNotations.
Local Open Scope R_scope.

(** Whatever numbers are drawn, a synthetic dataset has the requested number of poses and ground-truth
    poses, starts at the identity, every pose is its ground truth up to the noise levels, every edge
    joins two different poses and measures their relative ground-truth pose (up to the noise levels if
    the returned flag says inlier), no pair is joined twice, and consecutive poses are joined by inliers. *)
Theorem C85_synthetic : forall d tn rn N B rs fin, tn <> 0 -> rn <> 0 -> B <> 0%Z ->
  rounds_ok N 1 rs -> List.length fin = S (List.length rs) -> Forall draw fin ->
  exists ds inliers gt, generate_synthetic_3D d tn rn N B rs fin = Ret (Some (ds, inliers)) /\
    ds_gt ds = Some gt /\ ds_size ds = N /\ ds_batch ds = B /\
    List.length (ds_poses ds) = S (List.length rs) /\ List.length gt = S (List.length rs) /\
    (forall g, In g gt -> List.length g = N /\ Forall rigid3 g) /\
    nth_error gt 0 = Some (repeat (mkRig I3 zero3) N) /\
    Forall2 (fun p g => exists v h, within tn rn v /\ se3_exp d v = Some h /\ p = map (fun x => se3_compose x h) g) (ds_poses ds) gt /\
    Forall2 (edge_good d tn rn N gt) (ds_edges ds) inliers /\
    NoDup (map (fun e => (de_i e, de_j e)) (ds_edges ds)) /\
    (forall k, (1 <= k <= List.length rs)%nat -> exists p e, nth_error (ds_edges ds) p = Some e /\ nth_error inliers p = Some true /\
       de_i e = Z.of_nat (k - 1) /\ de_j e = Z.of_nat k).
Proof.
  intros d tn rn N B rs fin Ht Hr HB HR Lf Df. unfold generate_synthetic_3D.
  destruct (Req_EM_T tn 0); [easy|]. destruct (Req_EM_T rn 0); [easy|].
  destruct (rounds_run d tn rn N rs 1 (mkG [repeat (mkRig I3 zero3) N] [] [])) as (s & E & [I1 I2 I3' I4 I5 I6]); [lia| |exact HR|].
  { constructor; cbn; try reflexivity; try constructor.
    - destruct H as [<-|[]]. now rewrite repeat_length.
    - destruct H as [<-|[]]. apply Forall_forall. intros x Hx. apply repeat_spec in Hx. subst x. apply rig_id.
    - intros k Hk. lia. }
  rewrite E. 
  assert (X : forall gts fs, List.length fs = List.length gts -> Forall draw fs ->
    exists ps, mapO (fun p => do h <- se3_exp d (noise_twist tn rn (snd p)); Some (compose_batch (fst p) [h])) (combine gts fs) = Some ps /\
      Forall2 (fun p g => exists v h, within tn rn v /\ se3_exp d v = Some h /\ p = map (fun x => se3_compose x h) g) ps gts).
  { induction gts as [|g gts IH]; intros [|f fs] L F; try discriminate L; cbn [combine mapO]; [exists []; split; [reflexivity|constructor]|].
    inversion F as [|? ? F1 F2]; subst. destruct (IH fs ltac:(cbn in L; lia) F2) as (ps & Ep & Fp).
    destruct (C37_exp_rigid d (noise_twist tn rn f)) as (h & Eh & Rh & _). cbn [snd fst]. rewrite Eh. cbv beta iota delta [bind].
    unfold bind in Ep. rewrite Ep. exists (compose_batch g [h] :: ps). split; [reflexivity|]. constructor; [|exact Fp].
    exists (noise_twist tn rn f), h. split; [now apply noise_within|]. split; [exact Eh|reflexivity]. }
  destruct (X (g_gt s) fin) as (ps & Ep & Fp); [rewrite I1; lia|exact Df|]. rewrite Ep.
  pose proof (F2_len _ _ _ Fp) as Lp.
  assert (M : make_dataset ps (g_edges s) (Some (g_gt s)) B = Ret (mkD ps (g_edges s) (Some (g_gt s)) B N (Z.div (Z.of_nat N - 1) B + 1))).
  { apply (proj2 (proj1 (C84_dataset _ _ ps (g_edges s) (Some (g_gt s)) B) _)). exists N.
    split; [left; intros ->; cbn in Lp; lia|]. split; [|split; [exact HB|split; [|reflexivity]]].
    - split; [|split].
      + intros p Hp. assert (Q : exists g, In g (g_gt s) /\ List.length p = List.length g).
        { clear - Fp Hp. induction Fp as [|p' g ps gts (v & h & _ & _ & ->) F IH]; [easy|]. destruct Hp as [<-|Hp].
          - exists g. split; [now left|apply map_length].
          - destruct (IH Hp) as (g' & Hg & L). exists g'. split; [now right|exact L]. }
        destruct Q as (g & Hg & ->). now apply I2.
      + intros g p Eg Hp. injection Eg as <-. now apply I2.
      + intros e He. destruct (Forall2_In_l' _ _ _ _ I4 He) as (b & (i & j & gi & gj & _ & _ & _ & _ & _ & L & _)). exact L.
    - intros e He. destruct (Forall2_In_l' _ _ _ _ I4 He) as (b & (i & j & gi & gj & _ & _ & _ & _ & _ & _ & _ & _ & W)). rewrite W. discriminate. }
  rewrite M. cbn [ebind]. do 3 eexists. split; [reflexivity|]. cbn [ds_gt ds_size ds_batch ds_poses ds_edges].
  split; [reflexivity|]. split; [reflexivity|]. split; [reflexivity|]. split; [lia|]. split; [lia|]. split; [exact I2|].
  split; [exact I3'|]. split; [exact Fp|]. split; [exact I4|]. split; [exact I5|]. intros k Hk. apply I6. lia.
Qed.

(** with a noise level of zero nothing is generated *)
Theorem C85_zero_noise_refuted : forall d tn rn N B rs fin, tn = 0 \/ rn = 0 ->
  generate_synthetic_3D d tn rn N B rs fin = Raise ZeroDivisionError.
Proof.
  intros d tn rn N B rs fin H. unfold generate_synthetic_3D. destruct (Req_EM_T tn 0); [reflexivity|].
  destruct (Req_EM_T rn 0); [reflexivity|]. now destruct H.
Qed.

Lemma incr_nth k l j : nth j (incr k l) 0%nat = (nth j l 0 + if (j =? k)%nat && (k <? List.length l)%nat then 1 else 0)%nat.
Proof.
  revert k j. induction l as [|x l IH]; intros k j; cbn [incr].
  - cbn [List.length]. destruct (Nat.ltb_spec k 0); [lia|]. rewrite Bool.andb_false_r. destruct k, j; reflexivity.
  - destruct k as [|k], j as [|j].
    + cbn. lia.
    + cbn. lia.
    + cbn. lia.
    + cbn [nth Nat.eqb incr List.length]. apply IH.
Qed.
Lemma incr_len k l : List.length (incr k l) = List.length l.
Proof. revert k. induction l as [|x l IH]; intros [|k]; cbn; try reflexivity. now rewrite IH. Qed.
Lemma incr_sum k l : (k < List.length l)%nat -> list_sum (incr k l) = S (list_sum l).
Proof. revert k. induction l as [|x l IH]; intros [|k] H; cbn in *; try lia. unfold list_sum in *. rewrite IH; lia. Qed.

(** the bucket of an error: tenths, and everything from 1 on in the last *)
Lemma bucket_spec x : 0 <= x -> (bucket x <= 10)%nat /\
  forall k, (k < 10)%nat -> (bucket x = k <-> INR k / 10 <= x < (INR k + 1) / 10).
Proof.
  intros Hx. unfold bucket. destruct (base_Int_part (10 * x)) as [B1 B2]. set (z := Int_part (10 * x)) in *.
  assert (Hz : (0 <= z)%Z). { apply Z.lt_pred_le. apply lt_IZR. change (Z.pred 0) with (-1)%Z. lra. }
  destruct (Nat.ltb_spec 10 (Z.to_nat z)) as [C|C].
  - split; [lia|]. intros k Hk. split; [lia|]. intros [K1 K2]. exfalso.
    assert (IZR 11 <= IZR z) by (apply IZR_le; lia).
    assert (INR k + 1 <= 10). { replace 10 with (INR 10) by (rewrite INR_IZR_INZ; reflexivity). rewrite <- S_INR. apply le_INR. lia. }
    lra.
  - split; [exact C|]. intros k Hk. split.
    + intros <-. rewrite INR_IZR_INZ, Z2Nat.id by exact Hz. lra.
    + intros [K1 K2]. apply Nat2Z.inj. rewrite Z2Nat.id by exact Hz.
      assert (IZR z < IZR (Z.of_nat k + 1)). { rewrite plus_IZR, <- INR_IZR_INZ. lra. }
      assert (IZR (Z.of_nat k - 1) < IZR z). { rewrite minus_IZR, <- INR_IZR_INZ. lra. }
      apply lt_IZR in H. apply lt_IZR in H0. lia.
Qed.

Lemma archimed_bucket x : 0 <= x -> x < 1 -> exists k, (k < 10)%nat /\ INR k / 10 <= x < (INR k + 1) / 10.
Proof.
  intros Hx H1. destruct (base_Int_part (10 * x)) as [B1 B2]. set (z := Int_part (10 * x)) in *.
  assert (Hz : (0 <= z)%Z). { apply Z.lt_pred_le. apply lt_IZR. change (Z.pred 0) with (-1)%Z. lra. }
  assert (Hz2 : (z < 10)%Z) by (apply lt_IZR; lra).
  exists (Z.to_nat z). split; [lia|]. rewrite INR_IZR_INZ, Z2Nat.id by exact Hz. lra.
Qed.

Definition tally (P : R -> bool) (errs : list R) : nat := List.length (filter P errs).
(** The histogram counts every error exactly once: bucket k < 10 the errors in [k/10, (k+1)/10), bucket
    10 those from 1 on; without any error it raises. *)
Theorem C85_histogram : forall errs, (forall x, In x errs -> 0 <= x) ->
  (errs = [] -> histogram errs = Raise ValueError) /\
  (errs <> [] -> exists counts, histogram errs = Ret counts /\ List.length counts = 11%nat /\
     list_sum counts = List.length errs /\
     (forall k, (k < 10)%nat -> nth k counts 0%nat = tally (fun x => andb (le_b (INR k / 10) x) (lt_b x ((INR k + 1) / 10))) errs) /\
     nth 10 counts 0%nat = tally (fun x => le_b 1 x) errs).
Proof.
  intros errs Hp.
  assert (G : forall c, List.length c = 11%nat ->
    let r := fold_left (fun l x => incr (bucket x) l) errs c in
    List.length r = 11%nat /\ list_sum r = (list_sum c + List.length errs)%nat /\
    forall k, (k <= 10)%nat -> nth k r 0%nat = (nth k c 0 + tally (fun x => (bucket x =? k)%nat) errs)%nat).
  { revert Hp. unfold tally. induction errs as [|x errs IH]; intros Hp c L; cbn [fold_left filter List.length]; cbv zeta; [repeat split; intros; lia|].
    destruct (bucket_spec x (Hp x (or_introl eq_refl))) as [Bx _].
    destruct (IH (fun y Hy => Hp y (or_intror Hy)) (incr (bucket x) c)) as (A1 & A2 & A3); [now rewrite incr_len|].
    split; [exact A1|]. split; [rewrite A2, incr_sum; lia|]. intros k Hk. rewrite (A3 k Hk), incr_nth, L.
    destruct (Nat.ltb_spec (bucket x) 11); [|lia]. rewrite Bool.andb_true_r, (Nat.eqb_sym k). destruct (bucket x =? k)%nat; cbn [List.length]; lia. }
  destruct (G (repeat 0%nat 11) (repeat_length _ _)) as (A1 & A2 & A3). cbv zeta in *.
  assert (S0 : list_sum (repeat 0%nat 11) = 0%nat) by reflexivity. rewrite S0 in A2. cbn [Nat.add] in A2.
  unfold histogram. set (r := fold_left (fun l x => incr (bucket x) l) errs (repeat 0%nat 11)) in *. clearbody r. split.
  - intros ->. cbn in A2. assert (Z : forall l, list_sum l = 0%nat -> forallb (Nat.eqb 0) l = true).
    { induction l as [|a l IH]; intros H; [reflexivity|]. cbn in H. destruct a; [|lia]. cbn. apply IH. exact H. }
    rewrite (Z r A2). reflexivity.
  - intros NE. exists r. split; [|split; [exact A1|split; [exact A2|split]]].
    + assert (Z : forall l, forallb (Nat.eqb 0) l = true -> list_sum l = 0%nat).
      { induction l as [|a l IH]; intros H; [reflexivity|]. cbn in H. destruct a; [|discriminate]. cbn. apply IH. exact H. }
      destruct (forallb (Nat.eqb 0) r) eqn:E; [|reflexivity]. apply Z in E. rewrite E in A2. destruct errs; [easy|discriminate].
    + intros k Hk. rewrite (A3 k ltac:(lia)).
      assert (R0 : nth k (repeat 0%nat 11) 0%nat = 0%nat) by (do 11 (destruct k as [|k]; [reflexivity|]); lia). rewrite R0. cbn [Nat.add].
      unfold tally. f_equal. apply filter_ext_in. intros x Hx. destruct (bucket_spec x (Hp x Hx)) as [_ Bk]. specialize (Bk k Hk).
      unfold le_b, lt_b. destruct (Nat.eqb_spec (bucket x) k) as [Eb|Eb].
      * apply Bk in Eb. destruct (Rle_dec (INR k / 10) x); [|lra]. destruct (Rlt_dec x ((INR k + 1) / 10)); [reflexivity|lra].
      * destruct (Rle_dec (INR k / 10) x); [|reflexivity]. destruct (Rlt_dec x ((INR k + 1) / 10)); [|reflexivity].
        exfalso. apply Eb, Bk. lra.
    + rewrite (A3 10%nat ltac:(lia)). cbn [repeat nth Nat.add]. unfold tally. f_equal. apply filter_ext_in. intros x Hx.
      destruct (bucket_spec x (Hp x Hx)) as [B0 Bk]. unfold le_b. destruct (Nat.eqb_spec (bucket x) 10) as [Eb|Eb].
      * destruct (Rle_dec 1 x); [reflexivity|]. exfalso.
        destruct (archimed_bucket x (Hp x Hx)) as (k & Hk & K); [lra|]. apply Bk in K; [lia|exact Hk].
      * destruct (Rle_dec 1 x); [|reflexivity]. exfalso. destruct (proj1 (Bk (bucket x) ltac:(lia)) eq_refl) as [_ K].
        assert (INR (bucket x) + 1 <= 10). { replace 10 with (INR 10) by (rewrite INR_IZR_INZ; reflexivity). rewrite <- S_INR. apply le_INR. lia. }
        lra.
Qed.

(** the hypotheses above are met: three poses with a loop closure that is an outlier *)
Example synthetic_case : exists rs fin, rounds_ok 1 1 rs /\ List.length fin = S (List.length rs) /\ Forall draw fin /\
  exists r, nth_error rs 1 = Some r /\ ro_loops r = [(0%nat, inr [mkRig I3 zero3])].
Proof.
  set (u := mkTw zero3 zero3).
  assert (Du : draw u) by (unfold draw, u, in01, zero3; cbn; lra).
  exists [mkRound [u] [u] []; mkRound [u] [u] [(0%nat, inr [mkRig I3 zero3])]], [u; u; u].
  assert (D1 : Forall draw [u]) by (constructor; [exact Du|constructor]).
  split; [|split; [reflexivity|split; [do 3 (constructor; [exact Du|]); constructor|eexists; split; reflexivity]]].
  intros k r Hk. destruct k as [|[|k]]; cbn in Hk.
  - injection Hk as <-. split; [reflexivity|]. split; [reflexivity|]. split; [exact D1|]. split; [exact D1|]. split; constructor.
  - injection Hk as <-. split; [reflexivity|]. split; [reflexivity|]. split; [exact D1|]. split; [exact D1|].
    split; [|cbn; constructor; [easy|constructor]]. constructor; [|constructor]. split; [cbn; lia|]. cbn. split; [reflexivity|].
    constructor; [apply rig_id|constructor].
  - now destruct k.
Qed.
