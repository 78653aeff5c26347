(** C84, theorems: datasets and their batches *)
From Coq Require Import Reals Lra Psatz List Arith Lia Bool ZArith String Sorted.
From Verif Require Import Geo_spec Geo3_spec Geo4_spec SE2_model SO3_model SE3_model G2o_model G2o_spec G2o_props G2o_main G2o_batch.
Import ListNotations.
Local Open Scope R_scope.

Lemma nodup_single l n : nodup Nat.eq_dec l = [n] <-> l <> [] /\ forall x, In x l -> x = n.
Proof.
  split.
  - intros H. split; [intros ->; discriminate|]. intros x Hx. apply (nodup_In Nat.eq_dec) in Hx. rewrite H in Hx. now destruct Hx.
  - intros [N H]. pose proof (NoDup_nodup Nat.eq_dec l) as D.
    assert (I : forall x, In x (nodup Nat.eq_dec l) -> x = n) by (intros x Hx; apply H; now apply nodup_In in Hx).
    assert (J : nodup Nat.eq_dec l <> []).
    { intros E. destruct l as [|a l]; [easy|]. assert (Ha : In a (nodup Nat.eq_dec (a :: l))) by (apply nodup_In; now left).
      now rewrite E in Ha. }
    destruct (nodup Nat.eq_dec l) as [|a [|b m]]; [easy| |].
    + now rewrite (I a (or_introl eq_refl)).
    + exfalso. inversion D as [|? ? D1 D2]; subst. apply D1. rewrite (I a (or_introl eq_refl)), (I b (or_intror (or_introl eq_refl))). now left.
Qed.

(** every tensor of the data has [n] batch elements *)
Definition uniform {A W} (poses : list (list A)) (edges : list (DEdge A W)) (gt : option (list (list A))) (n : nat) : Prop :=
  (forall p, In p poses -> List.length p = n) /\
  (forall g p, gt = Some g -> In p g -> List.length p = n) /\
  (forall e, In e edges -> List.length (de_rel e) = n).
Lemma sizes_uniform {A W} (poses : list (list A)) (edges : list (DEdge A W)) gt n :
  (forall x, In x (dataset_sizes poses edges gt) -> x = n) <-> uniform poses edges gt n.
Proof.
  unfold dataset_sizes, uniform. split.
  - intros H. split; [|split].
    + intros p Hp. apply H. apply in_or_app. left. now apply in_map.
    + intros g p -> Hp. apply H. apply in_or_app. right. apply in_or_app. left. now apply in_map.
    + intros e He. apply H. apply in_or_app. right. apply in_or_app. right. now apply (in_map (fun e => List.length (de_rel e))).
  - intros (H1 & H2 & H3) x Hx. apply in_app_or in Hx. destruct Hx as [Hx|Hx]; [|apply in_app_or in Hx; destruct Hx as [Hx|Hx]].
    + apply in_map_iff in Hx. destruct Hx as (p & <- & Hp). now apply H1.
    + destruct gt as [g|]; [|easy]. apply in_map_iff in Hx. destruct Hx as (p & <- & Hp). now apply (H2 g).
    + apply in_map_iff in Hx. destruct Hx as (e & <- & He). now apply H3.
Qed.

(** A dataset is built exactly when there is data, all of it has the same number of batch elements, the
    batch size is not zero and every edge has a weight; an edge without a weight, the default of
    PoseGraphEdge, is refused with an AttributeError. *)
Theorem C84_dataset : forall A W (poses : list (list A)) (edges : list (DEdge A W)) gt B,
  (forall d, make_dataset poses edges gt B = Ret d <->
     exists n, (poses <> [] \/ edges <> [] \/ exists g, gt = Some g /\ g <> []) /\ uniform poses edges gt n /\ B <> 0%Z /\
       (forall e, In e edges -> de_weight e <> None) /\
       d = mkD poses edges gt B n (Z.div (Z.of_nat n - 1) B + 1)) /\
  (forall e n, In e edges -> de_weight e = None -> uniform poses edges gt n -> B <> 0%Z ->
     make_dataset poses edges gt B = Raise AttributeError).
Proof.
  intros A W poses edges gt B.
  assert (NE : dataset_sizes poses edges gt <> [] <-> (poses <> [] \/ edges <> [] \/ exists g, gt = Some g /\ g <> [])).
  { unfold dataset_sizes. split.
    - intros H. destruct poses as [|p poses]; [|left; discriminate]. destruct edges as [|e edges]; [|right; left; discriminate].
      right; right. destruct gt as [[|g gt]|]; [now cbn in H| |now cbn in H]. eexists. split; [reflexivity|discriminate].
    - intros [H|[H|(g & -> & H)]] E; apply app_eq_nil in E; destruct E as [E1 E2]; apply app_eq_nil in E2; destruct E2 as [E2 E3].
      + apply map_eq_nil in E1. easy.
      + apply map_eq_nil in E3. easy.
      + apply map_eq_nil in E2. easy. }
  assert (FB : forallb (fun e => match de_weight e with Some _ => true | None => false end) edges = true <->
               forall e, In e edges -> de_weight e <> None).
  { rewrite forallb_forall. split; intros H e He; specialize (H e He); destruct (de_weight e); easy. }
  unfold make_dataset. split.
  - intros d. split.
    + intros H. destruct (nodup Nat.eq_dec (dataset_sizes poses edges gt)) as [|n [|b m]] eqn:En; try discriminate.
      destruct (Z.eqb_spec B 0); [discriminate|].
      destruct (forallb _ edges) eqn:Ef; [|discriminate]. injection H as <-.
      apply nodup_single in En. destruct En as [En1 En2]. exists n.
      split; [now apply NE|]. split; [now apply sizes_uniform|]. split; [easy|]. split; [now apply FB|reflexivity].
    + intros (n & D & U & HB & Hw & ->).
      assert (En : nodup Nat.eq_dec (dataset_sizes poses edges gt) = [n]).
      { apply nodup_single. split; [now apply NE|now apply sizes_uniform]. }
      rewrite En. destruct (Z.eqb_spec B 0); [easy|]. rewrite (proj2 FB Hw). reflexivity.
  - intros e n He Hn U HB.
    assert (En : nodup Nat.eq_dec (dataset_sizes poses edges gt) = [n]).
    { apply nodup_single. split; [apply NE; right; left; now destruct edges|now apply sizes_uniform]. }
    rewrite En. destruct (Z.eqb_spec B 0); [easy|].
    destruct (forallb _ edges) eqn:Ef; [|reflexivity]. now destruct (proj1 FB eq_refl e He).
Qed.

Lemma py_slice_pos {A} (l : list A) k B n : List.length l = n -> (1 <= B)%Z -> (0 <= k)%Z ->
  py_slice l (k * B) (Z.min (k * B + B) (Z.of_nat n)) = firstn (Z.to_nat B) (skipn (Z.to_nat (k * B)) l).
Proof.
  intros L HB Hk. unfold py_slice, py_index. rewrite L.
  assert (P : (0 <= k * B)%Z) by nia.
  destruct (Z.ltb_spec (k * B) 0); [lia|]. destruct (Z.ltb_spec (Z.min (k * B + B) (Z.of_nat n)) 0); [lia|].
  set (s := (k * B)%Z) in *. clearbody s.
  destruct (Z.le_gt_cases (Z.of_nat n) s) as [C|C].
  - rewrite (Z.min_l (Z.of_nat n) s) by lia. rewrite !Z.min_l by lia. rewrite Nat2Z.id, Nat.sub_diag. cbn [firstn].
    rewrite skipn_all2 by lia. now rewrite firstn_nil.
  - rewrite (Z.min_r (Z.of_nat n) s) by lia.
    rewrite <- (firstn_all2 (n := Z.to_nat B) (firstn (Z.to_nat (Z.min (Z.of_nat n) (Z.min (s + B) (Z.of_nat n))) - Z.to_nat s) (skipn (Z.to_nat s) l))).
    + rewrite firstn_firstn.
      destruct (Z.le_gt_cases (s + B) (Z.of_nat n)) as [D|D].
      * f_equal. lia.
      * rewrite (firstn_all2 (n := Nat.min _ _)) by (rewrite skipn_length, L; lia). rewrite firstn_all2 by (rewrite skipn_length, L; lia). reflexivity.
    + rewrite firstn_length, skipn_length, L. lia.
Qed.

Lemma skipn_twice {A} a b (l : list A) : skipn a (skipn b l) = skipn (b + a) l.
Proof. revert l. induction b as [|b IH]; intros l; cbn [skipn Nat.add]; [reflexivity|]. destruct l; [now rewrite skipn_nil|]. apply IH. Qed.
Lemma concat_slices {A} (B m : nat) (l : list A) : (List.length l <= m * B)%nat ->
  List.concat (map (fun k => firstn B (skipn (k * B) l)) (seq 0 m)) = l.
Proof.
  revert l. induction m as [|m IH]; intros l L.
  - cbn. destruct l; [reflexivity|cbn in L; lia].
  - cbn [seq map List.concat]. change (0 * B)%nat with 0%nat. cbn [skipn]. rewrite <- seq_shift, map_map.
    rewrite (map_ext (fun k => firstn B (skipn (S k * B) l)) (fun k => firstn B (skipn (k * B) (skipn B l)))).
    + rewrite IH; [apply firstn_skipn|]. rewrite skipn_length. cbn [Nat.mul] in L. lia.
    + intros k. rewrite skipn_twice. reflexivity.
Qed.

(** batch k of a tensor: elements kB .. kB + B - 1, as far as they exist *)
Definition part {A} (B k : nat) (l : list A) : list A := firstn B (skipn (k * B) l).

(** The batches of a dataset: there are ceil(n / B) of them, batch k holds elements kB .. kB + B - 1 of
    every pose, ground truth and relative pose, none is empty or larger than B, later indices are refused,
    and together the batches are the dataset. *)
Theorem C84_batches : forall A W (poses : list (list A)) (edges : list (DEdge A W)) gt (B : nat) d,
  (1 <= B)%nat -> make_dataset poses edges gt (Z.of_nat B) = Ret d -> (1 <= ds_size d)%nat ->
  exists m : nat, ds_num d = Z.of_nat m /\ (ds_size d <= m * B)%nat /\ ((m - 1) * B < ds_size d)%nat /\
  (forall k, (Z.of_nat m <= k)%Z -> get_batch_dataset d k = Raise AssertionError) /\
  (forall l : list A, List.length l = ds_size d -> List.concat (map (fun k => part B k l) (seq 0 m)) = l) /\
  (poses <> [] -> forall k, (k < m)%nat -> exists d', get_batch_dataset d (Z.of_nat k) = Ret d' /\
     ds_poses d' = map (part B k) poses /\
     ds_gt d' = option_map (map (part B k)) gt /\
     Forall2 (fun e e' => de_i e' = de_i e /\ de_j e' = de_j e /\ de_rel e' = part B k (de_rel e) /\ de_weight e' = de_weight e)
       edges (ds_edges d') /\
     ds_size d' = Nat.min B (ds_size d - k * B) /\ (1 <= ds_size d' <= B)%nat /\ ds_num d' = 1%Z).
Proof.
  intros A W poses edges gt B d HB E HN. destruct (C84_dataset A W poses edges gt (Z.of_nat B)) as [DS _].
  apply DS in E. destruct E as (n & D & (U1 & U2 & U3) & HB0 & Hw & ->). cbn [ds_size ds_num] in *.
  set (q := ((Z.of_nat n - 1) / Z.of_nat B)%Z).
  assert (Q : (0 <= q)%Z) by (unfold q; apply Z.div_pos; lia).
  pose proof (Z.div_mod (Z.of_nat n - 1) (Z.of_nat B) ltac:(lia)) as DM. fold q in DM.
  pose proof (Z.mod_pos_bound (Z.of_nat n - 1) (Z.of_nat B) ltac:(lia)) as MB.
  exists (Z.to_nat (q + 1)).
  assert (M1 : (n <= Z.to_nat (q + 1) * B)%nat) by nia.
  assert (M2 : ((Z.to_nat (q + 1) - 1) * B < n)%nat) by nia.
  split; [lia|]. split; [exact M1|]. split; [exact M2|]. split; [|split].
  - intros k Hk. unfold get_batch_dataset. cbn [ds_num]. destruct (Z.ltb_spec k (q + 1)); [lia|reflexivity].
  - intros l L. unfold part. apply concat_slices. now rewrite L.
  - intros NP k Hk. unfold get_batch_dataset. cbn [ds_num ds_batch ds_size ds_poses ds_gt ds_edges].
    destruct (Z.ltb_spec (Z.of_nat k) (q + 1)) as [_|C]; [|lia].
    assert (SL : forall l : list A, List.length l = n ->
      py_slice l (Z.of_nat k * Z.of_nat B) (Z.min (Z.of_nat k * Z.of_nat B + Z.of_nat B) (Z.of_nat n)) = part B k l).
    { intros l L. rewrite py_slice_pos by (try exact L; lia). unfold part. f_equal; [lia|]. f_equal. lia. }
    assert (KB : (k * B < n)%nat) by nia.
    assert (PL : forall l : list A, List.length l = n -> List.length (part B k l) = Nat.min B (n - k * B)).
    { intros l L. unfold part. rewrite firstn_length, skipn_length, L. reflexivity. }
    set (st := (Z.of_nat k * Z.of_nat B)%Z) in *. set (sp := Z.min (st + Z.of_nat B) (Z.of_nat n)) in *.
    assert (EP : map (fun p => py_slice p st sp) poses = map (part B k) poses).
    { apply map_ext_in. intros p Hp. apply SL. now apply U1. }
    assert (EG : match gt with Some g => Some (map (fun p => py_slice p st sp) g) | None => None end = option_map (map (part B k)) gt).
    { destruct gt as [g|]; [|reflexivity]. cbn. f_equal. apply map_ext_in. intros p Hp. apply SL. now apply (U2 g). }
    assert (EE : map (fun e => mkDE (de_i e) (de_j e) (py_slice (de_rel e) st sp) (de_weight e)) edges
               = map (fun e => mkDE (de_i e) (de_j e) (part B k (de_rel e)) (de_weight e)) edges).
    { apply map_ext_in. intros e He. f_equal. apply SL. now apply U3. }
    rewrite EP, EG, EE. destruct poses as [|p0 poses]; [easy|].
    set (n' := Nat.min B (n - k * B)).
    eexists. split.
    + apply (proj2 (proj1 (C84_dataset A W _ _ _ _) _)). exists n'. split; [left; discriminate|]. split; [|split; [exact HB0|split; [|reflexivity]]].
      * split; [|split].
        -- intros p Hp. apply in_map_iff in Hp. destruct Hp as (p' & <- & Hp). apply PL. now apply U1.
        -- intros g p Eg Hp. destruct gt as [g0|]; [|discriminate]. injection Eg as <-. apply in_map_iff in Hp.
           destruct Hp as (p' & <- & Hp). apply PL. now apply (U2 g0).
        -- intros e He. apply in_map_iff in He. destruct He as (e' & <- & He). cbn [de_rel]. apply PL. now apply U3.
      * intros e He. apply in_map_iff in He. destruct He as (e' & <- & He). cbn [de_weight]. now apply Hw.
    + cbn [ds_poses ds_gt ds_edges ds_size ds_num]. split; [reflexivity|]. split; [reflexivity|]. split; [|split; [reflexivity|split]].
      * clear. induction edges as [|e edges IH]; cbn [map]; constructor; [|exact IH]. cbn. repeat split.
      * unfold n'. lia.
      * unfold n'. rewrite Z.div_small; lia.
Qed.

(** A negative index is not refused: of five graphs in batches of two, "batch -2" is the pair of elements
    1 and 2, which is none of the batches. *)
Theorem C84_negative_batch_refuted : exists (d d' : Dataset nat unit),
  make_dataset [[0; 1; 2; 3; 4]%nat] [] None 2 = Ret d /\ get_batch_dataset d (-2) = Ret d' /\
  ds_poses d' = [[1; 2]%nat] /\ forall k, ds_poses d' <> [part 2 k [0; 1; 2; 3; 4]%nat].
Proof.
  do 2 eexists. split; [reflexivity|]. split; [reflexivity|]. cbn. split; [reflexivity|].
  intros [|[|[|k]]]; cbn; discriminate.
Qed.

(** Weights with a row for each graph (accepted by the constructor) are not cut into batches: the second
    batch keeps the rows of all graphs, so that row 0 of the weight is the one of another graph; and the
    writer writes row 0 for every graph. *)
Theorem C84_weights_refuted :
  (exists (d d' : Dataset nat nat) e e', make_dataset [[0; 1]%nat] [e] None 1 = Ret d /\
     List.length (de_rel e) = 2%nat /\ de_weight e = Some [10; 11]%nat /\
     get_batch_dataset d 1 = Ret d' /\ ds_edges d' = [e'] /\
     de_rel e' = [1]%nat /\ de_weight e' = Some [10; 11]%nat /\ de_weight e' <> Some [11]%nat) /\
  (exists dt ds e w0 w1, writable dt ds 0 /\ writable dt ds 1 /\ ds_edges ds = [e] /\ de_weight e = Some [w0; w1] /\
     (exists p, List.length (de_rel e) = 2%nat /\ In p (ds_poses ds) /\ List.length p = 2%nat) /\
     forall ls num vs e', write_3D_g2o dt ds 1 = Ret ls -> read_3D_g2o_file ls = Ret (num, vs, [e']) ->
       e_weight e' <> map (fun w => Some (Rabs w)) w1).
Proof.
  split.
  - eexists. eexists. exists (mkDE 0 0 [0; 1]%nat (Some [10; 11]%nat)). eexists. split; [reflexivity|]. split; [reflexivity|].
    split; [reflexivity|]. split; [reflexivity|]. split; [reflexivity|]. split; [reflexivity|]. split; [reflexivity|discriminate].
  - set (I := mkRig I3 zero3).
    set (e := mkDE 0 0 [I; I] (Some [[1; 1; 1; 1; 1; 1]; [2; 2; 2; 2; 2; 2]]) : DEdge Rig (list R)).
    set (ds := mkD [[I; I]] [e] None 1 2 2 : Dataset Rig (list R)).
    assert (QI : quat_defined F64 I).
    { split.
      - unfold rigid3, I, rotation3, orthogonal3, det3, I3. cbn [rr]. split; [|cbn [d00 d01 d02 d10 d11 d12 d20 d21 d22]; ring].
        try split; apply M3_ext; cbn; ring.
      - intros H. destruct (SO3_log.C36_to_quaternion F64 (rr I)) as [_ K].
        + unfold I, rotation3, orthogonal3, det3, I3. cbn [rr]. split; [|cbn [d00 d01 d02 d10 d11 d12 d20 d21 d22]; ring].
          try split; apply M3_ext; cbn; ring.
        + apply K in H. unfold I, I3 in H. cbn [rr d00 d01 d02 d10 d11 d12 d20 d21 d22] in H. destruct H as [H _].
          unfold so3_near_pi_eps in H. replace (1 + 1 + 1 + 1) with (2 * 2) in H by ring. rewrite sqrt_square in H by lra. lra. }
    assert (WR : forall n, (n < 2)%nat -> writable F64 ds n).
    { intros n Hn. split.
      - intros p [<-|[]]. exists I. split; [|exact QI]. destruct n as [|[|n]]; [reflexivity|reflexivity|lia].
      - intros e' [<-|[]]. split.
        + exists I. split; [|exact QI]. destruct n as [|[|n]]; [reflexivity|reflexivity|lia].
        + do 2 eexists. split; reflexivity. }
    exists F64, ds, e. do 2 eexists. split; [apply WR; lia|]. split; [apply WR; lia|]. split; [reflexivity|]. split; [reflexivity|]. split.
    + exists [I; I]. split; [reflexivity|]. split; [now left|reflexivity].
    + intros ls num vs e' E1 E2 H. destruct (C84_round_trip F64 ds 1 (WR 1%nat ltac:(lia))) as (ls' & num' & vs' & es' & E1' & E2' & _ & FB & _).
      rewrite E1 in E1'. injection E1' as <-. rewrite E2 in E2'. injection E2' as _ _ <-.
      inversion FB as [|? ? ? ? (_ & _ & _ & HW) _]; subst. rewrite HW in H. cbn in H. injection H as H _.
      unfold Rabs in H. destruct (Rcase_abs 1), (Rcase_abs 2); lra.
Qed.

(** the hypotheses above are met *)
Example batches_case : exists d : Dataset nat unit, make_dataset [[0; 1; 2; 3; 4]%nat] [] None 2 = Ret d /\
  ds_num d = 3%Z /\ map (fun k => part 2 k [0; 1; 2; 3; 4]%nat) [0; 1; 2]%nat = [[0; 1]; [2; 3]; [4]]%nat.
Proof. eexists. repeat split. Qed.
