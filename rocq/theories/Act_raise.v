(** C78: exactly the shapes for which left_act returns; with the default [dim_out], a tensor with fewer dimensions than the group always raises. *)
From Coq Require Import List Arith Bool ZArith Reals Lra Lia.
From Verif Require Import RSum Act_model Act_base Act_ops Act_core Act_props.
Import ListNotations.
Local Open Scope nat_scope.

Lemma permute_len p t r : permute p t = Some r -> length p = ndim t.
Proof. unfold permute. destruct (length p =? ndim t) eqn:E; [|discriminate]. intros _. apply Nat.eqb_eq; exact E. Qed.
Lemma zrange_len a b : length (zrange a b) = Z.to_nat (b - a).
Proof. unfold zrange; rewrite map_length, seq_length; reflexivity. Qed.
Lemma split_mat s : 2 <= length s -> exists b, s = b ++ [nth (length s - 2) s 0; nth (length s - 1) s 0].
Proof.
  intros H. destruct (exists_last (l := s)) as (s1 & j & E1); [destruct s; [cbn in H; lia|discriminate]|].
  destruct (exists_last (l := s1)) as (b & i & E2); [destruct s1; [subst s; cbn in H; lia|discriminate]|].
  assert (E : s = b ++ [i; j]) by (rewrite E1, E2, <- app_assoc; reflexivity). exists b. rewrite E.
  destruct (idx_split b i j) as (E3 & _ & E4 & E5). rewrite E3, E4, E5. reflexivity.
Qed.
Lemma bzip_app_inv a b a' b' c : length a = length b -> bzip (a ++ a') (b ++ b') = Some c -> exists c', bzip a' b' = Some c'.
Proof.
  revert b c; induction a as [|x a IH]; destruct b as [|y b]; cbn [length app]; intros c Le H; try discriminate; [eauto|]. cbn [bzip] in H.
  destruct (if x =? y then _ else _); [|discriminate]. destruct (bzip (a ++ a') (b ++ b')) eqn:E; [|discriminate]. eapply IH; [|exact E]. lia.
Qed.
Lemma bcast_front_inv g o b s : length g <= length b -> bcast g (o ++ b) = Some s -> exists s', bcast g b = Some s'.
Proof.
  unfold bcast. intros Le H. rewrite Nat.max_r in * by (rewrite ?app_length; lia). rewrite (pad_id (length b) b) by lia.
  rewrite (pad_id (length (o ++ b)) (o ++ b)) in H by lia.
  replace (pad (length (o ++ b)) g) with (repeat 1 (length o) ++ pad (length b) g) in H.
  - eapply bzip_app_inv; [|exact H]. apply repeat_length.
  - unfold pad. rewrite app_assoc, <- repeat_app, app_length. f_equal. f_equal. lia.
Qed.
Lemma matmul_bcast a b r A B ra ca rb cb : sh a = A ++ [ra; ca] -> sh b = B ++ [rb; cb] -> matmul a b = Some r -> exists s, bcast A B = Some s.
Proof.
  intros Ea Eb. destruct (mat_bsh _ _ _ _ Ea) as (a1 & _). destruct (mat_bsh _ _ _ _ Eb) as (b1 & _). unfold matmul. rewrite a1, b1.
  destruct (_ && _); [|discriminate]. destruct (bcast A B); [eauto|discriminate].
Qed.

Lemma left_act_layout g t dim_out r : left_act_so3 g t dim_out = Some r ->
  exists gb ts o bt bs k, sh g = gb ++ [3; 3] /\ sh t = ts ++ [3; k] /\ layout gb ts o bt bs /\ out_dims dim_out gb ts o.
Proof.
  unfold left_act_so3. destruct (check_group_shape 3 g && check_left_act t) eqn:C; [|discriminate]. intros H.
  unfold check_group_shape, check_left_act in C. rewrite !andb_true_iff, !Nat.leb_le, !Nat.eqb_eq in C. destruct C as [[[C1 C2] C3] [C4 C5]].
  destruct (split_mat (sh g) C1) as [gb Eg]. unfold rows, cols in C2, C3, C5. rewrite C2, C3 in Eg.
  destruct (split_mat (sh t) C4) as [ts Et]. rewrite C5 in Et. set (k := nth (ndim t - 1) (sh t) 0) in *. clearbody k.
  assert (Ng : ndim g = length gb + 2) by (rewrite Eg, app_length; reflexivity). assert (Nt : ndim t = length ts + 2) by (rewrite Et, app_length; reflexivity).
  set (d := the_dim_out g t dim_out) in *.
  destruct (permute _ (filled g t d)) as [p|] eqn:P; [|discriminate]. cbn [opt_bind] in H.
  pose proof (permute_len _ _ _ P) as Lp.
  assert (Nf : Z.of_nat (ndim (filled g t d)) = Z.max (Z.of_nat (length ts + 2)) (Z.of_nat (length gb + 2) + d)).
  { unfold filled. rewrite Ng, Nt. destruct (Z.gtb_spec (Z.of_nat (length gb + 2) + d) (Z.of_nat (length ts + 2))); [|lia].
    unfold fill_dims; cbn [sh]. rewrite app_length, repeat_length, Nt. lia. }
  assert (Hd : (0 <= d)%Z).
  { unfold permute_op_dim in Lp. rewrite !app_length, !zrange_len in Lp. destruct (Z_lt_le_dec d 0); [|assumption]. lia. }
  set (e := Z.to_nat d). assert (De : d = Z.of_nat e) by lia. clearbody e.
  set (N := max (length ts) (length gb + e)).
  set (o := skipn (N - e) (pad N ts)). set (bt := firstn (N - e) (pad N ts)).
  assert (LN : length (pad N ts) = N) by (apply pad_len; lia).
  assert (Lo : length o = e) by (unfold o; rewrite skipn_length, LN; lia). assert (Lb : length bt = N - e) by (unfold bt; rewrite firstn_length, LN; lia).
  assert (LA : pad (max (length ts) (length gb + length o)) ts = bt ++ o) by (rewrite Lo; unfold bt, o; rewrite firstn_skipn; reflexivity).
  (* the shape of the filled tensor does not depend on the broadcast *)
  assert (SF : sh (filled g t d) = bt ++ o ++ [3; k]).
  { rewrite app_assoc, <- LA, Lo. fold N. unfold filled. rewrite Ng, Nt, De. destruct (Z.gtb_spec (Z.of_nat (length gb + 2) + Z.of_nat e) (Z.of_nat (length ts + 2))).
    - unfold fill_dims; cbn [sh]. rewrite Et, app_assoc. f_equal. unfold pad. f_equal. f_equal. rewrite app_length. cbn [length]. lia.
    - rewrite Et. rewrite pad_id by lia. reflexivity. }
  clearbody o bt. assert (Dd : the_dim_out g t dim_out = d) by reflexivity. clearbody d N. subst d. subst e.
  set (ft := filled g t (Z.of_nat (length o))) in *.
  assert (Nf2 : ndim ft = length bt + length o + 2) by (rewrite SF, !app_length; cbn; lia).
  rewrite Nf2, permute_op_blocks in P.
  destruct (permute_blocks ft bt o [3; k] SF) as (p' & P1 & P2 & _). cbn [length] in P1. rewrite P1 in P. injection P as <-.
  destruct (matmul g p') as [q|] eqn:Q; [|discriminate]. rewrite app_assoc in P2.
  destruct (matmul_bcast _ _ _ _ _ _ _ _ _ Eg P2 Q) as [s Hs]. apply bcast_front_inv in Hs; [|lia]. destruct Hs as [bs Hs].
  exists gb, ts, o, bt, bs, k. split; [exact Eg|]. split; [exact Et|]. split; [split; assumption|].
  unfold out_dims. destruct dim_out as [z|]; cbn [the_dim_out] in Dd; [left; f_equal; lia|right; split; [reflexivity|lia]].
Qed.
(** left_act returns exactly when the shapes fit *)
Theorem C78_left_act_returns g t dim_out : left_act_so3 g t dim_out <> None <->
  exists gb ts o bt bs k, sh g = gb ++ [3; 3] /\ sh t = ts ++ [3; k] /\ layout gb ts o bt bs /\ out_dims dim_out gb ts o.
Proof.
  split.
  - destruct (left_act_so3 g t dim_out) as [r|] eqn:E; [|intros H; exfalso; apply H; reflexivity]. intros _. eapply left_act_layout; exact E.
  - intros (gb & ts & o & bt & bs & k & Eg & Et & L & D). destruct (C78_left_act_so3 g t dim_out gb ts o bt bs k Eg Et L D) as (r & -> & _). discriminate.
Qed.
(** with the default, a tensor with fewer dimensions than the group raises although it could be broadcast; with [dim_out = 0] it is *)
Theorem C78_default_dim_out_raises g t : ndim t < ndim g ->
  left_act_so3 g t None = None /\ left_project_so3 g t None = None /\ left_act_se3 g t None = None /\ left_project_se3 g t None = None.
Proof.
  assert (S : forall g t, ndim t < ndim g -> left_act_so3 g t None = None).
  { intros g0 t0 H. destruct (left_act_so3 g0 t0 None) as [r|] eqn:E; [|reflexivity]. exfalso. apply left_act_layout in E.
    destruct E as (gb & ts & o & bt & bs & k & Eg & Et & _ & [D|[_ D]]); [discriminate|]. rewrite Eg, Et, !app_length in H. cbn [length] in H. lia. }
  assert (S2 : forall g t z, (z < 0)%Z -> left_act_so3 g t (Some z) = None).
  { intros g0 t0 z H. destruct (left_act_so3 g0 t0 (Some z)) as [r|] eqn:E; [|reflexivity]. exfalso. apply left_act_layout in E.
    destruct E as (gb & ts & o & bt & bs & k & Eg & Et & _ & [D|[D _]]); [|discriminate]. injection D as D. lia. }
  assert (S3 : forall g t, ndim t < ndim g -> left_act_se3 g t None = None).
  { intros g0 t0 H. unfold left_act_se3. destruct (_ && _); [|reflexivity]. apply S2. cbn [the_dim_out]. lia. }
  intros H. split; [apply S; exact H|]. split; [|split; [apply S3; exact H|]].
  - unfold left_project_so3. destruct (check_group_shape 3 g && check_left_project 3 t) eqn:C; [|reflexivity]. rewrite S; [reflexivity|].
    unfold check_group_shape in C. rewrite !andb_true_iff, Nat.leb_le in C. destruct C as [[[C _] _] _].
    unfold transpose, bsh; cbn [sh]. rewrite app_length, firstn_length. cbn [length]. lia.
  - unfold left_project_se3. destruct (check_group_shape 4 g && check_left_project 4 t) eqn:C; [|reflexivity]. rewrite S3; [reflexivity|].
    unfold check_group_shape in C. rewrite !andb_true_iff, Nat.leb_le in C. destruct C as [[[C _] _] _].
    unfold inverse_se3, bsh; cbn [sh]. rewrite app_length, firstn_length. cbn [length]. lia.
Qed.

(** the hypotheses are met: a group of batch shape [2; 1] and a tensor of shape [3; 3; 4; 3; 5], whose dimension of size 4 is not the group's *)
Example act_layout_ex : layout [2; 1] [3; 4] [4] [1; 3] [2; 3] /\ out_dims (Some 1%Z) [2; 1] [3; 4] [4].
Proof. split; [split; reflexivity|left; reflexivity]. Qed.
Example act_none_ex : layout [2; 1] [1; 3; 4] [4] [1; 3] [2; 3] /\ out_dims None [2; 1] [1; 3; 4] [4].
Proof. split; [split; reflexivity|right; split; reflexivity]. Qed.
