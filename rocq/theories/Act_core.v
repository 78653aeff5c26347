(** left_act, its helper, and the adjoint identities. *)
From Coq Require Import List Arith Bool ZArith Reals Lra Lia.
From Verif Require Import RSum Act_model Act_base Act_ops.
Import ListNotations.
Local Open Scope nat_scope.

(** [gb]: batch shape of the group; [ts]: shape of the tensor without its two matrix dimensions; [o]: the dimensions that the group
    does not share; [bt]: the tensor's own batch shape, after padding; [bs]: the batch shape of the result *)
Definition layout (gb ts o bt bs : list nat) : Prop :=
  pad (max (length ts) (length gb + length o)) ts = bt ++ o /\ bcast gb bt = Some bs.
Lemma layout_facts gb ts o bt bs : layout gb ts o bt bs -> length gb <= length bt /\ length bs = length bt /\ expands bt bs /\ expands gb bs /\ expands ts (bs ++ o) /\
  length bt + length o = max (length ts) (length gb + length o).
Proof.
  intros [H1 H2]. pose proof (f_equal (@length nat) H1) as L. rewrite pad_len in L by lia. rewrite app_length in L.
  destruct (bcast_expands _ _ _ H2) as [E1 E2]. pose proof H2 as H3. unfold bcast in H3. apply bzip_len in H3. destruct H3 as [La Lb].
  rewrite pad_len in La by lia. assert (length gb <= length bt) by lia. repeat (split; [assumption || lia|]). split; [|lia].
  split; [rewrite app_length; lia|]. rewrite app_length. replace (length bs + length o) with (max (length ts) (length gb + length o)) by lia. rewrite H1.
  apply bzip_app; [|apply bzip_refl]. destruct E2 as [_ E2]. rewrite pad_id in E2 by lia. exact E2.
Qed.
Lemma filled_blocks g t gb ts o bt bs c k : sh g = gb ++ [3; c] -> sh t = ts ++ [3%nat; k] -> layout gb ts o bt bs ->
  sh (filled g t (Z.of_nat (length o))) = bt ++ o ++ [3%nat; k] /\
  forall bi oi l j, length bi = length bs -> inr o oi -> l < 3 -> j < k ->
    dat (filled g t (Z.of_nat (length o))) (bidx bt bi ++ oi ++ [l; j]) = dat t (bidx (ts ++ [3%nat; k]) (bi ++ oi ++ [l; j])).
Proof.
  intros Eg Et L. destruct (layout_facts _ _ _ _ _ L) as (F1 & F2 & F3 & F4 & F5 & F6). destruct L as [L1 L2].
  assert (Ng : ndim g = length gb + 2) by (rewrite Eg, app_length; reflexivity).
  assert (Nt : ndim t = length ts + 2) by (rewrite Et, app_length; reflexivity).
  set (N := max (length ts) (length gb + length o)) in *.
  assert (K : forall bi oi l j, length bi = length bs -> inr o oi -> l < 3 -> j < k ->
     skipn (N - length ts) (bidx bt bi ++ oi ++ [l; j]) = bidx (ts ++ [3%nat; k]) (bi ++ oi ++ [l; j])).
  { intros bi oi l j Hb Ho Hl Hj. pose proof (inr_len _ _ Ho) as Lo.
    rewrite (app_assoc bi), (bidx_tail ts [3%nat; k]) by (try (apply inr_two; assumption); rewrite app_length; lia).
    rewrite app_assoc, <- (bidx_tail bt o bi oi Ho) by lia. rewrite <- L1.
    rewrite bidx_pad by (rewrite ?app_length; lia). rewrite <- app_assoc. apply skipn_app_exact. rewrite repeat_length; reflexivity. }
  unfold filled. rewrite Ng, Nt. destruct (Z.gtb_spec (Z.of_nat (length gb + 2) + Z.of_nat (length o)) (Z.of_nat (length ts + 2))).
  - replace (Z.to_nat (Z.of_nat (length gb + 2) + Z.of_nat (length o))) with (N + 2) by lia. unfold fill_dims; cbn [sh dat]. rewrite Nt, Et.
    replace (N + 2 - (length ts + 2)) with (N - length ts) by lia. split.
    + rewrite app_assoc. change (repeat 1 (N - length ts) ++ ts) with (pad N ts). rewrite L1, <- app_assoc; reflexivity.
    + intros bi oi l j Hb Ho Hl Hj. rewrite K by assumption. reflexivity.
  - rewrite Et. assert (N = length ts) by lia. rewrite pad_id in L1 by lia. split; [rewrite L1, <- app_assoc; reflexivity|].
    intros bi oi l j Hb Ho Hl Hj. rewrite <- K by assumption. replace (N - length ts) with 0 by lia. reflexivity.
Qed.

(** every index of the result, once *)
Lemma app3 (a b c : list nat) : (a ++ b) ++ c = a ++ b ++ c.
Proof. symmetry; apply app_assoc. Qed.

Section Core.
Variables (g t : nd) (gb ts o bt bs : list nat) (k : nat).
Hypothesis Eg : sh g = gb ++ [3%nat; 3%nat].
Hypothesis Et : sh t = ts ++ [3%nat; k].
Hypothesis L : layout gb ts o bt bs.
Let d := Z.of_nat (length o).

Lemma left_act_core : exists r,
  opt_bind (permute (permute_op_dim (Z.of_nat (ndim (filled g t d))) d 2) (filled g t d)) (fun t' =>
    opt_bind (matmul g t') (fun q => permute (unpermute_op_dim (Z.of_nat (ndim (filled g t d))) d 2) q)) = Some r /\
  sh r = bs ++ o ++ [3%nat; k] /\
  forall bi oi i j, inr bs bi -> inr o oi -> j < k ->
    dat r (bi ++ oi ++ [i; j]) = rsum 3 (fun l => (dat g (bidx gb bi ++ [i; l]) * dat t (bidx (ts ++ [3%nat; k]) (bi ++ oi ++ [l; j])))%R).
Proof.
  destruct (layout_facts _ _ _ _ _ L) as (F1 & F2 & F3 & F4 & F5 & F6). destruct (filled_blocks g t gb ts o bt bs 3 k Eg Et L) as [S1 S2].
  fold d in S1, S2. set (ft := filled g t d) in *.
  assert (Nf : ndim ft = length bt + length o + 2) by (rewrite S1, !app_length; cbn; lia). rewrite Nf.
  unfold d. rewrite permute_op_blocks, unpermute_op_blocks.
  destruct (permute_blocks ft bt o [3%nat; k] S1) as (p & P1 & P2 & P3). cbn [length] in P1, P3. rewrite P1. cbn [opt_bind].
  rewrite app_assoc in P2.
  destruct (matmul_blocks g p gb (o ++ bt) (o ++ bs) 3 3 k Eg P2) as (q & Q1 & Q2 & Q3); [apply bcast_front; [exact F1|exact (proj2 L)]|].
  rewrite Q1. cbn [opt_bind]. rewrite <- app_assoc in Q2.
  destruct (permute_blocks q o bs [3%nat; k] Q2) as (r & R1 & R2 & R3). cbn [length] in R1, R3. rewrite F2 in R1. rewrite R1.
  exists r. split; [reflexivity|]. split; [exact R2|]. intros bi oi i j Hb Ho Hj. pose proof (inr_len _ _ Hb) as Lb. pose proof (inr_len _ _ Ho) as Lo.
  rewrite R3 by (cbn; lia). rewrite app_assoc, Q3. apply rsum_ext; intros l Hl.
  rewrite bidx_skip by lia. rewrite (bidx_head o bt oi bi Ho) by lia. rewrite app3.
  rewrite P3 by (rewrite ?bidx_len; cbn; lia). rewrite S2 by (assumption || lia). reflexivity.
Qed.

Lemma left_act_helper_core grad : sh grad = bs ++ o ++ [3%nat; k] -> exists jg jt, left_act_helper g t d grad = Some (jg, jt) /\
  sh jg = bs ++ [3%nat; 3%nat] /\ sh jt = bs ++ o ++ [3%nat; k] /\
  (forall bi i l, inr bs bi -> i < 3 -> l < 3 -> dat jg (bi ++ [i; l]) =
     isum o (fun oi => rsum k (fun j => (dat grad (bi ++ oi ++ [i; j]) * dat t (bidx (ts ++ [3%nat; k]) (bi ++ oi ++ [l; j])))%R))) /\
  (forall bi oi l j, inr bs bi -> inr o oi -> l < 3 -> j < k -> dat jt (bi ++ oi ++ [l; j]) =
     rsum 3 (fun i => (dat g (bidx gb bi ++ [i; l]) * dat grad (bi ++ oi ++ [i; j]))%R)).
Proof.
  intros Egr.
  destruct (layout_facts _ _ _ _ _ L) as (F1 & F2 & F3 & F4 & F5 & F6). destruct (filled_blocks g t gb ts o bt bs 3 k Eg Et L) as [S1 S2].
  fold d in S1, S2. unfold left_act_helper. set (ft := filled g t d) in *.
  assert (Nf : ndim ft = length bt + length o + 2) by (rewrite S1, !app_length; cbn; lia). rewrite Nf.
  unfold d. rewrite permute_op_blocks, unpermute_op_blocks.
  destruct (permute_blocks ft bt o [3%nat; k] S1) as (p & P1 & P2 & P3). cbn [length] in P1, P3. rewrite P1. cbn [opt_bind].
  destruct (permute_blocks grad bs o [3%nat; k] Egr) as (gr & G1 & G2 & G3). cbn [length] in G1, G3. rewrite F2 in G1. rewrite G1. cbn [opt_bind].
  rewrite app_assoc in P2, G2.
  destruct (transpose_blocks p _ _ _ P2) as [T1 T2].
  destruct (matmul_blocks gr (transpose p) (o ++ bs) (o ++ bt) (o ++ bs) 3 k 3 G2 T1) as (q & Q1 & Q2 & Q3); [apply bcast_both; [exact F3|lia]|].
  rewrite Q1. cbn [opt_bind]. rewrite <- app_assoc in Q2.
  destruct (permute_blocks q o bs [3%nat; 3%nat] Q2) as (jg & J1 & J2 & J3). cbn [length] in J1, J3. rewrite F2 in J1. rewrite J1. cbn [opt_bind].
  destruct (transpose_blocks g _ _ _ Eg) as [U1 U2].
  destruct (matmul_blocks (transpose g) gr gb (o ++ bs) (o ++ bs) 3 3 k U1 G2) as (q' & V1 & V2 & V3); [apply bcast_expand, expands_front; exact F4|].
  rewrite V1. cbn [opt_bind]. rewrite <- app_assoc in V2.
  destruct (permute_blocks q' o bs [3%nat; k] V2) as (jt & W1 & W2 & W3). cbn [length] in W1, W3. rewrite F2 in W1. rewrite W1. cbn [opt_bind].
  assert (JG : forall bi oi i l, inr bs bi -> inr o oi -> i < 3 -> l < 3 ->
     dat jg (bi ++ oi ++ [i; l]) = rsum k (fun j => (dat grad (bi ++ oi ++ [i; j]) * dat t (bidx (ts ++ [3%nat; k]) (bi ++ oi ++ [l; j])))%R)).
  { intros bi oi i l Hb Ho Hi Hl. pose proof (inr_len _ _ Hb) as Lb. pose proof (inr_len _ _ Ho) as Lo.
    rewrite J3 by (cbn; lia). rewrite app_assoc, Q3. apply rsum_ext; intros j Hj. rewrite T2.
    rewrite !(bidx_head o _ oi bi Ho) by lia. rewrite !app3. rewrite P3 by (rewrite ?bidx_len; cbn; lia).
    rewrite S2 by (assumption || lia). f_equal. replace (bidx bs bi) with bi; [apply G3; cbn; lia|].
    unfold bidx. rewrite Lb, Nat.sub_diag. cbn. symmetry; apply bsel_id; exact Hb. }
  assert (JT : forall bi oi l j, inr bs bi -> inr o oi -> l < 3 -> j < k -> dat jt (bi ++ oi ++ [l; j]) =
     rsum 3 (fun i => (dat g (bidx gb bi ++ [i; l]) * dat grad (bi ++ oi ++ [i; j]))%R)).
  { intros bi oi l j Hb Ho Hl Hj. pose proof (inr_len _ _ Hb) as Lb. pose proof (inr_len _ _ Ho) as Lo.
    rewrite W3 by (cbn; lia). rewrite app_assoc, V3. apply rsum_ext; intros i Hi. rewrite U2. rewrite bidx_skip by lia.
    rewrite (bidx_head o _ oi bi Ho) by lia. rewrite !app3. f_equal. replace (bidx bs bi) with bi; [apply G3; cbn; lia|].
    unfold bidx. rewrite Lb, Nat.sub_diag. cbn. symmetry; apply bsel_id; exact Hb. }
  assert (Np : ndim p = length bt + length o + 2) by (rewrite P2, !app_length; cbn; lia). rewrite Np, Nat2Z.id.
  destruct (Z.ltb_spec 0 (Z.of_nat (length o))).
  - replace (length bt + length o + 2 - 2 - length o) with (length bs) by lia.
    destruct (sum_dims_blocks jg bs o [3%nat; 3%nat] J2) as [X1 X2].
    do 2 eexists. split; [reflexivity|]. split; [exact X1|]. split; [exact W2|]. split; [|exact JT].
    intros bi i l Hb Hi Hl. rewrite X2 by (apply inr_len; exact Hb). apply isum_ext; intros oi Ho. apply JG; assumption.
  - assert (Eo : o = []) by (destruct o; [reflexivity|cbn [length] in *; lia]).
    do 2 eexists. split; [reflexivity|]. split; [rewrite J2, Eo; reflexivity|]. split; [exact W2|]. split; [|exact JT].
    intros bi i l Hb Hi Hl. rewrite Eo at 1. cbn [isum]. apply (JG bi [] i l); try assumption. rewrite Eo; constructor.
Qed.

(** the adjoint identities, for the helper's gradients reduced by autograd *)
Definition tangent (dG dT : list nat -> R) (bi oi : list nat) (i j : nat) : R :=
  rsum 3 (fun l => (dG (bidx gb bi ++ [i; l]) * dat t (bidx (ts ++ [3%nat; k]) (bi ++ oi ++ [l; j])) +
                    dat g (bidx gb bi ++ [i; l]) * dT (bidx (ts ++ [3%nat; k]) (bi ++ oi ++ [l; j])))%R).
Lemma isum_blocks f : isum (bs ++ o ++ [3%nat; k]) f = isum bs (fun bi => isum o (fun oi => rsum 3 (fun i => rsum k (fun j => f (bi ++ oi ++ [i; j]))))).
Proof. rewrite isum_app. apply isum_ext; intros bi _. rewrite isum_app. reflexivity. Qed.
Lemma helper_adjoint_g grad jg dG :
  (forall bi i l, inr bs bi -> i < 3 -> l < 3 -> dat jg (bi ++ [i; l]) =
     isum o (fun oi => rsum k (fun j => (dat grad (bi ++ oi ++ [i; j]) * dat t (bidx (ts ++ [3%nat; k]) (bi ++ oi ++ [l; j])))%R))) ->
  isum (bs ++ [3%nat; 3%nat]) (fun y => (dat jg y * dG (bidx (gb ++ [3%nat; 3%nat]) y))%R) =
  isum bs (fun bi => isum o (fun oi => rsum 3 (fun i => rsum k (fun j => (dat grad (bi ++ oi ++ [i; j]) *
    rsum 3 (fun l => dG (bidx gb bi ++ [i; l]) * dat t (bidx (ts ++ [3%nat; k]) (bi ++ oi ++ [l; j]))))%R)))).
Proof.
  intros J. destruct (layout_facts _ _ _ _ _ L) as (F1 & F2 & F3 & F4 & F5 & F6). rewrite isum_app. apply isum_ext; intros bi Hb. pose proof (inr_len _ _ Hb) as Lb.
  rewrite isum_two. rewrite isum_rsum. apply rsum_ext; intros i Hi.
  transitivity (rsum 3 (fun l => isum o (fun oi => rsum k (fun j =>
     (dat grad (bi ++ oi ++ [i; j]) * dat t (bidx (ts ++ [3%nat; k]) (bi ++ oi ++ [l; j])) * dG (bidx gb bi ++ [i; l]))%R)))).
  - apply rsum_ext; intros l Hl. rewrite J by assumption. rewrite bidx_tail by (try (apply inr_two; assumption); lia).
    rewrite <- isum_scal_r. apply isum_ext; intros oi _. rewrite <- rsum_scal_r. reflexivity.
  - rewrite <- isum_rsum. apply isum_ext; intros oi _. rewrite rsum_exch. apply rsum_ext; intros j _. rewrite <- rsum_scal. apply rsum_ext; intros l _. ring.
Qed.
Lemma helper_adjoint_t grad jt dT :
  (forall bi oi l j, inr bs bi -> inr o oi -> l < 3 -> j < k -> dat jt (bi ++ oi ++ [l; j]) =
     rsum 3 (fun i => (dat g (bidx gb bi ++ [i; l]) * dat grad (bi ++ oi ++ [i; j]))%R)) ->
  isum (bs ++ o ++ [3%nat; k]) (fun y => (dat jt y * dT (bidx (ts ++ [3%nat; k]) y))%R) =
  isum bs (fun bi => isum o (fun oi => rsum 3 (fun i => rsum k (fun j => (dat grad (bi ++ oi ++ [i; j]) *
    rsum 3 (fun l => dat g (bidx gb bi ++ [i; l]) * dT (bidx (ts ++ [3%nat; k]) (bi ++ oi ++ [l; j]))))%R)))).
Proof.
  intros J. rewrite isum_blocks. apply isum_ext; intros bi Hb. apply isum_ext; intros oi Ho.
  transitivity (rsum 3 (fun l => rsum k (fun j => rsum 3 (fun i =>
     (dat g (bidx gb bi ++ [i; l]) * dat grad (bi ++ oi ++ [i; j]) * dT (bidx (ts ++ [3%nat; k]) (bi ++ oi ++ [l; j])))%R)))).
  - apply rsum_ext; intros l Hl. apply rsum_ext; intros j Hj. rewrite J by assumption. rewrite <- rsum_scal_r. reflexivity.
  - rewrite rsum_exch. rewrite (rsum_exch 3 k). apply rsum_ext; intros j _. rewrite rsum_exch. apply rsum_ext; intros i _.
    rewrite <- rsum_scal. apply rsum_ext; intros l _. ring.
Qed.
Lemma left_act_adjoint grad jg jt a b dG dT : sh grad = bs ++ o ++ [3%nat; k] -> left_act_helper g t d grad = Some (jg, jt) ->
  reduce (sh g) jg = Some a -> reduce (sh t) jt = Some b ->
  (isum (sh g) (fun x => dat a x * dG x) + isum (sh t) (fun x => dat b x * dT x) =
   isum bs (fun bi => isum o (fun oi => rsum 3 (fun i => rsum k (fun j => dat grad (bi ++ oi ++ [i; j]) * tangent dG dT bi oi i j)))))%R.
Proof.
  intros Egr H Ha Hb. destruct (left_act_helper_core grad Egr) as (jg' & jt' & H' & S1 & S2 & J1 & J2). rewrite H in H'. injection H' as <- <-.
  destruct (layout_facts _ _ _ _ _ L) as (F1 & F2 & F3 & F4 & F5 & F6).
  destruct (reduce_adjoint (sh g) jg) as (a' & A1 & A2 & A3); [rewrite S1, Eg; apply expands_tail; exact F4|].
  destruct (reduce_adjoint (sh t) jt) as (b' & B1 & B2 & B3); [rewrite S2, Et, app_assoc; apply expands_tail; exact F5|].
  rewrite Ha in A1; injection A1 as <-. rewrite Hb in B1; injection B1 as <-. rewrite A3, B3, S1, S2, Eg, Et.
  rewrite (helper_adjoint_g grad jg dG J1), (helper_adjoint_t grad jt dT J2). rewrite <- isum_plus. apply isum_ext; intros bi _.
  rewrite <- isum_plus. apply isum_ext; intros oi _. rewrite <- rsum_plus. apply rsum_ext; intros i _. rewrite <- rsum_plus. apply rsum_ext; intros j _.
  unfold tangent. rewrite rsum_plus. ring.
Qed.
Lemma left_act_reduces grad : sh grad = bs ++ o ++ [3%nat; k] -> exists jg jt a b, left_act_helper g t d grad = Some (jg, jt) /\
  reduce (sh g) jg = Some a /\ reduce (sh t) jt = Some b /\ sh a = sh g /\ sh b = sh t.
Proof.
  intros Egr. destruct (left_act_helper_core grad Egr) as (jg & jt & H & S1 & S2 & J1 & J2).
  destruct (layout_facts _ _ _ _ _ L) as (F1 & F2 & F3 & F4 & F5 & F6).
  destruct (reduce_adjoint (sh g) jg) as (a & A1 & A2 & _); [rewrite S1, Eg; apply expands_tail; exact F4|].
  destruct (reduce_adjoint (sh t) jt) as (b & B1 & B2 & _); [rewrite S2, Et, app_assoc; apply expands_tail; exact F5|].
  exists jg, jt, a, b. auto.
Qed.
End Core.
