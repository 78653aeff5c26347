(** C78: left_act and left_project of SO3 and SE3 on tensors of any shape: what they return, when they raise, and that the gradients of their
    hand-written backward functions, reduced by autograd to the shapes of the inputs, are the derivative. *)
From Coq Require Import List Arith Bool ZArith Reals Lra Lia.
From Verif Require Import RSum Act_model Act_base Act_ops Act_core.
Import ListNotations.
Local Open Scope nat_scope.

(** ** specification *)
(** [dim_out]: the number of the dimensions [o] of the tensor that the group does not share; by default all dimensions that the tensor has more *)
Definition out_dims (dim_out : option Z) (gb ts o : list nat) : Prop :=
  dim_out = Some (Z.of_nat (length o)) \/ (dim_out = None /\ length ts = length gb + length o).
(** the vector of a matrix: twice the skew-symmetric part, and the last column *)
Definition vee3 (M : nat -> nat -> R) (c : nat) : R := match c with 0 => Rminus (M 2 1) (M 1 2) | 1 => Rminus (M 0 2) (M 2 0) | _ => Rminus (M 1 0) (M 0 1) end.
Definition vee6 (M : nat -> nat -> R) (c : nat) : R := if c <? 3 then M c 3 else vee3 M (c - 3).
(** the product of the group element (or its transpose) and the matrix of the tensor that a position of the result is made of; [gc], [k]: the columns of both *)
Definition prod_at (tr : bool) (gb ts : list nat) (k : nat) (G T : list nat -> R) (bi oi : list nat) (i j : nat) : R :=
  rsum 3 (fun l => (G (bidx gb bi ++ (if tr then [l; i] else [i; l])) * T (bidx (ts ++ [3%nat; k]) (bi ++ oi ++ [l; j])))%R).
(** [op] is a map of tensors that is linear in each argument with the derivative that [bwd] computes: the result moves by [e (r1 + r2) + e^2 r12], and
    the gradients have the shapes of the inputs and are the adjoint of [r1 + r2] *)
Definition adjoint_of (op : nd -> nd -> option nd) (bwd : nd -> nd -> nd -> option (nd * nd)) (g t r : nd) : Prop :=
  forall grad, sh grad = sh r -> exists a b, bwd g t grad = Some (a, b) /\ sh a = sh g /\ sh b = sh t /\
  forall dG dT, sh dG = sh g -> sh dT = sh t -> exists r1 r2 r12, op dG t = Some r1 /\ op g dT = Some r2 /\ op dG dT = Some r12 /\
    sh r1 = sh r /\ sh r2 = sh r /\ sh r12 = sh r /\
    (forall e, exists re, op (mkNd (sh g) (fun x => dat g x + e * dat dG x)%R) (mkNd (sh t) (fun x => dat t x + e * dat dT x)%R) = Some re /\ sh re = sh r /\
       forall x, inr (sh r) x -> dat re x = (dat r x + e * (dat r1 x + dat r2 x) + e * e * dat r12 x)%R) /\
    isum (sh r) (fun x => dat grad x * (dat r1 x + dat r2 x))%R = (isum (sh g) (fun x => dat a x * dat dG x) + isum (sh t) (fun x => dat b x * dat dT x))%R.

(** ** proofs *)
Lemma dims_cases dim_out g t gb ts o c k : sh g = gb ++ [3; c] -> sh t = ts ++ [3; k] -> out_dims dim_out gb ts o -> the_dim_out g t dim_out = Z.of_nat (length o).
Proof.
  intros Eg Et [->|[-> H]]; [reflexivity|]. unfold the_dim_out. rewrite Eg, Et, !app_length. cbn [length]. lia.
Qed.
Lemma check_group_ok g gb c : sh g = gb ++ [3; c] -> check_group_shape c g = true.
Proof.
  intros E. destruct (mat_bsh _ _ _ _ E) as (_ & H1 & H2 & H3). unfold check_group_shape. rewrite H1, H2, H3, !Nat.eqb_refl.
  replace (2 <=? length gb + 2) with true by (symmetry; apply Nat.leb_le; lia). reflexivity.
Qed.
Lemma check_act_ok t ts k : sh t = ts ++ [3; k] -> check_left_act t = true.
Proof.
  intros E. destruct (mat_bsh _ _ _ _ E) as (_ & H1 & H2 & H3). unfold check_left_act. rewrite H1, H3, Nat.eqb_refl.
  replace (2 <=? length ts + 2) with true by (symmetry; apply Nat.leb_le; lia). reflexivity.
Qed.
Lemma check_project_ok c t ts : sh t = ts ++ [3; c] -> check_left_project c t = true.
Proof. intros E. exact (check_group_ok t ts c E). Qed.
Lemma inr_blocks bs o m x : inr (bs ++ o ++ m) x -> exists bi oi z, x = bi ++ oi ++ z /\ inr bs bi /\ inr o oi /\ inr m z.
Proof.
  intros H. apply Forall2_app_inv_l in H. destruct H as (u & v & H1 & H2 & ->). apply Forall2_app_inv_l in H2. destruct H2 as (y & z & H2 & H3 & ->).
  exists u, y, z. auto.
Qed.
Lemma inr_mat r c z : inr [r; c] z -> exists i j, z = [i; j] /\ i < r /\ j < c.
Proof. intros H. inversion H as [|? i ? z1 Hi H1]; subst. inversion H1 as [|? j ? z2 Hj H2]; subst. inversion H2; subst. exists i, j. auto. Qed.
Lemma inr_vec c z : inr [c] z -> exists i, z = [i] /\ i < c.
Proof. intros H. inversion H as [|? i ? z1 Hi H1]; subst. inversion H1; subst. exists i. auto. Qed.

(** forward, all four *)
Lemma act_so3_forward g t dim_out gb ts o bt bs k : sh g = gb ++ [3; 3] -> sh t = ts ++ [3; k] -> layout gb ts o bt bs -> out_dims dim_out gb ts o ->
  exists r, left_act_so3 g t dim_out = Some r /\ sh r = bs ++ o ++ [3; k] /\
  forall bi oi i j, inr bs bi -> inr o oi -> i < 3 -> j < k -> dat r (bi ++ oi ++ [i; j]) = prod_at false gb ts k (dat g) (dat t) bi oi i j.
Proof.
  intros Eg Et L D. unfold left_act_so3. rewrite (check_group_ok _ _ _ Eg), (check_act_ok _ _ _ Et), (dims_cases _ _ _ _ _ _ _ _ Eg Et D). cbn [andb].
  destruct (left_act_core g t gb ts o bt bs k Eg Et L) as (r & H1 & H2 & H3). exists r. split; [exact H1|]. split; [exact H2|].
  intros bi oi i j Hb Ho Hi Hj. rewrite (H3 bi oi i j Hb Ho Hj). reflexivity.
Qed.
Lemma first_cols_blocks g gb c : sh g = gb ++ [3; c] -> 3 <= c -> sh (first_cols 3 g) = gb ++ [3; 3] /\ dat (first_cols 3 g) = dat g.
Proof.
  intros E H. destruct (mat_bsh _ _ _ _ E) as (H0 & H1 & H2 & H3). unfold first_cols; cbn [sh dat]. rewrite H0, H1, H2, Nat.min_l by lia. auto.
Qed.
Lemma act_se3_forward g t dim_out gb ts o bt bs k : sh g = gb ++ [3; 4] -> sh t = ts ++ [3; k] -> layout gb ts o bt bs -> out_dims dim_out gb ts o ->
  exists r, left_act_se3 g t dim_out = Some r /\ sh r = bs ++ o ++ [3; k] /\
  forall bi oi i j, inr bs bi -> inr o oi -> i < 3 -> j < k -> dat r (bi ++ oi ++ [i; j]) = prod_at false gb ts k (dat g) (dat t) bi oi i j.
Proof.
  intros Eg Et L D. unfold left_act_se3. rewrite (check_group_ok _ _ _ Eg), (check_act_ok _ _ _ Et), (dims_cases _ _ _ _ _ _ _ _ Eg Et D). cbn [andb].
  destruct (first_cols_blocks g gb 4 Eg) as [F1 F2]; [lia|].
  destruct (act_so3_forward (first_cols 3 g) t (Some (Z.of_nat (length o))) gb ts o bt bs k F1 Et L (or_introl eq_refl)) as (r & H1 & H2 & H3).
  exists r. split; [exact H1|]. split; [exact H2|]. rewrite F2 in H3. exact H3.
Qed.
Lemma project3_blocks r B : sh r = B ++ [3; 3] -> sh (project_so3 r) = B ++ [3] /\ forall x c, dat (project_so3 r) (x ++ [c]) = vee3 (fun i j => dat r (x ++ [i; j])) c.
Proof.
  intros E. destruct (mat_bsh _ _ _ _ E) as (H0 & _). unfold project_so3; cbn [sh dat]. rewrite H0. split; [reflexivity|]. intros x c.
  destruct (idx_split1 x c) as (-> & -> & ->). destruct c as [|[|c]]; reflexivity.
Qed.
Lemma project6_blocks r B : sh r = B ++ [3; 4] -> sh (project_se3 r) = B ++ [6] /\ forall x c, dat (project_se3 r) (x ++ [c]) = vee6 (fun i j => dat r (x ++ [i; j])) c.
Proof.
  intros E. destruct (mat_bsh _ _ _ _ E) as (H0 & _). unfold project_se3; cbn [sh dat]. rewrite H0. split; [reflexivity|]. intros x c.
  destruct (idx_split1 x c) as (-> & -> & ->). destruct c as [|[|[|[|[|c]]]]]; reflexivity.
Qed.
Lemma vee3_ext M N c : (forall i j, i < 3 -> j < 3 -> M i j = N i j) -> vee3 M c = vee3 N c.
Proof. intros H; unfold vee3. destruct c as [|[|c]]; rewrite !H by lia; reflexivity. Qed.
Lemma vee6_ext M N c : (forall i j, i < 3 -> j < 4 -> M i j = N i j) -> vee6 M c = vee6 N c.
Proof. intros H; unfold vee6. destruct (Nat.ltb_spec c 3); [apply H; lia|]. apply vee3_ext; intros; apply H; lia. Qed.
Lemma project_so3_forward g t dim_out gb ts o bt bs : sh g = gb ++ [3; 3] -> sh t = ts ++ [3; 3] -> layout gb ts o bt bs -> out_dims dim_out gb ts o ->
  exists r, left_project_so3 g t dim_out = Some r /\ sh r = bs ++ o ++ [3] /\
  forall bi oi c, inr bs bi -> inr o oi -> dat r (bi ++ oi ++ [c]) = vee3 (prod_at true gb ts 3 (dat g) (dat t) bi oi) c.
Proof.
  intros Eg Et L D. unfold left_project_so3. rewrite (check_group_ok _ _ _ Eg), (check_project_ok _ _ _ Et). cbn [andb].
  destruct (transpose_blocks g gb 3 3 Eg) as [T1 T2].
  destruct (act_so3_forward (transpose g) t dim_out gb ts o bt bs 3 T1 Et L D) as (r & H1 & H2 & H3). rewrite H1. cbn [opt_bind].
  rewrite app_assoc in H2. destruct (project3_blocks r _ H2) as [P1 P2]. eexists; split; [reflexivity|]. split; [rewrite P1, <- app_assoc; reflexivity|].
  intros bi oi c Hb Ho. rewrite app_assoc, P2. apply vee3_ext; intros i j Hi Hj. rewrite app3, H3 by assumption.
  unfold prod_at. apply rsum_ext; intros l _. rewrite T2. reflexivity.
Qed.
Lemma inverse_blocks g gb : sh g = gb ++ [3; 4] -> sh (inverse_se3 g) = gb ++ [3; 4] /\ forall x i l, l < 3 -> dat (inverse_se3 g) (x ++ [i; l]) = dat g (x ++ [l; i]).
Proof.
  intros E. destruct (mat_bsh _ _ _ _ E) as (H0 & _). unfold inverse_se3; cbn [sh dat]. rewrite H0. split; [reflexivity|]. intros x i l Hl.
  destruct (idx_split x i l) as (-> & -> & -> & ->). destruct (Nat.ltb_spec l 3); [reflexivity|lia].
Qed.
Lemma project_se3_forward g t dim_out gb ts o bt bs : sh g = gb ++ [3; 4] -> sh t = ts ++ [3; 4] -> layout gb ts o bt bs -> out_dims dim_out gb ts o ->
  exists r, left_project_se3 g t dim_out = Some r /\ sh r = bs ++ o ++ [6] /\
  forall bi oi c, inr bs bi -> inr o oi -> dat r (bi ++ oi ++ [c]) = vee6 (prod_at true gb ts 4 (dat g) (dat t) bi oi) c.
Proof.
  intros Eg Et L D. unfold left_project_se3. rewrite (check_group_ok _ _ _ Eg), (check_project_ok _ _ _ Et). cbn [andb].
  destruct (inverse_blocks g gb Eg) as [T1 T2].
  destruct (act_se3_forward (inverse_se3 g) t dim_out gb ts o bt bs 4 T1 Et L D) as (r & H1 & H2 & H3). rewrite H1. cbn [opt_bind].
  rewrite app_assoc in H2. destruct (project6_blocks r _ H2) as [P1 P2]. eexists; split; [reflexivity|]. split; [rewrite P1, <- app_assoc; reflexivity|].
  intros bi oi c Hb Ho. rewrite app_assoc, P2. apply vee6_ext; intros i j Hi Hj. rewrite app3, H3 by assumption.
  unfold prod_at. apply rsum_ext; intros l Hl. rewrite T2 by exact Hl. reflexivity.
Qed.

(** the product is bilinear *)
Lemma prod_move tr gb ts k G T dG dT bi oi i j e :
  prod_at tr gb ts k (fun x => G x + e * dG x)%R (fun x => T x + e * dT x)%R bi oi i j =
  (prod_at tr gb ts k G T bi oi i j + e * (prod_at tr gb ts k dG T bi oi i j + prod_at tr gb ts k G dT bi oi i j) + e * e * prod_at tr gb ts k dG dT bi oi i j)%R.
Proof. unfold prod_at. cbn [rsum]. ring. Qed.
Lemma vee3_move M0 M1 M2 M12 M e c : (forall i j, M i j = M0 i j + e * (M1 i j + M2 i j) + e * e * M12 i j)%R ->
  vee3 M c = (vee3 M0 c + e * (vee3 M1 c + vee3 M2 c) + e * e * vee3 M12 c)%R.
Proof. intros H; unfold vee3. destruct c as [|[|c]]; rewrite !H; ring. Qed.
Lemma vee6_move M0 M1 M2 M12 M e c : (forall i j, M i j = M0 i j + e * (M1 i j + M2 i j) + e * e * M12 i j)%R ->
  vee6 M c = (vee6 M0 c + e * (vee6 M1 c + vee6 M2 c) + e * e * vee6 M12 c)%R.
Proof. intros H; unfold vee6. destruct (c <? 3); [apply H|apply vee3_move; exact H]. Qed.

Lemma make_adjoint op bwd g t r bs o m (F : (list nat -> R) -> (list nat -> R) -> list nat -> list nat -> list nat -> R) :
  (forall g' t', sh g' = sh g -> sh t' = sh t -> exists r', op g' t' = Some r' /\ sh r' = bs ++ o ++ m /\
     forall bi oi z, inr bs bi -> inr o oi -> inr m z -> dat r' (bi ++ oi ++ z) = F (dat g') (dat t') bi oi z) ->
  op g t = Some r ->
  (forall G T dG dT e bi oi z, F (fun x => G x + e * dG x)%R (fun x => T x + e * dT x)%R bi oi z =
     (F G T bi oi z + e * (F dG T bi oi z + F G dT bi oi z) + e * e * F dG dT bi oi z)%R) ->
  (forall grad, sh grad = bs ++ o ++ m -> exists a b, bwd g t grad = Some (a, b) /\ sh a = sh g /\ sh b = sh t /\ forall dG dT : list nat -> R,
     (isum (sh g) (fun x => dat a x * dG x) + isum (sh t) (fun x => dat b x * dT x) =
      isum bs (fun bi => isum o (fun oi => isum m (fun z => dat grad (bi ++ oi ++ z) * (F dG (dat t) bi oi z + F (dat g) dT bi oi z)))))%R) ->
  adjoint_of op bwd g t r.
Proof.
  intros Fw Er Mv Bw. destruct (Fw g t eq_refl eq_refl) as (r' & E' & Sr & Dr). rewrite Er in E'. injection E' as <-.
  intros grad Eg. rewrite Sr in Eg. destruct (Bw grad Eg) as (a & b & Eb & Sa & Sb & Ad). exists a, b. split; [exact Eb|]. split; [exact Sa|]. split; [exact Sb|].
  intros dG dT SG ST. destruct (Fw dG t SG eq_refl) as (r1 & E1 & S1 & D1). destruct (Fw g dT eq_refl ST) as (r2 & E2 & S2 & D2).
  destruct (Fw dG dT SG ST) as (r12 & E12 & S12 & D12). exists r1, r2, r12. rewrite Sr. repeat (split; [assumption|]). split.
  - intros e. destruct (Fw (mkNd (sh g) (fun x => dat g x + e * dat dG x)%R) (mkNd (sh t) (fun x => dat t x + e * dat dT x)%R) eq_refl eq_refl) as (re & Ee & Se & De).
    exists re. split; [exact Ee|]. split; [exact Se|]. intros x Hx. apply inr_blocks in Hx. destruct Hx as (bi & oi & z & -> & Hb & Ho & Hz).
    rewrite De, Dr, D1, D2, D12 by assumption. cbn [dat]. apply Mv.
  - rewrite (Ad (dat dG) (dat dT)). rewrite isum_app. apply isum_ext; intros bi Hb. rewrite isum_app. apply isum_ext; intros oi Ho.
    apply isum_ext; intros z Hz. rewrite D1, D2 by assumption. reflexivity.
Qed.

(** ** left_act *)
Definition mat_at tr gb ts k (G T : list nat -> R) (bi oi z : list nat) : R := prod_at tr gb ts k G T bi oi (nth 0 z 0) (nth 1 z 0).
Theorem C78_left_act_so3 g t dim_out gb ts o bt bs k : sh g = gb ++ [3; 3] -> sh t = ts ++ [3; k] -> layout gb ts o bt bs -> out_dims dim_out gb ts o ->
  exists r, left_act_so3 g t dim_out = Some r /\ sh r = bs ++ o ++ [3; k] /\
  (forall bi oi i j, inr bs bi -> inr o oi -> i < 3 -> j < k -> dat r (bi ++ oi ++ [i; j]) = prod_at false gb ts k (dat g) (dat t) bi oi i j) /\
  adjoint_of (fun g t => left_act_so3 g t dim_out) (fun g t grad => left_act_backward_so3 g t dim_out grad) g t r.
Proof.
  intros Eg Et L D. destruct (act_so3_forward g t dim_out gb ts o bt bs k Eg Et L D) as (r & H1 & H2 & H3). exists r. repeat (split; [assumption|]).
  apply make_adjoint with (bs := bs) (o := o) (m := [3; k]) (F := mat_at false gb ts k); [|exact H1| |].
  - intros g' t' Sg St. rewrite Eg in Sg. rewrite Et in St. destruct (act_so3_forward g' t' dim_out gb ts o bt bs k Sg St L D) as (r' & A1 & A2 & A3).
    exists r'. split; [exact A1|]. split; [exact A2|]. intros bi oi z Hb Ho Hz. apply inr_mat in Hz. destruct Hz as (i & j & -> & Hi & Hj).
    unfold mat_at; cbn [nth]. apply A3; assumption.
  - intros; apply prod_move.
  - intros grad Egr. destruct (left_act_reduces g t gb ts o bt bs k Eg Et L grad Egr) as (jg & jt & a & b & E1 & E2 & E3 & E4 & E5).
    exists a, b. unfold left_act_backward_so3. rewrite (dims_cases _ _ _ _ _ _ _ _ Eg Et D), E1. cbn [opt_bind fst snd]. rewrite E2. cbn [opt_bind]. rewrite E3. cbn [opt_bind].
    split; [reflexivity|]. split; [exact E4|]. split; [exact E5|]. intros dG dT.
    rewrite (left_act_adjoint g t gb ts o bt bs k Eg Et L grad jg jt a b dG dT Egr E1 E2 E3).
    apply isum_ext; intros bi _. apply isum_ext; intros oi _. rewrite isum_two. apply rsum_ext; intros i _. apply rsum_ext; intros j _.
    unfold tangent, mat_at, prod_at; cbn [nth]. rewrite rsum_plus. reflexivity.
Qed.
Lemma cat_zero_blocks j B : sh j = B ++ [3; 3] -> sh (cat_zero_col j) = B ++ [3; 4] /\ (forall x i l, l < 3 -> dat (cat_zero_col j) (x ++ [i; l]) = dat j (x ++ [i; l])) /\
  forall x i, dat (cat_zero_col j) (x ++ [i; 3]) = 0%R.
Proof.
  intros E. destruct (mat_bsh _ _ _ _ E) as (H0 & H1 & H2 & H3). unfold cat_zero_col; cbn [sh dat]. rewrite H0, H1, H2. split; [reflexivity|]. split.
  - intros x i l Hl. destruct (idx_split x i l) as (_ & _ & _ & ->). destruct (Nat.ltb_spec l 3); [reflexivity|lia].
  - intros x i. destruct (idx_split x i 3) as (_ & _ & _ & ->). reflexivity.
Qed.
Lemma reduce_cat j gb bs (sg : list nat) : sh j = bs ++ [3; 3] -> expands gb bs -> sg = gb ++ [3; 4] -> exists a, reduce sg (cat_zero_col j) = Some a /\ sh a = sg /\
  forall dG, isum sg (fun x => dat a x * dG x)%R = isum (bs ++ [3; 3]) (fun y => dat j y * dG (bidx (gb ++ [3%nat; 3%nat]) y))%R.
Proof.
  intros E X ->. destruct (cat_zero_blocks j bs E) as (C1 & C2 & C3). destruct (reduce_adjoint (gb ++ [3; 4]) (cat_zero_col j)) as (a & A1 & A2 & A3); [rewrite C1; apply expands_tail; exact X|].
  exists a. split; [exact A1|]. split; [exact A2|]. intros dG. rewrite A3, C1, !isum_app. apply isum_ext; intros bi Hb. rewrite !isum_two. apply rsum_ext; intros i Hi.
  pose proof (inr_len _ _ Hb) as Lb. destruct X as [X _]. cbn [rsum]. rewrite C3, !C2 by lia. rewrite !bidx_tail by (try (apply inr_two; lia); lia). ring.
Qed.
Lemma transpose_adjoint j gb bs (dG : list nat -> R) : sh j = bs ++ [3; 3] -> expands gb bs ->
  isum (bs ++ [3; 3]) (fun y => dat (transpose j) y * dG (bidx (gb ++ [3%nat; 3%nat]) y))%R =
  isum (bs ++ [3; 3]) (fun y => dat j y * dat (transpose (mkNd (gb ++ [3%nat; 3%nat]) dG)) (bidx (gb ++ [3%nat; 3%nat]) y))%R.
Proof.
  intros E [X _]. destruct (transpose_blocks j _ _ _ E) as [T1 T2].
  destruct (transpose_blocks (mkNd (gb ++ [3; 3]) dG) gb 3 3 eq_refl) as [U1 U2]. rewrite !isum_app. apply isum_ext; intros bi Hb. pose proof (inr_len _ _ Hb) as Lb.
  rewrite !isum_two. rewrite rsum_exch. apply rsum_ext; intros i Hi. apply rsum_ext; intros l Hl. rewrite T2.
  rewrite !bidx_tail by (try (apply inr_two; lia); lia). rewrite U2. reflexivity.
Qed.

Theorem C78_left_act_se3 g t dim_out gb ts o bt bs k : sh g = gb ++ [3; 4] -> sh t = ts ++ [3; k] -> layout gb ts o bt bs -> out_dims dim_out gb ts o ->
  exists r, left_act_se3 g t dim_out = Some r /\ sh r = bs ++ o ++ [3; k] /\
  (forall bi oi i j, inr bs bi -> inr o oi -> i < 3 -> j < k -> dat r (bi ++ oi ++ [i; j]) = prod_at false gb ts k (dat g) (dat t) bi oi i j) /\
  adjoint_of (fun g t => left_act_se3 g t dim_out) (fun g t grad => left_act_backward_se3 g t dim_out grad) g t r.
Proof.
  intros Eg Et L D. destruct (act_se3_forward g t dim_out gb ts o bt bs k Eg Et L D) as (r & H1 & H2 & H3). exists r. repeat (split; [assumption|]).
  apply make_adjoint with (bs := bs) (o := o) (m := [3; k]) (F := mat_at false gb ts k); [|exact H1| |].
  - intros g' t' Sg St. rewrite Eg in Sg. rewrite Et in St. destruct (act_se3_forward g' t' dim_out gb ts o bt bs k Sg St L D) as (r' & A1 & A2 & A3).
    exists r'. split; [exact A1|]. split; [exact A2|]. intros bi oi z Hb Ho Hz. apply inr_mat in Hz. destruct Hz as (i & j & -> & Hi & Hj).
    unfold mat_at; cbn [nth]. apply A3; assumption.
  - intros; apply prod_move.
  - intros grad Egr. destruct (first_cols_blocks g gb 4 Eg) as [F1 F2]; [lia|]. destruct (layout_facts _ _ _ _ _ L) as (_ & _ & _ & X1 & X2 & _).
    destruct (left_act_helper_core (first_cols 3 g) t gb ts o bt bs k F1 Et L grad Egr) as (jg & jt & E1 & S1 & S2 & J1 & J2).
    destruct (reduce_cat jg gb bs (sh g) S1 X1 Eg) as (a & A1 & A2 & A3).
    destruct (reduce_adjoint (sh t) jt) as (b & B1 & B2 & B3); [rewrite S2, Et, app_assoc; apply expands_tail; exact X2|].
    exists a, b. unfold left_act_backward_se3. rewrite (dims_cases _ _ _ _ _ _ _ _ Eg Et D), E1. cbn [opt_bind fst snd]. rewrite A1. cbn [opt_bind]. rewrite B1. cbn [opt_bind].
    split; [reflexivity|]. split; [exact A2|]. split; [exact B2|]. intros dG dT. rewrite A3, B3, S2, Et.
    rewrite (helper_adjoint_g t gb ts o bt bs k L grad jg dG J1).
    rewrite (helper_adjoint_t (first_cols 3 g) gb ts o bs k grad jt dT J2).
    rewrite <- isum_plus. apply isum_ext; intros bi _.
    rewrite <- isum_plus. apply isum_ext; intros oi _. rewrite <- rsum_plus. rewrite isum_two. apply rsum_ext; intros i _. rewrite <- rsum_plus. apply rsum_ext; intros j _.
    unfold mat_at, prod_at; cbn [nth]. rewrite F2. ring.
Qed.

(** ** left_project *)
Lemma lift3_blocks w B : sh w = B ++ [3] -> sh (lift_so3 w) = B ++ [3; 3] /\ forall x M,
  rsum 3 (fun i => rsum 3 (fun j => dat (lift_so3 w) (x ++ [i; j]) * M i j))%R = rsum 3 (fun c => dat w (x ++ [c]) * vee3 M c)%R.
Proof.
  intros E. assert (B0 : firstn (ndim w - 1) (sh w) = B) by (rewrite E; apply firstn_app_exact; rewrite app_length; cbn; lia).
  unfold lift_so3; cbn [sh dat]. rewrite B0. split; [reflexivity|]. intros x M. cbn [rsum].
  repeat match goal with |- context [length (x ++ [?i; ?j]) - 2] => destruct (idx_split x i j) as (-> & -> & -> & ->) end. cbn. ring.
Qed.
Lemma lift6_blocks w B : sh w = B ++ [6] -> sh (lift_se3 w) = B ++ [3; 4] /\ forall x M,
  rsum 3 (fun i => rsum 4 (fun j => dat (lift_se3 w) (x ++ [i; j]) * M i j))%R = rsum 6 (fun c => dat w (x ++ [c]) * vee6 M c)%R.
Proof.
  intros E. assert (B0 : firstn (ndim w - 1) (sh w) = B) by (rewrite E; apply firstn_app_exact; rewrite app_length; cbn; lia).
  unfold lift_se3; cbn [sh dat]. rewrite B0. split; [reflexivity|]. intros x M. cbn [rsum].
  repeat match goal with |- context [length (x ++ [?i; ?j]) - 2] => destruct (idx_split x i j) as (-> & -> & -> & ->) end. cbn. ring.
Qed.
Lemma vee3_plus M N c : vee3 (fun i j => M i j + N i j)%R c = (vee3 M c + vee3 N c)%R.
Proof. unfold vee3; destruct c as [|[|c]]; ring. Qed.
Lemma vee6_plus M N c : vee6 (fun i j => M i j + N i j)%R c = (vee6 M c + vee6 N c)%R.
Proof. unfold vee6; destruct (c <? 3); [reflexivity|apply vee3_plus]. Qed.
Definition vec_at (vee : (nat -> nat -> R) -> nat -> R) gb ts k (G T : list nat -> R) (bi oi z : list nat) : R := vee (prod_at true gb ts k G T bi oi) (nth 0 z 0).

Theorem C78_left_project_so3 g t dim_out gb ts o bt bs : sh g = gb ++ [3; 3] -> sh t = ts ++ [3; 3] -> layout gb ts o bt bs -> out_dims dim_out gb ts o ->
  exists r, left_project_so3 g t dim_out = Some r /\ sh r = bs ++ o ++ [3] /\
  (forall bi oi c, inr bs bi -> inr o oi -> dat r (bi ++ oi ++ [c]) = vee3 (prod_at true gb ts 3 (dat g) (dat t) bi oi) c) /\
  adjoint_of (fun g t => left_project_so3 g t dim_out) (fun g t grad => left_project_backward_so3 g t dim_out grad) g t r.
Proof.
  intros Eg Et L D. destruct (project_so3_forward g t dim_out gb ts o bt bs Eg Et L D) as (r & H1 & H2 & H3). exists r. repeat (split; [assumption|]).
  apply make_adjoint with (bs := bs) (o := o) (m := [3]) (F := vec_at vee3 gb ts 3); [|exact H1| |].
  - intros g' t' Sg St. rewrite Eg in Sg. rewrite Et in St. destruct (project_so3_forward g' t' dim_out gb ts o bt bs Sg St L D) as (r' & A1 & A2 & A3).
    exists r'. split; [exact A1|]. split; [exact A2|]. intros bi oi z Hb Ho Hz. apply inr_vec in Hz. destruct Hz as (i & -> & Hi).
    unfold vec_at; cbn [nth]. apply A3; assumption.
  - intros; apply vee3_move; intros; apply prod_move.
  - intros grad Egr. destruct (layout_facts _ _ _ _ _ L) as (_ & _ & _ & X1 & X2 & _).
    rewrite app_assoc in Egr. destruct (lift3_blocks grad _ Egr) as [Li1 Li2]. rewrite <- app_assoc in Li1.
    destruct (transpose_blocks g gb 3 3 Eg) as [T1 T2].
    destruct (left_act_helper_core (transpose g) t gb ts o bt bs 3 T1 Et L (lift_so3 grad) Li1) as (jg & jt & E1 & S1 & S2 & J1 & J2).
    destruct (transpose_blocks jg bs 3 3 S1) as [U1 U2].
    destruct (reduce_adjoint (sh g) (transpose jg)) as (a & A1 & A2 & A3); [rewrite U1, Eg; apply expands_tail; exact X1|].
    destruct (reduce_adjoint (sh t) jt) as (b & B1 & B2 & B3); [rewrite S2, Et, app_assoc; apply expands_tail; exact X2|].
    exists a, b. unfold left_project_backward_so3, left_project_helper. rewrite (dims_cases _ _ _ _ _ _ _ _ Eg Et D), E1. cbn [opt_bind fst snd]. rewrite A1. cbn [opt_bind]. rewrite B1. cbn [opt_bind].
    split; [reflexivity|]. split; [exact A2|]. split; [exact B2|]. intros dG dT. rewrite A3, B3, U1, S2, Eg, Et.
    rewrite (transpose_adjoint jg gb bs dG S1 X1).
    rewrite (helper_adjoint_g t gb ts o bt bs 3 L (lift_so3 grad) jg _ J1).
    rewrite (helper_adjoint_t (transpose g) gb ts o bs 3 (lift_so3 grad) jt dT J2).
    rewrite <- isum_plus. apply isum_ext; intros bi Hb.
    rewrite <- isum_plus. apply isum_ext; intros oi _.
    rewrite isum_one. unfold vec_at; cbn [nth].
    transitivity (rsum 3 (fun c => dat grad ((bi ++ oi) ++ [c]) * vee3 (fun i j => prod_at true gb ts 3 dG (dat t) bi oi i j + prod_at true gb ts 3 (dat g) dT bi oi i j) c)%R).
    + rewrite <- Li2. rewrite <- rsum_plus. apply rsum_ext; intros i _. rewrite <- rsum_plus. apply rsum_ext; intros j _. rewrite !app3. rewrite Rmult_plus_distr_l.
      destruct (transpose_blocks (mkNd (gb ++ [3; 3]) dG) gb 3 3 eq_refl) as [_ V2].
      f_equal; (f_equal; unfold prod_at; apply rsum_ext; intros l _; rewrite ?V2, ?T2; reflexivity).
    + apply rsum_ext; intros c _. rewrite vee3_plus, app3. reflexivity.
Qed.
Theorem C78_left_project_se3 g t dim_out gb ts o bt bs : sh g = gb ++ [3; 4] -> sh t = ts ++ [3; 4] -> layout gb ts o bt bs -> out_dims dim_out gb ts o ->
  exists r, left_project_se3 g t dim_out = Some r /\ sh r = bs ++ o ++ [6] /\
  (forall bi oi c, inr bs bi -> inr o oi -> dat r (bi ++ oi ++ [c]) = vee6 (prod_at true gb ts 4 (dat g) (dat t) bi oi) c) /\
  adjoint_of (fun g t => left_project_se3 g t dim_out) (fun g t grad => left_project_backward_se3 g t dim_out grad) g t r.
Proof.
  intros Eg Et L D. destruct (project_se3_forward g t dim_out gb ts o bt bs Eg Et L D) as (r & H1 & H2 & H3). exists r. repeat (split; [assumption|]).
  apply make_adjoint with (bs := bs) (o := o) (m := [6]) (F := vec_at vee6 gb ts 4); [|exact H1| |].
  - intros g' t' Sg St. rewrite Eg in Sg. rewrite Et in St. destruct (project_se3_forward g' t' dim_out gb ts o bt bs Sg St L D) as (r' & A1 & A2 & A3).
    exists r'. split; [exact A1|]. split; [exact A2|]. intros bi oi z Hb Ho Hz. apply inr_vec in Hz. destruct Hz as (i & -> & Hi).
    unfold vec_at; cbn [nth]. apply A3; assumption.
  - intros; apply vee6_move; intros; apply prod_move.
  - intros grad Egr. destruct (layout_facts _ _ _ _ _ L) as (_ & _ & _ & X1 & X2 & _).
    rewrite app_assoc in Egr. destruct (lift6_blocks grad _ Egr) as [Li1 Li2]. rewrite <- app_assoc in Li1.
    destruct (first_cols_blocks g gb 4 Eg) as [F1 F2]; [lia|]. destruct (transpose_blocks (first_cols 3 g) gb 3 3 F1) as [T1 T2]. rewrite F2 in T2.
    destruct (left_act_helper_core (transpose (first_cols 3 g)) t gb ts o bt bs 4 T1 Et L (lift_se3 grad) Li1) as (jg & jt & E1 & S1 & S2 & J1 & J2).
    destruct (transpose_blocks jg bs 3 3 S1) as [U1 U2].
    destruct (reduce_cat (transpose jg) gb bs (sh g) U1 X1 Eg) as (a & A1 & A2 & A3).
    destruct (reduce_adjoint (sh t) jt) as (b & B1 & B2 & B3); [rewrite S2, Et, app_assoc; apply expands_tail; exact X2|].
    exists a, b. unfold left_project_backward_se3, left_project_helper. rewrite (dims_cases _ _ _ _ _ _ _ _ Eg Et D), E1. cbn [opt_bind fst snd]. rewrite A1. cbn [opt_bind]. rewrite B1. cbn [opt_bind].
    split; [reflexivity|]. split; [exact A2|]. split; [exact B2|]. intros dG dT. rewrite A3, B3, S2, Et.
    rewrite (transpose_adjoint jg gb bs dG S1 X1).
    rewrite (helper_adjoint_g t gb ts o bt bs 4 L (lift_se3 grad) jg _ J1).
    rewrite (helper_adjoint_t (transpose (first_cols 3 g)) gb ts o bs 4 (lift_se3 grad) jt dT J2).
    rewrite <- isum_plus. apply isum_ext; intros bi Hb.
    rewrite <- isum_plus. apply isum_ext; intros oi _.
    rewrite isum_one. unfold vec_at; cbn [nth].
    transitivity (rsum 6 (fun c => dat grad ((bi ++ oi) ++ [c]) * vee6 (fun i j => prod_at true gb ts 4 dG (dat t) bi oi i j + prod_at true gb ts 4 (dat g) dT bi oi i j) c)%R).
    + rewrite <- Li2. rewrite <- rsum_plus. apply rsum_ext; intros i _. rewrite <- rsum_plus. apply rsum_ext; intros j _. rewrite !app3. rewrite Rmult_plus_distr_l.
      destruct (transpose_blocks (mkNd (gb ++ [3; 3]) dG) gb 3 3 eq_refl) as [_ V2].
      f_equal; (f_equal; unfold prod_at; apply rsum_ext; intros l _; rewrite ?V2, ?T2; reflexivity).
    + apply rsum_ext; intros c _. rewrite vee6_plus, app3. reflexivity.
Qed.
