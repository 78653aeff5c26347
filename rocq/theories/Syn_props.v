(** C85, lemmas *)
From Coq Require Import Reals Lra Psatz List Arith Lia Bool ZArith.
From Verif Require Import Geo_spec Geo3_spec Geo4_spec SE2_model SO3_model SO3_group SE3_model SE3_group SE3_exp G2o_model Syn_model Syn_spec.
Import ListNotations.
Local Open Scope R_scope.

Lemma rig_compose g h : rigid3 g -> rigid3 h -> rigid3 (se3_compose g h).
Proof. intros Hg Hh. now apply (C37_group g h g Hg Hh Hg). Qed.
Lemma rig_inverse g : rigid3 g -> rigid3 (se3_inverse g).
Proof. intros Hg. now apply (C37_group g g g Hg Hg Hg). Qed.
Lemma rig_id : rigid3 (mkRig I3 zero3).
Proof.
  unfold rigid3, rotation3, orthogonal3, det3, I3. cbn [rr]. split; [|cbn [d00 d01 d02 d10 d11 d12 d20 d21 d22]; ring].
  try split; apply M3_ext; cbn; ring.
Qed.

Lemma noise_within tn rn u : draw u -> within tn rn (noise_twist tn rn u).
Proof.
  intros (H0 & H1 & H2 & H3 & H4 & H5).
  assert (K : forall t x, in01 x -> Rabs (t * (2 * x + -1)) <= Rabs t).
  { intros t x Hx. rewrite Rabs_mult. rewrite <- (Rmult_1_r (Rabs t)) at 2. apply Rmult_le_compat_l; [apply Rabs_pos|].
    unfold in01 in Hx. apply Rabs_le. lra. }
  unfold within, noise_twist, scal3, affine3. cbn [lin ang b0 b1 b2]. repeat split; now apply K.
Qed.

Lemma mapO_exp {A} (f : A -> option Rig) (Q : A -> Rig -> Prop) l : (forall x, In x l -> exists g, f x = Some g /\ Q x g) ->
  exists r, mapO f l = Some r /\ Forall2 Q l r.
Proof.
  induction l as [|x l IH]; intros H; [exists []; split; [reflexivity|constructor]|].
  destruct (H x (or_introl eq_refl)) as (g & E & Qg). destruct (IH (fun y Hy => H y (or_intror Hy))) as (r & Er & F).
  exists (g :: r). cbn [mapO]. rewrite E. cbv beta iota delta [bind]. rewrite Er. split; [reflexivity|now constructor].
Qed.

Lemma zip_len a b : List.length a = List.length b -> List.length (zip_compose a b) = List.length a.
Proof. intros L. unfold zip_compose. rewrite map_length, combine_length. lia. Qed.
Lemma zip_nth a b k z : nth_error (zip_compose a b) k = Some z ->
  exists x y, nth_error a k = Some x /\ nth_error b k = Some y /\ z = se3_compose x y.
Proof.
  unfold zip_compose. revert a b. induction k as [|k IH]; intros [|x a] [|y b] H; cbn in *; try discriminate.
  - injection H as <-. now exists x, y.
  - now apply IH.
Qed.
Lemma zip_rigid a b : Forall rigid3 a -> Forall rigid3 b -> Forall rigid3 (zip_compose a b).
Proof.
  intros Ha Hb. apply Forall_forall. intros z Hz. apply In_nth_error in Hz. destruct Hz as (k & Hk).
  apply zip_nth in Hk. destruct Hk as (x & y & Ex & Ey & ->). rewrite Forall_forall in *.
  apply rig_compose; [apply Ha|apply Hb]; eapply nth_error_In; eassumption.
Qed.
(** composing with the noise: every element is composed with a pose of the noise *)
Lemma compose_batch_nth a b k z : (List.length b = List.length a \/ exists h, b = [h]) ->
  nth_error (compose_batch a b) k = Some z ->
  exists x y, nth_error a k = Some x /\ In y b /\ z = se3_compose x y.
Proof.
  intros L H. unfold compose_batch in H.
  destruct b as [|y [|y' b]]; [| |].
  - apply zip_nth in H. destruct H as (x & y & Ex & Ey & ->). now destruct k.
  - rewrite nth_error_map in H. destruct (nth_error a k) as [x|] eqn:E; [|discriminate]. injection H as <-.
    exists x, y. split; [reflexivity|]. split; [now left|reflexivity].
  - apply zip_nth in H. destruct H as (x & z' & Ex & Ey & ->). exists x, z'. split; [exact Ex|]. split; [now apply nth_error_In in Ey|reflexivity].
Qed.
Lemma compose_batch_len a b : (List.length b = List.length a \/ exists h, b = [h]) -> List.length (compose_batch a b) = List.length a.
Proof.
  intros L. unfold compose_batch. destruct b as [|y [|y' b]].
  - destruct L as [L|(h & E)]; [|discriminate]. apply zip_len. now rewrite L.
  - apply map_length.
  - destruct L as [L|(h & E)]; [|discriminate]. apply zip_len. now rewrite L.
Qed.

Definition pair_of (e : DEdge Rig (list R)) : Z * Z := (de_i e, de_j e).
Record GInv (d : dtype) (tn rn : R) (N m : nat) (s : GenState) : Prop := mkGI {
  gi_len : List.length (g_gt s) = m;
  gi_gt : forall p, In p (g_gt s) -> List.length p = N /\ Forall rigid3 p;
  gi_first : nth_error (g_gt s) 0 = Some (repeat (mkRig I3 zero3) N);
  gi_edges : Forall2 (edge_good d tn rn N (g_gt s)) (g_edges s) (g_inliers s);
  gi_pairs : NoDup (map pair_of (g_edges s));
  gi_chain : forall k, (1 <= k < m)%nat -> exists p e, nth_error (g_edges s) p = Some e /\ nth_error (g_inliers s) p = Some true /\
       de_i e = Z.of_nat (k - 1) /\ de_j e = Z.of_nat k }.

Lemma edge_good_mono d tn rn N gt gt' e b : edge_good d tn rn N gt e b -> edge_good d tn rn N (gt ++ gt') e b.
Proof.
  intros (i & j & gi & gj & E1 & E2 & L & N1 & N2 & R1). exists i, j, gi, gj. repeat (split; [assumption|]).
  split; [rewrite nth_error_app1; [exact N1|]; apply nth_error_Some; congruence|].
  split; [rewrite nth_error_app1; [exact N2|]; apply nth_error_Some; congruence|]. exact R1.
Qed.
Lemma edge_range d tn rn N gt e b : edge_good d tn rn N gt e b -> exists i j, de_i e = Z.of_nat i /\ de_j e = Z.of_nat j /\ (i < j < List.length gt)%nat.
Proof.
  intros (i & j & gi & gj & E1 & E2 & L & N1 & N2 & R1). exists i, j. split; [exact E1|]. split; [exact E2|]. split; [exact L|].
  apply nth_error_Some. congruence.
Qed.
Lemma Forall2_In_l' {A B} (P : A -> B -> Prop) l m x : Forall2 P l m -> In x l -> exists y, P x y.
Proof.
  induction 1 as [|a b l m Pab F IH]; intros H; [easy|]. destruct H as [->|H]; [now exists b|now apply IH].
Qed.
Lemma F2_len {A B} (P : A -> B -> Prop) l m : Forall2 P l m -> List.length l = List.length m.
Proof. induction 1; cbn; congruence. Qed.

Lemma nodup_snoc {A} (l : list A) x : NoDup l -> ~ In x l -> NoDup (l ++ [x]).
Proof.
  intros H Hx. induction l as [|a l IH]; cbn; [constructor; [easy|constructor]|].
  inversion H as [|? ? H1 H2]; subst. constructor.
  - intros Hi. apply in_app_or in Hi. destruct Hi as [Hi|[Hi|[]]]; [easy|]. subst. apply Hx. now left.
  - apply IH; [exact H2|]. intros Hi. apply Hx. now right.
Qed.

Lemma chain_snoc (s : GenState) e b k : List.length (g_edges s) = List.length (g_inliers s) ->
  (exists p e', nth_error (g_edges s) p = Some e' /\ nth_error (g_inliers s) p = Some true /\ de_i e' = Z.of_nat (k - 1) /\ de_j e' = Z.of_nat k) ->
  exists p e', nth_error (g_edges s ++ [e]) p = Some e' /\ nth_error (g_inliers s ++ [b]) p = Some true /\ de_i e' = Z.of_nat (k - 1) /\ de_j e' = Z.of_nat k.
Proof.
  intros L (p & e' & E1 & E2 & R1). exists p, e'. 
  split; [rewrite nth_error_app1; [exact E1|]; apply nth_error_Some; congruence|].
  split; [rewrite nth_error_app1; [exact E2|]; apply nth_error_Some; congruence|]. exact R1.
Qed.

Lemma closure_step d tn rn N n s c : GInv d tn rn N (S n) s -> loop_ok N n c ->
  ~ In (Z.of_nat (fst c), Z.of_nat n) (map pair_of (g_edges s)) ->
  exists s', gen_closure d tn rn n s c = Some s' /\ GInv d tn rn N (S n) s' /\
    map pair_of (g_edges s') = map pair_of (g_edges s) ++ [(Z.of_nat (fst c), Z.of_nat n)].
Proof.
  intros [I1 I2 I3' I4 I5 I6] [Lc Dc] Nc. unfold gen_closure.
  assert (X : exists noise, match snd c with inl u => do h <- se3_exp d (noise_twist tn rn u); Some [h] | inr p => Some p end = Some noise /\
     (List.length noise = N \/ exists h, noise = [h]) /\
     forall y, In y noise -> rigid3 y /\ (match snd c with inl _ => true | inr _ => false end = true -> exists v, within tn rn v /\ se3_exp d v = Some y)).
  { clear Nc. revert Dc. destruct (snd c) as [u|p]; intro Dc.
    - destruct (C37_exp_rigid d (noise_twist tn rn u)) as (h & E & Rh & _). rewrite E. exists [h]. split; [reflexivity|].
      split; [right; now exists h|]. intros y [<-|[]]. split; [exact Rh|]. intros _. exists (noise_twist tn rn u). split; [now apply noise_within|exact E].
    - destruct Dc as [Lp Rp]. exists p. split; [reflexivity|]. split; [now left|]. intros y Hy. rewrite Forall_forall in Rp.
      split; [now apply Rp|discriminate]. }
  destruct X as (noise & -> & Ln & Hn). cbv beta iota delta [bind].
  destruct (nth_error (g_gt s) (fst c)) as [gi|] eqn:Ei; [|apply nth_error_None in Ei; lia].
  destruct (nth_error (g_gt s) n) as [gj|] eqn:Ej; [|apply nth_error_None in Ej; lia].
  rewrite (nth_error_nth _ _ [] Ei), (nth_error_nth _ _ [] Ej).
  destruct (I2 gi (nth_error_In _ _ Ei)) as [Li Ri]. destruct (I2 gj (nth_error_In _ _ Ej)) as [Lj Rj].
  assert (Lz : List.length (zip_compose (map se3_inverse gi) gj) = N) by (rewrite zip_len; rewrite map_length; lia).
  eexists. split; [reflexivity|]. split; [|cbn [g_edges]; rewrite map_app; reflexivity].
  constructor; cbn [g_gt g_edges g_inliers]; try assumption.
  - apply Forall2_app; [exact I4|]. constructor; [|constructor].
    exists (fst c), n, gi, gj. cbn [de_i de_j de_rel de_weight]. split; [reflexivity|]. split; [reflexivity|]. split; [lia|].
    split; [exact Ei|]. split; [exact Ej|]. split; [rewrite compose_batch_len; [exact Lz|now rewrite Lz]|].
    split; [|split; [lia|reflexivity]].
    intros b a cc z Ea Ec Ez. apply compose_batch_nth in Ez; [|now rewrite Lz]. destruct Ez as (x & y & Ex & Hy & ->).
    apply zip_nth in Ex. destruct Ex as (x1 & x2 & Ex1 & Ex2 & ->). rewrite nth_error_map, Ea in Ex1. injection Ex1 as <-.
    rewrite Ec in Ex2. injection Ex2 as <-. destruct (Hn y Hy) as [Ry Vy].
    assert (Ra : rigid3 a). { rewrite Forall_forall in Ri. apply Ri. now apply nth_error_In in Ea. }
    assert (Rc : rigid3 cc). { rewrite Forall_forall in Rj. apply Rj. now apply nth_error_In in Ec. }
    pose proof (rig_inverse a Ra) as Rai. split; [repeat apply rig_compose; assumption|].
    exists y. split; [exact Ry|]. split; [|exact Vy].
    destruct (C37_group a (se3_inverse a) (se3_compose cc y) Ra Rai (rig_compose _ _ Rc Ry)) as (_ & _ & As & _ & _ & Iv & _).
    destruct (C37_group (se3_inverse a) cc y Rai Rc Ry) as (_ & _ & As2 & _).
    destruct (C37_group (se3_compose cc y) cc y (rig_compose _ _ Rc Ry) Rc Ry) as (_ & _ & _ & _ & Il & _).
    rewrite As2, <- As, Iv, Il. reflexivity.
  - rewrite map_app. apply nodup_snoc; assumption.
  - intros k Hk. apply chain_snoc; [exact (F2_len _ _ _ I4)|now apply I6].
Qed.

Lemma closures_run d tn rn N n cs : forall s, GInv d tn rn N (S n) s -> Forall (loop_ok N n) cs -> NoDup (map fst cs) ->
  (forall c, In c cs -> ~ In (Z.of_nat (fst c), Z.of_nat n) (map pair_of (g_edges s))) ->
  exists s', gen_closures d tn rn n s cs = Some s' /\ GInv d tn rn N (S n) s'.
Proof.
  induction cs as [|c cs IH]; intros s I F ND H; cbn [gen_closures]; [now exists s|].
  inversion F as [|? ? F1 F2]; subst. inversion ND as [|? ? N1 N2]; subst.
  destruct (closure_step d tn rn N n s c I F1 (H c (or_introl eq_refl))) as (s1 & E1 & I1 & P1).
  rewrite E1. cbv beta iota delta [bind]. apply IH; [exact I1|exact F2|exact N2|].
  intros c' Hc Hin. rewrite P1 in Hin. apply in_app_or in Hin. destruct Hin as [Hin|[Hin|[]]].
  - now apply (H c' (or_intror Hc)).
  - injection Hin as Hin. apply Nat2Z.inj in Hin. apply N1. rewrite Hin. now apply in_map.
Qed.

Lemma last_nth {A} (l : list A) x : l <> [] -> nth_error l (List.length l - 1) = Some (last l x).
Proof.
  intros H. destruct (exists_last H) as (l' & a & ->). rewrite last_last, app_length. cbn.
  rewrite nth_error_app2 by lia. replace (List.length l' + 1 - 1 - List.length l')%nat with 0%nat by lia. reflexivity.
Qed.

Lemma round_step d tn rn N n s r : (1 <= n)%nat -> GInv d tn rn N n s -> round_ok N n r ->
  exists s', gen_round d tn rn n s r = Some s' /\ GInv d tn rn N (S n) s'.
Proof.
  intros Hn1 [I1 I2 I3' I4 I5 I6] (L1 & L2 & D1 & D2 & Fl & Nl). unfold gen_round.
  destruct (mapO_exp (fun u => se3_exp d (gt_twist u)) (fun _ g => rigid3 g) (ro_gt r)) as (gr & Eg & Fg).
  { intros u _. destruct (C37_exp_rigid d (gt_twist u)) as (h & E & Rh & _). now exists h. }
  destruct (mapO_exp (fun u => se3_exp d (noise_twist tn rn u)) (fun u g => rigid3 g /\ exists v, within tn rn v /\ se3_exp d v = Some g) (ro_noise r)) as (nr & En & Fn).
  { intros u Hu. destruct (C37_exp_rigid d (noise_twist tn rn u)) as (h & E & Rh & _). exists h. split; [exact E|]. split; [exact Rh|].
    exists (noise_twist tn rn u). split; [apply noise_within; rewrite Forall_forall in D2; now apply D2|exact E]. }
  rewrite Eg, En. cbv beta iota delta [bind].
  pose proof (F2_len _ _ _ Fg) as Lg. pose proof (F2_len _ _ _ Fn) as Ln.
  assert (Rg : Forall rigid3 gr).
  { apply Forall_forall. intros x Hx. clear - Fg Hx. induction Fg; [easy|]. destruct Hx as [->|Hx]; [assumption|now apply IHFg]. }
  assert (Rn : forall x, In x nr -> rigid3 x /\ exists v, within tn rn v /\ se3_exp d v = Some x).
  { intros x Hx. clear - Fn Hx. induction Fn; [easy|]. destruct Hx as [->|Hx]; [assumption|now apply IHFn]. }
  assert (NE : g_gt s <> []) by (intros E; rewrite E in I1; cbn in I1; lia).
  pose proof (last_nth (g_gt s) [] NE) as El. rewrite I1 in El. set (lg := last (g_gt s) []) in *.
  destruct (I2 lg (nth_error_In _ _ El)) as [Ll Rl].
  set (gt := zip_compose lg gr). set (rel := zip_compose gr nr).
  assert (Lgt : List.length gt = N) by (unfold gt; rewrite zip_len; lia).
  assert (Rgt : Forall rigid3 gt) by now apply zip_rigid.
  assert (Egt : nth_error (g_gt s ++ [gt]) n = Some gt).
  { rewrite nth_error_app2 by lia. rewrite I1, Nat.sub_diag. reflexivity. }
  assert (OLD : forall p, In p (map pair_of (g_edges s)) -> snd p <> Z.of_nat n).
  { intros p Hp. apply in_map_iff in Hp. destruct Hp as (e & <- & He). destruct (Forall2_In_l' _ _ _ _ I4 He) as (b & Hb).
    apply edge_range in Hb. destruct Hb as (i & j & _ & E2 & Hr). unfold pair_of. cbn [snd]. rewrite E2. intros Hx. apply Nat2Z.inj in Hx. lia. }
  apply closures_run; [|exact Fl|exact Nl|].
  - constructor; cbn [g_gt g_edges g_inliers].
    + rewrite app_length. cbn. lia.
    + intros p Hp. apply in_app_or in Hp. destruct Hp as [Hp|[<-|[]]]; [now apply I2|now split].
    + rewrite nth_error_app1 by lia. exact I3'.
    + apply Forall2_app.
      * clear - I4. induction I4; constructor; [now apply edge_good_mono|assumption].
      * constructor; [|constructor]. exists (n - 1)%nat, n, lg, gt. cbn [de_i de_j de_rel de_weight].
        split; [reflexivity|]. split; [reflexivity|]. split; [lia|]. split; [rewrite nth_error_app1 by lia; exact El|].
        split; [exact Egt|]. split; [unfold rel; rewrite zip_len; lia|]. split; [|split; [discriminate|reflexivity]].
        intros b a c z Ea Ec Ez. unfold rel in Ez. apply zip_nth in Ez. destruct Ez as (x & y & Ex & Ey & ->).
        unfold gt in Ec. apply zip_nth in Ec. destruct Ec as (x1 & x2 & Ex1 & Ex2 & ->).
        rewrite Ea in Ex1. injection Ex1 as <-. rewrite Ex in Ex2. injection Ex2 as <-.
        destruct (Rn y (nth_error_In _ _ Ey)) as [Ry Vy].
        assert (Ra : rigid3 a). { rewrite Forall_forall in Rl. apply Rl. now apply nth_error_In in Ea. }
        assert (Rx : rigid3 x). { rewrite Forall_forall in Rg. apply Rg. now apply nth_error_In in Ex. }
        split; [now apply rig_compose|]. exists y. split; [exact Ry|]. split; [|intros _; exact Vy].
        destruct (C37_group a x y Ra Rx Ry) as (_ & _ & As & _). now rewrite As.
    + rewrite map_app. apply nodup_snoc; [exact I5|]. intros Hin. apply OLD in Hin. now apply Hin.
    + intros k Hk. destruct (Nat.eq_dec k n) as [->|Ne].
      * exists (List.length (g_edges s)). eexists. split; [rewrite nth_error_app2, Nat.sub_diag by lia; reflexivity|].
        split; [rewrite (F2_len _ _ _ I4); rewrite nth_error_app2, Nat.sub_diag by lia; reflexivity|]. split; reflexivity.
      * apply chain_snoc; [exact (F2_len _ _ _ I4)|]. apply I6. lia.
  - intros c Hc Hin. cbn [g_edges] in Hin. rewrite map_app in Hin. apply in_app_or in Hin. destruct Hin as [Hin|[Hin|[]]].
    + apply OLD in Hin. now apply Hin.
    + unfold pair_of in Hin. cbn [de_i de_j] in Hin. injection Hin as Hin. rewrite Forall_forall in Fl. destruct (Fl c Hc) as [Hl _].
      lia.
Qed.

Lemma rounds_run d tn rn N rs : forall n s, (1 <= n)%nat -> GInv d tn rn N n s -> rounds_ok N n rs ->
  exists s', gen_rounds d tn rn n s rs = Some s' /\ GInv d tn rn N (n + List.length rs) s'.
Proof.
  induction rs as [|r rs IH]; intros n s Hn I H; cbn [gen_rounds List.length]; [exists s; now rewrite Nat.add_0_r|].
  destruct (round_step d tn rn N n s r Hn I) as (s1 & E1 & I1).
  { specialize (H 0%nat r eq_refl). now rewrite Nat.add_0_r in H. }
  rewrite E1. cbv beta iota delta [bind]. destruct (IH (S n) s1 ltac:(lia) I1) as (s2 & E2 & I2).
  - intros k r' Hk. specialize (H (S k) r' Hk). now replace (S n + k)%nat with (n + S k)%nat by lia.
  - exists s2. split; [exact E2|]. now replace (n + S (List.length rs))%nat with (S n + List.length rs)%nat by lia.
Qed.
