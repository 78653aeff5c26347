(** The optimization loop with an accept/reject rule that only accepts steps which do not increase the
    error: the recorded errors never increase. *)
From Coq Require Import List Arith Bool ZArith QArith Qabs Lia.
Import ListNotations.
From Verif Require Import NL_model NL_proofs.

(** [e] is not larger than [p], unless one of them is nan *)
Definition not_larger (p e : ext) : Prop := p = NaN \/ e = NaN \/ elt p e = false.

Section P.
Context {X D Z0 : Type}.
Variable n : nat.
Variable errf : X -> ext.
Variable retr : X -> D -> X.
Variable compute_delta : Z0 -> (nat -> X) -> Z0 * option (nat -> D).
Variable gn_solve : Z0 -> (nat -> X) -> Z0 * option (nat -> D).
Variable complete : Z0 -> (nat -> X) -> (nat -> D) -> (nat -> ext) -> (nat -> ext) -> Z0 * option (nat -> bool).
Variable scale : D -> D.
Variable abs_tol rel_tol : Q.
(** facts kept about the optimizer state, and what the solver promises about its steps *)
Variable zinv : Z0 -> Prop.
Variable good : Z0 -> X -> D -> nat -> Prop.
Hypothesis solver_ok : forall z x z' d, zinv z -> compute_delta z x = (z', Some d) ->
  zinv z' /\ forall i, good z' (x i) (d i) i.
Hypothesis complete_ok : forall z x d e p z' r, zinv z -> complete z x d e p = (z', r) -> zinv z'.
(** an element that is not rejected does not get worse *)
Hypothesis accept_ok : forall z x d e p z' r i, zinv z -> (i < n)%nat ->
  good z (x i) (d i) i -> e i = errf (retr (x i) (scale (d i))) -> p i = errf (x i) ->
  complete z x (fun i => scale (d i)) e p = (z', r) ->
  match r with Some m => m i = false | None => True end -> not_larger (p i) (e i).

Notation lstate := (@lstate X Z0).
Notation body := (body n errf retr compute_delta gn_solve complete scale abs_tol rel_tol).
Notation check := (check_convergence n abs_tol rel_tol).
Notation optimize_unroll := (optimize_unroll n errf retr compute_delta gn_solve complete scale abs_tol rel_tol).
Notation reaches := (reaches n errf retr compute_delta gn_solve complete scale abs_tol rel_tol).
Notation inv := (inv n errf abs_tol rel_tol).
Notation next_info := (next_info n abs_tol rel_tol).

Lemma not_larger_refl e : not_larger e e.
Proof. right. right. apply elt_irrefl. Qed.

(** a step of an element either keeps it, or is the retraction along its own delta and not worse *)
Definition moved_ok (s : lstate) (x' : nat -> X) (err : nat -> ext) : Prop := forall i, (i < n)%nat ->
  not_larger (i_last_err (l_info s) i) (err i).

Lemma body_desc num g st s c : inv num s -> zinv (l_z s) -> body g false st s = c ->
  (exists z, c = Stop (let s' := mkL z (l_x s) (l_it s) (l_attempts s) (l_conv s)
                  (if g then l_info s else with_status (l_info s) (fun _ => FAIL))
                  (l_iters_done s) (S (l_solves s)) (l_recorded s) in
           if g then Raised s' else Failed s')) \/
  (exists z, zinv z /\ c = Next (mkL z (l_x s) (l_it s) (S (l_attempts s)) (l_conv s) (l_info s) (l_iters_done s) (S (l_solves s)) (l_recorded s))) \/
  (exists z x2 e2, zinv z /\ moved_ok s x2 e2 /\
    let conv2 := check e2 (i_last_err (l_info s)) in
    c = if all_b n conv2
        then Stop (Finished (mkL z x2 (l_it s) 0 conv2 (next_info s e2 x2) (l_iters_done s) (S (l_solves s)) (S (l_recorded s))))
        else Next (mkL z x2 (S (l_it s)) 0 conv2 (with_last_err (next_info s e2 x2) e2) (S (l_iters_done s)) (S (l_solves s)) (S (l_recorded s)))).
Proof.
  intros HI HZ <-. unfold body, NL_model.body.
  destruct (compute_delta (l_z s) (l_x s)) as [z [d|]] eqn:Ed; [|left; eauto].
  right. destruct (solver_ok _ _ _ _ HZ Ed) as [HZ1 Hg].
  pose proof (iv_last _ _ _ _ _ _ HI) as Hl.
  unfold NL_model.step. cbn [negb]. cbn iota.
  set (xr := fun i => if l_conv s i && true then l_x s i else retr (l_x s i) (scale (d i))).
  destruct (complete z (l_x s) (fun i => scale (d i)) (fun i => errf (xr i)) (i_last_err (l_info s))) as [z' rej] eqn:Ec.
  change (fun i : nat => errf (if l_conv s i && true then l_x s i else retr (l_x s i) (scale (d i)))) with (fun i => errf (xr i)).
  cbv beta in Ec. rewrite Ec.
  pose proof (complete_ok _ _ _ _ _ _ _ HZ1 Ec) as HZ2.
  assert (Hacc : forall i, (i < n)%nat -> match rej with Some m => m i = false | None => True end ->
            not_larger (i_last_err (l_info s) i) (errf (xr i))).
  { intros i Hi Hr. destruct (l_conv s i) eqn:Ecv.
    - assert (E : xr i = l_x s i) by (unfold xr; now rewrite Ecv). rewrite E, Hl by exact Hi. apply not_larger_refl.
    - refine (accept_ok z (l_x s) d (fun i => errf (xr i)) (i_last_err (l_info s)) z' rej i HZ1 Hi (Hg i) _ (Hl i Hi) Ec Hr).
      unfold xr. now rewrite Ecv. }
  destruct rej as [m|].
  - destruct (all_b n m) eqn:Ea.
    + cbn [andb]. unfold max_all_reject_attempts. destruct (Nat.ltb_spec (S (l_attempts s)) 3) as [Hlt|Hge].
      * left. eauto.
      * right. exists z', (l_x s), (i_last_err (l_info s)). split; [exact HZ2|]. split; [|reflexivity].
        intros i Hi. apply not_larger_refl.
    + cbn [andb]. right. eexists z', _, _. split; [exact HZ2|]. split; [|reflexivity].
      intros i Hi. cbv beta.
      assert (G : not_larger (i_last_err (l_info s) i) (errf (if m i then l_x s i else xr i))).
      { destruct (m i) eqn:Em; [rewrite Hl by exact Hi; apply not_larger_refl|]. now apply Hacc. }
      destruct (any_b n m) eqn:Ey; [exact G|].
      assert (Em : m i = false).
      { destruct (m i) eqn:Em; [|reflexivity]. rewrite <- Ey. symmetry. unfold any_b. apply existsb_exists.
        exists i. split; [apply in_seq; lia|exact Em]. }
      rewrite Em in G. exact G.
  - cbn [andb]. right. eexists z', _, _. split; [exact HZ2|]. split; [|reflexivity].
    intros i Hi. apply Hacc; [exact Hi|exact I].
Qed.

Definition decreasing (f : @info X) (k : nat) : Prop := forall c i, (c < k)%nat -> (i < n)%nat ->
  not_larger (i_err_hist f c i) (i_err_hist f (S c) i).

Lemma decreasing_ext f f' k : i_err_hist f' = i_err_hist f -> decreasing f k -> decreasing f' k.
Proof. intros E H c i Hc Hi. rewrite E. now apply H. Qed.

Lemma next_decreasing num s e2 x2 : inv num s -> decreasing (l_info s) (l_it s) -> moved_ok s x2 e2 ->
  decreasing (next_info s e2 x2) (S (l_it s)).
Proof.
  intros HI HD HM c i Hc Hi. unfold next_info, NL_proofs.next_info. cbn [i_err_hist with_status update_info].
  rewrite (setcol_ne _ _ _ c) by lia. destruct (Nat.eq_dec c (l_it s)) as [->|Hne].
  - rewrite setcol_eq. rewrite <- (iv_lasth _ _ _ _ _ _ HI). now apply HM.
  - rewrite setcol_ne by lia. apply HD; [lia|exact Hi].
Qed.

Lemma reaches_decreasing num g st s s' : reaches num g false st s s' -> inv num s -> zinv (l_z s) ->
  decreasing (l_info s) (l_it s) -> decreasing (l_info s') (l_recorded s').
Proof.
  induction 1 as [s|s s1 s2 Hlt Hb Hr IH|s o Hlt Hb]; intros HI HZ HF.
  - destruct (iv_it _ _ _ _ _ _ HI) as (_ & -> & _). exact HF.
  - destruct (body_next_inv n errf retr compute_delta gn_solve complete scale abs_tol rel_tol num g false st s s1 HI Hlt Hb) as [HI1 _].
    destruct (body_desc num g st s _ HI HZ Hb) as [(z & E)|[(z & Hz & E)|(z & x2 & e2 & Hz & He & E)]]; cbv zeta in E.
    + destruct g; discriminate.
    + injection E as ->. apply IH; [exact HI1|exact Hz|exact HF].
    + destruct (all_b n _) in E; [discriminate|]. injection E as ->. apply IH; [exact HI1|exact Hz|].
      cbn [l_it l_info]. apply (decreasing_ext (next_info s e2 x2)); [reflexivity|]. eapply next_decreasing; eauto.
  - destruct (iv_it _ _ _ _ _ _ HI) as (_ & Er & _).
    destruct (body_desc num g st s _ HI HZ Hb) as [(z & E)|[(z & Hz & E)|(z & x2 & e2 & Hz & He & E)]]; cbv zeta in E.
    + destruct g; injection E as ->; cbn [stopped l_info l_recorded]; rewrite Er; [exact HF|].
      apply (decreasing_ext (l_info s)); [reflexivity|exact HF].
    + discriminate.
    + destruct (all_b n _) in E; [|discriminate]. injection E as ->. cbn [stopped l_info l_recorded]. rewrite Er.
      eapply next_decreasing; eauto.
Qed.

(** In the returned error history no error is larger than the one before it. *)
Theorem history_not_increasing : forall max_iter g st z x f x', zinv z ->
  optimize_unroll max_iter g st z x = Some (f, x') ->
  forall c i, (c < max_iter)%nat -> (i < n)%nat -> i_state_hist f (S c) i <> None ->
    not_larger (i_err_hist f c i) (i_err_hist f (S c) i).
Proof.
  intros m g st z x f x' HZ. unfold optimize_unroll, NL_model.optimize_unroll.
  destruct (loop_ends n errf retr compute_delta gn_solve complete scale abs_tol rel_tol m g false st (3 * m)
              _ (inv_init n errf abs_tol rel_tol m z x)) as (o & -> & F & R & K); [simpl; lia|].
  assert (HF : decreasing (l_info (stopped o)) (l_recorded (stopped o))).
  { apply (reaches_decreasing m g st _ _ R); [apply inv_init|exact HZ|]. intros c i Hc Hi. simpl in Hc. lia. }
  assert (HR : recorded_ok n errf (l_recorded (stopped o)) (l_x (stopped o)) (l_info (stopped o))) by apply F.
  assert (Hk : forall c i, i_state_hist (l_info (stopped o)) (S c) i <> None -> (c < l_recorded (stopped o))%nat).
  { intros c i H. destruct (Nat.lt_ge_cases c (l_recorded (stopped o))) as [L|L]; [exact L|exfalso].
    apply H. destruct (ro_fresh _ _ _ _ _ HR (S c)) as [-> _]; [lia|reflexivity]. }
  destruct o as [s|s|s]; cbn [finish_outcome outcome_state stopped] in *; [| |discriminate];
    intros H; injection H as <- <-; intros c i Hc Hi Hs; apply HF; auto; apply (Hk c i); exact Hs.
Qed.
End P.
