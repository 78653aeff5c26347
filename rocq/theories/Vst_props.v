(** C102: comparing version strings.  Specification and theorems about [Vst_model]. *)
From Coq Require Import List Arith NArith Bool Ascii String Lia.
From Verif Require Import Vst_model.
Import ListNotations.

(** ** Specification: which strings name a version *)
Definition digit (d : nat) : ascii := ascii_of_nat (48 + d).

(** a decimal numeral and its value *)
Inductive Numeral : string -> N -> Prop :=
| num_one : forall d, d < 10 -> Numeral (String (digit d) "") (N.of_nat d)
| num_snoc : forall s n d, d < 10 -> Numeral s n ->
    Numeral (s ++ String (digit d) "") (10 * n + N.of_nat d).

(** the text after the third number: anything that does not go on with a digit *)
Definition not_digit_first (s : string) : Prop := forall d r, d < 10 -> s <> String (digit d) r.

(** [v] starts with the three numbers a.b.c, and nothing after them matters *)
Definition Version (v : string) (a b c : N) : Prop :=
  exists sa sb sc rest,
    v = (sa ++ "." ++ sb ++ "." ++ sc ++ rest)%string /\
    Numeral sa a /\ Numeral sb b /\ Numeral sc c /\ not_digit_first rest.

(** an earlier version: the first number that differs is smaller *)
Definition earlier (v w : N * N * N) : Prop :=
  let '(a, b, c) := v in let '(x, y, z) := w in
  (a < x \/ (a = x /\ (b < y \/ (b = y /\ c < z))))%N.

(** ** Characters *)
Lemma digit_code : forall d, d < 10 -> nat_of_ascii (digit d) = 48 + d.
Proof. intros. unfold digit. apply nat_ascii_embedding. lia. Qed.
Lemma digit_is : forall d, d < 10 -> is_digit (digit d) = true.
Proof.
  intros. unfold is_digit. rewrite digit_code by auto.
  destruct (Nat.leb_spec 48 (48+d)); destruct (Nat.leb_spec (48+d) 57); auto; lia.
Qed.
Lemma is_digit_iff : forall c, is_digit c = true <-> exists d, d < 10 /\ c = digit d.
Proof.
  intros c; split.
  - unfold is_digit. intros H. apply andb_prop in H. destruct H as [H1 H2].
    apply Nat.leb_le in H1. apply Nat.leb_le in H2.
    exists (nat_of_ascii c - 48). split; [lia|]. unfold digit.
    replace (48 + (nat_of_ascii c - 48)) with (nat_of_ascii c) by lia.
    symmetry; apply ascii_nat_embedding.
  - intros [d [H ->]]. apply digit_is; auto.
Qed.
Lemma dot_not_digit : forall c, is_dot c = true -> is_digit c = false.
Proof. unfold is_dot, is_digit. intros c H. apply Nat.eqb_eq in H. rewrite H. reflexivity. Qed.
Lemma digit_not_dot : forall c, is_digit c = true -> is_dot c = false.
Proof. intros c H. destruct (is_dot c) eqn:E; auto. apply dot_not_digit in E. congruence. Qed.
Lemma dot_eq : forall c, is_dot c = true -> c = "."%char.
Proof.
  unfold is_dot. intros c H. apply Nat.eqb_eq in H.
  rewrite <- (ascii_nat_embedding c), H. reflexivity.
Qed.

Local Arguments digit : simpl never.
Local Arguments is_digit : simpl never.
Local Arguments is_dot : simpl never.
Local Arguments nat_of_ascii : simpl never.
Local Arguments Nat.sub : simpl never.
Notation chars := list_ascii_of_string.
Lemma chars_app : forall s t, chars (s ++ t) = chars s ++ chars t.
Proof. induction s; simpl; intros; congruence. Qed.
Lemma chars_inj : forall s t, chars s = chars t -> s = t.
Proof.
  intros. rewrite <- (string_of_list_ascii_of_string s), <- (string_of_list_ascii_of_string t). congruence.
Qed.
Lemma chars_of : forall l, chars (string_of_list_ascii l) = l.
Proof. apply list_ascii_of_string_of_list_ascii. Qed.

(** ** Numerals *)
Lemma Some_inj : forall {A} (a b : A), Some a = Some b -> a = b.
Proof. congruence. Qed.
Lemma numeral_int : forall s n, Numeral s n ->
  py_int (chars s) = Some n /\ forallb is_digit (chars s) = true.
Proof.
  induction 1.
  - cbn [chars forallb py_int fold_left]. rewrite digit_is, digit_code by auto. split; auto. f_equal.
    replace (48 + d - 48) with d by lia. lia.
  - destruct IHNumeral as [H1 H2].
    rewrite chars_app, forallb_app, H2. cbn [chars forallb andb]. rewrite digit_is by auto. split; auto.
    unfold py_int in *. destruct (chars s) as [|x l] eqn:E; [discriminate|].
    change ((x :: l) ++ [digit d]) with (x :: (l ++ [digit d])).
    apply Some_inj in H1. f_equal.
    change (x :: l ++ [digit d]) with ((x :: l) ++ [digit d]).
    rewrite fold_left_app. rewrite H1. cbn [fold_left]. rewrite digit_code by auto.
    replace (48 + d - 48) with d by lia. reflexivity.
Qed.
Lemma int_numeral : forall l n, py_int l = Some n -> forallb is_digit l = true ->
  Numeral (string_of_list_ascii l) n.
Proof.
  induction l using rev_ind; intros n H D; [discriminate|].
  rewrite forallb_app in D. apply andb_prop in D. destruct D as [D1 D2].
  simpl in D2. rewrite andb_true_r in D2. apply is_digit_iff in D2. destruct D2 as [d [Hd ->]].
  destruct l as [|y l].
  - cbn [app py_int fold_left string_of_list_ascii] in *. apply Some_inj in H. subst n. rewrite digit_code by auto.
    replace (48 + d - 48) with d by lia.
    match goal with |- Numeral _ ?k => replace k with (N.of_nat d) by lia end. constructor; auto.
  - assert (H' : exists m, py_int (y :: l) = Some m) by (eexists; reflexivity).
    destruct H' as [m Hm]. specialize (IHl m Hm D1).
    assert (E : n = (10 * m + N.of_nat d)%N).
    { unfold py_int in H, Hm. simpl app in H. cbn match in H.
      change (y :: l ++ [digit d]) with ((y :: l) ++ [digit d]) in H.
      rewrite fold_left_app in H. cbn [fold_left] in H. cbn [fold_left] in Hm.
      apply Some_inj in Hm. apply Some_inj in H. rewrite Hm in H. rewrite digit_code in H by auto.
      replace (48 + d - 48) with d in H by lia. symmetry. exact H. }
    subst n.
    replace (string_of_list_ascii ((y :: l) ++ [digit d])) with
      (string_of_list_ascii (y :: l) ++ String (digit d) "")%string.
    + constructor; auto.
    + apply chars_inj. rewrite chars_app, !chars_of. reflexivity.
Qed.

(** ** The prefix and its pieces *)
Lemma take_digits : forall w r, forallb is_digit w = true -> take_vchars (w ++ r) = w ++ take_vchars r.
Proof.
  induction w; simpl; intros; auto. apply andb_prop in H. destruct H as [H1 H2].
  rewrite H1. simpl. rewrite IHw; auto.
Qed.
Lemma take_dot : forall r, take_vchars ("."%char :: r) = "."%char :: take_vchars r.
Proof. reflexivity. Qed.
Lemma split_word : forall w r, forallb is_digit w = true ->
  split_dot (w ++ "."%char :: r) = w :: split_dot r.
Proof.
  induction w; intros r H; [reflexivity|]. cbn [app split_dot].
  simpl in H. apply andb_prop in H. destruct H as [H1 H2].
  rewrite (digit_not_dot _ H1), IHw; auto.
Qed.
Lemma split_last : forall w, forallb is_digit w = true -> split_dot w = [w].
Proof.
  induction w; intros H; [reflexivity|]. cbn [split_dot].
  simpl in H. apply andb_prop in H. destruct H as [H1 H2].
  rewrite (digit_not_dot _ H1), IHw; auto.
Qed.
Lemma split_nonempty : forall l, split_dot l <> [].
Proof. destruct l; simpl; [discriminate|]. destruct (is_dot a); [discriminate|]. destruct (split_dot l); discriminate. Qed.
Lemma split_inv : forall l w t, split_dot l = w :: t ->
  (t = [] /\ l = w) \/ exists l', l = w ++ "."%char :: l' /\ split_dot l' = t.
Proof.
  induction l; simpl; intros w t H.
  - injection H as <- <-. auto.
  - destruct (is_dot a) eqn:E.
    + injection H as <- <-. right. exists l. rewrite (dot_eq _ E). auto.
    + destruct (split_dot l) as [|h t'] eqn:S; [destruct (split_nonempty l S)|].
      injection H as <- <-. destruct (IHl h t' eq_refl) as [[-> ->]|[l' [-> S']]].
      * auto.
      * right. exists l'. auto.
Qed.
Lemma split_nodot : forall l w t, split_dot l = w :: t -> forallb (fun c => negb (is_dot c)) w = true.
Proof.
  induction l; simpl; intros w t H.
  - injection H as <- <-. auto.
  - destruct (is_dot a) eqn:E.
    + injection H as <- <-. auto.
    + destruct (split_dot l) as [|h t'] eqn:S; [destruct (split_nonempty l S)|].
      injection H as <- <-. simpl. rewrite E. simpl. eauto.
Qed.
Lemma take_vchars_chars : forall l, forallb (fun c => is_digit c || is_dot c) (take_vchars l) = true.
Proof. induction l; simpl; auto. destruct (is_digit a || is_dot a) eqn:E; simpl; auto. rewrite E; auto. Qed.
Lemma take_rest : forall l, exists r, l = take_vchars l ++ r /\
  match r with [] => True | c :: _ => is_digit c = false /\ is_dot c = false end.
Proof.
  induction l; simpl.
  - exists []; auto.
  - destruct (is_digit a || is_dot a) eqn:E.
    + destruct IHl as [r [H1 H2]]. exists r. split; auto. simpl. congruence.
    + exists (a :: l). apply orb_false_elim in E. auto.
Qed.
Lemma words_digits : forall w, forallb (fun c => is_digit c || is_dot c) w = true ->
  forallb (fun c => negb (is_dot c)) w = true -> forallb is_digit w = true.
Proof.
  induction w; simpl; auto. intros H1 H2. apply andb_prop in H1. apply andb_prop in H2.
  destruct H1 as [A B], H2 as [C D]. rewrite IHw by auto. destruct (is_dot a); [discriminate|].
  destruct (is_digit a); auto.
Qed.

(** ** Reading a version *)
Definition parse (v : string) : option (N * N * N) :=
  match as_tuple (chars v) with Some t => unpack3 t | None => None end.

Lemma NE : forall (l : list ascii), l <> [] -> match l with [] => None | a :: t => Some (a :: t) end = Some l.
Proof. destruct l; congruence. Qed.
Lemma version_parse : forall v a b c, Version v a b c -> parse v = Some (a, b, c).
Proof.
  intros v a b c (sa & sb & sc & rest & -> & Ha & Hb & Hc & R).
  destruct (numeral_int _ _ Ha) as [Ia Da]. destruct (numeral_int _ _ Hb) as [Ib Db].
  destruct (numeral_int _ _ Hc) as [Ic Dc].
  unfold parse, as_tuple, re_match.
  rewrite !chars_app. cbn [chars app].
  rewrite take_digits by auto. rewrite take_dot, take_digits by auto.
  rewrite take_dot, take_digits by auto.
  assert (X : exists t, split_dot (chars sc ++ take_vchars (chars rest)) = chars sc :: t).
  { destruct rest as [|x rest]; simpl.
    - rewrite app_nil_r, split_last by auto. eauto.
    - destruct (is_digit x) eqn:E.
      + apply is_digit_iff in E. destruct E as [d [Hd ->]]. destruct (R d rest Hd eq_refl).
      + destruct (is_dot x) eqn:E'; simpl.
        * rewrite (dot_eq _ E'), split_word by auto. eauto.
        * rewrite app_nil_r, split_last by auto. eauto. }
  destruct X as [t X].
  rewrite (NE (chars sa ++ _)).
  - rewrite !split_word by auto. rewrite X. cbn [firstn map_int].
    rewrite Ia, Ib, Ic. reflexivity.
  - destruct (chars sa); discriminate.
Qed.

Lemma parse_version : forall v a b c, parse v = Some (a, b, c) -> Version v a b c.
Proof.
  intros v a b c H. unfold parse, as_tuple, re_match in H.
  destruct (take_rest (chars v)) as [r [V R]].
  pose proof (take_vchars_chars (chars v)) as C.
  destruct (take_vchars (chars v)) as [|p0 p1] eqn:P; [discriminate|].
  remember (p0 :: p1) as p. clear Heqp p0 p1.
  destruct (split_dot p) as [|w1 t1] eqn:S1; [destruct (split_nonempty _ S1)|].
  pose proof (split_nodot _ _ _ S1) as N1.
  destruct (split_inv _ _ _ S1) as [[-> ->]|[p2 [-> S2]]].
  { cbn [firstn map_int] in H. destruct (py_int w1); discriminate. }
  rewrite forallb_app in C. apply andb_prop in C. destruct C as [C1 C].
  simpl in C.
  destruct t1 as [|w2 t2]; [destruct (split_nonempty _ S2)|].
  pose proof (split_nodot _ _ _ S2) as N2.
  destruct (split_inv _ _ _ S2) as [[-> ->]|[p3 [-> S3]]].
  { cbn [firstn map_int] in H. destruct (py_int w1); [|discriminate]. destruct (py_int w2); discriminate. }
  rewrite forallb_app in C. apply andb_prop in C. destruct C as [C2 C]. simpl in C.
  destruct t2 as [|w3 t3]; [destruct (split_nonempty _ S3)|].
  pose proof (split_nodot _ _ _ S3) as N3.
  cbn [firstn map_int] in H.
  destruct (py_int w1) eqn:I1; [|discriminate]. destruct (py_int w2) eqn:I2; [|discriminate].
  destruct (py_int w3) eqn:I3; [|discriminate]. cbn [unpack3] in H. injection H as -> -> ->.
  assert (X : exists q, p3 = w3 ++ q /\ match q with [] => True | c :: _ => is_digit c = false end).
  { destruct (split_inv _ _ _ S3) as [[_ ->]|[q [-> _]]].
    - exists []. rewrite app_nil_r. auto.
    - exists ("."%char :: q). auto. }
  destruct X as [q [-> Q]].
  rewrite forallb_app in C. apply andb_prop in C. destruct C as [C3 C].
  exists (string_of_list_ascii w1), (string_of_list_ascii w2), (string_of_list_ascii w3),
         (string_of_list_ascii (q ++ r)).
  repeat split; try (apply int_numeral; auto; apply words_digits; auto).
  - apply chars_inj. rewrite !chars_app, !chars_of. rewrite V. cbn [chars app].
    repeat (rewrite <- !app_assoc; cbn [app]). reflexivity.
  - intros d s Hd E. apply (f_equal chars) in E. rewrite chars_of in E. simpl in E.
    destruct q as [|q0 q1]; simpl in E.
    + destruct r; [discriminate|]. injection E as -> _. destruct R as [R _].
      rewrite digit_is in R by auto. discriminate.
    + injection E as -> _. rewrite digit_is in Q by auto. discriminate.
Qed.

Lemma lt_parse : forall v w, lt_version v w =
  match parse v, parse w with
  | Some (x1, y1, z1), Some (x2, y2, z2) =>
      Some ((x1 <? x2) || ((x1 =? x2) && (y1 <? y2)) || ((x1 =? x2) && (y1 =? y2) && (z1 <? z2)))%N
  | _, _ => None
  end.
Proof.
  intros. unfold lt_version, parse.
  destruct (as_tuple (chars v)); auto. destruct (unpack3 l) as [[[? ?] ?]|]; auto.
  destruct (as_tuple (chars w)); auto. 
Qed.

(** ** The theorems *)

(** A string names at most one version. *)
Theorem C102_unique : forall v a b c x y z, Version v a b c -> Version v x y z -> (a, b, c) = (x, y, z).
Proof. intros. apply version_parse in H. apply version_parse in H0. congruence. Qed.

(** Two strings that name versions are compared, and the answer is whether the first is earlier. *)
Theorem C102_compares : forall v w a b c x y z, Version v a b c -> Version w x y z ->
  exists r, lt_version v w = Some r /\ (r = true <-> earlier (a, b, c) (x, y, z)).
Proof.
  intros. apply version_parse in H. apply version_parse in H0. rewrite lt_parse, H, H0.
  eexists; split; [reflexivity|]. cbn [earlier].
  rewrite !orb_true_iff, !andb_true_iff, !N.ltb_lt, !N.eqb_eq. intuition lia.
Qed.

(** The comparison is refused exactly when one of the strings does not name a version. *)
Theorem C102_refuses : forall v w, lt_version v w = None <->
  ~ ((exists a b c, Version v a b c) /\ (exists x y z, Version w x y z)).
Proof.
  intros. rewrite lt_parse. split.
  - intros H [(a & b & c & V) (x & y & z & W)].
    apply version_parse in V. apply version_parse in W. rewrite V, W in H. discriminate.
  - intros H. destruct (parse v) as [[[a b] c]|] eqn:P; auto.
    destruct (parse w) as [[[x y] z]|] eqn:Q; auto. exfalso. apply H.
    apply parse_version in P. apply parse_version in Q. eauto 10.
Qed.

(** It is a strict order on versions: never both ways, transitive, and undecided only between strings that
    name the same version. *)
Theorem C102_order :
  (forall v w, lt_version v w = Some true -> lt_version w v = Some false) /\
  (forall u v w, lt_version u v = Some true -> lt_version v w = Some true -> lt_version u w = Some true) /\
  (forall v w, lt_version v w = Some false -> lt_version w v = Some false ->
     exists a b c, Version v a b c /\ Version w a b c).
Proof.
  assert (K : forall v w r, lt_version v w = Some r -> exists a b c x y z,
    Version v a b c /\ Version w x y z /\ (r = true <-> earlier (a,b,c) (x,y,z))).
  { intros v w r H. rewrite lt_parse in H.
    destruct (parse v) as [[[a b] c]|] eqn:P; [|discriminate].
    destruct (parse w) as [[[x y] z]|] eqn:Q; [|discriminate].
    apply parse_version in P. apply parse_version in Q. exists a, b, c, x, y, z.
    split; auto. split; auto. injection H as <-. cbn [earlier].
    rewrite !orb_true_iff, !andb_true_iff, !N.ltb_lt, !N.eqb_eq. intuition lia. }
  split; [|split].
  - intros v w H. destruct (K _ _ _ H) as (a & b & c & x & y & z & V & W & E).
    destruct (C102_compares _ _ _ _ _ _ _ _ W V) as [r [L R]]. rewrite L. f_equal.
    destruct r; auto. exfalso. destruct E as [E _]. specialize (E eq_refl).
    destruct R as [R _]. specialize (R eq_refl). cbn [earlier] in *. lia.
  - intros u v w H1 H2. destruct (K _ _ _ H1) as (a & b & c & x & y & z & U & V & E1).
    destruct (K _ _ _ H2) as (x' & y' & z' & i & j & k & V' & W & E2).
    pose proof (C102_unique _ _ _ _ _ _ _ V V') as Q. injection Q as <- <- <-.
    destruct (C102_compares _ _ _ _ _ _ _ _ U W) as [r [L R]]. rewrite L. f_equal.
    apply R. destruct E1 as [E1 _], E2 as [E2 _]. specialize (E1 eq_refl). specialize (E2 eq_refl).
    cbn [earlier] in *. lia.
  - intros v w H1 H2. destruct (K _ _ _ H1) as (a & b & c & x & y & z & V & W & E1).
    destruct (K _ _ _ H2) as (x' & y' & z' & a' & b' & c' & W' & V' & E2).
    pose proof (C102_unique _ _ _ _ _ _ _ V V') as Q. injection Q as <- <- <-.
    pose proof (C102_unique _ _ _ _ _ _ _ W W') as Q. injection Q as <- <- <-.
    assert (~ earlier (a,b,c) (x,y,z)) by (rewrite <- E1; discriminate).
    assert (~ earlier (x,y,z) (a,b,c)) by (rewrite <- E2; discriminate).
    cbn [earlier] in *. assert (a = x /\ b = y /\ c = z) as (-> & -> & ->) by lia. eauto 10.
Qed.

(** What follows the three numbers never matters. *)
Theorem C102_suffix : forall a b c sa sb sc r1 r2 w,
  Numeral sa a -> Numeral sb b -> Numeral sc c -> not_digit_first r1 -> not_digit_first r2 ->
  let v r := (sa ++ "." ++ sb ++ "." ++ sc ++ r)%string in
  lt_version (v r1) w = lt_version (v r2) w /\ lt_version w (v r1) = lt_version w (v r2).
Proof.
  intros a b c sa sb sc r1 r2 w A B C R1 R2 v.
  assert (V1 : Version (v r1) a b c) by (exists sa, sb, sc, r1; auto 10).
  assert (V2 : Version (v r2) a b c) by (exists sa, sb, sc, r2; auto 10).
  apply version_parse in V1. apply version_parse in V2. rewrite !lt_parse, V1, V2. auto.
Qed.

Lemma numeral_digit : forall d, d < 10 -> Numeral (String (digit d) "") (N.of_nat d).
Proof. constructor; auto. Qed.
Lemma version_200 : forall r, not_digit_first r -> Version ("2.0.0" ++ r) 2 0 0.
Proof.
  intros r R. exists "2"%string, "0"%string, "0"%string, r. split; [reflexivity|].
  split; [apply (numeral_digit 2); lia|]. split; [apply (numeral_digit 0); lia|].
  split; [apply (numeral_digit 0); lia|auto].
Qed.
Lemma ndf_nil : not_digit_first "".
Proof. intros d r _ H. discriminate. Qed.

(** Importing the package warns exactly when the major number of torch is below 2, and raises exactly when
    torch's version string does not start with three numbers. *)
Theorem C102_import : forall v,
  (forall a b c, Version v a b c -> exists r, import_warns v = Some r /\ (r = true <-> (a < 2)%N)) /\
  (import_warns v = None <-> ~ exists a b c, Version v a b c).
Proof.
  intros v. pose proof (version_200 "" ndf_nil) as W. cbn [append] in W. split.
  - intros a b c V. destruct (C102_compares _ _ _ _ _ _ _ _ V W) as [r [L R]].
    exists r. split; auto. rewrite R. cbn [earlier]. lia.
  - unfold import_warns. rewrite C102_refuses. split; intros H K; apply H.
    + split; eauto.
    + destruct K; auto.
Qed.

(** Refuted: an earlier release, in the usual order of releases, need not be less: a release candidate is
    not before its release, because what follows the numbers is dropped. *)
Theorem C102_prerelease_refuted :
  lt_version "2.0.0rc1" "2.0.0" = Some false /\ lt_version "2.0.0" "2.0.0rc1" = Some false /\
  lt_version "2.0.0.dev20230101" "2.0.0" = Some false.
Proof. repeat split; reflexivity. Qed.

(** Examples: the hypotheses are met, and a two-number version is refused. *)
Example C102_examples :
  lt_version "1.13.1+cu117" "2.0.0" = Some true /\ lt_version "2.10.0" "2.9.12" = Some false /\
  lt_version "2.9.12" "2.10.0" = Some true /\ lt_version "1.2" "0.4.0" = None /\
  lt_version "1.2.rc1" "0.4.0" = None /\ lt_version "" "1.0.0" = None /\ lt_version "1.0.0" "v1.0.0" = None.
Proof. repeat split; reflexivity. Qed.
Example C102_version_example : Version "1.13.1+cu117" 1 13 1.
Proof. apply parse_version. reflexivity. Qed.
Example C102_not_version_example : ~ exists a b c, Version "1.2" a b c.
Proof. intros (a & b & c & V). apply version_parse in V. discriminate. Qed.
