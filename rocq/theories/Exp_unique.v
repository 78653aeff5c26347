(** The matrix exponential of Geo_spec is unique as soon as one commuting
    solution of its differential equation is known; derivatives of products.
    No code of /repo is modelled here. *)
From Coq Require Import Reals Lra Psatz.
From Coquelicot Require Import Coquelicot.
From Verif Require Import Geo_spec.
Local Open Scope R_scope.

Definition add_m3 (m n : M3) := mkM3
  (d00 m + d00 n) (d01 m + d01 n) (d02 m + d02 n)
  (d10 m + d10 n) (d11 m + d11 n) (d12 m + d12 n)
  (d20 m + d20 n) (d21 m + d21 n) (d22 m + d22 n).
Definition zero_m3 := mkM3 0 0 0 0 0 0 0 0 0.

Lemma deriv_ext : forall f g t l, (forall x, f x = g x) -> deriv f t l -> deriv g t l.
Proof.
  intros f g t l E H. apply is_derive_Reals. apply is_derive_Reals in H.
  apply (is_derive_ext f); assumption.
Qed.
Lemma deriv_ext_loc : forall f g t l r, 0 < r -> (forall x, Rabs (x - t) < r -> f x = g x) ->
  deriv f t l -> deriv g t l.
Proof.
  intros f g t l r Hr E H. apply is_derive_Reals. apply is_derive_Reals in H.
  apply (is_derive_ext_loc f); [|assumption].
  exists (mkposreal r Hr). intros y Hy. apply E. exact Hy.
Qed.
Lemma deriv_val : forall f t l l', l = l' -> deriv f t l -> deriv f t l'.
Proof. intros; subst; assumption. Qed.
Lemma deriv_unique : forall f t l l', deriv f t l -> deriv f t l' -> l = l'.
Proof. intros. eapply uniqueness_limite; eassumption. Qed.

Lemma deriv_dot3 : forall f0 f1 f2 g0 g1 g2 t x0 x1 x2 y0 y1 y2,
  deriv f0 t x0 -> deriv f1 t x1 -> deriv f2 t x2 ->
  deriv g0 t y0 -> deriv g1 t y1 -> deriv g2 t y2 ->
  deriv (fun t => f0 t * g0 t + f1 t * g1 t + f2 t * g2 t) t
    ((x0 * g0 t + x1 * g1 t + x2 * g2 t) + (f0 t * y0 + f1 t * y1 + f2 t * y2)).
Proof.
  intros.
  eapply deriv_val; [|apply derivable_pt_lim_plus; [apply derivable_pt_lim_plus|];
    apply derivable_pt_lim_mult; eassumption]. ring.
Qed.

Lemma deriv_mul3 : forall G H t G' H', deriv_m3 G t G' -> deriv_m3 H t H' ->
  deriv_m3 (fun t => mul3 (G t) (H t)) t (add_m3 (mul3 G' (H t)) (mul3 (G t) H')).
Proof.
  unfold deriv_m3. intros G H t G' H' A B.
  destruct A as (?&?&?&?&?&?&?&?&?), B as (?&?&?&?&?&?&?&?&?).
  unfold mul3, add_m3; cbn.
  repeat split; apply deriv_dot3; assumption.
Qed.

Lemma deriv_opp_arg : forall f t l, deriv f (- t) l -> deriv (fun t => f (- t)) t (- l).
Proof.
  intros f t l H. eapply deriv_val; [|eapply (derivable_pt_lim_comp (fun t => - t) f)].
  - instantiate (1 := -1). instantiate (1 := l). ring.
  - apply is_derive_Reals. auto_derive; [exact I|ring].
  - exact H.
Qed.

Lemma deriv_zero_const : forall f, (forall t, deriv f t 0) -> forall t, f t = f 0.
Proof.
  intros f H t. destruct (Rtotal_order t 0) as [L|[->|G]]; [|reflexivity|].
  - destruct (MVT_cor2 f (fun _ => 0) t 0 L (fun c _ => H c)) as [c [E _]]. lra.
  - destruct (MVT_cor2 f (fun _ => 0) 0 t G (fun c _ => H c)) as [c [E _]]. lra.
Qed.
Lemma deriv_zero_const_m3 : forall F, (forall t, deriv_m3 F t zero_m3) -> forall t, F t = F 0.
Proof.
  intros F H t. unfold deriv_m3 in H. cbn in H.
  apply M3_ext.
  - apply (deriv_zero_const (fun t => d00 (F t))); intro s; apply (H s).
  - apply (deriv_zero_const (fun t => d01 (F t))); intro s; apply (H s).
  - apply (deriv_zero_const (fun t => d02 (F t))); intro s; apply (H s).
  - apply (deriv_zero_const (fun t => d10 (F t))); intro s; apply (H s).
  - apply (deriv_zero_const (fun t => d11 (F t))); intro s; apply (H s).
  - apply (deriv_zero_const (fun t => d12 (F t))); intro s; apply (H s).
  - apply (deriv_zero_const (fun t => d20 (F t))); intro s; apply (H s).
  - apply (deriv_zero_const (fun t => d21 (F t))); intro s; apply (H s).
  - apply (deriv_zero_const (fun t => d22 (F t))); intro s; apply (H s).
Qed.

Lemma mul3_assoc : forall a b c, mul3 (mul3 a b) c = mul3 a (mul3 b c).
Proof. intros [] [] []. apply M3_ext; cbn; ring. Qed.
Lemma mul3_I_l : forall a, mul3 I3 a = a.
Proof. intros []. apply M3_ext; cbn; ring. Qed.
Lemma mul3_I_r : forall a, mul3 a I3 = a.
Proof. intros []. apply M3_ext; cbn; ring. Qed.

Section Unique.
Variables (a : M3) (E : R -> M3).
Hypothesis E0 : E 0 = I3.
Hypothesis ED : forall t, deriv_m3 E t (mul3 (E t) a).
Hypothesis EC : forall t, mul3 (E t) a = mul3 a (E t).

Lemma ED_opp : forall t, deriv_m3 (fun t => E (- t)) t (opp_m3 (mul3 (E (- t)) a)).
Proof.
  intro t. destruct (ED (- t)) as (A0&A1&A2&A3&A4&A5&A6&A7&A8).
  unfold deriv_m3, opp_m3; cbn -[mul3].
  repeat split.
  - apply (deriv_opp_arg (fun t => d00 (E t))); assumption.
  - apply (deriv_opp_arg (fun t => d01 (E t))); assumption.
  - apply (deriv_opp_arg (fun t => d02 (E t))); assumption.
  - apply (deriv_opp_arg (fun t => d10 (E t))); assumption.
  - apply (deriv_opp_arg (fun t => d11 (E t))); assumption.
  - apply (deriv_opp_arg (fun t => d12 (E t))); assumption.
  - apply (deriv_opp_arg (fun t => d20 (E t))); assumption.
  - apply (deriv_opp_arg (fun t => d21 (E t))); assumption.
  - apply (deriv_opp_arg (fun t => d22 (E t))); assumption.
Qed.

Lemma sol_const : forall G, G 0 = I3 -> (forall t, deriv_m3 G t (mul3 (G t) a)) ->
  forall t, mul3 (G t) (E (- t)) = I3.
Proof.
  intros G G0 GD t.
  assert (Z : forall t, deriv_m3 (fun t => mul3 (G t) (E (- t))) t zero_m3).
  { intro s. pose proof (deriv_mul3 _ _ s _ _ (GD s) (ED_opp s)) as D.
    replace (add_m3 _ _) with zero_m3 in D; [exact D|].
    rewrite (EC (- s)), mul3_assoc. generalize (mul3 a (E (- s))). intro m.
    destruct (G s), m. apply M3_ext; cbn; ring. }
  rewrite (deriv_zero_const_m3 _ Z t). cbn -[mul3].
  rewrite G0, Ropp_0, E0. apply mul3_I_l.
Qed.

Lemma sol_unique : forall G, G 0 = I3 -> (forall t, deriv_m3 G t (mul3 (G t) a)) ->
  forall t, G t = E t.
Proof.
  intros G G0 GD t. pose proof (sol_const G G0 GD t) as A.
  pose proof (sol_const E E0 ED (- t)) as B. rewrite Ropp_involutive in B.
  rewrite <- (mul3_I_r (G t)), <- B, <- mul3_assoc, A. apply mul3_I_l.
Qed.

Lemma exp_unique_m3 : forall m, is_exp_m3 a m <-> m = E 1.
Proof.
  intro m. split.
  - intros (G & G0 & GD & G1). rewrite <- G1. apply sol_unique; assumption.
  - intros ->. exists E. auto.
Qed.
End Unique.
