(** Reprojection: the error is the pinhole projection, its Jacobians are the
    derivatives, and the cost does not depend on the choice of world frame. *)
From Coq Require Import Reals Lra Psatz List Arith.
From Coquelicot Require Import Coquelicot.
Import ListNotations.
From Verif Require Import Geo_spec Geo3_spec Geo4_spec Exp_unique RSum SE2_model SO3_model SE3_model SE3_group SE2_jac SE2_curve
  Emb_model Emb2_model Emb2_spec.
Local Open Scope R_scope.

(** The error is defined exactly when the point is not in the camera's plane; then it is the image of the point minus
    the observed feature. *)
Theorem C59_reprojection_error : forall f k1 k2 feature g p,
  let c := se3_transform g p in
  (b2 c = 0 -> reproj_error f k1 k2 feature g p = None)
  /\ (b2 c <> 0 -> reproj_error f k1 k2 feature g p = Some (mkV2
        (image_x f k1 k2 (b0 c) (b1 c) (b2 c) - a0 feature) (image_y f k1 k2 (b0 c) (b1 c) (b2 c) - a1 feature))).
Proof.
  intros f k1 k2 ft g p c. unfold reproj_error. fold c. unfold div_.
  destruct (Req_EM_T (b2 c) 0) as [E|E]; split; intro H; try congruence; try reflexivity.
  cbn [bind]. f_equal. unfold image_x, image_y. apply V2_ext; cbn; field; exact E.
Qed.

Lemma d_div : forall f g t x y, deriv f t x -> deriv g t y -> g t <> 0 ->
  deriv (fun t => f t / g t) t ((x - f t * (y / g t)) / g t).
Proof.
  intros f g t x y Df Dg N. apply is_derive_Reals. apply is_derive_Reals in Df, Dg.
  pose proof (is_derive_div f g t x y Df Dg N) as X.
  replace ((x - f t * (y / g t)) / g t) with ((x * g t - f t * y) / g t ^ 2) by (field; exact N). exact X.
Qed.
Lemma deriv_nz : forall f l, deriv f 0 l -> f 0 <> 0 -> exists r, 0 < r /\ forall t, Rabs t < r -> f t <> 0.
Proof.
  intros f l D N. destruct (deriv_cont f 0 l (Rabs (f 0)) D (Rabs_pos_lt _ N)) as (r & Hr & K).
  exists r. split; [exact Hr|]. intros t Ht E. specialize (K t ltac:(rewrite Rminus_0_r; exact Ht)).
  rewrite E in K. unfold Rminus in K. rewrite Rplus_0_l, Rabs_Ropp in K. lra.
Qed.

(** jacobians() returns the value of error(), and along every motion of the camera and of the world point the error
    moves at the rate (first Jacobian) * (velocity of the camera) + (second Jacobian) * (velocity of the point). *)
Theorem C59_reprojection_jac : forall f k1 k2 feature g p h q xi dp, rigid3 g ->
  moves6 h g xi -> q 0 = p -> deriv3 q 0 dp -> b2 (se3_transform g p) <> 0 ->
  exists J0 J1 e u, reproj_jacobians f k1 k2 feature g p = Some ([J0; J1], e)
  /\ reproj_error f k1 k2 feature g p = Some e
  /\ defined_near (fun t => reproj_error f k1 k2 feature (h t) (q t)) u /\ u 0 = e
  /\ deriv2 u 0 (mkV2 (mv 6 J0 (tw_at xi) 0 + mv 3 J1 (at3 dp) 0) (mv 6 J0 (tw_at xi) 1 + mv 3 J1 (at3 dp) 1)).
Proof.
  intros f k1 k2 ft g p h q xi dp Vg Mh Q0 Dq N.
  destruct (se3_transform_jac g p) as [Jg Jp] eqn:EJ.
  pose proof (C37_transform_jac g p h q xi dp Jg Jp Vg Mh Q0 Dq EJ) as D.
  assert (H0 : h 0 = g) by exact (proj1 Mh).
  set (c := fun t => se3_transform (h t) (q t)) in *.
  assert (C0 : c 0 = se3_transform g p) by (unfold c; rewrite H0, Q0; reflexivity).
  destruct D as (Dx & Dy & Dz). rewrite <- C0 in N.
  destruct (deriv_nz _ _ Dz N) as (r & Hr & K).
  set (c0 := se3_transform g p) in *.
  assert (N0 : b2 c0 <> 0) by (rewrite <- C0; exact N).
  assert (E2 : reproj_jacobians f k1 k2 ft g p <> None /\ reproj_error f k1 k2 ft g p <> None).
  { unfold reproj_jacobians, reproj_error. fold c0. rewrite EJ. unfold div_.
    destruct (Req_EM_T (b2 c0) 0); [contradiction|]. cbn [bind]. split; discriminate. }
  destruct E2 as [E2 E3].
  destruct (reproj_jacobians f k1 k2 ft g p) as [[Js e]|] eqn:E; [|congruence]. clear E2.
  unfold reproj_jacobians in E. fold c0 in E. rewrite EJ in E. unfold div_ in E.
  destruct (Req_EM_T (b2 c0) 0) as [|_]; [contradiction|]. cbn [bind] in E. cbv zeta in E.
  set (u := fun t => mkV2 (image_x f k1 k2 (b0 (c t)) (b1 (c t)) (b2 (c t)) - a0 ft)
                          (image_y f k1 k2 (b0 (c t)) (b1 (c t)) (b2 (c t)) - a1 ft)).
  assert (U : forall t, Rabs t < r -> reproj_error f k1 k2 ft (h t) (q t) = Some (u t)).
  { intros t Ht. apply (proj2 (C59_reprojection_error f k1 k2 ft (h t) (q t))). apply (K t Ht). }
  assert (U0 : reproj_error f k1 k2 ft g p = Some (u 0)).
  { rewrite <- U by (rewrite Rabs_R0; exact Hr). rewrite H0, Q0. reflexivity. }
  apply (f_equal (fun o => match o with Some x => x | None => ([], e) end)) in E. apply pair_equal_spec in E. destruct E as [EJs Ee].
  assert (Eu : u 0 = e).
  { rewrite <- Ee. unfold u. rewrite C0. unfold image_x, image_y. apply V2_ext; cbn; field; exact N0. }
  rewrite <- EJs. eexists _, _, e, u. split; [reflexivity|].
  split; [rewrite U0, Eu; reflexivity|]. split; [exists r; split; [exact Hr|exact U]|]. split; [exact Eu|].
  (* the derivative *)
  clear EJs Ee E3 U U0 Eu e Js.
  set (X := fun t => b0 (c t)) in *. set (Y := fun t => b1 (c t)) in *. set (Z := fun t => b2 (c t)) in *.
  pose proof (d_div X Z 0 _ _ Dx Dz N) as DPx. pose proof (d_div Y Z 0 _ _ Dy Dz N) as DPy. cbv beta in DPx, DPy.
  set (Px := fun t => X t / Z t) in *. set (Py := fun t => Y t / Z t) in *.
  assert (X0 : X 0 = b0 c0) by (unfold X; rewrite C0; reflexivity).
  assert (Y0 : Y 0 = b1 c0) by (unfold Y; rewrite C0; reflexivity).
  assert (Z0 : Z 0 = b2 c0) by (unfold Z; rewrite C0; reflexivity).
  assert (F : forall P, P = Px \/ P = Py -> forall l a, deriv P 0 l ->
    deriv (fun t => f * (1 + k1 * (Px t * Px t + Py t * Py t) + k2 * ((Px t * Px t + Py t * Py t) * (Px t * Px t + Py t * Py t))) * - P t - a) 0
     (f * (k1 + 2 * (Px 0 * Px 0 + Py 0 * Py 0) * k2) * (2 * (Px 0 * ((b0 (add3 (app36 Jg xi) (app3 Jp dp)) - X 0 * (b2 (add3 (app36 Jg xi) (app3 Jp dp)) / Z 0)) / Z 0)
        + Py 0 * ((b1 (add3 (app36 Jg xi) (app3 Jp dp)) - Y 0 * (b2 (add3 (app36 Jg xi) (app3 Jp dp)) / Z 0)) / Z 0))) * - P 0
      + f * (1 + k1 * (Px 0 * Px 0 + Py 0 * Py 0) + k2 * ((Px 0 * Px 0 + Py 0 * Py 0) * (Px 0 * Px 0 + Py 0 * Py 0))) * - l)).
  { intros P _ l a DP. dgo. ring. }
  assert (G : forall P a, (forall t, (fun t => f * (1 + k1 * (Px t * Px t + Py t * Py t) + k2 * ((Px t * Px t + Py t * Py t) * (Px t * Px t + Py t * Py t))) * - P t - a) t
      = (let r2 := (Px t) ^ 2 + (Py t) ^ 2 in f * (1 + k1 * r2 + k2 * r2 ^ 2) * (- P t)) - a)).
  { intros P a t. cbv beta zeta. ring. }
  split.
  - refine (deriv_ext _ _ _ _ _ (deriv_val _ _ _ _ _ (F Px (or_introl eq_refl) _ (a0 ft) DPx))).
    { intro t. rewrite (G Px (a0 ft) t). unfold u, image_x. cbn [a0]. cbv zeta. unfold Px, Py, X, Y, Z. f_equal. f_equal. unfold Rdiv. ring. }
    cbn [a0]. unfold Px, Py. rewrite X0, Y0, Z0. clearbody c0. clear - N0. destruct Jg as [[] []], Jp, xi as [[] []], dp, c0 as [cx cy cz].
    cbn in N0. cbn -[Rdiv Rinv]. field. exact N0.
  - refine (deriv_ext _ _ _ _ _ (deriv_val _ _ _ _ _ (F Py (or_intror eq_refl) _ (a1 ft) DPy))).
    { intro t. rewrite (G Py (a1 ft) t). unfold u, image_y. cbn [a1]. cbv zeta. unfold Px, Py, X, Y, Z. f_equal. f_equal. unfold Rdiv. ring. }
    cbn [a1]. unfold Px, Py. rewrite X0, Y0, Z0. clearbody c0. clear - N0. destruct Jg as [[] []], Jp, xi as [[] []], dp, c0 as [cx cy cz].
    cbn in N0. cbn -[Rdiv Rinv]. field. exact N0.
Qed.

(** Moving the world frame by a rigid motion T, that is, every point p to T p and every camera pose g to g T^-1, changes no
    reprojection error; and the error depends on the point only through its viewing ray: scaling a point in the camera's frame
    by a factor other than zero (the camera at the origin of that frame) leaves it unchanged. *)
Theorem C59_reprojection_frame : forall f k1 k2 feature g p T, rigid3 g -> rigid3 T ->
  reproj_error f k1 k2 feature (se3_compose g (se3_inverse T)) (se3_transform T p) = reproj_error f k1 k2 feature g p.
Proof.
  intros f k1 k2 ft g p T Hg HT. unfold reproj_error.
  destruct (C37_group T T T HT HT HT) as (_ & HTi & _). 
  destruct (C37_transform g (se3_inverse T) (se3_transform T p) p Hg HTi) as (E & _).
  destruct (C37_transform T T p p HT HT) as (_ & _ & E2 & _).
  destruct (C37_transform T T (se3_transform T p) p HT HT) as (_ & _ & _ & _ & E3 & _).
  rewrite E, <- E3, E2. reflexivity.
Qed.
Theorem C59_reprojection_ray : forall f k1 k2 feature s p, s <> 0 ->
  reproj_error f k1 k2 feature (mkRig I3 zero3) (scal3 s p) = reproj_error f k1 k2 feature (mkRig I3 zero3) p.
Proof.
  intros f k1 k2 ft s p Hs. unfold reproj_error.
  assert (E : forall v, se3_transform (mkRig I3 zero3) v = v) by (intros []; apply V3_ext; cbn; ring).
  rewrite !E. destruct p as [x y z]. unfold scal3, div_. cbn [b0 b1 b2].
  destruct (Req_EM_T (s * z) 0) as [A|A], (Req_EM_T z 0) as [B|B]; cbn [bind]; try reflexivity.
  - apply Rmult_integral in A. tauto.
  - subst z. exfalso. apply A. ring.
  - replace (- (s * x) / (s * z)) with (- x / z) by (field; auto).
    replace (- (s * y) / (s * z)) with (- y / z) by (field; auto). reflexivity.
Qed.

Example C59_case : let g := mkRig I3 zero3 in let p := mkV3 1 2 (-1) in
  rigid3 g /\ moves6 (fun t => mkRig I3 (mkV3 t 0 0)) g (mkTw (mkV3 1 0 0) zero3) /\ b2 (se3_transform g p) <> 0
  /\ reproj_error 1 0 0 (mkV2 0 0) g p = Some (mkV2 1 2).
Proof.
  assert (E : b2 (se3_transform (mkRig I3 zero3) (mkV3 1 2 (-1))) <> 0) by (cbn; lra).
  cbv zeta. split; [exact SO3_group.rot_I|]. split; [|split; [exact E|]].
  - split; [apply Rig_ext; reflexivity|]. unfold deriv_m44, deriv_m3, deriv3. cbn. unfold dot3. cbn. repeat split; dgo; ring.
  - rewrite (proj2 (C59_reprojection_error _ _ _ _ _ _) E). f_equal. unfold image_x, image_y. apply V2_ext; cbn -[Rdiv Rinv]; field.
Qed.
