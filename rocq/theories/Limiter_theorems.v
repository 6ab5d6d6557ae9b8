(** C38: the limiters of the granular flow application. *)
From Coq Require Import List Arith Reals Lra Lia Bool ZArith Permutation.
From Verif Require Import Legendre_model Quadrature_spec QuadIntegral_proofs Limiter_model Limiter_spec Limiter_proofs LimiterHeight_proofs LimiterSlope_proofs LimiterExamples_proofs.
Import ListNotations.
Local Open Scope R_scope.

Ltac splits := repeat match goal with |- _ /\ _ => split end.

(** The averages that the limiters work with are the mean values of the polynomials. *)
Theorem C38_average_is_mean : forall e a var f m, regular e -> computeAverageOfSolution e = Some a -> unknown e var f ->
  (mean f m <-> nth_error a var = Some m).
Proof.
  intros e a var f m R H [cs [N ->]].
  assert (A : nth_error a var = Some (averageOf e cs)).
  { unfold computeAverageOfSolution in H. destruct (nth_error (map _ _) 0); simpl in H; [|discriminate]. destruct (ltb _ _); [|discriminate].
    inversion H; subst. rewrite nth_error_map, N. reflexivity. }
  rewrite A. split; intro M.
  - f_equal. eapply mean_unique; [|exact M]. apply average_mean. assumption.
  - inversion M; subst. apply average_mean. assumption.
Qed.
Print Assumptions C38_average_is_mean.

(** The projection that all limiters use reproduces every polynomial of the element, and keeps the mean of any other
    function that the quadrature rule integrates. *)
Theorem C38_projection : forall solve e f, regular e -> solves solve e ->
  (determined e -> spanned e f -> forall x, expand (basisFunctions e) (projectOnBasisFuns solve e f) x = f x) /\
  (forall m, rsum (map (fun q => fst q * f (snd q)) (quadratureRule e)) = 2 * m -> mean (expand (basisFunctions e) (projectOnBasisFuns solve e f)) m).
Proof.
  intros solve e f R S. split; [intros D X x; apply projection_exact; assumption|]. intros m M.
  replace m with (averageOf e (projectOnBasisFuns solve e f)); [apply average_mean; assumption|].
  rewrite projection_average by assumption. unfold wsum. rewrite M. field.
Qed.
Print Assumptions C38_projection.

(** PositiveLayerLimiter keeps the mean height, keeps the mean discharge unless the element is dry, and changes nothing
    else; a dry element gets its mean height and discharge 0. *)
Theorem C38_positive_layer_mean : forall solve minH e e', regular e -> solves solve e -> PositiveLayerLimiter solve minH e = Some e' ->
  same_shape e e' /\ keeps_mean e e' 0 /\ (forall v, (2 <= v)%nat -> nth_error (coefficients e') v = nth_error (coefficients e) v) /\
  (forall h m, unknown e 0 h -> mean h m ->
     (minH <= m -> keeps_mean e e' 1) /\
     (m < minH -> e' = e \/ (determined e -> forall h' u' x, unknown e' 0 h' -> unknown e' 1 u' -> h' x = m /\ u' x = 0))).
Proof.
  intros solve minH e e' R S H. assert (L := positive_layer_limited _ _ _ _ H).
  destruct (limited_shape _ _ _ _ L) as [Sh O]. split; [assumption|]. split; [|split; [assumption|]].
  - apply (limited_keeps _ _ _ _ 0 R ltac:(lia) L). intros m h u hs us hs' us' _ _ -> -> [[_ [-> ->]]|[_ [s [t [_ [-> ->]]]]]].
    + apply averageOf_project_const; assumption.
    + apply averageOf_project_affine; assumption.
  - intros h m [hs [N ->]] M. assert (Em := mean_unique _ _ _ M (average_mean e hs R)). split; intro C.
    + apply (limited_keeps _ _ _ _ 1 R ltac:(lia) L). intros m0 h0 u0 hs0 us0 hs' us' N0 N1 -> -> P. rewrite N in N0. inversion N0; subst hs0.
      destruct P as [[D _]|[_ [s [t [_ [-> ->]]]]]]; [lra|]. apply averageOf_project_affine; assumption.
    + destruct L as [m0 M0 Hm E|m0 hs0 us hs' us' M0 Hm A B Sh' A' B' Q P]; [auto|]. right. intros D h' u' x [c [Nc ->]] [d [Nd ->]].
      rewrite A' in Nc. rewrite B' in Nd. inversion Nc; inversion Nd; subst c d. rewrite N in A. inversion A; subst hs0.
      destruct P as [[_ [-> ->]]|[D' _]]; [|lra]. destruct (proj2 Sh') as [-> _].
      rewrite !projection_exact by (try assumption; apply spanned_const; assumption). auto.
Qed.
Print Assumptions C38_positive_layer_mean.

(** Positivity, for heights whose values in the end points are at least [minH] on average (linear heights with mean at
    least [minH] are): the limited height is at least [minH] in all nodes and quadrature points, and everywhere if the
    limiter changes the element or the height is linear. Missing: heights of higher order, see [C38_positivity_refuted]. *)
Theorem C38_positive_layer_height_partial : forall solve minH e e' h h' m, regular e -> determined e -> solves solve e ->
  PositiveLayerLimiter solve minH e = Some e' -> unknown e 0 h -> unknown e' 0 h' -> mean h m -> minH <= m -> 2 * minH <= h (-1) + h 1 ->
  (forall x, In x (checkedPoints e) -> -1 <= x <= 1 -> minH <= h' x) /\
  (e' <> e \/ (exists a b, forall x, h x = a + b * x) -> forall x, -1 <= x <= 1 -> minH <= h' x).
Proof.
  intros solve minH e e' h h' m R D S H [hs [N ->]] [hs' [N' ->]] M C T.
  assert (Em := mean_unique _ _ _ M (average_mean e hs R)).
  destruct (positive_layer_limited _ _ _ _ H) as [m0 M0 Hm ->|m0 hs0 us hs0' us' M0 Hm A B Sh A' B' Q P].
  - rewrite N in N'. inversion N'; subst hs'. destruct (minimum_ok e m0 hs M0 N) as [Mn _]. split.
    + intros x I _. specialize (Mn x I). lra.
    + intros [X|[a [b Lin]]] x Hx; [congruence|].
      assert (X1 := Mn pRefL ltac:(unfold checkedPoints; simpl; auto)). assert (X2 := Mn pRefR ltac:(unfold checkedPoints; simpl; auto)).
      unfold pRefL, pRefR in *. rewrite Lin in *.
      assert (0 <= (b + a - m0) * (1 + x)) by (apply Rmult_le_pos; lra).
      assert (0 <= (a - b - m0) * (1 - x)) by (apply Rmult_le_pos; lra). lra.
  - rewrite N in A. inversion A; subst hs0. rewrite N' in A'. inversion A'; subst hs0'.
    assert (G : forall x, -1 <= x <= 1 -> minH <= expand (basisFunctions e') hs' x).
    { intros x Hx. destruct P as [[P _]|[_ [s [t [Es [-> _]]]]]]; [lra|]. destruct (proj2 Sh) as [-> _].
      rewrite projection_exact by (try assumption; apply spanned_affine; assumption).
      set (r := Rmin ((expand (basisFunctions e) hs (-1) + expand (basisFunctions e) hs 1 - 2 * minH) / 2) (averageOf e hs - minH)) in Es.
      assert (R1 : r <= averageOf e hs - minH) by apply Rmin_r. assert (R0 : 0 <= r) by (apply Rmin_glb; lra).
      rewrite <- Em in *.
      assert (0 <= r * (1 + x)) by (apply Rmult_le_pos; lra). assert (0 <= r * (1 - x)) by (apply Rmult_le_pos; lra).
      destruct Es as [->| ->]; lra. }
    split; [intros; apply G; assumption|intros _; exact G].
Qed.
Print Assumptions C38_positive_layer_height_partial.

(** The limiter gives a result whenever the mean height is not negative. *)
Theorem C38_positive_layer_total : forall solve minH e h u m, regular e -> unknown e 0 h -> unknown e 1 u -> mean h m -> 0 <= m ->
  exists e', PositiveLayerLimiter solve minH e = Some e'.
Proof.
  intros solve minH e h u m R [hs [N0 ->]] [us [N1 ->]] M P. assert (Em := mean_unique _ _ _ M (average_mean e hs R)).
  unfold PositiveLayerLimiter, getMinimumHeight. rewrite N0. cbn [bind]. destruct (negb _); [eauto|].
  assert (Z : 0 < / 10 ^ 16) by (apply Rinv_0_lt_compat; lra).
  assert (C : computeAverageOfSolution e = Some (map (averageOf e) (coefficients e))).
  { unfold computeAverageOfSolution. rewrite nth_error_map, N0. cbn [option_map bind]. rewrite (proj2 (ltb_true _ _)) by lra. reflexivity. }
  rewrite C. cbn [bind]. rewrite !nth_error_map, N0, N1. cbn [option_map bind].
  assert (L : (1 < length (coefficients e))%nat) by (apply nth_error_Some; congruence).
  assert (Q : forall a b, exists e', (e1 <- setCoefficients e 0 a; setCoefficients e1 1 b) = Some e').
  { intros a b. unfold setCoefficients. destruct (replace_some _ (coefficients e) 0 a ltac:(lia)) as [l El]. rewrite El. cbn [bind coefficients].
    destruct (replace_some _ l 1 b) as [l' El']; [rewrite (replace_length _ _ _ _ _ El); lia|]. rewrite El'. cbn [bind]. eauto. }
  destruct (ltb (averageOf e hs) minH); [apply Q|]. unfold getSolution. rewrite N0. cbn [bind]. destruct (ltb _ _); apply Q.
Qed.
Print Assumptions C38_positive_layer_total.

(** The layer thickness is not positive in general: for this quadratic height with mean 1 and values -10 in the end
    points, the limiter with the threshold 1e-5 of the application returns a linear height that is below -9 in an end
    point of the element, although mean 1 is far above the threshold. *)
Theorem C38_positivity_refuted : exists solve e e' h h',
  regular e /\ determined e /\ solves solve e /\ unknown e 0 h /\ mean h 1 /\
  PositiveLayerLimiter solve (/ 10 ^ 5) e = Some e' /\ unknown e' 0 h' /\ (h' (-1) < -9 \/ h' 1 < -9).
Proof.
  set (hs := [-10; -10; 33 / 2 / kk]). set (e := line2 [hs; [0; 0; 0]]).
  assert (K := kk_neg).
  assert (R : regular e) by (apply line2_regular; repeat constructor).
  assert (Av : averageOf e hs = 1) by (unfold e, hs; rewrite line2_average; field; lra).
  assert (M : mean (expand (basisFunctions e) hs) 1) by (rewrite <- Av; apply average_mean; assumption).
  assert (U : unknown e 0 (expand (basisFunctions e) hs)) by (exists hs; split; reflexivity).
  assert (V : unknown e 1 (expand (basisFunctions e) [0; 0; 0])) by (exists [0; 0; 0]; split; reflexivity).
  destruct (C38_positive_layer_total solve2 (/ 10 ^ 5) e _ _ 1 R U V M ltac:(lra)) as [e' H].
  assert (Hl : forall x, expand (basisFunctions e) hs x = -10 + 33 / 2 * (1 - x * x)).
  { intro x. unfold e, line2, hs; cbn [basisFunctions expand]. rewrite b2_kk. unfold b0, b1. field. lra. }
  assert (Q : / 10 ^ 5 = 1 / 100000) by field.
  destruct (positive_layer_limited _ _ _ _ H) as [m0 M0 Hm E|m0 hs0 us hs0' us' M0 Hm A B Sh A' B' O P].
  - exfalso. destruct (minimum_ok e m0 hs M0 eq_refl) as [Mn _]. specialize (Mn pRefL ltac:(unfold checkedPoints; simpl; auto)). unfold pRefL in Mn. rewrite Hl in Mn. lra.
  - inversion A; subst hs0. inversion B; subst us. exists solve2, e, e', (expand (basisFunctions e) hs), (expand (basisFunctions e') hs0').
    assert (D : determined e) by apply line2_determined. assert (S : solves solve2 e) by apply line2_solves.
    splits; try assumption; [exists hs0'; auto|].
    destruct P as [[P _]|[_ [s [t [Es [-> _]]]]]]; [rewrite Av in P; lra|]. destruct (proj2 Sh) as [-> _].
    rewrite !projection_exact by (try assumption; apply spanned_affine; assumption). rewrite Av in *. rewrite !Hl in Es.
    rewrite Rmin_left in Es by lra. destruct Es as [->| ->]; [right|left]; lra.
Qed.
Print Assumptions C38_positivity_refuted.

(** SqueezeLimiterWithLayer: the same for the means, and the limited height is at least [minH] in all nodes and quadrature
    points, for polynomials of any order. *)
Theorem C38_squeeze : forall solve minH e e' h m, regular e -> solves solve e -> SqueezeLimiterWithLayer solve minH e = Some e' ->
  unknown e 0 h -> mean h m ->
  same_shape e e' /\ keeps_mean e e' 0 /\ (minH <= m -> keeps_mean e e' 1) /\
  (forall v, (2 <= v)%nat -> nth_error (coefficients e') v = nth_error (coefficients e) v) /\
  (determined e -> minH <= m -> forall h' x, unknown e' 0 h' -> In x (checkedPoints e) -> minH <= h' x).
Proof.
  intros solve minH e e' h m R S H [hs [N ->]] M. assert (L := squeeze_limited _ _ _ _ H).
  destruct (limited_shape _ _ _ _ L) as [Sh O]. assert (Em := mean_unique _ _ _ M (average_mean e hs R)).
  split; [assumption|]. split; [|split; [|split; [assumption|]]].
  - apply (limited_keeps _ _ _ _ 0 R ltac:(lia) L). intros m0 h0 u0 hs0 us hs' us' _ _ Eh Eu [[_ [-> ->]]|[_ [t [-> ->]]]].
    + rewrite averageOf_project_const by assumption. assumption.
    + apply averageOf_project; try assumption. apply wsum_squeeze; assumption.
  - intro C. apply (limited_keeps _ _ _ _ 1 R ltac:(lia) L). intros m0 h0 u0 hs0 us hs' us' N0 N1 Eh Eu P. rewrite N in N0. inversion N0; subst hs0.
    destruct P as [[D _]|[_ [t [-> ->]]]]; [lra|]. apply averageOf_project; try assumption. apply wsum_squeeze; assumption.
  - intros D C h' x [hs' [N' ->]] I. destruct L as [m0 M0 Hm ->|m0 hs0 us hs0' us' M0 Hm A B Sh' A' B' Q P].
    + rewrite N in N'. inversion N'; subst hs'. destruct (minimum_ok e m0 hs M0 N) as [Mn _]. specialize (Mn x I). lra.
    + rewrite N in A. inversion A; subst hs0. rewrite N' in A'. inversion A'; subst hs0'.
      destruct P as [[P _]|[_ [t [-> ->]]]]; [lra|]. destruct (proj2 Sh') as [-> _].
      assert (Ln : length hs = length (basisFunctions e)) by (apply (proj1 (Forall_forall _ _) (proj1 (proj2 R))); eapply nth_error_In; eauto).
      rewrite projection_exact by (try assumption; apply spanned_squeeze; assumption). rewrite <- Em.
      destruct (minimum_ok e m0 hs M0 N) as [Mn _]. specialize (Mn x I). set (y := expand (basisFunctions e) hs x) in *.
      assert (F : 0 <= (m - minH) / (m - m0)) by (apply Rmult_le_pos; [lra|apply Rlt_le, Rinv_0_lt_compat; lra]).
      assert (G : (m - minH) / (m - m0) * (m0 - m) <= (m - minH) / (m - m0) * (y - m)) by (apply Rmult_le_compat_l; lra).
      replace ((m - minH) / (m - m0) * (m0 - m)) with (minH - m) in G by (field; lra). lra.
Qed.
Print Assumptions C38_squeeze.

(** The coefficients become NaN if the discharge is a negative constant: a layer that moves left with uniform discharge
    and is too thin in a node. *)
Theorem C38_squeeze_refuted : exists solve e h,
  regular e /\ determined e /\ solves solve e /\ unknown e 0 h /\ mean h 1 /\ unknown e 1 (expand (basisFunctions e) [-1; -1]) /\
  SqueezeLimiterWithLayer solve (/ 10 ^ 5) e = None.
Proof.
  set (hs := [0; 2]). set (e := line1 0 [hs; [-1; -1]]). assert (Q : / 10 ^ 5 = 1 / 100000) by field.
  assert (R : regular e) by (apply line1_regular; repeat constructor).
  assert (Av : averageOf e hs = 1) by (unfold e, hs; rewrite line1_average; field).
  exists solve1, e, (expand (basisFunctions e) hs).
  splits; [exact R|apply line1_determined|apply line1_solves|exists hs; split; reflexivity|rewrite <- Av; apply average_mean; exact R|exists [-1; -1]; split; reflexivity|].
  unfold SqueezeLimiterWithLayer. destruct (getMinimumHeight e) as [m0|] eqn:M0; [|reflexivity]. cbn [bind].
  assert (L : m0 <= 0).
  { destruct (minimum_ok e m0 hs M0 eq_refl) as [Mn _]. specialize (Mn pRefL ltac:(unfold checkedPoints; simpl; auto)).
    replace 0 with (expand (basisFunctions e) hs pRefL); [exact Mn|]. unfold e, hs, line1, pRefL; cbn [basisFunctions expand]. unfold b0, b1. field. }
  rewrite (proj2 (ltb_true m0 (/ 10 ^ 5))) by lra. cbn [negb].
  assert (C : computeAverageOfSolution e = Some [1; -1]).
  { unfold computeAverageOfSolution. change (map (averageOf e) (coefficients e)) with [averageOf e hs; averageOf e [-1; -1]]. rewrite Av.
    unfold e. rewrite line1_average. cbn [nth_error bind]. assert (0 < / 10 ^ 16) by (apply Rinv_0_lt_compat; lra).
    rewrite (proj2 (ltb_true _ _)) by lra. replace ((-1 + -1) / 2) with (-1) by field. reflexivity. }
  rewrite C. cbn [bind nth_error]. rewrite (proj2 (ltb_false _ _)) by lra.
  destruct (getMinimumHeightPoint e) as [p|]; [|reflexivity]. cbn [bind].
  unfold getSolution. change (nth_error (coefficients e) 1) with (Some [-1; -1]). cbn [bind]. unfold e at 1, line1; cbn [basisFunctions expand].
  replace (-1 - (b0 p * -1 + (b1 p * -1 + 0))) with 0 by (unfold b0, b1; field).
  unfold minOneQuotient, eqb. destruct (Req_EM_T 0 0); [|congruence]. rewrite (proj2 (ltb_true _ _)) by lra. reflexivity.
Qed.
Print Assumptions C38_squeeze_refuted.

(** getMinimumHeightPoint does not give the checked point where the height is smallest: it compares the height in the
    left node with the discharge in the left node instead of the height in the right node. *)
Theorem C38_minimum_point_refuted : exists e h p q,
  regular e /\ unknown e 0 h /\ getMinimumHeightPoint e = Some p /\ In q (checkedPoints e) /\ h q < h p.
Proof.
  set (hs := [3; 1]). set (e := line1 0 [hs; [5; 5]]). assert (R : regular e) by (apply line1_regular; repeat constructor).
  assert (Hx : forall x, expand (basisFunctions e) hs x = 2 - x) by (intro x; unfold e, hs, line1; cbn [basisFunctions expand]; unfold b0, b1; field).
  assert (Hu : forall x, expand (basisFunctions e) [5; 5] x = 5) by (intro x; unfold e, line1; cbn [basisFunctions expand]; unfold b0, b1; field).
  assert (Sq : 0 < sqrt (1 / 3) < 1).
  { split; [apply sqrt_lt_R0; lra|]. rewrite <- sqrt_1 at 2. apply sqrt_lt_1; lra. }
  exists e, (expand (basisFunctions e) hs), (sqrt (1 / 3)), 1.
  splits; [exact R|exists hs; split; reflexivity| |unfold checkedPoints, pRefR; simpl; auto|rewrite !Hx; lra].
  unfold getMinimumHeightPoint, getSolution. change (nth_error (coefficients e) 0) with (Some hs). change (nth_error (coefficients e) 1) with (Some [5; 5]).
  cbn [bind]. rewrite Hx, Hu. unfold pRefL, pRefR. rewrite (proj2 (ltb_false _ _)) by lra.
  change (map snd (quadratureRule e)) with [- sqrt (1 / 3); sqrt (1 / 3)]. cbn [fold_left fst snd]. rewrite !Hx.
  rewrite (proj2 (ltb_true (2 - - sqrt (1 / 3)) (2 - -1))) by lra. cbn [fst snd]. rewrite (proj2 (ltb_true _ _)) by lra. reflexivity.
Qed.
Print Assumptions C38_minimum_point_refuted.

(** AverageValuesNonNegativeLimiter keeps the means of height and discharge, and the limited height is at least [minH]
    in all nodes and quadrature points if the mean is. *)
Theorem C38_average_limiter : forall solve minH e e' h m, regular e -> solves solve e -> AverageValuesNonNegativeLimiter solve minH e = Some e' ->
  unknown e 0 h -> mean h m ->
  same_shape e e' /\ keeps_mean e e' 0 /\ keeps_mean e e' 1 /\
  (forall v, (2 <= v)%nat -> nth_error (coefficients e') v = nth_error (coefficients e) v) /\
  (determined e -> minH <= m -> forall h' x, unknown e' 0 h' -> In x (checkedPoints e) -> minH <= h' x) /\
  (determined e -> e' <> e -> forall h' x, unknown e' 0 h' -> h' x = m).
Proof.
  intros solve minH e e' h m R S H [hs [N ->]] M. assert (L := average_limited _ _ _ _ H).
  destruct (limited_shape _ _ _ _ L) as [Sh O]. assert (Em := mean_unique _ _ _ M (average_mean e hs R)).
  assert (C : determined e -> e' <> e -> forall h' x, unknown e' 0 h' -> h' x = m).
  { intros D X h' x [hs' [N' ->]]. destruct L as [m0 M0 Hm ->|m0 hs0 us hs0' us' M0 Hm A B Sh' A' B' Q [-> ->]]; [congruence|].
    rewrite N' in A'. inversion A'; subst hs'. rewrite N in A. inversion A; subst hs0. destruct (proj2 Sh') as [-> _].
    rewrite projection_exact by (try assumption; apply spanned_const; assumption). congruence. }
  split; [assumption|]. split; [|split; [|split; [assumption|split; [|exact C]]]].
  - apply (limited_keeps _ _ _ _ 0 R ltac:(lia) L). intros m0 h0 u0 hs0 us hs' us' _ _ Eh Eu [-> ->]. rewrite averageOf_project_const; assumption.
  - apply (limited_keeps _ _ _ _ 1 R ltac:(lia) L). intros m0 h0 u0 hs0 us hs' us' _ _ Eh Eu [-> ->]. rewrite averageOf_project_const; assumption.
  - intros D Cm h' x [hs' [N' ->]] I. destruct L as [m0 M0 Hm ->|m0 hs0 us hs0' us' M0 Hm A B Sh' A' B' Q [-> ->]].
    + rewrite N in N'. inversion N'; subst hs'. destruct (minimum_ok e m0 hs M0 N) as [Mn _]. specialize (Mn x I). lra.
    + rewrite N' in A'. inversion A'; subst hs'. rewrite N in A. inversion A; subst hs0. destruct (proj2 Sh') as [-> _].
      rewrite projection_exact by (try assumption; apply spanned_const; assumption). lra.
Qed.
Print Assumptions C38_average_limiter.

(** BidispersedLimiter keeps the mean height; it keeps the mean height of the small particles if that is between
    [- minH] and the mean height plus [minH]. *)
Theorem C38_bidispersed : forall solve minH e e' h s m n, regular e -> nodal e -> solves solve e -> BidispersedLimiter solve minH e = Some e' ->
  unknown e 0 h -> mean h m -> unknown e 2 s -> mean s n ->
  same_shape e e' /\ keeps_mean e e' 0 /\ (- minH <= n <= m + minH -> keeps_mean e e' 2).
Proof.
  intros solve minH e e' h s m n R Nd S H U0 M0 U2 M2.
  destruct (preserves_bidispersed solve minH e e' (conj R (conj Nd S)) H) as [F K]. split; [apply K|]. split; [apply kept_keeps; assumption|].
  intros Hn. unfold BidispersedLimiter in H. destruct (PositiveLayerLimiter solve minH e) as [e1|] eqn:E1; [|discriminate]. cbn [bind] in H.
  destruct (preserves_positive solve minH e e1 (conj R (conj Nd S)) E1) as [F1 K1].
  destruct (C38_positive_layer_mean _ _ _ _ R S E1) as [Sh [K0 [O _]]].
  destruct U0 as [hs [N0 ->]]. destruct U2 as [ss [N2 ->]].
  assert (Em := mean_unique _ _ _ M0 (average_mean e hs R)). assert (En := mean_unique _ _ _ M2 (average_mean e ss R)).
  destruct (computeAverageOfSolution e1) as [a|] eqn:Ea; [|discriminate]. cbn [bind] in H.
  destruct (nth_error a 0) as [a0|] eqn:Ea0; [|discriminate]. destruct (nth_error a 2) as [a2|] eqn:Ea2; [|discriminate]. cbn [bind] in H.
  destruct (compute_nth _ _ _ _ Ea Ea0) as [hs1 [N01 ->]]. destruct (compute_nth _ _ _ _ Ea Ea2) as [ss1 [N21 ->]].
  rewrite O in N21 by lia. rewrite N2 in N21. inversion N21; subst ss1. rewrite !(same_averageOf e e1 _ Sh) in H.
  assert (E0 : averageOf e hs1 = averageOf e hs).
  { destruct K1 as [_ K1]. rewrite N01, N0 in K1. cbn [option_map] in K1. injection K1. auto. }
  rewrite E0 in H. rewrite (proj2 (ltb_false (averageOf e hs + minH) _)) in H by lra. rewrite (proj2 (ltb_false (averageOf e ss) _)) in H by lra.
  destruct (smallHeightDoesNotFitBetweenHeightAndZero minH e1) as [[|]|] eqn:Fit; cbn [bind] in H; [| |discriminate].
  - apply keeps_by_average; [assumption|apply K|]. intros cs cs' C C'. rewrite N2 in C. inversion C; subst cs.
    rewrite (set_nth _ _ _ _ 2 H) in C'. cbn [Nat.eqb] in C'. inversion C'; subst cs'.
    rewrite (same_project solve e e1 _ Sh). rewrite averageOf_project_const by assumption. reflexivity.
  - inversion H; subst e1. apply keeps_same_coefficients; [assumption|apply K|]. apply O. lia.
Qed.
Print Assumptions C38_bidispersed.

(** When the mean of the small particles does not fit, BidispersedLimiter sets them to the height or to zero, everywhere. *)
Theorem C38_bidispersed_outside : forall solve minH e e' h s h' s' m n, regular e -> nodal e -> solves solve e -> BidispersedLimiter solve minH e = Some e' ->
  unknown e 0 h -> mean h m -> unknown e 2 s -> mean s n -> unknown e' 0 h' -> unknown e' 2 s' ->
  (m + minH < n -> forall x, s' x = h' x) /\ (n < - minH -> n <= m + minH -> forall x, s' x = 0).
Proof.
  intros solve minH e e' h s h' s' m n R Nd S H U0 M0 U2 M2 U0' U2'.
  unfold BidispersedLimiter in H. destruct (PositiveLayerLimiter solve minH e) as [e1|] eqn:E1; [|discriminate]. cbn [bind] in H.
  destruct (preserves_positive solve minH e e1 (conj R (conj Nd S)) E1) as [F1 K1].
  destruct (C38_positive_layer_mean _ _ _ _ R S E1) as [Sh [K0 [O _]]].
  destruct U0 as [hs [N0 ->]]. destruct U2 as [ss [N2 ->]].
  assert (Em := mean_unique _ _ _ M0 (average_mean e hs R)). assert (En := mean_unique _ _ _ M2 (average_mean e ss R)).
  destruct (computeAverageOfSolution e1) as [a|] eqn:Ea; [|discriminate]. cbn [bind] in H.
  destruct (nth_error a 0) as [a0|] eqn:Ea0; [|discriminate]. destruct (nth_error a 2) as [a2|] eqn:Ea2; [|discriminate]. cbn [bind] in H.
  destruct (compute_nth _ _ _ _ Ea Ea0) as [hs1 [N01 ->]]. destruct (compute_nth _ _ _ _ Ea Ea2) as [ss1 [N21 ->]].
  rewrite O in N21 by lia. rewrite N2 in N21. inversion N21; subst ss1. rewrite !(same_averageOf e e1 _ Sh) in H.
  assert (E0 : averageOf e hs1 = averageOf e hs).
  { destruct K1 as [_ K1]. rewrite N01, N0 in K1. cbn [option_map] in K1. injection K1. auto. }
  rewrite E0 in H. destruct U0' as [hs' [N0' ->]]. destruct U2' as [ss' [N2' ->]]. split.
  - intros L x. rewrite (proj2 (ltb_true (averageOf e hs + minH) _)) in H by lra. rewrite N01 in H. cbn [bind] in H.
    rewrite (set_nth _ _ _ _ 0 H) in N0'. rewrite (set_nth _ _ _ _ 2 H) in N2'. cbn [Nat.eqb] in N0', N2'. congruence.
  - intros L L' x. rewrite (proj2 (ltb_false (averageOf e hs + minH) _)) in H by lra. rewrite (proj2 (ltb_true (averageOf e ss) _)) in H by lra.
    rewrite (set_nth _ _ _ _ 2 H) in N2'. cbn [Nat.eqb] in N2'. assert (ss' = map (fun _ => 0) (basisFunctions e1)) as -> by congruence.
    assert (basisFunctions e' = basisFunctions e1) as -> by (unfold setCoefficients in H; destruct (replace _ _ _); [|discriminate]; inversion H; reflexivity).
    clear. induction (basisFunctions e1) as [|b bs IH]; cbn; [reflexivity|]. rewrite IH. ring.
Qed.
Print Assumptions C38_bidispersed_outside.
Example C38_bidispersed_outside_nonvacuous : exists e e' h s, regular e /\ nodal e /\ solves solve1 e /\
  BidispersedLimiter solve1 (/ 10 ^ 5) e = Some e' /\ unknown e 0 h /\ mean h 2 /\ unknown e 2 s /\ mean s 4 /\ 2 + / 10 ^ 5 < 4.
Proof.
  assert (Q : / 10 ^ 5 = 1 / 100000) by field.
  set (hs := [1; 3]). set (ss := [4; 4]). set (e := line1 0 [hs; [0; 0]; ss]). assert (R : regular e) by (apply line1_regular; repeat constructor).
  assert (Hx : forall x, expand (basisFunctions e) hs x = 2 + x) by (intro x; unfold e, hs, line1; cbn [basisFunctions expand]; unfold b0, b1; field).
  exists e, (line1 0 [hs; [0; 0]; hs]), (expand (basisFunctions e) hs), (expand (basisFunctions e) ss).
  splits; try assumption; try (apply line1_nodal); try (apply line1_solves); try (eexists; split; reflexivity); try lra.
  - unfold BidispersedLimiter, PositiveLayerLimiter. destruct (getMinimumHeight e) as [m0|] eqn:M0; [|discriminate M0]. cbn [bind].
    assert (Sq : 0 < sqrt (1 / 3) < 1) by (split; [apply sqrt_lt_R0; lra|rewrite <- sqrt_1 at 2; apply sqrt_lt_1; lra]).
    assert (L : 1 <= m0).
    { destruct (minimum_ok e m0 hs M0 eq_refl) as [_ [x [I E]]]. rewrite E, Hx.
      unfold checkedPoints, e, line1, pRefL, pRefR in I; cbn [quadratureRule map snd app In] in I.
      destruct I as [<-|[<-|[<-|[<-|[]]]]]; lra. }
    rewrite (proj2 (ltb_false m0 (/ 10 ^ 5))) by lra. cbn [negb bind].
    assert (C : computeAverageOfSolution e = Some [2; 0; 4]).
    { unfold computeAverageOfSolution. change (map (averageOf e) (coefficients e)) with [averageOf e hs; averageOf e [0; 0]; averageOf e ss].
      unfold e, hs, ss. rewrite !line1_average. cbn [nth_error bind]. assert (0 < / 10 ^ 16) by (apply Rinv_0_lt_compat; lra).
      rewrite (proj2 (ltb_true _ _)) by lra. replace ((1 + 3) / 2) with 2 by field. replace ((0 + 0) / 2) with 0 by field. replace ((4 + 4) / 2) with 4 by field. reflexivity. }
    rewrite C. cbn [bind nth_error]. rewrite (proj2 (ltb_true (2 + / 10 ^ 5) 4)) by lra. reflexivity.
  - replace 2 with (averageOf e hs) by (unfold e, hs; rewrite line1_average; field). apply average_mean. exact R.
  - replace 4 with (averageOf e ss) by (unfold e, ss; rewrite line1_average; field). apply average_mean. exact R.
Qed.

(** After BidispersedLimiter the small particles need not fit between the bottom and the height: its own criterion can
    still report a misfit. *)
Theorem C38_bidispersed_refuted : exists solve e e',
  regular e /\ determined e /\ solves solve e /\ BidispersedLimiter solve (/ 10 ^ 5) e = Some e' /\
  smallHeightDoesNotFitBetweenHeightAndZero (/ 10 ^ 5) e' = Some true.
Proof.
  assert (Q : / 10 ^ 5 = 1 / 100000) by field.
  set (hs := [1; 3]). set (ss := [0; 4]). set (e := line1 0 [hs; [0; 0]; ss]). assert (R : regular e) by (apply line1_regular; repeat constructor).
  assert (D : determined e) by apply line1_determined. assert (S : solves solve1 e) by apply line1_solves.
  assert (Hx : forall x, expand (basisFunctions e) hs x = 2 + x) by (intro x; unfold e, hs, line1; cbn [basisFunctions expand]; unfold b0, b1; field).
  assert (Hs : forall x, expand (basisFunctions e) ss x = 2 + 2 * x) by (intro x; unfold e, ss, line1; cbn [basisFunctions expand]; unfold b0, b1; field).
  set (e' := line1 0 [hs; [0; 0]; projectOnBasisFuns solve1 e (fun _ => 2)]).
  exists solve1, e, e'. splits; try assumption.
  - unfold BidispersedLimiter, PositiveLayerLimiter. destruct (getMinimumHeight e) as [m0|] eqn:M0; [|discriminate M0]. cbn [bind].
    assert (Sq : 0 < sqrt (1 / 3) < 1) by (split; [apply sqrt_lt_R0; lra|rewrite <- sqrt_1 at 2; apply sqrt_lt_1; lra]).
    assert (L : 1 <= m0).
    { destruct (minimum_ok e m0 hs M0 eq_refl) as [_ [x [I E]]]. rewrite E, Hx.
      unfold checkedPoints, e, line1, pRefL, pRefR in I; cbn [quadratureRule map snd app In] in I.
      destruct I as [<-|[<-|[<-|[<-|[]]]]]; lra. }
    rewrite (proj2 (ltb_false m0 (/ 10 ^ 5))) by lra. cbn [negb bind].
    assert (C : computeAverageOfSolution e = Some [2; 0; 2]).
    { unfold computeAverageOfSolution. change (map (averageOf e) (coefficients e)) with [averageOf e hs; averageOf e [0; 0]; averageOf e ss].
      unfold e, hs, ss. rewrite !line1_average. cbn [nth_error bind]. assert (0 < / 10 ^ 16) by (apply Rinv_0_lt_compat; lra).
      rewrite (proj2 (ltb_true _ _)) by lra. replace ((1 + 3) / 2) with 2 by field. replace ((0 + 0) / 2) with 0 by field. replace ((0 + 4) / 2) with 2 by field. reflexivity. }
    rewrite C. cbn [bind nth_error]. rewrite (proj2 (ltb_false (2 + / 10 ^ 5) 2)) by lra. rewrite (proj2 (ltb_false 2 (- / 10 ^ 5))) by lra.
    assert (F : smallHeightDoesNotFitBetweenHeightAndZero (/ 10 ^ 5) e = Some true).
    { unfold smallHeightDoesNotFitBetweenHeightAndZero. change (nth_error (coefficients e) 0) with (Some hs). change (nth_error (coefficients e) 2) with (Some ss).
      cbn [bind]. f_equal. apply existsb_exists. exists 1. split; [unfold checkedPoints, pRefR; simpl; auto|]. rewrite Hx, Hs.
      rewrite (proj2 (ltb_true _ _)) by lra. reflexivity. }
    rewrite F. cbn [bind]. reflexivity.
  - unfold smallHeightDoesNotFitBetweenHeightAndZero. change (nth_error (coefficients e') 0) with (Some hs).
    change (nth_error (coefficients e') 2) with (Some (projectOnBasisFuns solve1 e (fun _ => 2))). cbn [bind]. change (basisFunctions e') with (basisFunctions e).
    f_equal. apply existsb_exists. exists (-1). split; [unfold checkedPoints, pRefL; simpl; auto|]. rewrite Hx.
    rewrite projection_exact by (try assumption; apply spanned_const; assumption). rewrite (proj2 (ltb_true _ _)) by lra. reflexivity.
Qed.
Print Assumptions C38_bidispersed_refuted.

(** TvbLimiter1D keeps all mean values of all elements and changes only element [i]; an unknown that it changes becomes
    linear, with a value in the left node between the means of the left neighbour and of the element, and a value in the
    right node between the means of the element and of the right neighbour (up to the 1e-16 of its sign function). *)
Theorem C38_tvb : forall k mesh i mesh', Forall regular mesh -> Forall nodal mesh -> (i < length mesh)%nat -> TvbLimiter1D k mesh i = Some mesh' ->
  length mesh' = length mesh /\ (forall j, j <> i -> nth_error mesh' j = nth_error mesh j) /\
  (forall j e e' var, nth_error mesh j = Some e -> nth_error mesh' j = Some e' -> same_shape e e' /\ keeps_mean e e' var).
Proof.
  intros k mesh i mesh' R N Hi H.
  assert (G : meshes mesh).
  { apply Forall_forall. intros e I. split; [apply (proj1 (Forall_forall _ _) R)|apply (proj1 (Forall_forall _ _) N)]; assumption. }
  destruct (tvb_mesh _ _ _ _ G Hi H) as [G' [L A]]. split; [assumption|]. split.
  - intros j Nj. destruct (nth_lt _ mesh i Hi) as [e E]. rewrite (tvb_local k mesh i e E) in H. destruct (tvbLocal _ _ _ _); [|discriminate]. cbn [bind] in H.
    rewrite (replace_nth _ _ _ _ _ j H). apply Nat.eqb_neq in Nj. rewrite Nj. reflexivity.
  - intros j e e' var E E'. specialize (A j). rewrite E, E' in A. cbn [oalike] in A. split; [apply A|].
    apply alike_keeps; [|exact A]. apply (proj1 (Forall_forall _ _) R). eapply nth_error_In; eauto.
Qed.
Print Assumptions C38_tvb.

Theorem C38_tvb_bounds : forall mesh i var mesh' eL e eR e' fL f fR f' mL m mR,
  Forall regular mesh -> nodal e ->
  nth_error mesh i = Some eL -> nth_error mesh (i + 1) = Some e -> nth_error mesh (i + 2) = Some eR ->
  limitWithMinMod mesh (i + 1) var = Some mesh' -> nth_error mesh' (i + 1) = Some e' ->
  unknown eL var fL -> unknown e var f -> unknown eR var fR -> unknown e' var f' -> mean fL mL -> mean f m -> mean fR mR ->
  mean f' m /\ (exists a b, forall x, f' x = a + b * x) /\
  Rmin mL m - / 10 ^ 16 <= f' (-1) <= Rmax mL m + / 10 ^ 16 /\
  Rmin m mR - / 10 ^ 16 <= f' 1 <= Rmax m mR + / 10 ^ 16.
Proof.
  intros mesh i var mesh' eL e eR e' fL f fR f' mL m mR RA Nd EL E ER H E' [csL [NL ->]] [cs [Nc ->]] [csR [NR ->]] [cs' [Nc' ->]] ML M MR.
  assert (RG : forall x j, nth_error mesh j = Some x -> regular x) by (intros x j X; apply (proj1 (Forall_forall _ _) RA); eapply nth_error_In; eauto).
  assert (EmL := mean_unique _ _ _ ML (average_mean eL csL (RG _ _ EL))). assert (Em := mean_unique _ _ _ M (average_mean e cs (RG _ _ E))).
  assert (EmR := mean_unique _ _ _ MR (average_mean eR csR (RG _ _ ER))).
  rewrite (minmod_local mesh (i + 1) var e E) in H. replace (before mesh (i + 1)) with (Some eL) in H by (rewrite Nat.add_1_r; simpl; congruence).
  replace (i + 1 + 1)%nat with (i + 2)%nat in H by lia. rewrite ER in H. cbn [minmodLocal] in H.
  destruct (negb _); [discriminate|]. destruct (computeAverageOfSolution e) as [a|] eqn:Ea; cbn [bind] in H; [|discriminate].
  destruct (nth_error a var) as [u0|] eqn:E0; cbn [bind] in H; [|discriminate].
  destruct (computeAverageOfSolution eR) as [aR|] eqn:EaR; cbn [bind] in H; [|discriminate]. destruct (nth_error aR var) as [uR|] eqn:ER0; cbn [bind] in H; [|discriminate].
  destruct (computeAverageOfSolution eL) as [aL|] eqn:EaL; cbn [bind] in H; [|discriminate]. destruct (nth_error aL var) as [uL|] eqn:EL0; cbn [bind] in H; [|discriminate].
  destruct (compute_nth _ _ _ _ Ea E0) as [c0 [C0 ->]]. destruct (compute_nth _ _ _ _ EaR ER0) as [cR [CR ->]]. destruct (compute_nth _ _ _ _ EaL EL0) as [cL [CL ->]].
  rewrite Nc in C0. rewrite NR in CR. rewrite NL in CL. inversion C0; inversion CR; inversion CL; subst c0 cR cL. rewrite <- EmL, <- Em, <- EmR in H.
  destruct (minmod mL m mR) as [l r] eqn:MM. destruct (newCoeffs _ l r) as [nc|] eqn:EN; cbn [bind] in H; [|discriminate].
  destruct (setCoefficients e var nc) as [e1|] eqn:Es; cbn [bind] in H; [|discriminate].
  rewrite (replace_at _ _ _ _ _ H) in E'. inversion E'; subst e1. rewrite (set_nth _ _ _ _ var Es), Nat.eqb_refl in Nc'. inversion Nc'; subst cs'.
  destruct (proj2 (set_shape _ _ _ _ Es)) as [-> _]. assert (X := new_expand e l r nc Nd EN). assert (B := minmod_between _ _ _ _ _ MM).
  split; [|split].
  - replace m with (averageOf e nc); [apply average_mean; eapply RG; eauto|]. rewrite (new_average e l r nc (RG _ _ E) Nd EN). apply minmod_sum in MM. lra.
  - exists ((l + r) / 2), ((r - l) / 2). intro x. rewrite X. field.
  - rewrite !X. replace ((1 - -1) / 2 * l + (1 + -1) / 2 * r) with l by field. replace ((1 - 1) / 2 * l + (1 + 1) / 2 * r) with r by field. exact B.
Qed.
Print Assumptions C38_tvb_bounds.

(** The order in which TvbLimiter1D visits the elements does not matter: every order gives the same mesh. *)
Theorem C38_tvb_order : forall k mesh l l', Forall regular mesh -> Forall nodal mesh -> Forall (fun i => (i < length mesh)%nat) l -> Permutation l l' ->
  for_each l (TvbLimiter1D k) mesh = for_each l' (TvbLimiter1D k) mesh.
Proof.
  intros k mesh l l' R N F P. apply tvb_permutation; try assumption.
  apply Forall_forall. intros e I. split; [apply (proj1 (Forall_forall _ _) R)|apply (proj1 (Forall_forall _ _) N)]; assumption.
Qed.
Print Assumptions C38_tvb_order.

(** The loop over all elements keeps the mean height in every element, with any of the limiters. *)
Theorem C38_loop_mass : forall solve minH dryLimit k detect heightLimiter slopeLimiter mesh mesh',
  In heightLimiter [EmptyHeightLimiter; PositiveLayerLimiter solve minH; SqueezeLimiterWithLayer solve minH;
    AverageValuesNonNegativeLimiter solve minH; BidispersedLimiter solve minH] ->
  In slopeLimiter [EmptySlopeLimiter; TvbLimiter1D k; TvbLimiterWithDetector1D solve k detect] ->
  Forall regular mesh -> Forall nodal mesh -> Forall (solves solve) mesh ->
  limitSolutionOuterLoop dryLimit heightLimiter slopeLimiter mesh = Some mesh' ->
  Forall2 (fun e e' => same_shape e e' /\ keeps_mean e e' 0) mesh mesh'.
Proof.
  intros solve minH dryLimit k detect h s m m' Hh Hs R N S H.
  assert (F : Forall (fit solve) m).
  { apply Forall_forall. intros e I. repeat split; try (apply (proj1 (Forall_forall _ _) R); assumption); [apply (proj1 (Forall_forall _ _) N)|apply (proj1 (Forall_forall _ _) S _ I)|apply (proj1 (Forall_forall _ _) S _ I)]; assumption. }
  assert (Ph : preserves solve h).
  { destruct Hh as [<-|[<-|[<-|[<-|[<-|[]]]]]]; auto using preserves_empty, preserves_positive, preserves_squeeze, preserves_average, preserves_bidispersed. }
  assert (Ps : slope_preserves solve s) by (destruct Hs as [<-|[<-|[<-|[]]]]; auto using slope_empty, slope_tvb, slope_detector).
  assert (K := loop_kept _ _ _ _ _ _ F Ph Ps H). clear - K R. induction K as [|e e' a b [F K] H IH]; [constructor|]. inversion R; subst.
  constructor; [|apply IH; assumption]. split; [apply K|apply kept_keeps; assumption].
Qed.
Print Assumptions C38_loop_mass.

(** Non-vacuity: a thin element that the layer limiter changes, and a mesh that the slope limiter changes. *)
Example C38_nonvacuous : exists e e' h, regular e /\ determined e /\ nodal e /\ solves solve1 e /\ unknown e 0 h /\ mean h 1 /\ h (-1) = -1 /\
  PositiveLayerLimiter solve1 (/ 10 ^ 5) e = Some e'.
Proof.
  set (hs := [-1; 3]). set (e := line1 0 [hs; [1; 1]]). assert (R : regular e) by (apply line1_regular; repeat constructor).
  assert (Av : averageOf e hs = 1) by (unfold e, hs; rewrite line1_average; field).
  assert (M : mean (expand (basisFunctions e) hs) 1) by (rewrite <- Av; apply average_mean; assumption).
  assert (U : unknown e 0 (expand (basisFunctions e) hs)) by (exists hs; split; reflexivity).
  assert (V : unknown e 1 (expand (basisFunctions e) [1; 1])) by (exists [1; 1]; split; reflexivity).
  destruct (C38_positive_layer_total solve1 (/ 10 ^ 5) e _ _ 1 R U V M ltac:(lra)) as [e' H].
  exists e, e', (expand (basisFunctions e) hs). splits; try assumption; [apply line1_determined|apply line1_nodal|apply line1_solves|].
  unfold e, hs, line1; cbn [basisFunctions expand]. unfold b0, b1. field.
Qed.
Example C38_tvb_nonvacuous :
  let mesh := [line1 0 [[0; 0]]; line1 1 [[-4; 6]]; line1 2 [[3; 3]]] in
  Forall regular mesh /\ Forall nodal mesh /\ limitWithMinMod mesh 1 0 = Some [line1 0 [[0; 0]]; line1 1 [[/ 2; 3 / 2]]; line1 2 [[3; 3]]].
Proof.
  intro mesh. split; [unfold mesh; repeat (apply Forall_cons; [apply line1_regular; repeat constructor|]); constructor|].
  split; [unfold mesh; repeat (apply Forall_cons; [apply line1_nodal|]); constructor|].
  assert (C : forall id a b, -1 < a + b -> -1 < a + b -> 0 <= a + b -> computeAverageOfSolution (line1 id [[a; b]]) = Some [(a + b) / 2]).
  { intros id a b _ _ P. unfold computeAverageOfSolution. change (map (averageOf (line1 id [[a; b]])) (coefficients (line1 id [[a; b]]))) with [averageOf (line1 id [[a; b]]) [a; b]].
    rewrite line1_average. cbn [nth_error bind]. assert (0 < / 10 ^ 16) by (apply Rinv_0_lt_compat; lra). rewrite (proj2 (ltb_true _ _)) by lra. reflexivity. }
  unfold limitWithMinMod. subst mesh. cbn [length Nat.eqb Nat.leb orb nth_error bind Nat.add Nat.sub getID line1 andb negb].
  fold (line1 0 [[0; 0]]) (line1 1 [[-4; 6]]) (line1 2 [[3; 3]]).
  rewrite !C by lra. cbn [bind nth_error].
  assert (Mm : minmod ((0 + 0) / 2) ((-4 + 6) / 2) ((3 + 3) / 2) = (/ 2, 3 / 2)).
  { unfold minmod. assert (Z : 0 < / 10 ^ 16 < 1) by (split; [apply Rinv_0_lt_compat; lra|rewrite <- Rinv_1; apply Rinv_lt_contravar; lra]).
    assert (P : forall x, 1 <= x -> sign x = 1%Z).
    { intros x X. unfold sign. rewrite Rabs_pos_eq by lra. rewrite (proj2 (ltb_false _ _)) by lra. rewrite (proj2 (ltb_false _ _)) by lra. reflexivity. }
    rewrite !P by lra. cbn [Z.eqb Pos.eqb negb]. unfold quotientBelowOne, eqb. destruct (Req_EM_T _ _); [lra|]. rewrite (proj2 (ltb_true _ _)) by lra.
    f_equal; field. }
  rewrite Mm. cbn. reflexivity.
Qed.
