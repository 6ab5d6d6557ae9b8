(** C39: the quadrature rules. *)
From Coq Require Import List Arith NArith ZArith Reals Lra Lia Bool Sorted.
From Verif Require Import RefGeometry_model Quadrature_model Quadrature_spec QuadIntegral_proofs QuadInterval_proofs Quadrature_proofs QuadRules_proofs QuadChecks_proofs.
Import ListNotations.
Local Open Scope R_scope.

(** The integral of the specification is a number: no function has two integrals over a reference element. *)
Theorem C39_integral_unique : forall s f u v, integral s f u -> integral s f v -> u = v.
Proof. exact integral_unique. Qed.
Print Assumptions C39_integral_unique.

(** Every registered rule integrates all polynomials of the degree it declares. Missing for the full property: the two
    rules of [C39_refuted]. *)
Theorem C39_exact_partial : forall r, In r registered -> r <> T3_7_31 -> r <> T3_9_53 -> integrates r (order r).
Proof.
  intros r I A B. unfold registered in I. cbn [In] in I.
  destruct I as [<-|I]; [apply integrates_point|].
  repeat (destruct I as [<-|I];
    [solve [exact Cn1_1_1_ok | exact Cn1_3_2_ok | exact Cn1_5_3_ok | exact C1_7_4_ok | exact C1_9_5_ok | exact C1_11_6_ok | exact Cn2_1_1_ok
     | exact Cn2_3_4_ok | exact Cn2_5_9_ok | exact C2_7_4_ok | exact C2_9_5_ok | exact C2_11_6_ok | exact Tn2_1_1_ok | exact Tn2_2_3_ok | exact Tn2_4_6_ok
     | exact T2_5_7_ok | exact T2_6_12_ok | exact T2_8_16_ok | exact T2_9_19_ok | exact T2_10_25_ok | exact T2_11_28_ok | exact Cn3_1_1_ok | exact Cn3_3_4_ok
     | exact Cn3_5_9_ok | exact C3_7_2_ok | exact C3_9_2_ok | exact C3_11_2_ok | exact Pyramid_1_4_ok | exact Pyramid_3_16_ok | exact Pyramid_5_36_ok
     | exact Pyramid_7_48_ok | exact Tn3_1_1_ok | exact Tn3_2_4_ok | exact Tn3_3_10_ok | exact Tn3_4_14_ok | exact T3_5_14_ok | exact T3_6_24_ok
     | exact T3_8_43_ok | exact T3_10_126_ok | exact TriPrism_1_1_ok | exact TriPrism_5_21_ok | exact TriPrism_7_64_ok | exact Cn4_1_1_ok | exact Cn4_3_16_ok
     | exfalso; apply A; reflexivity | exfalso; apply B; reflexivity]|]).
  destruct I.
Qed.
Print Assumptions C39_exact_partial.

(** The two remaining rules integrate all polynomials of one degree less than they declare. *)
Theorem C39_exact_one_less : integrates T3_7_31 6 /\ integrates T3_9_53 8.
Proof. split; [exact T3_7_31_ok|exact T3_9_53_ok]. Qed.
Print Assumptions C39_exact_one_less.

(** The rules that are selected for tetrahedra and the orders 7 and 9 are not exact for these degrees: the error for
    x^7 is more than 4e-8 (relative to the integral 1/720, about 3e-5), and for x^9 more than 1e-8. *)
Theorem C39_refuted :
  (getRule Tetrahedron None 7 = Some T3_7_31 /\ order T3_7_31 = 7%N /\
   exists u v, quadrature T3_7_31 (peval [(1, [7; 0; 0]%nat)]) = Some u /\ integral Tetrahedron (peval [(1, [7; 0; 0]%nat)]) v /\
     v = 1 / 720 /\ / 25000000 < Rabs (u - v)) /\
  (getRule Tetrahedron None 9 = Some T3_9_53 /\ order T3_9_53 = 9%N /\
   exists u v, quadrature T3_9_53 (peval [(1, [9; 0; 0]%nat)]) = Some u /\ integral Tetrahedron (peval [(1, [9; 0; 0]%nat)]) v /\
     v = 1 / 1320 /\ / 100000000 < Rabs (u - v)) /\
  ~ integrates T3_7_31 (order T3_7_31) /\ ~ integrates T3_9_53 (order T3_9_53).
Proof.
  assert (M : forall r e T, forReferenceGeometry r = Tetrahedron -> getNumberOfPoints r = length (entries r) -> (0 < T)%Z ->
    far_moment T Tetrahedron e (entries r) = true -> length e = 3%nat ->
    exists u v, quadrature r (peval [(1, e)]) = Some u /\ integral Tetrahedron (peval [(1, e)]) v /\ v = monomial_integral Tetrahedron e /\ / IZR T < Rabs (u - v)).
  { intros r e T S L HT F Le. exists (esum (entries r) (peval [(1, e)])), (pintegral Tetrahedron [(1, e)]).
    split; [apply quadrature_ok; assumption|]. split; [apply integral_poly; repeat constructor; assumption|].
    assert (P : pintegral Tetrahedron [(1, e)] = monomial_integral Tetrahedron e) by (cbn [pintegral]; ring).
    split; [exact P|]. rewrite P.
    assert (Q : esum (entries r) (peval [(1, e)]) = esum (entries r) (monomial e)).
    { apply esum_ext. intro p. cbn [peval]. ring. }
    rewrite Q. apply far_moment_ok; assumption. }
  assert (V7 : monomial_integral Tetrahedron [7; 0; 0]%nat = 1 / 720).
  { destruct (integralF_ok Tetrahedron [7; 0; 0]%nat) as [<- _]. vm_compute integralF. unfold fval. cbn [fst snd]. field. }
  assert (V9 : monomial_integral Tetrahedron [9; 0; 0]%nat = 1 / 1320).
  { destruct (integralF_ok Tetrahedron [9; 0; 0]%nat) as [<- _]. vm_compute integralF. unfold fval. cbn [fst snd]. field. }
  destruct (M T3_7_31 [7; 0; 0]%nat 25000000%Z eq_refl eq_refl eq_refl ltac:(vm_compute; reflexivity) eq_refl) as [u7 [v7 [A7 [B7 [C7 D7]]]]].
  destruct (M T3_9_53 [9; 0; 0]%nat 100000000%Z eq_refl eq_refl eq_refl ltac:(vm_compute; reflexivity) eq_refl) as [u9 [v9 [A9 [B9 [C9 D9]]]]].
  rewrite V7 in C7. rewrite V9 in C9.
  assert (N : forall r e k u v T, forReferenceGeometry r = Tetrahedron -> (N.of_nat (list_sum e) <= k)%N -> length e = 3%nat -> 0 < T < 10 ^ 13 ->
    quadrature r (peval [(1, e)]) = Some u -> integral Tetrahedron (peval [(1, e)]) v -> / T < Rabs (u - v) -> ~ integrates r k).
  { intros r e k u v T S K Le [T0 T1] Qu Iv Far H. destruct (H [(1, e)]) as [u' [v' [Q' [I' Near]]]].
    - rewrite S. repeat constructor; assumption.
    - rewrite S in *. rewrite Qu in Q'. inversion Q'; subst u'. rewrite (integral_unique _ _ _ _ I' Iv) in Near.
      cbn [size tolerance] in Near. rewrite Rabs_R1 in Near. assert (/ 10 ^ 13 < / T) by (apply Rinv_lt_contravar; [apply Rmult_lt_0_compat; lra|assumption]). lra. }
  split; [|split].
  - split; [reflexivity|]. split; [reflexivity|]. exists u7, v7. auto.
  - split; [reflexivity|]. split; [reflexivity|]. exists u9, v9. auto.
  - split; [eapply N with (e := [7; 0; 0]%nat) (T := 25000000)|eapply N with (e := [9; 0; 0]%nat) (T := 100000000)]; try eassumption; try reflexivity; try lra;
      cbn; lia.
Qed.
Print Assumptions C39_refuted.

(** All quadrature points are points of the reference element, as [isInternalPoint] of that element decides. *)
Theorem C39_points_inside : forall r i p, In r registered -> getPoint r i = Some p -> isInternalPoint (forReferenceGeometry r) p = Some true.
Proof.
  intros r i p I. apply internal_entries_ok. assert (H := points_internal). rewrite forallb_forall in H. apply H. assumption.
Qed.
Print Assumptions C39_points_inside.

(** A rule has exactly as many weights and points as it says, and the points have the dimension of the element. *)
Theorem C39_points_complete : forall r i, In r registered ->
  ((i < getNumberOfPoints r)%nat -> exists w p, weight r i = Some w /\ getPoint r i = Some p /\ length p = dimension (forReferenceGeometry r)) /\
  ((getNumberOfPoints r <= i)%nat -> weight r i = None /\ getPoint r i = None).
Proof.
  intros r i I. assert (P := points_agree). rewrite Forall_forall in P. specialize (P r I).
  assert (D := points_dimension). rewrite forallb_forall in D. specialize (D r I). rewrite forallb_forall in D.
  unfold weight, getPoint. split; intro H.
  - rewrite (proj2 (Nat.ltb_lt _ _) H). destruct (nth_error (entries r) i) as [e|] eqn:N.
    + exists (value (fst e)), (map value (snd e)). split; [reflexivity|]. split; [reflexivity|]. rewrite map_length.
      apply Nat.eqb_eq. apply D. eapply nth_error_In. exact N.
    + apply nth_error_None in N. lia.
  - rewrite (proj2 (Nat.ltb_ge _ _) H). auto.
Qed.
Print Assumptions C39_points_complete.

(** [getRule] gives a registered rule for the geometry that is accurate enough, also for curvilinear elements, and of
    all such rules it gives one of the lowest order; it fails only if there is none. *)
Theorem C39_getRule : forall s c o,
  let accurate r := In r registered /\ forReferenceGeometry r = s /\ (o <= order r)%N /\ (forall k, c = Some k -> (k < order r)%N) in
  match getRule s c o with
  | Some r => accurate r /\ forall r', accurate r' -> (order r <= order r')%N
  | None => forall r, ~ accurate r
  end.
Proof.
  intros s c o accurate. unfold getRule.
  set (o' := match c with Some c0 => N.max o (c0 + 1) | None => o end).
  assert (W : forall r, accurate r <-> In r (listOfRules_ s) /\ (o' <=? order r)%N = true).
  { intro r. unfold accurate. rewrite rules_in, N.leb_le. subst o'. destruct c as [k|].
    - split; [intros [A [B [C D]]]; specialize (D k eq_refl); repeat split; auto; lia|].
      intros [[A B] C]. repeat split; auto; [lia|]. intros ? E; inversion E; subst; lia.
    - split; [tauto|]. intros [[A B] C]. repeat split; auto. discriminate. }
  destruct (find _ _) as [r|] eqn:F.
  - apply find_first in F; [|apply rules_sorted]. destruct F as [A [B C]]. split; [apply W; auto|].
    intros r' H. apply W in H. destruct H. auto.
  - intros r H. apply W in H. destruct H as [A B]. apply (find_none _ _ F) in A. cbv beta in A. congruence.
Qed.
Print Assumptions C39_getRule.

(** For which orders there is a rule. *)
Theorem C39_available : forall s c o,
  (exists r, getRule s c o = Some r) <->
  let highest := match s with Point => 18446744073709551615 | Line | Square | Cube | Triangle | Tetrahedron => 11
                 | Pyramid | TriangularPrism => 7 | Hypercube => 3 end%N in
  (o <= highest)%N /\ (forall k, c = Some k -> (k < highest)%N).
Proof.
  intros s c o. assert (G := C39_getRule s c o). cbv zeta in *. set (highest := match s with Point => _ | _ => _ end%N).
  assert (U : forall r, In r registered -> forReferenceGeometry r = s -> (order r <= highest)%N).
  { subst highest. clear G. intros r I <-. apply N.leb_le.
    assert (X : forallb (fun r => order r <=? match forReferenceGeometry r with Point => 18446744073709551615 | Line | Square | Cube | Triangle => 11
      | Tetrahedron => 11 | Pyramid | TriangularPrism => 7 | Hypercube => 3 end)%N registered = true) by (vm_compute; reflexivity).
    rewrite forallb_forall in X. exact (X r I). }
  assert (E : exists r, In r registered /\ forReferenceGeometry r = s /\ order r = highest).
  { subst highest. destruct s;
      [exists Cn0_inf_1 | exists C1_11_6 | exists T2_11_28 | exists C2_11_6 | exists T3_10_126 | exists Pyramid_7_48 | exists TriPrism_7_64 | exists C3_11_2 | exists Cn4_3_16];
      (split; [|split; reflexivity]); unfold registered; cbn [In]; tauto. }
  destruct (getRule s c o) as [r|].
  - destruct G as [[A [B [C D]]] _]. split; [|eauto]. intros _. assert (X := U r A B). split; [lia|]. intros k Hk. specialize (D k Hk). lia.
  - split; [intros [r X]; discriminate|]. intros [A B]. exfalso. destruct E as [r [E1 [E2 E3]]]. apply (G r). rewrite E3. auto.
Qed.
Print Assumptions C39_available.

(** Non-vacuity: a polynomial of mixed degree on a triangle and its rule. *)
Example C39_nonvacuous :
  In T2_5_7 registered /\ getRule Triangle None 5 = Some T2_5_7 /\ getRule Triangle (Some 4%N) 2 = Some T2_5_7 /\
  of_degree Triangle 5 [(3, [2; 3]%nat); (-1, [0; 1]%nat)] /\ ~ of_degree Triangle 5 [(3, [3; 3]%nat)].
Proof.
  split; [unfold registered; cbn [In]; tauto|]. split; [reflexivity|]. split; [reflexivity|]. split.
  - repeat constructor; cbn; lia.
  - intro H. inversion H as [|? ? [_ X] _]; subst. revert X. vm_compute. intro X; apply X; reflexivity.
Qed.
Example C39_value_nonvacuous : exists u, quadrature Cn1_3_2 (peval [(1, [2]%nat)]) = Some u /\ Rabs (u - 2 / 3) <= / 10 ^ 13.
Proof.
  destruct (C39_exact_partial Cn1_3_2 ltac:(unfold registered; cbn [In]; tauto) ltac:(discriminate) ltac:(discriminate) [(1, [2]%nat)]) as [u [v [A [B C]]]].
  - repeat constructor. cbn. lia.
  - exists u. split; [exact A|].
    assert (I := integral_poly Line [(1, [2]%nat)] ltac:(repeat constructor)).
    rewrite (integral_unique _ _ _ _ B I) in C. cbn [size] in C. rewrite Rabs_R1, Rplus_0_r, Rmult_1_r in C.
    replace (2 / 3) with (pintegral Line [(1, [2]%nat)]); [exact C|].
    cbn [pintegral]. destruct (integralF_ok Line [2]%nat) as [<- _]. vm_compute integralF. unfold fval. cbn [fst snd]. field.
Qed.
Example C39_inside_nonvacuous : exists p, getPoint T3_10_126 0 = Some p /\ isInternalPoint Tetrahedron p = Some true.
Proof.
  destruct (C39_points_complete T3_10_126 0 ltac:(unfold registered; cbn [In]; tauto)) as [H _].
  destruct (H ltac:(cbn; lia)) as [w [p [_ [P _]]]]. exists p. split; [exact P|].
  apply (C39_points_inside T3_10_126 0 p); [unfold registered; cbn [In]; tauto|exact P].
Qed.
