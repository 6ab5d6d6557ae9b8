(** The height limiters. *)
From Coq Require Import List Arith Reals Lra Lia Bool.
From Verif Require Import Quadrature_spec QuadIntegral_proofs Limiter_model Limiter_spec Limiter_proofs.
Import ListNotations.
Local Open Scope R_scope.

Lemma set2 : forall e hs us e1 e', setCoefficients e 0 hs = Some e1 -> setCoefficients e1 1 us = Some e' ->
  same_shape e e' /\ nth_error (coefficients e') 0 = Some hs /\ nth_error (coefficients e') 1 = Some us /\
  (forall v, (2 <= v)%nat -> nth_error (coefficients e') v = nth_error (coefficients e) v).
Proof.
  intros e hs us e1 e' A B. split; [eapply same_trans; eapply set_shape; eauto|].
  rewrite !(set_nth _ _ _ _ _ B), !(set_nth _ _ _ _ _ A). cbn [Nat.eqb]. split; [reflexivity|]. split; [reflexivity|].
  intros v Hv. destruct v as [|[|v]]; [lia|lia|]. rewrite (set_nth _ _ _ _ _ B), (set_nth _ _ _ _ _ A). reflexivity.
Qed.

(** what a height limiter leaves: either the element or new heights [hs'] and discharges [us'] *)
Inductive limited (minH : R) (e e' : element) (P : R -> R -> R -> list R -> list R -> list R -> list R -> Prop) : Prop :=
| kept : forall m, getMinimumHeight e = Some m -> minH <= m -> e' = e -> limited minH e e' P
| changed : forall m hs us hs' us', getMinimumHeight e = Some m -> m < minH ->
    nth_error (coefficients e) 0 = Some hs -> nth_error (coefficients e) 1 = Some us ->
    same_shape e e' -> nth_error (coefficients e') 0 = Some hs' -> nth_error (coefficients e') 1 = Some us' ->
    (forall v, (2 <= v)%nat -> nth_error (coefficients e') v = nth_error (coefficients e) v) ->
    P m (averageOf e hs) (averageOf e us) hs us hs' us' -> limited minH e e' P.

Definition dry (solve : solver) (e : element) (h : R) (hs' us' : list R) : Prop :=
  hs' = projectOnBasisFuns solve e (fun _ => h) /\ us' = projectOnBasisFuns solve e (fun _ => 0).

Ltac step H := match type of H with bind ?o _ = Some _ => let E := fresh "E" in destruct o eqn:E; cbn [bind] in H; [|discriminate H] end.

Lemma positive_layer_limited : forall solve minH e e', PositiveLayerLimiter solve minH e = Some e' ->
  limited minH e e' (fun m h u hs us hs' us' =>
    (h < minH /\ dry solve e h hs' us') \/
    (minH <= h /\ exists s t,
       (s = Rmin ((expand (basisFunctions e) hs (-1) + expand (basisFunctions e) hs 1 - 2 * minH) / 2) (h - minH) \/
        s = - Rmin ((expand (basisFunctions e) hs (-1) + expand (basisFunctions e) hs 1 - 2 * minH) / 2) (h - minH)) /\
       hs' = projectOnBasisFuns solve e (fun x => h + s * x) /\ us' = projectOnBasisFuns solve e (fun x => u + t * x))).
Proof.
  intros solve minH e e' H. unfold PositiveLayerLimiter in H. step H. destruct (ltb r minH) eqn:L; cbn [negb] in H.
  2:{ apply ltb_false in L. inversion H; subst. eapply kept; eauto. }
  apply ltb_true in L. step H. rename l into averages. step H. step H. rename r0 into h, r1 into u.
  destruct (compute_nth _ _ _ _ E0 E1) as [hs [N0 ->]]. destruct (compute_nth _ _ _ _ E0 E2) as [us [N1 ->]].
  destruct (ltb (averageOf e hs) minH) eqn:D.
  - apply ltb_true in D. step H. destruct (set2 _ _ _ _ _ E3 H) as [S [A [B C]]].
    eapply changed; eauto. left. split; [assumption|]. split; reflexivity.
  - apply ltb_false in D. unfold getSolution in H. rewrite N0 in H. cbn [bind] in H.
    set (l := expand (basisFunctions e) hs pRefL) in *. set (r' := expand (basisFunctions e) hs pRefR) in *.
    destruct (ltb r' l); step H; destruct (set2 _ _ _ _ _ E3 H) as [S [A [B C]]]; (eapply changed; eauto; right; split; [assumption|]).
    + exists (Rmin ((l + r' - 2 * minH) / 2) (averageOf e hs - minH) * -1), (averageOf e us * -1). split; [right; unfold l, r', pRefL, pRefR; ring|]. split; reflexivity.
    + exists (Rmin ((l + r' - 2 * minH) / 2) (averageOf e hs - minH)), (averageOf e us). split; [left; reflexivity|]. split; reflexivity.
Qed.

Lemma squeeze_limited : forall solve minH e e', SqueezeLimiterWithLayer solve minH e = Some e' ->
  limited minH e e' (fun m h u hs us hs' us' =>
    (h < minH /\ dry solve e h hs' us') \/
    (minH <= h /\ exists t,
       hs' = projectOnBasisFuns solve e (fun x => h + (h - minH) / (h - m) * (expand (basisFunctions e) hs x - h)) /\
       us' = projectOnBasisFuns solve e (fun x => u + t * (expand (basisFunctions e) us x - u)))).
Proof.
  intros solve minH e e' H. unfold SqueezeLimiterWithLayer in H. step H. destruct (ltb r minH) eqn:L; cbn [negb] in H.
  2:{ apply ltb_false in L. inversion H; subst. eapply kept; eauto. }
  apply ltb_true in L. step H. rename l into averages. step H. step H. rename r0 into h, r1 into u.
  destruct (compute_nth _ _ _ _ E0 E1) as [hs [N0 ->]]. destruct (compute_nth _ _ _ _ E0 E2) as [us [N1 ->]].
  destruct (ltb (averageOf e hs) minH) eqn:D.
  - apply ltb_true in D. step H. destruct (set2 _ _ _ _ _ E3 H) as [S [A [B C]]].
    eapply changed; eauto. left. split; [assumption|]. split; reflexivity.
  - apply ltb_false in D. step H. step H. step H. rewrite N0, N1 in H. cbn [bind] in H. step H.
    destruct (set2 _ _ _ _ _ E6 H) as [S [A [B C]]]. eapply changed; eauto.
Qed.

Lemma average_limited : forall solve minH e e', AverageValuesNonNegativeLimiter solve minH e = Some e' ->
  limited minH e e' (fun m h u hs us hs' us' =>
    hs' = projectOnBasisFuns solve e (fun _ => h) /\ us' = projectOnBasisFuns solve e (fun _ => u)).
Proof.
  intros solve minH e e' H. unfold AverageValuesNonNegativeLimiter in H. step H. destruct (ltb r minH) eqn:L; cbn [negb] in H.
  2:{ apply ltb_false in L. inversion H; subst. eapply kept; eauto. }
  apply ltb_true in L. step H. rename l into averages. step H. step H. rename r0 into h, r1 into u.
  destruct (compute_nth _ _ _ _ E0 E1) as [hs [N0 ->]]. destruct (compute_nth _ _ _ _ E0 E2) as [us [N1 ->]].
  step H. destruct (set2 _ _ _ _ _ E3 H) as [S [A [B C]]]. eapply changed; eauto.
Qed.

Lemma wsum_squeeze : forall e a b cs, regular e -> a = averageOf e cs ->
  wsum (quadratureRule e) (fun x => a + b * (expand (basisFunctions e) cs x - a)) = wsum (quadratureRule e) (expand (basisFunctions e) cs).
Proof.
  intros e a b cs R ->. rewrite averageOf_wsum by apply R. set (w := wsum (quadratureRule e) (expand (basisFunctions e) cs)).
  rewrite (wsum_ext _ _ (fun x => (w / 2 - b * (w / 2)) * 1 + b * expand (basisFunctions e) cs x)) by (intros; ring).
  rewrite (wsum_lin _ (fun _ => 1)), wsum_one by assumption. fold w. field.
Qed.

(** all of the limiters keep the mean height and do not change the other unknowns *)
Lemma limited_shape : forall minH e e' P, limited minH e e' P -> same_shape e e' /\ (forall v, (2 <= v)%nat -> nth_error (coefficients e') v = nth_error (coefficients e) v).
Proof. intros minH e e' P []; [subst; split; [apply same_refl|reflexivity]|]. split; assumption. Qed.

Lemma limited_keeps : forall minH e e' P var, regular e -> (var < 2)%nat ->
  limited minH e e' P ->
  (forall m h u hs us hs' us', nth_error (coefficients e) 0 = Some hs -> nth_error (coefficients e) 1 = Some us -> h = averageOf e hs -> u = averageOf e us ->
     P m h u hs us hs' us' -> match var with O => averageOf e hs' = averageOf e hs | _ => averageOf e us' = averageOf e us end) ->
  keeps_mean e e' var.
Proof.
  intros minH e e' P var R V L H. destruct L as [m M Hm ->|m hs us hs' us' M Hm A B S A' B' C X].
  - apply keeps_refl. assumption.
  - specialize (H _ _ _ _ _ _ _ A B eq_refl eq_refl X). apply keeps_by_average; try assumption. intros cs cs' D D'.
    destruct var as [|[|var]]; [congruence|congruence|lia].
Qed.

Lemma limited_regular : forall minH e e' P, regular e -> limited minH e e' P ->
  (forall m h u hs us hs' us', P m h u hs us hs' us' -> length hs' = length (basisFunctions e) /\ length us' = length (basisFunctions e)) -> regular e'.
Proof.
  intros minH e e' P R L H. destruct L as [m M Hm ->|m hs us hs' us' M Hm A B S A' B' C X]; [assumption|].
  destruct (H _ _ _ _ _ _ _ X) as [L1 L2]. eapply same_regular; eauto.
  apply Forall_forall. intros cs I. apply In_nth_error in I. destruct I as [v I].
  destruct v as [|[|v]]; [congruence|congruence|]. rewrite C in I by lia.
  apply (proj1 (Forall_forall _ _) (proj1 (proj2 R))). eapply nth_error_In; eauto.
Qed.
