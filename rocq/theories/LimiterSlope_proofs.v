(** The slope limiters and the loop over the elements. *)
From Coq Require Import List Arith Reals Lra Lia Bool ZArith Permutation.
From Verif Require Import Quadrature_spec QuadIntegral_proofs Limiter_model Limiter_spec Limiter_proofs LimiterHeight_proofs.
Import ListNotations.
Local Open Scope R_scope.

Ltac step H := match type of H with bind ?o _ = Some _ => let E := fresh "E" in destruct o eqn:E; cbn [bind] in H; [|discriminate H] end.

(** ** the new values *)
Lemma sign_0 : forall x, sign x = 0%Z -> Rabs x < / 10 ^ 16.
Proof.
  intros x. unfold sign. destruct (ltb (Rabs x) (/ 10 ^ 16)) eqn:A; [intros _; apply ltb_true; exact A|].
  destruct (ltb x 0); discriminate.
Qed.
Lemma sign_pos : forall x, sign x = 1%Z -> 0 < x.
Proof.
  intros x. unfold sign. destruct (ltb (Rabs x) (/ 10 ^ 16)) eqn:A; [discriminate|]. apply ltb_false in A.
  destruct (ltb x 0) eqn:B; [discriminate|]. apply ltb_false in B. intros _. destruct B as [B|<-]; [assumption|].
  rewrite Rabs_R0 in A. assert (0 < / 10 ^ 16) by (apply Rinv_0_lt_compat; lra). lra.
Qed.
Lemma sign_neg : forall x, sign x = (-1)%Z -> x < 0.
Proof.
  intros x. unfold sign. destruct (ltb (Rabs x) (/ 10 ^ 16)); [discriminate|].
  destruct (ltb x 0) eqn:B; [|discriminate]. apply ltb_true in B. auto.
Qed.
Lemma sign_cases : forall x, sign x = 0%Z \/ sign x = 1%Z \/ sign x = (-1)%Z.
Proof. intro x. unfold sign. destruct (ltb _ _); [auto|]. destruct (ltb _ _); auto. Qed.

Lemma minmod_sum : forall a b c l r, minmod a b c = (l, r) -> l + r = 2 * b.
Proof.
  intros a b c l r. unfold minmod. destruct (negb _); [intro H; inversion H; lra|]. destruct (quotientBelowOne _ _); intro H; inversion H; lra.
Qed.

Lemma quotient_pos : forall a b, 0 < a -> 0 < b -> (quotientBelowOne a b = true -> a < b) /\ (quotientBelowOne a b = false -> b <= a).
Proof.
  intros a b A B. unfold quotientBelowOne, eqb. destruct (Req_EM_T b 0) as [E|_]; [lra|].
  split; intro H; [apply ltb_true in H|apply ltb_false in H].
  - apply Rmult_lt_compat_r with (r := b) in H; [|assumption]. unfold Rdiv in H. rewrite Rmult_assoc, Rinv_l in H by lra. lra.
  - apply Rmult_le_compat_r with (r := b) in H; [|lra]. unfold Rdiv in H. rewrite Rmult_assoc, Rinv_l in H by lra. lra.
Qed.
Lemma quotient_opp : forall a b, b <> 0 -> quotientBelowOne (- a) (- b) = quotientBelowOne a b.
Proof.
  intros a b B. unfold quotientBelowOne, eqb. destruct (Req_EM_T b 0); [contradiction|]. destruct (Req_EM_T (- b) 0); [lra|].
  replace (- a / - b) with (a / b) by (field; lra). reflexivity.
Qed.

Lemma minmod_between : forall a b c l r, minmod a b c = (l, r) ->
  Rmin a b - / 10 ^ 16 <= l <= Rmax a b + / 10 ^ 16 /\ Rmin b c - / 10 ^ 16 <= r <= Rmax b c + / 10 ^ 16.
Proof.
  intros a b c l r. assert (Z : 0 < / 10 ^ 16) by (apply Rinv_0_lt_compat; lra).
  assert (MM : forall x y, Rmin x y <= x /\ Rmin x y <= y /\ x <= Rmax x y /\ y <= Rmax x y).
  { intros x y. repeat split; [apply Rmin_l|apply Rmin_r|apply Rmax_l|apply Rmax_r]. }
  destruct (MM a b) as [A1 [A2 [A3 A4]]]. destruct (MM b c) as [B1 [B2 [B3 B4]]].
  unfold minmod. destruct (Z.eqb_spec (sign (c - b)) (sign (b - a))) as [E|E]; cbn [negb].
  2:{ intro H; inversion H; subst. lra. }
  destruct (sign_cases (b - a)) as [S|[S|S]]; rewrite S in E.
  - apply sign_0 in S. apply sign_0 in E. apply Rabs_def2 in S. apply Rabs_def2 in E.
    destruct (quotientBelowOne _ _); intro H; inversion H; subst; lra.
  - apply sign_pos in S. apply sign_pos in E. destruct (quotient_pos (b - a) (c - b) S E) as [Q1 Q2].
    destruct (quotientBelowOne _ _); intro H; inversion H; subst; [specialize (Q1 eq_refl)|specialize (Q2 eq_refl)]; lra.
  - apply sign_neg in S. apply sign_neg in E. destruct (quotient_pos (- (b - a)) (- (c - b)) ltac:(lra) ltac:(lra)) as [Q1 Q2].
    rewrite quotient_opp in Q1, Q2 by lra.
    destruct (quotientBelowOne _ _); intro H; inversion H; subst; [specialize (Q1 eq_refl)|specialize (Q2 eq_refl)]; lra.
Qed.

(** ** the new coefficients *)
Lemma expand_zeros : forall bs k m x, expand bs (map (fun _ => 0) (seq m k)) x = 0.
Proof. induction bs as [|b bs IH]; intros k m x; simpl; [reflexivity|]. destruct k; simpl; [reflexivity|]. rewrite IH. ring. Qed.
Lemma new_length : forall n l r cs, newCoeffs n l r = Some cs -> length cs = n.
Proof. intros [|[|n]] l r cs H; simpl in H; try discriminate. inversion H; simpl. rewrite map_length, seq_length. reflexivity. Qed.

Lemma new_expand : forall e l r cs, nodal e -> newCoeffs (length (basisFunctions e)) l r = Some cs ->
  forall x, expand (basisFunctions e) cs x = (1 - x) / 2 * l + (1 + x) / 2 * r.
Proof.
  intros e l r cs [b0 [b1 [rest [E [H0 [H1 _]]]]]] N x. rewrite E in *. simpl in N. inversion N; subst. simpl.
  rewrite H0, H1, expand_zeros. ring.
Qed.
Lemma new_average : forall e l r cs, regular e -> nodal e -> newCoeffs (length (basisFunctions e)) l r = Some cs -> averageOf e cs = (l + r) / 2.
Proof.
  intros e l r cs R N H. rewrite averageOf_wsum by apply R.
  rewrite (wsum_ext _ _ (fun x => (l + r) / 2 + (r - l) / 2 * x)), wsum_affine by (intros; try assumption; rewrite (new_expand e l r cs N H); field). field.
Qed.
Lemma new_some : forall e l r, nodal e -> exists cs, newCoeffs (length (basisFunctions e)) l r = Some cs.
Proof. intros e l r [b0 [b1 [rest [E _]]]]. rewrite E. simpl. eauto. Qed.

(** ** elements with the same averages *)
Definition alike (e e' : element) : Prop :=
  same_shape e e' /\ length (coefficients e') = length (coefficients e) /\ map (averageOf e) (coefficients e') = map (averageOf e) (coefficients e).

Lemma alike_refl : forall e, alike e e.
Proof. intro e. split; [apply same_refl|]. auto. Qed.
Lemma alike_trans : forall a b c, alike a b -> alike b c -> alike a c.
Proof.
  intros a b c [S1 [L1 M1]] [S2 [L2 M2]]. split; [eapply same_trans; eauto|]. split; [congruence|].
  rewrite <- M1, <- (map_ext _ _ (fun cs => same_averageOf a b cs S1)), M2. apply map_ext. intro cs. apply same_averageOf. assumption.
Qed.
Lemma alike_compute : forall e e', alike e e' -> computeAverageOfSolution e' = computeAverageOfSolution e.
Proof.
  intros e e' [S [L M]]. unfold computeAverageOfSolution. rewrite (map_ext _ _ (fun cs => same_averageOf e e' cs S)), M. reflexivity.
Qed.
Lemma alike_keeps : forall e e' var, regular e -> alike e e' -> keeps_mean e e' var.
Proof.
  intros e e' var R [S [_ M]]. apply keeps_by_average; try assumption. intros cs cs' A B.
  assert (X : nth_error (map (averageOf e) (coefficients e')) var = nth_error (map (averageOf e) (coefficients e)) var) by (rewrite M; reflexivity).
  rewrite !nth_error_map, A, B in X. simpl in X. congruence.
Qed.
Lemma set_alike : forall e var cs cs' e', nth_error (coefficients e) var = Some cs -> averageOf e cs' = averageOf e cs ->
  setCoefficients e var cs' = Some e' -> alike e e'.
Proof.
  intros e var cs cs' e' N A H. split; [eapply set_shape; eauto|].
  unfold setCoefficients in H. destruct (replace _ _ _) as [l|] eqn:E; simpl in H; [|discriminate]. inversion H; subst. cbn [coefficients].
  split; [eapply replace_length; eauto|]. clear H. revert var l N E. induction (coefficients e) as [|c l0 IH]; intros var l N E; [destruct var; discriminate|].
  destruct var; simpl in E.
  - inversion E; subst. simpl in N. inversion N; subst. simpl. rewrite A. reflexivity.
  - destruct (replace l0 var cs') eqn:E'; simpl in E; [|discriminate]. inversion E; subst. simpl. f_equal. eapply IH; eauto.
Qed.
Lemma alike_nodal : forall e e', same_shape e e' -> nodal e -> nodal e'.
Proof. intros e e' [_ [B _]] H. unfold nodal in *. rewrite B. exact H. Qed.

(** ** the limiter as a function of an element and its neighbours *)
Definition minmodLocal (L : option element) (R' : option element) (e : element) (var : nat) : option element :=
  match L, R' with
  | Some elemL, Some elemR =>
      if negb (Nat.eqb (getID elemR) (getID e + 1) && Nat.eqb (getID e) (getID elemL + 1)) then None
      else
        a0 <- computeAverageOfSolution e; u0 <- nth_error a0 var;
        aR <- computeAverageOfSolution elemR; uElemR <- nth_error aR var;
        aL <- computeAverageOfSolution elemL; uElemL <- nth_error aL var;
        let (l, r) := minmod uElemL u0 uElemR in
        cs <- newCoeffs (length (basisFunctions e)) l r;
        setCoefficients e var cs
  | _, _ => Some e
  end.
Definition tvbStep (L R' : option element) (e : element) (var : nat) : option element :=
  small <- hasSmallSlope 1 e var; if small then Some e else minmodLocal L R' e var.
Definition tvbLocal (k : nat) (L R' : option element) (e : element) : option element := for_each (seq 0 k) (tvbStep L R') e.

Definition before {A} (m : list A) (i : nat) : option A := match i with O => None | S i' => nth_error m i' end.

Lemma replace_same : forall A (l : list A) i a, nth_error l i = Some a -> replace l i a = Some l.
Proof.
  induction l as [|x l IH]; intros [|i] a H; simpl in H; try discriminate; simpl; [inversion H; reflexivity|]. rewrite IH by assumption. reflexivity.
Qed.
Lemma replace_twice : forall A (l l1 : list A) i a b, replace l i a = Some l1 -> replace l1 i b = replace l i b.
Proof.
  induction l as [|x l IH]; intros l1 [|i] a b H; simpl in H; try discriminate.
  - inversion H; reflexivity.
  - destruct (replace l i a) eqn:E; simpl in H; [|discriminate]. inversion H; subst. simpl. rewrite (IH _ _ _ _ E). reflexivity.
Qed.
Lemma nth_lt : forall A (l : list A) i, (i < length l)%nat -> exists a, nth_error l i = Some a.
Proof. intros A l i H. destruct (nth_error l i) eqn:E; [eauto|]. apply nth_error_None in E. lia. Qed.

Lemma for_each_none : forall A B (l : list A) (f : B -> A -> option B), fold_left (fun b a => match b with Some b => f b a | None => None end) l None = None.
Proof. induction l; simpl; auto. Qed.
Lemma for_each_cons : forall A B a (l : list A) (f : B -> A -> option B) b, for_each (a :: l) f b = (b1 <- f b a; for_each l f b1).
Proof. intros A B a l f b. unfold for_each. simpl. destruct (f b a); [reflexivity|apply for_each_none]. Qed.
Lemma for_each_ind : forall A B (P : B -> Prop) (f : B -> A -> option B), (forall b a b', P b -> f b a = Some b' -> P b') ->
  forall l b b', P b -> for_each l f b = Some b' -> P b'.
Proof.
  intros A B P f H. induction l as [|a l IH]; intros b b' Pb E; [inversion E; subst; assumption|].
  rewrite for_each_cons in E. destruct (f b a) eqn:F; simpl in E; [|discriminate]. eauto.
Qed.

Lemma minmod_local : forall m i var e, nth_error m i = Some e ->
  limitWithMinMod m i var = (e' <- minmodLocal (before m i) (nth_error m (i + 1)) e var; replace m i e').
Proof.
  intros m i var e N. unfold limitWithMinMod. destruct i as [|i].
  - simpl. rewrite replace_same by assumption. reflexivity.
  - cbn [Nat.eqb orb before]. replace (S i - 1)%nat with i by lia.
    destruct (Nat.leb_spec (length m) (S i + 1)) as [G|G].
    + assert (X : nth_error m (S i + 1) = None) by (apply nth_error_None; lia). rewrite X. unfold minmodLocal.
      destruct (nth_error m i); cbn [bind]; rewrite replace_same by assumption; reflexivity.
    + rewrite N. destruct (nth_lt _ m i ltac:(lia)) as [L EL]. destruct (nth_lt _ m (S i + 1) ltac:(lia)) as [R' ER]. rewrite EL, ER. cbn [bind minmodLocal].
      destruct (negb _); [reflexivity|].
      destruct (computeAverageOfSolution e); cbn [bind]; [|reflexivity]. destruct (nth_error l var); cbn [bind]; [|reflexivity].
      destruct (computeAverageOfSolution R'); cbn [bind]; [|reflexivity]. destruct (nth_error l0 var); cbn [bind]; [|reflexivity].
      destruct (computeAverageOfSolution L); cbn [bind]; [|reflexivity]. destruct (nth_error l1 var); cbn [bind]; [|reflexivity].
      destruct (minmod r1 r r0). destruct (newCoeffs _ _ _); cbn [bind]; [|reflexivity]. reflexivity.
Qed.

Lemma replace_before : forall A (m m' : list A) i a, replace m i a = Some m' -> before m' i = before m i.
Proof. intros A m m' [|i] a H; simpl; [reflexivity|]. rewrite (replace_nth _ _ _ _ _ _ H). destruct (Nat.eqb_spec i (S i)); [lia|reflexivity]. Qed.
Lemma replace_after : forall A (m m' : list A) i a, replace m i a = Some m' -> nth_error m' (i + 1) = nth_error m (i + 1).
Proof. intros A m m' i a H. rewrite (replace_nth _ _ _ _ _ _ H). destruct (Nat.eqb_spec (i + 1) i); [lia|reflexivity]. Qed.
Lemma replace_at : forall A (m m' : list A) i a, replace m i a = Some m' -> nth_error m' i = Some a.
Proof. intros A m m' i a H. rewrite (replace_nth _ _ _ _ _ _ H), Nat.eqb_refl. reflexivity. Qed.

Lemma tvb_local : forall k m i e, nth_error m i = Some e ->
  TvbLimiter1D k m i = (e' <- tvbLocal k (before m i) (nth_error m (i + 1)) e; replace m i e').
Proof.
  intros k m i e N. unfold TvbLimiter1D, tvbLocal. generalize (seq 0 k) as vs. intro vs. revert m e N.
  induction vs as [|v vs IH]; intros m e N; [cbn; symmetry; apply replace_same; assumption|].
  rewrite !for_each_cons. rewrite N. cbn [bind]. unfold tvbStep at 1. destruct (hasSmallSlope 1 e v) as [[|]|]; cbn [bind]; [apply IH; assumption| |reflexivity].
  rewrite (minmod_local m i v e N). destruct (minmodLocal _ _ e v) as [e1|] eqn:E1; cbn [bind]; [|reflexivity].
  destruct (replace_some _ m i e1) as [m1 R1]; [apply nth_error_Some; congruence|]. rewrite R1. cbn [bind].
  rewrite (IH m1 e1 (replace_at _ _ _ _ _ R1)), (replace_before _ _ _ _ _ R1), (replace_after _ _ _ _ _ R1).
  destruct (for_each vs _ e1); cbn [bind]; [|reflexivity]. eapply replace_twice; eauto.
Qed.

Definition oalike (a b : option element) : Prop :=
  match a, b with Some a, Some b => alike a b | None, None => True | _, _ => False end.

Lemma tvb_neighbours : forall k L L' R1 R2 e, oalike L L' -> oalike R1 R2 -> tvbLocal k L' R2 e = tvbLocal k L R1 e.
Proof.
  intros k L L' R1 R2 e HL HR. unfold tvbLocal. generalize (seq 0 k) as vs. intro vs. revert e.
  induction vs as [|v vs IH]; intro e; [reflexivity|]. rewrite !for_each_cons.
  assert (X : tvbStep L' R2 e v = tvbStep L R1 e v).
  { unfold tvbStep. destruct (hasSmallSlope 1 e v) as [[|]|]; cbn [bind]; try reflexivity. unfold minmodLocal.
    destruct L, L'; simpl in HL; try tauto. destruct R1, R2; simpl in HR; try tauto.
    rewrite (alike_compute _ _ HL), (alike_compute _ _ HR). destruct HL as [[-> _] _]. destruct HR as [[-> _] _]. reflexivity. }
  rewrite X. destruct (tvbStep L R1 e v); cbn [bind]; [apply IH|reflexivity].
Qed.

Definition good (e : element) : Prop := regular e /\ nodal e.

Lemma tvb_step_ok : forall L R' e v e', good e -> tvbStep L R' e v = Some e' -> good e' /\ alike e e'.
Proof.
  intros L R' e v e' [R N] H. unfold tvbStep in H. step H. destruct b; [inversion H; subst; split; [split; assumption|apply alike_refl]|].
  unfold minmodLocal in H. destruct L as [L|]; [|inversion H; subst; split; [split; assumption|apply alike_refl]].
  destruct R' as [R'|]; [|inversion H; subst; split; [split; assumption|apply alike_refl]].
  destruct (negb _); [discriminate|]. repeat step H.
  destruct (minmod r1 r r0) as [a b] eqn:M. step H.
  destruct (compute_nth _ _ _ _ E0 E1) as [cs [Nc ->]].
  split; [split|].
  - eapply set_regular; eauto. eapply new_length; eauto.
  - eapply alike_nodal; [eapply set_shape; eauto|assumption].
  - refine (set_alike _ _ _ _ _ Nc _ H). rewrite (new_average e a b _ R N E6). apply minmod_sum in M. lra.
Qed.

Lemma tvb_ok : forall k L R' e e', good e -> tvbLocal k L R' e = Some e' -> good e' /\ alike e e'.
Proof.
  intros k L R' e e' G H. unfold tvbLocal in H.
  apply (for_each_ind _ _ (fun b => good b /\ alike e b) (tvbStep L R')) with (l := seq 0 k) (b := e); auto using alike_refl.
  intros b v b' [Gb Ab] S. destruct (tvb_step_ok _ _ _ _ _ Gb S) as [A B]. split; [assumption|eapply alike_trans; eauto].
Qed.

(** ** the order of the elements *)
Lemma replace_comm : forall A (l : list A) i j a b, i <> j -> (x <- replace l i a; replace x j b) = (x <- replace l j b; replace x i a).
Proof.
  induction l as [|y l IH]; intros [|i] [|j] a b N; simpl; try reflexivity; [congruence| | |].
  - destruct (replace l j b); reflexivity.
  - destruct (replace l i a); reflexivity.
  - assert (X := IH i j a b ltac:(congruence)). destruct (replace l i a) as [l1|], (replace l j b) as [l2|]; simpl in *; rewrite ?X; try reflexivity.
    + rewrite <- X. reflexivity.
Qed.

Definition meshes (m : list element) : Prop := Forall good m.
Lemma tvb_mesh : forall k m i m', meshes m -> (i < length m)%nat -> TvbLimiter1D k m i = Some m' ->
  meshes m' /\ length m' = length m /\ forall j, oalike (nth_error m j) (nth_error m' j).
Proof.
  intros k m i m' G Hi H. destruct (nth_lt _ m i Hi) as [e N]. rewrite (tvb_local k m i e N) in H. step H.
  assert (Ge : good e) by (apply (proj1 (Forall_forall _ _) G); eapply nth_error_In; eauto).
  destruct (tvb_ok _ _ _ _ _ Ge E) as [G' A]. split; [eapply replace_Forall; eauto|]. split; [eapply replace_length; eauto|].
  intro j. rewrite (replace_nth _ _ _ _ _ j H). destruct (Nat.eqb_spec j i) as [->|_]; [rewrite N; exact A|].
  destruct (nth_error m j); simpl; auto using alike_refl.
Qed.

Lemma oalike_before : forall (m m' : list element) i, (forall j, oalike (nth_error m j) (nth_error m' j)) -> oalike (before m i) (before m' i).
Proof. intros m m' [|i] H; simpl; [exact I|apply H]. Qed.

Lemma tvb_commute : forall k m i j, meshes m -> (i < length m)%nat -> (j < length m)%nat -> i <> j ->
  (m1 <- TvbLimiter1D k m i; TvbLimiter1D k m1 j) = (m2 <- TvbLimiter1D k m j; TvbLimiter1D k m2 i).
Proof.
  assert (Step : forall k m i j ei ej, meshes m -> i <> j -> nth_error m i = Some ei -> nth_error m j = Some ej ->
    (m1 <- TvbLimiter1D k m i; TvbLimiter1D k m1 j) =
    (ei' <- tvbLocal k (before m i) (nth_error m (i + 1)) ei; ej' <- tvbLocal k (before m j) (nth_error m (j + 1)) ej; x <- replace m i ei'; replace x j ej')).
  { intros k m i j ei ej G N Ei Ej. destruct (TvbLimiter1D k m i) as [m1|] eqn:T.
    - assert (Hi : (i < length m)%nat) by (apply nth_error_Some; congruence).
      destruct (tvb_mesh _ _ _ _ G Hi T) as [G1 [L1 A1]]. rewrite (tvb_local k m i ei Ei) in T. step T. cbn [bind].
      assert (Ej1 : nth_error m1 j = Some ej). { rewrite (replace_nth _ _ _ _ _ j T). destruct (Nat.eqb_spec j i); [congruence|assumption]. }
      rewrite (tvb_local k m1 j ej Ej1). rewrite (tvb_neighbours k _ _ _ _ ej (oalike_before m m1 j A1) (A1 (j + 1)%nat)). rewrite T. reflexivity.
    - cbn [bind]. rewrite (tvb_local k m i ei Ei) in T. destruct (tvbLocal k (before m i) _ ei) as [x|]; cbn [bind] in *; [|reflexivity].
      destruct (replace_some _ m i x) as [l X]; [apply nth_error_Some; congruence|]. congruence. }
  intros k m i j G Hi Hj N. destruct (nth_lt _ m i Hi) as [ei Ei]. destruct (nth_lt _ m j Hj) as [ej Ej].
  rewrite (Step k m i j ei ej), (Step k m j i ej ei) by auto.
  destruct (tvbLocal k (before m i) _ ei), (tvbLocal k (before m j) _ ej); cbn [bind]; try reflexivity. apply replace_comm. assumption.
Qed.

Lemma tvb_permutation : forall k l l', Permutation l l' -> forall m, meshes m -> Forall (fun i => (i < length m)%nat) l ->
  for_each l (TvbLimiter1D k) m = for_each l' (TvbLimiter1D k) m.
Proof.
  intros k l l' P. induction P as [|i l l' P IH|i j l|l l1 l' P1 IH1 P2 IH2]; intros m G F.
  - reflexivity.
  - rewrite !for_each_cons. inversion F; subst. destruct (TvbLimiter1D k m i) as [m1|] eqn:T; [|reflexivity]. cbn [bind].
    destruct (tvb_mesh _ _ _ _ G H1 T) as [G1 [L1 _]]. apply IH; [assumption|]. rewrite L1. assumption.
  - inversion F as [|? ? Hj F']; subst. inversion F' as [|? ? Hi F'']; subst.
    rewrite !for_each_cons. destruct (Nat.eq_dec i j) as [->|N].
    { destruct (TvbLimiter1D k m j) as [m1|] eqn:T; cbn [bind]; [|reflexivity]. rewrite !for_each_cons. reflexivity. }
    assert (X := tvb_commute k m j i G Hj Hi ltac:(congruence)).
    assert (Y : forall p q, (b1 <- TvbLimiter1D k m p; for_each (q :: l) (TvbLimiter1D k) b1) =
      (x <- (b1 <- TvbLimiter1D k m p; TvbLimiter1D k b1 q); for_each l (TvbLimiter1D k) x)).
    { intros p q. destruct (TvbLimiter1D k m p); cbn [bind]; [|reflexivity]. apply for_each_cons. }
    rewrite !Y, X. reflexivity.
  - rewrite IH1 by assumption. apply IH2; [assumption|]. apply Forall_forall. intros x Ix. apply (proj1 (Forall_forall _ _) F).
    eapply Permutation_in; [apply Permutation_sym; exact P1|assumption].
Qed.

(** ** the outer loop: mean heights *)
Definition keptHeight (e e' : element) : Prop :=
  same_shape e e' /\ option_map (averageOf e) (nth_error (coefficients e') 0) = option_map (averageOf e) (nth_error (coefficients e) 0).
Lemma kept_refl : forall e, keptHeight e e.
Proof. intro e. split; [apply same_refl|reflexivity]. Qed.
Lemma kept_trans : forall a b c, keptHeight a b -> keptHeight b c -> keptHeight a c.
Proof.
  intros a b c [S1 M1] [S2 M2]. split; [eapply same_trans; eauto|]. rewrite <- M1.
  destruct (nth_error (coefficients c) 0), (nth_error (coefficients b) 0); simpl in *; try discriminate; [|reflexivity].
  rewrite !(same_averageOf a b _ S1) in M2. assumption.
Qed.
Lemma kept_keeps : forall e e', regular e -> keptHeight e e' -> keeps_mean e e' 0.
Proof. intros e e' R [S M]. apply keeps_by_average; try assumption. intros cs cs' A B. rewrite A, B in M. cbn [option_map] in M. injection M. auto. Qed.
Lemma alike_kept : forall e e', alike e e' -> keptHeight e e'.
Proof. intros e e' [S [_ M]]. split; [assumption|]. rewrite <- !nth_error_map, M. reflexivity. Qed.
Lemma set_other_kept : forall e var cs e', var <> 0%nat -> setCoefficients e var cs = Some e' -> keptHeight e e'.
Proof. intros e var cs e' N H. split; [eapply set_shape; eauto|]. rewrite (set_keeps _ _ _ _ 0 (not_eq_sym N) H). reflexivity. Qed.

Lemma limited_kept : forall minH e e' P, limited minH e e' P ->
  (forall m h u hs us hs' us', h = averageOf e hs -> P m h u hs us hs' us' -> averageOf e hs' = averageOf e hs) -> keptHeight e e'.
Proof.
  intros minH e e' P L H. destruct L as [m M Hm ->|m hs us hs' us' M Hm A B S A' B' C X]; [apply kept_refl|].
  split; [assumption|]. rewrite A, A'. simpl. f_equal. eapply H; eauto.
Qed.

(** what the loop needs of an element, for a given solver *)
Definition fit (solve : solver) (e : element) : Prop := regular e /\ nodal e /\ solves solve e.
Definition preserves (solve : solver) (h : height_limiter) : Prop :=
  forall e e', fit solve e -> h e = Some e' -> fit solve e' /\ keptHeight e e'.

Lemma fit_shape : forall solve e e', same_shape e e' -> regular e' -> fit solve e -> fit solve e'.
Proof. intros solve e e' S R [_ [N X]]. split; [assumption|]. split; [eapply alike_nodal; eauto|eapply same_solves; eauto]. Qed.

Lemma preserves_limited : forall solve minH (h : height_limiter) (P : element -> R -> R -> R -> list R -> list R -> list R -> list R -> Prop),
  (forall e e', h e = Some e' -> limited minH e e' (P e)) ->
  (forall e m a u hs us hs' us', fit solve e -> a = averageOf e hs -> P e m a u hs us hs' us' ->
     averageOf e hs' = averageOf e hs /\ length hs' = length (basisFunctions e) /\ length us' = length (basisFunctions e)) ->
  preserves solve h.
Proof.
  intros solve minH h P H X e e' F E. specialize (H e e' E).
  assert (R : regular e').
  { destruct H as [m M Hm ->|m hs us hs' us' M Hm A B S A' B' C Y]; [apply F|].
    destruct (X _ _ _ _ _ _ _ _ F eq_refl Y) as [_ [L1 L2]]. eapply same_regular; [exact S| |apply F].
    apply Forall_forall. intros cs I. apply In_nth_error in I. destruct I as [v I].
    destruct v as [|[|v]]; [congruence|congruence|]. rewrite C in I by lia.
    apply (proj1 (Forall_forall _ _) (proj1 (proj2 (proj1 F)))). eapply nth_error_In; eauto. }
  split; [eapply fit_shape; eauto; eapply limited_shape; eauto|].
  eapply limited_kept; [exact H|]. intros. eapply X; eauto.
Qed.

Lemma preserves_empty : forall solve, preserves solve EmptyHeightLimiter.
Proof. intros solve e e' F H. inversion H; subst. split; [assumption|apply kept_refl]. Qed.

Lemma preserves_positive : forall solve minH, preserves solve (PositiveLayerLimiter solve minH).
Proof.
  intros solve minH. eapply preserves_limited; [intros e e' H; exact (positive_layer_limited _ _ _ _ H)|].
  intros e m a u hs us hs' us' [R [N S]] -> [[_ [-> ->]]|[_ [s [t [_ [-> ->]]]]]]; rewrite !projection_length by assumption.
  - rewrite averageOf_project_const by assumption. auto.
  - rewrite averageOf_project_affine by assumption. auto.
Qed.
Lemma preserves_squeeze : forall solve minH, preserves solve (SqueezeLimiterWithLayer solve minH).
Proof.
  intros solve minH. eapply preserves_limited; [intros e e' H; exact (squeeze_limited _ _ _ _ H)|].
  intros e m a u hs us hs' us' [R [N S]] Ha [[_ [-> ->]]|[_ [t [-> ->]]]]; rewrite !projection_length by assumption.
  - rewrite averageOf_project_const by assumption. auto.
  - split; [|auto]. apply averageOf_project; try assumption. apply wsum_squeeze; assumption.
Qed.
Lemma preserves_average : forall solve minH, preserves solve (AverageValuesNonNegativeLimiter solve minH).
Proof.
  intros solve minH. eapply preserves_limited; [intros e e' H; exact (average_limited _ _ _ _ H)|].
  intros e m a u hs us hs' us' [R [N S]] -> [-> ->]; rewrite !projection_length by assumption.
  rewrite averageOf_project_const by assumption. auto.
Qed.
Lemma preserves_bidispersed : forall solve minH, preserves solve (BidispersedLimiter solve minH).
Proof.
  intros solve minH e e' F H. unfold BidispersedLimiter in H. step H. destruct (preserves_positive solve minH e e0 F E) as [F0 K0].
  step H. step H. step H. assert (X : forall cs, length cs = length (basisFunctions e0) -> setCoefficients e0 2 cs = Some e' -> fit solve e' /\ keptHeight e e').
  { intros cs L Q. split.
    - eapply fit_shape; [eapply set_shape; eauto|eapply set_regular; eauto; apply F0|exact F0].
    - eapply kept_trans; [exact K0|]. eapply set_other_kept; [|exact Q]. discriminate. }
  destruct (ltb (r + minH) r0).
  - step H. eapply X; [|exact H]. apply (proj1 (Forall_forall _ _) (proj1 (proj2 (proj1 F0)))). eapply nth_error_In; eauto.
  - destruct (ltb r0 (- minH)); [eapply X; [|exact H]; apply map_length|].
    step H. destruct b; [eapply X; [|exact H]; apply projection_length; apply F0|]. inversion H; subst. auto.
Qed.

Definition mesh_kept (solve : solver) (m m' : list element) : Prop := Forall2 (fun e e' => fit solve e' /\ keptHeight e e') m m'.
Lemma mesh_kept_refl : forall solve m, Forall (fit solve) m -> mesh_kept solve m m.
Proof. intros solve m H. induction H; constructor; auto using kept_refl. Qed.
Lemma mesh_kept_trans : forall solve a b c, mesh_kept solve a b -> mesh_kept solve b c -> mesh_kept solve a c.
Proof.
  intros solve a b c H. revert c. induction H as [|x y a b [F K] H IH]; intros c G; inversion G; subst; constructor; [|apply IH; assumption].
  destruct H2. split; [assumption|eapply kept_trans; eauto].
Qed.
Lemma mesh_kept_fit : forall solve m m', mesh_kept solve m m' -> Forall (fit solve) m'.
Proof. intros solve m m' H. induction H as [|x y a b [F K] H IH]; constructor; auto. Qed.
Lemma mesh_kept_replace : forall solve m m' i e e', Forall (fit solve) m -> nth_error m i = Some e -> fit solve e' -> keptHeight e e' -> replace m i e' = Some m' -> mesh_kept solve m m'.
Proof.
  intros solve m m' i e e' H. revert m' i. induction H as [|x m Hx H IH]; intros m' [|i] N F K E; simpl in N, E; try discriminate.
  - inversion N; inversion E; subst. constructor; [auto|apply mesh_kept_refl; assumption].
  - destruct (replace m i e') eqn:E'; simpl in E; [|discriminate]. inversion E; subst. constructor; [auto using kept_refl|eapply IH; eauto].
Qed.

Definition slope_preserves (solve : solver) (s : slope_limiter) : Prop :=
  forall m i m', Forall (fit solve) m -> s m i = Some m' -> mesh_kept solve m m'.
Lemma slope_empty : forall solve, slope_preserves solve EmptySlopeLimiter.
Proof. intros solve m i m' F H. inversion H; subst. apply mesh_kept_refl. assumption. Qed.

Lemma slope_for_each : forall solve k (f : list element -> nat -> nat -> option (list element)),
  (forall m i var m', Forall (fit solve) m -> f m i var = Some m' -> mesh_kept solve m m') ->
  slope_preserves solve (fun m i => for_each (seq 0 k) (fun m var => f m i var) m).
Proof.
  intros solve k f H m i m' F E.
  apply (for_each_ind _ _ (fun m' => mesh_kept solve m m') (fun m var => f m i var)) with (l := seq 0 k) (b := m); [|apply mesh_kept_refl; assumption|exact E].
  intros b a b' K X. eapply mesh_kept_trans; [exact K|]. eapply H; eauto. eapply mesh_kept_fit; eauto.
Qed.

Lemma slope_tvb : forall solve k, slope_preserves solve (TvbLimiter1D k).
Proof.
  intros solve k. unfold TvbLimiter1D.
  apply (slope_for_each solve k (fun mesh i var => e <- nth_error mesh i; small <- hasSmallSlope 1 e var; if small then Some mesh else limitWithMinMod mesh i var)).
  intros m i var m' F H. step H. step H. destruct b; [inversion H; subst; apply mesh_kept_refl; assumption|].
  assert (Fe : fit solve e) by (apply (proj1 (Forall_forall _ _) F); eapply nth_error_In; eauto).
  rewrite (minmod_local m i var e E) in H. step H.
  assert (T : tvbStep (before m i) (nth_error m (i + 1)) e var = Some e0) by (unfold tvbStep; rewrite E0; exact E1).
  destruct (tvb_step_ok _ _ _ _ _ (conj (proj1 Fe) (proj1 (proj2 Fe))) T) as [[R N] A].
  eapply mesh_kept_replace; [exact F|exact E| |apply alike_kept; exact A|exact H].
  split; [assumption|]. split; [assumption|]. eapply same_solves; [apply A|apply Fe].
Qed.

Lemma slope_detector : forall solve k detect, slope_preserves solve (TvbLimiterWithDetector1D solve k detect).
Proof.
  intros solve k detect. unfold TvbLimiterWithDetector1D.
  apply (slope_for_each solve k (fun mesh i var => e <- nth_error mesh i; small <- hasSmallSlope 10 e var;
    if detect mesh i var && negb small then replaceByAverage solve mesh i var else Some mesh)).
  intros m i var m' F H. step H. step H. destruct (detect m i var && negb b); [|inversion H; subst; apply mesh_kept_refl; assumption].
  assert (Fe : fit solve e) by (apply (proj1 (Forall_forall _ _) F); eapply nth_error_In; eauto).
  unfold replaceByAverage in H. destruct (_ || _); [inversion H; subst; apply mesh_kept_refl; assumption|].
  rewrite E in H. cbn [bind] in H. repeat step H.
  destruct (ltb _ _); [|inversion H; subst; apply mesh_kept_refl; assumption]. step H.
  destruct (compute_nth _ _ _ _ E5 E6) as [cs [Nc ->]]. destruct Fe as [R [N S]].
  assert (A : alike e e2).
  { refine (set_alike _ _ _ _ _ Nc _ E9). rewrite averageOf_project_affine by assumption. reflexivity. }
  eapply mesh_kept_replace; [exact F|exact E| |apply alike_kept; exact A|exact H].
  eapply fit_shape; [apply A| |split; [exact R|split; assumption]]. eapply set_regular; [exact R| |exact E9]. apply projection_length. assumption.
Qed.

Lemma loop_kept : forall solve dryLimit h s m m', Forall (fit solve) m -> preserves solve h -> slope_preserves solve s ->
  limitSolutionOuterLoop dryLimit h s m = Some m' -> mesh_kept solve m m'.
Proof.
  intros solve dryLimit h s m m' F H S E. unfold limitSolutionOuterLoop in E.
  apply (for_each_ind _ _ (fun m' => mesh_kept solve m m') (limitElement dryLimit h s)) with (l := seq 0 (length m)) (b := m); [|apply mesh_kept_refl; assumption|exact E].
  intros b i b' K X. eapply mesh_kept_trans; [exact K|]. assert (Fb := mesh_kept_fit _ _ _ K). clear K E.
  unfold limitElement in X. step X. step X. assert (Fe : fit solve e) by (apply (proj1 (Forall_forall _ _) Fb); eapply nth_error_In; eauto).
  destruct (ltb r dryLimit).
  - step X. destruct (H e e0 Fe E1) as [F0 K0]. eapply mesh_kept_replace; eauto.
  - destruct (Nat.ltb _ _); [eapply S; eauto|]. inversion X; subst. apply mesh_kept_refl. assumption.
Qed.
