(** The loop over the points, for physical elements and faces. *)
From Coq Require Import List Arith Bool Lia.
From Verif Require Import Loop_model Matrix_model ElementData_model PhysicalElement_model PhysicalElement_spec PhysicalFace_model PhysicalFace_spec Integral_model Integral_spec PhysicalElement_proofs.
Import ListNotations.

Lemma bind_inv {X Y} (o : option X) (f : X -> option Y) y : bind o f = Some y -> exists x, o = Some x /\ f x = Some y.
Proof. destruct o as [x|]; [|discriminate]. intros H. exists x. auto. Qed.
Ltac inv_bind H := let x := fresh "x" in let E := fresh "E" in apply bind_inv in H as (x & E & H).

Lemma execute_sound {G R Y S} (respond : G -> S -> option (S * R)) (right : G -> R -> Prop) (allowed : G -> Prop) (Inv : S -> Prop) :
  (forall g s s' r, Inv s -> allowed g -> respond g s = Some (s', r) -> Inv s' /\ right g r) ->
  forall (p : program G R Y) s s' y, only allowed p -> Inv s -> execute respond p s = Some (s', y) -> Inv s' /\ yields right p y.
Proof.
  intros HR p. induction p as [y| |g k IH]; intros s s' v HO HI HE; cbn in HE.
  - injection HE as <- <-. split; [exact HI|constructor].
  - discriminate.
  - inversion HO as [| |? ? HA HK]; subst. inv_bind HE. destruct x as [s1 r]. cbn [fst snd] in HE. destruct (HR _ _ _ _ HI HA E) as (HI' & HR').
    destruct (IH r s1 s' v (HK r) HI' HE) as (A & B). split; [exact A|]. econstructor; eassumption.
Qed.
Lemma execute_inv {G R Y S} (respond : G -> S -> option (S * R)) (Inv : S -> Prop) :
  (forall g s s' r, Inv s -> respond g s = Some (s', r) -> Inv s') ->
  forall (p : program G R Y) s s' y, Inv s -> execute respond p s = Some (s', y) -> Inv s'.
Proof.
  intros HR p. induction p as [y| |g k IH]; intros s s' v HI HE; cbn in HE.
  - injection HE as <- <-. exact HI.
  - discriminate.
  - inv_bind HE. destruct x as [s1 r]. cbn [fst snd] in HE. eapply IH; [|exact HE]. eapply HR; eassumption.
Qed.
Lemma execute_complete {G R Y S} (respond : G -> S -> option (S * R)) (right : G -> R -> Prop) (allowed : G -> Prop) (Inv : S -> Prop) :
  (forall g s r, Inv s -> allowed g -> right g r -> exists s', respond g s = Some (s', r) /\ Inv s') ->
  forall (p : program G R Y) s y, only allowed p -> Inv s -> yields right p y -> exists s', execute respond p s = Some (s', y) /\ Inv s'.
Proof.
  intros HR p. induction p as [y| |g k IH]; intros s v HO HI HY; inversion HY; subst.
  - exists s. split; [reflexivity|exact HI].
  - inversion HO as [| |? ? HA HK]; subst. match goal with H : right g ?r |- _ => destruct (HR g s r HI HA H) as (s1 & E & HI') end.
    match goal with H : yields right (k ?r) v |- _ => destruct (IH r s1 v (HK r) HI' H) as (s2 & E2 & HI2) end. exists s2. cbn. rewrite E. cbn. auto.
Qed.

Lemma for_from_snoc {St} : forall n start (body : nat -> St -> option St) s, for_from start (S n) body s = bind (for_from start n body s) (body (start + n)).
Proof. intros. rewrite for_from_last. reflexivity. Qed.

Section Sum.
Context {N Y : Type} (scaleBy : N -> Y -> Y) (axpy : N -> Y -> Y -> option Y).
Notation weighted_sum := (weighted_sum scaleBy axpy).
Lemma weighted_snoc (l : list (N * Y)) a y : l <> [] -> weighted_sum (l ++ [(a, y)]) = bind (weighted_sum l) (axpy a y).
Proof. destruct l as [|[b z] l]; [contradiction|]. intros _. cbn. rewrite fold_left_app. cbn. unfold bind. destruct (fold_left _ l _); reflexivity. Qed.

Context {St : Type} (goto : nat -> St -> option St) (integrand : St -> option (St * Y)) (factor : nat -> St -> option (St * N)).
Context (Inv : nat -> St -> Prop) (pt : nat -> Prop) (value : nat -> Y -> Prop) (scale : nat -> N -> Prop).
Notation loop := (quadratureLoop scaleBy axpy).

Section Sound.
Hypothesis goto_ok : forall i s s', Inv i s -> goto (S i) s = Some s' -> Inv (S i) s' /\ pt (S i).
Hypothesis integrand_ok : forall i s s' y, Inv i s -> integrand s = Some (s', y) -> Inv i s' /\ value i y.
Hypothesis factor_ok : forall i s s' a, Inv i s -> factor i s = Some (s', a) -> Inv i s' /\ scale i a.
Lemma loop_sound n s s' v : 0 < n -> Inv 0 s -> pt 0 -> loop n goto integrand factor s = Some (s', v) ->
  Inv (n - 1) s' /\ (forall i, i < n -> pt i) /\ exists l, length l = n /\ (forall i a y, nth_error l i = Some (a, y) -> scale i a /\ value i y) /\ weighted_sum l = Some v.
Proof.
  intros Hn HI HP HE. unfold loop in HE. inv_bind HE. destruct x as [s1 y]. cbn [fst snd] in HE. destruct (integrand_ok _ _ _ _ HI E) as (HI1 & HV).
  inv_bind HE. destruct x as [s2 a]. cbn [fst snd] in HE. destruct (factor_ok _ _ _ _ HI1 E0) as (HI2 & HS).
  replace n with (S (n - 1)) by lia. set (k := n - 1) in *. clearbody k. clear Hn n. replace (S k - 1) with k by lia. clear E E0 HI HI1 s s1. revert s' v HE. induction k as [|k IH]; intros s' v HE.
  - cbn in HE. injection HE as <- <-. split; [exact HI2|]. split; [intros i Hi; assert (i = 0) as -> by lia; exact HP|]. exists [(a, y)]. split; [reflexivity|]. split; [|reflexivity].
    intros [|[|i]] b z H; cbn in H; try discriminate. injection H as <- <-. auto.
  - rewrite for_from_snoc in HE. inv_bind HE. destruct x as [s3 u]. destruct (IH s3 u E) as (HI3 & HP3 & l & HL & HN & HW). cbn [fst snd plus] in HE.
    inv_bind HE. rename x into s4. destruct (goto_ok _ _ _ HI3 E0) as (HI4 & HP4). inv_bind HE. destruct x as [s5 y5]. cbn [fst snd] in HE. destruct (integrand_ok _ _ _ _ HI4 E1) as (HI5 & HV5).
    inv_bind HE. destruct x as [s6 a6]. cbn [fst snd] in HE. destruct (factor_ok _ _ _ _ HI5 E2) as (HI6 & HS6). inv_bind HE. injection HE as <- <-. split; [exact HI6|]. split.
    + intros i Hi. destruct (Nat.eq_dec i (S k)) as [->|C]; [exact HP4|apply HP3; lia].
    + exists (l ++ [(a6, y5)]). split; [rewrite app_length; cbn; lia|]. split.
      * intros i b z H. destruct (Nat.lt_ge_cases i (length l)) as [C|C].
        -- rewrite nth_error_app1 in H by exact C. apply HN, H.
        -- rewrite nth_error_app2 in H by exact C. assert (i - length l = 0) as C'. { destruct (i - length l) as [|[|j]]; cbn in H; [reflexivity|discriminate|discriminate]. }
           rewrite C' in H. injection H as <- <-. assert (i = S k) as -> by lia. auto.
      * rewrite weighted_snoc by (intros ->; discriminate). rewrite HW. exact E3.
Qed.
End Sound.

Section Complete.
Hypothesis goto_ok : forall i s, Inv i s -> pt (S i) -> exists s', goto (S i) s = Some s' /\ Inv (S i) s'.
Hypothesis integrand_ok : forall i s y, Inv i s -> value i y -> exists s', integrand s = Some (s', y) /\ Inv i s'.
Hypothesis factor_ok : forall i s a, Inv i s -> scale i a -> exists s', factor i s = Some (s', a) /\ Inv i s'.
Lemma loop_complete n s v l : Inv 0 s -> (forall i, i < n -> pt i) -> length l = n -> (forall i a y, nth_error l i = Some (a, y) -> scale i a /\ value i y) -> weighted_sum l = Some v ->
  exists s', loop n goto integrand factor s = Some (s', v).
Proof.
  intros HI HP HL HN HW. destruct l as [|[a y] l]; [discriminate|]. destruct (HN 0 a y eq_refl) as (HS & HV). destruct (integrand_ok _ _ _ HI HV) as (s1 & E1 & HI1). destruct (factor_ok _ _ _ HI1 HS) as (s2 & E2 & HI2).
  unfold loop. rewrite E1. cbn [bind fst snd]. rewrite E2. cbn [bind fst snd]. cbn [length] in HL. subst n. replace (S (length l) - 1) with (length l) by lia. clear E1 E2 HI HI1 s s1.
  assert (G : exists s', for_from 1 (length l) (fun i q => s <- goto i (fst q); r <- integrand s; b <- factor i (fst r); result <- axpy (snd b) (snd r) (snd q); Some (fst b, result)) (s2, scaleBy a y) = Some (s', v) /\ Inv (length l) s').
  { revert v HW HN HP. induction l as [|[b z] l IH] using rev_ind; intros v HW HN HP.
    - cbn in HW. injection HW as <-. exists s2. split; [reflexivity|exact HI2].
    - rewrite app_length, Nat.add_1_r in *. rewrite app_comm_cons, weighted_snoc in HW by discriminate. inv_bind HW. rename x into u. destruct (IH u E) as (s3 & E3 & HI3).
      + intros i c w H. apply HN. rewrite app_comm_cons, nth_error_app1; [exact H|]. apply nth_error_Some. rewrite H. discriminate.
      + intros i Hi. apply HP. lia.
      + rewrite for_from_snoc, E3. cbn [bind plus]. destruct (goto_ok _ _ HI3 (HP (S (length l)) ltac:(lia))) as (s4 & E4 & HI4). cbn [fst snd]. rewrite E4. cbn [bind].
        destruct (HN (S (length l)) b z) as (HS4 & HV4). { rewrite app_comm_cons, nth_error_app2 by (cbn; lia). cbn [length]. rewrite Nat.sub_diag. reflexivity. }
        destruct (integrand_ok _ _ _ HI4 HV4) as (s5 & E5 & HI5). rewrite E5. cbn [bind fst snd]. destruct (factor_ok _ _ _ HI5 HS4) as (s6 & E6 & HI6). rewrite E6. cbn [bind fst snd]. rewrite HW. cbn. eauto. }
  destruct G as (s' & G & _). exists s'. exact G.
Qed.
End Complete.
End Sum.

Section Element.
Context {A V P X J D Q M N Y : Type}.
Variable zero : A.
Variable mul : A -> A -> A.
Variable vzero : V.
Variable vadd : V -> V -> V.
Variable vscale : A -> V -> V.
Variable transposed inverse : J -> J.
Variable determinant : J -> D.
Variable absolute : D -> D.
Variable getPoint : Q -> nat -> option P.
Variable mapPoint : M -> P -> P.
Variable getNumberOfPoints : Q -> nat.
Variable weight : Q -> nat -> option N.
Variable one : N.
Variable times : N -> N -> N.
Variable ofDet : D -> N.
Variable scaleBy : N -> Y -> Y.
Variable axpy : N -> Y -> Y -> option Y.
Notation memory := (@memory A V P X J Q M).
Notation estate := (@PhysicalElement_model.state A V P X J D Q M).
Notation event := (@event A V P X J D Q M).
Notation answer := (@answer A V P X J D).
Notation settings := (@settings V P J D Q M).
Notation run := (run zero mul vzero vadd vscale transposed inverse determinant absolute getPoint mapPoint).
Notation step := (step zero mul vzero vadd vscale transposed inverse determinant absolute getPoint mapPoint).
Notation get := (get vzero vadd vscale transposed inverse determinant absolute).
Notation respond := (respond vzero vadd vscale transposed inverse determinant absolute).
Notation answers := (answers vzero vadd vscale transposed inverse determinant absolute getPoint mapPoint).
Notation right_response := (right_response zero vzero vadd vscale transposed inverse determinant absolute getPoint mapPoint).
Variable h1 : @transformation V J D.
Variable m0 : memory.

Lemma run_app : forall l1 l2 (w : memory * estate), run (l1 ++ l2) w = bind (run l1 w) (run l2).
Proof. induction l1 as [|o l1 IH]; intros l2 w; [reflexivity|]. cbn [app PhysicalElement_model.run]. destruct (step o w); [|reflexivity]. cbn [bind]. apply IH. Qed.

(** the state was reached by calls on a new physical element, and the settings are [c] *)
Definition reached (m : memory) (c : settings) (s : estate) : Prop := exists l, run l (m0, newPhysicalElement h1) = Some (m, s) /\ settings_after h1 l = c.
Lemma reached_step m c s o m' s' : reached m c s -> step o (m, s) = Some (m', s') -> reached m' (follow c o) s'.
Proof.
  intros (l & R & <-) H. exists (l ++ [o]). split.
  - rewrite run_app, R. cbn [bind PhysicalElement_model.run]. rewrite H. reflexivity.
  - unfold settings_after. rewrite fold_left_app. reflexivity.
Qed.
Lemma reached_inv m c s : reached m c s -> inv vzero vadd vscale transposed inverse determinant absolute getPoint mapPoint m c s.
Proof. intros (l & R & <-). apply (run_right zero mul vzero vadd vscale transposed inverse determinant absolute getPoint mapPoint l (initially h1) (m0, newPhysicalElement h1) (m, s) (new_right vzero vadd vscale transposed inverse determinant absolute getPoint mapPoint m0 h1) R). Qed.
Lemma reached_get m c s g s' r : reached m c s -> get m g s = Some (s', r) -> reached m c s'.
Proof. intros R H. apply (reached_step m c s (Get_ g) m s' R). cbn. rewrite H. reflexivity. Qed.
Lemma reached_set m c s o s' : reached m c s -> set zero mul vzero getPoint mapPoint m o s = Some s' -> reached m (follow c (Set_ o : event)) s'.
Proof. intros R H. apply (reached_step m c s (Set_ o : event) m s' R). cbn. rewrite H. reflexivity. Qed.
Lemma reached_respond m c s o s' r : reached m c s -> respond m o s = Some (s', r) -> reached m c s'.
Proof.
  intros R H. destruct o as [o|g|x|x|a e]; cbn in H; try discriminate.
  - inv_bind H. destruct x as [s1 a]. injection H as <- _. eapply reached_get; eassumption.
  - inv_bind H. injection H as <- _. apply (reached_step m c s (FillMatrix x) m x0 R). cbn. rewrite E. reflexivity.
  - inv_bind H. injection H as <- _. apply (reached_step m c s (FillVector x) m x0 R). cbn. rewrite E. reflexivity.
Qed.

Section Zero.
Hypothesis mul_zero : forall x, mul x zero = zero.
Lemma all_zero : forall l n, (forall x, In x l -> x = zero) -> length l = n -> l = repeat zero n.
Proof. intros l n H <-. induction l as [|x l IH]; [reflexivity|]. cbn. rewrite (H x) by now left. f_equal. apply IH. intros y Hy. apply H. now right. Qed.
Lemma respond_sound m c s o s' r : unchanged c = true -> reached m c s -> sound_question m c o -> respond m o s = Some (s', r) -> right_response m c o r.
Proof.
  intros U (l & R & C) SQ H. destruct o as [o|g|x|x|a e]; cbn [Integral_model.respond] in H; try discriminate.
  - inv_bind H. destruct x as [s1 a]. cbn [fst snd] in H. injection H as <- <-.
    assert (AR : asks_no_solution g -> answers m c g a).
    { intros K. rewrite <- C in U |- *. apply (answers_right zero mul vzero vadd vscale transposed inverse determinant absolute getPoint mapPoint h1 m0 l m s g a R U K). exists s1. exact E. }
    destruct g; cbn [Integral_spec.right_response]; try (exists a; split; [reflexivity|apply AR; exact I]).
    + exists a. split; [reflexivity|]. rewrite <- C in *. apply (solutions_right zero mul vzero vadd vscale transposed inverse determinant absolute getPoint mapPoint h1 m0 l m s false a R U SQ). exists s1. exact E.
    + exists a. split; [reflexivity|]. rewrite <- C in *. apply (solutions_right zero mul vzero vadd vscale transposed inverse determinant absolute getPoint mapPoint h1 m0 l m s true a R U SQ). exists s1. exact E.
    + assert (E' := E). cbn in E. destruct (ready m s) as [[e p]|] eqn:RD.
      2: { unfold getResultMatrix in E. rewrite RD in E. discriminate. }
      destruct (reached_inv m c s (ex_intro _ l (conj R C))) as (F & _). unfold ready in RD. rewrite (fr_element _ _ _ _ F) in RD. destruct (on c) as [b|] eqn:Eb; [|discriminate]. cbn in RD.
      destruct (m b) as [e'|] eqn:Ee; [|discriminate]. exists b, e'. split; [reflexivity|]. split; [exact Ee|].
      cbn in E. destruct a as [| | | | | |x|]; try (unfold getResultMatrix in E; destruct (ready m s); [|discriminate]; cbn in E; destruct (hasElementMatrix s); discriminate).
      destruct (matrix_right zero mul vzero vadd vscale transposed inverse determinant absolute getPoint mapPoint mul_zero h1 m0 l m s s1 x R E') as (Z & NN). rewrite C in NN. destruct (NN b e' U Eb Ee) as (N1 & N2 & N3).
      cbn zeta. destruct x as [nr nc dt]. cbn in *. subst. do 2 f_equal. f_equal. apply all_zero; assumption.
    + assert (E' := E). cbn in E. destruct (ready m s) as [[e p]|] eqn:RD.
      2: { unfold getResultVector in E. rewrite RD in E. discriminate. }
      destruct (reached_inv m c s (ex_intro _ l (conj R C))) as (F & _). unfold ready in RD. rewrite (fr_element _ _ _ _ F) in RD. destruct (on c) as [b|] eqn:Eb; [|discriminate]. cbn in RD.
      destruct (m b) as [e'|] eqn:Ee; [|discriminate]. exists b, e'. split; [reflexivity|]. split; [exact Ee|].
      cbn in E. destruct a as [| | | | | | |x]; try (unfold getResultVector in E; destruct (ready m s); [|discriminate]; cbn in E; destruct (hasElementVector s); discriminate).
      destruct (vector_right zero mul vzero vadd vscale transposed inverse determinant absolute getPoint mapPoint mul_zero h1 m0 l m s s1 x R E') as (Z & NN). rewrite C in NN. pose proof (NN b e' U Eb Ee) as N1.
      do 2 f_equal. apply all_zero; assumption.
  - inv_bind H. injection H as <- <-. reflexivity.
  - inv_bind H. injection H as <- <-. reflexivity.
Qed.
Lemma respond_complete m c s o r : unchanged c = true -> reached m c s -> sure_question m c o -> right_response m c o r -> exists s', respond m o s = Some (s', r) /\ reached m c s'.
Proof.
  intros U Re (SQ & K) H. destruct o as [o|g|x|x|a e]; try contradiction. destruct K as (K & L).
  assert (G : exists a s', r = Some a /\ get m g s = Some (s', a)).
  { destruct Re as (l & R & C). rewrite <- C in *.
    assert (AR : forall a, asks_no_solution g -> answers m (settings_after h1 l) g a -> exists s', get m g s = Some (s', a)).
    { intros a NS Ha. apply (answers_right zero mul vzero vadd vscale transposed inverse determinant absolute getPoint mapPoint h1 m0 l m s g a R U NS); assumption. }
    destruct g; cbn [Integral_spec.right_response] in H; try contradiction; destruct H as (a & -> & H); exists a;
    try (destruct (AR a I H) as (s' & E); exists s'; split; [reflexivity|exact E]).
    - destruct (proj2 (solutions_right zero mul vzero vadd vscale transposed inverse determinant absolute getPoint mapPoint h1 m0 l m s false a R U SQ) H) as (s' & E). exists s'. split; [reflexivity|exact E].
    - destruct (proj2 (solutions_right zero mul vzero vadd vscale transposed inverse determinant absolute getPoint mapPoint h1 m0 l m s true a R U SQ) H) as (s' & E). exists s'. split; [reflexivity|exact E]. }
  destruct G as (a & s' & -> & E). exists s'. split; [cbn; rewrite E; reflexivity|]. eapply reached_get; eassumption.
Qed.

(** moving to another point *)
Lemma point_ok (m : memory) a e p (s : estate) : theElement_ s = Some a -> m a = Some e -> exists s', setPointReference zero mul m p s = Some s'.
Proof. intros H1 H2. unfold setPointReference. rewrite H1. cbn. rewrite H2. cbn. eauto. Qed.
Lemma goto_sound m a q ts i j s s' : reached m (at_point a q ts i) s -> setQuadraturePointIndex zero mul getPoint mapPoint m j s = Some s' -> reached m (at_point a q ts j) s' /\ getPoint q j <> None.
Proof.
  intros R H. pose proof (reached_set _ _ _ (SetQuadraturePointIndex j) s' R H) as R'. split; [exact R'|].
  destruct (reached_inv _ _ _ R') as (F & _). pose proof (fr_place _ _ _ _ F) as G. cbn in G. tauto.
Qed.
Lemma goto_complete m a e q ts i j s : m a = Some e -> reached m (at_point a q ts i) s -> getPoint q j <> None -> exists s', setQuadraturePointIndex zero mul getPoint mapPoint m j s = Some s' /\ reached m (at_point a q ts j) s'.
Proof.
  intros Ha R H. destruct (reached_inv _ _ _ R) as (F & _). pose proof (fr_place _ _ _ _ F) as G. cbn in G. destruct G as (_ & _ & G & HQ).
  pose proof (fr_element _ _ _ _ F) as HE. cbn in HE. destruct (getPoint q j) as [p|] eqn:P1; [|contradiction].
  assert (K : exists s', setQuadraturePointIndex zero mul getPoint mapPoint m j s = Some s').
  { unfold setQuadraturePointIndex. rewrite HQ. unfold current in G. rewrite HQ in G. cbn [quadratureRule_ doesMap with_rule faceToElementMap_]. destruct (quadratureRule_ s) as [q'|]; [|discriminate]. cbn in G.
    destruct (doesMap s). { destruct (faceToElementMap_ s); discriminate. } injection G as -> _. cbn [bind]. rewrite P1. cbn [bind].
    match goal with |- context [setPointReference _ _ m p ?s1] => destruct (point_ok m a e p s1 HE Ha) as (s2 & ->) end. cbn. eauto. }
  destruct K as (s' & K). exists s'. split; [exact K|]. apply (reached_set _ _ _ (SetQuadraturePointIndex j) s' R K).
Qed.
Lemma rule_sound m c a q s s' : on c = Some a -> unchanged c = true -> reached m c s -> setQuadratureRule zero mul getPoint mapPoint m q s = Some s' -> reached m (at_point a q (transforms c) 0) s' /\ getPoint q 0 <> None.
Proof.
  intros O U R H. pose proof (reached_set _ _ _ (SetQuadratureRule q) s' R H) as R'. cbn [follow] in R'. rewrite O, U in R'. split; [exact R'|].
  destruct (reached_inv _ _ _ R') as (F & _). pose proof (fr_place _ _ _ _ F) as G. cbn in G. tauto.
Qed.
Lemma rule_complete m c a e q s : on c = Some a -> unchanged c = true -> m a = Some e -> reached m c s -> getPoint q 0 <> None ->
  exists s', setQuadratureRule zero mul getPoint mapPoint m q s = Some s' /\ reached m (at_point a q (transforms c) 0) s'.
Proof.
  intros O U Ha R H. destruct (reached_inv _ _ _ R) as (F & _). pose proof (fr_element _ _ _ _ F) as HE. rewrite O in HE. destruct (getPoint q 0) as [p|] eqn:P1; [|contradiction].
  assert (K : exists s', setQuadratureRule zero mul getPoint mapPoint m q s = Some s').
  { unfold setQuadratureRule, setQuadraturePointIndex. cbn [hasQuadratureRule with_rule quadratureRule_ doesMap bind]. rewrite P1. cbn [bind].
    match goal with |- context [setPointReference _ _ m p ?s1] => destruct (point_ok m a e p s1 HE Ha) as (s2 & ->) end. cbn. eauto. }
  destruct K as (s' & K). exists s'. split; [exact K|]. apply (rule_sound m c a q s s' O U R K).
Qed.

(** the factor of a point *)
Notation scaleFactor := (scaleFactor determinant absolute weight one times ofDet).
Notation element_factor := (element_factor determinant absolute getPoint weight one times ofDet).
Lemma factor_sound m a q ts scaling i s s' x : reached m (at_point a q ts i) s -> scaleFactor m scaling q i s = Some (s', x) -> reached m (at_point a q ts i) s' /\ element_factor m scaling a q i x.
Proof.
  intros R H. unfold Integral_model.scaleFactor in H. inv_bind H. rename x0 into w. destruct scaling.
  - inv_bind H. destruct x0 as [s1 d]. cbn [fst snd] in H. injection H as <- <-. assert (G : get m GetJacobianAbsDet s = Some (s1, ADet d)) by (cbn; rewrite E0; reflexivity).
    split; [eapply reached_get; eassumption|]. exists w. split; [exact E|].
    destruct R as (l & R & C). destruct (answers_right zero mul vzero vadd vscale transposed inverse determinant absolute getPoint mapPoint h1 m0 l m s GetJacobianAbsDet (ADet d) R ltac:(rewrite C; reflexivity) I) as (AS & _).
    rewrite C in AS. destruct (AS (ex_intro _ s1 G)) as (b & e & w' & p & O & Mb & W & Pt & Eq). cbn in O, W, Eq. injection O as <-. injection W as <-. cbn in Pt. injection Eq as ->. exists e, p. auto.
  - injection H as <- <-. split; [exact R|]. exists w. auto.
Qed.
Lemma factor_complete m a q ts scaling i s x : reached m (at_point a q ts i) s -> element_factor m scaling a q i x -> exists s', scaleFactor m scaling q i s = Some (s', x) /\ reached m (at_point a q ts i) s'.
Proof.
  intros R (w & E & H). unfold Integral_model.scaleFactor. rewrite E. cbn [bind]. destruct scaling.
  - destruct H as (e & p & Ma & Pt & ->). assert (R' := R). destruct R' as (l & R' & C).
    destruct (proj2 (answers_right zero mul vzero vadd vscale transposed inverse determinant absolute getPoint mapPoint h1 m0 l m s GetJacobianAbsDet (ADet (absolute (determinant (calcJacobian e p)))) R' ltac:(rewrite C; reflexivity) I) I) as (s' & G).
    { rewrite C. exists a, e, (Rule q i), p. cbn. auto. }
    assert (R2 := reached_get _ _ _ _ _ _ R G). cbn in G. unfold answered in G. destruct (getJacobianAbsDet determinant absolute m s) as [[s1 d]|]; [|discriminate]. cbn in G. injection G as -> <-. exists s'. split; [reflexivity|exact R2].
  - subst x. exists s. auto.
Qed.

Notation integrate := (integrate zero mul vzero vadd vscale transposed inverse determinant absolute getPoint mapPoint getNumberOfPoints weight one times ofDet scaleBy axpy).
Notation referenceElementIntegral := (referenceElementIntegral zero mul vzero vadd vscale transposed inverse determinant absolute getPoint mapPoint getNumberOfPoints weight scaleBy axpy).
Notation element_integral := (element_integral zero vzero vadd vscale transposed inverse determinant absolute getPoint mapPoint getNumberOfPoints weight one times ofDet scaleBy axpy).
Notation reference_integral := (reference_integral zero vzero vadd vscale transposed inverse determinant absolute getPoint mapPoint getNumberOfPoints weight scaleBy axpy).

Lemma integrate_sound elementRule fits m c s scaling a f rule q s' v : reached m c s -> (match rule with Some q => Some q | None => elementRule a end) = Some q ->
  (forall i, i < getNumberOfPoints q -> only (sound_question m (at_point a q (transforms c) i)) f) ->
  integrate m elementRule fits scaling a f rule s = Some (s', v) ->
  fits q a = true /\ element_integral m (transforms c) scaling a f q v.
Proof.
  intros R EQ SQ H. unfold Integral_model.integrate in H. inv_bind H. rename x into s1. rewrite EQ in H. cbn [bind] in H. destruct (fits q a) eqn:Ft; [|discriminate]. split; [reflexivity|].
  destruct (0 <? getNumberOfPoints q) eqn:Ln; [|discriminate]. apply Nat.ltb_lt in Ln. cbn [andb] in H. inv_bind H. rename x into s2.
  pose proof (reached_set _ _ _ (SetElement a) s1 R E) as R1. destruct (rule_sound m (Settings (Some a) (where_ c) (transforms c) true) a q s1 s2 eq_refl eq_refl R1 E0) as (R2 & P0). cbn [transforms follow] in R2.
  destruct (loop_sound scaleBy axpy (setQuadraturePointIndex zero mul getPoint mapPoint m) (execute (respond m) f) (scaleFactor m scaling q)
    (fun i s => i < getNumberOfPoints q -> reached m (at_point a q (transforms c) i) s) (fun i => i < getNumberOfPoints q -> getPoint q i <> None) (fun i y => i < getNumberOfPoints q -> yields (right_response m (at_point a q (transforms c) i)) f y) (fun i x => i < getNumberOfPoints q -> element_factor m scaling a q i x)) with (n := getNumberOfPoints q) (s := s2) (s' := s') (v := v) as (_ & PA & l & HL & HN & HW).
  - intros i t t' Hi G. split; intros Li; eapply goto_sound; try exact G; apply Hi; lia.
  - intros i t t' y Hi G. split; intros Li; specialize (Hi Li).
    + eapply (execute_inv (respond m) (reached m (at_point a q (transforms c) i))); [|exact Hi|exact G]. intros g u u' r Hu Hr. eapply reached_respond; eassumption.
    + eapply (execute_sound (respond m) _ _ (reached m (at_point a q (transforms c) i))); [|apply SQ, Li|exact Hi|exact G]. intros g u u' r Hu Hg Hr. split; [eapply reached_respond; eassumption|]. eapply respond_sound; try eassumption. reflexivity.
  - intros i t t' x Hi G. split; intros Li; eapply factor_sound; try exact G; apply Hi, Li.
  - exact Ln.
  - intros _. exact R2.
  - intros _. exact P0.
  - exact H.
  - split; [exact Ln|]. split; [intros i Hi; apply (PA i Hi Hi)|]. exists l. split; [exact HL|]. split; [|exact HW]. intros i b y Hb. assert (i < getNumberOfPoints q). { rewrite <- HL. apply nth_error_Some. rewrite Hb. discriminate. } destruct (HN _ _ _ Hb). auto.
Qed.
Lemma integrate_complete elementRule fits m c s scaling a e f rule q v : reached m c s -> (match rule with Some q => Some q | None => elementRule a end) = Some q ->
  m a = Some e -> fits q a = true ->
  (forall i, i < getNumberOfPoints q -> only (sure_question m (at_point a q (transforms c) i)) f) ->
  element_integral m (transforms c) scaling a f q v -> exists s', integrate m elementRule fits scaling a f rule s = Some (s', v).
Proof.
  intros R EQ Ma Ft SQ (Ln & PA & l & HL & HN & HW). unfold Integral_model.integrate.
  assert (K : exists s1, setElement zero mul vzero m a s = Some s1) by (unfold setElement; rewrite Ma; cbn; eauto). destruct K as (s1 & E). rewrite E. cbn [bind]. rewrite EQ. cbn [bind]. rewrite Ft.
  rewrite (proj2 (Nat.ltb_lt _ _) Ln). cbn [andb]. pose proof (reached_set _ _ _ (SetElement a) s1 R E) as R1. destruct (rule_complete m (Settings (Some a) (where_ c) (transforms c) true) a e q s1 eq_refl eq_refl Ma R1 (PA 0 Ln)) as (s2 & E2 & R2). rewrite E2. cbn [bind]. cbn [transforms follow] in R2.
  apply (loop_complete scaleBy axpy _ _ _ (fun i s => reached m (at_point a q (transforms c) i) s) (fun i => getPoint q i <> None) (fun i y => i < getNumberOfPoints q /\ yields (right_response m (at_point a q (transforms c) i)) f y) (fun i x => element_factor m scaling a q i x)) with (l := l).
  - intros i t Hi Hp. eapply goto_complete; eassumption.
  - intros i t y Hi (Li & Hy). eapply (execute_complete (respond m) _ _ (reached m (at_point a q (transforms c) i))); [|apply SQ, Li|exact Hi|exact Hy]. intros g u r Hu Hg Hr. apply respond_complete; try assumption. reflexivity.
  - intros i t x Hi Hx. eapply factor_complete; eassumption.
  - exact R2.
  - exact PA.
  - exact HL.
  - intros i b y Hb. destruct (HN _ _ _ Hb). split; [assumption|]. split; [|assumption]. rewrite <- HL. apply nth_error_Some. rewrite Hb. discriminate.
  - exact HW.
Qed.

Lemma reference_sound m c s a f q s' v : reached m c s -> on c = Some a -> unchanged c = true -> 0 < getNumberOfPoints q ->
  (forall i, i < getNumberOfPoints q -> only (sound_question m (at_point a q (transforms c) i)) f) ->
  referenceElementIntegral m q f s = Some (s', v) -> reference_integral m (transforms c) a f q v.
Proof.
  intros R O U Ln SQ H. unfold Integral_model.referenceElementIntegral in H. inv_bind H. rename x into s2.
  destruct (rule_sound m c a q s s2 O U R E) as (R2 & P0).
  destruct (loop_sound scaleBy axpy (setQuadraturePointIndex zero mul getPoint mapPoint m) (execute (respond m) f) (fun i s => w <- weight q i; Some (s, w))
    (fun i s => i < getNumberOfPoints q -> reached m (at_point a q (transforms c) i) s) (fun i => i < getNumberOfPoints q -> getPoint q i <> None) (fun i y => i < getNumberOfPoints q -> yields (right_response m (at_point a q (transforms c) i)) f y) (fun i x => weight q i = Some x)) with (n := getNumberOfPoints q) (s := s2) (s' := s') (v := v) as (_ & PA & l & HL & HN & HW).
  - intros i t t' Hi G. split; intros Li; eapply goto_sound; try exact G; apply Hi; lia.
  - intros i t t' y Hi G. split; intros Li; specialize (Hi Li).
    + eapply (execute_inv (respond m) (reached m (at_point a q (transforms c) i))); [|exact Hi|exact G]. intros g u u' r Hu Hr. eapply reached_respond; eassumption.
    + eapply (execute_sound (respond m) _ _ (reached m (at_point a q (transforms c) i))); [|apply SQ, Li|exact Hi|exact G]. intros g u u' r Hu Hg Hr. split; [eapply reached_respond; eassumption|]. eapply respond_sound; try eassumption. reflexivity.
  - intros i t t' x Hi G. inv_bind G. injection G as <- <-. split; [exact Hi|exact E0].
  - exact Ln.
  - intros _. exact R2.
  - intros _. exact P0.
  - exact H.
  - split; [exact Ln|]. split; [intros i Hi; apply (PA i Hi Hi)|]. exists l. split; [exact HL|]. split; [|exact HW]. intros i b y Hb. assert (i < getNumberOfPoints q). { rewrite <- HL. apply nth_error_Some. rewrite Hb. discriminate. } destruct (HN _ _ _ Hb). auto.
Qed.
Lemma reference_complete m c s a e f q v : reached m c s -> on c = Some a -> unchanged c = true -> m a = Some e ->
  (forall i, i < getNumberOfPoints q -> only (sure_question m (at_point a q (transforms c) i)) f) ->
  reference_integral m (transforms c) a f q v -> exists s', referenceElementIntegral m q f s = Some (s', v).
Proof.
  intros R O U Ma SQ (Ln & PA & l & HL & HN & HW). unfold Integral_model.referenceElementIntegral.
  destruct (rule_complete m c a e q s O U Ma R (PA 0 Ln)) as (s2 & E2 & R2). rewrite E2. cbn [bind].
  apply (loop_complete scaleBy axpy _ _ _ (fun i s => reached m (at_point a q (transforms c) i) s) (fun i => getPoint q i <> None) (fun i y => i < getNumberOfPoints q /\ yields (right_response m (at_point a q (transforms c) i)) f y) (fun i x => weight q i = Some x)) with (l := l).
  - intros i t Hi Hp. eapply goto_complete; eassumption.
  - intros i t y Hi (Li & Hy). eapply (execute_complete (respond m) _ _ (reached m (at_point a q (transforms c) i))); [|apply SQ, Li|exact Hi|exact Hy]. intros g u r Hu Hg Hr. apply respond_complete; try assumption. reflexivity.
  - intros i t x Hi Hx. exists t. rewrite Hx. split; [reflexivity|exact Hi].
  - exact R2.
  - exact PA.
  - exact HL.
  - intros i b y Hb. destruct (HN _ _ _ Hb). split; [assumption|]. split; [|assumption]. rewrite <- HL. apply nth_error_Some. rewrite Hb. discriminate.
  - exact HW.
Qed.
End Zero.

(** what was done before *)
Definition agrees (c d : settings) : Prop := on c = on d /\ transforms c = transforms d /\ unchanged c = unchanged d.
Definition visited (m : memory) (d : settings) (s : estate) : Prop := exists c, reached m c s /\ agrees c d.
Lemma agrees_follow c d (o : event) : agrees c d -> agrees (follow c o) (follow d o).
Proof. intros (H1 & H2 & H3). destruct o as [[]|g|x|x|a e]; unfold agrees; cbn; rewrite ?H1, ?H2, ?H3; auto. Qed.
Lemma visited_set m d s o s' : visited m d s -> set zero mul vzero getPoint mapPoint m o s = Some s' -> visited m (follow d (Set_ o : event)) s'.
Proof. intros (c & R & Ag) H. exists (follow c (Set_ o : event)). split; [eapply reached_set; eassumption|]. now apply agrees_follow. Qed.
Lemma visited_respond m d s o s' r : visited m d s -> respond m o s = Some (s', r) -> visited m d s'.
Proof. intros (c & R & Ag) H. exists c. split; [eapply reached_respond; eassumption|exact Ag]. Qed.
Lemma visited_same m d d' s : on d = on d' -> transforms d = transforms d' -> unchanged d = unchanged d' -> visited m d s -> visited m d' s.
Proof. intros H1 H2 H3 (c & R & G1 & G2 & G3). exists c. split; [exact R|]. unfold agrees. now rewrite <- H1, <- H2, <- H3. Qed.
Lemma visited_loop m d (q : Q) f factor n s s' v : (forall i s s' x, visited m d s -> factor i s = Some (s', x) -> visited m d s') -> visited m d s ->
  quadratureLoop scaleBy axpy n (setQuadraturePointIndex zero mul getPoint mapPoint m) (execute (respond m) f) factor s = Some (s', v) -> q = q -> visited m d s'.
Proof.
  intros HF HV H _. assert (K : exists n', 0 < n' /\ quadratureLoop scaleBy axpy n' (setQuadraturePointIndex zero mul getPoint mapPoint m) (execute (respond m) f) factor s = Some (s', v)).
  { destruct n as [|n]; [exists 1|exists (S n)]; (split; [lia|exact H]). }
  destruct K as (n' & Ln & H'). eapply (loop_sound scaleBy axpy _ _ _ (fun _ s => visited m d s) (fun _ => True) (fun _ _ => True) (fun _ _ => True)) with (n := n') (s := s); try eassumption; try exact I.
  - intros i t t' Ht G. split; [|exact I]. eapply visited_same; [| | |eapply (visited_set m d t (SetQuadraturePointIndex (S i)) t' Ht G)]; reflexivity.
  - intros i t t' y Ht G. split; [|exact I]. eapply (execute_inv (respond m) (visited m d)); [|exact Ht|exact G]. intros g u u' r Hu Hr. eapply visited_respond; eassumption.
  - intros i t t' x Ht G. split; [|exact I]. eapply HF; eassumption.
Qed.
Notation operateAll := (operateAll zero mul vzero vadd vscale transposed inverse determinant absolute getPoint mapPoint getNumberOfPoints weight one times ofDet scaleBy axpy).
Notation operate := (operate zero mul vzero vadd vscale transposed inverse determinant absolute getPoint mapPoint getNumberOfPoints weight one times ofDet scaleBy axpy).
Lemma operate_visited elementRule fits o m s m' s' d : visited m d s -> operate elementRule fits o (m, s) = Some (m', s') -> visited m' (following d o) s'.
Proof.
  intros HV H. destruct o as [o|scaling a f rule|q f]; cbn [Integral_model.operate fst snd] in H.
  - destruct HV as (c & R & Ag). exists (follow c o). split; [eapply reached_step; eassumption|]. now apply agrees_follow.
  - inv_bind H. destruct x as [s1 y]. injection H as <- <-. unfold Integral_model.integrate in E. inv_bind E. rename x into s2. inv_bind E. rename x into q. destruct (_ && _)%bool; [|discriminate]. inv_bind E. rename x into s3.
    apply (visited_same m (follow (follow d (Set_ (SetElement a) : event)) (Set_ (SetQuadratureRule q) : event))); [reflexivity|reflexivity|reflexivity|].
    eapply (visited_loop m _ q f); [| |exact E|reflexivity].
    + intros i t t' x Ht G. unfold scaleFactor in G. inv_bind G. destruct scaling; [|injection G as <- _; exact Ht]. inv_bind G. destruct x1 as [t1 dd]. injection G as <- _.
      apply (visited_respond m _ t (Get_ GetJacobianAbsDet) t1 (Some (ADet dd)) Ht). cbn. rewrite E4. reflexivity.
    + eapply visited_set; [|exact E2]. eapply visited_set; [exact HV|exact E0].
  - inv_bind H. destruct x as [s1 y]. injection H as <- <-. unfold Integral_model.referenceElementIntegral in E. inv_bind E. rename x into s3.
    apply (visited_same m (follow d (Set_ (SetQuadratureRule q) : event))); [reflexivity|reflexivity|reflexivity|].
    eapply (visited_loop m _ q f); [| |exact E|reflexivity].
    + intros i t t' x Ht G. inv_bind G. injection G as <- _. exact Ht.
    + eapply visited_set; [exact HV|exact E0].
Qed.
Lemma operateAll_visited elementRule fits : forall l m s m' s' d, visited m d s -> operateAll elementRule fits l (m, s) = Some (m', s') -> visited m' (fold_left following l d) s'.
Proof.
  induction l as [|o l IH]; intros m s m' s' d HV H; cbn in H.
  - injection H as <- <-. exact HV.
  - inv_bind H. destruct x as [m1 s1]. cbn. eapply IH; [|exact H]. eapply operate_visited; eassumption.
Qed.
Lemma operations_reach elementRule fits l m s : operateAll elementRule fits l (m0, newPhysicalElement h1) = Some (m, s) ->
  exists c, reached m c s /\ on c = on (after h1 l) /\ transforms c = transforms (after h1 l) /\ unchanged c = unchanged (after h1 l).
Proof. intros H. apply (operateAll_visited elementRule fits l m0 _ m s (initially h1)) in H; [exact H|]. exists (initially h1). split; [exists []; auto|]. unfold agrees. auto. Qed.
End Element.
