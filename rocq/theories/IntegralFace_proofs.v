(** The loop over the points of a face. *)
From Coq Require Import List Arith Bool Lia.
From Verif Require Import Loop_model Matrix_model ElementData_model PhysicalElement_model PhysicalElement_spec PhysicalFace_model PhysicalFace_spec Integral_model Integral_spec
  PhysicalElement_proofs PhysicalFace_proofs Integral_proofs.
Import ListNotations.

Section Face.
Context {A V P X J D Q M N Y : Type}.
Variable zero : A.
Variable mul : A -> A -> A.
Variable vzero : V.
Variable vadd : V -> V -> V.
Variable vscale : A -> V -> V.
Variable transposed inverse : J -> J.
Variable determinant : J -> D.
Variable absolute : D -> D.
Variable getPoint : Q -> nat -> option P.
Variable mapPoint : M -> P -> P.
Variable l2Norm : V -> V.
Variable divide : V -> V -> V.
Variable negate : V -> V.
Variable product : normalKind -> V -> V -> V.
Variable getNumberOfPoints : Q -> nat.
Variable weight : Q -> nat -> option N.
Variable one : N.
Variable times : N -> N -> N.
Variable ofValue : V -> N.
Variable scaleBy : N -> Y -> Y.
Variable axpy : N -> Y -> Y -> option Y.
Notation memory := (@memory A V P X J Q M).
Notation fstate := (@fstate A V P X J D Q M).
Notation face := (@face V P J M).
Notation fevent := (@fevent V P J D Q M).
Notation face_settings := (@face_settings V P J D Q M).
Notation transformation := (@transformation V J D).
Variable m : memory.
Variable h1 : transformation.
Notation frun := (frun zero mul vzero vadd vscale transposed determinant getPoint mapPoint l2Norm divide negate product m).
Notation fstep := (fstep zero mul vzero vadd vscale transposed determinant getPoint mapPoint l2Norm divide negate product m).
Notation fset := (fset zero mul vzero getPoint mapPoint m).
Notation fget := (fget vzero vadd vscale transposed determinant l2Norm divide negate product m).
Notation face_follow := (face_follow getPoint).
Notation face_answers := (face_answers vzero vadd vscale transposed inverse determinant absolute getPoint mapPoint l2Norm divide negate product m).

Lemma frun_app : forall l1 l2 (s : fstate), frun (l1 ++ l2) s = bind (frun l1 s) (frun l2).
Proof. induction l1 as [|o l1 IH]; intros l2 s; [reflexivity|]. cbn [app PhysicalFace_model.frun]. destruct (fstep o s); [|reflexivity]. cbn [bind]. apply IH. Qed.
Definition freached (b : bool) (c : face_settings) (s : fstate) : Prop := exists l, frun l (newPhysicalFace h1 b) = Some s /\ face_settings_after getPoint h1 l = c.
Lemma freached_step b c s o s' : freached b c s -> fstep o s = Some s' -> freached b (face_follow c o) s'.
Proof.
  intros (l & R & <-) H. exists (l ++ [o]). split.
  - rewrite frun_app, R. cbn [bind PhysicalFace_model.frun]. rewrite H. reflexivity.
  - unfold face_settings_after. rewrite fold_left_app. reflexivity.
Qed.
Lemma freached_get b c s g s' r : freached b c s -> fget g s = Some (s', r) -> freached b c s'.
Proof. intros R H. apply (freached_step b c s (FGet_ g) s' R). cbn. rewrite H. reflexivity. Qed.
Lemma freached_set b c s o s' : freached b c s -> fset o s = Some s' -> freached b (face_follow c (FSet_ o)) s'.
Proof. intros R H. apply (freached_step b c s (FSet_ o) s' R). exact H. Qed.
Lemma freached_base b c s : freached b c s -> base vzero vadd vscale transposed inverse determinant absolute getPoint mapPoint l2Norm divide m h1 b c s.
Proof.
  intros (l & R & <-). apply (run_all zero mul vzero vadd vscale transposed inverse determinant absolute getPoint mapPoint l2Norm divide negate product m h1 b l (face_initially h1)
    (newPhysicalFace h1 b) s (new_all vzero vadd vscale transposed inverse determinant absolute getPoint mapPoint l2Norm divide negate product m h1 b)) in R. apply R.
Qed.

(** on a face *)
Section On.
Variable f first : face.
Variable q : Q.
Variable ts : nat -> option transformation.
Hypothesis sizes : same_sizes m first f.
Notation b := (isInternal f).
Notation at_ i := (on_face f first q ts i).
Lemma orderly_on i : orderly m (at_ i).
Proof. split; cbn. - intros q' i' f' H. now injection H as _ _ <-. - intros f1 f2 E1 E2. injection E1 as <-. injection E2 as <-. exact sizes. Qed.
Lemma fget_sound i s g s' a : freached b (at_ i) s -> fine mapPoint m (on_face f f q ts i) g -> fget g s = Some (s', a) -> face_answers (on_face f f q ts i) g a.
Proof.
  intros (l & R & C) Fn H. pose proof (run_answers zero mul vzero vadd vscale transposed inverse determinant absolute getPoint mapPoint l2Norm divide negate product m h1 b l s g R) as K.
  rewrite C in K. destruct (K (orderly_on i) Fn) as (K1 & _). apply (K1 s' a H).
Qed.
Lemma fget_complete i s g a : freached b (at_ i) s -> fine mapPoint m (on_face f f q ts i) g -> (needs_even g = true -> even m (on_face f f q ts i)) ->
  face_answers (on_face f f q ts i) g a -> exists s', fget g s = Some (s', a) /\ freached b (at_ i) s'.
Proof.
  intros R' Fn Ev H. assert (R'' := R'). destruct R'' as (l & R & C). pose proof (run_answers zero mul vzero vadd vscale transposed inverse determinant absolute getPoint mapPoint l2Norm divide negate product m h1 b l s g R) as K.
  rewrite C in K. destruct (K (orderly_on i) Fn) as (_ & K2). destruct (K2 Ev a H) as (s' & E). exists s'. split; [exact E|]. eapply freached_get; eassumption.
Qed.

Lemma fgoto_sound i j s s' : freached b (at_ i) s -> fsetQuadraturePointIndex zero mul getPoint mapPoint m j s = Some s' -> freached b (at_ j) s' /\ getPoint q j <> None.
Proof.
  intros R H. pose proof (freached_set _ _ _ (FSetQuadraturePointIndex j) s' R H) as R'. split; [exact R'|].
  apply freached_base in R'. apply (ba_valid _ _ _ _ _ _ _ _ _ _ _ _ _ _ _ _ R' (AtRule q j f) eq_refl).
Qed.
Lemma frule_sound c s s' : the_face c = Some f -> first_face c = Some first -> by_unknown c = ts -> freached b c s -> fsetQuadratureRule zero mul getPoint mapPoint m q s = Some s' -> freached b (at_ 0) s' /\ getPoint q 0 <> None.
Proof.
  intros E1 E2 E3 R H. pose proof (freached_set _ _ _ (FSetQuadratureRule q) s' R H) as R'. cbn [PhysicalFace_spec.face_follow] in R'. rewrite E1, E2, E3 in R'. split; [exact R'|].
  apply freached_base in R'. apply (ba_valid _ _ _ _ _ _ _ _ _ _ _ _ _ _ _ _ R' (AtRule q 0 f) eq_refl).
Qed.

(** the setters succeed *)
Lemma pe_point_ok a e p (s : @PhysicalElement_model.state A V P X J D Q M) : theElement_ s = Some a -> m a = Some e -> exists s', setPointReference zero mul m p s = Some s' /\ theElement_ s' = Some a.
Proof. intros H1 H2. unfold setPointReference. rewrite H1. cbn [bind]. rewrite H2. cbn [bind]. eexists. split; [reflexivity|]. reflexivity. Qed.
Lemma pe_index_ok a e i p mm (s : @PhysicalElement_model.state A V P X J D Q M) : theElement_ s = Some a -> m a = Some e -> hasQuadratureRule s = true -> quadratureRule_ s = Some q -> doesMap s = true -> faceToElementMap_ s = Some mm -> getPoint q i = Some p ->
  exists s', setQuadraturePointIndex zero mul getPoint mapPoint m i s = Some s' /\ theElement_ s' = Some a /\ hasQuadratureRule s' = true /\ quadratureRule_ s' = Some q /\ doesMap s' = true /\ faceToElementMap_ s' = Some mm.
Proof.
  intros H1 H2 H3 H4 H5 H6 H7. unfold setQuadraturePointIndex. rewrite H3. cbn [quadratureRule_ doesMap with_rule faceToElementMap_]. rewrite H4. cbn [bind]. rewrite H7. cbn [bind]. rewrite H5, H6. cbn [bind].
  unfold setPointReference. cbn [theElement_ with_rule]. rewrite H1. cbn [bind]. rewrite H2. cbn [bind]. eexists. split; [reflexivity|]. cbn. auto.
Qed.
Lemma pe_rule_ok a e i p0 p mm (s : @PhysicalElement_model.state A V P X J D Q M) : theElement_ s = Some a -> m a = Some e -> getPoint q 0 = Some p0 -> getPoint q i = Some p ->
  exists s1, setFaceQuadratureRule zero mul getPoint mapPoint m q mm s = Some s1 /\ theElement_ s1 = Some a /\ exists s2, setQuadraturePointIndex zero mul getPoint mapPoint m i s1 = Some s2.
Proof.
  intros H1 H2 H3 H4. unfold setFaceQuadratureRule.
  match goal with |- context [setQuadraturePointIndex zero mul getPoint mapPoint m 0 ?t] => destruct (pe_index_ok a e 0 p0 mm t H1 H2 eq_refl eq_refl eq_refl eq_refl H3) as (s1 & E1 & G1 & G2 & G3 & G4 & G5) end.
  exists s1. split; [exact E1|]. split; [exact G1|]. destruct (pe_index_ok a e i p mm s1 G1 H2 G2 G3 G4 G5 H4) as (s2 & E2 & _). exists s2. exact E2.
Qed.

Hypothesis present : face_present m f.
(** a state on the face, with the rule *)
Record ready_for (s : fstate) : Prop := {
  rd_face : face_ s = Some f;
  rd_internal : isInternal_ s = b;
  rd_rule : fquadratureRule_ s = Some q;
  rd_left : exists mm, mapToLeftElement s = Some mm;
  rd_right : b = true -> exists mm, mapToRightElement s = Some mm;
  rd_elementL : theElement_ (left s) = Some (ptrElementLeft f);
  rd_elementR : b = true -> theElement_ (right s) = ptrElementRight f }.
Lemma forget_parts n (t : fstate) : isInternal_ (forget n t) = isInternal_ t /\ mapToLeftElement (forget n t) = mapToLeftElement t /\ mapToRightElement (forget n t) = mapToRightElement t /\ left (forget n t) = left t /\ right (forget n t) = right t.
Proof. repeat split; reflexivity. Qed.
Lemma fpoint_ok p s : ready_for s -> exists s', fsetPointReference zero mul mapPoint m p s = Some s' /\ isInternal_ s' = b /\ mapToLeftElement s' = mapToLeftElement s /\ mapToRightElement s' = mapToRightElement s /\
  theElement_ (left s') = Some (ptrElementLeft f) /\ (b = true -> theElement_ (right s') = ptrElementRight f).
Proof.
  intros [H1 H2 H3 H4 H5 H6 H7]. destruct present as (_ & e & Me & Mr). unfold fsetPointReference. rewrite H1, H2. cbn [bind]. destruct (pe_point_ok _ e (mapPoint (refFaceToRefElemMapL f) p) (left s) H6 Me) as (l1 & L1 & L2). rewrite L1. cbn [bind].
  assert (RR : exists r, (if b then setPointReference zero mul m (mapPoint (refFaceToRefElemMapR f) p) (right s) else Some (right s)) = Some r /\ (b = true -> theElement_ r = ptrElementRight f)).
  { unfold isInternal in *. destruct (ptrElementRight f) as [r|]; [|exists (right s); split; [reflexivity|discriminate]]. destruct Mr as (e' & Me' & _). destruct (pe_point_ok _ e' (mapPoint (refFaceToRefElemMapR f) p) (right s) (H7 eq_refl) Me') as (r1 & R1 & R2). exists r1. auto. }
  destruct RR as (r & -> & Hr). cbn [bind]. rewrite Me. cbn [bind]. eexists. split; [reflexivity|]. match goal with |- isInternal_ (forget ?n ?t) = _ /\ _ => destruct (forget_parts n t) as (-> & -> & -> & -> & ->) end. cbn [isInternal_ mapToLeftElement mapToRightElement left right]. auto.
Qed.
Lemma index_ok j p0 p s : ready_for s -> getPoint q 0 = Some p0 -> getPoint q j = Some p -> exists s', fsetQuadraturePointIndex zero mul getPoint mapPoint m j s = Some s'.
Proof.
  intros RF P0 Pj. assert (RF' := RF). destruct RF' as [H1 H2 H3 (mL & H4) H5 H6 H7]. destruct present as (_ & e & Me & Mr). unfold fsetQuadraturePointIndex. rewrite H3. cbn [bind]. rewrite Pj. cbn [bind].
  destruct (fpoint_ok p s RF) as (s1 & -> & G1 & G2 & G3 & G4 & G5). cbn [bind]. rewrite G2, H4. cbn [bind].
  destruct (pe_rule_ok _ e j p0 p mL (left s1) G4 Me P0 Pj) as (l2 & L3 & _ & l3 & L4). rewrite L3. cbn [bind]. rewrite L4. cbn [bind].
  unfold with_left. cbn [isInternal_ mapToRightElement right]. rewrite G1, G3. destruct b eqn:B; [|eauto]. destruct (H5 eq_refl) as (mR & ->). cbn [bind]. unfold isInternal in B. destruct (ptrElementRight f) as [r|] eqn:Er; [|discriminate]. destruct Mr as (e' & Me' & _).
  destruct (pe_rule_ok _ e' j p0 p mR (right s1) (G5 eq_refl) Me' P0 Pj) as (r2 & R3 & _ & r3 & R4). rewrite R3. cbn [bind]. rewrite R4. cbn [bind]. eauto.
Qed.
Lemma base_elements c s : the_face c = Some f -> freached b c s ->
  face_ s = Some f /\ isInternal_ s = b /\ theElement_ (left s) = Some (ptrElementLeft f) /\ (b = true -> theElement_ (right s) = ptrElementRight f).
Proof.
  intros E R. apply freached_base in R. pose proof (ba_skel _ _ _ _ _ _ _ _ _ _ _ _ _ _ _ _ R) as K. split; [rewrite (sk_face _ _ _ _ K); exact E|]. split; [exact (sk_internal _ _ _ _ K)|]. split.
  - destruct (ba_left _ _ _ _ _ _ _ _ _ _ _ _ _ _ _ _ R) as (F & _). rewrite (fr_element _ _ _ _ F). unfold actual. rewrite E. reflexivity.
  - intros B. destruct (ba_right _ _ _ _ _ _ _ _ _ _ _ _ _ _ _ _ R) as (F & _). rewrite (fr_element _ _ _ _ F). unfold actual_right. rewrite B. unfold actual. rewrite E. reflexivity.
Qed.
Lemma fgoto_complete i j s : freached b (at_ i) s -> getPoint q 0 <> None -> getPoint q j <> None -> exists s', fsetQuadraturePointIndex zero mul getPoint mapPoint m j s = Some s' /\ freached b (at_ j) s'.
Proof.
  intros R H0 Hj. destruct (getPoint q 0) as [p0|] eqn:P0; [|contradiction]. destruct (getPoint q j) as [p|] eqn:Pj; [|contradiction]. destruct (base_elements (at_ i) s eq_refl R) as (G1 & G2 & G3 & G4).
  assert (RF : ready_for s). { pose proof (freached_base _ _ _ R) as B. pose proof (ba_skel _ _ _ _ _ _ _ _ _ _ _ _ _ _ _ _ B) as K. split; auto.
    - exact (sk_rule _ _ _ _ K).
    - eexists. exact (sk_mapL _ _ _ _ K).
    - intros Bt. eexists. exact (sk_mapR _ _ _ _ K Bt). }
  destruct (index_ok j p0 p s RF P0 Pj) as (s' & E). exists s'. split; [exact E|]. eapply fgoto_sound; eassumption.
Qed.
Lemma frule_complete c s : the_face c = Some f -> first_face c = Some first -> by_unknown c = ts -> freached b c s -> getPoint q 0 <> None -> exists s', fsetQuadratureRule zero mul getPoint mapPoint m q s = Some s' /\ freached b (at_ 0) s'.
Proof.
  intros E1 E2 E3 R H0. destruct (base_elements c s E1 R) as (G1 & G2 & G3 & G4). destruct (getPoint q 0) as [p0|] eqn:P0; [|contradiction].
  assert (K : exists s', fsetQuadratureRule zero mul getPoint mapPoint m q s = Some s').
  { destruct present as (_ & e & Me & Mr). unfold fsetQuadratureRule. rewrite G1. cbn [bind]. destruct (pe_rule_ok _ e 0 p0 p0 (refFaceToRefElemMapL f) (left s) G3 Me P0 P0) as (l2 & L3 & L3' & _). rewrite L3. cbn [bind]. rewrite G2. destruct b eqn:B.
    - assert (B' := B). unfold isInternal in B. destruct (ptrElementRight f) as [r|] eqn:Er; [|discriminate]. destruct Mr as (e' & Me' & _). destruct (pe_rule_ok _ e' 0 p0 p0 (refFaceToRefElemMapR f) (right s) (G4 eq_refl) Me' P0 P0) as (r2 & R3 & R3' & _). rewrite R3. cbn [bind].
      eapply index_ok; [|exact P0|exact P0]. split; cbn; try (now rewrite ?B'); eauto; intros _; now rewrite Er.
    - cbn [bind]. eapply index_ok; [|exact P0|exact P0]. split; cbn; try (now rewrite ?B); eauto; intros C; rewrite B in C; discriminate. }
  destruct K as (s' & K). exists s'. split; [exact K|]. eapply frule_sound; eassumption.
Qed.
Lemma setFace_complete c s : first_face c = None \/ first_face c = Some first -> by_unknown c = ts -> freached b c s ->
  exists s', setFace zero mul vzero mapPoint m f s = Some s'.
Proof.
  intros E2 E3 R. pose proof (freached_base _ _ _ R) as B. pose proof (ba_skel _ _ _ _ _ _ _ _ _ _ _ _ _ _ _ _ B) as K. destruct present as (T & e & Me & Mr). unfold setFace. rewrite (sk_internal _ _ _ _ K), Bool.eqb_reflx. rewrite Me. cbn [bind].
  assert (SZ : exists z, (match face_ s with Some _ => Some (nLeftBasisFunctions s, normals s) | None => rows <- rowSizes m f; Some (nb (edata e), fun _ : normalKind => map (repeat vzero) rows) end) = Some z).
  { destruct (face_ s); [eauto|]. unfold rowSizes. rewrite Me. cbn [bind]. destruct (ptrElementRight f) as [r|]; [|cbn; eauto]. destruct Mr as (e' & Me' & Le). rewrite Me'. cbn [bind]. unfold unknowns. rewrite (proj2 (Nat.leb_le _ _) Le). cbn. eauto. }
  destruct SZ as (z & ->). cbn [bind].
  assert (L : exists l, setElement zero mul vzero m (ptrElementLeft f) (left s) = Some l /\ theElement_ l = Some (ptrElementLeft f)) by (unfold setElement; rewrite Me; cbn; eauto). destruct L as (l & -> & Hl). cbn [bind].
  assert (RR : exists r, (match ptrElementRight f with Some a => setElement zero mul vzero m a (right s) | None => Some (right s) end) = Some r /\ (b = true -> theElement_ r = ptrElementRight f)).
  { unfold isInternal. destruct (ptrElementRight f) as [r|]. - destruct Mr as (e' & Me' & _). unfold setElement. rewrite Me'. cbn. eauto. - exists (right s). split; [reflexivity|discriminate]. }
  destruct RR as (r & -> & Hr). cbn [bind]. destruct (leftRightTransform f) as [t|]; [|contradiction].
  destruct (fpointReference_ s) as [p|]; cbn [bind].
  - destruct (pe_point_ok _ e (mapPoint (refFaceToRefElemMapL f) p) l Hl Me) as (l1 & -> & _). cbn [bind]. unfold isInternal in *. destruct (ptrElementRight f) as [a|]; cbn [bind]; [|eauto].
    destruct Mr as (e' & Me' & _). destruct (pe_point_ok _ e' (mapPoint (refFaceToRefElemMapR f) p) r (Hr eq_refl) Me') as (r1 & -> & _). cbn. eauto.
  - eauto.
Qed.

Notation faceScaleFactor := (faceScaleFactor l2Norm weight one times ofValue).
Notation face_factor := (face_factor getPoint l2Norm weight one times ofValue).
Lemma ffactor_sound scaling i s s' x : freached b (at_ i) s -> faceScaleFactor scaling q i s = Some (s', x) -> freached b (at_ i) s' /\ face_factor scaling f q i x.
Proof.
  intros R H. unfold Integral_model.faceScaleFactor in H. inv_bind H. rename x0 into w. destruct scaling.
  - inv_bind H. destruct x0 as [s1 d]. cbn [fst snd] in H. injection H as <- <-. assert (G : fget RelativeSurfaceArea s = Some (s1, FValue d)) by (cbn; rewrite E0; reflexivity).
    split; [eapply freached_get; eassumption|]. exists w. split; [exact E|]. destruct (fget_sound i s RelativeSurfaceArea s1 (FValue d) R I G) as (f' & w' & p & E1 & E2 & E3 & E4).
    cbn in E1, E2. injection E1 as <-. injection E2 as <-. cbn in E3. injection E4 as ->. exists p. auto.
  - injection H as <- <-. split; [exact R|]. exists w. auto.
Qed.
Lemma ffactor_complete scaling i s x : freached b (at_ i) s -> face_factor scaling f q i x -> exists s', faceScaleFactor scaling q i s = Some (s', x) /\ freached b (at_ i) s'.
Proof.
  intros R (w & E & H). unfold Integral_model.faceScaleFactor. rewrite E. cbn [bind]. destruct scaling.
  - destruct H as (p & Ep & ->). destruct (fget_complete i s RelativeSurfaceArea (FValue (l2Norm (normalVector f p))) R I) as (s' & G & R').
    { discriminate. }
    { exists f, (AtRule q i f), p. cbn. auto. }
    cbn in G. unfold fanswered in G. destruct (getRelativeSurfaceArea l2Norm s) as [[s1 d]|]; [|discriminate]. cbn in G. injection G as -> <-. exists s'. split; [reflexivity|exact R'].
  - subst x. exists s. auto.
Qed.

(** the loop *)
Section Loop.
Variable p : program (@fgetter) (@fanswer V P X) Y.
Notation value i := (yields (face_answers (on_face f f q ts i)) p).
Lemma floop_sound scaling s s' v : 0 < getNumberOfPoints q -> freached b (at_ 0) s -> getPoint q 0 <> None ->
  (forall i, i < getNumberOfPoints q -> only (fine mapPoint m (on_face f f q ts i)) p) ->
  quadratureLoop scaleBy axpy (getNumberOfPoints q) (fsetQuadraturePointIndex zero mul getPoint mapPoint m) (execute fget p) (faceScaleFactor scaling q) s = Some (s', v) ->
  rule_sum getPoint getNumberOfPoints scaleBy axpy q (fun i => value i) (face_factor scaling f q) v.
Proof.
  intros Ln R P0 SQ H.
  destruct (loop_sound scaleBy axpy (fsetQuadraturePointIndex zero mul getPoint mapPoint m) (execute fget p) (faceScaleFactor scaling q)
    (fun i s => i < getNumberOfPoints q -> freached b (at_ i) s) (fun i => i < getNumberOfPoints q -> getPoint q i <> None) (fun i y => i < getNumberOfPoints q -> value i y) (fun i x => i < getNumberOfPoints q -> face_factor scaling f q i x)) with (n := getNumberOfPoints q) (s := s) (s' := s') (v := v) as (_ & PA & l & HL & HN & HW).
  - intros i t t' Hi G. split; intros Li; eapply fgoto_sound; try exact G; apply Hi; lia.
  - intros i t t' y Hi G. split; intros Li; specialize (Hi Li).
    + eapply (execute_inv fget (freached b (at_ i))); [|exact Hi|exact G]. intros g u u' r Hu Hr. eapply freached_get; eassumption.
    + eapply (execute_sound fget _ _ (freached b (at_ i))); [|apply SQ, Li|exact Hi|exact G]. intros g u u' r Hu Hg Hr. split; [eapply freached_get; eassumption|]. eapply fget_sound; eassumption.
  - intros i t t' x Hi G. split; intros Li; eapply ffactor_sound; try exact G; apply Hi, Li.
  - exact Ln.
  - intros _. exact R.
  - intros _. exact P0.
  - exact H.
  - split; [exact Ln|]. split; [intros i Hi; apply (PA i Hi Hi)|]. exists l. split; [exact HL|]. split; [|exact HW]. intros i c y Hb. assert (i < getNumberOfPoints q). { rewrite <- HL. apply nth_error_Some. rewrite Hb. discriminate. } destruct (HN _ _ _ Hb). auto.
Qed.
Lemma floop_complete scaling s v : freached b (at_ 0) s ->
  (forall i, i < getNumberOfPoints q -> only (sure_face_question mapPoint m (on_face f f q ts i)) p) ->
  rule_sum getPoint getNumberOfPoints scaleBy axpy q (fun i => value i) (face_factor scaling f q) v ->
  exists s', quadratureLoop scaleBy axpy (getNumberOfPoints q) (fsetQuadraturePointIndex zero mul getPoint mapPoint m) (execute fget p) (faceScaleFactor scaling q) s = Some (s', v).
Proof.
  intros R SQ (Ln & PA & l & HL & HN & HW).
  apply (loop_complete scaleBy axpy _ _ _ (fun i s => freached b (at_ i) s) (fun i => getPoint q i <> None) (fun i y => i < getNumberOfPoints q /\ value i y) (fun i x => face_factor scaling f q i x)) with (l := l).
  - intros i t Hi Hp. eapply fgoto_complete; try eassumption. apply PA. exact Ln.
  - intros i t y Hi (Li & Hy). eapply (execute_complete fget _ _ (freached b (at_ i))); [|apply SQ, Li|exact Hi|exact Hy]. intros g u r Hu (Hg1 & Hg2) Hr. eapply fget_complete; assumption.
  - intros i t x Hi Hx. eapply ffactor_complete; eassumption.
  - exact R.
  - exact PA.
  - exact HL.
  - intros i c y Hb. destruct (HN _ _ _ Hb). split; [assumption|]. split; [|assumption]. rewrite <- HL. apply nth_error_Some. rewrite Hb. discriminate.
  - exact HW.
Qed.
End Loop.
End On.

Notation faceIntegral := (@faceIntegral A V P X J D Q M).
Notation integrateFace := (integrateFace zero mul vzero vadd vscale transposed determinant getPoint mapPoint l2Norm divide negate product getNumberOfPoints weight one times ofValue scaleBy axpy m).
Notation operateFaces := (operateFaces zero mul vzero vadd vscale transposed determinant getPoint mapPoint l2Norm divide negate product getNumberOfPoints weight one times ofValue scaleBy axpy m).
Notation operateFace := (operateFace zero mul vzero vadd vscale transposed determinant getPoint mapPoint l2Norm divide negate product getNumberOfPoints weight one times ofValue scaleBy axpy m).
Notation face_integral := (face_integral vzero vadd vscale transposed inverse determinant absolute getPoint mapPoint l2Norm divide negate product getNumberOfPoints weight one times ofValue scaleBy axpy m).
Notation foperation := (@faceOperation V P X J D Q M Y).

(** one of the two physical faces, after some operations *)
Definition kept (k : bool) (ts : nat -> option transformation) (l : list foperation) (s : fstate) : Prop :=
  exists c, freached k c s /\ by_unknown c = ts /\ forall f0, first_face c = Some f0 -> isInternal f0 = k /\ exists scaling p rule, In (IntegrateFace scaling f0 p rule) l.
Definition faces_kept ts l (t : faceIntegral) : Prop := kept true ts l (internalFace_ t) /\ kept false ts l (boundaryFace_ t).
Lemma kept_more k ts l o s : kept k ts l s -> kept k ts (l ++ [o]) s.
Proof. intros (c & R & E & H). exists c. split; [exact R|]. split; [exact E|]. intros f0 E0. destruct (H f0 E0) as (H1 & sc & p & r & H2). split; [exact H1|]. exists sc, p, r. apply in_or_app. now left. Qed.
Lemma kept_part t ts l (f : face) : faces_kept ts l t -> kept (isInternal f) ts l (if isInternal f then internalFace_ t else boundaryFace_ t).
Proof. intros (H1 & H2). destruct (isInternal f); assumption. Qed.

(** what setting the face gives *)
Lemma face_set ts l f s s1 : kept (isInternal f) ts l s -> setFace zero mul vzero mapPoint m f s = Some s1 ->
  exists c first, freached (isInternal f) c s1 /\ the_face c = Some f /\ first_face c = Some first /\ by_unknown c = ts /\
  (first = f \/ isInternal first = isInternal f /\ exists scaling p rule, In (IntegrateFace scaling first p rule) l).
Proof.
  intros (c & R & E & H) S. pose proof (freached_set _ _ _ (SetFace f) s1 R S) as R1. exists (face_follow c (FSet_ (SetFace f))). cbn [PhysicalFace_spec.face_follow] in *. destruct (first_face c) as [f0|] eqn:E0.
  - exists f0. split; [exact R1|]. split; [reflexivity|]. split; [reflexivity|]. split; [exact E|]. right. apply H. reflexivity.
  - exists f. split; [exact R1|]. auto.
Qed.
Lemma sizes_refl f : same_sizes m f f.
Proof. intros u n. tauto. Qed.

Section Rules.
Variable faceRule : face -> option Q.
Variable faceFits : Q -> face -> bool.
Lemma integrateFace_sound ts l t scaling f p rule q t' v : faces_kept ts l t -> same_functions m l f ->
  (match rule with Some q => Some q | None => faceRule f end) = Some q -> 0 < getNumberOfPoints q ->
  (forall i, i < getNumberOfPoints q -> only (fine mapPoint m (on_face f f q ts i)) p) ->
  integrateFace faceRule faceFits scaling f p rule t = Some (t', v) -> faceFits q f = true /\ face_integral ts scaling f p q v.
Proof.
  intros FK SF EQ Ln SQ H. unfold Integral_model.integrateFace in H. inv_bind H. rename x into s1. rewrite EQ in H. cbn [bind] in H. destruct (faceFits q f); [|discriminate]. split; [reflexivity|].
  inv_bind H. rename x into s2. inv_bind H. destruct x as [s3 y]. cbn [fst snd] in H. assert (v = y) as -> by (injection H; congruence).
  destruct (face_set ts l f _ s1 (kept_part t ts l f FK) E) as (c & first & R & F1 & F2 & F3 & F4).
  assert (SS : same_sizes m first f). { destruct F4 as [-> |(I1 & sc & p' & r & I2)]; [apply sizes_refl|]. exact (SF sc first p' r I2 I1). }
  destruct (frule_sound f first q ts c s1 s2 F1 F2 F3 R E0) as (R2 & P0). exact (floop_sound f first q ts SS p scaling s2 s3 y Ln R2 P0 SQ E1).
Qed.
Lemma integrateFace_complete ts l t scaling f p rule q v : faces_kept ts l t -> same_functions m l f -> face_present m f ->
  (match rule with Some q => Some q | None => faceRule f end) = Some q -> faceFits q f = true ->
  (forall i, i < getNumberOfPoints q -> only (sure_face_question mapPoint m (on_face f f q ts i)) p) ->
  face_integral ts scaling f p q v -> exists t', integrateFace faceRule faceFits scaling f p rule t = Some (t', v).
Proof.
  intros FK SF PR EQ Ft SQ H. unfold Integral_model.integrateFace. pose proof (kept_part t ts l f FK) as K. set (s := if isInternal f then internalFace_ t else boundaryFace_ t) in *. assert (K' := K). destruct K' as (c0 & R0 & T0 & _).
  assert (first0 : exists g, first_face c0 = None \/ first_face c0 = Some g) by (destruct (first_face c0) as [g|]; [exists g|exists f]; auto). destruct first0 as (g & Hg).
  destruct (setFace_complete f g ts PR c0 s Hg T0 R0) as (s1 & E). rewrite E. cbn [bind]. rewrite EQ. cbn [bind]. rewrite Ft.
  destruct (face_set ts l f _ s1 K E) as (c & first & R & F1 & F2 & F3 & F4).
  assert (SS : same_sizes m first f). { destruct F4 as [-> |(I1 & sc & p' & r & I2)]; [apply sizes_refl|]. exact (SF sc first p' r I2 I1). }
  assert (P0 : getPoint q 0 <> None) by (apply H; apply H).
  destruct (frule_complete f first q ts PR c s1 F1 F2 F3 R P0) as (s2 & E2 & R2). rewrite E2. cbn [bind]. destruct (floop_complete f first q ts SS PR p scaling s2 v R2 SQ H) as (s3 & E3). rewrite E3. cbn [bind]. eauto.
Qed.

Definition transforms_after ts (o : foperation) := match o with SetFaceTransformation t u => fun v => if v =? u then Some t else ts v | _ => ts end.
Lemma operateFace_kept o t t' ts l : faces_kept ts l t -> operateFace faceRule faceFits o t = Some t' -> faces_kept (transforms_after ts o) (l ++ [o]) t'.
Proof.
  intros FK H. destruct o as [h u|scaling f p rule]; cbn [Integral_model.operateFace] in H.
  - unfold setFaceTransformation in H. inv_bind H. inv_bind H. injection H as <-. destruct FK as (K1 & K2).
    assert (G : forall k s s', kept k ts l s -> setTransform zero mul h u s = Some s' -> kept k (transforms_after ts (SetFaceTransformation h u)) (l ++ [SetFaceTransformation h u]) s').
    { intros k s s' (c & R & E1 & HF) S. apply kept_more. exists (face_follow c (FSet_ (SetTransform h u))). split; [exact (freached_set _ _ _ (SetTransform h u) s' R S)|]. cbn. rewrite E1. auto. }
    split; cbn [internalFace_ boundaryFace_]; eapply G; eassumption.
  - inv_bind H. injection H as <-. destruct x as [t1 v]. cbn [fst]. unfold Integral_model.integrateFace in E. inv_bind E. rename x into s1. inv_bind E. rename x into q. destruct (faceFits q f); [|discriminate]. inv_bind E. rename x into s2. inv_bind E. destruct x as [s3 y]. cbn [fst snd] in E.
    assert (K : kept (isInternal f) ts (l ++ [IntegrateFace scaling f p rule]) s3).
    { destruct (face_set ts l f _ s1 (kept_part t ts l f FK) E0) as (c & first & R & F1 & F2 & F3 & F4). destruct (frule_sound f first q ts c s1 s2 F1 F2 F3 R E2) as (R2 & _).
      assert (G : exists i, freached (isInternal f) (on_face f first q ts i) s3).
      { assert (KL : exists n', 0 < n' /\ quadratureLoop scaleBy axpy n' (fsetQuadraturePointIndex zero mul getPoint mapPoint m) (execute fget p) (faceScaleFactor l2Norm weight one times ofValue scaling q) s2 = Some (s3, y)).
        { destruct (getNumberOfPoints q) as [|n]; [exists 1|exists (S n)]; (split; [lia|exact E3]). }
        destruct KL as (n' & Ln & E3'). exists (n' - 1).
        eapply (loop_sound scaleBy axpy _ _ _ (fun i s => freached (isInternal f) (on_face f first q ts i) s) (fun _ => True) (fun _ _ => True) (fun _ _ => True)) with (s := s2); [| | |exact Ln|exact R2|exact I|exact E3'].
        - intros i a a' Ha Hg. split; [|exact I]. eapply fgoto_sound; eassumption.
        - intros i a a' z Ha Hg. split; [|exact I]. eapply (execute_inv fget (freached (isInternal f) (on_face f first q ts i))); [|exact Ha|exact Hg]. intros g w w' r Hu Hr. eapply freached_get; eassumption.
        - intros i a a' z Ha Hg. split; [|exact I]. unfold Integral_model.faceScaleFactor in Hg. inv_bind Hg. destruct scaling; [|injection Hg as <- _; exact Ha]. inv_bind Hg. destruct x0 as [a1 d]. injection Hg as <- _. apply (freached_get _ _ a RelativeSurfaceArea a1 (FValue d) Ha). cbn. rewrite E5. reflexivity. }
      destruct G as (i & G). exists (on_face f first q ts i). split; [exact G|]. split; [reflexivity|]. cbn. intros f0 H0. injection H0 as <-. destruct F4 as [-> |(I1 & sc & p' & r & I2)].
      - split; [reflexivity|]. exists scaling, p, rule. apply in_or_app. right. now left.
      - split; [exact I1|]. exists sc, p', r. apply in_or_app. now left. }
    destruct FK as (K1 & K2). cbn [transforms_after]. destruct (isInternal f); injection E as <- _; split; cbn [internalFace_ boundaryFace_]; try exact K; apply kept_more; assumption.
Qed.
Lemma operateFaces_kept : forall l' l t t' ts, faces_kept ts l t -> operateFaces faceRule faceFits l' t = Some t' -> faces_kept (fold_left transforms_after l' ts) (l ++ l') t'.
Proof.
  induction l' as [|o l' IH]; intros l t t' ts FK H; cbn in H.
  - injection H as <-. rewrite app_nil_r. exact FK.
  - inv_bind H. rename x into t1. cbn [fold_left]. replace (l ++ o :: l') with ((l ++ [o]) ++ l') by (rewrite <- app_assoc; reflexivity). eapply IH; [|exact H]. eapply operateFace_kept; eassumption.
Qed.
Lemma faces_reach l t : operateFaces faceRule faceFits l (newFaceIntegral h1) = Some t -> faces_kept (face_transforms h1 l) l t.
Proof.
  intros H. apply (operateFaces_kept l [] (newFaceIntegral h1) t (fun u => match u with 0 => Some h1 | _ => None end)) in H; [exact H|].
  split; cbn [internalFace_ boundaryFace_ newFaceIntegral]; (exists (face_initially h1); split; [exists []; auto|]; split; [reflexivity|]; cbn; discriminate).
Qed.
End Rules.
End Face.
