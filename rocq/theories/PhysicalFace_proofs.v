(** The caches of a physical face follow its settings. *)
From Coq Require Import List Arith Lia Bool.
From Verif Require Import Loop_model Matrix_model ElementData_model PhysicalElement_model PhysicalElement_spec PhysicalElement_proofs
  PhysicalFace_model PhysicalFace_spec.
Import ListNotations.

Section Proofs.
Context {A V P X J D Q M : Type}.
Variable zero : A.
Variable mul : A -> A -> A.
Variable vzero : V.
Variable vadd : V -> V -> V.
Variable vscale : A -> V -> V.
Variable transposed inverse : J -> J.
Variable determinant : J -> D.
Variable absolute : D -> D.
Variable getPoint : Q -> nat -> option P.
Variable mapPoint : M -> P -> P.
Variable l2Norm : V -> V.
Variable divide : V -> V -> V.
Variable negate : V -> V.
Variable product : normalKind -> V -> V -> V.
Notation element := (@element A V P X J Q M).
Notation pstate := (@PhysicalElement_model.state A V P X J D Q M).
Notation transformation := (@transformation V J D).
Notation memory := (@memory A V P X J Q M).
Notation pe_settings := (@settings V P J D Q M).
Notation face := (@face V P J M).
Notation fstate := (@fstate A V P X J D Q M).
Notation face_settings := (@face_settings V P J D Q M).
Notation point_of := (point_of getPoint mapPoint).
Notation face_point := (face_point getPoint).
Notation peinv := (inv vzero vadd vscale transposed inverse determinant absolute getPoint mapPoint).
Variable m : memory.
Variable h1 : transformation.
Variable internal : bool.

(** *** the physical elements *)
Definition vdenote (c : pe_settings) (k : kind) (u i : nat) : option V :=
  b <- on c; e <- m b; w <- where_ c; p <- point_of w; right_function transposed determinant c e p w k u i.
Definition even_element (c : pe_settings) : Prop := equal_counts m c.
Definition works (c : pe_settings) : Prop := unchanged c = true \/ on c = None.

Lemma denote_value : forall c k u i, denote vzero vadd vscale transposed inverse determinant absolute getPoint mapPoint m c (BasisFunctionOf k i u)
  = option_map AValue (vdenote c k u i).
Proof.
  intros c k u i. unfold denote, vdenote. destruct (on c) as [b|]; [|reflexivity]. cbn [bind]. destruct (m b); [|reflexivity]. cbn [bind].
  destruct (where_ c) as [w|]; [|reflexivity]. cbn [bind]. destruct (point_of w); reflexivity.
Qed.
Lemma denote_shared : forall c k i, denote vzero vadd vscale transposed inverse determinant absolute getPoint mapPoint m c (BasisFunction k i)
  = option_map AValue (vdenote c k 0 i).
Proof. intros. exact (denote_value c k 0 i). Qed.

Lemma get_inv : forall c g s s' a, peinv m c s -> asks g ->
  get vzero vadd vscale transposed inverse determinant absolute m g s = Some (s', a) -> peinv m c s'.
Proof.
  intros c g s s' a (F & U) K H. split.
  - exact (frame_core _ _ _ _ _ (get_core _ _ _ _ _ _ _ _ _ _ _ _ K H) F).
  - intro E. specialize (U E). destruct (get_right _ _ _ _ _ _ _ _ _ m c g s F U K) as (R & _). destruct (R _ H) as (b & _ & _ & S). exact S.
Qed.

Lemma no_element : forall c s, peinv m c s -> on c = None -> ready m s = None.
Proof. intros c s ([F _ _] & _) E. unfold ready. rewrite F, E. reflexivity. Qed.

Lemma element_sim : forall c s uo k i, peinv m c s -> works c ->
  sim (uo = None -> even_element c) (fun q v => snd q = v /\ peinv m c (fst q))
    (elementFunction transposed determinant m uo k i s) (vdenote c k (index uo) i).
Proof.
  intros c s uo k i I W. destruct W as [W|W].
  2:{ assert (E : elementFunction transposed determinant m uo k i s = None).
      { pose proof (no_element c s I W) as N. destruct uo; cbn; [unfold basisFunctionOf|unfold basisFunction]; now rewrite N. }
      rewrite E. unfold vdenote. rewrite W. apply sim_none. }
  set (g := match uo with Some u => BasisFunctionOf k i u | None => BasisFunction k i end).
  assert (K : asks g) by (destruct uo; exact Logic.I).
  assert (Eg : get vzero vadd vscale transposed inverse determinant absolute m g s = answered AValue (elementFunction transposed determinant m uo k i s))
    by (destruct uo; reflexivity).
  assert (Ed : denote vzero vadd vscale transposed inverse determinant absolute getPoint mapPoint m c g = option_map AValue (vdenote c k (index uo) i))
    by (destruct uo; [apply denote_value|apply denote_shared]).
  assert (L : (uo = None -> even_element c) -> legal m c g) by (unfold g; destruct uo; cbn; [intros _; exact Logic.I|intro HH; exact (HH eq_refl)]).
  pose proof I as (F & U). destruct (get_right _ _ _ _ _ _ _ _ _ m c g s F (U W) K) as (R1 & R2). split.
  - intros [s' v] E. rewrite E in Eg. cbn in Eg. destruct (R1 _ Eg) as (b & Eb & Es & _). cbn in Es. subst b. rewrite Ed in Eb.
    destruct (vdenote c k (index uo) i) as [y|]; [|discriminate]. injection Eb as ->. exists v. split; [reflexivity|]. split; [reflexivity|].
    exact (get_inv _ _ _ _ _ I K Eg).
  - intros B v Ev. rewrite Ev in Ed. cbn in Ed. destruct (R2 (L B) _ Ed) as ([s' a] & Es & Ea & _). cbn in Ea. subst a.
    rewrite Eg in Es. destruct (elementFunction transposed determinant m uo k i s) as [[s1 v1]|]; [|discriminate]. injection Es as <- ->.
    exists (s1, v). split; [reflexivity|]. split; [reflexivity|]. refine (get_inv c g s s1 (AValue v) I K _). rewrite Eg. reflexivity.
Qed.

(** *** the settings *)
Definition place' (f : face) (d : side) (w : @face_place V P J Q M) : @place P Q M :=
  match w with
  | AtPoint p => Point (mapPoint (match d with LeftSide => refFaceToRefElemMapL f | RightSide => refFaceToRefElemMapR f end) p)
  | AtRule q i f' => FaceRule q i (match d with LeftSide => refFaceToRefElemMapL f' | RightSide => refFaceToRefElemMapR f' end)
  end.
Definition actual (c : face_settings) (d : side) : pe_settings :=
  match the_face c with
  | None => Settings None None (by_unknown c) false
  | Some f => Settings (element_of_side f d) (option_map (place' f d) (place_on c)) (by_unknown c) true
  end.
Definition actual_right (c : face_settings) : pe_settings := if internal then actual c RightSide else initially h1.
Definition actual_on (c : face_settings) (d : side) : pe_settings := match d with LeftSide => actual c LeftSide | RightSide => actual_right c end.

Record skel (c : face_settings) (s : fstate) : Prop := {
  sk_internal : isInternal_ s = internal;
  sk_face : face_ s = the_face c;
  sk_rule : fquadratureRule_ s = option_map fst (rule_for c);
  sk_mapL : mapToLeftElement s = option_map (fun x => refFaceToRefElemMapL (snd x)) (rule_for c);
  sk_mapR : internal = true -> mapToRightElement s = option_map (fun x => refFaceToRefElemMapR (snd x)) (rule_for c);
  sk_transform : forall u, join (nth_error (ftransform_ s) u) = by_unknown c u;
  sk_first : first_face c = None <-> the_face c = None;
  sk_sizes : forall f0, first_face c = Some f0 -> exists e0 rows, m (ptrElementLeft f0) = Some e0 /\ nLeftBasisFunctions s = nb (edata e0) /\
    rowSizes m f0 = Some rows /\ forall nk, map (@length V) (normals s nk) = rows;
  sk_glue : forall f, the_face c = Some f -> leftRightTransform f = Some (rightVectorTransform s) /\ internal = isInternal f /\ exists e, m (ptrElementLeft f) = Some e }.

Definition face_point_on (c : face_settings) : option P := w <- place_on c; face_point w.
Record normal_right (c : face_settings) (s : fstate) : Prop := {
  nr_normal : forall v, normal s = Some v -> exists f p, the_face c = Some f /\ face_point_on c = Some p /\ v = normalVector f p;
  nr_unit : forall v, unitNormal s = Some v -> exists f p, the_face c = Some f /\ face_point_on c = Some p /\ v = divide (normalVector f p) (l2Norm (normalVector f p));
  nr_norm : forall v, normalNorm s = Some v -> exists f p, the_face c = Some f /\ face_point_on c = Some p /\ v = l2Norm (normalVector f p) }.

Record base (c : face_settings) (s : fstate) : Prop := {
  ba_skel : skel c s;
  ba_point : fpointReference_ s = face_point_on c;
  ba_valid : forall w, place_on c = Some w -> face_point w <> None;
  ba_noplace : the_face c = None -> place_on c = None;
  ba_left : peinv m (actual c LeftSide) (left s);
  ba_right : peinv m (actual_right c) (right s);
  ba_normal : normal_right c s }.

Definition rest (s : fstate) := (normals s, hasNormals s, lazies s).

Lemma actual_works : forall c d, internal = true \/ d = LeftSide -> (forall f, the_face c = Some f -> internal = isInternal f) -> works (actual c d).
Proof. intros c d _ _. unfold works, actual. destruct (the_face c); cbn; auto. Qed.
Lemma on_works : forall c d, works (actual_on c d).
Proof. intros c []; unfold works, actual_on, actual_right, actual; [|destruct internal]; destruct (the_face c); cbn; auto. Qed.

(** *** the functions of the two sides *)
Definition glued (c : face_settings) (k : kind) (u : nat) (v : V) : option V :=
  f <- the_face c; o <- leftRightTransform f;
  match o with None => Some v | Some j => t <- by_unknown c u; perform_with transposed determinant j (t k v) end.
Definition svalue (c : face_settings) (d : side) (k : kind) (u i : nat) : option V :=
  match d with
  | LeftSide => vdenote (actual c LeftSide) k u i
  | RightSide => v <- vdenote (actual_right c) k u i; glued c k u v
  end.
Definition nleft (c : face_settings) (u : nat) : option nat := f0 <- first_face c; e0 <- m (ptrElementLeft f0); nth_error (nb (edata e0)) u.
Definition fvalue (c : face_settings) (k : kind) (u i : nat) : option V :=
  n <- nleft c u; if i <? n then svalue c LeftSide k u i else svalue c RightSide k u (i - n).

Definition even_sides (c : face_settings) : Prop := forall d, even_element (actual_on c d).
Definition both (uo : option nat) (c : face_settings) : Prop := uo = None -> even_sides c.

Lemma with_left_base : forall c s l, base c s -> peinv m (actual c LeftSide) l -> base c (with_left s l).
Proof. intros c s l [[] ? ? ? ? ? []] H. split; try assumption; split; assumption. Qed.
Lemma with_right_base : forall c s r, base c s -> peinv m (actual_right c) r -> base c (with_right s r).
Proof. intros c s r [[] ? ? ? ? ? []] H. split; try assumption; split; assumption. Qed.

Definition keeps_base c s (q : fstate) : Prop := base c q /\ rest q = rest s.

Lemma join_bind : forall (l : list (option transformation)) u Y (f : transformation -> option Y),
  (t <- nth_error l u; t <- t; f t) = (t <- join (nth_error l u); f t).
Proof. intros. destruct (nth_error l u) as [[t|]|]; reflexivity. Qed.

Lemma left_sim : forall c s uo k i, base c s ->
  sim (both uo c) (fun q v => snd q = v /\ keeps_base c s (fst q)) (leftFunction transposed determinant m uo k i s) (svalue c LeftSide k (index uo) i).
Proof.
  intros c s uo k i B. unfold leftFunction, svalue.
  destruct (element_sim (actual c LeftSide) (left s) uo k i (ba_left _ _ B) (on_works c LeftSide)) as (R1 & R2). split.
  - intros [s' v] E. destruct (elementFunction _ _ _ _ _ _ _) as [q|] eqn:Eq; [|discriminate]. cbn in E. injection E as <- <-.
    destruct (R1 _ eq_refl) as (b & Eb & Es & Ei). exists b. split; [exact Eb|]. split; [exact Es|]. split; [now apply with_left_base|reflexivity].
  - intros K v Ev. destruct (R2 (fun e => K e LeftSide) v Ev) as (q & Eq & Es & Ei). rewrite Eq. cbn [bind]. eexists. split; [reflexivity|].
    split; [exact Es|]. split; [now apply with_left_base|reflexivity].
Qed.
Lemma right_sim : forall c s uo k i, base c s ->
  sim (both uo c) (fun q v => snd q = v /\ keeps_base c s (fst q)) (rightFunction transposed determinant m uo k i s) (svalue c RightSide k (index uo) i).
Proof.
  intros c s uo k i B. unfold rightFunction, svalue.
  destruct (element_sim (actual_right c) (right s) uo k i (ba_right _ _ B) (on_works c RightSide)) as (R1 & R2).
  assert (G : forall v, vdenote (actual_right c) k (index uo) i = Some v -> carried transposed determinant s k (index uo) v = glued c k (index uo) v).
  { intros v Ev. unfold carried, glued. destruct (the_face c) as [f|] eqn:Ef.
    - destruct (sk_glue _ _ (ba_skel _ _ B) f Ef) as (Eg & _). cbn [bind]. rewrite Eg. cbn [bind]. destruct (rightVectorTransform s) as [j|]; [|reflexivity].
      rewrite join_bind, (sk_transform _ _ (ba_skel _ _ B)). reflexivity.
    - exfalso. unfold vdenote, actual_right, actual in Ev. rewrite Ef in Ev. destruct internal; discriminate Ev. }
  split.
  - intros [s' v] E. destruct (elementFunction _ _ _ _ _ _ _) as [q|] eqn:Eq; [|discriminate]. cbn [bind] in E.
    destruct (R1 _ eq_refl) as (b & Eb & Es & Ei). rewrite Es, (G _ Eb) in E. destruct (glued c k (index uo) b) as [y|] eqn:Ey; [|discriminate].
    cbn in E. injection E as <- <-. rewrite Eb. cbn [bind]. exists y. split; [exact Ey|]. split; [reflexivity|]. split; [now apply with_right_base|reflexivity].
  - intros K v Ev. destruct (vdenote (actual_right c) k (index uo) i) as [x|] eqn:Ex; [|discriminate]. cbn [bind] in Ev.
    destruct (R2 (fun e => K e RightSide) x eq_refl) as (q & Eq & Es & Ei). rewrite Eq. cbn [bind]. rewrite Es, (G _ eq_refl), Ev. cbn [bind].
    eexists. split; [reflexivity|]. split; [reflexivity|]. split; [now apply with_right_base|reflexivity].
Qed.

Lemma sim_both : forall (S T : Type) (b b' : Prop) (R : S -> T -> Prop) x y, sim b R x y -> (b' -> b) -> sim b' R x y.
Proof. intros S T b b' R x y H K. exact (sim_imp _ _ _ _ _ K H). Qed.

Lemma no_place : forall c d k u i, place_on c = None -> svalue c d k u i = None.
Proof.
  intros c d k u i H. assert (E : forall c', where_ c' = None -> vdenote c' k u i = None).
  { intros c' W. unfold vdenote. destruct (on c') as [b|]; [|reflexivity]. cbn [bind]. destruct (m b); [|reflexivity]. cbn [bind]. now rewrite W. }
  destruct d; cbn [svalue]; [|unfold actual_right; destruct internal].
  - apply E. unfold actual. rewrite H. now destruct (the_face c).
  - rewrite E; [reflexivity|]. unfold actual. rewrite H. now destruct (the_face c).
  - reflexivity.
Qed.
Lemma no_face : forall c s, base c s -> the_face c = None -> place_on c = None.
Proof. intros c s B. exact (ba_noplace _ _ B). Qed.

Lemma located_none : forall c s, base c s -> located s = None -> place_on c = None.
Proof.
  intros c s B H. unfold located in H. rewrite (sk_face _ _ (ba_skel _ _ B)) in H. destruct (the_face c) as [f|] eqn:Ef; [|exact (ba_noplace _ _ B Ef)].
  cbn [bind] in H. rewrite (ba_point _ _ B) in H. unfold face_point_on in H. destruct (place_on c) as [w|] eqn:Ew; [|reflexivity].
  cbn [bind] in H. destruct (face_point w) eqn:E; [discriminate|]. now apply (ba_valid _ _ B) in Ew.
Qed.
Lemma located_some : forall c s fp, base c s -> located s = Some fp -> the_face c = Some (fst fp) /\ face_point_on c = Some (snd fp) /\ place_on c <> None.
Proof.
  intros c s fp B H. unfold located in H. rewrite (sk_face _ _ (ba_skel _ _ B)), (ba_point _ _ B) in H.
  destruct (the_face c) as [f|] eqn:Ef; [|discriminate]. cbn [bind] in H. destruct (face_point_on c) as [p|] eqn:Ep; [|discriminate]. injection H as <-.
  cbn. repeat split. unfold face_point_on in Ep. destruct (place_on c); [discriminate|discriminate Ep].
Qed.

Lemma nleft_state : forall c s u, base c s -> the_face c <> None -> nth_error (nLeftBasisFunctions s) u = nleft c u.
Proof.
  intros c s u B F. unfold nleft. destruct (first_face c) as [f0|] eqn:E.
  - destruct (sk_sizes _ _ (ba_skel _ _ B) f0 E) as (e0 & rows & E1 & -> & _). cbn [bind]. rewrite E1. reflexivity.
  - exfalso. apply F. now apply (sk_first _ _ (ba_skel _ _ B)).
Qed.

Lemma face_sim : forall c s uo k i, base c s ->
  sim (both uo c) (fun q v => snd q = v /\ keeps_base c s (fst q)) (faceFunction transposed determinant m uo k i s) (fvalue c k (index uo) i).
Proof.
  intros c s uo k i B. unfold faceFunction, fvalue. destruct (located s) as [fp|] eqn:El; cbn [bind].
  - destruct (located_some _ _ _ B El) as (Ef & _ & _). rewrite (nleft_state c s _ B) by congruence.
    destruct (nleft c (index uo)) as [n|]; cbn [bind]; [|apply sim_none]. destruct (i <? n); [now apply left_sim|].
    rewrite (sk_internal _ _ (ba_skel _ _ B)). destruct internal eqn:Ei; [now apply right_sim|].
    unfold svalue, actual_right. rewrite Ei. apply sim_none.
  - apply (located_none _ _ B) in El. destruct (nleft c (index uo)) as [n|]; cbn [bind]; [|apply sim_none].
    destruct (i <? n); rewrite no_place by exact El; apply sim_none.
Qed.
Lemma side_sim : forall c s d uo k i, base c s ->
  sim (both uo c) (fun q v => snd q = v /\ keeps_base c s (fst q)) (sideFunction transposed determinant m d uo k i s) (svalue c d k (index uo) i).
Proof.
  intros c s d uo k i B. unfold sideFunction. destruct (located s) as [fp|] eqn:El; cbn [bind].
  - destruct d; [now apply left_sim|]. rewrite (sk_internal _ _ (ba_skel _ _ B)). destruct internal eqn:Ei; [now apply right_sim|].
    unfold svalue, actual_right. rewrite Ei. apply sim_none.
  - apply (located_none _ _ B) in El. rewrite no_place by exact El. apply sim_none.
Qed.

(** *** derivatives *)
Definition flist (c : face_settings) (k : kind) (u : nat) : option (list V) :=
  f <- the_face c; n <- getNumberOfBasisFunctions m (Some u) f; _ <- nleft c u; collect n (fvalue c k u).

Lemma compute_sim : forall c s k u, base c s ->
  sim True (fun q l => snd q = l /\ keeps_base c s (fst q)) (computeAll transposed determinant m k u s) (flist c k u).
Proof.
  intros c s k u B. unfold computeAll, flist. rewrite (sk_face _ _ (ba_skel _ _ B)). destruct (the_face c) as [f|] eqn:Ef; cbn [bind]; [|apply sim_none].
  destruct (getNumberOfBasisFunctions m (Some u) f) as [n|]; cbn [bind]; [|apply sim_none].
  rewrite (nleft_state c s u B) by congruence. destruct (nleft c u) as [nl|] eqn:En; cbn [bind]; [|apply sim_none].
  unfold collect, for_loop. apply (sim_for True n 0 (fun _ (q : fstate * list V) l => snd q = l /\ keeps_base c s (fst q))).
  - intros i [s1 l1] l _ (El & B2 & R2). cbn [fst snd] in *. subst l1.
    assert (K : sim True (fun q v => snd q = v /\ keeps_base c s (fst q))
      (if i <? nl then leftFunction transposed determinant m (Some u) k i s1 else rightFunction transposed determinant m (Some u) k (i - nl) s1) (fvalue c k u i)).
    { unfold fvalue. rewrite En. cbn [bind]. destruct (i <? nl).
      - refine (sim_weaken _ _ _ _ _ _ (sim_both _ _ _ _ _ _ _ (left_sim c s1 (Some u) k i B2) _)); [|intros _ H; discriminate].
        intros a b (? & ? & ?). split; [assumption|]. split; [assumption|congruence].
      - refine (sim_weaken _ _ _ _ _ _ (sim_both _ _ _ _ _ _ _ (right_sim c s1 (Some u) k (i - nl) B2) _)); [|intros _ H; discriminate].
        intros a b (? & ? & ?). split; [assumption|]. split; [assumption|congruence]. }
    match goal with |- sim _ _ _ (match ?y with _ => _ end) => change (sim True (fun (q : fstate * list V) l0 => snd q = l0 /\ keeps_base c s (fst q))
      (bind (if i <? nl then leftFunction transposed determinant m (Some u) k i s1 else rightFunction transposed determinant m (Some u) k (i - nl) s1)
        (fun r => Some (fst r, l ++ [snd r]))) (bind y (fun x => Some (l ++ [x])))) end.
    refine (sim_bind _ _ _ _ _ _ _ K _). intros q v _ _ (Ev & Bq & Rq). apply sim_some. cbn. rewrite Ev. exact (conj eq_refl (conj Bq Rq)).
  - exact (conj eq_refl (conj B eq_refl)).
Qed.

(** *** the caches *)
Record caches (c : face_settings) (s : fstate) : Prop := {
  ca_lazies : forall k u l, nth_error (lazies s k) u = Some (Some l) -> flist c k u = Some l;
  ca_lengths : forall f e, the_face c = Some f -> m (ptrElementLeft f) = Some e ->
    (forall k, length (lazies s k) = unknowns e) /\ forall nk, length (hasNormals s nk) = unknowns e }.

Lemma caches_rest : forall c s s', rest s' = rest s -> caches c s -> caches c s'.
Proof.
  intros c s s' E [H1 H2]. unfold rest in E. injection E as E1 E2 E3. split; rewrite ?E3.
  - exact H1.
  - intros f e F G. rewrite E2. exact (H2 f e F G).
Qed.
Lemma with_lazies_base : forall c s l, base c s -> base c (with_lazies s l).
Proof. intros c s l [[] ? ? ? ? ? []]. split; try assumption; split; assumption. Qed.

Definition lvalue (c : face_settings) (k : kind) (u i : nat) : option V := l <- flist c k u; nth_error l i.

Lemma flist_face : forall c k u l, flist c k u = Some l -> exists f, the_face c = Some f.
Proof. intros c k u l H. unfold flist in H. destruct (the_face c) as [f|]; [now exists f|discriminate]. Qed.
Lemma flist_unknown : forall c k u l f e, flist c k u = Some l -> the_face c = Some f -> m (ptrElementLeft f) = Some e -> u < unknowns e.
Proof.
  intros c k u l f e H F G. unfold flist in H. rewrite F in H. cbn [bind] in H. unfold getNumberOfBasisFunctions in H. rewrite G in H.
  cbn [bind elementNumber] in H. destruct (nth_error (nb (edata e)) u) eqn:E; [|discriminate]. apply nth_error_Some. congruence.
Qed.

Lemma lazy_sim : forall c s u k i, base c s -> caches c s ->
  sim True (fun q v => snd q = v /\ base c (fst q) /\ caches c (fst q) /\ normals (fst q) = normals s /\ hasNormals (fst q) = hasNormals s)
    (lazyFunction transposed determinant m u k i s) (lvalue c k u i).
Proof.
  intros c s u k i B C. unfold lazyFunction, lvalue. destruct (nth_error (lazies s k) u) as [[l|]|] eqn:E; cbn [bind].
  - rewrite (ca_lazies _ _ C k u l E). cbn [bind]. destruct (nth_error l i) as [v|]; cbn [bind]; [|apply sim_none].
    apply sim_some. exact (conj eq_refl (conj B (conj C (conj eq_refl eq_refl)))).
  - refine (sim_bind _ _ _ _ _ _ _ (compute_sim c s k u B) _). intros [s1 l1] l _ Fl (El & B1 & R1). cbn [fst snd] in *. subst l1.
    unfold rest in R1. injection R1 as N1 H1 L1. rewrite L1.
    destruct (write_ok (lazies s k) u (Some l)) as (w & Ew); [apply nth_error_Some; congruence|]. rewrite Ew. cbn [bind].
    destruct (nth_error l i) as [v|]; cbn [bind]; [|apply sim_none]. apply sim_some. cbn [fst snd].
    split; [reflexivity|]. split; [now apply with_lazies_base|]. split; [|split; assumption].
    destruct (write_nth _ _ _ _ Ew) as (W1 & W2 & W3 & W4). destruct C as [C1 C2]. split; cbn.
    + intros k' u' l' E'. destruct (kind_dec k' k) as [->|N].
      * rewrite at_kind_same in E'. destruct (Nat.eq_dec u' u) as [->|N]; [rewrite W3 in E'; injection E' as <-; exact Fl|].
        rewrite W4 in E' by exact N. exact (C1 _ _ _ E').
      * rewrite at_kind_other in E' by exact N. exact (C1 _ _ _ E').
    + intros f e F G. destruct (C2 f e F G) as (D1 & D2). split; [|intro nk; rewrite H1; exact (D2 nk)].
      intro k'. destruct (kind_dec k' k) as [->|N]; [rewrite at_kind_same, W1; apply D1|rewrite at_kind_other by exact N; apply D1].
  - assert (F : flist c k u = None); [|rewrite F; apply sim_none]. destruct (flist c k u) as [l|] eqn:Fl; [|reflexivity]. exfalso.
    destruct (flist_face _ _ _ _ Fl) as (f & Ef). destruct (sk_glue _ _ (ba_skel _ _ B) f Ef) as (_ & _ & e & Ee).
    pose proof (flist_unknown _ _ _ _ _ _ Fl Ef Ee) as L. destruct (ca_lengths _ _ C f e Ef Ee) as (D1 & _). rewrite <- (D1 k) in L.
    apply nth_error_Some in L. contradiction.
Qed.

Definition lside (c : face_settings) (d : side) (k : kind) (u i : nat) : option V :=
  match d with LeftSide => lvalue c k u i | RightSide => n <- nleft c u; lvalue c k u (i + n) end.
Lemma lazy_side_sim : forall c s d u k i, base c s -> caches c s ->
  sim True (fun q v => snd q = v /\ base c (fst q) /\ caches c (fst q) /\ normals (fst q) = normals s /\ hasNormals (fst q) = hasNormals s)
    (lazySideFunction transposed determinant m d u k i s) (lside c d k u i).
Proof.
  intros c s [] u k i B C; cbn [lazySideFunction lside]; [now apply lazy_sim|].
  destruct (the_face c) as [f|] eqn:Ef.
  - rewrite (nleft_state c s u B) by congruence. destruct (nleft c u) as [n|]; cbn [bind]; [now apply lazy_sim|apply sim_none].
  - assert (N : nleft c u = None). { unfold nleft. destruct (first_face c) eqn:E; [|reflexivity]. apply (sk_first _ _ (ba_skel _ _ B)) in Ef. congruence. }
    rewrite N. cbn [bind]. split; [|discriminate]. intros q Hq. exfalso.
    destruct (nth_error (nLeftBasisFunctions s) u) as [n|]; [|discriminate]. cbn [bind] in Hq.
    destruct (lazy_sim c s u k (i + n) B C) as (R & _). destruct (R _ Hq) as (b & Eb & _). unfold lvalue, flist in Eb. rewrite Ef in Eb. discriminate.
Qed.

(** *** normal vectors *)
Definition ndenote (c : face_settings) (nk : normalKind) : option V :=
  f <- the_face c; p <- face_point_on c;
  Some (match nk with Normal | NormalCross => normalVector f p | UnitNormal | UnitNormalCross => divide (normalVector f p) (l2Norm (normalVector f p)) end).

Lemma with_normal_base : forall c s n u a, base c s -> normal_right c (with_normal s n u a) -> base c (with_normal s n u a).
Proof. intros c s n u a [[] ? ? ? ? ? []] H. split; try assumption; split; assumption. Qed.

Lemma ndenote_located : forall c s fp nk, base c s -> located s = Some fp -> ndenote c nk = Some (match nk with Normal | NormalCross => normalVector (fst fp) (snd fp)
   | UnitNormal | UnitNormalCross => divide (normalVector (fst fp) (snd fp)) (l2Norm (normalVector (fst fp) (snd fp))) end).
Proof. intros c s fp nk B L. destruct (located_some _ _ _ B L) as (F & E & _). unfold ndenote. rewrite F. cbn [bind]. rewrite E. reflexivity. Qed.
Lemma ndenote_none : forall c s nk, base c s -> located s = None -> ndenote c nk = None.
Proof.
  intros c s nk B L. apply (located_none _ _ B) in L. unfold ndenote, face_point_on. rewrite L. now destruct (the_face c).
Qed.
Lemma located_base : forall c s s', base c s -> base c s' -> located s' = located s.
Proof.
  intros c s s' B B'. unfold located. rewrite (sk_face _ _ (ba_skel _ _ B)), (sk_face _ _ (ba_skel _ _ B')), (ba_point _ _ B), (ba_point _ _ B'). reflexivity.
Qed.

Lemma normal_value : forall c s fp, base c s -> located s = Some fp ->
  exists s', getNormalVector s = Some (s', normalVector (fst fp) (snd fp)) /\ keeps_base c s s'.
Proof.
  intros c s fp B L. unfold getNormalVector. rewrite L. cbn [bind]. destruct (located_some _ _ _ B L) as (F & E & _). destruct (normal s) as [v|] eqn:En.
  - destruct (nr_normal _ _ (ba_normal _ _ B) v En) as (f & p & F' & E' & ->). rewrite F in F'. injection F' as <-. rewrite E in E'. injection E' as <-.
    exists s. split; [reflexivity|]. split; [exact B|reflexivity].
  - eexists. split; [reflexivity|]. split; [|reflexivity]. apply with_normal_base; [exact B|]. destruct (ba_normal _ _ B) as [H1 H2 H3]. split; cbn; auto.
    intros v Ev. injection Ev as <-. eauto.
Qed.
Lemma area_value : forall c s fp, base c s -> located s = Some fp ->
  exists s', getRelativeSurfaceArea l2Norm s = Some (s', l2Norm (normalVector (fst fp) (snd fp))) /\ keeps_base c s s'.
Proof.
  intros c s fp B L. unfold getRelativeSurfaceArea. rewrite L. cbn [bind]. destruct (located_some _ _ _ B L) as (F & E & _). destruct (normalNorm s) as [v|] eqn:En.
  - destruct (nr_norm _ _ (ba_normal _ _ B) v En) as (f & p & F' & E' & ->). rewrite F in F'. injection F' as <-. rewrite E in E'. injection E' as <-.
    exists s. split; [reflexivity|]. split; [exact B|reflexivity].
  - destruct (normal_value c s fp B L) as (s1 & -> & B1 & R1). cbn [bind fst snd]. eexists. split; [reflexivity|]. split; [|exact R1].
    apply with_normal_base; [exact B1|]. destruct (ba_normal _ _ B1) as [H1 H2 H3]. split; cbn; auto. intros v Ev. injection Ev as <-. eauto.
Qed.
Lemma unit_value : forall c s fp, base c s -> located s = Some fp ->
  exists s', getUnitNormalVector l2Norm divide s = Some (s', divide (normalVector (fst fp) (snd fp)) (l2Norm (normalVector (fst fp) (snd fp)))) /\ keeps_base c s s'.
Proof.
  intros c s fp B L. unfold getUnitNormalVector. rewrite L. cbn [bind]. destruct (located_some _ _ _ B L) as (F & E & _). destruct (unitNormal s) as [v|] eqn:En.
  - destruct (nr_unit _ _ (ba_normal _ _ B) v En) as (f & p & F' & E' & ->). rewrite F in F'. injection F' as <-. rewrite E in E'. injection E' as <-.
    exists s. split; [reflexivity|]. split; [exact B|reflexivity].
  - destruct (normal_value c s fp B L) as (s1 & -> & B1 & R1). cbn [bind fst snd].
    destruct (area_value c s1 fp B1) as (s2 & -> & B2 & R2); [rewrite (located_base _ _ _ B B1); exact L|]. cbn [bind fst snd].
    eexists. split; [reflexivity|]. split; [|transitivity (rest s1); assumption].
    apply with_normal_base; [exact B2|]. destruct (ba_normal _ _ B2) as [H1 H2 H3]. split; cbn; auto. intros v Ev. injection Ev as <-. eauto.
Qed.
Lemma normal_sim : forall c s nk, base c s ->
  sim True (fun q v => snd q = v /\ keeps_base c s (fst q)) (normal_of l2Norm divide nk s) (ndenote c nk).
Proof.
  intros c s nk B. destruct (located s) as [fp|] eqn:L.
  - rewrite (ndenote_located _ _ _ _ B L).
    destruct nk; cbn [normal_of]; [destruct (normal_value c s fp B L) as (s1 & -> & K)|destruct (unit_value c s fp B L) as (s1 & -> & K)
      |destruct (normal_value c s fp B L) as (s1 & -> & K)|destruct (unit_value c s fp B L) as (s1 & -> & K)]; apply sim_some; exact (conj eq_refl K).
  - rewrite (ndenote_none _ _ _ B L). assert (N : normal_of l2Norm divide nk s = None); [|rewrite N; apply sim_none].
    destruct nk; cbn [normal_of]; [unfold getNormalVector|unfold getUnitNormalVector|unfold getNormalVector|unfold getUnitNormalVector]; now rewrite L.
Qed.

(** *** products with the normal vector *)
Definition used (nk : normalKind) (u : nat) : nat := match nk with Normal | UnitNormal => 0 | NormalCross | UnitNormalCross => u end.
Definition nitem (c : face_settings) (nk : normalKind) (u j : nat) : option V :=
  v <- ndenote c nk; b <- fvalue c (kind_of nk) (used nk u) j; n <- nleft c u;
  Some (if n <=? j then negate (product nk v b) else product nk v b).
Definition nlist (c : face_settings) (nk : normalKind) (u : nat) : option (list V) :=
  f <- the_face c; n <- getNumberOfBasisFunctions m (Some u) f; collect n (nitem c nk u).

Definition normals_right (c : face_settings) (s : fstate) : Prop :=
  orderly m c -> forall nk u, nth_error (hasNormals s nk) u = Some true ->
  exists vs, nlist c nk u = Some vs /\ nth_error (normals s nk) u = Some vs.

Lemma set2_nth {Y} : forall (l : list (list Y)) u i y l', set2 l u i y = Some l' ->
  exists r r', nth_error l u = Some r /\ write r i y = Some r' /\ nth_error l' u = Some r' /\ length l' = length l /\
  (forall u', u' <> u -> nth_error l' u' = nth_error l u').
Proof.
  intros l u i y l' H. unfold set2 in H. destruct (nth_error l u) as [r|] eqn:E; [|discriminate]. cbn [bind] in H.
  destruct (write r i y) as [r'|] eqn:W; [|discriminate]. cbn [bind] in H. destruct (write_nth _ _ _ _ H) as (L & _ & N & O).
  exists r, r'. auto.
Qed.
Lemma set2_lengths {Y} : forall (l : list (list Y)) u i y l', set2 l u i y = Some l' -> map (@length Y) l' = map (@length Y) l.
Proof.
  intros l u i y l' H. destruct (set2_nth _ _ _ _ _ H) as (r & r' & E & W & E' & L & O). apply write_nth in W. destruct W as (Lw & _).
  apply Loop_proofs.nth_error_ext_le; [rewrite !map_length; lia|]. intros j _. rewrite !nth_error_map. destruct (Nat.eq_dec j u) as [->|N].
  - rewrite E, E'. cbn. now rewrite Lw.
  - now rewrite O.
Qed.
Lemma at_normal_same {Y} : forall (f : normalKind -> Y) k y, at_normal f k y k = y.
Proof. intros f [] y; reflexivity. Qed.
Lemma at_normal_other {Y} : forall (f : normalKind -> Y) k y l, l <> k -> at_normal f k y l = f l.
Proof. intros f [] y [] H; try reflexivity; contradiction. Qed.
Lemma normalKind_dec : forall k l : normalKind, k = l \/ k <> l.
Proof. intros [] []; ((left; reflexivity) || (right; discriminate)). Qed.

Lemma with_normals_base : forall c s v h, base c s -> (forall nk, map (@length V) (v nk) = map (@length V) (normals s nk)) -> base c (with_normals s v h).
Proof.
  intros c s v h [[S1 S2 S3 S4 S5 S6 S7 S8 S9] ? ? ? ? ? []] H. split; try assumption; split; try assumption. cbn.
  intros f0 E. destruct (S8 f0 E) as (e0 & rows & ? & ? & ? & K). exists e0, rows. repeat (split; [assumption|]). intro nk. now rewrite H.
Qed.

Definition body (nk : normalKind) (uo : option nat) (j : nat) (s : fstate) : option fstate :=
  q <- normal_of l2Norm divide nk s;
  r <- faceFunction transposed determinant m (overload nk uo) (kind_of nk) j (fst q);
  let s := fst r in
  nLeft <- nth_error (nLeftBasisFunctions s) (index uo);
  let v := product nk (snd q) (snd r) in
  l <- set2 (normals s nk) (index uo) j (if nLeft <=? j then negate v else v);
  Some (with_normals s (at_normal (normals s) nk l) (hasNormals s)).

(** one step of the loop *)
Record stepped (c : face_settings) (nk : normalKind) (u j : nat) (v : V) (s s' : fstate) : Prop := {
  st_base : base c s';
  st_lazies : lazies s' = lazies s;
  st_has : hasNormals s' = hasNormals s;
  st_row : forall row, nth_error (normals s nk) u = Some row -> exists row', write row j v = Some row' /\ nth_error (normals s' nk) u = Some row';
  st_other : forall nk' u', nk' <> nk \/ u' <> u -> nth_error (normals s' nk') u' = nth_error (normals s nk') u' }.

Lemma used_index : forall nk uo, index (overload nk uo) = used nk (index uo).
Proof. intros [] uo; reflexivity. Qed.
Definition nboth (nk : normalKind) (uo : option nat) (c : face_settings) : Prop := both (overload nk uo) c /\ both uo c.

Lemma body_sim : forall c s nk uo j, base c s -> (exists row, nth_error (normals s nk) (index uo) = Some row /\ j < length row) ->
  sim (nboth nk uo c) (fun s' v => stepped c nk (index uo) j v s s') (body nk uo j s) (nitem c nk (index uo) j).
Proof.
  intros c s nk uo j B (row & Er & Lr). unfold body, nitem.
  refine (sim_bind _ _ _ _ _ _ _ (sim_both _ _ _ _ _ _ _ (normal_sim c s nk B) (fun _ => Logic.I)) _).
  intros [s1 v1] v _ Ev (E1 & B1 & R1). cbn [fst snd] in *. subst v1. rewrite <- used_index.
  refine (sim_bind _ _ _ _ _ _ _ (sim_both _ _ _ _ _ _ _ (face_sim c s1 (overload nk uo) (kind_of nk) j B1) (fun h => proj1 h)) _).
  intros [s2 b2] b _ Eb (E2 & B2 & R2). cbn [fst snd] in *. subst b2.
  assert (F : the_face c <> None). { unfold ndenote in Ev. destruct (the_face c); [discriminate|discriminate Ev]. }
  rewrite (nleft_state c s2 _ B2 F). destruct (nleft c (index uo)) as [n|]; cbn [bind]; [|apply sim_none].
  unfold rest in R1, R2. injection R1 as N1 H1 L1. injection R2 as N2 H2 L2. rewrite N2, N1.
  set (y := if n <=? j then _ else _). destruct (write_ok row j y Lr) as (row' & Ew).
  assert (U : index uo < length (normals s nk)) by (apply nth_error_Some; congruence).
  destruct (write_ok (normals s nk) (index uo) row' U) as (l & El).
  assert (S2 : set2 (normals s nk) (index uo) j y = Some l) by (unfold set2; rewrite Er; cbn [bind]; rewrite Ew; exact El).
  rewrite S2. cbn [bind]. apply sim_some. destruct (set2_nth _ _ _ _ _ S2) as (r & r' & K1 & K2 & K3 & K4 & K5). split; cbn.
  - apply with_normals_base; [exact B2|]. intro nk'. rewrite N2, N1. destruct (normalKind_dec nk' nk) as [->|N].
    + rewrite at_normal_same. exact (set2_lengths _ _ _ _ _ S2).
    + now rewrite at_normal_other.
  - congruence.
  - congruence.
  - intros row0 E0. rewrite at_normal_same. rewrite Er in E0. injection E0 as <-. exists row'. split; [exact Ew|]. congruence.
  - intros nk' u' N. destruct (normalKind_dec nk' nk) as [->|N'].
    + rewrite at_normal_same. apply K5. destruct N; [contradiction|assumption].
    + now rewrite at_normal_other.
Qed.

Lemma sim_dep {S T} : forall (b : Prop) (R : S -> T -> Prop) x y, (forall a, x = Some a -> exists z, y = Some z /\ R a z) -> (b -> forall z, y = Some z -> exists a, x = Some a /\ R a z) -> sim b R x y.
Proof. intros. now split. Qed.

Lemma fill_sim : forall c s nk uo n, base c s -> (exists row, nth_error (normals s nk) (index uo) = Some row /\ length row = n) ->
  sim (nboth nk uo c)
    (fun s' vs => base c s' /\ lazies s' = lazies s /\ hasNormals s' = hasNormals s /\ nth_error (normals s' nk) (index uo) = Some vs /\
       forall nk' u', nk' <> nk \/ u' <> index uo -> nth_error (normals s' nk') u' = nth_error (normals s nk') u')
    (for_loop n (body nk uo) s) (collect n (nitem c nk (index uo))).
Proof.
  intros c s nk uo n B (row & Er & Lr). unfold collect, for_loop.
  set (R := fun j (s' : fstate) (vs : list V) => base c s' /\ lazies s' = lazies s /\ hasNormals s' = hasNormals s /\
    (exists row', nth_error (normals s' nk) (index uo) = Some row' /\ length row' = n /\ firstn j row' = vs) /\
    forall nk' u', nk' <> nk \/ u' <> index uo -> nth_error (normals s' nk') u' = nth_error (normals s nk') u').
  refine (sim_weaken _ (R (0 + n)) _ _ _ _ (sim_for _ n 0 R _ _ s [] _ _)).
  - intros s' vs (K1 & K2 & K3 & (row' & K4 & K5 & K6) & K7). repeat (split; [assumption|]). split; [|exact K7].
    rewrite K4. f_equal. rewrite <- K6. cbn. rewrite <- K5. symmetry. apply firstn_all.
  - intros j s1 vs Hj (K1 & K2 & K3 & (row' & K4 & K5 & K6) & K7).
    match goal with |- sim _ _ _ (match ?y with _ => _ end) => change (sim (nboth nk uo c) (R (S j)) (body nk uo j s1) (bind y (fun x => Some (vs ++ [x])))) end.
    destruct (body_sim c s1 nk uo j K1) as (M1 & M2); [exists row'; split; [exact K4|lia]|].
    assert (Z : forall s2 v, stepped c nk (index uo) j v s1 s2 -> R (S j) s2 (vs ++ [v])).
    { intros s2 v [T1 T2 T3 T4 T5]. destruct (T4 row' K4) as (row2 & W & E2). unfold R. split; [exact T1|]. split; [congruence|]. split; [congruence|].
      split; [|intros nk' u' N; rewrite T5 by exact N; now apply K7].
      exists row2. split; [exact E2|]. split; [apply write_nth in W; lia|]. rewrite <- K6. exact (write_firstn _ _ _ _ W). }
    apply sim_dep.
    + intros s2 E. destruct (M1 s2 E) as (v & Ev & T). rewrite Ev. cbn [bind]. eexists. split; [reflexivity|]. now apply Z.
    + intros L vs' E. destruct (nitem c nk (index uo) j) as [v|] eqn:Ev; [|discriminate]. cbn [bind] in E. injection E as <-.
      destruct (M2 L v eq_refl) as (s2 & E2 & T). exists s2. split; [exact E2|]. now apply Z.
  - unfold R. split; [exact B|]. split; [reflexivity|]. split; [reflexivity|]. split; [|reflexivity]. exists row. split; [exact Er|]. split; [exact Lr|reflexivity].
Qed.

(** whatever the sizes, the loop only touches this cache *)
Lemma body_keeps : forall c s nk uo j s', base c s -> body nk uo j s = Some s' -> base c s' /\ lazies s' = lazies s /\ hasNormals s' = hasNormals s.
Proof.
  intros c s nk uo j s' B H. unfold body in H. destruct (normal_of l2Norm divide nk s) as [[s1 v1]|] eqn:E1; [|discriminate]. cbn [bind fst snd] in H.
  destruct (normal_sim c s nk B) as (M1 & _). destruct (M1 _ E1) as (v & _ & _ & B1 & R1). cbn [fst] in *.
  destruct (faceFunction transposed determinant m (overload nk uo) (kind_of nk) j s1) as [[s2 v2]|] eqn:E2; [|discriminate]. cbn [bind fst snd] in H.
  destruct (face_sim c s1 (overload nk uo) (kind_of nk) j B1) as (M2 & _). destruct (M2 _ E2) as (b & _ & _ & B2 & R2). cbn [fst] in *.
  destruct (nth_error (nLeftBasisFunctions s2) (index uo)) as [n|]; [|discriminate]. cbn [bind] in H.
  destruct (set2 (normals s2 nk) (index uo) j _) as [l|] eqn:S2; [|discriminate]. cbn [bind] in H. injection H as <-.
  unfold rest in R1, R2. injection R1 as N1 H1 L1. injection R2 as N2 H2 L2. split; [|cbn; split; congruence].
  apply with_normals_base; [exact B2|]. intro nk'. destruct (normalKind_dec nk' nk) as [->|N].
  - rewrite at_normal_same. exact (set2_lengths _ _ _ _ _ S2).
  - now rewrite at_normal_other.
Qed.

Lemma number_parts : forall u f n, getNumberOfBasisFunctions m (Some u) f = Some n ->
  exists nl nr, left_number m f u nl /\ right_number m f u nr /\ n = nl + nr.
Proof.
  intros u f n H. unfold getNumberOfBasisFunctions in H. unfold left_number, right_number.
  destruct (m (ptrElementLeft f)) as [e|] eqn:E; [|discriminate]. cbn [bind elementNumber] in H.
  destruct (nth_error (nb (edata e)) u) as [nl|] eqn:El; [|discriminate]. cbn [bind] in H. exists nl.
  destruct (ptrElementRight f) as [r|].
  - destruct (m r) as [e'|] eqn:E'; [|discriminate]. cbn [bind elementNumber] in H. destruct (nth_error (nb (edata e')) u) as [nr|] eqn:Er; [|discriminate].
    cbn [bind] in H. injection H as <-. exists nr. split; [now exists e|]. split; [now exists e'|reflexivity].
  - injection H as <-. exists 0. split; [now exists e|]. split; [reflexivity|lia].
Qed.
Lemma number_of_parts : forall u f nl nr, left_number m f u nl -> right_number m f u nr -> getNumberOfBasisFunctions m (Some u) f = Some (nl + nr).
Proof.
  intros u f nl nr (e & E & L) R. unfold getNumberOfBasisFunctions. rewrite E. cbn [bind elementNumber]. rewrite L. cbn [bind]. unfold right_number in R.
  destruct (ptrElementRight f) as [r|].
  - destruct R as (e' & -> & R). cbn [bind elementNumber]. rewrite R. reflexivity.
  - subst nr. f_equal. lia.
Qed.
Lemma number_shared : forall f n, getNumberOfBasisFunctions m None f = Some n -> getNumberOfBasisFunctions m (Some 0) f = Some n.
Proof.
  intros f n H. unfold getNumberOfBasisFunctions in *. destruct (m (ptrElementLeft f)) as [e|]; [|discriminate]. cbn [bind elementNumber] in *.
  destruct (sharedNumber e) as [nl|] eqn:E; [|discriminate]. rewrite (shared_first _ _ E). cbn [bind] in *.
  destruct (ptrElementRight f) as [r|]; [|exact H]. destruct (m r) as [e'|]; [|discriminate]. cbn [bind elementNumber] in *.
  destruct (sharedNumber e') as [nr|] eqn:E'; [|discriminate]. rewrite (shared_first _ _ E'). exact H.
Qed.
Lemma number_even : forall c f n, (forall g, the_face c = Some g -> internal = isInternal g) -> the_face c = Some f -> even_sides c ->
  getNumberOfBasisFunctions m (Some 0) f = Some n -> getNumberOfBasisFunctions m None f = Some n.
Proof.
  intros c f n Hi F E H. unfold getNumberOfBasisFunctions in *. destruct (m (ptrElementLeft f)) as [e|] eqn:Ee; [|discriminate]. cbn [bind elementNumber] in *.
  destruct (nth_error (nb (edata e)) 0) as [nl|] eqn:En; [|discriminate].
  assert (C : counts_equal e).
  { intros a b Ia Ib. refine (E LeftSide (ptrElementLeft f) e a b _ Ee Ia Ib). cbn. unfold actual. now rewrite F. }
  rewrite (shared_equal _ _ C En). cbn [bind] in *. destruct (ptrElementRight f) as [r|] eqn:Er; [|exact H].
  destruct (m r) as [e'|] eqn:Ee'; [|discriminate]. cbn [bind elementNumber] in *. destruct (nth_error (nb (edata e')) 0) as [nr|] eqn:En'; [|discriminate].
  assert (C' : counts_equal e').
  { intros a b Ia Ib. refine (E RightSide r e' a b _ Ee' Ia Ib). cbn. unfold actual_right. rewrite (Hi f F). unfold isInternal. rewrite Er.
    unfold actual. rewrite F. exact Er. }
  rewrite (shared_equal _ _ C' En'). exact H.
Qed.

Lemma row_size : forall f rows u nl nr, rowSizes m f = Some rows -> left_number m f u nl -> right_number m f u nr -> nth_error rows u = Some (nl + nr).
Proof.
  intros f rows u nl nr H (e & E & L) R. unfold rowSizes in H. rewrite E in H. cbn [bind] in H. unfold right_number in R. destruct (ptrElementRight f) as [r|].
  - destruct R as (e' & E' & R). rewrite E' in H. cbn [bind] in H. destruct (unknowns e' <=? unknowns e) eqn:Le; [|discriminate]. injection H as <-.
    apply Nat.leb_le in Le. rewrite nth_error_map.
    rewrite (nth_combine (nb (edata e)) (vresize (nb (edata e')) (unknowns e) 0) u nl nr); [reflexivity|exact L|].
    unfold vresize. rewrite nth_error_app1.
    + rewrite firstn_all2; [exact R|exact Le].
    + rewrite firstn_all2 by exact Le. apply nth_error_Some. congruence.
  - injection H as <-. subst nr. rewrite L. f_equal. lia.
Qed.
Lemma row_length : forall c s f nk u n, base c s -> orderly m c -> the_face c = Some f -> getNumberOfBasisFunctions m (Some u) f = Some n ->
  exists row, nth_error (normals s nk) u = Some row /\ length row = n.
Proof.
  intros c s f nk u n B (_ & O) F H. destruct (first_face c) as [f0|] eqn:E0.
  2:{ apply (sk_first _ _ (ba_skel _ _ B)) in E0. congruence. }
  destruct (sk_sizes _ _ (ba_skel _ _ B) f0 E0) as (e0 & rows & _ & _ & Er & En).
  destruct (number_parts _ _ _ H) as (nl & nr & L & R & ->). destruct (O f0 f eq_refl F u nl) as (O1 & _). destruct (O f0 f eq_refl F u nr) as (_ & O2).
  pose proof (row_size _ _ _ _ _ Er (proj2 O1 L) (proj2 O2 R)) as K. rewrite <- (En nk), nth_error_map in K.
  destruct (nth_error (normals s nk) u) as [row|]; [|discriminate]. injection K as K. now exists row.
Qed.

Definition nvalue (c : face_settings) (nk : normalKind) (u i : nat) : option V := l <- nlist c nk u; nth_error l i.
Lemma nvalue_none : forall c nk u i, ndenote c nk = None -> nvalue c nk u i = None.
Proof.
  intros c nk u i H. unfold nvalue, nlist. destruct (the_face c) as [f|]; [|reflexivity]. cbn [bind]. destruct (getNumberOfBasisFunctions m (Some u) f) as [[|n]|]; [| |reflexivity].
  - cbn. now destruct i.
  - cbn [bind]. destruct (collect (S n) (nitem c nk u)) as [l|] eqn:E; [|reflexivity]. exfalso. apply collect_iff in E. destruct E as (L & K).
    destruct l as [|y l]; [discriminate|]. specialize (K 0 y eq_refl). unfold nitem in K. rewrite H in K. discriminate.
Qed.
Lemma nvalue_unknown : forall c nk u i f e, the_face c = Some f -> m (ptrElementLeft f) = Some e -> unknowns e <= u -> nvalue c nk u i = None.
Proof.
  intros c nk u i f e F E L. unfold nvalue, nlist. rewrite F. cbn [bind]. unfold getNumberOfBasisFunctions. rewrite E. cbn [bind elementNumber].
  apply nth_error_None in L. rewrite L. reflexivity.
Qed.

Definition all (c : face_settings) (s : fstate) : Prop := base c s /\ caches c s /\ normals_right c s.

Lemma normal_function_sim : forall c s nk uo i, all c s -> orderly m c ->
  sim (nboth nk uo c) (fun q v => snd q = v /\ all c (fst q)) (normalFunction transposed determinant l2Norm divide negate product m nk uo i s) (nvalue c nk (index uo) i).
Proof.
  intros c s nk uo i (B & C & N) O. unfold normalFunction. destruct (located s) as [fp|] eqn:L; cbn [bind].
  2:{ rewrite nvalue_none by exact (ndenote_none _ _ _ B L). apply sim_none. }
  destruct (located_some _ _ _ B L) as (F & _ & _). destruct (sk_glue _ _ (ba_skel _ _ B) _ F) as (_ & Hi & e & Ee). rewrite Ee. cbn [bind].
  assert (Hi' : forall g, the_face c = Some g -> internal = isInternal g) by (intros g G; destruct (sk_glue _ _ (ba_skel _ _ B) _ G); tauto).
  destruct (match uo with Some u => u <? unknowns e | None => true end) eqn:G.
  2:{ destruct uo as [u|]; [|discriminate]. apply Nat.ltb_ge in G. rewrite (nvalue_unknown _ _ _ _ _ _ F Ee G). apply sim_none. }
  destruct (ca_lengths _ _ C _ _ F Ee) as (_ & Ln). destruct (nth_error (hasNormals s nk) (index uo)) as [[|]|] eqn:H; cbn [bind].
  - destruct (N O nk (index uo) H) as (vs & E1 & E2). unfold nvalue, get2. rewrite E1, E2. cbn [bind]. destruct (nth_error vs i) as [v|]; cbn [bind]; [|apply sim_none].
    apply sim_some. exact (conj eq_refl (conj B (conj C N))).
  - destruct (write_ok (hasNormals s nk) (index uo) true) as (h & Eh); [apply nth_error_Some; congruence|]. rewrite Eh. cbn [bind].
    set (s1 := with_normals s (normals s) (at_normal (hasNormals s) nk h)).
    assert (B1 : base c s1) by (apply with_normals_base; [exact B|reflexivity]).
    destruct (write_nth _ _ _ _ Eh) as (Lh & _ & Th & Oh).
    assert (Z : forall s2 vs, base c s2 /\ lazies s2 = lazies s1 /\ hasNormals s2 = hasNormals s1 /\ nth_error (normals s2 nk) (index uo) = Some vs /\
       (forall nk' u', nk' <> nk \/ u' <> index uo -> nth_error (normals s2 nk') u' = nth_error (normals s1 nk') u') -> nlist c nk (index uo) = Some vs -> all c s2).
    { intros s2 vs (B2 & K1 & K2 & K3 & K4) En. split; [exact B2|]. split.
      - destruct C as [C1 C2]. split; rewrite K1.
        + exact C1.
        + intros g e' G1 G2. destruct (C2 g e' G1 G2) as (D1 & D2). split; [exact D1|]. intro nk'. rewrite K2. cbn.
          destruct (normalKind_dec nk' nk) as [->|Nk]; [rewrite at_normal_same, Lh; apply D2|rewrite at_normal_other by exact Nk; apply D2].
      - intros _ nk' u' Hf. rewrite K2 in Hf. cbn in Hf. destruct (normalKind_dec nk' nk) as [->|Nk].
        + rewrite at_normal_same in Hf. destruct (Nat.eq_dec u' (index uo)) as [->|Nu]; [now exists vs|].
          rewrite Oh in Hf by exact Nu. rewrite K4 by now right. exact (N O _ _ Hf).
        + rewrite at_normal_other in Hf by exact Nk. rewrite K4 by now left. exact (N O _ _ Hf). }
    apply sim_dep.
    + intros q Eq. destruct (getNumberOfBasisFunctions m uo (fst fp)) as [n|] eqn:En; [|discriminate]. cbn [bind] in Eq.
      assert (En' : getNumberOfBasisFunctions m (Some (index uo)) (fst fp) = Some n) by (destruct uo; [exact En|now apply number_shared]).
      destruct (fill_sim c s1 nk uo n B1 (row_length c s1 _ nk _ n B1 O F En')) as (M1 & _).
      change (bind (for_loop n (body nk uo) s1) (fun s => v <- get2 (normals s nk) (index uo) i; Some (s, v)) = Some q) in Eq.
      destruct (for_loop n (body nk uo) s1) as [s2|] eqn:E2; [|discriminate]. cbn [bind] in Eq. destruct (M1 _ eq_refl) as (vs & Ev & K).
      assert (El : nlist c nk (index uo) = Some vs) by (unfold nlist; rewrite F; cbn [bind]; rewrite En'; exact Ev).
      destruct K as (K0 & K1 & K2 & K3 & K4). unfold get2 in Eq. rewrite K3 in Eq. cbn [bind] in Eq. destruct (nth_error vs i) as [v|] eqn:Ei; [|discriminate].
      injection Eq as <-. exists v. unfold nvalue. rewrite El. cbn [bind]. split; [exact Ei|]. split; [reflexivity|]. apply (Z s2 vs); [|exact El]. auto.
    + intros K v Ev. unfold nvalue in Ev. destruct (nlist c nk (index uo)) as [vs|] eqn:El; [|discriminate]. cbn [bind] in Ev.
      pose proof El as El'. unfold nlist in El'. rewrite F in El'. cbn [bind] in El'. destruct (getNumberOfBasisFunctions m (Some (index uo)) (fst fp)) as [n|] eqn:En'; [|discriminate].
      cbn [bind] in El'.
      assert (En : getNumberOfBasisFunctions m uo (fst fp) = Some n).
      { destruct uo as [u|]; [exact En'|]. exact (number_even c _ _ Hi' F (proj2 K eq_refl) En'). }
      rewrite En. cbn [bind]. destruct (fill_sim c s1 nk uo n B1 (row_length c s1 _ nk _ n B1 O F En')) as (_ & M2).
      destruct (M2 K _ El') as (s2 & E2 & Kk). exists (s2, v).
      change (bind (for_loop n (body nk uo) s1) (fun s => v <- get2 (normals s nk) (index uo) i; Some (s, v)) = Some (s2, v) /\ snd (s2, v) = v /\ all c (fst (s2, v))).
      rewrite E2. cbn [bind fst snd]. split; [|split; [reflexivity|exact (Z s2 vs Kk eq_refl)]].
      destruct Kk as (K0 & K1 & K2 & K3 & K4). unfold get2. rewrite K3. cbn [bind]. rewrite Ev. reflexivity.
  - apply nth_error_None in H. rewrite (Ln nk) in H. rewrite (nvalue_unknown _ _ _ _ _ _ F Ee H). apply sim_none.
Qed.

Lemma normal_keeps : forall c s nk uo i s' v, all c s ->
  normalFunction transposed determinant l2Norm divide negate product m nk uo i s = Some (s', v) -> all c s'.
Proof.
  intros c s nk uo i s' v A0 H. pose proof A0 as (B & C & N).
  assert (K : base c s' /\ caches c s').
  { unfold normalFunction in H. destruct (located s) as [fp|] eqn:L; [|discriminate]. cbn [bind] in H.
    destruct (m (ptrElementLeft (fst fp))) as [e|]; [|discriminate]. cbn [bind] in H. destruct (match uo with Some u => u <? unknowns e | None => true end); [|discriminate].
    destruct (nth_error (hasNormals s nk) (index uo)) as [[|]|]; [| |discriminate]; cbn [bind] in H.
    - destruct (get2 (normals s nk) (index uo) i); [|discriminate]. cbn [bind] in H. injection H as <- <-. now split.
    - destruct (write (hasNormals s nk) (index uo) true) as [h|] eqn:Eh; [|discriminate]. cbn [bind] in H. destruct (getNumberOfBasisFunctions m uo (fst fp)) as [n|]; [|discriminate].
      cbn [bind] in H. set (s1 := with_normals s (normals s) (at_normal (hasNormals s) nk h)) in H.
      change (bind (for_loop n (body nk uo) s1) (fun s => v <- get2 (normals s nk) (index uo) i; Some (s, v)) = Some (s', v)) in H.
      destruct (for_loop n (body nk uo) s1) as [s2|] eqn:E2; [|discriminate]. cbn [bind] in H. destruct (get2 (normals s2 nk) (index uo) i); [|discriminate].
      cbn [bind] in H. injection H as <- <-.
      assert (B1 : base c s1) by (apply with_normals_base; [exact B|reflexivity]).
      assert (K : base c s2 /\ lazies s2 = lazies s1 /\ hasNormals s2 = hasNormals s1).
      { refine (for_keeps (fun x => base c x /\ lazies x = lazies s1 /\ hasNormals x = hasNormals s1) (body nk uo) n 0 s1 s2 _ (conj B1 (conj eq_refl eq_refl)) E2).
        intros j x y (X1 & X2 & X3) Y. destruct (body_keeps _ _ _ _ _ _ X1 Y) as (Y1 & Y2 & Y3). split; [exact Y1|]. split; congruence. }
      destruct K as (K1 & K2 & K3). split; [exact K1|]. destruct C as [C1 C2]. destruct (write_nth _ _ _ _ Eh) as (Lh & _). split; rewrite K2.
      + exact C1.
      + intros g e' G1 G2. destruct (C2 g e' G1 G2) as (D1 & D2). split; [exact D1|]. intro nk'. rewrite K3. cbn.
        destruct (normalKind_dec nk' nk) as [->|Nk]; [rewrite at_normal_same, Lh; apply D2|rewrite at_normal_other by exact Nk; apply D2]. }
  split; [tauto|]. split; [tauto|]. intro O. destruct (normal_function_sim c s nk uo i A0 O) as (R & _). destruct (R _ H) as (b & _ & _ & _ & _ & N'). exact (N' O).
Qed.

(** *** the answers *)
Notation pdenote := (denote vzero vadd vscale transposed inverse determinant absolute getPoint mapPoint m).
Definition nside (c : face_settings) (d : side) (nk : normalKind) (u i : nat) : option V :=
  match d with LeftSide => nvalue c nk u i | RightSide => if internal then n <- nleft c u; nvalue c nk u (i + n) else None end.
Definition sol (derivative : bool) : getter := if derivative then GetSolutionDeriv else GetSolution.
Definition fdenote (c : face_settings) (g : fgetter) : option (@fanswer V P X) :=
  match g with
  | FaceFunction uo k i =>
      option_map FValue match k with Value | VectorValue => fvalue c k (index uo) i | Deriv | Curl | Div => lvalue c k (index uo) i end
  | SideFunction d uo k i =>
      option_map FValue match k with Value | VectorValue => svalue c d k (index uo) i | Deriv | Curl | Div => lside c d k (index uo) i end
  | NormalFunction nk uo i => option_map FValue (nvalue c nk (index uo) i)
  | NormalSideFunction d nk uo i =>
      match nk with Normal | UnitNormal => option_map FValue (nside c d nk (index uo) i) | NormalCross | UnitNormalCross => None end
  | SideSolution d derivative => a <- pdenote (actual_on c d) (sol derivative); match a with ASolution l => Some (FSolution l) | _ => None end
  | FPointReference => option_map FPoint (face_point_on c)
  | FPointPhysical => a <- pdenote (actual c LeftSide) GetPointPhysical; match a with APhysical x => Some (FPhysical x) | _ => None end
  | NormalVector => option_map FValue (ndenote c Normal)
  | UnitNormalVector => option_map FValue (ndenote c UnitNormal)
  | RelativeSurfaceArea => option_map (fun v => FValue (l2Norm v)) (ndenote c Normal)
  end.

Lemma rest_all : forall c s s', all c s -> keeps_base c s s' -> all c s'.
Proof.
  intros c s s' (_ & C & N) (B' & R). split; [exact B'|]. split; [exact (caches_rest _ _ _ R C)|]. unfold rest in R. injection R as R1 R2 R3.
  intro O. rewrite R1, R2. exact (N O).
Qed.
Lemma lazy_all : forall c s s', all c s -> base c s' /\ caches c s' /\ normals s' = normals s /\ hasNormals s' = hasNormals s -> all c s'.
Proof. intros c s s' (_ & _ & N) (B & C & E1 & E2). split; [exact B|]. split; [exact C|]. intro O. rewrite E1, E2. exact (N O). Qed.

Lemma answered_sim : forall {Y} c (f : Y -> @fanswer V P X) (b : Prop) x y,
  sim b (fun (q : fstate * Y) v => snd q = v /\ all c (fst q)) x y -> sim b (fun q v => snd q = v /\ all c (fst q)) (fanswered f x) (option_map f y).
Proof. intros Y c f b x y H. refine (sim_map b _ _ x y _ f H _). intros a v (<- & K). now split. Qed.

Lemma normal_side_sim : forall c s d nk uo i, all c s -> orderly m c ->
  sim (nboth nk uo c) (fun q v => snd q = v /\ all c (fst q))
    (normalSideFunction transposed determinant l2Norm divide negate product m d nk uo i s) (nside c d nk (index uo) i).
Proof.
  intros c s d nk uo i H O. pose proof H as (B & _). unfold normalSideFunction. destruct (located s) as [fp|] eqn:L; cbn [bind].
  2:{ destruct d; cbn.
      - rewrite nvalue_none by exact (ndenote_none _ _ _ B L). apply sim_none.
      - destruct internal; [|apply sim_none]. destruct (nleft c (index uo)); [|apply sim_none]. cbn [bind]. rewrite nvalue_none by exact (ndenote_none _ _ _ B L). apply sim_none. }
  destruct d; cbn [nside]; [now apply normal_function_sim|]. rewrite (sk_internal _ _ (ba_skel _ _ B)). destruct internal; [|apply sim_none].
  destruct (located_some _ _ _ B L) as (F & _). rewrite (nleft_state _ _ _ B) by congruence. destruct (nleft c (index uo)); [|apply sim_none]. cbn [bind].
  now apply normal_function_sim.
Qed.

Lemma pdenote_place : forall cp g, where_ cp = None -> asks g -> pdenote cp g = None.
Proof.
  intros cp g W K. unfold denote. destruct g; cbn in K; try contradiction; rewrite ?W; try reflexivity;
    (destruct (on cp) as [b|]; [|reflexivity]); cbn [bind]; (destruct (m b); [|reflexivity]); reflexivity.
Qed.
Lemma place_on_works : forall c d, place_on c = None -> where_ (actual_on c d) = None.
Proof. intros c [] E; unfold actual_on, actual_right, actual; [|destruct internal]; destruct (the_face c); cbn; rewrite ?E; reflexivity. Qed.

Lemma element_answer : forall c d g s, peinv m (actual_on c d) s -> asks g -> g <> GetPointReference ->
  sim (legal m (actual_on c d) g) (fun q a => snd q = a /\ peinv m (actual_on c d) (fst q))
    (get vzero vadd vscale transposed inverse determinant absolute m g s) (pdenote (actual_on c d) g).
Proof.
  intros c d g s I K Ng. destruct (on_works c d) as [W|W].
  - pose proof I as (F & U). destruct (get_right _ _ _ _ _ _ _ _ _ m _ g s F (U W) K) as (R1 & R2). split.
    + intros [s' a] E. destruct (R1 _ E) as (b & Eb & Es & _). exists b. split; [exact Eb|]. split; [exact Es|exact (get_inv _ _ _ _ _ I K E)].
    + intros L b Eb. destruct (R2 L b Eb) as ([s' a] & E & Es & _). exists (s', a). split; [exact E|]. split; [exact Es|exact (get_inv _ _ _ _ _ I K E)].
  - pose proof (no_element _ _ I W) as N. destruct g; cbn in K; try contradiction; cbn [get denote]; rewrite W; cbn [bind];
      unfold basisFunction, basisFunctionOf, getSolution, getSolutionDeriv, getPointPhysical, getJacobian, getTransposeJacobian, getInverseTransposeJacobian,
        getJacobianDet, getJacobianAbsDet; rewrite ?N; try apply sim_none.
Qed.

Lemma solution_sim : forall c s d derivative, all c s ->
  sim (even_sides c) (fun q v => snd q = v /\ all c (fst q)) (fanswered FSolution (sideSolution vzero vadd vscale transposed determinant m d derivative s))
    (fdenote c (SideSolution d derivative)).
Proof.
  intros c s d derivative H. pose proof H as (B & _). unfold sideSolution. cbn [fdenote].
  assert (Ks : asks (sol derivative)) by (destruct derivative; exact I). assert (Ns : sol derivative <> GetPointReference) by (destruct derivative; discriminate).
  destruct (located s) as [fp|] eqn:L; cbn [bind].
  2:{ rewrite pdenote_place; [apply sim_none|apply place_on_works; exact (located_none _ _ B L)|exact Ks]. }
  assert (Lg : even_sides c -> legal m (actual_on c d) (sol derivative)) by (intro E; specialize (E d); destruct derivative; exact E).
  assert (Eg : forall x, get vzero vadd vscale transposed inverse determinant absolute m (sol derivative) x =
    answered ASolution ((if derivative then getSolutionDeriv vzero vadd vscale transposed determinant m else getSolution vzero vadd vscale transposed determinant m) x))
    by (intro x; destruct derivative; reflexivity).
  destruct d; cbn [actual_on].
  - pose proof (element_answer c LeftSide (sol derivative) (left s) (ba_left _ _ B) Ks Ns) as (R1 & R2). rewrite Eg in R1, R2. cbn [actual_on] in R1, R2.
    destruct ((if derivative then _ else _) (left s)) as [[l v]|]; cbn [bind fanswered option_map answered fst snd] in *; split.
    + intros a Ea. injection Ea as <-. destruct (R1 _ eq_refl) as (b & -> & <- & I1). cbn [bind snd]. exists (FSolution v). split; [reflexivity|]. split; [reflexivity|].
      cbn [fst]. apply (rest_all c s); [exact H|]. split; [now apply with_left_base|reflexivity].
    + intros E b Eb. destruct (R1 _ eq_refl) as (b' & Eb' & <- & I1). rewrite Eb' in Eb. cbn in Eb. injection Eb as <-. eexists. split; [reflexivity|]. split; [reflexivity|].
      cbn [fst]. apply (rest_all c s); [exact H|]. split; [now apply with_left_base|reflexivity].
    + intros a Ea. discriminate Ea.
    + intros E b Eb. exfalso. destruct (pdenote (actual c LeftSide) (sol derivative)) as [y|]; [|discriminate]. destruct (R2 (Lg E) y eq_refl) as (a & Ea & _). discriminate Ea.
  - rewrite (sk_internal _ _ (ba_skel _ _ B)). destruct internal eqn:Ein.
    2:{ unfold actual_right. rewrite Ein. cbn. destruct derivative; apply sim_none. }
    pose proof (element_answer c RightSide (sol derivative) (right s) (ba_right _ _ B) Ks Ns) as (R1 & R2). rewrite Eg in R1, R2. cbn [actual_on] in R1, R2.
    destruct ((if derivative then _ else _) (right s)) as [[r v]|]; cbn [bind fanswered option_map answered fst snd] in *; split.
    + intros a Ea. injection Ea as <-. destruct (R1 _ eq_refl) as (b & -> & <- & I1). cbn [bind snd]. exists (FSolution v). split; [reflexivity|]. split; [reflexivity|].
      cbn [fst]. apply (rest_all c s); [exact H|]. split; [now apply with_right_base|reflexivity].
    + intros E b Eb. destruct (R1 _ eq_refl) as (b' & Eb' & <- & I1). rewrite Eb' in Eb. cbn in Eb. injection Eb as <-. eexists. split; [reflexivity|]. split; [reflexivity|].
      cbn [fst]. apply (rest_all c s); [exact H|]. split; [now apply with_right_base|reflexivity].
    + intros a Ea. discriminate Ea.
    + intros E b Eb. exfalso. destruct (pdenote (actual_right c) (sol derivative)) as [y|]; [|discriminate]. destruct (R2 (Lg E) y eq_refl) as (a & Ea & _). discriminate Ea.
Qed.

Lemma physical_sim : forall c s, all c s ->
  sim True (fun q v => snd q = v /\ all c (fst q)) (fanswered FPhysical (fgetPointPhysical m s)) (fdenote c FPointPhysical).
Proof.
  intros c s H. pose proof H as (B & _). unfold fgetPointPhysical. cbn [fdenote].
  destruct (located s) as [fp|] eqn:L; cbn [bind].
  2:{ rewrite pdenote_place; [apply sim_none| |exact I]. exact (place_on_works c LeftSide (located_none _ _ B L)). }
  pose proof (element_answer c LeftSide GetPointPhysical (left s) (ba_left _ _ B) I ltac:(discriminate)) as (R1 & R2).
  cbn [actual_on get legal] in R1, R2. destruct (getPointPhysical m (left s)) as [[l v]|]; cbn [bind fanswered option_map answered fst snd] in *; split.
  - intros a Ea. injection Ea as <-. destruct (R1 _ eq_refl) as (b & -> & <- & I1). cbn [bind snd]. exists (FPhysical v). split; [reflexivity|]. split; [reflexivity|].
    cbn [fst]. apply (rest_all c s); [exact H|]. split; [now apply with_left_base|reflexivity].
  - intros E b Eb. destruct (R1 _ eq_refl) as (b' & Eb' & <- & I1). rewrite Eb' in Eb. cbn in Eb. injection Eb as <-. eexists. split; [reflexivity|]. split; [reflexivity|].
    cbn [fst]. apply (rest_all c s); [exact H|]. split; [now apply with_left_base|reflexivity].
  - intros a Ea. discriminate Ea.
  - intros E b Eb. exfalso. destruct (pdenote (actual c LeftSide) GetPointPhysical) as [y|]; [|discriminate]. destruct (R2 I y eq_refl) as (a & Ea & _). discriminate Ea.
Qed.

Lemma area_sim : forall c s, base c s ->
  sim True (fun q v => snd q = v /\ keeps_base c s (fst q)) (getRelativeSurfaceArea l2Norm s) (option_map l2Norm (ndenote c Normal)).
Proof.
  intros c s B. destruct (located s) as [fp|] eqn:L.
  - rewrite (ndenote_located _ _ _ Normal B L). destruct (area_value c s fp B L) as (s' & -> & K). cbn. apply sim_some. now split.
  - rewrite (ndenote_none _ _ _ B L). unfold getRelativeSurfaceArea. rewrite L. apply sim_none.
Qed.

Definition even_for (g : fgetter) (c : face_settings) : Prop := needs_even g = true -> even_sides c.

Lemma get_sim : forall c g s, all c s -> orderly m c ->
  sim (even_for g c) (fun q v => snd q = v /\ all c (fst q)) (fget vzero vadd vscale transposed determinant l2Norm divide negate product m g s) (fdenote c g).
Proof.
  intros c g s H O. pose proof H as (B & C & N). destruct g as [uo k i|d uo k i|nk uo i|d nk uo i|d derivative| | | | |]; cbn [fget].
  - cbn [fdenote]. apply answered_sim.
    assert (K : even_for (FaceFunction uo k i) c -> both uo c) by (intros E ->; exact (E eq_refl)).
    destruct k; try (refine (sim_imp _ _ _ _ _ _ (sim_weaken _ _ _ _ _ _ (face_sim c s uo _ i B))); [exact K|]; intros a b (E & Kb); split; [exact E|exact (rest_all _ _ _ H Kb)]);
      (refine (sim_imp _ _ _ _ _ (fun _ => I) (sim_weaken _ _ _ _ _ _ (lazy_sim c s (index uo) _ i B C))); intros a b (E & Kb); split; [exact E|exact (lazy_all _ _ _ H Kb)]).
  - cbn [fdenote]. apply answered_sim.
    assert (K : even_for (SideFunction d uo k i) c -> both uo c) by (intros E ->; exact (E eq_refl)).
    destruct k; try (refine (sim_imp _ _ _ _ _ _ (sim_weaken _ _ _ _ _ _ (side_sim c s d uo _ i B))); [exact K|]; intros a b (E & Kb); split; [exact E|exact (rest_all _ _ _ H Kb)]);
      (refine (sim_imp _ _ _ _ _ (fun _ => I) (sim_weaken _ _ _ _ _ _ (lazy_side_sim c s d (index uo) _ i B C))); intros a b (E & Kb); split; [exact E|exact (lazy_all _ _ _ H Kb)]).
  - cbn [fdenote]. apply answered_sim. refine (sim_imp _ _ _ _ _ _ (normal_function_sim c s nk uo i H O)).
    intro E. split; intro K; apply E; destruct nk, uo; cbn in *; try reflexivity; discriminate.
  - cbn [fdenote]. destruct nk; try apply sim_none; apply answered_sim; refine (sim_imp _ _ _ _ _ _ (normal_side_sim c s d _ uo i H O));
    intro E; split; intro K; apply E; destruct uo; reflexivity.
  - refine (sim_imp _ _ _ _ _ _ (solution_sim c s d derivative H)). intro E. exact (E eq_refl).
  - cbn [fdenote]. rewrite <- (ba_point _ _ B). destruct (fpointReference_ s); cbn; [apply sim_some; now split|apply sim_none].
  - refine (sim_imp _ _ _ _ _ (fun _ => I) (physical_sim c s H)).
  - cbn [fdenote]. apply answered_sim. refine (sim_imp _ _ _ _ _ (fun _ => I) (sim_weaken _ _ _ _ _ _ (normal_sim c s Normal B))).
    intros a b (E & Kb); split; [exact E|exact (rest_all _ _ _ H Kb)].
  - cbn [fdenote]. apply answered_sim. refine (sim_imp _ _ _ _ _ (fun _ => I) (sim_weaken _ _ _ _ _ _ (normal_sim c s UnitNormal B))).
    intros a b (E & Kb); split; [exact E|exact (rest_all _ _ _ H Kb)].
  - cbn [fdenote].
    replace (option_map (fun v => FValue (l2Norm v)) (ndenote c Normal)) with (option_map (@FValue V P X) (option_map l2Norm (ndenote c Normal))) by (destruct (ndenote c Normal); reflexivity).
    apply answered_sim. refine (sim_imp _ _ _ _ _ (fun _ => I) (sim_weaken _ _ _ _ _ _ (area_sim c s B))).
    intros a b (E & Kb); split; [exact E|exact (rest_all _ _ _ H Kb)].
Qed.

Lemma answered_inv : forall Y (f : Y -> @fanswer V P X) (x : option (fstate * Y)) q, fanswered f x = Some q -> exists v, x = Some (fst q, v).
Proof. intros Y f [[s v]|] q H; [|discriminate]. injection H as <-. now exists v. Qed.
Lemma get_all : forall c g s q, all c s -> fget vzero vadd vscale transposed determinant l2Norm divide negate product m g s = Some q -> all c (fst q).
Proof.
  intros c g s q H E. pose proof H as (B & C & N). destruct g as [uo k i|d uo k i|nk uo i|d nk uo i|d derivative| | | | |]; cbn [fget] in E.
  - apply answered_inv in E. destruct E as (v & E). destruct (face_sim c s uo k i B) as (R & _), (lazy_sim c s (index uo) k i B C) as (R' & _).
    destruct k.
    1,2: clear R'; destruct (R _ E) as (b & _ & _ & K); exact (rest_all _ _ _ H K).
    all: clear R; destruct (R' _ E) as (b & _ & _ & K); exact (lazy_all _ _ _ H K).
  - apply answered_inv in E. destruct E as (v & E). destruct (side_sim c s d uo k i B) as (R & _), (lazy_side_sim c s d (index uo) k i B C) as (R' & _).
    destruct k.
    1,2: clear R'; destruct (R _ E) as (b & _ & _ & K); exact (rest_all _ _ _ H K).
    all: clear R; destruct (R' _ E) as (b & _ & _ & K); exact (lazy_all _ _ _ H K).
  - apply answered_inv in E. destruct E as (v & E). exact (normal_keeps _ _ _ _ _ _ _ H E).
  - destruct nk; try discriminate; apply answered_inv in E; destruct E as (v & E); unfold normalSideFunction in E;
      (destruct (located s); [|discriminate]); cbn [bind] in E; destruct d; try exact (normal_keeps _ _ _ _ _ _ _ H E);
      (destruct (isInternal_ s); [|discriminate]); (destruct (nth_error (nLeftBasisFunctions s) (index uo)); [|discriminate]); cbn [bind] in E; exact (normal_keeps _ _ _ _ _ _ _ H E).
  - destruct (solution_sim c s d derivative H) as (R & _). destruct (R _ E) as (b & _ & _ & K). exact K.
  - destruct (fpointReference_ s); [|discriminate]. cbn in E. injection E as <-. exact H.
  - destruct (physical_sim c s H) as (R & _). destruct (R _ E) as (b & _ & _ & K). exact K.
  - apply answered_inv in E. destruct E as (v & E). destruct (normal_sim c s Normal B) as (R & _). destruct (R _ E) as (b & _ & _ & K). exact (rest_all _ _ _ H K).
  - apply answered_inv in E. destruct E as (v & E). destruct (normal_sim c s UnitNormal B) as (R & _). destruct (R _ E) as (b & _ & _ & K). exact (rest_all _ _ _ H K).
  - apply answered_inv in E. destruct E as (v & E). destruct (area_sim c s B) as (R & _). destruct (R _ E) as (b & _ & _ & K). exact (rest_all _ _ _ H K).
Qed.

(** *** the settings change *)
Definition blank (c : face_settings) (s : fstate) : Prop :=
  (forall k u l, nth_error (lazies s k) u <> Some (Some l)) /\ (forall nk u, nth_error (hasNormals s nk) u <> Some true) /\
  forall f e, the_face c = Some f -> m (ptrElementLeft f) = Some e ->
    (forall k, length (lazies s k) = unknowns e) /\ forall nk, length (hasNormals s nk) = unknowns e.
Lemma blank_all : forall c s, base c s -> blank c s -> all c s.
Proof.
  intros c s B (H1 & H2 & H3). split; [exact B|]. split.
  - split; [|exact H3]. intros k u l H. exfalso. exact (H1 _ _ _ H).
  - intros _ nk u H. exfalso. exact (H2 _ _ H).
Qed.

Notation peset := (PhysicalElement_model.set zero mul vzero getPoint mapPoint m).
Lemma element_set : forall o c s s', peinv m c s -> peset o s = Some s' -> peinv m (follow c (Set_ o : @event A V P X J D Q M)) s'.
Proof. intros o c s s'. apply set_right. Qed.

(** the point of the elements may be anything *)
Record loose (c : face_settings) (s : fstate) : Prop := {
  lo_skel : skel c s;
  lo_left : forall f, the_face c = Some f -> exists w, peinv m (Settings (element_of_side f LeftSide) w (by_unknown c) true) (left s);
  lo_right : forall f, internal = true -> the_face c = Some f -> exists w, peinv m (Settings (element_of_side f RightSide) w (by_unknown c) true) (right s);
  lo_external : internal = false -> peinv m (initially h1) (right s) }.
Lemma base_loose : forall c s, base c s -> loose c s.
Proof.
  intros c s B. split.
  - exact (ba_skel _ _ B).
  - intros f F. pose proof (ba_left _ _ B) as L. unfold actual in L. rewrite F in L. eexists. exact L.
  - intros f Hi F. pose proof (ba_right _ _ B) as L. unfold actual_right, actual in L. rewrite Hi, F in L. eexists. exact L.
  - intros Hi. pose proof (ba_right _ _ B) as L. unfold actual_right in L. now rewrite Hi in L.
Qed.

Definition at_place (c : face_settings) (w : @face_place V P J Q M) : face_settings := FaceSettings (the_face c) (first_face c) (Some w) (rule_for c) (by_unknown c).

Lemma forget_blank : forall c n s, (forall f e, the_face c = Some f -> m (ptrElementLeft f) = Some e -> unknowns e = n) -> blank c (forget n s).
Proof.
  intros c n s H. split; [|split]; cbn.
  - intros k u l E. apply nth_repeat_inv in E. discriminate.
  - intros nk u E. apply nth_repeat_inv in E. discriminate.
  - intros f e F E. split; intro; rewrite repeat_length; symmetry; exact (H f e F E).
Qed.

(** what setPointReference leaves *)
Lemma point_parts : forall c s p s', loose c s -> fsetPointReference zero mul mapPoint m p s = Some s' ->
  skel c s' /\ the_face c <> None /\ fpointReference_ s' = Some p /\ blank c s' /\ normal s' = None /\ unitNormal s' = None /\ normalNorm s' = None /\
  peinv m (actual (at_place c (AtPoint p)) LeftSide) (left s') /\ peinv m (actual_right (at_place c (AtPoint p))) (right s').
Proof.
  intros c s p s' [K L R E] H. unfold fsetPointReference in H. rewrite (sk_face _ _ K), (sk_internal _ _ K) in H. destruct (the_face c) as [f|] eqn:F; [|discriminate].
  cbn [bind] in H. destruct (setPointReference zero mul m _ (left s)) as [l|] eqn:El; [|discriminate]. cbn [bind] in H.
  destruct (if internal then _ else _) as [r|] eqn:Er in H; [|discriminate]. cbn [bind] in H. destruct (m (ptrElementLeft f)) as [e|] eqn:Ee; [|discriminate].
  cbn [bind] in H. injection H as <-. split; [|split; [congruence|split; [reflexivity|split]]].
  - destruct K. split; try assumption; cbn; congruence.
  - apply forget_blank. intros g e' G Ge. congruence.
  - split; [reflexivity|]. split; [reflexivity|]. split; [reflexivity|]. split.
    + destruct (L f eq_refl) as (w & Iw). pose proof (element_set (SetPointReference (mapPoint (refFaceToRefElemMapL f) p)) _ _ _ Iw El) as I'.
      unfold actual. cbn. rewrite F. exact I'.
    + unfold actual_right. destruct internal eqn:Ei.
      * destruct (R f eq_refl eq_refl) as (w & Iw). pose proof (element_set (SetPointReference (mapPoint (refFaceToRefElemMapR f) p)) _ _ _ Iw Er) as I'.
        unfold actual. cbn. rewrite F. exact I'.
      * injection Er as <-. exact (E eq_refl).
Qed.

Lemma skel_place : forall c w s, skel c s -> skel (at_place c w) s.
Proof. intros c w s []. split; assumption. Qed.
Lemma no_normal : forall c s, normal s = None -> unitNormal s = None -> normalNorm s = None -> normal_right c s.
Proof. intros c s E1 E2 E3. split; intros v H; congruence. Qed.

Lemma point_all : forall c s p s', loose c s -> fsetPointReference zero mul mapPoint m p s = Some s' -> all (at_place c (AtPoint p)) s'.
Proof.
  intros c s p s' L H. destruct (point_parts _ _ _ _ L H) as (K & F & Ep & Bl & N1 & N2 & N3 & I1 & I2). apply blank_all; [|exact Bl]. split.
  - now apply skel_place.
  - exact Ep.
  - cbn. intros w Ew. injection Ew as <-. discriminate.
  - cbn. intro E. contradiction.
  - exact I1.
  - exact I2.
  - now apply no_normal.
Qed.

Lemma index_all : forall c s i s', loose c s -> fsetQuadraturePointIndex zero mul getPoint mapPoint m i s = Some s' ->
  exists q f, rule_for c = Some (q, f) /\ all (at_place c (AtRule q i f)) s'.
Proof.
  intros c s i s' L H. unfold fsetQuadraturePointIndex in H. rewrite (sk_rule _ _ (lo_skel _ _ L)) in H. destruct (rule_for c) as [[q f]|] eqn:Er; [|discriminate].
  cbn [option_map bind fst] in H. destruct (getPoint q i) as [p|] eqn:Ep; [|discriminate]. cbn [bind] in H.
  destruct (fsetPointReference zero mul mapPoint m p s) as [s1|] eqn:E1; [|discriminate]. cbn [bind] in H.
  destruct (point_parts _ _ _ _ L E1) as (K & F & Epr & Bl & N1 & N2 & N3 & I1 & I2). rewrite (sk_mapL _ _ K), Er in H. cbn [option_map bind snd] in H.
  destruct (setFaceQuadratureRule zero mul getPoint mapPoint m q (refFaceToRefElemMapL f) (left s1)) as [l1|] eqn:L1; [|discriminate]. cbn [bind] in H.
  destruct (setQuadraturePointIndex zero mul getPoint mapPoint m i l1) as [l2|] eqn:L2; [|discriminate]. cbn [bind] in H.
  change (isInternal_ (with_left s1 l2)) with (isInternal_ s1) in H. rewrite (sk_internal _ _ K) in H. exists q, f. split; [reflexivity|].
  destruct (the_face c) as [g|] eqn:G; [|contradiction].
  assert (Il : peinv m (actual (at_place c (AtRule q i f)) LeftSide) l2).
  { pose proof (element_set (SetFaceQuadratureRule q (refFaceToRefElemMapL f)) _ _ _ I1 L1) as J1.
    pose proof (element_set (SetQuadraturePointIndex i) _ _ _ J1 L2) as J2. unfold actual in *. cbn in *. rewrite G in *. exact J2. }
  assert (Bs : forall r, peinv m (actual_right (at_place c (AtRule q i f))) r -> all (at_place c (AtRule q i f)) (with_right (with_left s1 l2) r)).
  { intros r Ir. apply blank_all; [|exact Bl]. split.
    - destruct (skel_place c (AtRule q i f) s1 K). split; assumption.
    - cbn. unfold face_point_on. cbn. rewrite Ep. exact Epr.
    - cbn. intros w Ew. injection Ew as <-. cbn. congruence.
    - cbn. congruence.
    - exact Il.
    - exact Ir.
    - now apply no_normal. }
  destruct internal eqn:Ei.
  - change (mapToRightElement (with_left s1 l2)) with (mapToRightElement s1) in H. rewrite (sk_mapR _ _ K Ei), Er in H. cbn [option_map bind snd] in H.
    change (right (with_left s1 l2)) with (right s1) in H.
    destruct (setFaceQuadratureRule zero mul getPoint mapPoint m q (refFaceToRefElemMapR f) (right s1)) as [r1|] eqn:R1; [|discriminate]. cbn [bind] in H.
    destruct (setQuadraturePointIndex zero mul getPoint mapPoint m i r1) as [r2|] eqn:R2; [|discriminate]. cbn [bind] in H. injection H as <-.
    apply Bs. pose proof (element_set (SetFaceQuadratureRule q (refFaceToRefElemMapR f)) _ _ _ I2 R1) as J1.
    pose proof (element_set (SetQuadraturePointIndex i) _ _ _ J1 R2) as J2. unfold actual_right, actual in *. cbn in *. rewrite Ei, G in *. exact J2.
  - injection H as <-. replace (with_left s1 l2) with (with_right (with_left s1 l2) (right s1)) by reflexivity.
    apply Bs. unfold actual_right in *. rewrite Ei in *. exact I2.
Qed.

Lemma same_settings_all : forall c c' s, the_face c = the_face c' -> first_face c = first_face c' -> place_on c = place_on c' -> rule_for c = rule_for c' -> by_unknown c = by_unknown c' ->
  all c s -> all c' s.
Proof. intros [] [] s. cbn. intros -> -> -> -> ->. auto. Qed.

Lemma rule_all : forall c s q s', all c s -> fsetQuadratureRule zero mul getPoint mapPoint m q s = Some s' -> all (face_follow getPoint c (FSet_ (FSetQuadratureRule q))) s'.
Proof.
  intros c s q s' (B & _) H. pose proof (base_loose _ _ B) as L. pose proof (ba_skel _ _ B) as K. unfold fsetQuadratureRule in H. rewrite (sk_face _ _ K), (sk_internal _ _ K) in H.
  cbn [face_follow]. destruct (the_face c) as [f|] eqn:F; [|discriminate]. cbn [bind] in H.
  destruct (setFaceQuadratureRule zero mul getPoint mapPoint m q (refFaceToRefElemMapL f) (left s)) as [l|] eqn:El; [|discriminate]. cbn [bind] in H.
  destruct (if internal then _ else _) as [r|] eqn:Er in H; [|discriminate]. cbn [bind] in H.
  set (c1 := FaceSettings (the_face c) (first_face c) (place_on c) (Some (q, f)) (by_unknown c)).
  match type of H with fsetQuadraturePointIndex _ _ _ _ _ _ ?x = _ => assert (L1 : loose c1 x) end.
  { split.
    - destruct K. split; try assumption; cbn; try assumption; try reflexivity.
      + now rewrite F.
      + intros ->. reflexivity.
    - cbn. rewrite F. intros g G. injection G as <-. destruct (lo_left _ _ L f F) as (w & Iw).
      eexists. exact (element_set (SetFaceQuadratureRule q (refFaceToRefElemMapL f)) _ _ _ Iw El).
    - cbn. rewrite F. intros g Ei G. injection G as <-. rewrite Ei in Er. destruct (lo_right _ _ L f Ei F) as (w & Iw).
      eexists. exact (element_set (SetFaceQuadratureRule q (refFaceToRefElemMapR f)) _ _ _ Iw Er).
    - cbn. intro Ei. rewrite Ei in Er. injection Er as <-. exact (lo_external _ _ L Ei). }
  destruct (index_all _ _ _ _ L1 H) as (q' & f' & E & A'). cbn in E. injection E as <- <-. revert A'. apply same_settings_all; cbn; auto.
Qed.

Lemma transform_all : forall c s t u s', all c s -> setTransform zero mul t u s = Some s' -> all (face_follow getPoint c (FSet_ (SetTransform t u))) s'.
Proof.
  intros c s t u s' (B & C & _) H. pose proof (ba_skel _ _ B) as K. unfold setTransform in H.
  destruct (if length (ftransform_ s) <=? u then _ else _) as [ts|] eqn:Et in H; [|discriminate]. cbn [bind] in H.
  destruct (setTransformation zero mul t u (left s)) as [l|] eqn:El; [|discriminate]. cbn [bind] in H. rewrite (sk_internal _ _ K) in H.
  destruct (if internal then _ else _) as [r|] eqn:Er in H; [|discriminate]. cbn [bind] in H. injection H as <-. cbn [face_follow]. apply blank_all.
  - split.
    + destruct K as [K1 K2 K3 K4 K5 K6 K7 K8 K9]. split; try assumption; cbn; try congruence. intro v.
      assert (W : write (vresize (ftransform_ s) (Datatypes.S u) None) u (Some t) = Some ts /\ length (ftransform_ s) <= u \/ write (ftransform_ s) u (Some t) = Some ts).
      { destruct (length (ftransform_ s) <=? u) eqn:Le; [|right; exact Et]. destruct (face_ s); [discriminate|]. left. apply Nat.leb_le in Le. split; assumption. }
      destruct (Nat.eqb_spec v u) as [->|Nv].
      * assert (Hn : nth_error ts u = Some (Some t)) by (destruct W as [(W & _)|W]; destruct (write_nth _ _ _ _ W) as (_ & _ & Hn & _); exact Hn). now rewrite Hn.
      * rewrite <- K6. destruct W as [(W & Le)|W]; destruct (write_nth _ _ _ _ W) as (_ & _ & _ & O); rewrite (O v Nv); [|reflexivity].
        unfold vresize. rewrite firstn_all2 by lia. destruct (Nat.lt_ge_cases v (length (ftransform_ s))) as [Hl|Hl].
        -- now rewrite nth_error_app1.
        -- rewrite nth_error_app2 by assumption. rewrite (proj2 (nth_error_None (ftransform_ s) v)) by assumption.
           destruct (nth_error (repeat None _) _) as [z|] eqn:Ez; [|reflexivity]. apply nth_repeat_inv in Ez. now rewrite Ez.
    + exact (ba_point _ _ B).
    + exact (ba_valid _ _ B).
    + exact (ba_noplace _ _ B).
    + pose proof (element_set (SetTransformation t u) _ _ _ (ba_left _ _ B) El) as J1. unfold actual in *. cbn. destruct (the_face c); exact J1.
    + unfold actual_right in *. pose proof (ba_right _ _ B) as Ir. unfold actual_right in Ir. destruct internal.
      * pose proof (element_set (SetTransformation t u) _ _ _ Ir Er) as J1. unfold actual in *. cbn. destruct (the_face c); exact J1.
      * injection Er as <-. exact Ir.
    + destruct (ba_normal _ _ B). split; assumption.
  - split; [|split]; cbn.
    + intros k v x E. apply nth_repeat_inv in E. discriminate.
    + intros nk v E. apply nth_repeat_inv in E. discriminate.
    + intros f e F E. destruct (ca_lengths _ _ C f e F E) as (D1 & D2). split; intro; rewrite repeat_length; auto.
Qed.

Lemma repeat_lengths : forall (x : V) l, map (@length V) (map (repeat x) l) = l.
Proof. intros x l. rewrite map_map. rewrite (map_ext _ (fun n => n)) by (intro; apply repeat_length). apply map_id. Qed.

Lemma face_all : forall c s f s', all c s -> setFace zero mul vzero mapPoint m f s = Some s' -> all (face_follow getPoint c (FSet_ (SetFace f))) s'.
Proof.
  intros c s f s' (B & C & _) H. pose proof (ba_skel _ _ B) as K. unfold setFace in H. rewrite (sk_internal _ _ K), (sk_face _ _ K) in H.
  destruct (Bool.eqb internal (isInternal f)) eqn:Ei; [|discriminate]. apply Bool.eqb_prop in Ei.
  destruct (m (ptrElementLeft f)) as [e|] eqn:Ee; [|discriminate]. cbn [bind] in H.
  destruct (match the_face c with Some _ => _ | None => _ end) as [[nl nv]|] eqn:Es in H; [|discriminate]. cbn [bind] in H.
  destruct (setElement zero mul vzero m (ptrElementLeft f) (left s)) as [l|] eqn:El; [|discriminate]. cbn [bind] in H.
  destruct (match ptrElementRight f with Some b => _ | None => _ end) as [r|] eqn:Er in H; [|discriminate]. cbn [bind] in H.
  rewrite (ba_point _ _ B) in H.
  set (c' := face_follow getPoint c (FSet_ (SetFace f))).
  assert (Ep : face_point_on c' = face_point_on c).
  { unfold c', face_point_on. cbn. destruct (place_on c) as [w|]; [|reflexivity]. cbn [bind]. destruct (face_point w); reflexivity. }
  assert (Ew : forall d, option_map (place' f d) (place_on c') = match face_point_on c with Some p => Some (place' f d (AtPoint p)) | None => None end).
  { intro d. unfold c', face_point_on. cbn. destruct (place_on c) as [w|]; [|reflexivity]. cbn [bind]. destruct (face_point w); reflexivity. }
  assert (Ea : forall d, actual c' d = Settings (element_of_side f d) (match face_point_on c with Some p => Some (place' f d (AtPoint p)) | None => None end) (by_unknown c) true).
  { intro d. unfold actual. change (the_face c') with (Some f). cbv iota. rewrite Ew. reflexivity. }
  assert (Np : face_point_on c = None -> place_on c = None).
  { unfold face_point_on. intro E. destruct (place_on c) as [w|] eqn:Ewh; [|reflexivity]. exfalso. exact (ba_valid _ _ B _ Ewh E). }
  destruct (match face_point_on c with Some p => setPointReference zero mul m _ l | None => _ end) as [l'|] eqn:El' in H; [|discriminate]. cbn [bind] in H.
  destruct (match face_point_on c with Some p => if internal then _ else _ | None => _ end) as [r'|] eqn:Er' in H; [|discriminate]. cbn [bind] in H.
  destruct (leftRightTransform f) as [t|] eqn:Et; [|discriminate]. cbn [bind fst snd] in H. injection H as <-.
  apply blank_all; [|apply forget_blank; cbn; intros g e' G Ge; congruence]. split.
  - destruct K as [K1 K2 K3 K4 K5 K6 K7 K8 K9]. split; try assumption; cbn.
    + reflexivity.
    + reflexivity.
    + split; [|discriminate]. destruct (first_face c); discriminate.
    + intros f0 F0. destruct (the_face c) as [g|] eqn:G.
      * injection Es as <- <-. destruct (first_face c) as [g0|] eqn:G0; [|discriminate (proj1 K7 eq_refl)]. injection F0 as <-. exact (K8 _ eq_refl).
      * rewrite (proj2 K7 eq_refl) in F0. injection F0 as <-. destruct (rowSizes m f) as [rows|] eqn:Ero; [|discriminate]. cbn [bind] in Es. injection Es as <- <-.
        exists e, rows. split; [exact Ee|]. split; [reflexivity|]. split; [reflexivity|]. intro nk. apply repeat_lengths.
    + intros g G. injection G as <-. split; [exact Et|]. split; [exact Ei|]. now exists e.
  - cbn. symmetry. exact Ep.
  - cbn. intros w E. destruct (place_on c) as [w0|] eqn:E0; [|discriminate]. destruct (face_point w0); [|discriminate]. injection E as <-. discriminate.
  - cbn. discriminate.
  - pose proof (element_set (SetElement (ptrElementLeft f)) _ _ _ (ba_left _ _ B) El) as J1. rewrite (Ea LeftSide).
    destruct (face_point_on c) as [p|] eqn:Epp.
    + pose proof (element_set (SetPointReference (mapPoint (refFaceToRefElemMapL f) p)) _ _ _ J1 El') as J2.
      unfold actual in J2. destruct (the_face c); exact J2.
    + injection El' as <-. cbn [follow] in J1. rewrite (place_on_works c LeftSide (Np eq_refl) : where_ (actual c LeftSide) = None) in J1.
      unfold actual in J1. destruct (the_face c); exact J1.
  - cbn [forget with_normal with_lazies with_normals right]. unfold actual_right. pose proof (ba_right _ _ B) as Ir. unfold actual_right in Ir. unfold isInternal in Ei.
    destruct (ptrElementRight f) as [b|] eqn:Eb.
    + rewrite Ei in *. pose proof (element_set (SetElement b) _ _ _ Ir Er) as J1. rewrite (Ea RightSide). cbn [element_of_side]. rewrite Eb.
      destruct (face_point_on c) as [p|] eqn:Epp.
      * pose proof (element_set (SetPointReference (mapPoint (refFaceToRefElemMapR f) p)) _ _ _ J1 Er') as J2.
        unfold actual in J2. destruct (the_face c); exact J2.
      * injection Er' as <-. cbn [follow] in J1.
        assert (Z : where_ (actual c RightSide) = None) by (unfold actual; destruct (the_face c); cbn; rewrite ?(Np eq_refl); reflexivity). rewrite Z in J1.
        unfold actual in J1. destruct (the_face c); exact J1.
    + rewrite Ei in *. injection Er as <-. destruct (face_point_on c); injection Er' as <-; exact Ir.
  - apply no_normal; reflexivity.
Qed.

Lemma set_all : forall c o s s', all c s -> fset zero mul vzero getPoint mapPoint m o s = Some s' -> all (face_follow getPoint c (FSet_ o)) s'.
Proof.
  intros c o s s' H E. pose proof H as (B & _). destruct o as [f|p|t u|q|i]; cbn [fset] in E.
  - exact (face_all _ _ _ _ H E).
  - exact (point_all _ _ _ _ (base_loose _ _ B) E).
  - exact (transform_all _ _ _ _ _ H E).
  - exact (rule_all _ _ _ _ H E).
  - destruct (index_all _ _ _ _ (base_loose _ _ B) E) as (q & f & Er & A'). cbn [face_follow]. rewrite Er. revert A'. apply same_settings_all; cbn; auto.
Qed.

Lemma new_all : all (face_initially h1) (newPhysicalFace h1 internal).
Proof.
  assert (I0 : peinv m (initially h1) (newPhysicalElement h1)).
  { split; [|discriminate]. split; cbn; [reflexivity| |split; reflexivity]. intros [|[|u]]; reflexivity. }
  apply blank_all.
  - split.
    + split; cbn; try reflexivity; try discriminate; try tauto. intros [|[|u]]; reflexivity.
    + reflexivity.
    + discriminate.
    + reflexivity.
    + exact I0.
    + unfold actual_right. destruct internal; exact I0.
    + now apply no_normal.
  - split; [|split].
    + intros k [|u] l; discriminate.
    + intros nk [|u]; discriminate.
    + discriminate.
Qed.

Notation frun := (frun zero mul vzero vadd vscale transposed determinant getPoint mapPoint l2Norm divide negate product m).
Lemma run_all : forall l c s s', all c s -> frun l s = Some s' -> all (fold_left (face_follow getPoint) l c) s'.
Proof.
  induction l as [|o l IH]; intros c s s' H E.
  - injection E as <-. exact H.
  - cbn in E. destruct (fstep _ _ _ _ _ _ _ _ _ _ _ _ _ m o s) as [s1|] eqn:E1; [|discriminate]. cbn [bind] in E. cbn. refine (IH _ _ _ _ E).
    destruct o as [o|g]; cbn in E1.
    + exact (set_all _ _ _ _ H E1).
    + destruct (fget _ _ _ _ _ _ _ _ _ m g s) as [q|] eqn:Eg; [|discriminate]. injection E1 as <-. exact (get_all _ _ _ _ H Eg).
Qed.

(** *** the answers are the right ones *)
Record well (c : face_settings) : Prop := {
  we_point : forall w, place_on c = Some w -> face_point w <> None;
  we_place : the_face c = None -> place_on c = None;
  we_first : first_face c = None <-> the_face c = None;
  we_glue : forall f, the_face c = Some f -> (exists o, leftRightTransform f = Some o) /\ internal = isInternal f /\ exists e, m (ptrElementLeft f) = Some e }.
Lemma base_well : forall c s, base c s -> well c.
Proof.
  intros c s B. split; [exact (ba_valid _ _ B)|exact (ba_noplace _ _ B)|exact (sk_first _ _ (ba_skel _ _ B))|].
  intros f F. destruct (sk_glue _ _ (ba_skel _ _ B) f F) as (E1 & E2 & E3). split; [eexists; exact E1|]. now split.
Qed.

Notation side_function := (side_function transposed determinant getPoint mapPoint m).
Notation face_function := (face_function transposed determinant getPoint mapPoint m).
Notation normal_function := (normal_function transposed determinant getPoint mapPoint l2Norm divide negate product m).

Section Right.
Variable c : face_settings.
Variable f : face.
Hypothesis W : well c.
Hypothesis O : orderly m c.
Hypothesis F : the_face c = Some f.

Lemma actual_settings : forall d, actual c d = settings_of_side mapPoint c f d.
Proof.
  intro d. unfold actual, settings_of_side. rewrite F. f_equal. destruct (place_on c) as [[p|q i g]|] eqn:Ew; [reflexivity| |reflexivity].
  destruct O as (O1 & _). specialize (O1 _ _ _ Ew). rewrite F in O1. injection O1 as <-. reflexivity.
Qed.
Lemma vdenote_spec : forall cp k u i v, vdenote cp k u i = Some v <-> exists b e w p l, on cp = Some b /\ m b = Some e /\ where_ cp = Some w /\ point_of w = Some p /\
  function_values transposed determinant cp e p w k u l /\ nth_error l i = Some v.
Proof.
  intros cp k u i v. unfold vdenote. split.
  - intro H. destruct (on cp) as [b|]; [|discriminate]. cbn [bind] in H. destruct (m b) as [e|] eqn:Ee; [|discriminate]. cbn [bind] in H.
    destruct (where_ cp) as [w|]; [|discriminate]. cbn [bind] in H. destruct (point_of w) as [p|] eqn:Ep; [|discriminate]. cbn [bind] in H.
    apply right_function_spec in H. destruct H as (l & H1 & H2). exists b, e, w, p, l. auto 10.
  - intros (b & e & w & p & l & -> & Ee & -> & Ep & H). cbn [bind]. rewrite Ee. cbn [bind]. rewrite Ep. cbn [bind]. apply right_function_spec. now exists l.
Qed.
Lemma perform_solve : forall j (r : @request V J D) v, perform_with transposed determinant j r = Some v <-> solves transposed determinant j r v.
Proof. intros j r v. rewrite <- solve_solves. reflexivity. Qed.

Lemma svalue_spec : forall d k u i y, svalue c d k u i = Some y <-> side_function c f k u d i y.
Proof.
  intros d k u i y. destruct (we_glue _ W f F) as ((o & Eo) & Ei & _). unfold PhysicalFace_spec.side_function. destruct d; cbn [svalue].
  - rewrite actual_settings, vdenote_spec. split.
    + intros (b & e & w & p & l & H1 & H2 & H3 & H4 & H5 & H6). exists b, e, w, p, l, y. auto 10.
    + intros (b & e & w & p & l & v & H1 & H2 & H3 & H4 & H5 & H6 & ->). exists b, e, w, p, l. auto 10.
  - unfold actual_right, glued. rewrite F. cbn [bind]. rewrite Eo. cbn [bind]. destruct internal.
    + rewrite actual_settings. split.
      * intro H. destruct (vdenote _ k u i) as [v|] eqn:Ev; [|discriminate]. cbn [bind] in H. apply vdenote_spec in Ev.
        destruct Ev as (b & e & w & p & l & H1 & H2 & H3 & H4 & H5 & H6). exists b, e, w, p, l, v. repeat (split; [assumption|]).
        destruct o as [j|]; [|congruence]. destruct (by_unknown c u) as [t|]; [|discriminate]. cbn [bind] in H. exists t. split; [reflexivity|]. now apply perform_solve.
      * intros (b & e & w & p & l & v & H1 & H2 & H3 & H4 & H5 & H6 & H7).
        assert (Ev : vdenote (settings_of_side mapPoint c f RightSide) k u i = Some v) by (apply vdenote_spec; exists b, e, w, p, l; auto 10).
        rewrite Ev. cbn [bind]. destruct o as [j|]; [|congruence]. destruct H7 as (t & -> & H7). cbn [bind]. now apply perform_solve.
    + split.
      * cbn. discriminate.
      * intros (b & e & w & p & l & v & H1 & _). cbn in H1. unfold isInternal in Ei. rewrite H1 in Ei. discriminate.
Qed.
Lemma nleft_spec : forall u n, nleft c u = Some n <-> left_number m f u n.
Proof.
  intros u n. unfold nleft. destruct (first_face c) as [f0|] eqn:E0.
  2:{ exfalso. apply (we_first _ W) in E0. congruence. }
  destruct O as (_ & O2). destruct (O2 f0 f E0 F u n) as (<- & _). cbn [bind]. unfold left_number. split.
  - intro H. destruct (m (ptrElementLeft f0)) as [e|]; [|discriminate]. now exists e.
  - intros (e & -> & H). exact H.
Qed.
Lemma fvalue_spec : forall k u i y, fvalue c k u i = Some y <-> face_function c f k u i y.
Proof.
  intros k u i y. unfold fvalue, PhysicalFace_spec.face_function. split.
  - intro H. destruct (nleft c u) as [n|] eqn:En; [|discriminate]. cbn [bind] in H. exists n. split; [now apply nleft_spec|]. destruct (i <? n); now apply svalue_spec.
  - intros (n & Hn & H). apply nleft_spec in Hn. rewrite Hn. cbn [bind]. destruct (i <? n); now apply svalue_spec.
Qed.
Lemma all_spec : forall u (g : nat -> option V) R l, (forall i y, g i = Some y <-> R i y) ->
  (n <- getNumberOfBasisFunctions m (Some u) f; collect n g) = Some l <-> all_functions m f u R l.
Proof.
  intros u g R l H. unfold all_functions. split.
  - intro E. destruct (getNumberOfBasisFunctions m (Some u) f) as [n|] eqn:En; [|discriminate]. cbn [bind] in E. apply collect_iff in E. destruct E as (E1 & E2).
    destruct (number_parts _ _ _ En) as (nl & nr & L & R' & ->). exists nl, nr. split; [exact L|]. split; [exact R'|]. split; [exact E1|]. intros i y Hy. apply H. auto.
  - intros (nl & nr & L & R' & E1 & E2). rewrite (number_of_parts _ _ _ _ L R'). cbn [bind]. apply collect_iff. split; [exact E1|]. intros i y Hy. apply H. auto.
Qed.
Lemma flist_spec : forall k u l, flist c k u = Some l <-> all_functions m f u (face_function c f k u) l.
Proof.
  intros k u l. rewrite <- (all_spec u (fvalue c k u) _ l (fvalue_spec k u)). unfold flist. rewrite F. cbn [bind].
  destruct (getNumberOfBasisFunctions m (Some u) f) as [n|] eqn:En; [|tauto]. cbn [bind]. destruct (number_parts _ _ _ En) as (nl & nr & L & _).
  apply nleft_spec in L. rewrite L. cbn [bind]. tauto.
Qed.
Lemma ndenote_spec : forall nk v, ndenote c nk = Some v <-> normal_at getPoint l2Norm divide c f nk v.
Proof.
  intros nk v. unfold ndenote, face_point_on, normal_at. rewrite F. cbn [bind]. split.
  - intro H. destruct (place_on c) as [w|]; [|discriminate]. cbn [bind] in H. destruct (face_point w) as [p|] eqn:Ep; [|discriminate]. cbn [bind] in H.
    injection H as <-. exists w, p. auto.
  - intros (w & p & -> & Ep & ->). cbn [bind]. rewrite Ep. reflexivity.
Qed.

Definition fine_normal (nk : normalKind) (u : nat) : Prop := used nk u = u \/ alike m c (kind_of nk) u.
Lemma alike_function : forall k u d i y, alike m c k u -> side_function c f k u d i y <-> side_function c f k 0 d i y.
Proof.
  intros k u d i y (E & H). unfold PhysicalFace_spec.side_function.
  assert (K : forall b e w p l, on (settings_of_side mapPoint c f d) = Some b -> m b = Some e ->
    function_values transposed determinant (settings_of_side mapPoint c f d) e p w k u l <-> function_values transposed determinant (settings_of_side mapPoint c f d) e p w k 0 l).
  { intros b e w p l Eb Ee. destruct (H f b e d F Eb Ee) as (H1 & H2). unfold function_values. rewrite H1. unfold function_value. cbn [transforms settings_of_side]. rewrite E.
    split; intros (K1 & K2); (split; [exact K1|]); intros j z Hz; specialize (K2 j z Hz); rewrite H2 in *; exact K2. }
  rewrite E. split; intros (b & e & w & p & l & v & H1 & H2 & H3 & H4 & H5 & H6); exists b, e, w, p, l, v; (repeat (split; [assumption|])); (split; [|exact H6]); now apply (K b e w p l H1 H2).
Qed.
Lemma alike_left : forall k u n, alike m c k u -> left_number m f u n <-> left_number m f 0 n.
Proof.
  intros k u n (_ & H). unfold left_number. split; intros (e & E & Hn); exists e; (split; [exact E|]); destruct (H f _ e LeftSide F eq_refl E) as (H1 & _); congruence.
Qed.
Lemma alike_face : forall k u i y, alike m c k u -> face_function c f k u i y <-> face_function c f k 0 i y.
Proof.
  intros k u i y H. unfold PhysicalFace_spec.face_function. split; intros (n & Hn & K); exists n; (split; [now apply (alike_left k u n H)|]);
    destruct (i <? n); now apply (alike_function k u _ _ _ H).
Qed.

Lemma nitem_spec : forall nk u j y, fine_normal nk u -> nitem c nk u j = Some y <-> normal_function c f nk u j y.
Proof.
  intros nk u j y Hf.
  assert (Hu : forall b, face_function c f (kind_of nk) (used nk u) j b <-> face_function c f (kind_of nk) u j b).
  { intro b. destruct Hf as [-> |Hf]; [tauto|]. unfold used. destruct nk; try tauto; symmetry; now apply alike_face. }
  unfold nitem, PhysicalFace_spec.normal_function. split.
  - intro H. destruct (ndenote c nk) as [v|] eqn:Ev; [|discriminate]. cbn [bind] in H. destruct (fvalue c (kind_of nk) (used nk u) j) as [b|] eqn:Eb; [|discriminate].
    cbn [bind] in H. destruct (nleft c u) as [n|] eqn:En; [|discriminate]. injection H as <-. exists n, v, b. split; [now apply nleft_spec|].
    split; [now apply ndenote_spec|]. split; [|reflexivity]. apply Hu. now apply fvalue_spec.
  - intros (n & v & b & Hn & Hv & Hb & ->). apply nleft_spec in Hn. apply ndenote_spec in Hv. apply Hu in Hb. apply fvalue_spec in Hb. rewrite Hv. cbn [bind]. rewrite Hb.
    cbn [bind]. rewrite Hn. reflexivity.
Qed.
Lemma nlist_spec : forall nk u l, fine_normal nk u -> nlist c nk u = Some l <-> all_functions m f u (normal_function c f nk u) l.
Proof.
  intros nk u l Hf. rewrite <- (all_spec u (nitem c nk u) _ l (fun i y => nitem_spec nk u i y Hf)). unfold nlist. rewrite F. reflexivity.
Qed.
End Right.

Lemma place_exists : forall c g a, well c -> fdenote c g = Some a -> exists f w p, the_face c = Some f /\ place_on c = Some w /\ face_point w = Some p.
Proof.
  intros c g a W H.
  destruct (place_on c) as [w|] eqn:Ew.
  - destruct (the_face c) as [f|] eqn:F; [|rewrite (we_place _ W F) in Ew; discriminate]. destruct (face_point w) as [p|] eqn:Ep; [|exfalso; exact (we_point _ W _ Ew Ep)].
    exists f, w, p. auto.
  - exfalso. assert (Ns : forall d k u i, svalue c d k u i = None) by (intros; now apply no_place).
    assert (Nf : forall k u i, fvalue c k u i = None).
    { intros k u i. unfold fvalue. destruct (nleft c u); [|reflexivity]. cbn [bind]. now rewrite !Ns, Tauto.if_same. }
    assert (Nc : forall n (g : nat -> option V) i, (forall j, g j = None) -> (l <- collect n g; nth_error l i) = None).
    { intros n g' i Hg. destruct (collect n g') as [l|] eqn:El; [|reflexivity]. apply collect_iff in El. destruct El as (_ & El). cbn [bind].
      destruct (nth_error l i) as [y|] eqn:Ey; [|reflexivity]. apply El in Ey. congruence. }
    assert (Nl : forall k u i, lvalue c k u i = None).
    { intros k u i. unfold lvalue, flist. destruct (the_face c) as [f|]; [|reflexivity]. cbn [bind]. destruct (getNumberOfBasisFunctions m (Some u) f); [|reflexivity].
      cbn [bind]. destruct (nleft c u); [|reflexivity]. cbn [bind]. now apply Nc. }
    assert (Nd : forall nk, ndenote c nk = None) by (intro nk; unfold ndenote, face_point_on; rewrite Ew; destruct (the_face c); reflexivity).
    assert (Nn : forall nk u i, nvalue c nk u i = None) by (intros; apply nvalue_none, Nd).
    destruct g as [uo k i|d uo k i|nk uo i|d nk uo i|d derivative| | | | |]; cbn [fdenote] in H.
    + rewrite Nf, Nl in H. destruct k; discriminate.
    + rewrite Ns in H. unfold lside in H. rewrite Nl in H. destruct (nleft c (index uo)); cbn [bind] in H; rewrite ?Nl in H; destruct k, d; discriminate.
    + rewrite Nn in H. discriminate.
    + unfold nside in H. rewrite Nn in H. destruct internal, (nleft c (index uo)); cbn [bind] in H; rewrite ?Nn in H; destruct nk, d; discriminate.
    + rewrite pdenote_place in H; [discriminate|now apply place_on_works|destruct derivative; exact I].
    + unfold face_point_on in H. rewrite Ew in H. discriminate.
    + rewrite pdenote_place in H; [discriminate|exact (place_on_works c LeftSide Ew)|exact I].
    + rewrite Nd in H. discriminate.
    + rewrite Nd in H. discriminate.
    + rewrite Nd in H. discriminate.
Qed.

Notation face_answers := (face_answers vzero vadd vscale transposed inverse determinant absolute getPoint mapPoint l2Norm divide negate product m).

Lemma fdenote_spec : forall c g a, well c -> orderly m c -> fine mapPoint m c g -> fdenote c g = Some a <-> face_answers c g a.
Proof.
  intros c g a W O Hf.
  assert (K : forall f w p, the_face c = Some f -> place_on c = Some w -> face_point w = Some p -> fdenote c g = Some a <-> face_answers c g a).
  2:{ split.
      - intro H. destruct (place_exists _ _ _ W H) as (f & w & p & E1 & E2 & E3). now apply (K f w p E1 E2 E3).
      - intro H. pose proof H as (f & w & p & E1 & E2 & E3 & _). now apply (K f w p E1 E2 E3). }
  intros f w p F Ew Ep. unfold PhysicalFace_spec.face_answers.
  assert (X0 : forall R : face -> face_place -> P -> Prop, (exists f w p, the_face c = Some f /\ place_on c = Some w /\ face_point w = Some p /\ R f w p) <-> R f w p).
  { intro R. split; [|intro H; exists f, w, p; auto]. intros (f' & w' & p' & E1 & E2 & E3 & H). rewrite F in E1. injection E1 as <-. rewrite Ew in E2. injection E2 as <-.
    rewrite Ep in E3. injection E3 as <-. exact H. }
  rewrite X0. clear X0.
  assert (Om : forall (x : option V), option_map (@FValue V P X) x = Some a <-> exists y, x = Some y /\ a = FValue y).
  { intros [x|]; cbn; split.
    - intro H. injection H as <-. now exists x.
    - intros (y & Ey & ->). congruence.
    - discriminate.
    - intros (y & Ey & _). discriminate. }
  assert (Ob : forall (x : option (list V)) (R : list V -> Prop) i, (forall l, x = Some l <-> R l) -> forall y, (l <- x; nth_error l i) = Some y <-> exists l, R l /\ nth_error l i = Some y).
  { intros x R i HR y. split.
    - intro H. destruct x as [l|]; [|discriminate]. exists l. split; [now apply HR|exact H].
    - intros (l & Hl & H). apply HR in Hl. rewrite Hl. exact H. }
  assert (Fp : face_point_on c = Some p) by (unfold face_point_on; rewrite Ew; exact Ep).
  assert (Side : forall (x : nat -> option V) (list_of : option (list V)) R u d i, (forall j, x j = (l <- list_of; nth_error l j)) -> (forall l, list_of = Some l <-> R l) ->
    forall y, match d with LeftSide => x i | RightSide => n <- nleft c u; x (i + n) end = Some y <-> exists l j, R l /\ face_index m f u d i j /\ nth_error l j = Some y).
  { intros x lo R u d i Hx HR y. destruct d; cbn [face_index].
    - rewrite Hx, (Ob _ _ _ HR). split; [intros (l & H1 & H2); exists l, i; auto|intros (l & j & H1 & -> & H2); exists l; auto].
    - split.
      + intro H. destruct (nleft c u) as [n|] eqn:En; [|discriminate]. cbn [bind] in H. rewrite Hx in H. apply (Ob _ _ _ HR) in H. destruct H as (l & H1 & H2).
        exists l, (i + n). split; [exact H1|]. split; [|exact H2]. exists n. split; [|reflexivity]. now apply (nleft_spec c f W O F).
      + intros (l & j & H1 & (n & Hn & ->) & H2). apply (nleft_spec c f W O F) in Hn. rewrite Hn. cbn [bind]. rewrite Hx. apply (Ob _ _ _ HR). now exists l. }
  assert (Fn : forall nk uo i, fine mapPoint m c (NormalFunction nk uo i) -> fine_normal c nk (index uo)).
  { intros nk uo i H. unfold fine_normal. destruct nk; cbn in *; auto; destruct uo; auto. }
  destruct g as [uo k i|d uo k i|nk uo i|d nk uo i|d derivative| | | | |]; cbn [fdenote].
  - rewrite Om. destruct k; try (split; intros (y & Hy & E); exists y; (split; [now apply (fvalue_spec c f W O F)|exact E]));
      (split; [intros (y & Hy & E); apply (Ob _ _ _ (fun l => flist_spec c f W O F _ (index uo) l)) in Hy; destruct Hy as (l & H1 & H2); exists l, y; auto
              |intros (l & y & H1 & H2 & E); exists y; split; [|exact E]; apply (Ob _ _ _ (fun l => flist_spec c f W O F _ (index uo) l)); now exists l]).
  - rewrite Om. destruct k; try (split; intros (y & Hy & E); exists y; (split; [now apply (svalue_spec c f W O F)|exact E]));
      (split; [intros (y & Hy & E); apply (Side (lvalue c _ (index uo)) _ _ (index uo) d i (fun j => eq_refl) (fun l => flist_spec c f W O F _ (index uo) l)) in Hy;
               destruct Hy as (l & j & H1 & H2 & H3); exists l, y, j; auto
              |intros (l & y & j & H1 & H2 & H3 & E); exists y; split; [|exact E];
               apply (Side (lvalue c _ (index uo)) _ _ (index uo) d i (fun j => eq_refl) (fun l => flist_spec c f W O F _ (index uo) l)); exists l, j; auto]).
  - rewrite Om. pose proof (fun l => nlist_spec c f W O F nk (index uo) l (Fn nk uo i Hf)) as Sp. split.
    + intros (y & Hy & E). apply (Ob _ _ _ Sp) in Hy. destruct Hy as (l & H1 & H2). exists l, y. auto.
    + intros (l & y & H1 & H2 & E). exists y. split; [|exact E]. apply (Ob _ _ _ Sp). now exists l.
  - assert (Hn : fine_normal c nk (index uo)) by (apply (Fn nk uo i); destruct nk; cbn in *; try contradiction; destruct uo; exact Hf).
    pose proof (fun l => nlist_spec c f W O F nk (index uo) l Hn) as Sp.
    pose proof (Side (nvalue c nk (index uo)) _ _ (index uo) d i (fun j => eq_refl) Sp) as S1.
    assert (En : forall y, nside c d nk (index uo) i = Some y <-> match d with LeftSide => nvalue c nk (index uo) i | RightSide => n <- nleft c (index uo); nvalue c nk (index uo) (i + n) end = Some y).
    { intro y. unfold nside. destruct d; [tauto|]. destruct internal eqn:Ei; [tauto|]. split; [discriminate|]. intro H. exfalso.
      destruct (nleft c (index uo)) as [n|] eqn:El; [|discriminate]. cbn [bind] in H. unfold nvalue in H. destruct (nlist c nk (index uo)) as [l|] eqn:Enl; [|discriminate].
      cbn [bind] in H. pose proof (proj1 (Sp l) eq_refl) as Enl2. destruct Enl2 as (n1 & n2 & L1 & L2 & L3 & _). apply (nleft_spec c f W O F) in L1. rewrite El in L1. injection L1 as <-.
      destruct (we_glue _ W f F) as (_ & E & _). rewrite Ei in E. unfold right_number in L2. unfold isInternal in E. destruct (ptrElementRight f); [discriminate|]. subst n2.
      assert (i + n < length l) by (apply nth_error_Some; congruence). lia. }
    destruct nk; cbn in Hf; try contradiction; rewrite Om; (split;
      [intros (y & Hy & E); apply En, S1 in Hy; destruct Hy as (l & j & H1 & H2 & H3); exists l, y, j; auto
      |intros (l & y & j & H1 & H2 & H3 & E); exists y; split; [|exact E]; apply En, S1; exists l, j; auto]).
  - destruct (Hf f F) as (_ & Hi).
    assert (Es : pdenote (actual_on c d) (sol derivative) = pdenote (settings_of_side mapPoint c f d) (sol derivative)).
    { destruct d; cbn [actual_on]; [now rewrite (actual_settings c f O F)|]. unfold actual_right. destruct internal eqn:Ei; [now rewrite (actual_settings c f O F)|].
      destruct (we_glue _ W f F) as (_ & E & _). rewrite Ei in E. unfold isInternal in E. unfold denote. cbn. destruct (ptrElementRight f); [discriminate|]. destruct derivative; reflexivity. }
    rewrite Es. pose proof (denote_solution vzero vadd vscale transposed inverse determinant absolute getPoint mapPoint m (settings_of_side mapPoint c f d) derivative) as Ds.
    split.
    + intro H. destruct (pdenote (settings_of_side mapPoint c f d) (sol derivative)) as [x|] eqn:Ex; [|discriminate]. cbn [bind] in H. destruct x as [|l| | | | | |]; try discriminate.
      injection H as <-. exists l. split; [|reflexivity]. apply Ds; [exact Hi|exact Ex].
    + intros (l & H & ->). apply Ds in H; [|exact Hi]. unfold sol. rewrite H. reflexivity.
  - rewrite Fp. cbn. split; congruence.
  - rewrite (actual_settings c f O F). unfold denote. cbn [on settings_of_side element_of_side where_ bind]. rewrite Ew.
    destruct (m (ptrElementLeft f)) as [e|] eqn:Ee; cbn [bind option_map].
    2:{ split; [discriminate|]. intros (e & E & _). discriminate. }
    assert (Epp : point_of (place_of_side mapPoint f LeftSide w) = Some (mapPoint (refFaceToRefElemMapL f) p)).
    { destruct w as [p'|q j g]; cbn in *; [congruence|]. rewrite Ep. reflexivity. }
    rewrite Epp. cbn [bind]. split; [intro H; injection H as <-; now exists e|]. intros (e' & E & ->). congruence.
  - unfold ndenote. rewrite F, Fp. cbn. split; congruence.
  - unfold ndenote. rewrite F, Fp. cbn. split; congruence.
  - unfold ndenote. rewrite F, Fp. cbn. split; congruence.
Qed.

Lemma even_even : forall c, even m c -> even_sides c.
Proof.
  intros c H d b e n n' Eb Ee I1 I2. unfold actual_on, actual_right, actual in Eb. destruct (the_face c) as [f|] eqn:F.
  - refine (H f b e n n' d F _ Ee I1 I2). destruct d; [exact Eb|]. destruct internal; [exact Eb|discriminate].
  - destruct d; [discriminate|]. destruct internal; discriminate.
Qed.

Lemma run_answers : forall l s g, frun l (newPhysicalFace h1 internal) = Some s ->
  let c := face_settings_after getPoint h1 l in
  orderly m c -> fine mapPoint m c g ->
  (forall s' a, fget vzero vadd vscale transposed determinant l2Norm divide negate product m g s = Some (s', a) -> face_answers c g a) /\
  ((needs_even g = true -> even m c) -> forall a, face_answers c g a ->
    exists s', fget vzero vadd vscale transposed determinant l2Norm divide negate product m g s = Some (s', a)).
Proof.
  intros l s g H c O Hf. pose proof (run_all l _ _ _ new_all H) as H'. fold (face_settings_after getPoint h1 l) in H'. fold c in H'. pose proof (base_well _ _ (proj1 H')) as W.
  destruct (get_sim c g s H' O) as (R1 & R2). split.
  - intros s' a E. destruct (R1 _ E) as (b & Eb & Es & _). cbn in Es. subst b. now apply fdenote_spec.
  - intros E a Ha. apply fdenote_spec in Ha; [|assumption..]. destruct (R2 (fun K => even_even c (E K)) a Ha) as ([s' a'] & Eg & Es & _). cbn in Es. subst a'. now exists s'.
Qed.
End Proofs.
