From Coq Require Import List Arith Bool Lia.
From Verif Require Import Loop_model Loop_proofs StdMap_model StdMap_proofs PreMesh_model PreShapes_model PreMesh_spec.
Import ListNotations.

Ltac bind_in H := match type of H with
  | match ?x with None => None | Some _ => _ end = Some _ => destruct x eqn:?; [|discriminate H]
  | (let '(_, _) := ?x in _) = Some _ => destruct x
  | (if ?x then _ else _) = Some _ => destruct x eqn:?; try discriminate H
  end; cbv beta iota in H.
Ltac binds H := repeat (bind_in H).

Ltac splits := repeat match goal with |- _ /\ _ => split end.

(** ** Assignments *)
Lemma getEntity_links m d x : getEntity m d x = links_of m d x. Proof. reflexivity. Qed.

Lemma put_element_spec m i e m' : put_element m i e = Some m' ->
  coordinates m' = coordinates m /\ meshEntities m' = meshEntities m /\ length (elementsList m') = length (elementsList m) /\
  i < length (elementsList m) /\ forall j, getElement m' j = if j =? i then Some e else getElement m j.
Proof.
  unfold put_element. intros H. bind_in H. injection H as <-. apply write_inv in Heqo as (H1 & H2 & H3).
  splits; try assumption; reflexivity.
Qed.
Lemma put_element_ok m i e : i < length (elementsList m) -> exists m', put_element m i e = Some m'.
Proof. intros H. unfold put_element. destruct (write_ok (elementsList m) i e H) as (v & -> & _). eexists; reflexivity. Qed.

Lemma put_entity_spec m d i e m' : put_entity m d i e = Some m' ->
  coordinates m' = coordinates m /\ elementsList m' = elementsList m /\ length (meshEntities m') = length (meshEntities m) /\
  links_of m d i <> None /\
  forall d' j, links_of m' d' j = if (d' =? d) && (j =? i) then Some e else links_of m d' j.
Proof.
  unfold put_entity, links_of. intros H. do 3 bind_in H. injection H as <-.
  apply write_inv in Heqo0 as (A1 & A2 & A3). apply write_inv in Heqo1 as (B1 & B2 & B3). cbn.
  splits; try assumption; try reflexivity.
  - apply nth_error_Some. exact A1.
  - intros d' j. rewrite B3. destruct (Nat.eqb_spec d' d) as [->|]; cbn [andb]; [|reflexivity].
    rewrite A3. try rewrite Heqo. reflexivity.
Qed.
Lemma put_entity_ok m d i e : links_of m d i <> None -> exists m', put_entity m d i e = Some m'.
Proof.
  unfold put_entity, links_of. intros H. destruct (nth_error (meshEntities m) d) as [es|] eqn:E; [|congruence].
  apply nth_error_Some in H. destruct (write_ok es i e H) as (v & -> & _).
  assert (H2 : d < length (meshEntities m)) by (apply nth_error_Some; congruence).
  destruct (write_ok (meshEntities m) d v H2) as (w & -> & _). eexists; reflexivity.
Qed.

Lemma put_incidence_spec e d l x e' : put_incidence e d l x = Some e' ->
  referenceGeometry e' = referenceGeometry e /\ globalCoordinateIndices e' = globalCoordinateIndices e /\
  length (incidenceLists e') = length (incidenceLists e) /\
  getIncidentEntityIndex e d l <> None /\
  forall d' j, getIncidentEntityIndex e' d' j = if (d' =? d) && (j =? l) then Some x else getIncidentEntityIndex e d' j.
Proof.
  unfold put_incidence, getIncidentEntityIndex. intros H. do 3 bind_in H. injection H as <-.
  apply write_inv in Heqo0 as (A1 & A2 & A3). apply write_inv in Heqo1 as (B1 & B2 & B3). cbn.
  splits; try assumption; try reflexivity.
  - apply nth_error_Some. exact A1.
  - intros d' j. rewrite B3. destruct (Nat.eqb_spec d' d) as [->|]; cbn [andb]; [|reflexivity].
    rewrite A3. try rewrite Heqo. reflexivity.
Qed.
Lemma put_incidence_ok e d l x : getIncidentEntityIndex e d l <> None -> exists e', put_incidence e d l x = Some e'.
Proof.
  unfold put_incidence, getIncidentEntityIndex. intros H. destruct (nth_error (incidenceLists e) d) as [es|] eqn:E; [|congruence].
  apply nth_error_Some in H. destruct (write_ok es l x H) as (v & -> & _).
  assert (H2 : d < length (incidenceLists e)) by (apply nth_error_Some; congruence).
  destruct (write_ok (incidenceLists e) d v H2) as (w & -> & _). eexists; reflexivity.
Qed.

Lemma part_of_get m d el l : part_of m d el l = (e <- getElement m el; getIncidentEntityIndex e d l).
Proof. reflexivity. Qed.

Lemma nodup_snoc {A} (l : list A) x : NoDup l -> ~ In x l -> NoDup (l ++ [x]).
Proof.
  intros H1 H2. apply NoDup_rev in H1. rewrite <- (rev_involutive (l ++ [x])), rev_app_distr. apply NoDup_rev. cbn.
  constructor; [rewrite <- in_rev; exact H2|exact H1].
Qed.

(** ** Removing a link *)
Lemma removeElement_in e el l : In (el, l) e -> exists e', removeElement e el l = Some e' /\ S (length e') = length e /\
  (NoDup e -> NoDup e' /\ forall p, In p e' <-> In p e /\ p <> (el, l)).
Proof.
  induction e as [|(a, b) e IH]; intros H; [destruct H|]. cbn [removeElement].
  destruct (Nat.eqb_spec a el) as [->|N]; [destruct (Nat.eqb_spec b l) as [->|N]|]; cbn [andb].
  - eexists; split; [reflexivity|]. split; [reflexivity|]. intros ND. inversion ND; subst. split; [assumption|].
    intros p. cbn. split; [|intros [[H0| H0] H1]; [congruence|assumption]]. intros Hp. split; [tauto|].
    intros ->. contradiction.
  - destruct H as [H|H]; [congruence|]. destruct (IH H) as (e' & -> & HL & Hp). eexists; split; [reflexivity|].
    split; [cbn; congruence|]. intros ND. inversion ND; subst. destruct (Hp H3) as [N1 N2].
    split.
    + constructor; [|assumption]. rewrite N2. tauto.
    + intros p. cbn. rewrite N2. split; [|tauto]. intros [<-|[H5 H6]]; [|tauto]. split; [tauto|congruence].
  - destruct H as [H|H]; [congruence|]. destruct (IH H) as (e' & -> & HL & Hp). eexists; split; [reflexivity|].
    split; [cbn; congruence|]. intros ND. inversion ND; subst. destruct (Hp H3) as [N1 N2].
    split.
    + constructor; [|assumption]. rewrite N2. tauto.
    + intros p. cbn. rewrite N2. split; [|tauto]. intros [<-|[H5 H6]]; [|tauto]. split; [tauto|congruence].
Qed.

(** ** The links between elements and entities *)
Definition linked (m : mesh) : Prop :=
  (forall d x en, links_of m d x = Some en -> NoDup en /\ forall el l, In (el, l) en <-> part_of m d el l = Some x) /\
  (forall d el l x, part_of m d el l = Some x -> exists en, links_of m d x = Some en).

Definition same_slot (d el l d' el' l' : nat) : bool := (d' =? d) && (el' =? el) && (l' =? l).

Lemma same_slot_spec d el l d' el' l' : reflect ((d', el', l') = (d, el, l)) (same_slot d el l d' el' l').
Proof.
  unfold same_slot. destruct (Nat.eqb_spec d' d); [|constructor; congruence].
  destruct (Nat.eqb_spec el' el); [|constructor; congruence].
  destruct (Nat.eqb_spec l' l); constructor; congruence.
Qed.

Lemma relink_ok m d el l x g : linked m -> part_of m d el l = Some x -> links_of m d g <> None ->
  exists m', relink m d el l g = Some m' /\ linked m' /\
    (forall d' el' l', part_of m' d' el' l' = if same_slot d el l d' el' l' then Some g else part_of m d' el' l') /\
    (forall el' l', coord_of m' el' l' = coord_of m el' l') /\ (forall el', shape_of m' el' = shape_of m el') /\
    coordinates m' = coordinates m /\ length (meshEntities m') = length (meshEntities m) /\
    length (elementsList m') = length (elementsList m) /\
    (forall d' y, links_of m' d' y = None <-> links_of m d' y = None) /\
    (x <> g -> forall en, links_of m d x = Some en -> exists en', links_of m' d x = Some en' /\ S (length en') = length en) /\
    (forall d' y, (d' = d -> y <> x /\ y <> g) -> links_of m' d' y = links_of m d' y).
Proof.
  intros [HL HE] Hx Hg. unfold relink.
  pose proof Hx as Hx'. rewrite part_of_get in Hx'. destruct (getElement m el) as [e|] eqn:Ee; [|discriminate].
  rewrite Hx'. destruct (Nat.eqb_spec x g) as [->|N].
  - exists m. split; [reflexivity|]. split; [split; assumption|]. split.
    + intros d' el' l'. destruct (same_slot_spec d el l d' el' l') as [E|]; [|reflexivity]. congruence.
    + splits; try tauto. 
  - destruct (put_incidence_ok e d l g) as (e' & Ee'); [congruence|]. rewrite Ee'.
    apply put_incidence_spec in Ee' as (P1 & P2 & P3 & _ & P4).
    assert (Hlt : el < length (elementsList m)) by (apply nth_error_Some; unfold getElement in Ee; congruence).
    destruct (put_element_ok m el e' Hlt) as (m1 & Em1). rewrite Em1.
    apply put_element_spec in Em1 as (Q1 & Q2 & Q3 & _ & Q4).
    assert (LK : forall d' y, links_of m1 d' y = links_of m d' y) by (intros; unfold links_of; rewrite Q2; reflexivity).
    destruct (HE _ _ _ _ Hx) as (en & Hen). rewrite getEntity_links, LK, Hen.
    destruct (HL _ _ _ Hen) as [ND Hin].
    destruct (removeElement_in en el l) as (old & Eold & Lold & Sold); [apply Hin, Hx|]. rewrite Eold.
    destruct (Sold ND) as [NDo Ino].
    destruct (put_entity_ok m1 d x old) as (m2 & Em2); [rewrite LK, Hen; discriminate|]. rewrite Em2.
    apply put_entity_spec in Em2 as (R1 & R2 & R3 & _ & R4).
    destruct (links_of m d g) as [gn|] eqn:Egn; [clear Hg|congruence].
    assert (Hg2 : links_of m2 d g = Some gn).
    { rewrite R4, LK, Egn. destruct (Nat.eqb_spec g x); [congruence|]. rewrite andb_false_r. reflexivity. }
    rewrite getEntity_links, Hg2.
    destruct (put_entity_ok m2 d g (addElementLink gn el l)) as (m3 & Em3); [congruence|]. rewrite Em3.
    apply put_entity_spec in Em3 as (T1 & T2 & T3 & _ & T4).
    exists m3. split; [reflexivity|].
    assert (PO : forall d' el' l', part_of m3 d' el' l' = if same_slot d el l d' el' l' then Some g else part_of m d' el' l').
    { intros d' el' l'. rewrite !part_of_get.
      replace (getElement m3 el') with (getElement m1 el') by (unfold getElement; congruence).
      rewrite Q4. unfold same_slot. destruct (Nat.eqb_spec el' el) as [->|].
      - rewrite P4, Ee. rewrite (andb_true_r (d' =? d)). reflexivity.
      - rewrite (andb_false_r (d' =? d)). reflexivity. }
    assert (LO : forall d' y, links_of m3 d' y =
      if (d' =? d) && (y =? g) then Some (addElementLink gn el l) else if (d' =? d) && (y =? x) then Some old else links_of m d' y).
    { intros. rewrite T4, R4, LK. reflexivity. }
    assert (CO : forall el' e1, getElement m3 el' = Some e1 -> exists e0, getElement m el' = Some e0 /\
      globalCoordinateIndices e1 = globalCoordinateIndices e0 /\ referenceGeometry e1 = referenceGeometry e0).
    { intros el' e1. replace (getElement m3 el') with (getElement m1 el') by (unfold getElement; congruence).
      rewrite Q4. destruct (Nat.eqb_spec el' el) as [->|].
      - intros E. injection E as <-. exists e. split; [exact Ee|]. split; assumption.
      - intros E. exists e1. auto. }
    assert (LEN : length (elementsList m3) = length (elementsList m)) by congruence.
    assert (EQ : forall el', match getElement m3 el', getElement m el' with
        | Some e1, Some e0 => globalCoordinateIndices e1 = globalCoordinateIndices e0 /\ referenceGeometry e1 = referenceGeometry e0
        | None, None => True | _, _ => False end).
    { intros el'. destruct (getElement m3 el') as [e1|] eqn:E1.
      - destruct (CO _ _ E1) as (e0 & -> & A & B). auto.
      - destruct (getElement m el') eqn:E0; [|exact I]. unfold getElement in *.
        apply nth_error_None in E1. assert (el' < length (elementsList m)) by (apply nth_error_Some; congruence). lia. }
    split; [split|split; [exact PO|]].
    + intros d' y en'. rewrite LO. destruct (Nat.eqb_spec d' d) as [->|Nd]; cbn [andb].
      * destruct (Nat.eqb_spec y g) as [->|Ny].
        -- intros E. injection E as <-. destruct (HL _ _ _ Egn) as [NDg Ing]. unfold addElementLink. split.
           ++ apply nodup_snoc; [exact NDg|]. rewrite Ing, Hx. congruence.
           ++ intros el' l'. rewrite PO, in_app_iff, Ing. destruct (same_slot_spec d el l d el' l') as [E|E].
              ** injection E as -> ->. cbn. tauto.
              ** cbn. intuition congruence.
        -- destruct (Nat.eqb_spec y x) as [->|Nx].
           ++ intros E. injection E as <-. split; [exact NDo|]. intros el' l'. rewrite Ino, PO, Hin.
              destruct (same_slot_spec d el l d el' l') as [E|E]; [intuition congruence|]. intuition congruence.
           ++ intros E. destruct (HL _ _ _ E) as [A B]. split; [exact A|]. intros el' l'. rewrite B, PO.
              destruct (same_slot_spec d el l d el' l') as [F|F]; [|tauto]. injection F as -> ->. rewrite Hx. intuition congruence.
      * intros E. destruct (HL _ _ _ E) as [A B]. split; [exact A|]. intros el' l'. rewrite B, PO.
        destruct (same_slot_spec d el l d' el' l') as [F|F]; [|tauto]. congruence.
    + intros d' el' l' y. rewrite PO, LO. destruct (same_slot_spec d el l d' el' l') as [F|F].
      * injection F as -> -> ->. intros E. injection E as <-. rewrite !Nat.eqb_refl. cbn. eauto.
      * intros E. destruct (HE _ _ _ _ E) as (en' & E'). destruct (d' =? d); cbn [andb]; [|eauto]. destruct (y =? g); [eauto|].
        destruct (y =? x); eauto.
    + splits.
      * intros el' l'. unfold coord_of. specialize (EQ el'). unfold getElement in EQ.
        destruct (nth_error (elementsList m3) el'), (nth_error (elementsList m) el'); try tauto. destruct EQ as [-> _]. reflexivity.
      * intros el'. unfold shape_of. specialize (EQ el'). unfold getElement in EQ.
        destruct (nth_error (elementsList m3) el'), (nth_error (elementsList m) el'); try tauto. cbn. destruct EQ as [_ ->]. reflexivity.
      * congruence.
      * congruence.
      * exact LEN.
      * intros d' y. rewrite LO. destruct (Nat.eqb_spec d' d) as [->|]; cbn [andb]; [|tauto].
        destruct (Nat.eqb_spec y g) as [->|]; [split; congruence|]. destruct (Nat.eqb_spec y x) as [->|]; [split; congruence|tauto].
      * intros _ en0 E0. rewrite LO, !Nat.eqb_refl. destruct (Nat.eqb_spec x g); [congruence|]. cbn [andb].
        exists old. split; [reflexivity|]. congruence.
      * intros d' y Hy. rewrite LO. destruct (Nat.eqb_spec d' d) as [->|]; cbn [andb]; [|reflexivity].
        destruct (Hy eq_refl). destruct (Nat.eqb_spec y g); [contradiction|]. destruct (Nat.eqb_spec y x); [contradiction|]. reflexivity.
Qed.

(** ** Merging *)
Lemma consistent_iff m : consistent m <-> linked m /\ forall el l,
    match part_of m 0 el l, coord_of m el l with
    | Some x, Some c => nth_error (coordinates m) c = Some (Some x)
    | None, None => True
    | _, _ => False
    end.
Proof.
  split.
  - intros [A B C]. split; [split; assumption|exact C].
  - intros [[A B] C]. constructor; assumption.
Qed.

Lemma setNode_same m el l g c : coord_of m el l = Some c -> nodeIndex m c = Some g -> setNode m el l g c = relink m 0 el l g.
Proof.
  unfold coord_of, setNode, getElement. destruct (nth_error (elementsList m) el) as [e|] eqn:E; [|discriminate]. intros Hc Hn.
  assert (W : write (globalCoordinateIndices e) l c = Some (globalCoordinateIndices e)).
  { destruct (write_ok (globalCoordinateIndices e) l c) as (v & Hv & HL & HN); [apply nth_error_Some; congruence|].
    rewrite Hv. f_equal. apply nth_error_ext_le; [exact HL|]. intros i _. rewrite HN. destruct (Nat.eqb_spec i l) as [->|]; congruence. }
  rewrite W.
  assert (W2 : write (elementsList m) el e = Some (elementsList m)).
  { destruct (write_ok (elementsList m) el e) as (v & Hv & HL & HN); [apply nth_error_Some; congruence|].
    rewrite Hv. f_equal. apply nth_error_ext_le; [exact HL|]. intros i _. rewrite HN. destruct (Nat.eqb_spec i el) as [->|]; congruence. }
  unfold put_element. destruct e as [a b k]. cbn [referenceGeometry incidenceLists globalCoordinateIndices] in *. rewrite W2.
  destruct m as [mc me ml]. unfold set_elements. cbn [coordinates meshEntities elementsList] in *. rewrite Hn, Nat.eqb_refl. reflexivity.
Qed.

(** the state of a mesh while entity [s] is merged into [t]; [m0] is the mesh before *)
Record merging (m0 : mesh) (d t s : nat) (m : mesh) : Prop := {
  mg_linked : linked m;
  mg_part : forall d' el l, part_of m d' el l = part_of m0 d' el l \/
      (d' = d /\ part_of m0 d' el l = Some s /\ part_of m d' el l = Some t);
  mg_coord : forall el l, coord_of m el l = coord_of m0 el l;
  mg_shape : forall el, shape_of m el = shape_of m0 el;
  mg_coordinates : forall c, nth_error (coordinates m) c = nth_error (coordinates m0) c \/
      (d = 0 /\ nth_error (coordinates m0) c = Some (Some s) /\ nth_error (coordinates m) c = Some (Some t));
  mg_moved : d = 0 -> forall el l c, part_of m0 0 el l = Some s -> part_of m 0 el l = Some t -> coord_of m el l = Some c ->
      nth_error (coordinates m) c = Some (Some t);
  mg_dim : length (meshEntities m) = length (meshEntities m0);
  mg_elements : length (elementsList m) = length (elementsList m0);
  mg_exist : forall d' y, links_of m d' y = None <-> links_of m0 d' y = None;
  mg_len : length (coordinates m) = length (coordinates m0);
  mg_other : forall d' y, (d' = d -> y <> s /\ y <> t) -> links_of m d' y = links_of m0 d' y }.

Lemma merge_loop_ok m0 d t s : consistent m0 -> links_of m0 d t <> None -> s <> t ->
  forall fuel m src, merging m0 d t s m -> links_of m d s = Some src -> length src <= fuel ->
  exists m', merge_loop fuel d t s m = Some m' /\ merging m0 d t s m' /\ links_of m' d s = Some [].
Proof.
  intros C0 Ht Nst. apply consistent_iff in C0 as [L0 K0].
  induction fuel as [|fuel IH]; intros m src M Hs Hlen; destruct src as [|(el, l) src]; cbn [length] in Hlen; try lia.
  - exists m. cbn [merge_loop]. rewrite getEntity_links, Hs. auto.
  - exists m. cbn [merge_loop]. rewrite getEntity_links, Hs. auto.
  - cbn [merge_loop]. rewrite getEntity_links, Hs.
    destruct (proj1 (mg_linked _ _ _ _ _ M) _ _ _ Hs) as [ND Hin].
    assert (Hp : part_of m d el l = Some s) by (apply Hin; left; reflexivity).
    assert (Hp0 : part_of m0 d el l = Some s) by (destruct (mg_part _ _ _ _ _ M d el l) as [E|(_ & _ & E)]; congruence).
    destruct d as [|d].
    + pose proof (K0 el l) as K. rewrite Hp0 in K. destruct (coord_of m0 el l) as [c|] eqn:Hc0; [|contradiction].
      assert (Hc : coord_of m el l = Some c) by (rewrite (mg_coord _ _ _ _ _ M); exact Hc0).
      pose proof Hc as Hc'. unfold coord_of in Hc'. unfold getElement at 1. destruct (nth_error (elementsList m) el) as [e|] eqn:Ee; [|discriminate].
      unfold getCoordinateIndex. rewrite Hc'.
      assert (Hn : exists n, nth_error (coordinates m) c = Some (Some n) /\ ((n =? s) || (n =? t)) = true).
      { destruct (mg_coordinates _ _ _ _ _ M c) as [E|(_ & _ & E)]; rewrite E.
        - exists s. rewrite K, Nat.eqb_refl. auto.
        - exists t. rewrite Nat.eqb_refl, orb_true_r. auto. }
      destruct Hn as (n & En & Bn). unfold nodeIndex. rewrite En, Bn.
      destruct (write_ok (coordinates m) c (Some t)) as (cs & -> & HL & HN); [apply nth_error_Some; congruence|].
      set (m1 := set_coordinates m cs).
      rewrite (setNode_same m1 el l t c); [|exact Hc|unfold nodeIndex, m1; cbn; rewrite HN, Nat.eqb_refl; reflexivity].
      destruct (relink_ok m1 0 el l s t) as (m2 & -> & L2 & P2 & CO2 & S2 & Cs2 & D2 & E2 & X2 & Le2 & O2).
      { exact (mg_linked _ _ _ _ _ M). } { exact Hp. }
      { intros F. apply Ht, (mg_exist _ _ _ _ _ M). exact F. }
      destruct (Le2 Nst _ Hs) as (src' & Hs' & Hl'). cbn [length] in Hl'.
      apply (IH m2 src'); [|exact Hs'|lia]. constructor.
      * exact L2.
      * intros d' el' l'. rewrite P2. destruct (same_slot_spec 0 el l d' el' l') as [E|E].
        -- injection E as -> -> ->. right. auto.
        -- exact (mg_part _ _ _ _ _ M d' el' l').
      * intros. rewrite CO2. apply (mg_coord _ _ _ _ _ M).
      * intros. rewrite S2. apply (mg_shape _ _ _ _ _ M).
      * intros c'. rewrite Cs2. cbn. rewrite HN. destruct (Nat.eqb_spec c' c) as [->|]; [|apply (mg_coordinates _ _ _ _ _ M)].
        right. splits; auto.
      * intros _ el' l' c' A B Cc. rewrite Cs2. cbn. rewrite HN. destruct (Nat.eqb_spec c' c) as [->|]; [reflexivity|].
        rewrite P2 in B. rewrite CO2 in Cc. change (coord_of m1 el' l') with (coord_of m el' l') in Cc.
        destruct (same_slot_spec 0 el l 0 el' l') as [E|E].
        -- injection E as -> ->. congruence.
        -- exact (mg_moved _ _ _ _ _ M eq_refl el' l' c' A B Cc).
      * rewrite D2. apply (mg_dim _ _ _ _ _ M).
      * rewrite E2. apply (mg_elements _ _ _ _ _ M).
      * intros. rewrite X2. apply (mg_exist _ _ _ _ _ M).
      * rewrite Cs2. cbn. rewrite HL. apply (mg_len _ _ _ _ _ M).
      * intros d' y Hy. rewrite O2 by exact Hy. apply (mg_other _ _ _ _ _ M). exact Hy.
    + unfold setEntity.
      destruct (relink_ok m (S d) el l s t) as (m2 & -> & L2 & P2 & CO2 & S2 & Cs2 & D2 & E2 & X2 & Le2 & O2).
      { exact (mg_linked _ _ _ _ _ M). } { exact Hp. }
      { intros F. apply Ht, (mg_exist _ _ _ _ _ M). exact F. }
      destruct (Le2 Nst _ Hs) as (src' & Hs' & Hl'). cbn [length] in Hl'.
      apply (IH m2 src'); [|exact Hs'|lia]. constructor.
      * exact L2.
      * intros d' el' l'. rewrite P2. destruct (same_slot_spec (S d) el l d' el' l') as [E|E].
        -- injection E as -> -> ->. right. auto.
        -- exact (mg_part _ _ _ _ _ M d' el' l').
      * intros. rewrite CO2. apply (mg_coord _ _ _ _ _ M).
      * intros. rewrite S2. apply (mg_shape _ _ _ _ _ M).
      * intros c'. rewrite Cs2. apply (mg_coordinates _ _ _ _ _ M).
      * discriminate.
      * rewrite D2. apply (mg_dim _ _ _ _ _ M).
      * rewrite E2. apply (mg_elements _ _ _ _ _ M).
      * intros. rewrite X2. apply (mg_exist _ _ _ _ _ M).
      * rewrite Cs2. apply (mg_len _ _ _ _ _ M).
      * intros d' y Hy. rewrite O2 by exact Hy. apply (mg_other _ _ _ _ _ M). exact Hy.
Qed.

(** what a merge does to the parts of the elements *)
Definition renamed (d t s d' : nat) (x : nat) : nat := if (d' =? d) && (x =? s) then t else x.

Record merged_into (d t s : nat) (m m' : mesh) : Prop := {
  mi_consistent : consistent m';
  mi_part : forall d' el l, part_of m' d' el l = option_map (renamed d t s d') (part_of m d' el l);
  mi_coord : forall el l, coord_of m' el l = coord_of m el l;
  mi_shape : forall el, shape_of m' el = shape_of m el;
  mi_dim : length (meshEntities m') = length (meshEntities m);
  mi_elements : length (elementsList m') = length (elementsList m);
  mi_exist : forall d' y, links_of m' d' y = None <-> links_of m d' y = None;
  mi_coordinates : forall c, nth_error (coordinates m') c = nth_error (coordinates m) c \/
      (d = 0 /\ nth_error (coordinates m) c = Some (Some s) /\ nth_error (coordinates m') c = Some (Some t));
  mi_empty : links_of m' d s = Some [];
  mi_other : forall d' y, (d' = d -> y <> s /\ y <> t) -> links_of m' d' y = links_of m d' y }.

Lemma merge_ok m d t s : consistent m -> links_of m d t <> None -> links_of m d s <> None -> s <> t ->
  exists m', merge m d t s = Some m' /\ merged_into d t s m m'.
Proof.
  intros C Ht Hs Nst. unfold merge. rewrite getEntity_links. destruct (links_of m d s) as [src|] eqn:Es; [|congruence].
  pose proof C as C'. apply consistent_iff in C' as [L K].
  destruct (merge_loop_ok m d t s C Ht Nst (length src) m src) as (m' & E & M & Hend); [|exact Es|lia|].
  { constructor; try assumption; auto; try tauto. intros -> el l c A B. congruence. }
  exists m'. split; [exact E|].
  destruct M as [ML MP MC MS MCs MM MD ME MX MLen MO].
  assert (GONE : forall el l, part_of m' d el l <> Some s).
  { intros el l F. destruct (proj1 ML _ _ _ Hend) as [_ Hin]. apply Hin in F. destruct F. }
  assert (PART : forall d' el l, part_of m' d' el l = option_map (renamed d t s d') (part_of m d' el l)).
  { intros d' el l. unfold renamed. destruct (MP d' el l) as [E1|(-> & E1 & E2)].
    - rewrite E1. destruct (part_of m d' el l) as [x|] eqn:Ex; [|reflexivity]. cbn. f_equal.
      destruct (Nat.eqb_spec d' d) as [->|]; [|reflexivity]. destruct (Nat.eqb_spec x s) as [->|]; [|reflexivity].
      exfalso. apply (GONE el l). congruence.
    - rewrite E1, E2. cbn. rewrite !Nat.eqb_refl. reflexivity. }
  constructor; try assumption.
  apply consistent_iff. split; [exact ML|]. intros el l. rewrite PART, MC. specialize (K el l).
  destruct (part_of m 0 el l) as [x|] eqn:Ex, (coord_of m el l) as [c|] eqn:Ec; cbn; try assumption.
  unfold renamed. destruct (Nat.eqb_spec 0 d) as [<-|Nd]; cbn [andb].
  - destruct (Nat.eqb_spec x s) as [->|Nx].
    + apply (MM eq_refl el l c); [exact Ex| |rewrite MC; exact Ec]. rewrite PART, Ex. cbn. unfold renamed. rewrite !Nat.eqb_refl. reflexivity.
    + destruct (MCs c) as [E1|(_ & E1 & E2)]; congruence.
  - destruct (MCs c) as [E1|(E0 & _)]; congruence.
Qed.

Lemma merge_inv m d t s m' : consistent m -> merge m d t s = Some m' ->
  links_of m d s <> None /\ (m' = m \/ links_of m d t <> None /\ s <> t).
Proof.
  intros C H. unfold merge in H. rewrite getEntity_links in H. destruct (links_of m d s) as [src|] eqn:Es; [|discriminate].
  split; [discriminate|]. destruct src as [|(el, l) src].
  - cbn in H. rewrite getEntity_links, Es in H. injection H as <-. auto.
  - right. pose proof C as C'. apply consistent_iff in C' as [L K].
    destruct (proj1 L _ _ _ Es) as [ND Hin]. assert (Hp : part_of m d el l = Some s) by (apply Hin; left; reflexivity).
    destruct (Nat.eq_dec s t) as [->|N].
    + exfalso.
      assert (F : forall fuel m1, elementsList m1 = elementsList m -> meshEntities m1 = meshEntities m -> merge_loop fuel d t t m1 = None).
      { induction fuel as [|fuel IH]; intros m1 E1 E2; cbn [merge_loop]; rewrite getEntity_links;
          (replace (links_of m1 d t) with (links_of m d t) by (unfold links_of; rewrite E2; reflexivity)); rewrite Es; [reflexivity|].
        assert (Q : forall m2, elementsList m2 = elementsList m -> relink m2 d el l t = Some m2).
        { intros m2 Em2. unfold relink. rewrite part_of_get in Hp. unfold getElement in *. rewrite Em2.
          destruct (nth_error (elementsList m) el); [|discriminate]. rewrite Hp, Nat.eqb_refl. reflexivity. }
        destruct d as [|d].
        - destruct (getElement m1 el) as [e|] eqn:Ee; [|reflexivity]. destruct (getCoordinateIndex e l) as [c|] eqn:Ec; [|reflexivity].
          destruct (nodeIndex m1 c) as [n|] eqn:En; [|reflexivity]. destruct ((n =? t) || (n =? t)); [|reflexivity].
          destruct (write (coordinates m1) c (Some t)) as [cs|] eqn:Ew; [|reflexivity].
          apply write_inv in Ew as (W1 & W2 & W3).
          rewrite setNode_same.
          + rewrite Q by exact E1. apply IH; assumption.
          + unfold coord_of, getElement, getCoordinateIndex in *. cbn. rewrite Ee. exact Ec.
          + unfold nodeIndex. cbn. rewrite W3, Nat.eqb_refl. reflexivity.
        - unfold setEntity. rewrite Q by exact E1. apply IH; assumption. }
      rewrite F in H by reflexivity. discriminate.
    + split; [|exact N]. intros Ht. cbn [length merge_loop] in H. rewrite getEntity_links, Es in H.
      assert (Q : forall m2, elementsList m2 = elementsList m -> meshEntities m2 = meshEntities m -> relink m2 d el l t = None).
      { intros m2 Em2 Ee2. unfold relink. rewrite part_of_get in Hp. unfold getElement in *. rewrite Em2.
        destruct (nth_error (elementsList m) el) as [e|] eqn:Ee; [|discriminate]. rewrite Hp.
        destruct (Nat.eqb_spec s t); [contradiction|].
        destruct (put_incidence e d l t); [|reflexivity]. destruct (put_element m2 el e0) as [m3|] eqn:E3; [|reflexivity].
        apply put_element_spec in E3 as (_ & P2 & _). destruct (getEntity m3 d s); [|reflexivity].
        destruct (removeElement e1 el l); [|reflexivity]. destruct (put_entity m3 d s e2) as [m4|] eqn:E4; [|reflexivity].
        apply put_entity_spec in E4 as (_ & _ & _ & _ & R4). rewrite getEntity_links, R4.
        destruct (Nat.eqb_spec t s); [congruence|]. rewrite andb_false_r.
        replace (links_of m3 d t) with (links_of m d t) by (unfold links_of; rewrite P2, Ee2; reflexivity). rewrite Ht. reflexivity. }
      destruct d as [|d].
      * destruct (getElement m el) as [e|] eqn:Ee; [|discriminate]. destruct (getCoordinateIndex e l) as [c|] eqn:Ec; [|discriminate].
        destruct (nodeIndex m c) as [n|] eqn:En; [|discriminate]. destruct ((n =? s) || (n =? t)); [|discriminate].
        destruct (write (coordinates m) c (Some t)) as [cs|] eqn:Ew; [|discriminate].
        apply write_inv in Ew as (W1 & W2 & W3).
        rewrite setNode_same in H.
        -- rewrite Q in H by reflexivity. discriminate.
        -- unfold coord_of, getElement, getCoordinateIndex in *. cbn. rewrite Ee. exact Ec.
        -- unfold nodeIndex. cbn. rewrite W3, Nat.eqb_refl. reflexivity.
      * unfold setEntity in H. rewrite Q in H by reflexivity. discriminate.
Qed.

(** ** New entities and links *)
Lemma nth_snoc {A} (l : list A) x j : nth_error (l ++ [x]) j = if j =? length l then Some x else nth_error l j.
Proof.
  destruct (Nat.eqb_spec j (length l)) as [->|N].
  - rewrite nth_error_app2, Nat.sub_diag by lia. reflexivity.
  - destruct (Nat.lt_ge_cases j (length l)) as [G|G].
    + rewrite nth_error_app1 by exact G. reflexivity.
    + transitivity (@None A); [apply nth_error_None; rewrite app_length; cbn; lia|]. symmetry. apply nth_error_None. exact G.
Qed.
Lemma linked_add m m' d x en el l : linked m -> links_of m d x = Some en -> part_of m d el l = None ->
  (forall d' el' l', part_of m' d' el' l' = if same_slot d el l d' el' l' then Some x else part_of m d' el' l') ->
  (forall d' y, links_of m' d' y = if (d' =? d) && (y =? x) then Some (en ++ [(el, l)]) else links_of m d' y) -> linked m'.
Proof.
  intros [HL HE] Hen Hp PO LO. split.
  - intros d' y en'. rewrite LO. destruct (Nat.eqb_spec d' d) as [->|Nd]; cbn [andb]; [destruct (Nat.eqb_spec y x) as [->|Ny]|].
    + intros E. injection E as <-. destruct (HL _ _ _ Hen) as [ND Hin]. split.
      * apply nodup_snoc; [exact ND|]. rewrite Hin, Hp. discriminate.
      * intros el' l'. rewrite in_app_iff, PO, Hin. destruct (same_slot_spec d el l d el' l') as [E|E].
        -- injection E as -> ->. cbn. tauto.
        -- cbn. intuition congruence.
    + intros E. destruct (HL _ _ _ E) as [ND Hin]. split; [exact ND|]. intros el' l'. rewrite PO, Hin.
      destruct (same_slot_spec d el l d el' l') as [F|F]; [|tauto]. injection F as -> ->. intuition congruence.
    + intros E. destruct (HL _ _ _ E) as [ND Hin]. split; [exact ND|]. intros el' l'. rewrite PO, Hin.
      destruct (same_slot_spec d el l d' el' l') as [F|F]; [congruence|tauto].
  - intros d' el' l' y. rewrite PO, LO. destruct (same_slot_spec d el l d' el' l') as [F|F].
    + injection F as -> -> ->. intros E. injection E as <-. rewrite !Nat.eqb_refl. cbn. eauto.
    + intros E. destruct ((d' =? d) && (y =? x)); eauto.
Qed.

Lemma newEntity_spec m d m' x : newEntity m d = Some (m', x) ->
  coordinates m' = coordinates m /\ elementsList m' = elementsList m /\ length (meshEntities m') = length (meshEntities m) /\
  links_of m d x = None /\ forall d' y, links_of m' d' y = if (d' =? d) && (y =? x) then Some [] else links_of m d' y.
Proof.
  unfold newEntity, links_of. intros H. do 2 bind_in H. injection H as <- <-. apply write_inv in Heqo0 as (A & B & C).
  splits; try reflexivity; [exact B| |].
  - apply nth_error_None. apply le_n.
  - intros d' y. cbn. rewrite C. destruct (Nat.eqb_spec d' d) as [->|]; cbn [andb]; [|reflexivity]. rewrite Heqo.
    apply nth_snoc.
Qed.
Lemma newEntity_ok m d : d < length (meshEntities m) -> exists m' x, newEntity m d = Some (m', x).
Proof.
  intros H. unfold newEntity. destruct (nth_error (meshEntities m) d) as [es|] eqn:E; [|apply nth_error_None in E; lia].
  destruct (write_ok (meshEntities m) d (es ++ [[]]) H) as (v & -> & _). eauto.
Qed.

Lemma new_linked m d m' x : linked m -> newEntity m d = Some (m', x) -> linked m'.
Proof.
  intros [HL HE] H. apply newEntity_spec in H as (_ & E2 & _ & F & LO).
  assert (PO : forall d' el l, part_of m' d' el l = part_of m d' el l) by (intros; unfold part_of; rewrite E2; reflexivity).
  split.
  - intros d' y en. rewrite LO. destruct (Nat.eqb_spec d' d) as [->|]; cbn [andb]; [destruct (Nat.eqb_spec y x) as [->|]|].
    + intros E. injection E as <-. split; [constructor|]. intros el l. split; [intros []|]. rewrite PO. intros E.
      destruct (HE _ _ _ _ E). congruence.
    + intros E. destruct (HL _ _ _ E) as [A B]. split; [exact A|]. intros. rewrite B, PO. tauto.
    + intros E. destruct (HL _ _ _ E) as [A B]. split; [exact A|]. intros. rewrite B, PO. tauto.
  - intros d' el l y. rewrite PO, LO. intros E. destruct (HE _ _ _ _ E) as (en & ->). destruct ((d' =? d) && (y =? x)); eauto.
Qed.
Lemma new_consistent m d m' x : consistent m -> newEntity m d = Some (m', x) -> consistent m'.
Proof.
  intros C H. pose proof C as C'. apply consistent_iff in C' as [L K]. apply consistent_iff. split; [eapply new_linked; eassumption|].
  apply newEntity_spec in H as (E1 & E2 & _). intros el l. specialize (K el l). unfold part_of, coord_of in *. rewrite E1, E2. exact K.
Qed.

Lemma coordinate_consistent m n : consistent m -> consistent (fst (addNodeCoordinate m n)).
Proof.
  intros C. apply consistent_iff in C as [L K]. apply consistent_iff. split; [exact L|]. intros el l. specialize (K el l).
  change (part_of (fst (addNodeCoordinate m n)) 0 el l) with (part_of m 0 el l).
  change (coord_of (fst (addNodeCoordinate m n)) el l) with (coord_of m el l).
  destruct (part_of m 0 el l), (coord_of m el l); try assumption. cbn. rewrite nth_error_app1; [exact K|].
  apply nth_error_Some. congruence.
Qed.

Lemma push_incidence_spec e d x e' : push_incidence e d x = Some e' ->
  referenceGeometry e' = referenceGeometry e /\ globalCoordinateIndices e' = globalCoordinateIndices e /\
  length (incidenceLists e') = length (incidenceLists e) /\
  exists old, nth_error (incidenceLists e) d = Some old /\
  (forall d', nth_error (incidenceLists e') d' = if d' =? d then Some (old ++ [x]) else nth_error (incidenceLists e) d') /\
  forall d' j, getIncidentEntityIndex e' d' j = if (d' =? d) && (j =? length old) then Some x else getIncidentEntityIndex e d' j.
Proof.
  unfold push_incidence, getIncidentEntityIndex. intros H. do 2 bind_in H. injection H as <-.
  apply write_inv in Heqo0 as (B1 & B2 & B3). splits; try reflexivity; [exact B2|]. exists l. split; [reflexivity|].
  split; [intros d'; cbn; apply B3|].
  intros d' j. cbn. rewrite B3. destruct (Nat.eqb_spec d' d) as [->|]; cbn [andb]; [|reflexivity]. rewrite Heqo.
  apply nth_snoc.
Qed.
Lemma push_incidence_ok e d x old : nth_error (incidenceLists e) d = Some old -> exists e', push_incidence e d x = Some e'.
Proof.
  intros H. unfold push_incidence. rewrite H. assert (H2 : d < length (incidenceLists e)) by (apply nth_error_Some; congruence).
  destruct (write_ok (incidenceLists e) d (old ++ [x]) H2) as (v & -> & _). eauto.
Qed.

(** Element::addEntity *)
Definition addEntity (m : mesh) (d elementID entityIndex : nat) : option mesh :=
  e <- getElement m elementID;
  old <- nth_error (incidenceLists e) d;
  e <- push_incidence e d entityIndex;
  m <- put_element m elementID e;
  x <- getEntity m d entityIndex;
  put_entity m d entityIndex (addElementLink x elementID (length old)).

Lemma addEntity_spec m d el x m' : addEntity m d el x = Some m' -> exists e old en e',
  getElement m el = Some e /\ nth_error (incidenceLists e) d = Some old /\ links_of m d x = Some en /\
  push_incidence e d x = Some e' /\ (forall j, getElement m' j = if j =? el then Some e' else getElement m j) /\
  coordinates m' = coordinates m /\ length (elementsList m') = length (elementsList m) /\
  length (meshEntities m') = length (meshEntities m) /\
  (forall d' y, links_of m' d' y = if (d' =? d) && (y =? x) then Some (en ++ [(el, length old)]) else links_of m d' y).
Proof.
  unfold addEntity. intros H. do 5 bind_in H. exists e, l, e1, e0.
  apply put_element_spec in Heqo2 as (Q1 & Q2 & Q3 & _ & Q4).
  apply put_entity_spec in H as (R1 & R2 & R3 & _ & R4).
  assert (LK : forall d' y, links_of m0 d' y = links_of m d' y) by (intros; unfold links_of; rewrite Q2; reflexivity).
  splits; try assumption; try congruence.
  - rewrite <- LK. exact Heqo3.
  - intros j. unfold getElement. rewrite R2. apply Q4.
  - intros d' y. rewrite R4, LK. reflexivity.
Qed.
Lemma addEntity_part m d el x m' : addEntity m d el x = Some m' -> exists old en,
  (e <- getElement m el; nth_error (incidenceLists e) d) = Some old /\
  part_of m d el (length old) = None /\ links_of m d x = Some en /\
  (forall d' el' l', part_of m' d' el' l' = if same_slot d el (length old) d' el' l' then Some x else part_of m d' el' l') /\
  (forall d' y, links_of m' d' y = if (d' =? d) && (y =? x) then Some (en ++ [(el, length old)]) else links_of m d' y) /\
  (forall el' l', coord_of m' el' l' = coord_of m el' l') /\ (forall el', shape_of m' el' = shape_of m el') /\
  (forall el' d', (e <- getElement m' el'; nth_error (incidenceLists e) d') =
      if (el' =? el) && (d' =? d) then Some (old ++ [x]) else (e <- getElement m el'; nth_error (incidenceLists e) d')).
Proof.
  intros H. apply addEntity_spec in H as (e & old & en & e' & A & B & C & D & E & F & G & H & I).
  apply push_incidence_spec in D as (P1 & P2 & P3 & old' & P4 & P5 & P6). assert (old' = old) by congruence. subst old'.
  exists old, en. splits; try assumption.
  - rewrite A. exact B.
  - rewrite part_of_get, A. unfold getIncidentEntityIndex. rewrite B. apply nth_error_None. lia.
  - intros d' el' l'. rewrite !part_of_get, E. unfold same_slot. destruct (Nat.eqb_spec el' el) as [->|].
    + rewrite P6, A, (andb_true_r (d' =? d)). reflexivity.
    + rewrite (andb_false_r (d' =? d)). reflexivity.
  - intros el' l'. unfold coord_of. fold (getElement m' el') (getElement m el'). rewrite E. destruct (Nat.eqb_spec el' el) as [->|]; [|reflexivity].
    rewrite A, P2. reflexivity.
  - intros el'. unfold shape_of. fold (getElement m' el') (getElement m el'). rewrite E. destruct (Nat.eqb_spec el' el) as [->|]; [|reflexivity].
    rewrite A. cbn. rewrite P1. reflexivity.
  - intros el' d'. rewrite E. destruct (Nat.eqb_spec el' el) as [->|]; cbn [andb]; [|reflexivity]. rewrite P5, A. reflexivity.
Qed.
Lemma addEntity_consistent m d el x m' : d <> 0 -> consistent m -> addEntity m d el x = Some m' -> consistent m'.
Proof.
  intros Nd C H. pose proof C as C'. apply consistent_iff in C' as [L K].
  pose proof (addEntity_part _ _ _ _ _ H) as (old & en & _ & Hn & He & PO & LO & CO & _).
  apply addEntity_spec in H as (_ & _ & _ & _ & _ & _ & _ & _ & _ & Cs & _).
  apply consistent_iff. split; [eapply linked_add; eassumption|]. intros el' l'. rewrite PO, CO, Cs.
  destruct (same_slot_spec d el (length old) 0 el' l') as [E|E]; [congruence|]. apply K.
Qed.

Lemma fixEntity_inv m d el i m' : fixEntity m d el i = Some m' -> exists m1 x,
  (m1 = m \/ newEntity m d = Some (m1, x)) /\ addEntity m1 d el x = Some m'.
Proof.
  unfold fixEntity. intros H. do 3 bind_in H. destruct l0 as [|first others]; [discriminate|]. do 3 bind_in H. destruct p as [m1 x].
  exists m1, x. split; [|exact H].
  destruct l1 as [|c [|? ?]]; [right; exact Heqo4|left|discriminate]. congruence.
Qed.
Lemma fixEntity_consistent m d el i m' : d <> 0 -> consistent m -> fixEntity m d el i = Some m' -> consistent m'.
Proof.
  intros Nd C H. apply fixEntity_inv in H as (m1 & x & [->|H1] & H2).
  - exact (addEntity_consistent _ _ _ _ _ Nd C H2).
  - exact (addEntity_consistent _ _ _ _ _ Nd (new_consistent _ _ _ _ C H1) H2).
Qed.
Lemma for_from_keeps {St} (P : St -> Prop) body n : (forall i s s', P s -> body i s = Some s' -> P s') ->
  forall start s s', P s -> for_from start n body s = Some s' -> P s'.
Proof.
  intros HB. induction n as [|n IH]; intros start s s' Hs H; cbn in H; [congruence|].
  destruct (body start s) as [s1|] eqn:E; [|discriminate]. eapply IH; [|exact H]. eapply HB; eassumption.
Qed.
Lemma for_each_keeps {A St} (P : St -> Prop) (body : A -> St -> option St) l : (forall x s s', In x l -> P s -> body x s = Some s' -> P s') ->
  forall s s', P s -> for_each l body s = Some s' -> P s'.
Proof.
  induction l as [|x l IH]; intros HB s s' Hs H; cbn in H; [congruence|].
  destruct (body x s) as [s1|] eqn:E; [|discriminate]. eapply IH; [|eapply HB; [left; reflexivity|eassumption..]|exact H].
  intros; eapply HB; [right|..]; eassumption.
Qed.
Lemma fixElement_consistent el d : forall m m', consistent m -> fixElement m el d = Some m' -> consistent m'.
Proof.
  induction d as [|d IH]; intros m m' C H; cbn [fixElement] in H; [congruence|].
  do 4 bind_in H. eapply IH; [|exact H]. eapply (for_from_keeps consistent); [|exact C|exact Heqo2].
  intros i s s' Cs Hs. eapply fixEntity_consistent; [|exact Cs|exact Hs]. discriminate.
Qed.

(** the mesh with one more element *)
Definition with_element (m : mesh) (e : element) : mesh := set_elements m (elementsList m ++ [e]).

Lemma with_element_get m e j : getElement (with_element m e) j = if j =? length (elementsList m) then Some e else getElement m j.
Proof.
  apply nth_snoc.
Qed.

Definition addNodeStep (elementID : nat) (c : nat) : mesh * element -> option (mesh * element) := fun '(m, e) =>
  n <- nodeIndex m c;
  old <- nth_error (incidenceLists e) 0;
  e <- push_incidence (Elt (referenceGeometry e) (incidenceLists e) (globalCoordinateIndices e ++ [c])) 0 n;
  x <- getEntity m 0 n;
  m <- put_entity m 0 n (addElementLink x elementID (length old));
  Some (m, e).

Lemma addNodeStep_spec c m e m' e' : length (globalCoordinateIndices e) = length (nth 0 (incidenceLists e) []) ->
  consistent (with_element m e) -> addNodeStep (length (elementsList m)) c (m, e) = Some (m', e') ->
  consistent (with_element m' e') /\ elementsList m' = elementsList m /\ coordinates m' = coordinates m /\
  length (meshEntities m') = length (meshEntities m) /\
  globalCoordinateIndices e' = globalCoordinateIndices e ++ [c] /\ referenceGeometry e' = referenceGeometry e /\
  length (globalCoordinateIndices e') = length (nth 0 (incidenceLists e') []) /\
  exists n old, nodeIndex m c = Some n /\ nth_error (incidenceLists e) 0 = Some old /\
    (forall d', nth_error (incidenceLists e') d' = if d' =? 0 then Some (old ++ [n]) else nth_error (incidenceLists e) d') /\
    (forall d y, links_of m' d y = None <-> links_of m d y = None) /\
    (forall d y, d <> 0 -> links_of m' d y = links_of m d y).
Proof.
  intros HLen C H. pose proof C as C'. apply consistent_iff in C' as [L K]. unfold addNodeStep in H.
  destruct (nodeIndex m c) as [x|] eqn:Heqo; [|discriminate].
  destruct (nth_error (incidenceLists e) 0) as [old|] eqn:Heqo0; [|discriminate].
  destruct (push_incidence _ 0 x) as [e1|] eqn:Heqo1; [|discriminate].
  destruct (getEntity m 0 x) as [en|] eqn:Heqo2; [|discriminate].
  destruct (put_entity m 0 x _) as [m1|] eqn:Heqo3; [|discriminate]. injection H as <- <-.
  apply push_incidence_spec in Heqo1 as (P1 & P2 & P3 & old' & P4 & P5 & P6). cbn [referenceGeometry globalCoordinateIndices incidenceLists] in *.
  assert (old' = old) by congruence. subst old'.
  pose proof Heqo3 as PE. apply put_entity_spec in Heqo3 as (R1 & R2 & R3 & _ & R4).
  assert (Hold : nth 0 (incidenceLists e) [] = old) by (apply nth_error_nth; exact P4).
  assert (Hold' : nth 0 (incidenceLists e1) [] = old ++ [x]) by (apply nth_error_nth; rewrite P5; reflexivity).
  assert (PO : forall d' el' l', part_of (with_element m1 e1) d' el' l' =
     if same_slot 0 (length (elementsList m)) (length old) d' el' l' then Some x else part_of (with_element m e) d' el' l').
  { intros d' el' l'. rewrite !part_of_get, !with_element_get, R2. unfold same_slot.
    destruct (Nat.eqb_spec el' (length (elementsList m))) as [->|].
    - rewrite P6, (andb_true_r (d' =? 0)). reflexivity.
    - rewrite (andb_false_r (d' =? 0)). unfold getElement. rewrite R2. reflexivity. }
  assert (N0 : part_of (with_element m e) 0 (length (elementsList m)) (length old) = None).
  { rewrite part_of_get, with_element_get, Nat.eqb_refl. unfold getIncidentEntityIndex. rewrite P4. apply nth_error_None. lia. }
  splits; try assumption; try congruence.
  - apply consistent_iff. split.
    + eapply (linked_add (with_element m e) _ 0 x en _ (length old)); [exact L|exact Heqo2|exact N0|exact PO|].
      intros d' y. change (links_of (with_element m1 e1) d' y) with (links_of m1 d' y). rewrite R4. reflexivity.
    + intros el' l'. rewrite PO. destruct (same_slot_spec 0 (length (elementsList m)) (length old) 0 el' l') as [E|E].
      * injection E as -> ->. unfold coord_of. fold (getElement (with_element m1 e1) (length (elementsList m))).
        rewrite with_element_get, R2, Nat.eqb_refl, P2. rewrite <- Hold, <- HLen, nth_error_app2, Nat.sub_diag by lia. cbn.
        change (coordinates (with_element m1 e1)) with (coordinates m1). rewrite R1. unfold nodeIndex in Heqo.
        destruct (nth_error (coordinates m) c); [|discriminate]. congruence.
      * specialize (K el' l'). change (coordinates (with_element m1 e1)) with (coordinates m1). rewrite R1.
        replace (coord_of (with_element m1 e1) el' l') with (coord_of (with_element m e) el' l'); [exact K|].
        unfold coord_of. fold (getElement (with_element m1 e1) el') (getElement (with_element m e) el').
        rewrite !with_element_get, R2. destruct (Nat.eqb_spec el' (length (elementsList m))) as [->|]; [|unfold getElement; rewrite R2; reflexivity].
        rewrite P2. destruct (Nat.eq_dec l' (length old)) as [->|N]; [congruence|].
        assert (HL : length (globalCoordinateIndices e) = length old) by congruence.
        destruct (Nat.lt_ge_cases l' (length old)).
        -- rewrite nth_error_app1 by lia. reflexivity.
        -- transitivity (@None nat); [apply nth_error_None; lia|]. symmetry. apply nth_error_None. rewrite app_length. cbn. lia.
  - rewrite P2, Hold', !app_length, HLen, Hold. reflexivity.
  - exists x, old. splits; try assumption; try reflexivity.
    + intros d y. rewrite R4. destruct (Nat.eqb_spec d 0) as [->|]; cbn [andb]; [|tauto]. destruct (Nat.eqb_spec y x) as [->|]; [|tauto].
      rewrite getEntity_links in Heqo2. rewrite Heqo2. split; discriminate.
    + intros d y Nd. rewrite R4. destruct (Nat.eqb_spec d 0); [contradiction|]. reflexivity.
Qed.

Lemma nth_error_repeat' {A} (x : A) n i : nth_error (repeat x n) i = if i <? n then Some x else None.
Proof.
  revert i; induction n as [|n IH]; intros [|i]; cbn [repeat nth_error]; try reflexivity. rewrite IH. reflexivity.
Qed.
Lemma with_empty_consistent m s n : consistent m -> consistent (with_element m (Elt s (repeat [] n) [])).
Proof.
  intros C. apply consistent_iff in C as [[L1 L2] K].
  assert (PO : forall d el l, part_of (with_element m (Elt s (repeat [] n) [])) d el l = part_of m d el l).
  { intros. rewrite !part_of_get, with_element_get. destruct (Nat.eqb_spec el (length (elementsList m))) as [->|]; [|reflexivity].
    unfold getIncidentEntityIndex. cbn. rewrite nth_error_repeat'. unfold getElement.
    replace (nth_error (elementsList m) (length (elementsList m))) with (@None element) by (symmetry; apply nth_error_None; lia).
    destruct (d <? n); [|reflexivity]. destruct l; reflexivity. }
  apply consistent_iff. split; [split|].
  - intros d x en E. destruct (L1 d x en E) as [A B]. split; [exact A|]. intros. rewrite PO. apply B.
  - intros d el l x. rewrite PO. apply L2.
  - intros el l. rewrite PO. specialize (K el l).
    replace (coord_of (with_element m (Elt s (repeat [] n) [])) el l) with (coord_of m el l); [exact K|].
    unfold coord_of. fold (getElement (with_element m (Elt s (repeat [] n) [])) el). rewrite with_element_get.
    destruct (Nat.eqb_spec el (length (elementsList m))) as [->|]; [|reflexivity]. cbn.
    replace (nth_error (elementsList m) (length (elementsList m))) with (@None element) by (symmetry; apply nth_error_None; lia).
    destruct l; reflexivity.
Qed.

(** addElement: first the nodes, then the other parts *)
Lemma addElement_inv m s coords m' : addElement m s coords = Some m' -> exists m1 e1,
  for_each coords (addNodeStep (length (elementsList m))) (m, Elt s (repeat [] (length (meshEntities m))) []) = Some (m1, e1) /\
  fixElement (with_element m1 e1) (length (elementsList m)) (length (meshEntities m) - 1) = Some m'.
Proof. unfold addElement. intros H. bind_in H. destruct p as [m1 e1]. exists m1, e1. split; [exact Heqo|exact H]. Qed.

Lemma addNodes_spec m0 : forall coords m e m' e', consistent (with_element m e) -> elementsList m = elementsList m0 ->
  length (globalCoordinateIndices e) = length (nth 0 (incidenceLists e) []) ->
  for_each coords (addNodeStep (length (elementsList m0))) (m, e) = Some (m', e') ->
  consistent (with_element m' e') /\ elementsList m' = elementsList m0.
Proof.
  induction coords as [|c coords IH]; intros m e m' e' C E HL H; cbn [for_each] in H; [injection H as <- <-; auto|].
  destruct (addNodeStep (length (elementsList m0)) c (m, e)) as [[m1 e1]|] eqn:ES; [|discriminate].
  rewrite <- E in ES. apply addNodeStep_spec in ES as (A & B & _ & _ & _ & _ & D & _); [|exact HL|exact C].
  eapply IH; [exact A| |exact D|exact H]. congruence.
Qed.
Lemma addElement_consistent m s coords m' : 1 <= length (meshEntities m) -> consistent m -> addElement m s coords = Some m' -> consistent m'.
Proof.
  intros Hd C H. apply addElement_inv in H as (m1 & e1 & H1 & H2).
  assert (A : consistent (with_element m1 e1)).
  { eapply (proj1 (addNodes_spec m coords m _ m1 e1 (with_empty_consistent m s _ C) eq_refl _ H1)). }
  eapply fixElement_consistent; eassumption.
  Unshelve. cbn. destruct (length (meshEntities m)); [lia|]. reflexivity.
Qed.

(** ** setEntity and setNode *)
Lemma relink_inv m d el l g m' : linked m -> relink m d el l g = Some m' -> exists x, part_of m d el l = Some x /\ links_of m d g <> None.
Proof.
  intros [HL HE] H. rewrite part_of_get. unfold relink in H. destruct (getElement m el) as [e|] eqn:Ee; [|discriminate].
  destruct (getIncidentEntityIndex e d l) as [x|] eqn:Ex; [|discriminate]. exists x. split; [reflexivity|].
  assert (Hp : part_of m d el l = Some x) by (rewrite part_of_get, Ee; exact Ex).
  destruct (Nat.eqb_spec x g) as [->|N].
  - destruct (HE _ _ _ _ Hp) as (en & ->). discriminate.
  - destruct (put_incidence e d l g); [|discriminate]. destruct (put_element m el e0) as [m3|] eqn:E3; [|discriminate].
    apply put_element_spec in E3 as (_ & P2 & _). destruct (getEntity m3 d x); [|discriminate].
    destruct (removeElement e1 el l); [|discriminate]. destruct (put_entity m3 d x e2) as [m4|] eqn:E4; [|discriminate].
    apply put_entity_spec in E4 as (_ & _ & _ & _ & R4). rewrite getEntity_links, R4 in H.
    destruct (Nat.eqb_spec g x); [congruence|]. rewrite andb_false_r in H.
    replace (links_of m3 d g) with (links_of m d g) in H by (unfold links_of; rewrite P2; reflexivity).
    destruct (links_of m d g); [discriminate|discriminate H].
Qed.

Lemma setEntity_consistent m d el l g m' : d <> 0 -> consistent m -> setEntity m d el l g = Some m' -> consistent m'.
Proof.
  intros Nd C H. apply consistent_iff in C as [L K]. unfold setEntity in H.
  destruct (relink_inv _ _ _ _ _ _ L H) as (x & Hx & Hg).
  destruct (relink_ok m d el l x g L Hx Hg) as (m2 & E & L2 & P2 & CO2 & S2 & Cs2 & _). assert (m2 = m') by congruence. subst m2.
  apply consistent_iff. split; [exact L2|]. intros el' l'. rewrite P2, CO2, Cs2.
  destruct (same_slot_spec d el l 0 el' l') as [F|F]; [congruence|]. apply K.
Qed.

Lemma setNode_consistent m el l g c m' : consistent m -> setNode m el l g c = Some m' -> consistent m'.
Proof.
  intros C H. apply consistent_iff in C as [L K]. unfold setNode in H.
  destruct (getElement m el) as [e|] eqn:Ee; [|discriminate].
  destruct (write (globalCoordinateIndices e) l c) as [cs|] eqn:Ew; [|discriminate].
  destruct (put_element m el _) as [m1|] eqn:E1; [|discriminate].
  destruct (nodeIndex m1 c) as [n|] eqn:En; [|discriminate].
  destruct (Nat.eqb_spec n g) as [->|]; [|discriminate].
  apply write_inv in Ew as (W1 & W2 & W3). apply put_element_spec in E1 as (Q1 & Q2 & Q3 & _ & Q4).
  assert (PO : forall d' el' l', part_of m1 d' el' l' = part_of m d' el' l').
  { intros. rewrite !part_of_get, Q4. destruct (Nat.eqb_spec el' el) as [->|]; [|reflexivity]. rewrite Ee. reflexivity. }
  assert (L1 : linked m1).
  { destruct L as [A B]. split.
    - intros d x en E. unfold links_of in E. rewrite Q2 in E. destruct (A d x en E) as [N I]. split; [exact N|]. intros. rewrite PO. apply I.
    - intros d el' l' x. rewrite PO. intros E. unfold links_of. rewrite Q2. exact (B d el' l' x E). }
  assert (CO1 : forall el' l', coord_of m1 el' l' = if (el' =? el) && (l' =? l) then Some c else coord_of m el' l').
  { intros. unfold coord_of. fold (getElement m1 el') (getElement m el'). rewrite Q4. destruct (Nat.eqb_spec el' el) as [->|]; cbn [andb]; [|reflexivity].
    rewrite Ee. cbn. apply W3. }
  destruct (relink_inv _ _ _ _ _ _ L1 H) as (x & Hx & Hg).
  destruct (relink_ok m1 0 el l x g L1 Hx Hg) as (m2 & E & L2 & P2 & CO2 & S2 & Cs2 & _). assert (m2 = m') by congruence. subst m2.
  apply consistent_iff. split; [exact L2|]. intros el' l'. rewrite P2, CO2, Cs2, CO1, Q1, PO.
  destruct (same_slot_spec 0 el l 0 el' l') as [F|F].
  - injection F as -> ->. rewrite !Nat.eqb_refl. cbn. unfold nodeIndex in En. rewrite Q1 in En.
    destruct (nth_error (coordinates m) c); congruence.
  - destruct (Nat.eqb_spec el' el) as [->|]; [destruct (Nat.eqb_spec l' l) as [->|]|]; cbn [andb]; [congruence|apply K..].
Qed.

Lemma merge_consistent m d t s m' : consistent m -> merge m d t s = Some m' -> consistent m'.
Proof.
  intros C H. destruct (merge_inv _ _ _ _ _ C H) as [Hs [->|[Ht N]]]; [exact C|].
  destruct (merge_ok m d t s C Ht Hs N) as (m2 & E & M). assert (m2 = m') by congruence. subst. exact (mi_consistent _ _ _ _ _ M).
Qed.

(** ** Removing unused entities *)
Lemma for_each_ext {A St} (b1 b2 : A -> St -> option St) l : (forall x s, b1 x s = b2 x s) -> forall s, for_each l b1 s = for_each l b2 s.
Proof. intros H. induction l as [|x l IH]; intros s; cbn; [reflexivity|]. rewrite H. destruct (b2 x s); [apply IH|reflexivity]. Qed.

Lemma fe_map_gen {A B} (f : A -> option B) l : forall acc r, for_each l (fun x acc => y <- f x; Some (acc ++ [y])) acc = Some r ->
  exists ys, r = acc ++ ys /\ Forall2 (fun x y => f x = Some y) l ys.
Proof.
  induction l as [|x l IH]; intros acc r H; cbn in H.
  - injection H as <-. exists []. rewrite app_nil_r. auto.
  - destruct (f x) as [y|] eqn:E; [|discriminate]. destruct (IH _ _ H) as (ys & -> & F). exists (y :: ys). rewrite <- app_assoc. auto.
Qed.
Lemma fe_map_inv {A B} (f : A -> option B) l r : for_each l (fun x acc => y <- f x; Some (acc ++ [y])) [] = Some r ->
  length r = length l /\ forall i, nth_error r i = (x <- nth_error l i; f x).
Proof.
  intros H. destruct (fe_map_gen f l [] r H) as (ys & -> & F). cbn [app]. clear H. induction F as [|x y l ys E F [IH1 IH2]].
  - split; [reflexivity|]. intros [|i]; reflexivity.
  - split; [cbn; congruence|]. intros [|i]; cbn; [congruence|apply IH2].
Qed.
Lemma fe_map_ok {A B} (f : A -> option B) l : (forall x, In x l -> f x <> None) ->
  exists r, for_each l (fun x acc => y <- f x; Some (acc ++ [y])) [] = Some r.
Proof.
  intros H. enough (G : forall acc, exists r, for_each l (fun x acc => y <- f x; Some (acc ++ [y])) acc = Some r) by apply G.
  induction l as [|x l IH]; intros acc; cbn; [eauto|]. destruct (f x) eqn:E; [|exfalso; apply (H x); [left; reflexivity|exact E]].
  apply IH. intros; apply H; right; assumption.
Qed.

Lemma renumber_spec es : forall k rn kept, renumber es k = (rn, kept) ->
  length rn = length es /\ length kept <= length es /\
  (forall i en, nth_error es i = Some en -> (en = [] -> nth_error rn i = Some None) /\
     (en <> [] -> exists j, nth_error rn i = Some (Some (k + j)) /\ nth_error kept j = Some en)) /\
  (forall j en, nth_error kept j = Some en -> en <> [] /\ exists i, nth_error es i = Some en /\ nth_error rn i = Some (Some (k + j))) /\
  (forall i i' a, nth_error rn i = Some (Some a) -> nth_error rn i' = Some (Some a) -> i = i') /\
  (forall i a, nth_error rn i = Some (Some a) -> k <= a < k + length kept) /\
  (length kept = length es -> forall i, i < length es -> nth_error rn i = Some (Some (k + i))).
Proof.
  induction es as [|e es IH]; intros k rn kept H; cbn in H.
  - injection H as <- <-. splits; try reflexivity; try (cbn; lia); try (intros [|?]; discriminate); intros [|?]; discriminate.
  - destruct e as [|p e].
    + destruct (renumber es k) as [rn' kept'] eqn:E. injection H as <- <-. destruct (IH _ _ _ E) as (A & A' & B & C & D & F & G).
      splits.
      * cbn. congruence.
      * cbn. lia.
      * intros [|i] en Hi; cbn in Hi; [injection Hi as <-; split; [reflexivity|congruence]|]. apply B. exact Hi.
      * intros j en Hj. destruct (C j en Hj) as (N & i & H1 & H2). split; [exact N|]. exists (S i). auto.
      * intros [|i] [|i'] a; cbn; try congruence. intros H1 H2. f_equal. eapply D; eassumption.
      * intros [|i] a; cbn; [discriminate|]. apply F.
      * cbn. intros. lia.
    + destruct (renumber es (S k)) as [rn' kept'] eqn:E. injection H as <- <-. destruct (IH _ _ _ E) as (A & A' & B & C & D & F & G).
      splits.
      * cbn. congruence.
      * cbn. lia.
      * intros [|i] en Hi; cbn in Hi.
        -- injection Hi as <-. split; [discriminate|]. intros _. exists 0. cbn. rewrite Nat.add_0_r. auto.
        -- destruct (B i en Hi) as [B1 B2]. split; [exact B1|]. intros N. destruct (B2 N) as (j & H1 & H2). exists (S j).
           cbn. rewrite <- Nat.add_succ_comm. auto.
      * intros [|j] en Hj; cbn in Hj.
        -- injection Hj as <-. split; [discriminate|]. exists 0. cbn. rewrite Nat.add_0_r. auto.
        -- destruct (C j en Hj) as (N & i & H1 & H2). split; [exact N|]. exists (S i). cbn. rewrite <- Nat.add_succ_comm. auto.
      * intros [|i] [|i'] a; cbn; intros H1 H2; try reflexivity.
        -- injection H1 as <-. apply F in H2. lia.
        -- injection H2 as <-. apply F in H1. lia.
        -- f_equal. eapply D; eassumption.
      * intros [|i] a; cbn; intros H1; [injection H1 as <-; lia|]. apply F in H1. lia.
      * cbn. intros HL [|i] Hi; cbn; [f_equal; f_equal; lia|]. rewrite G by lia. f_equal; f_equal; lia.
Qed.

(** what removing the unused entities of dimension [d] does: [f] is the new number of an entity *)
Record removed_level (d : nat) (f : nat -> nat) (m m' : mesh) : Prop := {
  rl_consistent : consistent m';
  rl_inj : forall x y el l el' l', part_of m d el l = Some x -> part_of m d el' l' = Some y -> f x = f y -> x = y;
  rl_part : forall d' el l, part_of m' d' el l = option_map (if d' =? d then f else fun x => x) (part_of m d' el l);
  rl_coord : forall el l, coord_of m' el l = coord_of m el l;
  rl_shape : forall el, shape_of m' el = shape_of m el;
  rl_dim : length (meshEntities m') = length (meshEntities m);
  rl_elements : length (elementsList m') = length (elementsList m);
  rl_other : forall d' y, d' <> d -> links_of m' d' y = links_of m d' y;
  rl_used : forall y, links_of m' d y <> Some [];
  rl_kept : forall x en, links_of m d x = Some en -> en <> [] -> links_of m' d (f x) = Some en;
  rl_coordinates : forall c n en, nth_error (coordinates m) c = Some (Some n) -> links_of m 0 n = Some en -> en <> [] ->
     nth_error (coordinates m') c = Some (Some (if d =? 0 then f n else n)) }.

Definition new_number (rn : list (option nat)) (x : nat) : nat := match nth_error rn x with Some (Some y) => y | _ => 0 end.

Lemma removeUnusedLevel_spec m d m' : consistent m -> removeUnusedLevel m d = Some m' -> exists f, removed_level d f m m'.
Proof.
  intros C H. pose proof C as C'. apply consistent_iff in C' as [[L1 L2] K]. unfold removeUnusedLevel in H.
  destruct (nth_error (meshEntities m) d) as [es|] eqn:Ees; [|discriminate].
  destruct (renumber es 0) as [rn kept] eqn:Ern. apply renumber_spec in Ern as (A & A' & B & Ck & D & F & G). cbn [plus] in *.
  assert (LK : forall x, links_of m d x = nth_error es x) by (intros; unfold links_of; rewrite Ees; reflexivity).
  assert (USED : forall el l x, part_of m d el l = Some x -> exists en j, nth_error es x = Some en /\ en <> [] /\
     nth_error rn x = Some (Some j) /\ nth_error kept j = Some en).
  { intros el l x Hx. destruct (L2 _ _ _ _ Hx) as (en & Hen). rewrite LK in Hen.
    assert (N : en <> []). { intros ->. rewrite <- LK in Hen. apply L1 in Hen as [_ I]. apply (I el l) in Hx. destruct Hx. }
    destruct (proj2 (B x en Hen) N) as (j & H1 & H2). exists en, j. auto. }
  exists (new_number rn).
  assert (INJ : forall x y el l el' l', part_of m d el l = Some x -> part_of m d el' l' = Some y -> new_number rn x = new_number rn y -> x = y).
  { intros x y el l el' l' Hx Hy. destruct (USED _ _ _ Hx) as (e1 & j1 & _ & _ & E1 & _), (USED _ _ _ Hy) as (e2 & j2 & _ & _ & E2 & _).
    unfold new_number. rewrite E1, E2. intros <-. eapply D; eassumption. }
  destruct (Nat.eqb_spec (length kept) (length es)) as [HL|HL].
  - injection H as <-.
    assert (ID : forall x, x < length es -> new_number rn x = x) by (intros x Hx; unfold new_number; rewrite (G HL x Hx); reflexivity).
    constructor; auto.
    + intros d' el l. destruct (Nat.eqb_spec d' d) as [->|]; [|destruct (part_of m d' el l); reflexivity].
      destruct (part_of m d el l) as [x|] eqn:Ex; [|reflexivity]. cbn. f_equal. symmetry. apply ID.
      destruct (USED _ _ _ Ex) as (en & j & E & _). apply nth_error_Some. congruence.
    + intros y E. rewrite LK in E. assert (Hy : y < length es) by (apply nth_error_Some; congruence).
      destruct (B y [] E) as [B1 _]. rewrite (G HL y Hy) in B1. specialize (B1 eq_refl). discriminate.
    + intros x en E _. rewrite ID; [exact E|]. apply nth_error_Some. rewrite <- LK. congruence.
    + intros c n en E E2 _. destruct (Nat.eqb_spec d 0) as [->|]; [|exact E]. rewrite ID; [exact E|]. apply nth_error_Some. rewrite <- LK. congruence.
  - destruct (write (meshEntities m) d kept) as [all|] eqn:Ew; [|discriminate]. apply write_inv in Ew as (W1 & W2 & W3).
    destruct (for_each (elementsList m) _ []) as [els|] eqn:Eels; [|discriminate]. apply fe_map_inv in Eels as (X1 & X2).
    match type of H with match ?x with None => None | Some _ => _ end = _ => destruct x as [cs|] eqn:Ecs; [|discriminate H] end.
    injection H as <-.
    assert (EL : forall el e, nth_error (elementsList m) el = Some e -> exists e', nth_error els el = Some e' /\ renumberEntities rn d e = Some e').
    { intros el e E. specialize (X2 el). rewrite E in X2. destruct (renumberEntities rn d e) as [e'|] eqn:Ee; [eauto|].
      apply nth_error_None in X2. assert (el < length (elementsList m)) by (apply nth_error_Some; congruence). lia. }
    assert (EN : forall el, nth_error (elementsList m) el = None -> nth_error els el = None).
    { intros el E. apply nth_error_None. apply nth_error_None in E. lia. }
    assert (RE : forall e e', renumberEntities rn d e = Some e' -> referenceGeometry e' = referenceGeometry e /\
       globalCoordinateIndices e' = globalCoordinateIndices e /\
       forall d' l, getIncidentEntityIndex e' d' l = if d' =? d then (x <- getIncidentEntityIndex e d l; y <- nth_error rn x; y) else getIncidentEntityIndex e d' l).
    { intros e e' E. unfold renumberEntities in E. destruct (nth_error (incidenceLists e) d) as [ls|] eqn:El; [|discriminate].
      rewrite (for_each_ext _ (fun x acc => y <- (y <- nth_error rn x; y); Some (acc ++ [y]))) in E
        by (intros; destruct (nth_error rn x); reflexivity).
      destruct (for_each ls _ []) as [ls'|] eqn:Els'; [|discriminate]. apply fe_map_inv in Els' as (Y1 & Y2).
      destruct (write (incidenceLists e) d ls') as [al|] eqn:Eal; [|discriminate]. injection E as <-. apply write_inv in Eal as (Z1 & Z2 & Z3).
      splits; try reflexivity. intros d' l. unfold getIncidentEntityIndex. cbn [incidenceLists]. rewrite Z3.
      destruct (Nat.eqb_spec d' d) as [->|]; [|reflexivity]. rewrite El. apply Y2. }
    set (m' := Mesh cs all els).
    assert (PART : forall d' el l, part_of m' d' el l = option_map (if d' =? d then new_number rn else fun x => x) (part_of m d' el l)).
    { intros d' el l. rewrite !part_of_get. unfold getElement, m'. cbn [elementsList].
      destruct (nth_error (elementsList m) el) as [e|] eqn:Ee; [|rewrite (EN _ Ee); reflexivity].
      destruct (EL _ _ Ee) as (e' & -> & R). destruct (RE _ _ R) as (_ & _ & R3). rewrite R3.
      destruct (Nat.eqb_spec d' d) as [->|]; [|destruct (getIncidentEntityIndex e d' l); reflexivity].
      destruct (getIncidentEntityIndex e d l) as [x|] eqn:Ex; [|reflexivity]. cbn.
      destruct (USED el l x) as (en & j & _ & _ & E1 & _); [rewrite part_of_get; unfold getElement; rewrite Ee; exact Ex|].
      unfold new_number. rewrite E1. reflexivity. }
    assert (COORD : forall el l, coord_of m' el l = coord_of m el l).
    { intros el l. unfold coord_of, m'. cbn [elementsList]. destruct (nth_error (elementsList m) el) as [e|] eqn:Ee; [|rewrite (EN _ Ee); reflexivity].
      destruct (EL _ _ Ee) as (e' & -> & R). destruct (RE _ _ R) as (_ & -> & _). reflexivity. }
    assert (LINKS : forall d' y, links_of m' d' y = if d' =? d then nth_error kept y else links_of m d' y).
    { intros d' y. unfold links_of, m'. cbn [meshEntities]. rewrite W3. destruct (Nat.eqb_spec d' d) as [->|]; reflexivity. }
    assert (KEPT : forall x en, links_of m d x = Some en -> en <> [] -> links_of m' d (new_number rn x) = Some en).
    { intros x en E N. rewrite LINKS, Nat.eqb_refl. rewrite LK in E. destruct (proj2 (B x en E) N) as (j & H1 & H2).
      unfold new_number. rewrite H1. exact H2. }
    assert (CRD : forall c n en, nth_error (coordinates m) c = Some (Some n) -> links_of m 0 n = Some en -> en <> [] ->
       nth_error cs c = Some (Some (if d =? 0 then new_number rn n else n))).
    { intros c n en E E2 N. destruct d as [|d].
      - rewrite (for_each_ext _ (fun c acc => y <- (n <- c; nth_error rn n); Some (acc ++ [y]))) in Ecs
          by (intros; destruct x; reflexivity).
        apply fe_map_inv in Ecs as (Y1 & Y2). rewrite Y2, E, Nat.eqb_refl. rewrite LK in E2.
        destruct (proj2 (B n en E2) N) as (j & H1 & H2). unfold new_number. rewrite H1. reflexivity.
      - injection Ecs as <-. cbn. exact E. }
    constructor; try assumption.
    + apply consistent_iff. split; [split|].
      * intros d' y en. rewrite LINKS. destruct (Nat.eqb_spec d' d) as [->|Nd].
        -- intros E. destruct (Ck y en E) as (N & i & H1 & H2). rewrite <- LK in H1. destruct (L1 _ _ _ H1) as [ND I].
           split; [exact ND|]. intros el l. rewrite I, PART, Nat.eqb_refl. split.
           ++ intros ->. cbn. unfold new_number. rewrite H2. reflexivity.
           ++ destruct (part_of m d el l) as [x|] eqn:Ex; [|discriminate]. cbn. intros E3. injection E3 as E3. f_equal.
              destruct (USED _ _ _ Ex) as (en' & j & _ & _ & E4 & _). unfold new_number in E3. rewrite E4 in E3. subst j.
              eapply D; eassumption.
        -- intros E. destruct (L1 _ _ _ E) as [ND I]. split; [exact ND|]. intros el l. rewrite I, PART.
           destruct (Nat.eqb_spec d' d); [contradiction|]. destruct (part_of m d' el l); reflexivity.
      * intros d' el l y. rewrite PART, LINKS. destruct (Nat.eqb_spec d' d) as [->|Nd].
        -- destruct (part_of m d el l) as [x|] eqn:Ex; [|discriminate]. cbn. intros E. injection E as <-.
           destruct (USED _ _ _ Ex) as (en' & j & _ & _ & E4 & E5). exists en'. unfold new_number. rewrite E4. exact E5.
        -- destruct (part_of m d' el l) as [x|] eqn:Ex; [|discriminate]. cbn. intros E. injection E as <-. eapply L2; exact Ex.
      * intros el l. rewrite PART, COORD. specialize (K el l). destruct (part_of m 0 el l) as [x|] eqn:Ex, (coord_of m el l) as [c|] eqn:Ec; cbn; try assumption.
        destruct (L2 _ _ _ _ Ex) as (en & Hen).
        assert (N : en <> []). { intros ->. apply L1 in Hen as [_ I]. apply (I el l) in Ex. destruct Ex. }
        cbn [coordinates m']. rewrite (CRD c x en K Hen N). destruct d; reflexivity.
    + intros el. unfold shape_of, m'. cbn [elementsList]. destruct (nth_error (elementsList m) el) as [e|] eqn:Ee; [|rewrite (EN _ Ee); reflexivity].
      destruct (EL _ _ Ee) as (e' & -> & R). destruct (RE _ _ R) as (E1 & _). cbn. congruence.
    + intros d' y Nd. rewrite LINKS. destruct (Nat.eqb_spec d' d); [contradiction|reflexivity].
    + intros y. rewrite LINKS, Nat.eqb_refl. intros E. destruct (Ck y [] E). congruence.
Qed.

Lemma removeUnusedFrom_spec n : forall m m', consistent m -> removeUnusedFrom m n = Some m' -> consistent m'.
Proof.
  induction n as [|n IH]; intros m m' C H; cbn in H; [congruence|].
  destruct (removeUnusedLevel m n) as [m1|] eqn:E; [|discriminate]. destruct (removeUnusedLevel_spec _ _ _ C E) as (f & R).
  eapply IH; [|exact H]. exact (rl_consistent _ _ _ _ R).
Qed.

(** Removing unused entities always succeeds when every coordinate belongs to a node. *)
Definition placed (m : mesh) : Prop := forall c o, nth_error (coordinates m) c = Some o -> exists n, o = Some n /\ links_of m 0 n <> None.

Lemma renumberEntities_ok m d rn e el : nth_error (elementsList m) el = Some e -> d < length (incidenceLists e) ->
  (forall l x, part_of m d el l = Some x -> exists j, nth_error rn x = Some (Some j)) -> renumberEntities rn d e <> None.
Proof.
  intros E Hd H. unfold renumberEntities. destruct (nth_error (incidenceLists e) d) as [ls|] eqn:El; [|apply nth_error_None in El; lia].
  rewrite (for_each_ext _ (fun x acc => y <- (y <- nth_error rn x; y); Some (acc ++ [y])))
    by (intros; destruct (nth_error rn x); reflexivity).
  destruct (fe_map_ok (fun x => y <- nth_error rn x; y) ls) as (r & ->).
  - intros x Hx. apply In_nth_error in Hx as (l & Hl). destruct (H l x) as (j & ->); [|discriminate].
    unfold part_of. rewrite E, El. exact Hl.
  - destruct (write_ok (incidenceLists e) d r) as (v & -> & _); [exact Hd|discriminate].
Qed.

(** all elements have lists of parts for the dimensions of the mesh *)
Definition sized (m : mesh) : Prop := forall el e, nth_error (elementsList m) el = Some e -> length (incidenceLists e) = length (meshEntities m).

Lemma removeUnusedLevel_ok m d : consistent m -> sized m -> d < length (meshEntities m) -> (d = 0 -> placed m) -> exists m', removeUnusedLevel m d = Some m'.
Proof.
  intros C Hz Hd Hp. pose proof C as C'. apply consistent_iff in C' as [[L1 L2] K]. unfold removeUnusedLevel.
  destruct (nth_error (meshEntities m) d) as [es|] eqn:Ees; [|apply nth_error_None in Ees; lia].
  destruct (renumber es 0) as [rn kept] eqn:Ern. apply renumber_spec in Ern as (A & A' & B & Ck & D & F & G). cbn [plus] in *.
  assert (LK : forall x, links_of m d x = nth_error es x) by (intros; unfold links_of; rewrite Ees; reflexivity).
  destruct (length kept =? length es); [eauto|]. destruct (write_ok (meshEntities m) d kept Hd) as (v & -> & _).
  destruct (fe_map_ok (renumberEntities rn d) (elementsList m)) as (els & ->).
  { intros e He. apply In_nth_error in He as (el & He). eapply renumberEntities_ok; [exact He|rewrite (Hz _ _ He); exact Hd|].
    intros l x Hx. destruct (L2 _ _ _ _ Hx) as (en & Hen).
    assert (N : en <> []). { intros ->. apply L1 in Hen as [_ I]. apply (I el l) in Hx. destruct Hx. }
    rewrite LK in Hen. destruct (proj2 (B x en Hen) N) as (j & H1 & _). eauto. }
  destruct d as [|d]; [|eauto].
  rewrite (for_each_ext _ (fun c acc => y <- (n <- c; nth_error rn n); Some (acc ++ [y]))) by (intros; destruct x; reflexivity).
  destruct (fe_map_ok (fun c : option nat => n <- c; nth_error rn n) (coordinates m)) as (cs & ->); [|eauto].
  intros o Ho. apply In_nth_error in Ho as (c & Ho). destruct (Hp eq_refl c o Ho) as (n & -> & Hn). rewrite LK in Hn.
  apply nth_error_Some in Hn. apply nth_error_Some. rewrite A. exact Hn.
Qed.

(** the dimensions of the lists of parts are never changed *)
Lemma write_length {A} (l : list A) i x l' : write l i x = Some l' -> length l' = length l.
Proof. intros H. apply write_inv in H. tauto. Qed.
Lemma put_element_sized m i e m' : sized m -> length (incidenceLists e) = length (meshEntities m) -> put_element m i e = Some m' ->
  sized m' /\ length (meshEntities m') = length (meshEntities m).
Proof.
  intros S E H. apply put_element_spec in H as (_ & Q2 & _ & _ & Q4). rewrite Q2. split; [|reflexivity]. intros el e' He.
  fold (getElement m' el) in He. rewrite Q4 in He. rewrite Q2. destruct (el =? i); [congruence|]. exact (S el e' He).
Qed.
Lemma put_entity_sized m d i e m' : sized m -> put_entity m d i e = Some m' -> sized m' /\ length (meshEntities m') = length (meshEntities m).
Proof.
  intros S H. apply put_entity_spec in H as (_ & Q2 & Q3 & _). split; [|exact Q3]. intros el e' He. rewrite Q2 in He. rewrite Q3. exact (S el e' He).
Qed.
Lemma relink_sized m d el l g m' : sized m -> relink m d el l g = Some m' -> sized m' /\ length (meshEntities m') = length (meshEntities m).
Proof.
  intros S H. unfold relink in H. destruct (getElement m el) as [e|] eqn:Ee; [|discriminate].
  destruct (getIncidentEntityIndex e d l) as [x|]; [|discriminate]. destruct (x =? g); [injection H as <-; auto|].
  destruct (put_incidence e d l g) as [e'|] eqn:Ei; [|discriminate]. apply put_incidence_spec in Ei as (_ & _ & P3 & _).
  destruct (put_element m el e') as [m1|] eqn:E1; [|discriminate].
  apply put_element_sized in E1 as [S1 D1]; [|exact S|rewrite P3; exact (S el e Ee)].
  destruct (getEntity m1 d x); [|discriminate]. destruct (removeElement e0 el l); [|discriminate].
  destruct (put_entity m1 d x e1) as [m2|] eqn:E2; [|discriminate]. apply put_entity_sized in E2 as [S2 D2]; [|exact S1].
  destruct (getEntity m2 d g); [|discriminate]. apply put_entity_sized in H as [S3 D3]; [|exact S2]. split; [exact S3|congruence].
Qed.
Lemma setNode_sized m el l g c m' : sized m -> setNode m el l g c = Some m' -> sized m' /\ length (meshEntities m') = length (meshEntities m).
Proof.
  intros S H. unfold setNode in H. destruct (getElement m el) as [e|] eqn:Ee; [|discriminate].
  destruct (write (globalCoordinateIndices e) l c) as [cs|]; [|discriminate].
  destruct (put_element m el _) as [m1|] eqn:E1; [|discriminate]. destruct (nodeIndex m1 c) as [n|]; [|discriminate].
  destruct (n =? g); [|discriminate]. apply put_element_sized in E1 as [S1 D1]; [|exact S|exact (S el e Ee)].
  apply relink_sized in H as [S2 D2]; [|exact S1]. split; [exact S2|congruence].
Qed.
Lemma merge_loop_sized d t s fuel : forall m m', sized m -> merge_loop fuel d t s m = Some m' -> sized m' /\ length (meshEntities m') = length (meshEntities m).
Proof.
  induction fuel as [|fuel IH]; intros m m' S H; cbn [merge_loop] in H; destruct (getEntity m d s) as [[|(el, l) r]|]; try discriminate;
    try (injection H as <-; auto).
  match type of H with match ?x with None => None | Some _ => _ end = _ => destruct x as [m1|] eqn:E1; [|discriminate H] end.
  assert (Q : sized m1 /\ length (meshEntities m1) = length (meshEntities m)).
  { destruct d as [|d].
    - destruct (getElement m el) as [e|]; [|discriminate]. destruct (getCoordinateIndex e l) as [c|]; [|discriminate].
      destruct (nodeIndex m c) as [n|]; [|discriminate]. destruct ((n =? s) || (n =? t)); [|discriminate].
      destruct (write (coordinates m) c (Some t)) as [cs|]; [|discriminate]. exact (setNode_sized _ _ _ _ _ _ (S : sized (set_coordinates m cs)) E1).
    - exact (relink_sized _ _ _ _ _ _ S E1). }
  destruct Q as [S1 D1]. apply IH in H as [S2 D2]; [|exact S1]. split; [exact S2|congruence].
Qed.
Lemma merge_sized m d t s m' : sized m -> merge m d t s = Some m' -> sized m' /\ length (meshEntities m') = length (meshEntities m).
Proof. intros S H. unfold merge in H. destruct (getEntity m d s); [|discriminate]. exact (merge_loop_sized _ _ _ _ _ _ S H). Qed.
Lemma newEntity_sized m d m' x : sized m -> newEntity m d = Some (m', x) -> sized m' /\ length (meshEntities m') = length (meshEntities m).
Proof.
  intros S H. apply newEntity_spec in H as (_ & Q2 & Q3 & _). split; [|exact Q3]. intros el e' He. rewrite Q2 in He. rewrite Q3. exact (S el e' He).
Qed.
Lemma addEntity_sized m d el x m' : sized m -> addEntity m d el x = Some m' -> sized m' /\ length (meshEntities m') = length (meshEntities m).
Proof.
  intros S H. unfold addEntity in H. destruct (getElement m el) as [e|] eqn:Ee; [|discriminate].
  destruct (nth_error (incidenceLists e) d) as [old|]; [|discriminate].
  destruct (push_incidence e d x) as [e'|] eqn:Ei; [|discriminate]. apply push_incidence_spec in Ei as (_ & _ & P3 & _).
  destruct (put_element m el e') as [m1|] eqn:E1; [|discriminate].
  apply put_element_sized in E1 as [S1 D1]; [|exact S|rewrite P3; exact (S el e Ee)].
  destruct (getEntity m1 d x); [|discriminate]. apply put_entity_sized in H as [S3 D3]; [|exact S1]. split; [exact S3|congruence].
Qed.
Lemma fixEntity_sized m d el i m' : sized m -> fixEntity m d el i = Some m' -> sized m' /\ length (meshEntities m') = length (meshEntities m).
Proof.
  intros S H. apply fixEntity_inv in H as (m1 & x & [->|H1] & H2); [exact (addEntity_sized _ _ _ _ _ S H2)|].
  apply newEntity_sized in H1 as [S1 D1]; [|exact S]. apply addEntity_sized in H2 as [S2 D2]; [|exact S1]. split; [exact S2|congruence].
Qed.
Lemma fixElement_sized el d : forall m m', sized m -> fixElement m el d = Some m' -> sized m' /\ length (meshEntities m') = length (meshEntities m).
Proof.
  induction d as [|d IH]; intros m m' S H; cbn [fixElement] in H; [injection H as <-; auto|].
  destruct (getElement m el) as [e|]; [|discriminate]. destruct (nth_error (incidenceLists e) (Datatypes.S d)) as [have|]; [|discriminate].
  destruct (getNumberOfEntities _ _) as [want|]; [|discriminate].
  destruct (for_from _ _ _ m) as [m1|] eqn:E1; [|discriminate].
  apply (for_from_keeps (fun x => sized x /\ length (meshEntities x) = length (meshEntities m))) in E1 as [S1 D1]; [| |auto].
  - apply IH in H as [S2 D2]; [|exact S1]. split; [exact S2|congruence].
  - intros i s s' [A B] Hs. apply fixEntity_sized in Hs as [A' B']; [|exact A]. split; [exact A'|congruence].
Qed.
Lemma with_element_sized m e : sized m -> length (incidenceLists e) = length (meshEntities m) -> sized (with_element m e).
Proof.
  intros S HL el e' He. fold (getElement (with_element m e) el) in He. rewrite with_element_get in He.
  destruct (el =? length (elementsList m)); [injection He as <-; exact HL|]. exact (S el e' He).
Qed.
Lemma addElement_sized m s coords m' : sized m -> addElement m s coords = Some m' -> sized m' /\ length (meshEntities m') = length (meshEntities m).
Proof.
  intros S H. apply addElement_inv in H as (m1 & e1 & H1 & H2).
  assert (Q : sized m1 /\ length (meshEntities m1) = length (meshEntities m) /\ length (incidenceLists e1) = length (meshEntities m)).
  { apply (for_each_keeps (fun '(a, b) => sized a /\ length (meshEntities a) = length (meshEntities m) /\ length (incidenceLists b) = length (meshEntities m))) in H1; [exact H1| |].
    - intros c (a, b) (a', b') _ (A1 & A2 & A3) HS. unfold addNodeStep in HS.
      destruct (nodeIndex a c) as [n|]; [|discriminate]. destruct (nth_error (incidenceLists b) 0) as [old|]; [|discriminate].
      destruct (push_incidence _ 0 n) as [b1|] eqn:Ei; [|discriminate]. apply push_incidence_spec in Ei as (_ & _ & P3 & _).
      destruct (getEntity a 0 n); [|discriminate]. destruct (put_entity a 0 n _) as [a1|] eqn:E2; [|discriminate]. injection HS as <- <-.
      apply put_entity_sized in E2 as [S2 D2]; [|exact A1]. split; [exact S2|]. split; [congruence|]. rewrite P3. exact A3.
    - split; [exact S|]. split; [reflexivity|]. cbn. apply repeat_length. }
  destruct Q as (S1 & D1 & D2). apply fixElement_sized in H2 as [S2 D3]; [|apply with_element_sized; [exact S1|congruence]].
  split; [exact S2|]. rewrite D3. exact D1.
Qed.
Lemma removeUnusedLevel_sized m d m' : sized m -> removeUnusedLevel m d = Some m' -> sized m' /\ length (meshEntities m') = length (meshEntities m).
Proof.
  intros S H. unfold removeUnusedLevel in H. destruct (nth_error (meshEntities m) d) as [es|]; [|discriminate].
  destruct (renumber es 0) as [rn kept]. destruct (length kept =? length es); [injection H as <-; auto|].
  destruct (write (meshEntities m) d kept) as [all|] eqn:Ew; [|discriminate]. apply write_length in Ew.
  destruct (for_each (elementsList m) _ []) as [els|] eqn:Eels; [|discriminate]. apply fe_map_inv in Eels as (X1 & X2).
  match type of H with match ?x with None => None | Some _ => _ end = _ => destruct x as [cs|]; [|discriminate H] end.
  injection H as <-. split; [|exact Ew]. intros el e He. cbn in He |- *. rewrite Ew. rewrite X2 in He.
  destruct (nth_error (elementsList m) el) as [e0|] eqn:E0; [|discriminate]. unfold renumberEntities in He.
  destruct (nth_error (incidenceLists e0) d); [|discriminate]. destruct (for_each l _ []); [|discriminate].
  destruct (write (incidenceLists e0) d l0) eqn:E1; [|discriminate]. injection He as <-. apply write_length in E1. cbn. rewrite E1. exact (S _ _ E0).
Qed.
Lemma removeUnusedFrom_sized n : forall m m', sized m -> removeUnusedFrom m n = Some m' -> sized m' /\ length (meshEntities m') = length (meshEntities m).
Proof.
  induction n as [|n IH]; intros m m' S H; cbn in H; [injection H as <-; auto|].
  destruct (removeUnusedLevel m n) as [m1|] eqn:E; [|discriminate]. apply removeUnusedLevel_sized in E as [S1 D1]; [|exact S].
  apply IH in H as [S2 D2]; [|exact S1]. split; [exact S2|congruence].
Qed.

(** ** Histories *)
Lemma perform_keeps o m m' : 1 <= length (meshEntities m) -> consistent m -> sized m -> perform o m = Some m' ->
  consistent m' /\ sized m' /\ length (meshEntities m') = length (meshEntities m).
Proof.
  intros Hd C S H. destruct o as [|node|coords|el l node coord|d el l x|d t s|]; cbn [perform] in H.
  - unfold addNode in H. destruct (newEntity m 0) as [[m1 x]|] eqn:E; [|discriminate]. injection H as <-. cbn.
    split; [eapply new_consistent; eassumption|]. eapply newEntity_sized; eassumption.
  - injection H as <-. split; [apply coordinate_consistent; exact C|]. split; [exact S|reflexivity].
  - destruct (findGeometry _ _) as [s|]; [|discriminate]. split; [eapply addElement_consistent; eassumption|]. eapply addElement_sized; eassumption.
  - split; [eapply setNode_consistent; eassumption|]. eapply setNode_sized; eassumption.
  - destruct (Nat.eqb_spec d 0) as [|Nd]; [discriminate|]. split; [eapply setEntity_consistent; eassumption|]. eapply relink_sized; eassumption.
  - split; [eapply merge_consistent; eassumption|]. eapply merge_sized; eassumption.
  - split; [eapply removeUnusedFrom_spec; eassumption|]. eapply removeUnusedFrom_sized; eassumption.
Qed.
Lemma history_keeps ops : forall m m', 1 <= length (meshEntities m) -> consistent m -> sized m -> history ops m = Some m' -> consistent m' /\ sized m'.
Proof.
  induction ops as [|o ops IH]; intros m m' Hd C S H; cbn in H; [injection H as <-; auto|].
  destruct (perform o m) as [m1|] eqn:E; [|discriminate]. destruct (perform_keeps _ _ _ Hd C S E) as (C1 & S1 & D1).
  eapply IH; [|exact C1|exact S1|exact H]. lia.
Qed.
Lemma empty_consistent dimension : consistent (empty dimension) /\ sized (empty dimension).
Proof.
  split; [|intros [|?] e; discriminate]. constructor.
  - intros d x en H. unfold links_of, empty in H. cbn in H. rewrite nth_error_repeat' in H. destruct (d <? dimension); [|discriminate].
    destruct x; discriminate.
  - intros d [|el] l x H; discriminate.
  - intros [|el] l; exact I.
Qed.
Lemma all_consistent dimension ops m : 1 <= dimension -> history ops (empty dimension) = Some m -> consistent m.
Proof.
  intros Hd H. destruct (empty_consistent dimension) as [C S]. refine (proj1 (history_keeps ops _ _ _ C S H)).
  unfold empty. cbn. rewrite repeat_length. exact Hd.
Qed.
Lemma all_sized dimension ops m : 1 <= dimension -> history ops (empty dimension) = Some m -> sized m.
Proof.
  intros Hd H. destruct (empty_consistent dimension) as [C S]. refine (proj2 (history_keeps ops _ _ _ C S H)).
  unfold empty. cbn. rewrite repeat_length. exact Hd.
Qed.
