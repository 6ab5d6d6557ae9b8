(** Proofs: the conforming basis functions of two elements fit together on their common face. *)
From Coq Require Import List Arith Bool ZArith Lia Permutation Reals Lra.
From Verif Require Import Legendre_model RefGeometry_model RefGeometry_spec RefGeometry_proofs Curvilinear_model Curvilinear_spec
  FaceGeometry_model FaceGeometry_spec FaceSides_proofs BasisFunctions_model BasisSets_model BasisSets_spec BasisSets_proofs
  BasisSizes_proofs Conformity_spec Conformity_proofs.
Import ListNotations.
Local Open Scope R_scope.

(** ** both sides *)
Lemma the_sides : forall L fL R fR fs t lL lR sL sR, same_face L fL R fR (Base fs) t lL lR -> geom L = Base sL -> geom R = Base sR ->
  exists mL nL mR nR, the_face sL fL mL fs nL /\ the_face sR fR mR fs nR /\ length nL = length (points fs) /\ length nR = length (points fs) /\
    map (fun i => nth_error (nodeIDs L) i) nL = map Some lL /\ map (fun i => nth_error (nodeIDs R) i) nR = map Some lR.
Proof.
  intros L fL R fR fs t lL lR sL sR [gL gR _ _ _ (kL & iL & EL) (kR & iR & ER) _ _ _] GL GR. rewrite GL in *. rewrite GR in *.
  assert (T : forall s f k, codim1_geometry (Base s) f = Some (Base fs) -> codim1_indices (Base s) f = Some k ->
    exists m, the_face s f m fs k /\ length k = length (points fs)).
  { intros s f k G I. destruct s; enum 9%nat f; cbn in G, I; try discriminate G; injs; eexists; (split; [repeat split|reflexivity]). }
  destruct (T _ _ _ gL iL) as (mL & FL & NL). destruct (T _ _ _ gR iR) as (mR & FR & NR). exists mL, kL, mR, kR. auto 8.
Qed.

Lemma some_length : forall A B (f : A -> option B) l r, map f l = map Some r -> length l = length r.
Proof. intros A B f l r H. apply (f_equal (@length _)) in H. now rewrite !map_length in H. Qed.
Lemma wt_move : forall fs i m p q lL lR k h id, face_geometry (Base fs) -> getCodim0MappingPtr fs i = Some m -> carries_nodes fs m lL lR ->
  length p = dimension fs -> transform m p = Some q -> length lL = length (points fs) -> length lR = length (points fs) ->
  nth_error lL k = Some id -> nth_error lR h = Some id -> wt fs q h = wt fs p k.
Proof.
  intros fs i m p q lL lR k h id F Hm C Lp T LL LR Hk Hh.
  destruct (nth_error (points fs) k) as [p1|] eqn:P1; [|apply nth_error_None in P1; exfalso; assert (k < length lL)%nat by (apply nth_error_Some; congruence); lia].
  destruct (nth_error (points fs) h) as [p2|] eqn:P2; [|apply nth_error_None in P2; exfalso; assert (h < length lR)%nat by (apply nth_error_Some; congruence); lia].
  exact (weights_move (Base fs) i m p q k h p1 p2 F Hm Lp T P1 P2 (C k h id p1 p2 Hk Hh P1 P2)).
Qed.
Lemma face_shape : forall s f m fs ns, the_face s f m fs ns -> s <> Hypercube -> face_geometry (Base fs).
Proof. intros s f m fs ns (A & B & C) H. destruct s; try contradiction; enum 7%nat f; cbn in B; try discriminate B; injection B as <-; exact I. Qed.
Lemma make_face_index : forall L fL R fR fs t lL lR sL sR F, same_face L fL R fR (Base fs) t lL lR -> geom L = Base sL -> geom R = Base sR ->
  make_face L fL R fR = Some F -> getCodim0MappingIndex fs lL lR = Some (faceToFaceMapIndex F).
Proof.
  intros L fL R fR fs t lL lR sL sR F S GL GR H. destruct (the_sides _ _ _ _ _ _ _ _ _ _ S GL GR) as (mL & nL & mR & nR & FL & FR & NL & NR & EL & ER).
  unfold make_face, getReferenceGeometry in H. rewrite (sf_left _ _ _ _ _ _ _ _ S) in H. rewrite GL, GR in H. cbn [codim1_indices codim1_geometry geometry_points] in H.
  destruct FL as (_ & _ & EnL). destruct FR as (_ & _ & EnR). rewrite EnL, EnR in H. cbn [FaceGeometry_model.bind geometry_points] in H.
  rewrite <- NL in H at 1. rewrite (node_ids_ok _ _ _ EL) in H. cbn [FaceGeometry_model.bind] in H. rewrite <- NR, (node_ids_ok _ _ _ ER) in H.
  cbn [FaceGeometry_model.bind codim0_mapping_index] in H. destruct (getCodim0MappingIndex fs lL lR) as [i|]; [|discriminate H].
  cbn in H. injection H as <-. reflexivity.
Qed.
Lemma Forall2_both : forall A B C (P : A -> B -> Prop) (Q : A -> C -> Prop) (S : B -> C -> Prop) l b c, Forall2 P l b -> Forall2 Q l c ->
  (forall x y z, P x y -> Q x z -> S y z) -> Forall2 S b c.
Proof.
  intros A B C P Q S l b c H. revert c. induction H as [|x y l b HP H IH]; intros c K HS; inversion K; subst; constructor; eauto.
Qed.
Lemma face_trace_ext : forall fs w w' jk, (forall k, (k < length (points fs))%nat -> w k = w' k) -> face_trace fs w jk = face_trace fs w' jk.
Proof.
  intros fs w w' [j k] H. destruct fs; cbn [points length] in H; cbn [face_trace]; rewrite ?(H 0%nat), ?(H 1%nat), ?(H 2%nat), ?(H 3%nat) by lia; reflexivity.
Qed.
Lemma places_length : forall fs o, face_geometry (Base fs) -> length (places fs o) = length (points fs).
Proof. intros fs o F. destruct fs; try contradiction F; do 8 (destruct o as [|o]; [reflexivity|]); reflexivity. Qed.
Lemma places_0 : forall fs k, face_geometry (Base fs) -> (k < length (points fs))%nat -> nth k (places fs 0) 9%nat = k.
Proof. intros fs k F H. destruct fs; try contradiction F; cbn in H; do 4 (destruct k as [|k]; [try reflexivity; lia|]); lia. Qed.

Lemma faces_fit : forall asserts L fL R fR fs t lL lR sL sR F order gL gR, same_face L fL R fR (Base fs) t lL lR ->
  geom L = Base sL -> geom R = Base sR -> make_face L fL R fR = Some F ->
  fitting_face fs sL sR order (faceToFaceMapIndex F) ->
  face_functions asserts sL order 0 fL = Some gL -> face_functions asserts sR order (faceToFaceMapIndex F) fR = Some gR ->
  fit_together L fL R fR fs lL lR gL gR.
Proof.
  intros asserts L fL R fR fs t lL lR sL sR F order gL gR S GL GR MF Fit HL HR.
  assert (Ix := make_face_index _ _ _ _ _ _ _ _ _ _ _ S GL GR MF).
  destruct (the_sides _ _ _ _ _ _ _ _ _ _ S GL GR) as (mL & nL & mR & nR & FL & FR & NL & NR & EL & ER).
  assert (FG : face_geometry (Base fs)) by (eapply face_shape; [exact FL|]; intros ->; discriminate HL).
  assert (TL := face_traces _ _ _ _ _ _ _ _ _ HL FL). assert (TR := face_traces _ _ _ _ _ _ _ _ _ HR FR).
  refine (Forall2_both _ _ _ _ _ _ _ _ _ (TL _) (TR _) _); clear TL TR.
  - intros E. destruct (Fit E) as [K|(K & _ & [K'|K'])]; [left; exact K|right; split; [exact K|left; exact K']|right; split; [exact K|right; now left]].
  - intros E. destruct (Fit E) as [K|(_ & K & K')]; [left; exact K|right; split; [exact K|exact K']].
  - intros jk f g Hf Hg xL xR (i & m & p & q & Hm & C & Ip & XL & Tq & XR).
    unfold mapRefFaceToRefElem, codim1_mapping in XL, XR. rewrite GL in XL. rewrite GR in XR. cbn [base] in XL, XR.
    rewrite (proj1 FL) in XL. rewrite (proj1 FR) in XR. cbn [FaceGeometry_model.bind] in XL, XR.
    assert (Lp := internal_length _ _ _ Ip).
    destruct (codim0_bijection _ _ _ Hm) as (j' & m' & _ & B). destruct (B p Lp) as (q' & Tq' & _ & Iq).
    assert (q' = q) as -> by congruence. apply proj1 in Iq. specialize (Iq Ip). assert (Lq := internal_length _ _ _ Iq).
    exists (face_trace fs (placed fs 0 p) jk). split; [exact (Hf p xL Lp XL)|]. rewrite (Hg q xR Lq XR). f_equal.
    apply face_trace_ext. intros k Hk. unfold placed. rewrite places_0 by assumption.
    assert (LL := some_length _ _ _ _ _ EL). assert (LR := some_length _ _ _ _ _ ER).
    destruct (nth_error (places fs (faceToFaceMapIndex F)) k) as [h|] eqn:Eh; [|apply nth_error_None in Eh; rewrite places_length in Eh by assumption; lia].
    rewrite (nth_error_nth _ _ _ Eh).
    assert (N : nth_error lR h = nth_error lL k)
      by (eapply index_positions; [exact Hm|exact C|exact (sf_distinct _ _ _ _ _ _ _ _ S)|exact (sf_same_nodes _ _ _ _ _ _ _ _ S)|congruence|exact FG|exact Ix|exact Eh]).
    destruct (nth_error lL k) as [id|] eqn:Ek; [|apply nth_error_None in Ek; lia].
    eapply wt_move; [exact FG|exact Hm|exact C|exact Lp|exact Tq|congruence|congruence|exact Ek|exact N].
Qed.

Lemma position_of : forall E s f a id ns l, node_of_face E s f a id -> getCodim1EntityLocalIndices s f = Some ns ->
  map (fun i => nth_error (nodeIDs E) i) ns = map Some l -> exists k, nth_error ns k = Some a /\ nth_error l k = Some id.
Proof.
  intros E s f a id ns l (ns' & Hn & Hin & Hid) H M. assert (ns' = ns) as -> by congruence.
  apply In_nth_error in Hin. destruct Hin as [k Hk]. exists k. split; [exact Hk|].
  apply (f_equal (fun x => nth_error x k)) in M. rewrite !nth_error_map, Hk in M. cbn in M. rewrite Hid in M.
  destruct (nth_error l k); cbn in M; congruence.
Qed.
(** the reference points of one point of the face *)
Lemma both_points : forall L fL R fR fs t lL lR sL sR mL nL mR nR xL xR, same_face L fL R fR (Base fs) t lL lR -> geom L = Base sL -> geom R = Base sR ->
  the_face sL fL mL fs nL -> the_face sR fR mR fs nR -> length nL = length (points fs) -> length nR = length (points fs) ->
  map (fun i => nth_error (nodeIDs L) i) nL = map Some lL -> map (fun i => nth_error (nodeIDs R) i) nR = map Some lR ->
  face_geometry (Base fs) -> same_point L fL R fR fs lL lR xL xR ->
  exists i m p q, getCodim0MappingPtr fs i = Some m /\ internal fs p /\ internal fs q /\ transform mL p = Some xL /\ transform mR q = Some xR /\
    carries_nodes fs m lL lR /\ transform m p = Some q /\
    forall k h id, nth_error lL k = Some id -> nth_error lR h = Some id -> wt fs q h = wt fs p k.
Proof.
  intros L fL R fR fs t lL lR sL sR mL nL mR nR xL xR S GL GR FL FR NL NR EL ER FG (i & m & p & q & Hm & C & Ip & XL & Tq & XR).
  unfold mapRefFaceToRefElem, codim1_mapping in XL, XR. rewrite GL in XL. rewrite GR in XR. cbn [base] in XL, XR.
  rewrite (proj1 FL) in XL. rewrite (proj1 FR) in XR. cbn [FaceGeometry_model.bind] in XL, XR.
  assert (Lp := internal_length _ _ _ Ip).
  destruct (codim0_bijection _ _ _ Hm) as (j' & m' & _ & B). destruct (B p Lp) as (q' & Tq' & _ & Iq).
  assert (q' = q) as -> by congruence. apply proj1 in Iq. specialize (Iq Ip).
  exists i, m, p, q. repeat (split; [assumption|]). intros k h id Hk Hh.
  assert (LL := some_length _ _ _ _ _ EL). assert (LR := some_length _ _ _ _ _ ER).
  eapply wt_move; [exact FG|exact Hm|exact C|exact Lp|exact Tq|congruence|congruence|exact Hk|exact Hh].
Qed.
Lemma nodes_fit : forall asserts L fL R fR fs t lL lR sL sR order a b id gL gR, same_face L fL R fR (Base fs) t lL lR ->
  geom L = Base sL -> geom R = Base sR -> node_of_face L sL fL a id -> node_of_face R sR fR b id ->
  node_functions asserts sL order a = Some gL -> node_functions asserts sR order b = Some gR ->
  fit_together L fL R fR fs lL lR gL gR.
Proof.
  intros asserts L fL R fR fs t lL lR sL sR order a b id gL gR S GL GR Na Nb HL HR.
  destruct (the_sides _ _ _ _ _ _ _ _ _ _ S GL GR) as (mL & nL & mR & nR & FL & FR & NL & NR & EL & ER).
  assert (FG : face_geometry (Base fs)) by (eapply face_shape; [exact FL|]; intros ->; discriminate HL).
  destruct (position_of _ _ _ _ _ _ _ Na (proj2 (proj2 FL)) EL) as (k & Ka & Kid).
  destruct (position_of _ _ _ _ _ _ _ Nb (proj2 (proj2 FR)) ER) as (h & Hb & Hid).
  destruct (node_traces _ _ _ _ _ _ _ _ _ _ HL FL Ka) as (g & -> & Vg). destruct (node_traces _ _ _ _ _ _ _ _ _ _ HR FR Hb) as (g' & -> & Vg').
  constructor; [|constructor]. intros xL xR SP.
  destruct (both_points _ _ _ _ _ _ _ _ _ _ _ _ _ _ _ _ S GL GR FL FR NL NR EL ER FG SP) as (i & m & p & q & Hm & Ip & Iq & TL & TR & C & Tq & W).
  exists (wt fs p k). split; [exact (Vg p xL Ip TL)|]. rewrite (Vg' q xR Iq TR). f_equal. exact (W k h id Kid Hid).
Qed.

Lemma opposite_move : forall i m k h p1 p2, getCodim0MappingPtr Square i = Some m -> nth_error (points Square) k = Some p1 ->
  nth_error (points Square) h = Some p2 -> transform m p1 = Some p2 ->
  exists p3 p4, nth_error (points Square) (3 - k) = Some p3 /\ nth_error (points Square) (3 - h) = Some p4 /\ transform m p3 = Some p4.
Proof.
  intros i m k h p1 p2 Hm H1 H2 T.
  enum 9%nat i; cbn in Hm; try discriminate Hm; injection Hm as <-; enum 5%nat k; cbn in H1; try discriminate H1; injection H1 as <-;
    cbn in T; injection T as <-; enum 5%nat h; cbn in H2; try discriminate H2; try (injection H2; intros; exfalso; lra);
    (eexists; eexists; split; [reflexivity|]; split; [reflexivity|]); cbn; repeat f_equal; ring.
Qed.
Lemma edge_trace_move : forall fs i m lL lR p q k0 k1 h0 h1 id0 id1 sign j, face_geometry (Base fs) -> getCodim0MappingPtr fs i = Some m ->
  carries_nodes fs m lL lR -> internal fs p -> transform m p = Some q -> length lL = length (points fs) -> length lR = length (points fs) ->
  nth_error lL k0 = Some id0 -> nth_error lR h0 = Some id0 -> nth_error lL k1 = Some id1 -> nth_error lR h1 = Some id1 ->
  edge_trace fs sign (wt fs q) h0 h1 j = edge_trace fs sign (wt fs p) k0 k1 j.
Proof.
  intros fs i m lL lR p q k0 k1 h0 h1 id0 id1 sign j FG Hm C Ip Tq LL LR K0 H0 K1 H1.
  assert (Lp := internal_length _ _ _ Ip).
  assert (W := fun k h id => wt_move fs i m p q lL lR k h id FG Hm C Lp Tq LL LR).
  destruct fs; cbn [edge_trace]; try reflexivity.
  - rewrite (W _ _ _ K0 H0), (W _ _ _ K1 H1). reflexivity.
  - assert (O : forall k h id, nth_error lL k = Some id -> nth_error lR h = Some id -> wt Square q (3 - h) = wt Square p (3 - k)).
    { intros k h id Hk Hh.
      destruct (nth_error (points Square) k) as [p1|] eqn:P1; [|apply nth_error_None in P1; exfalso; assert (k < length lL)%nat by (apply nth_error_Some; congruence); lia].
      destruct (nth_error (points Square) h) as [p2|] eqn:P2; [|apply nth_error_None in P2; exfalso; assert (h < length lR)%nat by (apply nth_error_Some; congruence); lia].
      destruct (opposite_move i m k h p1 p2 Hm P1 P2 (C k h id p1 p2 Hk Hh P1 P2)) as (p3 & p4 & P3 & P4 & T).
      exact (weights_move (Base Square) i m p q _ _ p3 p4 I Hm Lp Tq P3 P4 T). }
    rewrite (W _ _ _ K0 H0), (W _ _ _ K1 H1), (O _ _ _ K0 H0), (O _ _ _ K1 H1). reflexivity.
Qed.
Lemma edges_fit : forall asserts L fL R fR fs t lL lR sL sR order eL eR a0 a1 b0 b1 i0 i1 j0 j1 index gL gR,
  same_face L fL R fR (Base fs) t lL lR -> geom L = Base sL -> geom R = Base sR ->
  (sL = Cube <-> sR = Cube) ->
  getCodim2EntityLocalIndices sL eL = Some [a0; a1] -> getCodim2EntityLocalIndices sR eR = Some [b0; b1] ->
  node_of_face L sL fL a0 i0 -> node_of_face L sL fL a1 i1 -> node_of_face R sR fR b0 j0 -> node_of_face R sR fR b1 j1 ->
  i0 = j0 /\ i1 = j1 \/ i0 = j1 /\ i1 = j0 -> index i0 <> index i1 ->
  edge_functions asserts sL order (edge_orientation (index i0) (index i1)) eL = Some gL ->
  edge_functions asserts sR order (edge_orientation (index j0) (index j1)) eR = Some gR ->
  fit_together L fL R fR fs lL lR gL gR.
Proof.
  intros asserts L fL R fR fs t lL lR sL sR order eL eR a0 a1 b0 b1 i0 i1 j0 j1 index gL gR S GL GR Fam EaL EbR A0 A1 B0 B1 Ids Ni HL HR.
  destruct (the_sides _ _ _ _ _ _ _ _ _ _ S GL GR) as (mL & nL & mR & nR & FL & FR & NL & NR & EL & ER).
  assert (FG : face_geometry (Base fs)) by (eapply face_shape; [exact FL|]; intros ->; discriminate HL).
  assert (LL := some_length _ _ _ _ _ EL). assert (LR := some_length _ _ _ _ _ ER).
  destruct (position_of _ _ _ _ _ _ _ A0 (proj2 (proj2 FL)) EL) as (k0 & Ka0 & Kid0).
  destruct (position_of _ _ _ _ _ _ _ A1 (proj2 (proj2 FL)) EL) as (k1 & Ka1 & Kid1).
  destruct (position_of _ _ _ _ _ _ _ B0 (proj2 (proj2 FR)) ER) as (h0 & Hb0 & Hid0).
  destruct (position_of _ _ _ _ _ _ _ B1 (proj2 (proj2 FR)) ER) as (h1 & Hb1 & Hid1).
  destruct (edge_traces _ _ _ _ _ _ _ _ _ _ _ _ _ _ HL EaL FL Ka0 Ka1) as [_ TL].
  destruct (edge_traces _ _ _ _ _ _ _ _ _ _ _ _ _ _ HR EbR FR Hb0 Hb1) as [_ TR].
  refine (Forall2_both _ _ _ _ _ _ _ _ _ TL TR _). clear TL TR. intros j f g Hf Hg xL xR SP.
  destruct (both_points _ _ _ _ _ _ _ _ _ _ _ _ _ _ _ _ S GL GR FL FR NL NR EL ER FG SP) as (i & m & p & q & Hm & Ip & Iq & TL & TR & C & Tq & _).
  eexists. split; [exact (Hf p xL (internal_length _ _ _ Ip) TL)|]. rewrite (Hg q xR (internal_length _ _ _ Iq) TR). f_equal.
  assert (Sg : edge_sign sR = edge_sign sL).
  { unfold edge_sign. destruct sL; destruct sR; try reflexivity; try (exfalso; destruct Fam as [F1 F2]; first [discriminate (F1 eq_refl)|discriminate (F2 eq_refl)]). }
  rewrite Sg. unfold edge_orientation.
  destruct Ids as [[<- <-]|[<- <-]].
  - destruct (Nat.ltb_spec (index i0) (index i1)); cbn [Nat.eqb];
      (eapply edge_trace_move; [exact FG|exact Hm|exact C|exact Ip|exact Tq|congruence|congruence| | | | ]; eassumption).
  - destruct (Nat.ltb_spec (index i0) (index i1)); destruct (Nat.ltb_spec (index i1) (index i0)); try lia; cbn [Nat.eqb];
      (eapply edge_trace_move; [exact FG|exact Hm|exact C|exact Ip|exact Tq|congruence|congruence| | | | ]; eassumption).
Qed.

(** ** the points that are used for integration *)
Lemma integration_points : forall L fL R fR fs t lL lR sL sR F p xL xR, same_face L fL R fR (Base fs) t lL lR -> conforming (Base fs) lL lR ->
  geom L = Base sL -> geom R = Base sR -> sL <> Hypercube -> make_face L fL R fR = Some F ->
  (fs = Square -> faceToFaceMapIndex F <> 1 /\ faceToFaceMapIndex F <> 3)%nat -> internal fs p ->
  mapRefFaceToRefElemL F p = Some xL -> mapRefFaceToRefElemR F p = Some xR -> same_point L fL R fR fs lL lR xL xR.
Proof.
  intros L fL R fR fs t lL lR sL sR F p xL xR S Cf GL GR Hy MF Sq Ip XL XR.
  assert (Ix := make_face_index _ _ _ _ _ _ _ _ _ _ _ S GL GR MF).
  destruct (the_sides _ _ _ _ _ _ _ _ _ _ S GL GR) as (mL & nL & mR & nR & FL & FR & NL & NR & EL & ER).
  assert (FG : face_geometry (Base fs)) by (eapply face_shape; [exact FL|exact Hy]).
  assert (LL := some_length _ _ _ _ _ EL).
  destruct (index_ok (Base fs) lL lR FG (sf_distinct _ _ _ _ _ _ _ _ S) (sf_same_nodes _ _ _ _ _ _ _ _ S) Cf) as (i & m & Hi & Hm & HC).
  { cbn [geometry_points]. congruence. }
  cbn [codim0_mapping_index base] in Hi, Hm. assert (i = faceToFaceMapIndex F) as -> by congruence.
  assert (EF : F = Face L fL R fR (faceToFaceMapIndex F)).
  { unfold make_face in MF. repeat match goal with H : FaceGeometry_model.bind ?o _ = Some _ |- _ => destruct o; [cbn [FaceGeometry_model.bind] in H|discriminate H] end.
    injection MF as <-. reflexivity. }
  rewrite EF in XL, XR. unfold mapRefFaceToRefElemL in XL. cbn [elementL localFaceNumberL] in XL.
  unfold mapRefFaceToRefElemR, mapRefFaceToRefFace, getReferenceGeometry in XR. cbn [elementL elementR localFaceNumberL localFaceNumberR faceToFaceMapIndex] in XR.
  rewrite (sf_left _ _ _ _ _ _ _ _ S) in XR. cbn [FaceGeometry_model.bind] in XR. unfold codim0_mapping in XR. cbn [base] in XR. rewrite Hm in XR.
  cbn [FaceGeometry_model.bind] in XR. destruct (transform m p) as [q|] eqn:Tq; [|discriminate XR].
  exists (faceToFaceMapIndex F), m, p, q. split; [exact Hm|]. split.
  - apply HC. intros E. injection E as E. exact (Sq E).
  - split; [exact Ip|]. split; [exact XL|]. split; [exact Tq|exact XR].
Qed.

(** ** where the functions do not fit together *)
(** below the left cube, with the two directions of the face interchanged *)
Definition transposed_cube : element :=
  Element (Base Cube) [[-1;-1;-1]; [-1;1;-1]; [1;-1;-1]; [1;1;-1]; [-1;-1;-3]; [-1;1;-3]; [1;-1;-3]; [1;1;-3]] [0;2;1;3;14;15;16;17]%nat.
Ltac is_same_face :=
  constructor; first
  [ reflexivity
  | split; [split; [reflexivity|repeat constructor]|reflexivity]
  | split; reflexivity
  | eexists; split; reflexivity
  | repeat constructor; cbn; lia
  | apply NoDup_Permutation_bis; [repeat constructor; cbn; lia|cbn; lia|]; let x := fresh in let H := fresh in intros x H; cbn in H |- *; intuition
  | let a := fresh in let b := fresh in let id := fresh in let Ha := fresh in let Hb := fresh in let Hin := fresh in let Hp := fresh in let Hq := fresh in
    intros a b id p q Ha Hb Hin Hp Hq; cbn in Hin;
    enum 9%nat a; cbn in Ha, Hp; try discriminate Ha; injs; try (exfalso; lia);
    enum 9%nat b; cbn in Hb, Hq; try discriminate Hb; injs;
    (split; [reflexivity|split; [reflexivity|]]); let i := fresh in let Hi := fresh in intros i Hi; cbn in Hi; enum 3%nat i; try lia; cbn; lra ].
Lemma transposed_same_face : same_face left_cube 0 transposed_cube 0 (Base Square) [0;0;0] [0;1;2;3]%nat [0;2;1;3]%nat.
Proof. is_same_face. Qed.
(** a prism below the left cube *)
Definition prism_below : element :=
  Element (Base TriangularPrism) [[-1;-1;-1]; [1;-1;-1]; [0;-1;-2]; [-1;1;-1]; [1;1;-1]; [0;1;-2]] [0;1;8;2;3;9]%nat.
Lemma prism_same_face : same_face left_cube 0 prism_below 3 (Base Square) [0;0;0] [0;1;2;3]%nat [0;1;2;3]%nat.
Proof. is_same_face. Qed.
(** the neighbour of the left cube on both sides, when the mesh is periodic in the first direction *)
Definition periodic_cube : element :=
  Element (Base Cube) [[-3;-1;-1]; [-1;-1;-1]; [-3;1;-1]; [-1;1;-1]; [-3;-1;1]; [-1;-1;1]; [-3;1;1]; [-1;1;1]] [1;0;3;2;5;4;7;6]%nat.
Lemma periodic_cube_same_face : same_face left_cube 3 periodic_cube 2 (Base Square) [-4;0;0] [1;3;5;7]%nat [1;3;5;7]%nat.
Proof. is_same_face. Qed.

Ltac inside := unfold internal; cbn; apply f_equal; repeat (apply andb_true_iff; split); apply leb_true; lra.
Lemma transposed_refutes : exists L fL R fR t lL lR F gL gR, same_face L fL R fR (Base Square) t lL lR /\ conforming (Base Square) lL lR /\
  geom L = Base Cube /\ geom R = Base Cube /\ make_face L fL R fR = Some F /\ face_functions true Cube 3 0 fL = Some gL /\
  face_functions true Cube 3 (faceToFaceMapIndex F) fR = Some gR /\ ~ fit_together L fL R fR Square lL lR gL gR.
Proof.
  exists left_cube, 0%nat, transposed_cube, 0%nat, [0;0;0], [0;1;2;3]%nat, [0;2;1;3]%nat. do 3 eexists.
  split; [exact transposed_same_face|]. split; [exists 7%nat; eexists; split; [reflexivity|]; carry|].
  split; [reflexivity|]. split; [reflexivity|]. split; [reflexivity|]. split; [vm_compute; reflexivity|]. split; [vm_compute; reflexivity|].
  intros H. inversion H as [|? ? ? ? _ H2]; subst. inversion H2 as [|? ? ? ? H3 _]; subst. clear H H2.
  destruct (H3 [1/2; 0; -1] [0; 1/2; -1]) as (v & V1 & V2).
  - exists 7%nat, SquareToSquare7, [1/2; 0], [0; 1/2]. split; [reflexivity|]. split; [carry|]. split; [inside|]. split; [reflexivity|]. split; reflexivity.
  - revert V1 V2. values. intros V1 V2. injection V1 as V1. injection V2 as V2.
    assert (sqrt (3 / 2) > 0) by (apply sqrt_lt_R0; lra). assert (sqrt (5 / 2) > 0) by (apply sqrt_lt_R0; lra).
    assert (0 < sqrt (3 / 2) * sqrt (5 / 2)) by (apply Rmult_lt_0_compat; lra). nra.
Qed.
Lemma mixed_refutes : exists L fL R fR t lL lR gL gR, same_face L fL R fR (Base Square) t lL lR /\ conforming (Base Square) lL lR /\
  geom L = Base Cube /\ geom R = Base TriangularPrism /\
  getCodim2EntityLocalIndices Cube 0 = Some [0; 1]%nat /\ getCodim2EntityLocalIndices TriangularPrism 0 = Some [0; 1]%nat /\
  node_of_face L Cube fL 0 0 /\ node_of_face L Cube fL 1 1 /\ node_of_face R TriangularPrism fR 0 0 /\ node_of_face R TriangularPrism fR 1 1 /\
  edge_functions false Cube 3 (edge_orientation 0 1) 0 = Some gL /\
  edge_functions false TriangularPrism 3 (edge_orientation 0 1) 0 = Some gR /\ ~ fit_together L fL R fR Square lL lR gL gR.
Proof.
  exists left_cube, 0%nat, prism_below, 3%nat, [0;0;0], [0;1;2;3]%nat, [0;1;2;3]%nat. do 2 eexists.
  split; [exact prism_same_face|]. split; [exists 0%nat; eexists; split; [reflexivity|]; carry|].
  split; [reflexivity|]. split; [reflexivity|]. split; [reflexivity|]. split; [reflexivity|].
  do 4 (split; [eexists; split; [reflexivity|]; split; [cbn; tauto|reflexivity]|]).
  split; [vm_compute; reflexivity|]. split; [vm_compute; reflexivity|].
  intros H. inversion H as [|? ? ? ? _ H2]; subst. inversion H2 as [|? ? ? ? H3 _]; subst. clear H H2.
  destruct (H3 [1/2; -1; -1] [(1 + 1/2) / 2; 0; -1]) as (v & V1 & V2).
  - exists 0%nat, SquareToSquare0, [1/2; -1], [1/2; -1]. split; [reflexivity|]. split; [carry|]. split; [inside|].
    split; [reflexivity|]. split; [reflexivity|]. cbn; point_eq lra.
  - revert V1 V2. values. intros V1 V2. injection V1 as V1. injection V2 as V2.
    assert (sqrt (5 / 2) > 0) by (apply sqrt_lt_R0; lra). nra.
Qed.
Lemma periodic_refutes : exists L fL R fR t lL lR gL gR iL0 iL1 iR0 iR1, same_face L fL R fR (Base Square) t lL lR /\ conforming (Base Square) lL lR /\
  geom L = Base Cube /\ geom R = Base Cube /\
  getCodim2EntityLocalIndices Cube 5 = Some [1; 3]%nat /\ getCodim2EntityLocalIndices Cube 4 = Some [0; 2]%nat /\
  node_of_face L Cube fL 1 1 /\ node_of_face L Cube fL 3 3 /\ node_of_face R Cube fR 0 1 /\ node_of_face R Cube fR 2 3 /\
  NoDup [iL0; iL1; iR0; iR1] /\
  edge_functions true Cube 3 (edge_orientation iL0 iL1) 5 = Some gL /\
  edge_functions true Cube 3 (edge_orientation iR0 iR1) 4 = Some gR /\ ~ fit_together L fL R fR Square lL lR gL gR.
Proof.
  exists left_cube, 3%nat, periodic_cube, 2%nat, [-4;0;0], [1;3;5;7]%nat, [1;3;5;7]%nat. do 2 eexists. exists 0%nat, 1%nat, 3%nat, 2%nat.
  split; [exact periodic_cube_same_face|]. split; [exists 0%nat; eexists; split; [reflexivity|]; carry|].
  split; [reflexivity|]. split; [reflexivity|]. split; [reflexivity|]. split; [reflexivity|].
  do 4 (split; [eexists; split; [reflexivity|]; split; [cbn; tauto|reflexivity]|]).
  split; [repeat constructor; cbn; lia|].
  split; [vm_compute; reflexivity|]. split; [vm_compute; reflexivity|].
  intros H. inversion H as [|? ? ? ? _ H2]; subst. inversion H2 as [|? ? ? ? H3 _]; subst. clear H H2.
  destruct (H3 [1; 1/2; -1] [-1; 1/2; -1]) as (v & V1 & V2).
  - exists 0%nat, SquareToSquare0, [1/2; -1], [1/2; -1]. split; [reflexivity|]. split; [carry|]. split; [inside|].
    split; [reflexivity|]. split; reflexivity.
  - revert V1 V2. values. intros V1 V2. injection V1 as V1. injection V2 as V2.
    assert (sqrt (5 / 2) > 0) by (apply sqrt_lt_R0; lra). nra.
Qed.
Lemma turned_point : same_point left_cube 0 turned_cube 0 Square [0;1;2;3]%nat [1;0;3;2]%nat [1/2; 0; -1] [-(1/2); 0; -1].
Proof.
  exists 5%nat, SquareToSquare5, [1/2; 0], [-(1/2); 0]. split; [reflexivity|]. split; [carry|]. split; [inside|].
  split; [reflexivity|]. split; reflexivity.
Qed.
