(** Theorems for C78: the facets between zones. *)
From Coq Require Import String List Arith Bool Lia Sorted.
From Verif Require Import Facets_model Facets_spec Facets_proofs.
Import ListNotations.

(** C78: the facet of a pair has exactly the faces of the processor that go from the first zone to the second, seen from the side
    with which they are stored; and each face at most once. *)
Theorem C78_faces : forall (faces : list face) (p : pair),
  (forall f s, In (f, s) (lookup p (facets faces)) <-> In f faces /\ ownedFace f = true /\ goes f s (fst p) (snd p) /\ outward p) /\
  (NoDup faces -> NoDup (map fst (lookup p (facets faces)))).
Proof.
  intros faces p. rewrite facets_lookup. split; [|apply parts_once]. intros f s. rewrite in_flat_map. split.
  - intros [g [I H]]. apply part_in in H. destruct H as [-> H]. auto.
  - intros [I H]. exists f. split; [exact I|]. apply part_in. auto.
Qed.
Print Assumptions C78_faces.

(** C78: a face of the processor between two zones, or on the boundary, is in exactly one facet, with one side. *)
Theorem C78_one_facet : forall (faces : list face) (f : face), In f faces -> ownedFace f = true -> rightZone f <> Some (leftZone f) ->
  exists p s, In (f, s) (lookup p (facets faces)) /\ forall q t, In (f, t) (lookup q (facets faces)) -> q = p /\ t = s.
Proof.
  intros faces f I O N. destruct (select f) as [s|] eqn:E.
  - exists (getZoneIndexPair f), s. split.
    + apply C78_faces. split; [exact I|]. now apply selected.
    + intros q t H. apply C78_faces in H. destruct H as [_ H]. apply selected in H. destruct H as [H <-]. split; [reflexivity|congruence].
  - unfold select in E. rewrite O in E. cbn [negb] in E. destruct (rightZone f) as [r|]; [|discriminate]. destruct (Nat.eqb_spec (leftZone f) r); [congruence|discriminate].
Qed.
Print Assumptions C78_one_facet.

(** C78: the facets are numbered in lexicographical order, without gaps, and those of all processors have a number. *)
Theorem C78_order : forall N (processors : list (list face)),
  (forall faces f, In faces processors -> In f faces -> within N f) ->
  StronglySorted earlier (faceIndexOrdering N processors) /\
  forall p, In p (faceIndexOrdering N processors) <-> exists faces, In faces processors /\ lookup p (facets faces) <> [].
Proof.
  intros N ps W. split; [apply pairs_sorted|]. intros p. rewrite (order_in N ps W).
  assert (K : forall fs, In p (map fst (facets fs)) <-> lookup p (facets fs) <> []).
  { intros fs. rewrite facets_keys, facets_lookup. split.
    - intros [f [I [S E]]] H. destruct (select f) as [s|] eqn:Es; [|congruence].
      assert (J : In (f, s) (flat_map (part p) fs)) by (apply in_flat_map; exists f; split; [exact I|]; apply part_in; split; [reflexivity|]; now apply selected).
      rewrite H in J. destruct J.
    - intros H. destruct (flat_map (part p) fs) as [|[f s] r] eqn:E; [congruence|]. assert (J : In (f, s) (flat_map (part p) fs)) by (rewrite E; now left).
      apply in_flat_map in J. destruct J as [g [I J]]. apply part_in in J. destruct J as [-> J]. apply selected in J. destruct J as [J1 J2]. exists g. repeat split; auto. congruence. }
  split; intros [fs [I H]]; exists fs; (split; [exact I|]); now apply K.
Qed.
Print Assumptions C78_order.

(** C78: the numbers do not depend on how the faces are distributed over processors. *)
Theorem C78_distribution : forall N (a b : list (list face)),
  (forall faces f, In faces a -> In f faces -> within N f) -> (forall faces f, In faces b -> In f faces -> within N f) ->
  (forall f, ownedFace f = true -> (exists faces, In faces a /\ In f faces) <-> (exists faces, In faces b /\ In f faces)) ->
  faceIndexOrdering N a = faceIndexOrdering N b.
Proof.
  intros N a b Wa Wb H. apply sorted_unique; [apply pairs_sorted|apply pairs_sorted|]. intros p. rewrite (order_in N a Wa), (order_in N b Wb).
  assert (O : forall f, select f <> None -> ownedFace f = true) by (intros f S; unfold select in S; destruct (ownedFace f); [reflexivity|now destruct S]).
  split; intros [fs [I K]]; apply facets_keys in K; destruct K as [f [J [S E]]]; destruct (H f (O f S)) as [H1 H2].
  - destruct H1 as [gs [I' J']]; [eauto|]. exists gs. split; [exact I'|]. apply facets_keys. eauto.
  - destruct H2 as [gs [I' J']]; [eauto|]. exists gs. split; [exact I'|]. apply facets_keys. eauto.
Qed.
Print Assumptions C78_distribution.

Definition left_faces : list face := [Face true 0 (Some 2); Face true 2 (Some 0); Face true 1 (Some 1); Face true 1 None; Face false 0 (Some 1)].
Definition right_faces : list face := [Face true 2 None; Face true 1 (Some 0)].
Example C78_nonvacuous :
  (forall faces f, In faces [left_faces; right_faces] -> In f faces -> within 3 f) /\ NoDup left_faces /\
  lookup (0, Some 2) (facets left_faces) = [(Face true 0 (Some 2), LEFT); (Face true 2 (Some 0), RIGHT)] /\
  faceIndexOrdering 3 [left_faces; right_faces] = [(0, Some 1); (0, Some 2); (1, None); (2, None)] /\
  faceIndexOrdering 3 [left_faces ++ right_faces; []] = faceIndexOrdering 3 [left_faces; right_faces].
Proof.
  split; [|split; [|repeat split]].
  - intros fs f [<-|[<-|[]]] Hf; cbn in Hf; repeat destruct Hf as [<-|Hf]; try contradiction; split; cbn; try lia; intros r H; try discriminate; injection H as <-; lia.
  - repeat constructor; cbn; intuition discriminate.
Qed.

(** C78: names of facets do not tell them apart, even if the zones have different names. *)
Theorem C78_names_refuted : exists (zones : list string) (faces : list face) p q,
  NoDup zones /\ (forall f, In f faces -> within (length zones) f) /\
  In p (faceIndexOrdering (length zones) [faces]) /\ In q (faceIndexOrdering (length zones) [faces]) /\ p <> q /\ name zones p = name zones q /\ name zones p <> None.
Proof.
  exists ["a"; "b"; "a--b"]%string, [Face true 0 (Some 1); Face true 2 None], (0, Some 1), (2, None).
  split; [repeat constructor; cbn; intuition discriminate|]. split.
  - intros f [<-|[<-|[]]]; split; cbn; try lia; intros r H; try discriminate; injection H as <-; lia.
  - split; [now left|]. split; [right; now left|]. split; [discriminate|]. split; [reflexivity|discriminate].
Qed.
Print Assumptions C78_names_refuted.
