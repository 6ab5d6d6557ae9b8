(** Proofs for C62: the tables of the reference elements, and an example. *)
From Coq Require Import List Arith Bool Lia.
From Verif Require Import Loop_model StdMap_model RefGeometry_model GlobalIndexing_model GlobalIndexing_spec GlobalIndexing_proofs GlobalVector_model GlobalVector_spec
  GlobalMatrix_model GlobalMatrix_spec.
Import ListNotations.

Lemma tables_valid m s j ns (edgeNodes : nat -> nat -> nat * nat) nodeIndex faceNodes f e :
  RefGeometry_model.dimension s = 3 -> getCodim1EntityLocalIndices s j = Some ns -> faceNodes f = ns ->
  (forall i, i < length (objectsOf m KEdge e) -> getCodim2EntityLocalIndices s i = Some [fst (edgeNodes e i); snd (edgeNodes e i)]) ->
  length (objectsOf m KNode e) = length (points s) ->
  (forall i k, i < length (points s) -> k < length (points s) -> nodeIndex e i = nodeIndex e k -> i = k) ->
  valid_tables m faceNodes edgeNodes nodeIndex (length (points s)) f e.
Proof.
  intros Hs Hj Hf He Hn Hi.
  assert (K : NoDup ns /\ forall k, In k ns -> k < length (points s)).
  { unfold getCodim1EntityLocalIndices in Hj. apply nth_error_In in Hj. destruct s; cbn in Hs; try discriminate Hs; cbn in Hj;
    repeat (destruct Hj as [<-|Hj]; [split; [repeat constructor; cbn; intuition lia|cbn; intuition lia]|]); destruct Hj. }
  constructor.
  - rewrite Hf. apply K.
  - rewrite Hf. apply K.
  - intros _. exact Hn.
  - intros i Hl. specialize (He i Hl). destruct (edgeNodes e i) as (a, b). cbn [fst snd] in *.
    unfold getCodim2EntityLocalIndices in He. apply nth_error_In in He. destruct s; cbn in Hs; try discriminate Hs; cbn in He;
    repeat (destruct He as [He|He]; [injection He as <- <-; cbn; lia|]); destruct He.
  - exact Hi.
Qed.
Lemma edges_are_sides s j t ns a b : RefGeometry_model.dimension s = 3 ->
  getCodim1ReferenceGeometry s j = Some t -> getCodim1EntityLocalIndices s j = Some ns ->
  (exists i, getCodim2EntityLocalIndices s i = Some [a; b] \/ getCodim2EntityLocalIndices s i = Some [b; a]) /\ In a ns /\ In b ns <->
  exists l x y, getCodim1EntityLocalIndices t l = Some [x; y] /\
    (nth_error ns x = Some a /\ nth_error ns y = Some b \/ nth_error ns x = Some b /\ nth_error ns y = Some a).
Proof.
  intros Hs Ht Hj. split.
  - intros ((i & Hi) & Ha & Hb).
    assert (K : forall a b, getCodim2EntityLocalIndices s i = Some [a; b] -> In a ns -> In b ns ->
      exists l x y, getCodim1EntityLocalIndices t l = Some [x; y] /\
        (nth_error ns x = Some a /\ nth_error ns y = Some b \/ nth_error ns x = Some b /\ nth_error ns y = Some a)).
    { clear a b Hi Ha Hb. intros a b Hi Ha Hb. unfold getCodim2EntityLocalIndices in Hi. apply nth_error_In in Hi.
      destruct s; cbn in Hs; try discriminate Hs; clear Hs; cbn in Hi;
      do 6 (try (destruct j as [|j]; [cbn in Ht, Hj; injection Ht as <-; injection Hj as <-;
        repeat (destruct Hi as [Hi|Hi]; [injection Hi as <- <-; cbn in Ha, Hb;
          first [exfalso; lia
            | exists 0; do 2 eexists; split; [reflexivity|]; cbn; tauto
            | exists 1; do 2 eexists; split; [reflexivity|]; cbn; tauto
            | exists 2; do 2 eexists; split; [reflexivity|]; cbn; tauto
            | exists 3; do 2 eexists; split; [reflexivity|]; cbn; tauto]|]); destruct Hi|])); cbn in Ht; destruct j; discriminate Ht. }
    destruct Hi as [Hi|Hi]; [apply (K a b Hi Ha Hb)|]. destruct (K b a Hi Hb Ha) as (l & x & y & E & H). exists l, x, y. split; [exact E|]. tauto.
  - intros (l & x & y & El & H).
    assert (K : forall a b, nth_error ns x = Some a -> nth_error ns y = Some b ->
      (exists i, getCodim2EntityLocalIndices s i = Some [a; b] \/ getCodim2EntityLocalIndices s i = Some [b; a]) /\ In a ns /\ In b ns).
    { clear a b H. intros a b Ea Eb. split; [|split; eapply nth_error_In; eassumption]. unfold getCodim1EntityLocalIndices in El. apply nth_error_In in El.
      destruct s; cbn in Hs; try discriminate Hs; clear Hs;
      do 6 (try (destruct j as [|j]; [cbn in Ht, Hj; injection Ht as <-; injection Hj as <-; cbn in El;
        repeat (destruct El as [El|El]; [injection El as <- <-; cbn in Ea, Eb; injection Ea as <-; injection Eb as <-;
          first [exists 0; cbn; tauto|exists 1; cbn; tauto|exists 2; cbn; tauto|exists 3; cbn; tauto|exists 4; cbn; tauto|exists 5; cbn; tauto
            |exists 6; cbn; tauto|exists 7; cbn; tauto|exists 8; cbn; tauto|exists 9; cbn; tauto|exists 10; cbn; tauto|exists 11; cbn; tauto]|]); destruct El|]));
        cbn in Ht; destruct j; discriminate Ht. }
    destruct H as [(H1 & H2)|(H1 & H2)]; [apply (K a b H1 H2)|]. destruct (K b a H1 H2) as ((i & Hi) & Hb & Ha). split; [exists i; tauto|auto].
Qed.
Lemma tetrahedron_valid : valid_mesh 1 oneTetrahedron.
Proof.
  constructor; cbn.
  - intros e [<-|[]]; cbn; lia.
  - intros p e. destruct p as [|p]; cbn; split; intuition (subst; try lia; auto).
  - intros [|p]; repeat constructor; cbn; intuition discriminate.
  - intros k e [<-|[]]; destruct k; repeat constructor; cbn; intuition discriminate.
  - intros k e x Hk [<-|[]]; destruct k; try congruence; do 6 (destruct x as [|x]; [cbn; intuition congruence|]); cbn; intuition congruence.
  - intros k e x Hk H. destruct k; try contradiction; do 6 (destruct x as [|x]; [cbn in H; intuition congruence|]); cbn in H; contradiction.
  - reflexivity.
  - reflexivity.
Qed.
Lemma tetrahedron_indexed : let r := answer oneTetrahedron 1 SEQUENTIAL None in indexed 1 oneTetrahedron None SEQUENTIAL r r (numbersOf oneTetrahedron).
Proof.
  assert (HI : indexing oneTetrahedron 1 SEQUENTIAL None (answer oneTetrahedron 1 SEQUENTIAL None)) by (apply answer_indexing; [apply tetrahedron_valid|apply seq_NoDup|exact I]).
  constructor; [lia|apply tetrahedron_valid|repeat constructor; cbn; tauto|apply seq_NoDup|exact I|exact HI| |intros e u _; reflexivity].
  intros p Hp. assert (p = 0) as -> by lia. apply (informed_one_process oneTetrahedron SEQUENTIAL None); [apply tetrahedron_valid|apply seq_NoDup|exact I|exact HI].
Qed.
