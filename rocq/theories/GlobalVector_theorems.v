(** C61: the exchange of data between the global vector and the elements. *)
From Coq Require Import List Arith Bool Lia Permutation Sorted.
From Verif Require Import Loop_model StdMap_model GlobalIndexing_model GlobalIndexing_spec GlobalIndexing_proofs GlobalVector_model GlobalVector_spec
  GlobalVector_proofs GlobalVectorWrite_proofs GlobalVectorOne_proofs GlobalVectorExamples_proofs.
Import ListNotations.

(** assemble(): no process fails, and whatever the order in which PETSc adds the values, the entry of a degree of freedom is the
    sum of what all elements and all faces of the mesh contribute to it, once each.  For any selection of the unknowns. *)
Theorem C61_assembly : forall (A : Type) (zero : A) (add : A -> A -> A) n m unknowns layout r gs total faces facesList us elementVector faceVector,
  (forall x, add zero x = x) -> (forall x y, add x y = add y x) -> (forall x y z, add x (add y z) = add (add x y) z) ->
  indexed n m unknowns layout r gs total -> valid_faces n m faces facesList ->
  StronglySorted lt us -> (forall u, In u us <-> In u (included m unknowns)) ->
  (forall vector, elementVector = Some vector -> complete m us vector) ->
  (forall vector, faceVector = Some vector -> forall f, In f faces -> length (vector f) = length (dofs_of_face m us f)) ->
  exists pairs, (forall p, p < n -> assemble m total p (gs p) (facesList p) elementVector faceVector = Some (pairs p)) /\
    forall result, assembled add (repeat zero (size_of r)) (flat_map pairs (seq 0 n)) result ->
      exists b, result = Some b /\ length b = size_of r /\
        forall d, is_dof m (included m unknowns) d -> exists i, numbered m r d i /\
          nth_error b i = Some (sum_of add zero (element_shares m us d elementVector ++ face_shares m us faces d faceVector)).
Proof. exact assembly. Qed.
Print Assumptions C61_assembly.

(** Two elements on two processes: both elements and the face between them contribute to the first function of that face, and the
    second process adds the values of that face. *)
Example C61_assembly_nonvacuous :
  let r := answer twoElements 2 BLOCKED_GLOBAL None in
  let elementVector e := map (fun k => 10 * e + k) (seq 0 10) in
  let faceVector f := repeat (100 + f) (length (dofs_of_face twoElements [0; 1] f)) in
  let d := {| d_kind := KFace; d_id := 0; d_unknown := 0; d_fn := 0 |} in
  indexed 2 twoElements None BLOCKED_GLOBAL r (together r) (numbersOf twoElements) /\ valid_faces 2 twoElements [0; 1; 2] (fun _ => [2; 0; 1]) /\
  complete twoElements [0; 1] elementVector /\
  (forall f, In f [0; 1; 2] -> length (faceVector f) = length (dofs_of_face twoElements [0; 1] f)) /\
  is_dof twoElements [0; 1] d /\ size_of r = 17 /\ length (faceVector 0) = 20 /\
  element_shares twoElements [0; 1] d (Some elementVector) = [1; 11] /\
  face_shares twoElements [0; 1] [0; 1; 2] d (Some faceVector) = [100; 100; 101; 102].
Proof.
  intros r elementVector faceVector d. split; [exact two_indexed|]. split; [exact two_faces|]. split; [intros e [<-|[<-|[]]]; reflexivity|].
  split; [intros f _; apply repeat_length|]. split; [|split; [reflexivity|split; [reflexivity|split; reflexivity]]].
  split; [split; [exact I|exists 0; split; [left; reflexivity|cbn; auto]]|]. split; [left; reflexivity|cbn; lia].
Qed.

(** constructFromTimeIntegrationVector(id): when the elements agree on what they share, every entry of the vector is the value
    that the elements have for that degree of freedom, in any order of insertion. *)
Theorem C61_construct : forall (A : Type) (zero : A) n m unknowns layout r gs total (data : nat -> list A),
  indexed n m unknowns layout r gs total -> all_unknowns m unknowns -> complete m (unknowns_of m) data -> agree m (unknowns_of m) data ->
  exists pairs, (forall p, p < n -> construct m total p (gs p) data = Some (pairs p)) /\
    forall result, assembled INSERT_VALUES (repeat zero (size_of r)) (flat_map pairs (seq 0 n)) result ->
      exists b, result = Some b /\ length b = size_of r /\
        forall e, In e (elements m) -> values_of m r b (dofs_of_element m (unknowns_of m) e) (data e).
Proof. exact constructed. Qed.
Print Assumptions C61_construct.
(** constructFromTimeIntegrationVector(id, u): the entries of unknown [u]; the others are zero. *)
Theorem C61_construct_one : forall (A : Type) (zero : A) n m unknowns layout r gs total u (data : nat -> list A),
  indexed n m unknowns layout r gs total -> all_unknowns m unknowns -> complete m (unknowns_of m) data -> agree_for m (unknowns_of m) u data ->
  exists pairs, (forall p, p < n -> constructOne zero m total p (gs p) u data = Some (pairs p)) /\
    forall result, assembled INSERT_VALUES (repeat zero (size_of r)) (flat_map pairs (seq 0 n)) result ->
      exists b, result = Some b /\ length b = size_of r /\
        forall e k d, In e (elements m) -> nth_error (dofs_of_element m (unknowns_of m) e) k = Some d ->
          exists i, numbered m r d i /\ nth_error b i = if d_unknown d =? u then nth_error (data e) k else Some zero.
Proof. exact constructed_one. Qed.
Print Assumptions C61_construct_one.
Example C61_construct_nonvacuous :
  let r := answer twoElements 2 BLOCKED_GLOBAL None in
  let data e := map someValue (dofs_of_element twoElements [0; 1] e) in
  indexed 2 twoElements None BLOCKED_GLOBAL r (together r) (numbersOf twoElements) /\ all_unknowns twoElements None /\
  complete twoElements [0; 1] data /\ agree twoElements [0; 1] data /\ agree_for twoElements [0; 1] 0 data /\
  data 0 = [0; 100; 101; 110; 111; 350; 330; 5; 6; 7] /\ data 1 = [10; 100; 101; 120; 121; 330; 340; 15; 16; 17].
Proof.
  intros r data. split; [exact two_indexed|]. split; [intros u Hu; apply in_seq; cbn in *; lia|]. split; [apply by_dof|]. split; [apply by_dof|].
  split; [intros e e' k k' d _; apply by_dof|]. split; reflexivity.
Qed.

(** writeTimeIntegrationVector(id): a process gives every element that it sees, its neighbours included, the entries of the vector
    for the degrees of freedom of that element, in the order in which elements store them. *)
Theorem C61_write : forall (A : Type) (zero : A) n m unknowns layout r gs total p b,
  indexed n m unknowns layout r gs total -> all_unknowns m unknowns -> length b = size_of r -> p < n ->
  exists rows, writeVector zero m total p (gs p) b = Some rows /\ map fst rows = filter (visible m p) (elements m) /\
    forall e values, In (e, values) rows -> values_of m r b (dofs_of_element m (unknowns_of m) e) values.
Proof. exact written. Qed.
Print Assumptions C61_write.
(** writeTimeIntegrationVector(id, u), when all unknowns of an element have as many basis functions *)
Theorem C61_write_one : forall (A : Type) (zero : A) n m unknowns layout r gs total p b u,
  indexed n m unknowns layout r gs total -> all_unknowns m unknowns -> length b = size_of r -> p < n -> u < numberOfUnknowns m ->
  (forall e v, In e (elements m) -> visible m p e = true -> v < numberOfUnknowns m -> total e v = total e 0) ->
  exists rows, writeOne zero m total p (gs p) b u = Some rows /\ map fst rows = filter (visible m p) (elements m) /\
    forall e values, In (e, values) rows -> values_of m r b (dofs_of_element m [u] e) values.
Proof. exact written_one. Qed.
Print Assumptions C61_write_one.
Example C61_write_nonvacuous :
  let r := answer twoEqual 2 BLOCKED_PROCESSOR (Some [1; 0]) in
  indexed 2 twoEqual (Some [1; 0]) BLOCKED_PROCESSOR r (together r) (numbersOf twoEqual) /\ all_unknowns twoEqual (Some [1; 0]) /\ size_of r = 14 /\
  (forall e v, In e (elements twoEqual) -> v < 2 -> numbersOf twoEqual e v = numbersOf twoEqual e 0) /\
  writeVector 0 twoEqual (numbersOf twoEqual) 1 (together r 1) (seq 0 14) = Some [(0, [0; 1; 2; 3; 4; 5; 6; 7]); (1, [8; 9; 3; 10; 11; 12; 7; 13])] /\
  writeOne 0 twoEqual (numbersOf twoEqual) 0 (together r 0) (seq 0 14) 1 = Some [(0, [4; 5; 6; 7]); (1, [11; 12; 7; 13])].
Proof.
  intros r. split; [exact equal_indexed|]. split; [intros u Hu; cbn in *; lia|]. split; [reflexivity|].
  split; [intros e v [<-|[<-|[]]] Hv; destruct v as [|[|v]]; try reflexivity; lia|]. split; vm_compute; reflexivity.
Qed.

(** Reading into the vector and writing back changes nothing, also on the elements of other processes. *)
Theorem C61_construct_then_write : forall (A : Type) (zero : A) n m unknowns layout r gs total p (data : nat -> list A) pairs b,
  indexed n m unknowns layout r gs total -> all_unknowns m unknowns -> complete m (unknowns_of m) data -> agree m (unknowns_of m) data ->
  (forall q, q < n -> construct m total q (gs q) data = Some (pairs q)) ->
  assembled INSERT_VALUES (repeat zero (size_of r)) (flat_map pairs (seq 0 n)) (Some b) -> p < n ->
  writeVector zero m total p (gs p) b = Some (map (fun e => (e, data e)) (filter (visible m p) (elements m))).
Proof. exact there_and_back. Qed.
Print Assumptions C61_construct_then_write.
(** Writing any vector and reading it again gives the same vector. *)
Theorem C61_write_then_construct : forall (A : Type) (zero : A) n m unknowns layout r gs total b rows (data : nat -> list A),
  indexed n m unknowns layout r gs total -> all_unknowns m unknowns -> length b = size_of r ->
  (forall p, p < n -> writeVector zero m total p (gs p) b = Some (rows p)) ->
  (forall e, In e (elements m) -> In (e, data e) (rows (owner m e))) ->
  exists pairs, (forall p, p < n -> construct m total p (gs p) data = Some (pairs p)) /\
    forall result, assembled INSERT_VALUES (repeat zero (size_of r)) (flat_map pairs (seq 0 n)) result -> result = Some b.
Proof. exact back_and_there. Qed.
Print Assumptions C61_write_then_construct.

(** With a selection of the unknowns, which assemble() and GlobalIndexing support, writing stops with an error on every process
    that sees an element, and reading takes entries past the end of the list of indices. *)
Theorem C61_subset_refuted : forall (A : Type) (zero : A) n m unknowns layout r gs total p u,
  indexed n m unknowns layout r gs total -> p < n -> u < numberOfUnknowns m -> ~ In u (included m unknowns) ->
  (filter (visible m p) (elements m) <> [] -> forall b, writeVector zero m total p (gs p) b = None) /\
  (forall e, In e (localElements m p) -> 0 < total e u -> forall data : nat -> list A, construct m total p (gs p) data = None).
Proof. exact subset_fails. Qed.
Print Assumptions C61_subset_refuted.
Example C61_subset_nonvacuous :
  let r := answer twoElements 2 SEQUENTIAL (Some [0]) in
  indexed 2 twoElements (Some [0]) SEQUENTIAL r (together r) (numbersOf twoElements) /\ 1 < numberOfUnknowns twoElements /\
  ~ In 1 (included twoElements (Some [0])) /\ filter (visible twoElements 0) (elements twoElements) <> [] /\
  In 0 (localElements twoElements 0) /\ numbersOf twoElements 0 1 = 3.
Proof.
  intros r. split; [exact subset_indexed|]. split; [cbn; lia|]. split; [cbn; intuition discriminate|]. split; [discriminate|]. split; [left; reflexivity|reflexivity].
Qed.
(** Writing a single unknown stops with an error when the unknowns of an element have different numbers of basis functions. *)
Theorem C61_different_numbers_refuted : forall (A : Type) (zero : A) n m total (gs : nat -> GlobalIndexing) p b u e v, p < n ->
  In e (elements m) -> visible m p e = true -> v < numberOfUnknowns m -> total e v <> total e 0 ->
  @writeOne A zero m total p (gs p) b u = None.
Proof. exact different_numbers. Qed.
Print Assumptions C61_different_numbers_refuted.
Example C61_different_numbers_nonvacuous :
  In 0 (elements twoElements) /\ visible twoElements 1 0 = true /\ 1 < numberOfUnknowns twoElements /\
  numbersOf twoElements 0 1 <> numbersOf twoElements 0 0.
Proof. split; [left; reflexivity|]. split; [reflexivity|]. split; [cbn; lia|discriminate]. Qed.
