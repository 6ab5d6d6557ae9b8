(** C62: the global matrix. *)
From Coq Require Import List Arith Bool Lia Permutation Sorted.
From Verif Require Import Loop_model StdMap_model RefGeometry_model GlobalIndexing_model GlobalIndexing_spec GlobalIndexing_proofs GlobalVector_model GlobalVector_spec
  GlobalVector_proofs GlobalVectorWrite_proofs GlobalVectorOne_proofs GlobalVectorExamples_proofs GlobalMatrix_model GlobalMatrix_spec GlobalMatrix_proofs
  GlobalMatrixBoundary_proofs GlobalMatrixTables_proofs.
Import ListNotations.

(** assemble(): no process fails, and whatever the order in which PETSc adds the values, the entry for the degrees of freedom [d] and
    [d'] is the sum of the entries for [d] and [d'] of the matrices of all elements and all faces of the mesh, once each.  The rows
    and the columns may have their own selections of the unknowns and layouts; [columns p] is None when they are the same object. *)
Theorem C62_assembly : forall (A : Type) (zero : A) (add : A -> A -> A) n m total unknowns layout r gs unknowns' layout' r' gs' columns faces facesList us us'
    elementMatrix faceMatrix,
  (forall x, add zero x = x) -> (forall x y, add x y = add y x) -> (forall x y z, add x (add y z) = add (add x y) z) ->
  indexed n m unknowns layout r gs total -> indexed n m unknowns' layout' r' gs' total ->
  (forall p, p < n -> columns p = Some (gs' p)) \/ (forall p, p < n -> columns p = None) /\ unknowns' = unknowns /\ r' = r ->
  valid_faces n m faces facesList ->
  StronglySorted lt us -> (forall u, In u us <-> In u (included m unknowns)) ->
  StronglySorted lt us' -> (forall u, In u us' <-> In u (included m unknowns')) ->
  (forall matrix, elementMatrix = Some matrix -> forall e, In e (elements m) -> fits (dofs_of_element m us e) (dofs_of_element m us' e) (matrix e)) ->
  (forall matrix, faceMatrix = Some matrix -> forall f, In f faces -> fits (dofs_of_face m us f) (dofs_of_face m us' f) (matrix f)) ->
  exists new, (forall p, p < n -> assembleMatrix m total p (gs p) (columns p) (facesList p) elementMatrix faceMatrix = Some (new p)) /\
    forall result, matAssembled add (repeat (repeat zero (size_of r')) (size_of r)) (flat_map new (seq 0 n)) result ->
      exists M, result = Some M /\ length M = size_of r /\ (forall row, In row M -> length row = size_of r') /\
        forall d d', is_dof m (included m unknowns) d -> is_dof m (included m unknowns') d' ->
          exists i j row, numbered m r d i /\ numbered m r' d' j /\ nth_error M i = Some row /\
            nth_error row j = Some (sum_of add zero (element_entries m us us' d d' elementMatrix ++ face_entries m us us' faces d d' faceMatrix)).
Proof. exact assembly_matrix. Qed.
Print Assumptions C62_assembly.

(** Two elements on two processes, with all unknowns in the rows and one of the two in the columns: rectangular matrices.  The row of
    the first function and the column of the second function of the common face. *)
Example C62_assembly_nonvacuous :
  let r := answer twoElements 2 BLOCKED_GLOBAL None in
  let r' := answer twoElements 2 SEQUENTIAL (Some [0]) in
  let matrix k e := {| numberOfRows := k * 10; numberOfColumns := k * 7; storage := map (fun i => 100 * e + i) (seq 0 (k * 10 * (k * 7))) |} in
  let sides f := length (elementsOf twoElements KFace f) in
  let d := {| d_kind := KFace; d_id := 0; d_unknown := 0; d_fn := 0 |} in
  let d' := {| d_kind := KFace; d_id := 0; d_unknown := 0; d_fn := 1 |} in
  indexed 2 twoElements None BLOCKED_GLOBAL r (together r) (numbersOf twoElements) /\
  indexed 2 twoElements (Some [0]) SEQUENTIAL r' (together r') (numbersOf twoElements) /\ valid_faces 2 twoElements [0; 1; 2] (fun _ => [2; 0; 1]) /\
  (forall e, In e (elements twoElements) -> fits (dofs_of_element twoElements [0; 1] e) (dofs_of_element twoElements [0] e) (matrix 1 e)) /\
  (forall f, In f [0; 1; 2] -> fits (dofs_of_face twoElements [0; 1] f) (dofs_of_face twoElements [0] f) (matrix (sides f) f)) /\
  is_dof twoElements [0; 1] d /\ is_dof twoElements [0] d' /\ size_of r = 17 /\ size_of r' = 11 /\
  element_entries twoElements [0; 1] [0] d d' (Some (matrix 1)) = [21; 121] /\
  face_entries twoElements [0; 1] [0] [0; 1; 2] d d' (Some (fun f => matrix (sides f) f)) = [41; 51; 181; 191; 121; 221].
Proof.
  intros r r' matrix sides d d'. split; [exact two_indexed|]. split; [exact subset_indexed|]. split; [exact two_faces|].
  split; [intros e [<-|[<-|[]]]; repeat split|]. split; [intros f [<-|[<-|[<-|[]]]]; repeat split|].
  split; [split; [split; [exact I|exists 0; split; [left; reflexivity|cbn; auto]]|]; split; [left; reflexivity|cbn; lia]|].
  split; [split; [split; [exact I|exists 0; split; [left; reflexivity|cbn; auto]]|]; split; [left; reflexivity|cbn; lia]|].
  split; [reflexivity|]. split; [reflexivity|]. split; vm_compute; reflexivity.
Qed.

(** getMatrixBCEntries: the indices are added behind those that the caller has, their number is counted, and they are the indices
    of the degrees of freedom on the face, its edges and its nodes, once each. *)
Theorem C62_boundary : forall n m unknowns layout r gs total p faceNodes edgeNodes nodeIndex nodes f e number entries,
  indexed n m unknowns layout r gs total -> p < n -> elementLeft m p f = Some e -> valid_tables m faceNodes edgeNodes nodeIndex nodes f e ->
  exists ds new, getMatrixBCEntries m p (gs p) faceNodes edgeNodes nodeIndex f number entries = Some (number + length new, entries ++ new) /\
    Forall2 (numbered m r) ds new /\ NoDup ds /\ NoDup new /\
    forall d, In d ds <-> is_dof m (included m unknowns) d /\ on_face m faceNodes edgeNodes f e (d_kind d) (d_id d).
Proof. exact boundary. Qed.
Print Assumptions C62_boundary.

(** The tables of the reference elements in three dimensions are of that kind, if the mesh has an edge and a node for every edge and
    every node of the reference element. *)
Theorem C62_tables : forall m s j ns (edgeNodes : nat -> nat -> nat * nat) nodeIndex faceNodes f e,
  RefGeometry_model.dimension s = 3 -> getCodim1EntityLocalIndices s j = Some ns -> faceNodes f = ns ->
  (forall i, i < length (objectsOf m KEdge e) -> getCodim2EntityLocalIndices s i = Some [fst (edgeNodes e i); snd (edgeNodes e i)]) ->
  length (objectsOf m KNode e) = length (points s) ->
  (forall i k, i < length (points s) -> k < length (points s) -> nodeIndex e i = nodeIndex e k -> i = k) ->
  valid_tables m faceNodes edgeNodes nodeIndex (length (points s)) f e.
Proof. exact tables_valid. Qed.
Print Assumptions C62_tables.
(** The edges of the element with both ends on a face are the sides of that face: no diagonals, and no side is missing. *)
Theorem C62_edges_are_sides : forall s j t ns a b, RefGeometry_model.dimension s = 3 ->
  getCodim1ReferenceGeometry s j = Some t -> getCodim1EntityLocalIndices s j = Some ns ->
  (exists i, getCodim2EntityLocalIndices s i = Some [a; b] \/ getCodim2EntityLocalIndices s i = Some [b; a]) /\ In a ns /\ In b ns <->
  exists l x y, getCodim1EntityLocalIndices t l = Some [x; y] /\
    (nth_error ns x = Some a /\ nth_error ns y = Some b \/ nth_error ns x = Some b /\ nth_error ns y = Some a).
Proof. exact edges_are_sides. Qed.
Print Assumptions C62_edges_are_sides.
(** A tetrahedron: on face 0, with the nodes 0, 3 and 2, the face itself, the edges 1, 2 and 3, and the three nodes. *)
Example C62_boundary_nonvacuous :
  let r := answer oneTetrahedron 1 SEQUENTIAL None in
  let faceNodes f := match getCodim1EntityLocalIndices Tetrahedron f with Some ns => ns | None => [] end in
  let edgeNodes (e i : nat) := match getCodim2EntityLocalIndices Tetrahedron i with Some [a; b] => (a, b) | _ => (0, 0) end in
  indexed 1 oneTetrahedron None SEQUENTIAL r r (numbersOf oneTetrahedron) /\ elementLeft oneTetrahedron 0 0 = Some 0 /\
  valid_tables oneTetrahedron faceNodes edgeNodes (fun _ j => 10 + j) 4 0 0 /\
  getMatrixBCEntries oneTetrahedron 0 (r 0) faceNodes edgeNodes (fun _ j => 10 + j) 0 2 [90; 91] =
    Some (12, [90; 91; 0; 6; 7; 8; 9; 10; 11; 16; 19; 18]).
Proof.
  intros r faceNodes edgeNodes. split; [exact tetrahedron_indexed|]. split; [reflexivity|]. split; [|vm_compute; reflexivity].
  apply (tables_valid oneTetrahedron Tetrahedron 0 [0; 3; 2]); try reflexivity.
  - intros i Hi. cbn in Hi. do 6 (destruct i as [|i]; [reflexivity|]). lia.
  - intros i k _ _ E. lia.
Qed.
