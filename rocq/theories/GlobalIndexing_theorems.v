(** C01-C04: numbering of the degrees of freedom. *)
From Coq Require Import List Arith ZArith.
From Verif Require Import GlobalIndexing_model GlobalIndexing_spec GlobalIndexing_proofs.
Import ListNotations.

(** reset() fails exactly for an empty list of unknowns or an unknown that does not exist. *)
Theorem C01_reset_succeeds : forall m n layout unknowns p,
  valid_mesh n m -> NoDup (included m unknowns) -> p < n ->
  ((exists g, reset m n layout unknowns p = Some g) <-> valid_unknowns m unknowns).
Proof. exact reset_succeeds_iff. Qed.
Print Assumptions C01_reset_succeeds.

Theorem C01_bijection : forall m n layout unknowns r,
  valid_mesh n m -> NoDup (included m unknowns) -> valid_unknowns m unknowns ->
  indexing m n layout unknowns r -> bijective m n (included m unknowns) r.
Proof. exact bijection. Qed.
Print Assumptions C01_bijection.
Example C01_bijection_nonvacuous : forall layout,
  valid_mesh 2 twoElements /\ NoDup (included twoElements (Some [1; 0])) /\ valid_unknowns twoElements (Some [1; 0]) /\
  indexing twoElements 2 layout (Some [1; 0]) (answer twoElements 2 layout (Some [1; 0])) /\
  globalNumberOfBasisFunctions_ (answer twoElements 2 layout (Some [1; 0]) 0) = 17.
Proof. exact two_example. Qed.

(** Listing an unknown twice leaves an index without degree of freedom. *)
Theorem C01_repeated_unknown_refuted : exists m unknowns, valid_mesh 1 m /\ valid_unknowns m unknowns /\
  forall layout, ~ bijective m 1 (included m unknowns) (answer m 1 layout unknowns).
Proof. exact (ex_intro _ oneElement (ex_intro _ (Some [0; 0]) (conj one_valid (conj one_unknowns duplicate_not_bijective)))). Qed.
Print Assumptions C01_repeated_unknown_refuted.
(** So does an element that is its own neighbour across a face. *)
Theorem C01_self_neighbour_refuted : exists m,
  (forall k e x, k <> KElement -> In e (elements m) -> (In x (objectsOf m k e) <-> In e (elementsOf m k x))) /\
  forall layout, ~ bijective m 1 (included m None) (answer m 1 layout None).
Proof. exact (ex_intro _ selfNeighbour (conj (proj1 self_rest) self_not_bijective)). Qed.
Print Assumptions C01_self_neighbour_refuted.

Theorem C02_local_indices : forall m n layout unknowns r p,
  valid_mesh n m -> NoDup (included m unknowns) -> valid_unknowns m unknowns ->
  indexing m n layout unknowns r -> p < n ->
  let mine d := is_dof m (included m unknowns) d /\ dof_owned_by m p d in
  (** every owned degree of freedom has a local index in range, and the conversion finds it *)
  (forall d, mine d -> exists i l, index_of (r p) d = Some i /\ local_index_of (r p) d = Some (Z.of_nat l) /\
     l < localNumberOfBasisFunctions_ (r p) /\ globalToProcessorLocalIndex (r p) (Z.of_nat i) = Z.of_nat l) /\
  (forall d d' l, mine d -> mine d' -> local_index_of (r p) d = Some l -> local_index_of (r p) d' = Some l -> d = d') /\
  (forall l, l < localNumberOfBasisFunctions_ (r p) -> exists d, mine d /\ local_index_of (r p) d = Some (Z.of_nat l)).
Proof. exact local_indices. Qed.
Print Assumptions C02_local_indices.

Theorem C02_not_owned : forall m n layout unknowns r p,
  valid_mesh n m -> NoDup (included m unknowns) -> valid_unknowns m unknowns ->
  indexing m n layout unknowns r -> p < n ->
  forall z, globalToProcessorLocalIndex (r p) z = (-1)%Z <->
    ~ exists d i, is_dof m (included m unknowns) d /\ dof_owned_by m p d /\ index_of (r p) d = Some i /\ z = Z.of_nat i.
Proof. exact not_owned. Qed.
Print Assumptions C02_not_owned.

(** Local indices follow the order of the global ones. *)
Theorem C02_same_order : forall m n layout unknowns r p,
  valid_mesh n m -> NoDup (included m unknowns) -> valid_unknowns m unknowns ->
  indexing m n layout unknowns r -> p < n ->
  forall d d' i i' l l',
    is_dof m (included m unknowns) d -> dof_owned_by m p d -> is_dof m (included m unknowns) d' -> dof_owned_by m p d' ->
    index_of (r p) d = Some i -> index_of (r p) d' = Some i' ->
    local_index_of (r p) d = Some l -> local_index_of (r p) d' = Some l' -> (i < i' <-> (l < l')%Z).
Proof. exact same_order. Qed.
Print Assumptions C02_same_order.
Example C02_nonvacuous :
  let r := answer twoElements 2 BLOCKED_GLOBAL (Some [1; 0]) in
  let d := {| d_kind := KElement; d_id := 1; d_unknown := 1; d_fn := 2 |} in
  is_dof twoElements [1; 0] d /\ dof_owned_by twoElements 1 d /\
  index_of (r 1) d = Some 16 /\ local_index_of (r 1) d = Some 8%Z /\
  globalToProcessorLocalIndex (r 1) 16 = 8%Z /\ globalToProcessorLocalIndex (r 1) 12 = (-1)%Z.
Proof. exact local_example. Qed.

(** The list of an element: one entry per degree of freedom, unknown by unknown, and within an
    unknown element, faces, edges, nodes; whatever the vector contained before. *)
Theorem C03_element_indices : forall m n layout unknowns r p g total e old,
  valid_mesh n m -> NoDup (included m unknowns) -> valid_unknowns m unknowns ->
  indexing m n layout unknowns r -> p < n -> informed m r p g -> counts_all m total ->
  In e (elements m) -> visible m p e = true ->
  exists indices, getGlobalIndicesOfElement m g total e old = Some indices /\ NoDup indices /\
    exists us, Sorted.StronglySorted lt us /\ (forall u, In u us <-> In u (included m unknowns)) /\
      Forall2 (numbered m r) (dofs_of_element m us e) indices.
Proof. exact element_indices. Qed.
Print Assumptions C03_element_indices.

Theorem C03_face_indices : forall m n layout unknowns r p g total l rt old old1 old2,
  valid_mesh n m -> NoDup (included m unknowns) -> valid_unknowns m unknowns ->
  indexing m n layout unknowns r -> p < n -> informed m r p g -> counts_all m total ->
  In l (elements m) -> visible m p l = true -> In rt (elements m) -> visible m p rt = true ->
  exists left right, getGlobalIndicesOfElement m g total l old1 = Some left /\
    getGlobalIndicesOfElement m g total rt old2 = Some right /\
    getGlobalIndicesOfFace m g total l (Some rt) old = Some (left ++ right) /\
    getGlobalIndicesOfFace m g total l None old = Some left.
Proof. exact face_indices. Qed.
Print Assumptions C03_face_indices.
(** [informed] holds without further communication when there is one process. *)
Theorem C03_one_process : forall m layout unknowns r,
  valid_mesh 1 m -> NoDup (included m unknowns) -> valid_unknowns m unknowns ->
  indexing m 1 layout unknowns r -> informed m r 0 (r 0).
Proof. exact informed_one_process. Qed.
Print Assumptions C03_one_process.

Theorem C04_process_contiguous : forall m n layout unknowns r p,
  valid_mesh n m -> NoDup (included m unknowns) -> valid_unknowns m unknowns ->
  layout = SEQUENTIAL \/ layout = BLOCKED_PROCESSOR ->
  indexing m n layout unknowns r -> p < n ->
  forall i, (exists d, is_dof m (included m unknowns) d /\ dof_owned_by m p d /\ numbered m r d i) <->
    indices_before r p <= i < indices_before r p + localNumberOfBasisFunctions_ (r p).
Proof. exact (fun m n layout unknowns r p VM ND VU => process_contiguous m n unknowns r VM ND VU layout p). Qed.
Print Assumptions C04_process_contiguous.

Theorem C04_blocked_global : forall m n unknowns r,
  valid_mesh n m -> NoDup (included m unknowns) -> valid_unknowns m unknowns ->
  indexing m n BLOCKED_GLOBAL unknowns r ->
  forall d d' i i', is_dof m (included m unknowns) d -> is_dof m (included m unknowns) d' ->
    numbered m r d i -> numbered m r d' i' ->
    (d_unknown d < d_unknown d' -> i < i') /\
    (forall p q, d_unknown d = d_unknown d' -> dof_owned_by m p d -> dof_owned_by m q d' -> p < q -> i < i').
Proof. exact blocked_global. Qed.
Print Assumptions C04_blocked_global.

Theorem C04_blocked_processor : forall m n unknowns r,
  valid_mesh n m -> NoDup (included m unknowns) -> valid_unknowns m unknowns ->
  indexing m n BLOCKED_PROCESSOR unknowns r ->
  forall p d d' i i', is_dof m (included m unknowns) d -> is_dof m (included m unknowns) d' ->
    dof_owned_by m p d -> dof_owned_by m p d' -> numbered m r d i -> numbered m r d' i' ->
    d_unknown d < d_unknown d' -> i < i'.
Proof. exact (fun m n unknowns r => unknowns_ordered_processor m n unknowns r). Qed.
Print Assumptions C04_blocked_processor.

(** SEQUENTIAL: the unknowns of one object follow each other. *)
Theorem C04_sequential_object : forall m n unknowns r,
  valid_mesh n m -> NoDup (included m unknowns) -> valid_unknowns m unknowns ->
  indexing m n SEQUENTIAL unknowns r ->
  forall p k x u v, mesh_object m k x -> owned_by m p k x ->
    In u (included m unknowns) -> In v (included m unknowns) -> u < v ->
    (forall t, In t (included m unknowns) -> u < t -> v <= t) ->
    exists i, getGlobalIndex (r p) k x u = Some i /\
              getGlobalIndex (r p) k x v = Some (i + localNumberOfBasisFunctions m k x u).
Proof. exact (fun m n unknowns r => sequential_object m n unknowns r). Qed.
Print Assumptions C04_sequential_object.
Example C03_nonvacuous :
  let r := answer twoOnOne 1 SEQUENTIAL None in
  valid_mesh 1 twoOnOne /\ indexing twoOnOne 1 SEQUENTIAL None r /\ informed twoOnOne r 0 (r 0) /\
  getGlobalIndicesOfElement twoOnOne (r 0) (fun e u => length (dofs_of_element twoOnOne [u] e)) 0 [7; 7] = Some [0; 12; 13; 4; 5; 6; 7; 1; 2; 3] /\
  getGlobalIndicesOfElement twoOnOne (r 0) (fun e u => length (dofs_of_element twoOnOne [u] e)) 1 [] = Some [8; 12; 13; 14; 15; 7; 16; 9; 10; 11].
Proof. exact element_example. Qed.
