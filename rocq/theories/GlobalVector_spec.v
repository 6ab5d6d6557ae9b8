(** What the exchange between the vector and the elements should do, in terms of degrees of freedom. *)
From Coq Require Import List Arith Bool Permutation.
From Verif Require Import StdMap_model GlobalIndexing_model GlobalIndexing_spec.
Import ListNotations.

Definition dof_eqb (d d' : dof) : bool :=
  kind_eqb (d_kind d) (d_kind d') && (d_id d =? d_id d') && (d_unknown d =? d_unknown d') && (d_fn d =? d_fn d').
(** the entries of [values] for the degree of freedom [d], when [values] lists the values for [ds] *)
Definition entries {A : Type} (d : dof) (ds : list dof) (values : list A) : list A :=
  map snd (filter (fun x => dof_eqb (fst x) d) (combine ds values)).
Definition sum_of {A : Type} (add : A -> A -> A) (zero : A) (l : list A) : A := fold_right add zero l.

(** The faces of the mesh, and the faces that the processes know: at least those of their own elements. *)
Record valid_faces (n : nat) (m : Mesh) (faces : list nat) (facesList : nat -> list nat) : Prop := {
  vf_distinct : NoDup faces;
  vf_local_distinct : forall p, p < n -> NoDup (facesList p);
  vf_local : forall p f, p < n -> In f (facesList p) -> In f faces;
  vf_sides : forall f, In f faces -> exists e, elementsOf m KFace f = [e] \/ exists e', elementsOf m KFace f = [e; e'];
  vf_own : forall p f e, p < n -> In f faces -> In e (elementsOf m KFace f) -> owner m e = p -> In f (facesList p) }.
(** the degrees of freedom on a face: those of the first element, then those of the second *)
Definition dofs_of_face (m : Mesh) (us : list nat) (f : nat) : list dof := flat_map (dofs_of_element m us) (elementsOf m KFace f).

(** The elements have the same value for a degree of freedom that they share. *)
Definition agree {A : Type} (m : Mesh) (us : list nat) (data : nat -> list A) : Prop :=
  forall e e' k k' d, In e (elements m) -> In e' (elements m) -> nth_error (dofs_of_element m us e) k = Some d ->
    nth_error (dofs_of_element m us e') k' = Some d -> nth_error (data e) k = nth_error (data e') k'.
(** every element has a value for each of its degrees of freedom *)
Definition complete {A : Type} (m : Mesh) (us : list nat) (data : nat -> list A) : Prop :=
  forall e, In e (elements m) -> length (data e) = length (dofs_of_element m us e).
(** all unknowns *)
Definition unknowns_of (m : Mesh) : list nat := seq 0 (numberOfUnknowns m).
(** as [agree], for one unknown *)
Definition agree_for {A : Type} (m : Mesh) (us : list nat) (u : nat) (data : nat -> list A) : Prop :=
  forall e e' k k' d, d_unknown d = u -> In e (elements m) -> In e' (elements m) -> nth_error (dofs_of_element m us e) k = Some d ->
    nth_error (dofs_of_element m us e') k' = Some d -> nth_error (data e) k = nth_error (data e') k'.
(** [values] lists the entries of the vector [b] for the degrees of freedom [ds]. *)
Definition values_of {A : Type} (m : Mesh) (r : nat -> GlobalIndexing) (b : list A) (ds : list dof) (values : list A) : Prop :=
  Forall2 (fun d v => exists i, numbered m r d i /\ nth_error b i = Some v) ds values.
(** An indexing of a mesh, known to all processes. *)
Record indexed (n : nat) (m : Mesh) (unknowns : option (list nat)) (layout : Layout) (r gs : nat -> GlobalIndexing) (total : nat -> nat -> nat) : Prop := {
  in_processes : 0 < n;
  in_mesh : valid_mesh n m;
  in_elements : NoDup (elements m);
  in_distinct : NoDup (included m unknowns);
  in_unknowns : valid_unknowns m unknowns;
  in_indexing : indexing m n layout unknowns r;
  in_informed : forall p, p < n -> informed m r p (gs p);
  in_counts : counts_all m total }.
(** the number of entries of the vector *)
Definition size_of (r : nat -> GlobalIndexing) : nat := globalNumberOfBasisFunctions_ (r 0).
Definition all_unknowns (m : Mesh) (unknowns : option (list nat)) : Prop := forall u, u < numberOfUnknowns m -> In u (included m unknowns).
(** what the elements and the faces contribute to a degree of freedom *)
Definition element_shares {A : Type} (m : Mesh) (us : list nat) (d : dof) (elementVector : option (nat -> list A)) : list A :=
  match elementVector with
  | None => []
  | Some vector => flat_map (fun e => entries d (dofs_of_element m us e) (vector e)) (elements m)
  end.
Definition face_shares {A : Type} (m : Mesh) (us faces : list nat) (d : dof) (faceVector : option (nat -> list A)) : list A :=
  match faceVector with
  | None => []
  | Some vector => flat_map (fun f => entries d (dofs_of_face m us f) (vector f)) faces
  end.

(** For the examples: the indices of two processes put together, and their mesh of two elements. *)
Definition together (r : nat -> GlobalIndexing) (p : nat) : GlobalIndexing :=
  {| offsets_ := fun u => {| blockStart_ := blockStart_ (offsets_ (r p) u); localOffset_ := localOffset_ (offsets_ (r p) u);
       numberOfBasisFunctionsInBlock_ := numberOfBasisFunctionsInBlock_ (offsets_ (r p) u); includedInIndex_ := includedInIndex_ (offsets_ (r p) u);
       table := fun k => flat_map (fun x => match getGlobalIndex (r 0) k x u, getGlobalIndex (r 1) k x u with
         | Some i, _ => [(x, i)] | None, Some i => [(x, i)] | None, None => [] end) (seq 0 6) |};
     totalNumberOfUnknowns_ := totalNumberOfUnknowns_ (r p); localNumberOfBasisFunctions_ := localNumberOfBasisFunctions_ (r p);
     globalNumberOfBasisFunctions_ := globalNumberOfBasisFunctions_ (r p); includedUnknowns_ := includedUnknowns_ (r p) |}.
Definition numbersOf (m : Mesh) (e u : nat) : nat := length (dofs_of_element m [u] e).
(** a value for every degree of freedom *)
Definition someValue (d : dof) : nat :=
  100 * (match d_kind d with KElement => 0 | KFace => 1 | KEdge => 2 | KNode => 3 end) + 10 * d_id d + 5 * d_unknown d + d_fn d.
(** the same mesh with as many basis functions for both unknowns *)
Definition twoEqual : Mesh := {|
  dimension := 2; numberOfUnknowns := 2; elements := [0; 1]; owner := fun e => e; localElements := localElements twoElements;
  objectsOf := objectsOf twoElements; elementsOf := elementsOf twoElements; visible := fun _ _ => true;
  localNumberOfBasisFunctions := fun k _ _ => match k with KElement => 2 | KNode => 1 | _ => 0 end |}.
