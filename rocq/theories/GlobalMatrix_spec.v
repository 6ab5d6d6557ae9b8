(** What the assembly of the matrix should give, in terms of degrees of freedom. *)
From Coq Require Import List Arith Bool.
From Verif Require Import StdMap_model GlobalIndexing_model GlobalIndexing_spec GlobalVector_spec GlobalMatrix_model.
Import ListNotations.

(** The entry of a local matrix in row [k] and column [l] *)
Definition at_row_column {A : Type} (M : LocalMatrix A) (k l : nat) : option A :=
  if k <? numberOfRows M then nth_error (storage M) (numberOfRows M * l + k) else None.
(** The entries of a local matrix, with rows for [ds] and columns for [ds'], for the row of [d] and the column of [d'] *)
Definition matrix_entries {A : Type} (d d' : dof) (ds ds' : list dof) (M : LocalMatrix A) : list A :=
  flat_map (fun l => flat_map (fun k =>
    match nth_error ds k, nth_error ds' l, at_row_column M k l with
    | Some x, Some y, Some v => if dof_eqb x d && dof_eqb y d' then [v] else []
    | _, _, _ => []
    end) (seq 0 (length ds))) (seq 0 (length ds')).
(** a local matrix with a row for each of [ds] and a column for each of [ds'] *)
Definition fits {A : Type} (ds ds' : list dof) (M : LocalMatrix A) : Prop :=
  numberOfRows M = length ds /\ numberOfColumns M = length ds' /\ length (storage M) = numberOfRows M * numberOfColumns M.
Definition element_entries {A : Type} (m : Mesh) (us vs : list nat) (d d' : dof) (elementMatrix : option (nat -> LocalMatrix A)) : list A :=
  match elementMatrix with
  | None => []
  | Some matrix => flat_map (fun e => matrix_entries d d' (dofs_of_element m us e) (dofs_of_element m vs e) (matrix e)) (elements m)
  end.
Definition face_entries {A : Type} (m : Mesh) (us vs faces : list nat) (d d' : dof) (faceMatrix : option (nat -> LocalMatrix A)) : list A :=
  match faceMatrix with
  | None => []
  | Some matrix => flat_map (fun f => matrix_entries d d' (dofs_of_face m us f) (dofs_of_face m vs f) (matrix f)) faces
  end.

(** The objects on a face: the face, the edges with both ends on the face, and the nodes of the face. *)
Definition on_face (m : Mesh) (faceNodes : nat -> list nat) (edgeNodes : nat -> nat -> nat * nat) (f e : nat) (k : Kind) (x : nat) : Prop :=
  match k with
  | KElement => False
  | KFace => x = f
  | KEdge => exists i, nth_error (objectsOf m KEdge e) i = Some x /\ In (fst (edgeNodes e i)) (faceNodes f) /\ In (snd (edgeNodes e i)) (faceNodes f)
  | KNode => 1 < dimension m /\ exists i, nth_error (objectsOf m KNode e) i = Some x /\ In i (faceNodes f)
  end.
(** The tables of an element: the nodes of the faces and the ends of the edges are nodes of the element, and different nodes of an
    element have different numbers. *)
Record valid_tables (m : Mesh) (faceNodes : nat -> list nat) (edgeNodes : nat -> nat -> nat * nat) (nodeIndex : nat -> nat -> nat) (nodes : nat) (f e : nat) : Prop := {
  vt_distinct : NoDup (faceNodes f);
  vt_nodes : forall j, In j (faceNodes f) -> j < nodes;
  vt_objects : 1 < dimension m -> length (objectsOf m KNode e) = nodes;
  vt_edges : forall i, i < length (objectsOf m KEdge e) -> fst (edgeNodes e i) < nodes /\ snd (edgeNodes e i) < nodes;
  vt_index : forall i j, i < nodes -> j < nodes -> nodeIndex e i = nodeIndex e j -> i = j }.

(** For the example: one tetrahedron with two basis functions on every edge and one on every face and node. *)
Definition oneTetrahedron : Mesh := {|
  dimension := 3; numberOfUnknowns := 1; elements := [0]; owner := fun _ => 0;
  localElements := fun p => match p with 0 => [0] | _ => [] end;
  objectsOf := fun k e => match k, e with KFace, 0 => [0; 1; 2; 3] | KEdge, 0 => [0; 1; 2; 3; 4; 5] | KNode, 0 => [0; 1; 2; 3] | _, _ => [] end;
  elementsOf := fun k x => match k with KFace => if x <? 4 then [0] else [] | KEdge => if x <? 6 then [0] else [] | KNode => if x <? 4 then [0] else [] | KElement => [] end;
  visible := fun _ _ => true;
  localNumberOfBasisFunctions := fun k _ _ => match k with KElement => 0 | KFace => 1 | KEdge => 2 | KNode => 1 end |}.
