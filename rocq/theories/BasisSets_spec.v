(** What is expected of the sets of basis functions. *)
From Coq Require Import List Arith Reals.
From Verif Require Import RefGeometry_model RefGeometry_spec BasisFunctions_model BasisSets_model.
Import ListNotations.
Local Open Scope R_scope.

(** [f] is one of the functions of the conforming basis that belong to the part (interior, face, edge, node) of the
    shape [s] with the nodes [ns]. *)
Inductive attached (asserts : bool) (s : shape) (order : nat) : list nat -> basis_function -> Prop :=
| attached_interior : forall sets f, default_conforming_sets asserts s order = Some sets -> In f (interior_set sets) ->
    attached asserts s order (seq 0 (length (points s))) f
| attached_face : forall o i ns l f, getCodim1EntityLocalIndices s i = Some ns ->
    face_functions asserts s order o i = Some l -> In f l -> attached asserts s order ns f
| attached_edge : forall o i ns l f, getCodim2EntityLocalIndices s i = Some ns ->
    edge_functions asserts s order o i = Some l -> In f l -> attached asserts s order ns f
| attached_node : forall i l f, node_functions asserts s order i = Some l -> In f l -> attached asserts s order [i] f.

(** The functions of the quadrilateral faces of prisms are wrong from order 2 on. *)
Definition good_part (s : shape) (order : nat) (ns : list nat) : Prop :=
  s = TriangularPrism -> (order <= 1)%nat \/ length ns <> 4%nat.
