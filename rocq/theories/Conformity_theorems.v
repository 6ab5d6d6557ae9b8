(** C49: the conforming basis functions of two elements fit together on their common face.

    Functions that belong to other parts of an element vanish on the face (C47_vanishes_partial); these theorems are about those
    that belong to the face, its edges and its nodes. *)
From Coq Require Import List Arith Reals.
From Verif Require Import RefGeometry_model RefGeometry_spec Curvilinear_model FaceGeometry_model FaceGeometry_spec FaceSides_proofs
  BasisFunctions_model BasisSets_model Conformity_spec Conformity_proofs ConformitySides_proofs.
Import ListNotations.
Local Open Scope R_scope.

(** The functions of the face: the left element uses orientation 0 and the right element the index of the face-to-face map.
    Missing: quadrilateral faces of prisms from order 2 on, and squares with interchanged directions from order 3 on. *)
Theorem C49_faces_partial : forall asserts L fL R fR fs t lL lR sL sR F order gL gR, same_face L fL R fR (Base fs) t lL lR ->
  geom L = Base sL -> geom R = Base sR -> make_face L fL R fR = Some F ->
  fitting_face fs sL sR order (faceToFaceMapIndex F) ->
  face_functions asserts sL order 0 fL = Some gL -> face_functions asserts sR order (faceToFaceMapIndex F) fR = Some gR ->
  fit_together L fL R fR fs lL lR gL gR.
Proof. exact faces_fit. Qed.
Print Assumptions C49_faces_partial.

(** The functions of the nodes of the face. *)
Theorem C49_nodes : forall asserts L fL R fR fs t lL lR sL sR order a b id gL gR, same_face L fL R fR (Base fs) t lL lR ->
  geom L = Base sL -> geom R = Base sR -> node_of_face L sL fL a id -> node_of_face R sR fR b id ->
  node_functions asserts sL order a = Some gL -> node_functions asserts sR order b = Some gR ->
  fit_together L fL R fR fs lL lR gL gR.
Proof. exact nodes_fit. Qed.
Print Assumptions C49_nodes.

(** The functions of the edges of the face, when the index of a node in the list of coordinates is the same in both elements (the
    mesh is not periodic there) and either both or none of the elements is a cube. *)
Theorem C49_edges_partial : forall asserts L fL R fR fs t lL lR sL sR order eL eR a0 a1 b0 b1 i0 i1 j0 j1 index gL gR,
  same_face L fL R fR (Base fs) t lL lR -> geom L = Base sL -> geom R = Base sR ->
  (sL = Cube <-> sR = Cube) ->
  getCodim2EntityLocalIndices sL eL = Some [a0; a1] -> getCodim2EntityLocalIndices sR eR = Some [b0; b1] ->
  node_of_face L sL fL a0 i0 -> node_of_face L sL fL a1 i1 -> node_of_face R sR fR b0 j0 -> node_of_face R sR fR b1 j1 ->
  i0 = j0 /\ i1 = j1 \/ i0 = j1 /\ i1 = j0 -> index i0 <> index i1 ->
  edge_functions asserts sL order (edge_orientation (index i0) (index i1)) eL = Some gL ->
  edge_functions asserts sR order (edge_orientation (index j0) (index j1)) eR = Some gR ->
  fit_together L fL R fR fs lL lR gL gR.
Proof. exact edges_fit. Qed.
Print Assumptions C49_edges_partial.

(** The reference points that are used for integrals over a face are the same point (except for two orientations of squares, see
    C26_square_refuted). *)
Theorem C49_integration_points : forall L fL R fR fs t lL lR sL sR F p xL xR, same_face L fL R fR (Base fs) t lL lR ->
  conforming (Base fs) lL lR -> geom L = Base sL -> geom R = Base sR -> sL <> Hypercube -> make_face L fL R fR = Some F ->
  (fs = Square -> faceToFaceMapIndex F <> 1 /\ faceToFaceMapIndex F <> 3)%nat -> internal fs p ->
  mapRefFaceToRefElemL F p = Some xL -> mapRefFaceToRefElemR F p = Some xR -> same_point L fL R fR fs lL lR xL xR.
Proof. exact integration_points. Qed.
Print Assumptions C49_integration_points.

(** Two cubes with interchanged directions of the common face: the face functions of order 3 do not fit together. *)
Theorem C49_faces_refuted : exists L fL R fR t lL lR F gL gR, same_face L fL R fR (Base Square) t lL lR /\ conforming (Base Square) lL lR /\
  geom L = Base Cube /\ geom R = Base Cube /\ make_face L fL R fR = Some F /\ face_functions true Cube 3 0 fL = Some gL /\
  face_functions true Cube 3 (faceToFaceMapIndex F) fR = Some gR /\ ~ fit_together L fL R fR Square lL lR gL gR.
Proof. exact transposed_refutes. Qed.
Print Assumptions C49_faces_refuted.

(** A cube and a prism: the edge functions of order 3 do not fit together. *)
Theorem C49_edges_refuted : exists L fL R fR t lL lR gL gR, same_face L fL R fR (Base Square) t lL lR /\ conforming (Base Square) lL lR /\
  geom L = Base Cube /\ geom R = Base TriangularPrism /\
  getCodim2EntityLocalIndices Cube 0 = Some [0; 1]%nat /\ getCodim2EntityLocalIndices TriangularPrism 0 = Some [0; 1]%nat /\
  node_of_face L Cube fL 0 0 /\ node_of_face L Cube fL 1 1 /\ node_of_face R TriangularPrism fR 0 0 /\ node_of_face R TriangularPrism fR 1 1 /\
  edge_functions false Cube 3 (edge_orientation 0 1) 0 = Some gL /\
  edge_functions false TriangularPrism 3 (edge_orientation 0 1) 0 = Some gR /\ ~ fit_together L fL R fR Square lL lR gL gR.
Proof. exact mixed_refutes. Qed.
Print Assumptions C49_edges_refuted.

(** Two cubes on a periodic boundary, where the nodes of an edge have indices iL0, iL1 in the list of coordinates on the one side and
    iR0, iR1 on the other: the edge functions of order 3 do not fit together. *)
Theorem C49_periodic_refuted : exists L fL R fR t lL lR gL gR iL0 iL1 iR0 iR1, same_face L fL R fR (Base Square) t lL lR /\
  conforming (Base Square) lL lR /\ geom L = Base Cube /\ geom R = Base Cube /\
  getCodim2EntityLocalIndices Cube 5 = Some [1; 3]%nat /\ getCodim2EntityLocalIndices Cube 4 = Some [0; 2]%nat /\
  node_of_face L Cube fL 1 1 /\ node_of_face L Cube fL 3 3 /\ node_of_face R Cube fR 0 1 /\ node_of_face R Cube fR 2 3 /\
  NoDup [iL0; iL1; iR0; iR1] /\
  edge_functions true Cube 3 (edge_orientation iL0 iL1) 5 = Some gL /\
  edge_functions true Cube 3 (edge_orientation iR0 iR1) 4 = Some gR /\ ~ fit_together L fL R fR Square lL lR gL gR.
Proof. exact periodic_refutes. Qed.
Print Assumptions C49_periodic_refuted.

(** two cubes, the one turned: four face functions of order 3, and a point of the face with its two reference points *)
Example C49_nonvacuous :
  same_face left_cube 0 turned_cube 0 (Base Square) [0;0;0] [0;1;2;3]%nat [1;0;3;2]%nat /\
  make_face left_cube 0 turned_cube 0 = Some (Face left_cube 0 turned_cube 0 5) /\
  fitting_face Square Cube Cube 3 5 /\
  (exists gL gR, face_functions true Cube 3 0 0 = Some gL /\ face_functions true Cube 3 5 0 = Some gR /\ length gL = 4%nat /\ gL <> gR) /\
  same_point left_cube 0 turned_cube 0 Square [0;1;2;3]%nat [1;0;3;2]%nat [1/2; 0; -1] [-(1/2); 0; -1].
Proof.
  split; [exact turned_same_face|]. split; [reflexivity|].
  split; [right; split; [reflexivity|]; split; [reflexivity|]; right; cbn; tauto|].
  split; [do 2 eexists; split; [vm_compute; reflexivity|]; split; [vm_compute; reflexivity|]; split; [reflexivity|discriminate]|].
  exact turned_point.
Qed.

(** the same two cubes: the edge from node 0 to node 1 of the left cube is also an edge of the turned cube, with edge functions *)
Example C49_edges_nonvacuous :
  getCodim2EntityLocalIndices Cube 0 = Some [0; 1]%nat /\
  (exists i0 i1, node_of_face left_cube Cube 0 0 i0 /\ node_of_face left_cube Cube 0 1 i1 /\
     node_of_face turned_cube Cube 0 0 i1 /\ node_of_face turned_cube Cube 0 1 i0 /\ i0 <> i1) /\
  (exists gL gR, edge_functions true Cube 3 (edge_orientation 0 1) 0 = Some gL /\ edge_functions true Cube 3 (edge_orientation 1 0) 0 = Some gR /\
     length gL = 2%nat /\ length gR = 2%nat /\ gL <> gR).
Proof.
  split; [reflexivity|]. split.
  - exists 0%nat, 1%nat. repeat split; try discriminate; eexists; (split; [reflexivity|]); split; try reflexivity; cbn; tauto.
  - do 2 eexists. split; [vm_compute; reflexivity|]. split; [vm_compute; reflexivity|]. split; [reflexivity|]. split; [reflexivity|]. discriminate.
Qed.
