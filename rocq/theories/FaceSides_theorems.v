(** C26: both sides of a face see the same physical point. *)
From Coq Require Import List Arith Bool Lia Reals.
From Verif Require Import Matrix_model Matrix_spec RefGeometry_model RefGeometry_spec Curvilinear_model Curvilinear_spec
  PhysMapping_model PhysMapping_spec FaceGeometry_model FaceGeometry_spec FaceSides_proofs.
Import ListNotations.
Local Open Scope R_scope.

(** Points, lines and triangles as faces, also curved ones of second order: for all coordinates of the
    nodes, all numberings and on periodic boundaries with shift t. *)
Theorem C26_two_sides : forall L fL R fR fg t lL lR, same_face L fL R fR fg t lL lR -> conforming fg lL lR ->
  has_mapping (geom L) -> geom L <> Base Hypercube -> has_mapping (geom R) -> geom R <> Base Hypercube -> fg <> Base Square ->
  exists F, make_face L fL R fR = Some F /\ elementL F = L /\ elementR F = R /\
   forall p, internal (base fg) p -> sides_agree F p t.
Proof. exact two_sides_not_square. Qed.
Print Assumptions C26_two_sides.

(** Squares as faces: for six of the eight orientations.  Missing: rotations by a quarter, index 1 and 3,
    for which the claim is false, see below. *)
Theorem C26_square_partial : forall L fL R fR fg t lL lR, same_face L fL R fR fg t lL lR -> conforming fg lL lR ->
  has_mapping (geom L) -> geom L <> Base Hypercube -> has_mapping (geom R) -> geom R <> Base Hypercube ->
  exists F, make_face L fL R fR = Some F /\ elementL F = L /\ elementR F = R /\
  ((fg = Base Square -> faceToFaceMapIndex F <> 1 /\ faceToFaceMapIndex F <> 3)%nat ->
   forall p, internal (base fg) p -> sides_agree F p t).
Proof. exact two_sides. Qed.
Print Assumptions C26_square_partial.

(** Two cubes that are rotated by a quarter with respect to each other: a point on the face has
    different physical coordinates on both sides. *)
Theorem C26_square_refuted :
  exists L fL R fR t lL lR F p, same_face L fL R fR (Base Square) t lL lR /\ conforming (Base Square) lL lR /\
  geom L = Base Cube /\ geom R = Base Cube /\ make_face L fL R fR = Some F /\ internal Square p /\ ~ sides_agree F p t.
Proof. exact rotated_refutes. Qed.
Print Assumptions C26_square_refuted.

(** The mapping object for the right element does the same as mapRefFaceToRefElemR, and its
    calcJacobian is its derivative, whatever the index. *)
Theorem C26_right_map : forall F m fs s fR, codim1_geometry (geom (elementL F)) (localFaceNumberL F) = Some fs ->
  geom (elementR F) = s -> localFaceNumberR F = fR ->
  (exists fs', codim1_geometry s fR = Some fs' /\ base fs' = base fs) ->
  refFaceToRefElemMapR F = Some m -> forall p, length p = dimension (base fs) ->
  transform m p = mapRefFaceToRefElemR F p /\
  exists J, calcJacobian m p = Some J /\ is_jacobian (transform m) (dimension (base fs)) (dimension (base s)) p J.
Proof. exact right_map. Qed.
Print Assumptions C26_right_map.

Example C26_nonvacuous :
  same_face left_cube 0 turned_cube 0 (Base Square) [0;0;0] [0;1;2;3]%nat [1;0;3;2]%nat /\
  conforming (Base Square) [0;1;2;3]%nat [1;0;3;2]%nat /\
  make_face left_cube 0 turned_cube 0 = Some (Face left_cube 0 turned_cube 0 5) /\
  refFaceToRefElemMapR (Face left_cube 0 turned_cube 0 5) <> None /\
  same_face left_triangle 1 right_triangle 1 (Base Line) [3;0] [4;6]%nat [6;4]%nat.
Proof.
  split; [exact turned_same_face|]. split; [exact turned_conforming|]. split; [reflexivity|]. split; [discriminate|].
  exact periodic_same_face.
Qed.
