(** Model of kernel/Geometry/FaceGeometry.h, FaceGeometry.cpp, the constructor for internal faces of
    kernel/Base/Face.cpp and kernel/Geometry/Mappings/ConcatenatedMapping.cpp.

    Real numbers instead of doubles; [None] for undefined behaviour and failed assertions. *)
From Coq Require Import List Arith Bool Reals.
From Verif Require Import Matrix_model Determinant_model RefGeometry_model Curvilinear_model PhysMapping_model.
Import ListNotations.
Local Open Scope R_scope.

(** What a face uses of an element: reference geometry, coordinates of the local nodes
    (PhysicalGeometry) and for each local node the ID of the Node object (Element::getNode(i)->getID()). *)
Record element := Element {
  geom : geometry;
  coordinates : list point;
  nodeIDs : list nat }.

(** getCodim1MappingPtr, getCodim0MappingPtr of the reference geometry
    (ReferenceCurvilinearElement.h:159-162,174-177 for the curved ones) *)
Definition codim1_mapping (g : geometry) (f : nat) : option boundary_map := getCodim1MappingPtr (base g) f.
Definition codim0_mapping (g : geometry) (i : nat) : option refmap := getCodim0MappingPtr (base g) i.

Definition bind {A B} (o : option A) (f : A -> option B) : option B := match o with Some a => f a | None => None end.
Notation "x <- e ; k" := (bind e (fun x => k)) (at level 61, e at next level, right associativity).

(** FaceGeometry.h:361-367 mapRefFaceToRefElemL, for element and local face number *)
Definition mapRefFaceToRefElem (g : geometry) (f : nat) (p : point) : option point :=
  m <- codim1_mapping g f; transform m p.

(** operator*= of a vector with a number *)
Definition scale (c : R) (v : list R) : list R := map (fun x => x * c) v.

(** FaceGeometry.h:411-459 getNormalVector *)
Definition getNormalVector (g : geometry) (nodes : list point) (f : nat) (pRefFace : point) : option (list R) :=
  m <- codim1_mapping g f;
  if Nat.eqb (dimension (base g)) 1 then
    pRefElement <- mapRefFaceToRefElem g f pRefFace;
    j <- phys_jacobian g nodes pRefElement;
    x <- nth_error pRefElement 0;
    j0 <- nth_error (data j) 0;
    Some [x * (if Rlt_dec 0 j0 then 1 else -1)]
  else
    j1 <- calcJacobian m pRefFace;
    pRefElement <- mapRefFaceToRefElem g f pRefFace;
    j2 <- phys_jacobian g nodes pRefElement;
    j3 <- mmul 0 1 Rplus Rmult j2 j1;
    result <- computeWedgeStuffVector Rplus Rmult Rminus Ropp j3;
    det <- rdet j2;
    Some (scale ((if Rlt_dec 0 det then 1 else -1) * outwardNormalSign m) result).

(** An internal face. *)
Record face := Face {
  elementL : element; localFaceNumberL : nat;
  elementR : element; localFaceNumberR : nat;
  faceToFaceMapIndex : nat }.

(** FaceGeometry.cpp:117-120 getReferenceGeometry: from the left element *)
Definition getReferenceGeometry (g : geometry) (f : nat) : option geometry := codim1_geometry g f.

(** the first [n] entries of [local], looked up in [ids]: the loop of Face.cpp:103-107 *)
Fixpoint node_ids (n : nat) (local ids : list nat) : option (list nat) :=
  match n with
  | O => Some []
  | S n' =>
      match local with
      | [] => None
      | k :: local' => i <- nth_error ids k; r <- node_ids n' local' ids; Some (i :: r)
      end
  end.

(** Face.cpp:58-109 constructor for internal faces (geometric part) with
    FaceGeometry.cpp:148-155 initialiseFaceToFaceMapIndex *)
Definition make_face (L : element) (fL : nat) (R : element) (fR : nat) : option face :=
  localLeftNodes <- codim1_indices (geom L) fL;
  localRightNodes <- codim1_indices (geom R) fR;
  fg <- getReferenceGeometry (geom L) fL;
  leftNodes <- node_ids (length (geometry_points fg)) localLeftNodes (nodeIDs L);
  rightNodes <- node_ids (length (geometry_points fg)) localRightNodes (nodeIDs R);
  index <- codim0_mapping_index fg leftNodes rightNodes;
  Some (Face L fL R fR index).

Definition mapRefFaceToRefElemL (F : face) (p : point) : option point :=
  mapRefFaceToRefElem (geom (elementL F)) (localFaceNumberL F) p.

(** FaceGeometry.h:388-394 mapRefFaceToRefFace *)
Definition mapRefFaceToRefFace (F : face) (p : point) : option point :=
  fg <- getReferenceGeometry (geom (elementL F)) (localFaceNumberL F);
  m <- codim0_mapping fg (faceToFaceMapIndex F);
  transform m p.

(** FaceGeometry.h:371-384 mapRefFaceToRefElemR *)
Definition mapRefFaceToRefElemR (F : face) (p : point) : option point :=
  q <- mapRefFaceToRefFace F p;
  mapRefFaceToRefElem (geom (elementR F)) (localFaceNumberR F) q.

(** ElementGeometry::referenceToPhysical: transform of the element's mapping *)
Definition referenceToPhysical (E : element) (x : point) : option point := phys_transform (geom E) (coordinates E) x.

(** ConcatenatedMapping.cpp:48-93 transform and calcJacobian *)
Definition concatenated (m1 m2 : refmap) : refmap :=
  RefMap (fun p => q <- transform m1 p; transform m2 q)
    (fun p => q <- transform m1 p; j1 <- calcJacobian m1 p; j2 <- calcJacobian m2 q; mmul 0 1 Rplus Rmult j2 j1).

(** FaceGeometry.cpp:123-145 refFaceToRefElemMapL, refFaceToRefElemMapR *)
Definition refFaceToRefElemMapL (F : face) : option refmap :=
  m <- codim1_mapping (geom (elementL F)) (localFaceNumberL F); Some (face_map m).
Definition refFaceToRefElemMapR (F : face) : option refmap :=
  fg <- getReferenceGeometry (geom (elementL F)) (localFaceNumberL F);
  m1 <- codim0_mapping fg (faceToFaceMapIndex F);
  m2 <- codim1_mapping (geom (elementR F)) (localFaceNumberR F);
  Some (concatenated m1 (face_map m2)).

(** FaceGeometry.cpp:176-194 computeFaceDiameter: the square of the result (std::sqrt is
    applied at the end) for the coordinates of the nodes of the face.  Without nodes the
    bound of the loop would wrap around. *)
Fixpoint largest_from (p : point) (rest : list point) (result : R) : R :=
  match rest with
  | [] => result
  | q :: rest' => largest_from p rest' (Rmax result (norm_squared (vsub p q)))
  end.
Fixpoint largest_pair (ps : list point) (result : R) : R :=
  match ps with
  | [] => result
  | p :: rest => largest_pair rest (largest_from p rest result)
  end.
Fixpoint look_up (l : list nat) (ps : list point) : option (list point) :=
  match l with
  | [] => Some []
  | k :: l' => p <- nth_error ps k; r <- look_up l' ps; Some (p :: r)
  end.
(** FaceGeometry.cpp:196-215 computeDiameter *)
Definition computeDiameter (E : element) (f : nat) : option R :=
  match dimension (base (geom E)) with
  | 1%nat => Some 1
  | 2%nat | 3%nat | 4%nat =>
      local <- codim1_indices (geom E) f;
      ps <- look_up local (coordinates E);
      match ps with [] => None | _ => Some (sqrt (largest_pair ps 0)) end
  | _ => None
  end.
