(** Model of the transformations of function values between reference and physical elements:
    kernel/Base/{CoordinateTransformation, CoordinateTransformationData, H1ConformingTransformation,
    HCurlConformingTransformation, HDivConformingTransformation}.h.

    Numbers are real numbers; rounding is not modelled.  IdentityTransformation.h is left out: its functions
    take the data by a reference that is not const, so that they do not override anything and the class cannot
    be instantiated. *)
From Coq Require Import List Arith Bool Reals.
From Verif Require Import Matrix_model Determinant_model RefGeometry_model Curvilinear_model PhysMapping_model.
Import ListNotations.
Local Open Scope R_scope.

(** CoordinateTransformationData.h:84-113 class ValueCoordinateTransformationData.  The template argument DIM is
    the number of rows of the matrix. *)
Record transformation_data := TransformationData {
  getJacobian : matrix R; getTransposeJacobian : matrix R; getJacobianDet : R }.

(** CoordinateTransformationData.h:102-106 setJacobian *)
Definition setJacobian (newJacobian : matrix R) : option transformation_data :=
  match transpose 0 newJacobian, rdet newJacobian with
  | Some t, Some d => Some (TransformationData newJacobian t d)
  | _, _ => None
  end.

(** The data in a point of an element: setJacobian(element->calcJacobian(p)), as
    PhysicalElement_Impl.h:512-523 getJacobian, 538-549 getTransposeJacobian, 563-573 getJacobianDet compute them on
    demand (see PhysicalElement_model for the caching) *)
Definition data_in (g : geometry) (nodes : list point) (p : point) : option transformation_data :=
  match phys_jacobian g nodes p with Some J => setJacobian J | None => None end.

(** the classes H1ConformingTransformation, HCurlConformingTransformation and HDivConformingTransformation *)
Inductive transformation := H1Conforming | HCurlConforming | HDivConforming.

(** SmallVector.h operator/ *)
Definition vdivide (v : list R) (a : R) : list R := map (fun x => x / a) v.
(** [J * v / det] *)
Definition piola (v : list R) (data : transformation_data) : option (list R) :=
  match mat_vec 0 1 Rplus Rmult (getJacobian data) v with
  | Some w => Some (vdivide w (getJacobianDet data))
  | None => None
  end.

(** CoordinateTransformation.h:63-71 transform(double) (an error), H1ConformingTransformation.h:56-60 *)
Definition transform_scalar (t : transformation) (referenceData : R) (data : transformation_data) : option R :=
  match t with
  | H1Conforming => Some referenceData
  | HCurlConforming | HDivConforming => None
  end.
(** CoordinateTransformation.h:76-83 transform(SmallVector) (an error), HCurlConformingTransformation.h:56-61,
    HDivConformingTransformation.h:56-60 *)
Definition transform_vector (t : transformation) (referenceData : list R) (data : transformation_data) : option (list R) :=
  match t with
  | H1Conforming => None
  | HCurlConforming => solve (getTransposeJacobian data) referenceData
  | HDivConforming => piola referenceData data
  end.
(** CoordinateTransformation.h:86-93 transformDeriv (an error), H1ConformingTransformation.h:64-69 *)
Definition transformDeriv (t : transformation) (referenceData : list R) (data : transformation_data) : option (list R) :=
  match t with
  | H1Conforming => solve (getTransposeJacobian data) referenceData
  | HCurlConforming | HDivConforming => None
  end.
(** CoordinateTransformation.h:96-103 transformDiv (an error), HDivConformingTransformation.h:63-67 *)
Definition transformDiv (t : transformation) (referenceData : R) (data : transformation_data) : option R :=
  match t with
  | HDivConforming => Some (referenceData / getJacobianDet data)
  | H1Conforming | HCurlConforming => None
  end.
(** CoordinateTransformation.h:106-113 transformCurl (an error), HCurlConformingTransformation.h:64-68 and 71-77 (the
    specialisation for DIM = 2) *)
Definition transformCurl (t : transformation) (referenceData : list R) (data : transformation_data) : option (list R) :=
  match t with
  | HCurlConforming =>
      if (nrows (getJacobian data) =? 2)%nat then Some (vdivide referenceData (getJacobianDet data))
      else piola referenceData data
  | H1Conforming | HDivConforming => None
  end.
