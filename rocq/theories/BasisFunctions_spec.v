(** What is expected of basis functions. *)
From Coq Require Import List Arith ZArith Reals.
From Verif Require Import RefGeometry_model RefGeometry_spec BasisFunctions_model.
Import ListNotations.
Local Open Scope R_scope.

(** [d] is the partial derivative in [p] of [F] with respect to coordinate [i]; [F] is defined in all
    points that differ from [p] in this coordinate only. *)
Definition is_partial_derivative (F : point -> option R) (i : nat) (p : point) (d : R) : Prop :=
  exists g, (forall t, F (with_coordinate p i t) = Some (g t)) /\ derivable_pt_lim g (nth i p 0) d.

(** The basis functions of the pyramid have no derivative in the tip; around it the code uses the
    derivative in a point below. *)
Definition near_tip (p : point) : Prop :=
  Rabs (nth 0 p 0) + Rabs (nth 1 p 0) + Rabs (nth 2 p 0 - 1) < / 10 ^ 14.

(** number of coordinates of the points in which the function can be evaluated *)
Definition dimension_of (f : basis_function) : nat :=
  match f with
  | VertexLine _ | InteriorLine _ => 1
  | VertexSquare _ _ | FaceSquare_0 _ _ _ | FaceSquare_1 _ _ _ | InteriorSquare _ _
  | VertexTriangle _ | FaceTriangle _ _ _ | InteriorTriangle _ _ => 2
  | Monomial powers => length powers
  | PiecewiseConstant dim => dim
  | _ => 3
  end.
(** the degrees of the Lobatto polynomials in the function *)
Definition lobatto_degrees (f : basis_function) : list nat :=
  match f with
  | InteriorLine o | FaceSquare_0 _ _ o | FaceSquare_1 _ _ o | FaceTriangle _ _ o
  | EdgeCube_0 _ _ _ o | EdgeCube_1 _ _ _ o | EdgeCube_2 _ _ _ o | EdgeTetrahedron _ _ o
  | EdgePrism_0 _ _ _ o | EdgePrism_1 _ _ o => [o]
  | InteriorSquare o0 o1 | InteriorTriangle o0 o1
  | FaceCube_0 _ _ _ o0 o1 | FaceCube_1 _ _ _ o0 o1 | FaceCube_2 _ _ _ o0 o1
  | FaceTetrahedron _ _ _ o0 o1 | FacePrism_0 _ o0 o1 _ _ _ | FacePrism_1 _ _ _ o0 o1 => [o0; o1]
  | InteriorCube o0 o1 o2 | InteriorTetrahedron o0 o1 o2 | InteriorPrism o0 o1 o2 => [o0; o1; o2]
  | _ => []
  end.
