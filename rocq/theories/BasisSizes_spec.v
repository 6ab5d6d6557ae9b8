(** The number of basis functions to expect. *)
From Coq Require Import List Arith.
From Verif Require Import RefGeometry_model BasisFunctions_model BasisSets_model.
Import ListNotations.

(** dimension of the space of polynomials of total degree at most k in d variables: binomial(k + d, d) *)
Definition simplex_dimension (d k : nat) : nat :=
  match d with
  | 1 => k + 1
  | 2 => (k + 1) * (k + 2) / 2
  | 3 => (k + 1) * (k + 2) * (k + 3) / 6
  | _ => (k + 1) * (k + 2) * (k + 3) * (k + 4) / 24
  end.
(** dimension of the polynomial space of order k on a shape: total degree k on simplices, degree k in each direction on
    lines, squares, cubes, and products of the two on prisms.  Pyramids have 5 functions of order 1. *)
Definition space_dimension (s : shape) (k : nat) : nat :=
  match s with
  | Line => k + 1
  | Square => (k + 1) * (k + 1)
  | Cube => (k + 1) * (k + 1) * (k + 1)
  | Triangle => simplex_dimension 2 k
  | Tetrahedron => simplex_dimension 3 k
  | TriangularPrism => simplex_dimension 2 k * (k + 1)
  | Pyramid => if k =? 0 then 1 else 5
  | _ => 0
  end.

(** the functions of the conforming basis of an element whose faces and edges have orientations [of] and [oe]: those of the
    interior, then of each face, edge and node *)
Fixpoint joined (l : list (option (list basis_function))) : option (list basis_function) :=
  match l with
  | [] => Some []
  | Some a :: l' => match joined l' with Some b => Some (a ++ b) | None => None end
  | None :: _ => None
  end.
(** faces and edges with functions of their own; the edges of shapes in two dimensions are faces *)
Definition faces_of (s : shape) : nat :=
  match s with Line => 2 | Triangle => 3 | Square => 4 | Tetrahedron => 4 | TriangularPrism => 5 | Cube => 6 | _ => 0 end.
Definition edges_of (s : shape) : nat :=
  match s with Tetrahedron => 6 | TriangularPrism => 9 | Cube => 12 | _ => 0 end.
(** nodes with functions of their own (in one dimension nodes are faces) *)
Definition nodes_of (s : shape) : nat := match s with Line => 0 | _ => length (points s) end.
Definition conforming_basis (asserts : bool) (s : shape) (order : nat) (of oe : nat -> nat) : option (list basis_function) :=
  match default_conforming_sets asserts s order with
  | None => None
  | Some sets => joined (Some (interior_set sets) :: map (fun i => face_functions asserts s order (of i) i) (seq 0 (faces_of s)) ++
      map (fun i => edge_functions asserts s order (oe i) i) (seq 0 (edges_of s)) ++
      map (fun i => node_functions asserts s order i) (seq 0 (nodes_of s)))
  end.
(** the number of orientations of face [i]: of a node 1, of a line 2, of a triangle 6, of a square 8 *)
Definition orientations_of (s : shape) (i : nat) : nat :=
  match getCodim1ReferenceGeometry s i with
  | Some Point => 1 | Some Line => 2 | Some Triangle => 6 | Some Square => 8 | _ => 0
  end.
