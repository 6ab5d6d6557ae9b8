(** Linear independence of basis functions on a reference shape. *)
From Coq Require Import List Reals.
From Verif Require Import RefGeometry_model RefGeometry_spec BasisFunctions_model.
Import ListNotations.
Local Open Scope R_scope.

(** c1 v1 + c2 v2 + ... *)
Definition combination (cs vs : list R) : R := sum (map (fun cv => fst cv * snd cv) (combine cs vs)).

(** A combination of the functions that vanishes in all points of the shape has only zero coefficients. *)
Definition independent (s : shape) (l : list basis_function) : Prop :=
  forall cs, length cs = length l ->
    (forall p vs, internal s p -> map (fun f => eval f p) l = map Some vs -> combination cs vs = 0) ->
    Forall (fun c => c = 0) cs.

(** the number of coordinates of a point of the shape *)
Definition dimension (s : shape) : nat :=
  match s with
  | Point => 0 | Line => 1 | Triangle | Square => 2 | Tetrahedron | Pyramid | TriangularPrism | Cube => 3 | Hypercube => 4
  end.
