(** What a mapping from a reference to a physical element has to do. *)
From Coq Require Import List Arith Reals.
From Verif Require Import Matrix_model Matrix_spec Determinant_spec RefGeometry_model RefGeometry_spec Curvilinear_model PhysMapping_model.
Import ListNotations.
Local Open Scope R_scope.

(** [nodes] are the coordinates of the nodes of an element of type [g]. *)
Definition are_nodes_of (g : geometry) (nodes : list point) : Prop :=
  length nodes = length (geometry_points g) /\ Forall (fun q => length q = dimension (base g)) nodes.

(** the element types for which createMappings knows a mapping *)
Definition has_mapping (g : geometry) : Prop :=
  match g with
  | Base Point => False
  | Base _ => True
  | Curvilinear Triangle 2 | Curvilinear Tetrahedron 2 => True
  | Curvilinear _ _ => False
  end.

(** the affine map with matrix A and offset b: coordinate i is  b_i + sum_j A_ij p_j *)
Definition affine (A : nat -> nat -> R) (b : nat -> R) (d : nat) (p : point) : point :=
  map (fun i => b i + sum (map (fun j => A i j * nth j p 0) (seq 0 d))) (seq 0 d).
(** [A] can be inverted *)
Definition invertible (A : nat -> nat -> R) (d : nat) : Prop := leibniz 0 1 Rplus Rmult Ropp d A <> 0.

(** the two elements have the nodes [ns] in common *)
Definition agree_on (ns : list nat) (nodes nodes' : list point) : Prop :=
  forall i, In i ns -> nth_error nodes i = nth_error nodes' i.

(** squared Euclidean distance *)
Definition distance2 (p q : point) : R := sum (map (fun i => (nth i p 0 - nth i q 0) ^ 2) (seq 0 (length p))).

(** [p] is the k-th point of Newton's iteration for  F(p) = target  from the origin. *)
Inductive newton_iterate (F : point -> option point) (J : point -> option (matrix R)) (target : point) (start : point)
    : nat -> point -> Prop :=
| iterate_0 : newton_iterate F J target start 0 start
| iterate_S : forall k p c M step, newton_iterate F J target start k p ->
    F p = Some c -> J p = Some M -> solve M (vsub target c) = Some step ->
    newton_iterate F J target start (S k) (vadd p step).

(** the element types whose inverse mapping is Newton's iteration with at most 100 steps *)
Definition uses_newton (g : geometry) : Prop :=
  match g with Base Square | Base Cube | Base Pyramid | Base TriangularPrism | Base Hypercube => True | _ => False end.

(** the image of [p] is within 1e-14 of [q] *)
Definition close_enough (g : geometry) (nodes : list point) (p q : point) : Prop :=
  exists c, phys_transform g nodes p = Some c /\ distance2 q c <= / 10 ^ 28.

(** determinant of the Jacobian in [p] *)
Definition jacobian_determinant (g : geometry) (nodes : list point) (p : point) (d : R) : Prop :=
  exists J e, phys_jacobian g nodes p = Some J /\ is_matrix J (dimension (base g)) (dimension (base g)) e /\
    d = leibniz 0 1 Rplus Rmult Ropp (dimension (base g)) e.
