(** What is expected of a reference element with additional nodes. *)
From Coq Require Import List Arith Reals.
From Verif Require Import Matrix_model RefGeometry_model RefGeometry_spec Curvilinear_model.
Import ListNotations.
Local Open Scope R_scope.

(** the shapes that exist with additional nodes *)
Definition has_curved_version (s : shape) : Prop := s = Line \/ s = Triangle \/ s = Tetrahedron.
(** number of nodes of order o: binomial (o + dim) dim *)
Definition expected_number_of_points (s : shape) (o : nat) : nat :=
  match s with
  | Line => o + 1
  | Triangle => (o + 1) * (o + 2) / 2
  | Tetrahedron => (o + 1) * (o + 2) * (o + 3) / 6
  | _ => 0
  end%nat.

(** [m] maps the nodes [ps] of a side, in this order, to the nodes with indices [ns]. *)
Definition maps_nodes_to (m : refmap) (ps : list point) (all : list point) (ns : list nat) : Prop :=
  length ns = length ps /\
  forall k p i, nth_error ps k = Some p -> nth_error ns k = Some i ->
  exists q, nth_error all i = Some q /\ transform m p = Some q.

(** as [carries_nodes], for all nodes of a curved side *)
Definition carries_all_nodes (g : geometry) (m : refmap) (l1 l2 : list nat) : Prop :=
  forall k1 k2 id p1 p2,
    nth_error l1 k1 = Some id -> nth_error l2 k2 = Some id ->
    nth_error (geometry_points g) k1 = Some p1 -> nth_error (geometry_points g) k2 = Some p2 ->
    transform m p1 = Some p2.
