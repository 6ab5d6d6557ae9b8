(** What is expected of the transformations of function values. *)
From Coq Require Import List Arith Reals.
From Verif Require Import Matrix_model RefGeometry_model RefGeometry_spec Curvilinear_model PhysMapping_model PhysMapping_spec
  Transformation_model.
Import ListNotations.
Local Open Scope R_scope.

(** all coordinates of the points differ by less than [delta] *)
Definition close (delta : R) (p q : point) : Prop :=
  length q = length p /\ forall i, (i < length p)%nat -> Rabs (nth i q 0 - nth i p 0) < delta.

(** a_0 + ... + a_(d-1) *)
Definition total (d : nat) (a : nat -> R) : R := sum (map a (seq 0 d)).

(** The function [u] on the physical space is differentiable in [x], with the derivative [g i] along coordinate i. *)
Definition has_derivatives (u : point -> R) (x : point) (g : nat -> R) : Prop :=
  forall eps, 0 < eps -> exists delta, 0 < delta /\ forall y, close delta x y ->
    Rabs (u y - u x - total (length x) (fun i => g i * (nth i y 0 - nth i x 0)))
      <= eps * total (length x) (fun i => Rabs (nth i y 0 - nth i x 0)).
(** [g] is the gradient of [u]; for vector valued functions D k i is the derivative of component k along coordinate i *)
Definition is_gradient_of (u : point -> R) (x : point) (g : list R) : Prop :=
  length g = length x /\ has_derivatives u x (fun i => nth i g 0).
Definition has_components (u : point -> list R) (x : point) (D : nat -> nat -> R) : Prop :=
  forall k, (k < length x)%nat -> has_derivatives (fun y => nth k (u y) 0) x (D k).

Definition is_curl_of (u : point -> list R) (x : point) (c : list R) : Prop :=
  exists D, has_components u x D /\
    ((length x = 2%nat /\ c = [D 1%nat 0%nat - D 0%nat 1%nat; 0]) \/
     (length x = 3%nat /\ c = [D 2%nat 1%nat - D 1%nat 2%nat; D 0%nat 2%nat - D 2%nat 0%nat; D 1%nat 0%nat - D 0%nat 1%nat])).
Definition is_divergence_of (u : point -> list R) (x : point) (c : R) : Prop :=
  exists D, has_components u x D /\ c = total (length x) (fun i => D i i).

(** The same on the reference element, where only derivatives along the coordinates are needed. *)
Definition has_partials (f : point -> R) (p : point) (g : nat -> R) : Prop :=
  forall i, (i < length p)%nat -> derivable_pt_lim (fun t => f (with_coordinate p i t)) (nth i p 0) (g i).
Definition is_reference_gradient (f : point -> R) (p : point) (g : list R) : Prop :=
  length g = length p /\ has_partials f p (fun i => nth i g 0).
Definition has_component_partials (f : point -> list R) (p : point) (D : nat -> nat -> R) : Prop :=
  forall k, (k < length p)%nat -> has_partials (fun q => nth k (f q) 0) p (D k).
Definition is_reference_curl (f : point -> list R) (p : point) (c : list R) : Prop :=
  exists D, has_component_partials f p D /\
    ((length p = 2%nat /\ c = [D 1%nat 0%nat - D 0%nat 1%nat; 0]) \/
     (length p = 3%nat /\ c = [D 2%nat 1%nat - D 1%nat 2%nat; D 0%nat 2%nat - D 2%nat 0%nat; D 1%nat 0%nat - D 0%nat 1%nat])).
Definition is_reference_divergence (f : point -> list R) (p : point) (c : R) : Prop :=
  exists D, has_component_partials f p D /\ c = total (length p) (fun i => D i i).

(** The derivatives of the mapping of a pyramid do not exist in the tip; around it the code uses those in a point below. *)
Definition regular (g : geometry) (p : point) : Prop :=
  g = Base Pyramid ->
  nth 2 p 0 <> 1 /\ / 10 ^ 14 < Rabs (nth 2 p 0 - 1) + Rabs (nth 0 p 0) + Rabs (nth 1 p 0).

(** [p] is mapped to [x] and the element is not degenerate there *)
Definition mapped (g : geometry) (nodes : list point) (p x : point) (data : transformation_data) : Prop :=
  phys_transform g nodes p = Some x /\ data_in g nodes p = Some data /\ getJacobianDet data <> 0.

(** Around [p], transforming the values of [f] on the reference element gives the values of [u] on the physical element. *)
Definition scalar_transformed (t : transformation) (g : geometry) (nodes : list point) (p : point)
    (f : point -> R) (u : point -> R) : Prop :=
  exists delta, 0 < delta /\ forall q, close delta p q ->
    exists x data, mapped g nodes q x data /\ transform_scalar t (f q) data = Some (u x).
Definition vector_transformed (t : transformation) (g : geometry) (nodes : list point) (p : point)
    (f : point -> list R) (u : point -> list R) : Prop :=
  exists delta, 0 < delta /\ forall q, close delta p q ->
    length (f q) = length p /\
    exists x data, mapped g nodes q x data /\ transform_vector t (f q) data = Some (u x).
