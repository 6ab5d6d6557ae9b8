(** The degree of basis functions. *)
From Coq Require Import List Arith Reals.
From Verif Require Import RefGeometry_model BasisFunctions_model BasisSets_model BasisSizes_spec.
Import ListNotations.
Local Open Scope R_scope.

(** the point at distance [t] from [a] in direction [d] *)
Definition on_line (a d : list R) (t : R) : list R := map (fun ad => fst ad + t * snd ad) (combine a d).
(** The function is a polynomial of degree at most [n] in the distance. *)
Definition polynomial_on (n : nat) (F : point -> option R) (a d : list R) : Prop :=
  exists cs, (length cs <= S n)%nat /\ forall t, F (on_line a d t) = Some (fold_right (fun c r => c + t * r) 0 cs).
(** at most one coordinate changes *)
Definition along_an_axis (d : list R) : Prop := forall i j, nth i d 0 <> 0 -> nth j d 0 <> 0 -> i = j.
(** The function belongs to the polynomial space of order [n] on a shape with [dim] coordinates: on simplices the total degree is at most [n], on squares and cubes
    the degree in each coordinate. *)
Definition of_order (s : shape) (n dim : nat) (F : point -> option R) : Prop :=
  forall a d, length a = dim -> length d = dim -> match s with Square | Cube => along_an_axis d | _ => True end -> polynomial_on n F a d.

(** the functions of an element, discontinuous or conforming with any orientations of faces and edges *)
Definition default_basis (s : shape) (order : nat) (l : list basis_function) : Prop :=
  exists asserts, default_DG_set asserts s order = Some l \/ ((1 <= order)%nat /\ exists of oe, conforming_basis asserts s order of oe = Some l).
(** total degree at most [n] *)
Definition of_total_degree (n dim : nat) (F : point -> option R) : Prop :=
  forall a d, length a = dim -> length d = dim -> polynomial_on n F a d.
