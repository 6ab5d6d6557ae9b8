(** When the basis functions of two elements fit together on a common face. *)
From Coq Require Import List Arith Reals.
From Verif Require Import RefGeometry_model RefGeometry_spec Curvilinear_model FaceGeometry_model FaceGeometry_spec
  BasisFunctions_model BasisSets_model.
Import ListNotations.
Local Open Scope R_scope.

(** The reference points [xL] of [L] and [xR] of [R] are the same point of a common face with shape [fs]: one of the mappings of
    the face to itself that carry the nodes [lL] of the left element to the nodes [lR] of the right element carries the one to
    the other. *)
Definition same_point (L : element) (fL : nat) (R : element) (fR : nat) (fs : shape) (lL lR : list nat) (xL xR : point) : Prop :=
  exists i m p q, getCodim0MappingPtr fs i = Some m /\ carries_nodes fs m lL lR /\ internal fs p /\
    mapRefFaceToRefElem (geom L) fL p = Some xL /\ transform m p = Some q /\ mapRefFaceToRefElem (geom R) fR q = Some xR.

(** the values of [f] and [g] agree *)
Definition same_value (f g : basis_function) (xL xR : point) : Prop := exists v, eval f xL = Some v /\ eval g xR = Some v.

(** The n-th function of [gL] agrees with the n-th of [gR] on the whole face. *)
Definition fit_together (L : element) (fL : nat) (R : element) (fR : nat) (fs : shape) (lL lR : list nat)
    (gL gR : list basis_function) : Prop :=
  Forall2 (fun f g => forall xL xR, same_point L fL R fR fs lL lR xL xR -> same_value f g xL xR) gL gR.

(** [a] is a node of face [f] of element [E], with this ID *)
Definition node_of_face (E : element) (s : shape) (f a id : nat) : Prop :=
  exists ns, getCodim1EntityLocalIndices s f = Some ns /\ In a ns /\ nth_error (nodeIDs E) a = Some id.

(** Squares between cubes where the axes of one side are not those of the other: for order 3 and more the functions do not fit
    together.  The functions of the quadrilateral faces of prisms are wrong from order 2 on. *)
Definition fitting_face (fs sL sR : shape) (order index : nat) : Prop :=
  fs = Square -> (order <= 1)%nat \/ sL = Cube /\ sR = Cube /\ ((order <= 2)%nat \/ In index [0; 2; 4; 5]%nat).
