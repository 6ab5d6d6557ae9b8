(** What is expected of the normal vectors and the two sides of a face. *)
From Coq Require Import List Arith Permutation Reals.
From Verif Require Import Matrix_model Matrix_spec Determinant_spec RefGeometry_model RefGeometry_spec Curvilinear_model Curvilinear_spec
  PhysMapping_model PhysMapping_spec FaceGeometry_model.
Import ListNotations.
Local Open Scope R_scope.

Definition inner_product (a b : list R) : R := sum (map (fun i => nth i a 0 * nth i b 0) (seq 0 (length a))).
Definition difference (p q : list R) : list R := map (fun i => nth i p 0 - nth i q 0) (seq 0 (length p)).

(** the velocity in physical space when the reference point moves from [x] in the direction of
    [y] and the Jacobian of the element in [x] has entries [e]: e (y - x) *)
Definition velocity (e : nat -> nat -> R) (d : nat) (x y : point) : list R :=
  map (fun i => sum (map (fun l => e i l * (nth l y 0 - nth l x 0)) (seq 0 d))) (seq 0 d).

(** [y] is a point of face [f] of the reference shape [s] *)
Definition on_face (s : shape) (f : nat) (y : point) : Prop :=
  exists m fs ns eta, the_face s f m fs ns /\ internal fs eta /\ transform m eta = Some y.

(** Gram determinant of the columns of the d x c matrix [t]: square of the c-dimensional volume
    that they span. *)
Definition gram_determinant (t : nat -> nat -> R) (d c : nat) : R :=
  leibniz 0 1 Rplus Rmult Ropp c (fun k l => sum (map (fun i => t i k * t i l) (seq 0 d))).

(** Face [fL] of [L] and face [fR] of [R] are the same face, seen from two sides: they have the
    same shape and the same nodes, and the coordinates of a node in [R] are those in [L], shifted by
    [t].  (The shift is 0 unless the face is on a periodic boundary.) *)
Definition shifted (t p q : point) : Prop :=
  length p = length t /\ length q = length t /\ forall i, (i < length t)%nat -> nth i q 0 = nth i p 0 + nth i t 0.
Record same_face (L : element) (fL : nat) (R : element) (fR : nat) (fg : geometry) (t : point) (lL lR : list nat) : Prop := {
  sf_left : codim1_geometry (geom L) fL = Some fg;
  sf_right : codim1_geometry (geom R) fR = Some fg;
  sf_valid_left : are_nodes_of (geom L) (coordinates L) /\ length (nodeIDs L) = length (coordinates L);
  sf_valid_right : are_nodes_of (geom R) (coordinates R) /\ length (nodeIDs R) = length (coordinates R);
  sf_dimension : dimension (base (geom L)) = dimension (base (geom R)) /\ length t = dimension (base (geom L));
  (* the IDs of the nodes of the face, in the order of the left and of the right element *)
  sf_left_ids : exists k, codim1_indices (geom L) fL = Some k /\ map (fun i => nth_error (nodeIDs L) i) k = map Some lL;
  sf_right_ids : exists k, codim1_indices (geom R) fR = Some k /\ map (fun i => nth_error (nodeIDs R) i) k = map Some lR;
  sf_distinct : NoDup lL;
  sf_same_nodes : Permutation lL lR;
  sf_coordinates : forall a b id p q, nth_error (nodeIDs L) a = Some id -> nth_error (nodeIDs R) b = Some id ->
    In id lL -> nth_error (coordinates L) a = Some p -> nth_error (coordinates R) b = Some q -> shifted t p q
}.

(** The nodes are in the same places on both sides: one of the mappings of the face to itself carries
    them from the left to the right.  (Corners of lines and triangles can be in any order.) *)
Definition conforming (fg : geometry) (lL lR : list nat) : Prop :=
  match fg with
  | Base Square | Curvilinear _ _ =>
      exists i m, getCodim0MappingPtr (base fg) i = Some m /\ carries_all_nodes fg m lL lR
  | _ => True
  end.
(** In the face [F] every reference point [p] of the face has the same place on both sides, up to
    the shift [t]. *)
Definition sides_agree (F : face) (p t : point) : Prop :=
  exists xL xR a b, mapRefFaceToRefElemL F p = Some xL /\ mapRefFaceToRefElemR F p = Some xR /\
    referenceToPhysical (elementL F) xL = Some a /\ referenceToPhysical (elementR F) xR = Some b /\ shifted t a b.
