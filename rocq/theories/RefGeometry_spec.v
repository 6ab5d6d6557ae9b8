(** What a mapping between reference geometries has to do. *)
From Coq Require Import List Arith Reals.
From Verif Require Import Matrix_model Matrix_spec RefGeometry_model.
Import ListNotations.
Local Open Scope R_scope.

(** coordinate [i] of the result of a mapping that is defined *)
Definition coordinate (o : option point) (i : nat) : R :=
  match o with Some q => nth i q 0 | None => 0 end.
(** [p] with coordinate [j] replaced by [t] *)
Definition with_coordinate (p : point) (j : nat) (t : R) : point := firstn j p ++ t :: skipn (S j) p.

(** [J] is the matrix of partial derivatives in [p] of the mapping [F] from n to m coordinates:
    row i, column j is the derivative of coordinate i with respect to coordinate j. *)
Definition is_jacobian (F : point -> option point) (n m : nat) (p : point) (J : matrix R) : Prop :=
  exists e, is_matrix J m n e /\
  forall i j, (i < m)%nat -> (j < n)%nat ->
    derivable_pt_lim (fun t => coordinate (F (with_coordinate p j t)) i) (nth j p 0) (e i j).

Definition internal (s : shape) (p : point) : Prop := isInternalPoint s p = Some true.
(** [p] belongs to the closed element and has points outside of it arbitrarily close by. *)
Definition on_boundary (s : shape) (p : point) : Prop :=
  internal s p /\
  forall eps, 0 < eps -> exists q, isInternalPoint s q = Some false /\
    length q = length p /\ forall i, (i < length p)%nat -> Rabs (nth i q 0 - nth i p 0) <= eps.

(** [p] is an average of the points [ps]. *)
Definition sum (l : list R) : R := fold_right Rplus 0 l.
Definition is_average (p : point) (ps : list point) : Prop :=
  exists ws, length ws = length ps /\ (forall w, In w ws -> 0 <= w) /\ sum ws = 1 /\
  (forall q, In q ps -> length q = length p) /\
  forall i, (i < length p)%nat -> nth i p 0 = sum (map (fun wq => fst wq * nth i (snd wq) 0) (combine ws ps)).

(** The contract of the mapping selected for two orderings of the nodes of a face
    (MappingCodimensions.h:65-104): a node at position k1 of the first ordering and k2 of the
    second is mapped from its reference coordinates in the first to those in the second. *)
Definition carries_nodes (s : shape) (m : refmap) (l1 l2 : list nat) : Prop :=
  forall k1 k2 id p1 p2,
    nth_error l1 k1 = Some id -> nth_error l2 k2 = Some id ->
    nth_error (points s) k1 = Some p1 -> nth_error (points s) k2 = Some p2 ->
    transform m p1 = Some p2.

(** The two orderings belong together: some affine map of the plane carries the nodes from
    the first to the second. *)
Definition affine2 (a b c d e f : R) : refmap :=
  RefMap (fun p => match p with [x;y] => Some [a*x + b*y + e; c*x + d*y + f] | _ => None end) (fun _ => None).
Definition affinely_related (s : shape) (l1 l2 : list nat) : Prop :=
  exists a b c d e f, carries_nodes s (affine2 a b c d e f) l1 l2.

(** mapping, shape and nodes of face [f] of shape [s] *)
Definition the_face (s : shape) (f : nat) (m : boundary_map) (fs : shape) (ns : list nat) : Prop :=
  getCodim1MappingPtr s f = Some m /\ getCodim1ReferenceGeometry s f = Some fs /\
  getCodim1EntityLocalIndices s f = Some ns.

(** [q] is the image of a point of the reference shape of a face. *)
Definition covered (s : shape) (q : point) : Prop :=
  exists f m fs ns p, the_face s f m fs ns /\ internal fs p /\ transform m p = Some q.

(** [m] is a bijection of the reference shape with inverse [m'] *)
Definition bijection_of_face (s : shape) (m m' : refmap) : Prop :=
  forall p, length p = dimension s ->
  exists q, transform m p = Some q /\ transform m' q = Some p /\ (internal s p <-> internal s q).

(** all nodes [ns] belong to face [f] *)
Definition lies_on_face (s : shape) (ns : list nat) (f : nat) : Prop :=
  exists fn, getCodim1EntityLocalIndices s f = Some fn /\ incl ns fn.
