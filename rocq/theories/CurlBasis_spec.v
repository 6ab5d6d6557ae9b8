(** What is expected of curl conforming basis functions. *)
From Coq Require Import List Arith ZArith Reals.
From Verif Require Import RefGeometry_model RefGeometry_spec BasisFunctions_spec Independence_spec CurlBasis_model.
Import ListNotations.
Local Open Scope R_scope.

(** component [k] of a function with vectors as values *)
Definition component (F : point -> option (list R)) (k : nat) (p : point) : option R :=
  match F p with Some v => nth_error v k | None => None end.

(** [c] is the curl of [F] in [p]; D k i is the derivative of component k with respect to coordinate i.  For two coordinates
    the only component of the curl that is not zero comes first, followed by a zero. *)
Definition is_curl (F : point -> option (list R)) (p : point) (c : list R) : Prop :=
  exists D : nat -> nat -> R,
    (forall k i, (k < length p)%nat -> (i < length p)%nat -> is_partial_derivative (component F k) i p (D k i)) /\
    ((length p = 2%nat /\ c = [D 1%nat 0%nat - D 0%nat 1%nat; 0]) \/
     (length p = 3%nat /\ c = [D 2%nat 1%nat - D 1%nat 2%nat; D 0%nat 2%nat - D 2%nat 0%nat; D 1%nat 0%nat - D 0%nat 1%nat])).

Definition dot (u v : list R) : R := sum (map (fun ab => fst ab * snd ab) (combine u v)).
(** the vector from [a] to [b] *)
Definition from_to (a b : point) : list R := map (fun ab => snd ab - fst ab) (combine a b).
(** [F] has no component along the part of the element (a node, edge, side or face) with the corners [ps]. *)
Definition no_tangential (F : point -> option (list R)) (ps : list point) : Prop :=
  forall p v a b, is_average p ps -> In a ps -> In b ps -> F p = Some v -> dot v (from_to a b) = 0.

(** the corners of the edge, face or element a function belongs to *)
Definition corners_of (f : curl_function) : list nat :=
  match f with
  | EdgeNedelec2D 0 _ => [0; 1] | EdgeNedelec2D 1 _ => [1; 2] | EdgeNedelec2D _ _ => [0; 2]
  | InteriorNedelec2D _ _ => [0; 1; 2]
  | EdgeNedelec _ _ i j | EdgeAinsworthCoyle _ i j => [i; j]
  | Face1Nedelec _ _ _ d | Face2Nedelec _ _ _ d | EdgeFaceAinsworthCoyle _ d _ | FaceAinsworthCoyle _ _ d _ =>
      filter (fun n => negb (Nat.eqb n d)) [0; 1; 2; 3]
  | _ => [0; 1; 2; 3]
  end%nat.

(** A combination of the functions that vanishes in all points of the shape has only zero coefficients. *)
Definition curl_independent (s : shape) (l : list curl_function) : Prop :=
  forall cs, length cs = length l ->
    (forall p vs, internal s p -> map (fun f => curl_eval f p) l = map Some vs ->
       forall k, (k < dimension s)%nat -> combination cs (map (fun v => nth k v 0) vs) = 0) ->
    Forall (fun c => c = 0) cs.

(** the sets a user can choose for a mesh of triangles or tetrahedra *)
Definition curl_set (s : shape) (order : nat) (l : list curl_function) : Prop :=
  match s with
  | Triangle => exists asserts, createDGBasisFunctionSet2DNedelec asserts order = Some l
  | Tetrahedron => l = createDGBasisFunctionSet3DNedelec order \/ l = createDGBasisFunctionSet3DAinsworthCoyle order
  | _ => False
  end.

(** Along every line the function is a polynomial of degree at most [n] in the distance: total degree at most [n]. *)
Definition on_line (a d : list R) (t : R) : list R := map (fun ad => fst ad + t * snd ad) (combine a d).
Definition degree_at_most (n : nat) (F : point -> option (list R)) (dim : nat) : Prop :=
  forall a d k, length a = dim -> length d = dim -> (k < dim)%nat ->
    exists cs, (length cs <= S n)%nat /\ forall t, component F k (on_line a d t) = Some (fold_right (fun c r => c + t * r) 0 cs).
