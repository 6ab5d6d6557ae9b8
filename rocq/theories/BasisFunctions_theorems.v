(** C40: the derivatives of the scalar basis functions *)
From Coq Require Import List Arith ZArith Reals Lra Lia.
From Verif Require Import Legendre_model RefGeometry_model RefGeometry_spec BasisFunctions_model BasisFunctions_spec BasisFunctions_proofs.
Import ListNotations.
Local Open Scope R_scope.

(** Whenever a basis function and its derivative with respect to coordinate [i] have a value in a point, this
    value is the partial derivative; for the pyramid the tip is excluded. *)
Theorem C40_derivatives : forall f i p v d, eval f p = Some v -> evalDeriv i f p = Some d ->
  match f with VertexPyramid _ => ~ near_tip p | _ => True end -> is_partial_derivative (eval f) i p d.
Proof. exact derivatives. Qed.
Print Assumptions C40_derivatives.

(** The derivative exists in every point in which the function exists, if the degrees of the Lobatto polynomials in
    the function are at most 3.  Missing: larger degrees. *)
Theorem C40_defined_partial : forall f p v i, eval f p = Some v -> (forall o, In o (lobatto_degrees f) -> (o <= 3)%nat) ->
  (i < dimension_of f)%nat ->
  match f with VertexPyramid _ => nth 2 p 0 <> 1 \/ near_tip p | _ => True end ->
  exists d, evalDeriv i f p = Some d.
Proof. exact derivative_defined. Qed.
Print Assumptions C40_defined_partial.

(** With a larger degree the program stops in every point for one of the derivatives. *)
Theorem C40_defined_refuted : forall f o, In o (lobatto_degrees f) -> (4 <= o)%nat ->
  exists i, (i < dimension_of f)%nat /\ forall p, evalDeriv i f p = None.
Proof. exact derivative_missing. Qed.
Print Assumptions C40_defined_refuted.

(** the derivative of a face function of the triangle, and a degree for which there is none *)
Example C40_nonvacuous :
  (exists v d, eval (FaceTriangle 1 2 0) [/ 2; / 4] = Some v /\ evalDeriv 0 (FaceTriangle 1 2 0) [/ 2; / 4] = Some d /\
     d <> 0 /\ is_partial_derivative (eval (FaceTriangle 1 2 0)) 0 [/ 2; / 4] d) /\
  (exists v, eval (InteriorLine 4) [/ 2] = Some v) /\ In 4%nat (lobatto_degrees (InteriorLine 4)).
Proof.
  split; [|split; [eexists; reflexivity|now left]].
  assert (exists v, eval (FaceTriangle 1 2 0) [/ 2; / 4] = Some v) as [v Hv] by (eexists; reflexivity).
  assert (exists d, evalDeriv 0 (FaceTriangle 1 2 0) [/ 2; / 4] = Some d) as [d Hd] by (eexists; reflexivity).
  exists v, d. split; [exact Hv|split; [exact Hd|split]].
  - cbn in Hd. injection Hd as <-. assert (0 < sqrt (3 / 2)) by (apply sqrt_lt_R0; lra).
    intros He. field_simplify in He. lra.
  - exact (C40_derivatives _ 0 _ _ _ Hv Hd I).
Qed.
