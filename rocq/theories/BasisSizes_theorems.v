(** C48: the number of basis functions. *)
From Coq Require Import List Arith.
From Verif Require Import RefGeometry_model BasisFunctions_model BasisSets_model BasisSizes_spec BasisSizes_proofs.
Import ListNotations.

(** The conforming basis: whatever the orientations of its faces and edges, an element gets as many functions as the polynomial
    space of the order has dimensions. *)
Theorem C48_conforming : forall asserts s order of oe l, 1 <= order -> (s = Pyramid -> order = 1) ->
  conforming_basis asserts s order of oe = Some l -> length l = space_dimension s order.
Proof. exact conforming_size. Qed.
Print Assumptions C48_conforming.

(** There is a set for each orientation of a face or edge. *)
Theorem C48_conforming_defined : forall asserts s order sets of oe, default_conforming_sets asserts s order = Some sets ->
  (forall i, i < faces_of s -> of i < orientations_of s i) -> (forall i, i < edges_of s -> oe i < 2) ->
  exists l, conforming_basis asserts s order of oe = Some l.
Proof. exact conforming_defined. Qed.
Print Assumptions C48_conforming_defined.

(** The discontinuous basis.  Prisms of order 3 and more are missing. *)
Theorem C48_discontinuous_partial : forall asserts s order l, default_DG_set asserts s order = Some l ->
  match s with TriangularPrism => order <= 2 | Pyramid => order <= 1 | _ => True end -> length l = space_dimension s order.
Proof. exact dg_size. Qed.
Print Assumptions C48_discontinuous_partial.

Theorem C48_discontinuous_defined : forall asserts s order,
  match s with Line | Triangle | Square | Tetrahedron | Cube => True | Pyramid => order <= 1 | _ => False end ->
  exists l, default_DG_set asserts s order = Some l.
Proof. exact dg_defined. Qed.
Print Assumptions C48_discontinuous_defined.

(** The discontinuous basis of order 3 of a prism has one function too many. *)
Theorem C48_prism_refuted : exists l, default_DG_set true TriangularPrism 3 = Some l /\ length l = S (space_dimension TriangularPrism 3).
Proof. exact prism_dg_size. Qed.
Print Assumptions C48_prism_refuted.

(** Monomials span the polynomials of a total degree. *)
Theorem C48_monomials : forall n,
  length (assembleMonomialBasisFunctions1D n) = simplex_dimension 1 n /\ length (assembleMonomialBasisFunctions2D n) = simplex_dimension 2 n /\
  length (assembleMonomialBasisFunctions3D n) = simplex_dimension 3 n /\ length (assembleMonomialBasisFunctions4D n) = simplex_dimension 4 n.
Proof. exact monomials_size. Qed.
Print Assumptions C48_monomials.

(** the 35 functions of order 4 on a tetrahedron with assorted orientations *)
Example C48_nonvacuous :
  (exists sets l, default_conforming_sets true Tetrahedron 4 = Some sets /\
    conforming_basis true Tetrahedron 4 (fun i => i + 2) (fun i => i mod 2) = Some l /\ length l = 35) /\
  space_dimension Tetrahedron 4 = 35 /\ orientations_of Tetrahedron 3 = 6 /\
  (exists l, default_DG_set true Cube 2 = Some l /\ length l = 27).
Proof.
  split; [eexists; eexists; split; [reflexivity|split; reflexivity]|].
  split; [reflexivity|]. split; [reflexivity|]. eexists. split; reflexivity.
Qed.
