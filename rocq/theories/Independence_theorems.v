(** C50: linear independence of the basis functions. *)
From Coq Require Import List Arith Reals.
From Verif Require Import RefGeometry_model RefGeometry_spec BasisFunctions_model BasisSets_model BasisSizes_spec Independence_spec
  IndependenceDG_proofs IndependenceRefuted_proofs IndependenceMore_proofs IndependenceConforming_proofs.
Import ListNotations.

(** The discontinuous basis of every shape up to order 6.  Higher orders are missing: C50_refuted. *)
Theorem C50_discontinuous_partial : forall asserts s order l, order <= 6 -> default_DG_set asserts s order = Some l -> independent s l.
Proof. exact dg_independent. Qed.
Print Assumptions C50_discontinuous_partial.

(** From order 7 on the discontinuous basis is dependent, on every shape but pyramids (which have order 0 and 1 only). *)
Theorem C50_refuted : forall asserts s order l, 7 <= order -> s <> Pyramid -> default_DG_set asserts s order = Some l -> ~ independent s l.
Proof. exact dg_dependent. Qed.
Print Assumptions C50_refuted.

(** The conforming functions of one element, whatever the orientations of its faces and edges, up to order 6.  Missing: prisms. *)
Theorem C50_conforming_partial : forall asserts s order of oe l, order <= 6 ->
  match s with Line | Triangle | Square | Tetrahedron | Cube => true | _ => false end = true ->
  conforming_basis asserts s order of oe = Some l -> independent s l.
Proof. exact conforming_independent_all. Qed.
Print Assumptions C50_conforming_partial.

(** Monomials of every order on every shape. *)
Theorem C50_monomials : forall s n,
  match dimension s with
  | 1 => independent s (assembleMonomialBasisFunctions1D n)
  | 2 => independent s (assembleMonomialBasisFunctions2D n)
  | 3 => independent s (assembleMonomialBasisFunctions3D n)
  | 4 => independent s (assembleMonomialBasisFunctions4D n)
  | _ => True
  end.
Proof. exact all_monomials_independent. Qed.
Print Assumptions C50_monomials.

(** sets of order 2 and 7, a conforming basis with assorted orientations, and a list that is dependent because it has a function twice *)
Example C50_nonvacuous :
  (exists l, default_DG_set true TriangularPrism 2 = Some l /\ length l = 18) /\
  (exists l, default_DG_set true Tetrahedron 7 = Some l /\ length l = 120) /\
  (exists l, conforming_basis true Tetrahedron 6 (fun i => i + 2) (fun i => i mod 2) = Some l /\ length l = 84) /\
  dimension Pyramid = 3 /\ length (assembleMonomialBasisFunctions3D 4) = 35 /\
  ~ independent Line [InteriorLine 1; InteriorLine 1].
Proof.
  split; [eexists; split; vm_compute; reflexivity|]. split; [eexists; split; vm_compute; reflexivity|].
  split; [eexists; split; vm_compute; reflexivity|]. split; [reflexivity|]. split; [reflexivity|]. exact twice_dependent.
Qed.
