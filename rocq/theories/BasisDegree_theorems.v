(** C48: the degree of the basis functions. *)
From Coq Require Import List Arith Reals Lra Lia.
From Verif Require Import RefGeometry_model BasisFunctions_model BasisSets_model BasisSizes_spec Independence_spec BasisDegree_spec BasisDegree_proofs.
Import ListNotations.

(** Every function of a default basis, discontinuous or conforming, is defined everywhere and belongs to the polynomial space of the order.
    With the number of functions (C48_conforming, C48_discontinuous_partial) and their independence (C50) they are a basis of that space.
    Prisms and pyramids are missing. *)
Theorem C48_degree_partial : forall s order l f, default_basis s order l -> s <> TriangularPrism -> s <> Pyramid -> In f l ->
  of_order s order (dimension s) (eval f).
Proof.
  intros s order l f H N1 N2 Hf. pose proof (default_degree s order l f H N1 N2 Hf) as D.
  destruct s; try exact D; destruct H as (asserts & [H|(_ & of & oe & H)]); discriminate.
Qed.
Print Assumptions C48_degree_partial.
Example C48_degree_nonvacuous :
  (exists l, default_basis Tetrahedron 4 l /\ length l = 35%nat /\ In (InteriorTetrahedron 0 0 0) l) /\
  (exists l, default_basis Cube 2 l /\ length l = 27%nat /\ In (InteriorCube 0 0 0) l) /\ along_an_axis [0; 2; 0]%R.
Proof.
  split; [|split].
  - eexists. split; [exists true; left; reflexivity|]. split; [reflexivity|]. cbn. tauto.
  - eexists. split; [exists true; right; split; [lia|exists (fun _ => 3%nat), (fun _ => 1%nat); reflexivity]|]. split; [reflexivity|]. cbn. tauto.
  - intros i j Hi Hj. destruct i as [|[|[|[|i]]]], j as [|[|[|[|j]]]]; cbn in Hi, Hj; lra || reflexivity.
Qed.

(** Monomials of the sets in one to four coordinates have total degree at most the maximum. *)
Theorem C48_monomials_degree : forall n f,
  (In f (assembleMonomialBasisFunctions1D n) -> of_total_degree n 1 (eval f)) /\ (In f (assembleMonomialBasisFunctions2D n) -> of_total_degree n 2 (eval f)) /\
  (In f (assembleMonomialBasisFunctions3D n) -> of_total_degree n 3 (eval f)) /\ (In f (assembleMonomialBasisFunctions4D n) -> of_total_degree n 4 (eval f)).
Proof. exact monomials_degree. Qed.
Print Assumptions C48_monomials_degree.
Example C48_monomials_degree_nonvacuous : In (Monomial [1; 0; 2]%nat) (assembleMonomialBasisFunctions3D 3) /\ ~ In (Monomial [1; 1; 2]%nat) (assembleMonomialBasisFunctions3D 3).
Proof. split; [cbn; tauto|]. cbn. intros H. repeat destruct H as [H|H]; try discriminate. exact H. Qed.
