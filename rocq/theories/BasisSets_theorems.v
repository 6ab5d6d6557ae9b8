(** C47: the functions of the conforming bases belong to the nodes, edges, faces and the interior of an element *)
From Coq Require Import List Arith Reals Lra.
From Verif Require Import RefGeometry_model RefGeometry_spec BasisFunctions_model BasisSets_model BasisSets_spec BasisSets_proofs.
Import ListNotations.
Local Open Scope R_scope.

(** A function of a node, edge or face, or of the interior vanishes on every face of the element that does not contain
    this node, edge or face.  Functions of the quadrilateral faces of prisms are excluded. *)
Theorem C47_vanishes_partial : forall asserts s order ns g f m fs fn q p, attached asserts s order ns g -> good_part s order ns ->
  the_face s f m fs fn -> ~ incl ns fn -> transform m q = Some p -> eval g p = Some 0.
Proof. exact vanish_on_other_faces. Qed.
Print Assumptions C47_vanishes_partial.

(** For the quadrilateral faces of prisms it is false; with assertions the program stops. *)
Theorem C47_prism_refuted :
  (exists ns g f m fs fn q p v, attached false TriangularPrism 2 ns g /\ the_face TriangularPrism f m fs fn /\
     ~ incl ns fn /\ internal fs q /\ transform m q = Some p /\ eval g p = Some v /\ v <> 0) /\
  forall order, (2 <= order)%nat -> default_conforming_sets true TriangularPrism order = None.
Proof. exact (conj prism_wrong prism_stops). Qed.
Print Assumptions C47_prism_refuted.

(** The function of a node is 1 in this node and 0 in the others. *)
Theorem C47_nodal : forall asserts s order i j g p, attached asserts s order [i] g -> nth_error (points s) j = Some p ->
  eval g p = Some (if Nat.eqb i j then 1 else 0).
Proof. exact nodal. Qed.
Print Assumptions C47_nodal.

(** The functions of the nodes add up to 1 in every point (of a pyramid: except at the height of the tip). *)
Theorem C47_partition_of_unity : forall asserts s order gs p, length gs = length (points s) ->
  (forall i g, nth_error gs i = Some g -> attached asserts s order [i] g) -> length p = dimension s ->
  (s = Pyramid -> nth 2 p 0 <> 1) ->
  exists vs, map (fun g => eval g p) gs = map Some vs /\ sum vs = 1.
Proof. exact partition_of_unity. Qed.
Print Assumptions C47_partition_of_unity.

(** The sets exist for all orders from 1 on, for pyramids only for order 1 (with assertions). *)
Theorem C47_defined : forall asserts s order, (1 <= order)%nat ->
  match s with
  | Line | Triangle | Square | Tetrahedron | Cube => True
  | TriangularPrism | Pyramid => order = 1%nat \/ asserts = false
  | _ => False
  end -> exists sets, default_conforming_sets asserts s order = Some sets.
Proof. exact sets_defined. Qed.
Print Assumptions C47_defined.

(** a function of an edge of the cube that vanishes on a face and not in the cube; all vertex functions of a prism *)
Example C47_nonvacuous :
  (exists g f m fs fn q p v, attached true Cube 2 [0; 1]%nat g /\ the_face Cube f m fs fn /\ ~ incl [0; 1]%nat fn /\
     transform m q = Some p /\ eval g p = Some 0 /\ eval g [0; 0; 0] = Some v /\ v <> 0) /\
  exists gs, length gs = 6%nat /\ forall i g, nth_error gs i = Some g -> attached true TriangularPrism 1 [i] g.
Proof.
  split.
  - assert (F : exists l, edge_functions true Cube 2 0 0 = Some l) by (eexists; vm_compute; reflexivity).
    destruct F as [l F]. assert (G := F). vm_compute in G. injection G as <-.
    assert (A : attached true Cube 2 [0; 1]%nat (EdgeCube_0 (-1) (-1) 1 0))
      by exact (attached_edge true Cube 2 0 0 [0; 1]%nat _ _ eq_refl F (or_introl eq_refl)).
    assert (T : exists m fs fn, the_face Cube 2 m fs fn) by (repeat eexists).
    destruct T as (m & fs & fn & T). assert (T' := T). destruct T' as (Hm & Hf & Hn). cbn in Hm, Hf, Hn.
    injection Hm as Hm. injection Hf as Hf. injection Hn as Hn. subst.
    assert (N : ~ incl [0; 1]%nat [0; 2; 4; 6]%nat) by (intros H; specialize (H 1%nat); cbn in H; intuition discriminate).
    do 5 eexists. exists [0; 0]. do 2 eexists. split; [exact A|split; [exact T|split; [exact N|split; [reflexivity|split]]]].
    + refine (C47_vanishes_partial _ _ _ _ _ _ _ _ _ [0; 0] _ A _ T N _); [discriminate|reflexivity].
    + split; [reflexivity|]. cbn. assert (0 < sqrt (3 / 2)) by (apply sqrt_lt_R0; lra). intros K. field_simplify in K. lra.
  - exists (map (fun i => VertexPrism (position (i / 3)) (i mod 3)) (seq 0 6)). split; [reflexivity|].
    intros i g H. do 6 (destruct i as [|i]; [cbn in H; injection H as <-; eapply attached_node; [vm_compute; reflexivity|now left]|]).
    destruct i; discriminate H.
Qed.
