(** C45: reference elements with additional nodes for curved sides. *)
From Coq Require Import List Arith Bool Lia ZArith Permutation Reals Lra.
From Verif Require Import Matrix_model RefGeometry_model RefGeometry_spec RefGeometry_proofs Curvilinear_model Curvilinear_spec
  Curvilinear_proofs.
Import ListNotations.
Local Open Scope R_scope.

(** An element of order o has binomial (o + dim) dim nodes, ... *)
Theorem C45_number_of_nodes : forall s o, has_curved_version s ->
  length (geometry_points (Curvilinear s o)) = expected_number_of_points s o.
Proof. exact points_number. Qed.
Print Assumptions C45_number_of_nodes.

(** ... all different ... *)
Theorem C45_distinct : forall s o, has_curved_version s -> (0 < o)%nat -> NoDup (geometry_points (Curvilinear s o)).
Proof. exact nodes_distinct. Qed.
Print Assumptions C45_distinct.

(** ... and inside the element. *)
Theorem C45_internal : forall s o, has_curved_version s -> (0 < o)%nat ->
  forall p, In p (geometry_points (Curvilinear s o)) -> internal s p.
Proof. exact nodes_internal. Qed.
Print Assumptions C45_internal.

(** A geometry chosen for a number of nodes has that number of nodes and the right dimension, ... *)
Theorem C45_factory_sound : forall dim n g, getGeometry dim n = Some g ->
  dimension (base g) = dim /\ length (geometry_points g) = n.
Proof. exact factory_sound. Qed.
Print Assumptions C45_factory_sound.

(** ... and every curved element is found from its number of nodes. *)
Theorem C45_factory_complete : forall s o, has_curved_version s -> (2 <= o)%nat ->
  getGeometry (dimension s) (length (geometry_points (Curvilinear s o))) = Some (Curvilinear s o).
Proof. exact factory_complete. Qed.
Print Assumptions C45_factory_complete.

(** The corners are found among the nodes.  (Nodes closer than the tolerance of the search cannot
    be told apart, hence the bound on the order.) *)
Theorem C45_corners : forall s o, has_curved_version s -> (0 < o)%nat -> INR o <= 10 ^ 8 ->
  exists l, base_indices (Curvilinear s o) = Some l /\ length l = length (points s) /\
    forall k q i, nth_error (points s) k = Some q -> nth_error l k = Some i ->
      nth_error (geometry_points (Curvilinear s o)) i = Some q.
Proof. exact base_indices_ok. Qed.
Print Assumptions C45_corners.

(** Node k of a side is mapped to the node with the k-th index of that side. *)
Theorem C45_sides : forall s o f m cg, s = Triangle \/ s = Tetrahedron -> (0 < o)%nat -> INR o <= 10 ^ 8 ->
  getCodim1MappingPtr s f = Some m -> codim1_geometry (Curvilinear s o) f = Some cg ->
  exists ns, codim1_indices (Curvilinear s o) f = Some ns /\
    maps_nodes_to m (geometry_points cg) (geometry_points (Curvilinear s o)) ns.
Proof. exact sides_ok. Qed.
Print Assumptions C45_sides.

Theorem C45_line_sides : forall o f, (0 < o)%nat -> INR o <= 10 ^ 8 -> (f < 2)%nat ->
  exists i m q, codim1_indices (Curvilinear Line o) f = Some [i] /\ getCodim1MappingPtr Line f = Some m /\
    transform m [] = Some q /\ nth_error (geometry_points (Curvilinear Line o)) i = Some q.
Proof. exact line_sides_ok. Qed.
Print Assumptions C45_line_sides.

(** If one of the mappings of the side to itself carries all nodes from the first ordering to the
    second, it is the one that is selected. *)
Theorem C45_line_orientation : forall o v1 v2 i0 m0, (0 < o)%nat -> INR o <= 10 ^ 8 -> NoDup v1 -> Permutation v1 v2 ->
  length v1 = length (geometry_points (Curvilinear Line o)) -> getCodim0MappingPtr Line i0 = Some m0 ->
  carries_all_nodes (Curvilinear Line o) m0 v1 v2 -> codim0_mapping_index (Curvilinear Line o) v1 v2 = Some i0.
Proof. exact line_mapping_index. Qed.
Print Assumptions C45_line_orientation.

Theorem C45_triangle_orientation : forall o v1 v2 i0 m0, (0 < o)%nat -> INR o <= 10 ^ 8 -> NoDup v1 -> Permutation v1 v2 ->
  length v1 = length (geometry_points (Curvilinear Triangle o)) -> getCodim0MappingPtr Triangle i0 = Some m0 ->
  carries_all_nodes (Curvilinear Triangle o) m0 v1 v2 -> codim0_mapping_index (Curvilinear Triangle o) v1 v2 = Some i0.
Proof. exact triangle_mapping_index. Qed.
Print Assumptions C45_triangle_orientation.

Example C45_nonvacuous :
  length (geometry_points (Curvilinear Tetrahedron 3)) = 20%nat /\
  has_curved_version Tetrahedron /\ INR 3 <= 10 ^ 8 /\
  codim1_geometry (Curvilinear Tetrahedron 3) 1 = Some (Curvilinear Triangle 3) /\
  let v1 := [10; 11; 12; 13]%nat in let v2 := [13; 12; 11; 10]%nat in
  NoDup v1 /\ Permutation v1 v2 /\ length v1 = length (geometry_points (Curvilinear Line 3)) /\
  exists m, getCodim0MappingPtr Line 1 = Some m /\ carries_all_nodes (Curvilinear Line 3) m v1 v2.
Proof.
  split; [reflexivity|]. split; [right; right; reflexivity|]. split; [cbn; lra|]. split; [reflexivity|].
  intros v1 v2. split; [repeat constructor; cbn; lia|]. split.
  { change v2 with (rev v1). apply Permutation_rev. }
  split; [reflexivity|]. eexists. split; [reflexivity|].
  intros k1 k2 id p1 p2 E1 E2 F1 F2.
  destruct k1 as [|[|[|[|[|k1]]]]]; cbn in E1, F1; try discriminate E1;
    destruct k2 as [|[|[|[|[|k2]]]]]; cbn in E2, F2; try discriminate E2; try congruence;
    injection E1 as <-; try discriminate E2; injection F1 as <-; injection F2 as <-; cbn; point_eq ltac:(field).
Qed.
