(** C23, C24: mappings between reference geometries. *)
From Coq Require Import List Arith Bool Lia Permutation Reals Lra.
From Verif Require Import Matrix_model Matrix_spec RefGeometry_model RefGeometry_spec RefGeometry_proofs.
Import ListNotations.
Local Open Scope R_scope.

(** The mapping selected for two orderings of the nodes of a line carries each node
    from its position in the first to its position in the second. *)
Theorem C23_line : forall a b l2, NoDup [a; b] -> Permutation [a; b] l2 ->
  exists i m, getCodim0MappingIndex Line [a; b] l2 = Some i /\ getCodim0MappingPtr Line i = Some m /\
    carries_nodes Line m [a; b] l2.
Proof. exact line_index. Qed.
Print Assumptions C23_line.

Theorem C23_triangle : forall a b c l2, NoDup [a; b; c] -> Permutation [a; b; c] l2 ->
  exists i m, getCodim0MappingIndex Triangle [a; b; c] l2 = Some i /\ getCodim0MappingPtr Triangle i = Some m /\
    carries_nodes Triangle m [a; b; c] l2.
Proof. exact triangle_index. Qed.
Print Assumptions C23_triangle.

(** For the square this holds for six of the eight symmetries.  For the two rotations by
    a quarter (indices 1 and 3) the selected mapping carries the nodes the other way. *)
Theorem C23_square_partial : forall a b c d l2, NoDup [a; b; c; d] -> Permutation [a; b; c; d] l2 ->
  affinely_related Square [a; b; c; d] l2 ->
  exists i m, getCodim0MappingIndex Square [a; b; c; d] l2 = Some i /\ getCodim0MappingPtr Square i = Some m /\
    ((i <> 1 /\ i <> 3)%nat -> carries_nodes Square m [a; b; c; d] l2) /\
    ((i = 1 \/ i = 3)%nat -> carries_nodes Square m l2 [a; b; c; d]).
Proof. exact square_index. Qed.
Print Assumptions C23_square_partial.

(** The contract fails for a rotated square. *)
Theorem C23_square_rotation_refuted :
  let l1 := [10; 11; 12; 13]%nat in let l2 := [11; 13; 10; 12]%nat in
  NoDup l1 /\ Permutation l1 l2 /\ affinely_related Square l1 l2 /\
  exists i m, getCodim0MappingIndex Square l1 l2 = Some i /\ getCodim0MappingPtr Square i = Some m /\
    ~ carries_nodes Square m l1 l2.
Proof. exact square_rotation_wrong. Qed.
Print Assumptions C23_square_rotation_refuted.

(** The cube (faces of four-dimensional elements): equal orderings are handled ... *)
Theorem C23_cube_partial : forall l, length l = 8%nat -> NoDup l ->
  exists i m, getCodim0MappingIndex Cube l l = Some i /\ getCodim0MappingPtr Cube i = Some m /\
    carries_nodes Cube m l l.
Proof. exact cube_identity. Qed.
Print Assumptions C23_cube_partial.

(** ... but orderings that differ by a reflection in x are not. *)
Theorem C23_cube_reflection_refuted :
  let l1 := [0;1;2;3;4;5;6;7]%nat in let l2 := [1;0;3;2;5;4;7;6]%nat in
  (forall x y z, In [x;y;z] (points Cube) -> In [-x;y;z] (points Cube)) /\
  carries_nodes Cube (RefMap (fun p => match p with [x;y;z] => Some [-x;y;z] | _ => None end) (fun _ => None)) l1 l2 /\
  exists i m, getCodim0MappingIndex Cube l1 l2 = Some i /\ getCodim0MappingPtr Cube i = Some m /\
    ~ carries_nodes Cube m l1 l2.
Proof. exact cube_wrong. Qed.
Print Assumptions C23_cube_reflection_refuted.

(** All mappings of a shape to itself are bijections of the closed reference shape, with an
    inverse among them, ... *)
Theorem C23_bijections : forall s i m, getCodim0MappingPtr s i = Some m ->
  exists j m', getCodim0MappingPtr s j = Some m' /\ bijection_of_face s m m'.
Proof. exact codim0_bijection. Qed.
Print Assumptions C23_bijections.

(** ... and calcJacobian is their derivative. *)
Theorem C23_jacobians : forall s i m, getCodim0MappingPtr s i = Some m ->
  forall p, length p = dimension s ->
  exists J, calcJacobian m p = Some J /\ is_jacobian (transform m) (dimension s) (dimension s) p J.
Proof. exact codim0_jacobian. Qed.
Print Assumptions C23_jacobians.

Example C23_nonvacuous :
  let l1 := [7; 3; 9; 4]%nat in let l2 := [3; 7; 4; 9]%nat in
  NoDup l1 /\ Permutation l1 l2 /\ affinely_related Square l1 l2 /\
  getCodim0MappingIndex Square l1 l2 = Some 5%nat /\
  getCodim0MappingIndex Triangle [7; 3; 9]%nat [9; 7; 3]%nat = Some 2%nat /\
  getCodim0MappingIndex Line [7; 3]%nat [3; 7]%nat = Some 1%nat.
Proof.
  intros l1 l2. split; [repeat constructor; cbn; lia|]. split.
  - apply NoDup_Permutation_bis; [repeat constructor; cbn; lia|cbn; lia|].
    intros x H. cbn in H |- *. intuition.
  - split; [|repeat split].
    exists (-1), 0, 0, 1, 0, 0.
    intros k1 k2 id p1 p2 E1 E2 F1 F2.
    destruct k1 as [|[|[|[|k1]]]]; cbn in E1, F1; try discriminate E1; try (destruct k1; discriminate E1);
      injection E1 as <-;
      destruct k2 as [|[|[|[|k2]]]]; cbn in E2, F2; try discriminate E2; try (destruct k2; discriminate E2);
      injection F1 as <-; injection F2 as <-; cbn; apply f_equal;
      (apply cons_eq; [lra|apply cons_eq; [lra|reflexivity]]).
Qed.

(** Mapping, shape and nodes are known for the same faces, the shapes fit, and the nodes
    are different nodes of the element. *)
Theorem C24_faces : forall s f,
  match getCodim1MappingPtr s f, getCodim1ReferenceGeometry s f, getCodim1EntityLocalIndices s f with
  | Some _, Some fs, Some ns =>
      S (dimension fs) = dimension s /\ length ns = length (points fs) /\ NoDup ns /\
      forall n, In n ns -> (n < length (points s))%nat
  | None, None, None => True
  | _, _, _ => False
  end.
Proof. exact faces_complete. Qed.
Print Assumptions C24_faces.

(** Node k of the face goes to the k-th node that the element lists for the face. *)
Theorem C24_nodes : forall s f m fs ns, the_face s f m fs ns ->
  forall k p i, nth_error (points fs) k = Some p -> nth_error ns k = Some i ->
  exists q, nth_error (points s) i = Some q /\ transform m p = Some q.
Proof. exact face_nodes. Qed.
Print Assumptions C24_nodes.

(** The closed reference face goes into the boundary of the closed element, into the convex
    hull of the nodes of the face ... *)
Theorem C24_into_boundary : forall s f m fs ns, the_face s f m fs ns ->
  forall p q, internal fs p -> transform m p = Some q -> on_boundary s q.
Proof. exact face_boundary. Qed.
Print Assumptions C24_into_boundary.
Theorem C24_into_hull : forall s f m fs ns, the_face s f m fs ns ->
  forall p q, internal fs p -> transform m p = Some q ->
  is_average q (map (fun n => nth n (points s) []) ns).
Proof. exact face_average. Qed.
Print Assumptions C24_into_hull.
Theorem C24_defined : forall s f m fs ns, the_face s f m fs ns ->
  forall p, length p = dimension fs -> exists q, transform m p = Some q /\ length q = dimension s.
Proof. exact face_defined. Qed.
Print Assumptions C24_defined.

(** ... the faces together are the whole boundary, and no face covers a point twice. *)
Theorem C24_cover_boundary : forall s q, on_boundary s q -> covered s q.
Proof. exact faces_cover. Qed.
Print Assumptions C24_cover_boundary.
Theorem C24_injective : forall s f m fs ns, the_face s f m fs ns ->
  forall p p' q, transform m p = Some q -> transform m p' = Some q -> p = p'.
Proof. exact face_injective. Qed.
Print Assumptions C24_injective.

Theorem C24_jacobians : forall s f m fs ns, the_face s f m fs ns ->
  forall p, length p = dimension fs ->
  exists J, calcJacobian m p = Some J /\ is_jacobian (transform m) (dimension fs) (dimension s) p J.
Proof. exact face_jacobian. Qed.
Print Assumptions C24_jacobians.

(** Edges: of every three-dimensional shape they join two nodes and lie on two faces;
    the mapping to an edge of the tetrahedron is the one for its nodes. *)
Theorem C24_edges_on_two_faces : forall s e ns, getCodim2EntityLocalIndices s e = Some ns ->
  exists a b, ns = [a; b] /\ a <> b /\ (a < length (points s))%nat /\ (b < length (points s))%nat /\
  exists f g, (f < g)%nat /\ forall h, lies_on_face s ns h <-> h = f \/ h = g.
Proof. exact edges_two_faces. Qed.
Print Assumptions C24_edges_on_two_faces.
Theorem C24_tetrahedron_edges : forall e m, LineToTetrahedron e = Some m ->
  (forall k p i, nth_error (points Line) k = Some p ->
    forall ns, getCodim2EntityLocalIndices Tetrahedron e = Some ns -> nth_error ns k = Some i ->
    exists q, nth_error (points Tetrahedron) i = Some q /\ transform m p = Some q) /\
  (forall p, length p = 1%nat -> exists J, calcJacobian m p = Some J /\ is_jacobian (transform m) 1 3 p J).
Proof. exact edges_ok. Qed.
Print Assumptions C24_tetrahedron_edges.

Example C24_nonvacuous :
  the_face Pyramid 2 FaceToPyramid2 Triangle [2;4;0]%nat /\
  internal Triangle [1/4; 1/2] /\ transform FaceToPyramid2 [1/4; 1/2] = Some [1 - 1/2; -1 + 2 * (1/4) + 1/2; 1/2] /\
  on_boundary Pyramid [1 - 1/2; -1 + 2 * (1/4) + 1/2; 1/2] /\
  ~ on_boundary Square [0; 1/2] /\ LineToTetrahedron 4 <> None /\
  getCodim2EntityLocalIndices TriangularPrism 6 = Some [0; 3]%nat.
Proof.
  assert (F : the_face Pyramid 2 FaceToPyramid2 Triangle [2;4;0]%nat) by (repeat split).
  assert (I : internal Triangle [1/4; 1/2]).
  { unfold internal. cbn. apply f_equal. repeat (apply andb_true_iff; split); apply leb_true; lra. }
  split; [exact F|]. split; [exact I|]. split; [reflexivity|]. split.
  - eapply C24_into_boundary; [exact F|exact I|reflexivity].
  - split; [|split; [discriminate|reflexivity]].
    intros [_ H]. destruct (H (1/4)) as (q & Hq & L & Hd); [lra|].
    destruct q as [|x [|y [|z q]]]; try discriminate L.
    assert (Hx := Hd 0%nat ltac:(cbn; lia)). assert (Hy := Hd 1%nat ltac:(cbn; lia)). cbn [nth] in Hx, Hy.
    cbn in Hq. injection Hq as Hq. 
    unfold Rabs in Hx, Hy. destruct (Rcase_abs (x - 0)); destruct (Rcase_abs (y - 1/2));
      repeat (apply andb_false_iff in Hq; destruct Hq as [Hq|Hq]); apply leb_false in Hq; lra.
Qed.
