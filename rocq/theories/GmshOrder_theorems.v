(** C67: the order of the nodes of the elements. *)
From Coq Require Import List Arith ZArith Reals Lra.
From Verif Require Import RefGeometry_model Curvilinear_model Gmsh_spec GmshOrder_spec.
Import ListNotations.
Local Open Scope R_scope.

Definition matrix_of (t : Z) : list (list R) :=
  match t with
  | 15%Z => []
  | 1%Z | 8%Z => [[1]]
  | 2%Z | 3%Z | 9%Z => [[1;0];[0;1]]
  | 5%Z => [[1;0;0];[0;0;1];[0;-1;0]]
  | 6%Z => [[0;1;0];[1;0;0];[0;0;1]]
  | 7%Z => [[0;-1;0];[1;0;0];[0;0;1]]
  | _ => [[1;0;0];[0;1;0];[0;0;1]]
  end.
Lemma types : forall t dim order, Gmsh_spec.shape t = Some (dim, order) -> In t [15; 1; 8; 2; 9; 3; 7; 5; 6; 11]%Z.
Proof.
  intros t dim order H. unfold Gmsh_spec.shape in H. destruct t as [|p|p]; try discriminate.
  do 5 (destruct p as [p|p|]; try discriminate; try (cbn; tauto)).
Qed.
Ltac points := unfold corresponds; cbn [hpgem_element geometry_points points line_points triangle_points tetrahedron_points map seq Nat.add Nat.sub flat_map app
    affine plus inner matrix_of nth gmsh_points repeat INR]; repeat (f_equal; try lra).

(** ** The nodes of an element that is read are in the order of hpGEM: there is an invertible affine map from the reference
    element of hpGEM to that of Gmsh that maps node i of the one to the node of the other that becomes node i. *)
Theorem C67_node_order : forall t dim order, Gmsh_spec.shape t = Some (dim, order) ->
  exists g M, hpgem_element t = Some g /\ RefGeometry_model.dimension (base g) = dim /\
    square dim M /\ det M <> 0 /\ corresponds t g order M (repeat 0 dim).
Proof.
  intros t dim order H. pose proof (types t dim order H) as T. cbn in T.
  repeat (destruct T as [<-|T]; [injection H as <- <-; eexists; match goal with |- context [hpgem_element ?t] => exists (matrix_of t) end;
    split; [reflexivity|]; split; [reflexivity|]; split; [split; [reflexivity|repeat constructor]|]; split; [cbn; lra|points]|]).
  contradiction.
Qed.
Print Assumptions C67_node_order.
Example C67_node_order_nonvacuous : Gmsh_spec.shape 5 = Some (3%nat, [4; 5; 0; 1; 7; 6; 3; 2]%nat) /\ length (geometry_points (Base Cube)) = 8%nat /\
  length (geometry_points (Curvilinear Tetrahedron 2)) = 10%nat.
Proof. repeat split. Qed.

(** ** It keeps the orientation. Missing: prisms. *)
Theorem C67_orientation_partial : forall t dim order, Gmsh_spec.shape t = Some (dim, order) -> t <> 6%Z ->
  exists g M, hpgem_element t = Some g /\ square dim M /\ 0 < det M /\ corresponds t g order M (repeat 0 dim).
Proof.
  intros t dim order H N. pose proof (types t dim order H) as T. cbn in T.
  assert (T' : In t [15; 1; 8; 2; 9; 3; 7; 5; 11]%Z) by (cbn; intuition congruence). clear T. cbn in T'. rename T' into T.
  repeat (destruct T as [<-|T]; [injection H as <- <-; eexists; match goal with |- context [hpgem_element ?t] => exists (matrix_of t) end;
    split; [reflexivity|]; split; [split; [reflexivity|repeat constructor]|]; split; [cbn; lra|points]|]).
  contradiction.
Qed.
Print Assumptions C67_orientation_partial.
Example C67_orientation_nonvacuous : Gmsh_spec.shape 7 = Some (3%nat, [4; 1; 2; 0; 3]%nat) /\ 7%Z <> 6%Z.
Proof. now split. Qed.

(** ** A prism becomes its mirror image: every affine map that fits its nodes has a negative determinant. *)
Theorem C67_prism_mirrored_refuted : exists dim order, Gmsh_spec.shape 6 = Some (dim, order) /\
  (exists M c, square dim M /\ length c = dim /\ corresponds 6 (Base TriangularPrism) order M c) /\
  forall M c, square dim M -> length c = dim -> corresponds 6 (Base TriangularPrism) order M c -> det M < 0.
Proof.
  exists 3%nat, [0; 2; 1; 3; 5; 4]%nat. split; [reflexivity|]. split.
  - exists (matrix_of 6), [0; 0; 0]. split; [split; [reflexivity|repeat constructor]|]. split; [reflexivity|points].
  - intros M c (L & F) Lc H.
    destruct M as [|r1 [|r2 [|r3 [|]]]]; try discriminate L. inversion F as [|? ? F1 F']; subst. inversion F' as [|? ? F2 F'']; subst. inversion F'' as [|? ? F3 _]; subst.
    destruct r1 as [|a [|b [|c' [|]]]]; try discriminate F1. destruct r2 as [|d [|e [|f [|]]]]; try discriminate F2.
    destruct r3 as [|g [|h [|i [|]]]]; try discriminate F3. destruct c as [|x [|y [|z [|]]]]; try discriminate Lc.
    unfold corresponds in H. cbn [geometry_points points map affine plus inner nth gmsh_points] in H. injection H as H1 H2 H3 H4 H5 H6 H7 H8 H9 H10 H11 H12 H13 H14 H15 H16 H17 H18.
    assert (a = 0) by lra. assert (b = 1) by lra. assert (c' = 0) by lra. assert (d = 1) by lra. assert (e = 0) by lra. assert (f = 0) by lra.
    assert (g = 0) by lra. assert (h = 0) by lra. assert (i = 1) by lra. subst. cbn. lra.
Qed.
Print Assumptions C67_prism_mirrored_refuted.
