From Coq Require Import List Arith Bool Lia Permutation Reals Lra Field.
From Verif Require Import Loop_model Matrix_model Matrix_spec Determinant_model Determinant_spec Determinant_proofs
  Derivative RefGeometry_model RefGeometry_spec RefGeometry_proofs Curvilinear_model PhysMapping_model PhysMapping_spec.
Import ListNotations.
Local Open Scope R_scope.

(** ** every mapping is a sum of shape functions times nodes *)
Fixpoint dot (f c : list R) : R :=
  match f, c with x :: f', y :: c' => x * y + dot f' c' | _, _ => 0 end.
Definition shape_functions (g : geometry) (p : point) : list R :=
  match g, p with
  | Base Line, [x] => [1/2 * (1-x); 1/2 * (1+x)]
  | Base Triangle, [x;y] => [1-x-y; x; y]
  | Base Square, [x;y] => [1/4*(1-x)*(1-y); 1/4*(1+x)*(1-y); 1/4*(1-x)*(1+y); 1/4*(1+x)*(1+y)]
  | Base Tetrahedron, [x;y;z] => [1-x-y-z; x; y; z]
  | Base Pyramid, [x;y;z] => pyramid_weights x y z
  | Base TriangularPrism, [x;y;z] => prism_weights x y z
  | Base Cube, [x;y;z] =>
      [1/8*(1-x)*(1-y)*(1-z); 1/8*(1+x)*(1-y)*(1-z); 1/8*(1-x)*(1+y)*(1-z); 1/8*(1+x)*(1+y)*(1-z);
       1/8*(1-x)*(1-y)*(1+z); 1/8*(1+x)*(1-y)*(1+z); 1/8*(1-x)*(1+y)*(1+z); 1/8*(1+x)*(1+y)*(1+z)]
  | Base Hypercube, [x;y;z;w] =>
      [1/16*(1-x-y-z-w); 1/16*(1+x-y-z-w); 1/16*(1-x+y-z-w); 1/16*(1+x+y-z-w);
       1/16*(1-x-y+z-w); 1/16*(1+x-y+z-w); 1/16*(1-x+y+z-w); 1/16*(1+x+y+z-w);
       1/16*(1-x-y-z+w); 1/16*(1+x-y-z+w); 1/16*(1-x+y-z+w); 1/16*(1+x+y-z+w);
       1/16*(1-x-y+z+w); 1/16*(1+x-y+z+w); 1/16*(1-x+y+z+w); 1/16*(1+x+y+z+w)]
  | Curvilinear Triangle 2, [x;y] => triangle2_weights x y
  | Curvilinear Tetrahedron 2, [x;y;z] => tetrahedron2_weights x y z
  | _, _ => []
  end.

Lemma number_of_points2 : length (geometry_points (Curvilinear Triangle 2)) = 6%nat /\
  length (geometry_points (Curvilinear Tetrahedron 2)) = 10%nat.
Proof. split; reflexivity. Qed.

Ltac forall_nodes := repeat match goal with
  | H : Forall _ (_ :: _) |- _ => apply Forall_cons_iff in H; let H1 := fresh in destruct H as [H1 H]
  | H : Forall _ [] |- _ => clear H
  end.
(** one goal per element type, with coordinates for nodes and point *)
Ltac each_geometry g G := destruct g as [s|s o];
  [destruct s|destruct s; try contradiction G; enum 3%nat o]; try contradiction G.
Ltac coordinates_of H := let L := fresh in let F := fresh in
  destruct H as [L F]; cbn [geometry_points points line_points triangle_points tetrahedron_points
    flat_map map seq Nat.add Nat.sub app length base dimension] in L, F;
  points_of_dim; forall_nodes; cbn beta in *; points_of_dim.

Lemma denominator_not_0 : forall z, pyramid_denominator z <> 0.
Proof.
  intros z. unfold pyramid_denominator. destruct (Req_EM_T (1 - z) 0); [|assumption].
  apply Rinv_neq_0_compat, pow_nonzero. lra.
Qed.

Lemma transform_value : forall g nodes p, has_mapping g -> are_nodes_of g nodes -> length p = dimension (base g) ->
  exists q, phys_transform g nodes p = Some q /\ length q = dimension (base g) /\
  forall i, (i < dimension (base g))%nat ->
    nth i q 0 = dot (shape_functions g p) (map (fun n => nth i n 0) nodes).
Proof.
  intros g nodes p G H L.
  each_geometry g G; cbn [base dimension] in L; coordinates_of H; (eexists; split; [reflexivity|]);
    cbn [base dimension]; (split; [reflexivity|]); intros i Hi; enum 4%nat i; try lia; clear Hi;
    cbn -[pyramid_denominator]; unfold line_mid, line_slope; field; apply denominator_not_0.
Qed.

(** ** C27 *)
Lemma nodes_interpolated : forall g nodes, has_mapping g -> g <> Base Hypercube -> are_nodes_of g nodes ->
  forall k p q, nth_error (geometry_points g) k = Some p -> nth_error nodes k = Some q ->
  phys_transform g nodes p = Some q.
Proof.
  intros g nodes G G4 H k p q Hp Hq.
  each_geometry g G; try (exfalso; apply G4; reflexivity); coordinates_of H;
    enum 11%nat k; cbn in Hp, Hq; try discriminate Hp; try discriminate Hq; injs;
    cbn -[pyramid_denominator]; unfold line_mid, line_slope; point_eq ltac:(idtac);
    try (field; apply denominator_not_0).
Qed.

Lemma affine_reproduced : forall g A b p, has_mapping g -> length p = dimension (base g) ->
  phys_transform g (map (affine A b (dimension (base g))) (geometry_points g)) p = Some (affine A b (dimension (base g)) p).
Proof.
  intros g A b p G L.
  each_geometry g G; cbn [base dimension] in L; points_of_dim;
    cbn -[pyramid_denominator]; unfold line_mid, line_slope; point_eq ltac:(idtac);
    try (field; try apply denominator_not_0).
Qed.

Lemma face_value : forall s f m fs ns nodes, the_face s f m fs ns -> s <> Hypercube -> are_nodes_of (Base s) nodes ->
  forall p q, internal fs p -> transform m p = Some q ->
  exists r, phys_transform (Base s) nodes q = Some r /\ length r = dimension s /\
  forall i, (i < dimension s)%nat ->
    nth i r 0 = dot (weights fs p) (map (fun k => nth i (nth k nodes []) 0) ns).
Proof.
  unfold internal. intros s f m fs ns nodes (Hm & Hf & Hn) S4 H p q Ip Hq.
  assert (Lp := internal_length _ _ _ Ip).
  each_face s f Hm; try (exfalso; apply S4; reflexivity); cbn in Hf, Hn; injs;
    cbn [dimension] in Lp; points_of_dim; cbn in Hq; injs; coordinates_of H;
    (eexists; split; [reflexivity|split; [reflexivity|]]); cbn [dimension] in *;
    intros i Hi; enum 3%nat i; try lia; clear Hi;
    cbn -[pyramid_denominator]; unfold line_mid, line_slope; try field.
  all: unfold pyramid_denominator; match goal with |- context[Req_EM_T ?a 0] => destruct (Req_EM_T a 0) end;
    cbn in Ip; try injection Ip as Ip; conjs; try (field; lra).
  all: try lra.
  all: replace r0 with 1 by lra; replace r with 0 by lra; unfold Rdiv; generalize (/ / 10 ^ 50); intros; field.
Qed.

(** ** C28 *)
Lemma D_local : forall f g x l eps, 0 < eps -> (forall t, Rabs (t - x) < eps -> f t = g t) ->
  derivable_pt_lim g x l -> derivable_pt_lim f x l.
Proof.
  intros f g x l eps He E D e1 H1. destruct (D e1 H1) as [delta H].
  assert (P : 0 < Rmin eps delta) by (apply Rmin_glb_lt; [assumption|apply cond_pos]).
  exists (mkposreal _ P). intros h Hh Hd. cbn in Hd.
  rewrite (E (x + h)), (E x).
  - apply H; [assumption|]. eapply Rlt_le_trans; [exact Hd|apply Rmin_r].
  - unfold Rminus. rewrite Rplus_opp_r, Rabs_R0. assumption.
  - replace (x + h - x) with h by ring. eapply Rlt_le_trans; [exact Hd|apply Rmin_l].
Qed.
Lemma D_denominator : forall z, z <> 1 -> derivable_pt_lim pyramid_denominator z (-1).
Proof.
  intros z H. apply (D_local _ (fun t => 1 - t) _ _ (Rabs (1 - z))).
  - apply Rabs_pos_lt. lra.
  - intros t Ht. unfold pyramid_denominator. destruct (Req_EM_T (1 - t) 0) as [E|E]; [|reflexivity].
    exfalso. replace t with 1 in Ht by lra. lra.
  - derive.
Qed.

Lemma mapping_jacobian : forall g nodes p, has_mapping g -> g <> Base Pyramid -> are_nodes_of g nodes ->
  length p = dimension (base g) ->
  exists J, phys_jacobian g nodes p = Some J /\
    is_jacobian (phys_transform g nodes) (dimension (base g)) (dimension (base g)) p J.
Proof.
  intros g nodes p G GP H L.
  each_geometry g G; try (exfalso; apply GP; reflexivity); cbn [base dimension] in L; coordinates_of H;
    (eexists; split; [reflexivity|]); cbn [base dimension]; unfold line_slope; jacobian;
    unfold line_mid, line_slope; try field.
Qed.

