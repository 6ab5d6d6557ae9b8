(** C27, C28, C29: mappings from reference to physical elements. *)
From Coq Require Import List Arith Bool Lia Reals Lra.
From Verif Require Import Matrix_model Matrix_spec Determinant_spec RefGeometry_model RefGeometry_spec RefGeometry_proofs
  Curvilinear_model PhysMapping_model PhysMapping_spec PhysMapping_proofs PhysInverse_proofs PhysNewton_proofs
  PhysQuadratic_proofs.
Import ListNotations.
Local Open Scope R_scope.

(** Reference node k is mapped to physical node k. *)
Theorem C27_nodes : forall g nodes, has_mapping g -> g <> Base Hypercube -> are_nodes_of g nodes ->
  forall k p q, nth_error (geometry_points g) k = Some p -> nth_error nodes k = Some q ->
  phys_transform g nodes p = Some q.
Proof. exact nodes_interpolated. Qed.
Print Assumptions C27_nodes.

(** If the nodes are the images of the reference nodes under an affine map, the mapping is that map. *)
Theorem C27_affine : forall g A b p, has_mapping g -> length p = dimension (base g) ->
  phys_transform g (map (affine A b (dimension (base g))) (geometry_points g)) p = Some (affine A b (dimension (base g)) p).
Proof. exact affine_reproduced. Qed.
Print Assumptions C27_affine.

(** Two elements with the same nodes on a face have the same mapping on that face. *)
Theorem C27_faces : forall s f m fs ns nodes nodes', the_face s f m fs ns -> s <> Hypercube ->
  are_nodes_of (Base s) nodes -> are_nodes_of (Base s) nodes' -> agree_on ns nodes nodes' ->
  forall p q, internal fs p -> transform m p = Some q ->
  phys_transform (Base s) nodes q = phys_transform (Base s) nodes' q.
Proof. exact faces_depend. Qed.
Print Assumptions C27_faces.

(** The same for elements with curved sides. *)
Theorem C27_quadratic_faces : forall s f m ns nodes nodes', s = Triangle \/ s = Tetrahedron ->
  getCodim1MappingPtr s f = Some m -> codim1_indices (Curvilinear s 2) f = Some ns ->
  are_nodes_of (Curvilinear s 2) nodes -> are_nodes_of (Curvilinear s 2) nodes' -> agree_on ns nodes nodes' ->
  forall p q, transform m p = Some q ->
  phys_transform (Curvilinear s 2) nodes q = phys_transform (Curvilinear s 2) nodes' q.
Proof. exact quadratic_faces. Qed.
Print Assumptions C27_quadratic_faces.

(** Not part of the claim: in four dimensions a node that is moved on its own is not interpolated. *)
Theorem C27_hypercube_not_interpolated :
  let nodes := [1;1;1;1] :: tl (points Hypercube) in
  are_nodes_of (Base Hypercube) nodes /\
  nth_error (points Hypercube) 0 = Some [-1;-1;-1;-1] /\ nth_error nodes 0 = Some [1;1;1;1] /\
  phys_transform (Base Hypercube) nodes [-1;-1;-1;-1] <> Some [1;1;1;1].
Proof. exact hypercube_not_interpolating. Qed.
Print Assumptions C27_hypercube_not_interpolated.

Example C27_nonvacuous :
  are_nodes_of (Base Square) trap /\ nth_error (geometry_points (Base Square)) 3 = Some [1; 1] /\
  phys_transform (Base Square) trap [1; 1] = Some [0; 9] /\
  the_face Square 0 LineToSquare0 Line [0; 1]%nat /\
  agree_on [0; 1]%nat trap [[0; 1]; [2; 3]; [-7; 5]; [4; 4]] /\
  codim1_indices (Curvilinear Triangle 2) 2 = Some [2; 4; 5]%nat.
Proof.
  split; [exact trap_valid|]. split; [reflexivity|]. split; [rewrite trap_transform; point_eq ltac:(ring)|].
  split; [repeat split|]. split; [intros i [<-|[<-|[]]]; reflexivity|].
  exact (quadratic_sides Triangle 2 _ (or_introl eq_refl) eq_refl).
Qed.

(** calcJacobian consists of the partial derivatives of transform. *)
Theorem C28_jacobians : forall g nodes p, has_mapping g -> g <> Base Pyramid -> are_nodes_of g nodes ->
  length p = dimension (base g) ->
  exists J, phys_jacobian g nodes p = Some J /\
    is_jacobian (phys_transform g nodes) (dimension (base g)) (dimension (base g)) p J.
Proof. exact mapping_jacobian. Qed.
Print Assumptions C28_jacobians.

(** For the pyramid this is shown on its axis and for points that are not (nearly) on the level of
    the top.  Missing: the remaining points, where transform has no derivative or the code moves
    the point before it evaluates the derivative. *)
Theorem C28_pyramid_partial : forall nodes x y z, are_nodes_of (Base Pyramid) nodes ->
  (x = 0 /\ y = 0) \/ (z <> 1 /\ / 10 ^ 14 <= Rabs (z - 1) + Rabs x + Rabs y) ->
  exists J, phys_jacobian (Base Pyramid) nodes [x; y; z] = Some J /\
    is_jacobian (phys_transform (Base Pyramid) nodes) 3 3 [x; y; z] J.
Proof. exact pyramid_jacobian_ok. Qed.
Print Assumptions C28_pyramid_partial.

Example C28_nonvacuous :
  has_mapping (Base Square) /\ Base Square <> Base Pyramid /\ are_nodes_of (Base Square) trap /\
  (forall x y, phys_jacobian (Base Square) trap [x; y] = Some (Mat 2 2 [1; 2 + y; -1; 2 + x])) /\
  are_nodes_of (Base Pyramid) (points Pyramid).
Proof.
  split; [exact I|]. split; [discriminate|]. split; [exact trap_valid|]. split; [exact trap_jacobian|].
  split; [reflexivity|repeat constructor].
Qed.

(** The inverse of the mapping of a line is exact, in both directions. *)
Theorem C29_line : forall nodes x y, are_nodes_of (Base Line) nodes ->
  nth_error nodes 0 <> nth_error nodes 1 ->
  (exists q, phys_transform (Base Line) nodes [x] = Some q /\ line_inverse nodes q = Some [x]) /\
  (exists p, line_inverse nodes [y] = Some p /\ phys_transform (Base Line) nodes p = Some [y]).
Proof. exact line_inverse_ok. Qed.
Print Assumptions C29_line.

(** So is that of a triangle or tetrahedron. *)
Theorem C29_simplex : forall s nodes x q, s = Triangle \/ s = Tetrahedron -> are_nodes_of (Base s) nodes ->
  (exists d, jacobian_determinant (Base s) nodes (zero_point (dimension s)) d /\ d <> 0) ->
  length x = dimension s -> length q = dimension s ->
  (exists y, phys_transform (Base s) nodes x = Some y /\ simplex_inverse (dimension s) nodes y = Some x) /\
  (exists p, simplex_inverse (dimension s) nodes q = Some p /\ phys_transform (Base s) nodes p = Some q).
Proof. exact simplex_inverse_ok. Qed.
Print Assumptions C29_simplex.

(** A point returned by Newton's iteration satisfies the stopping criterion, unless 100 steps were
    made without success: that point is returned too. *)
Theorem C29_newton_partial : forall fuel g nodes q p, uses_newton g -> are_nodes_of g nodes ->
  length q = dimension (base g) -> phys_inverse fuel g nodes q = Some (At p) ->
  close_enough g nodes p q \/
  (newton_iterate (phys_transform g nodes) (phys_jacobian g nodes) q (zero_point (dimension (base g))) 100 p /\
   ~ close_enough g nodes p q).
Proof. exact newton_result. Qed.
Print Assumptions C29_newton_partial.

(** NaN is returned only if the iteration did succeed, in exactly 100 steps. *)
Theorem C29_newton_nan_partial : forall fuel g nodes q, uses_newton g -> are_nodes_of g nodes ->
  length q = dimension (base g) -> phys_inverse fuel g nodes q = Some NotANumber ->
  exists p, newton_iterate (phys_transform g nodes) (phys_jacobian g nodes) q (zero_point (dimension (base g))) 100 p /\
   close_enough g nodes p q.
Proof. exact newton_nan. Qed.
Print Assumptions C29_newton_nan_partial.

(** If the element is an affine image of the reference element, the inverse is found. *)
Theorem C29_newton_affine : forall fuel g A b x, uses_newton g -> invertible A (dimension (base g)) ->
  length x = dimension (base g) ->
  let d := dimension (base g) in let nodes := map (affine A b d) (geometry_points g) in
  exists p, phys_inverse fuel g nodes (affine A b d x) = Some (At p) /\
    close_enough g nodes p (affine A b d x) /\ (p = x \/ p = zero_point d).
Proof. exact newton_affine. Qed.
Print Assumptions C29_newton_affine.

(** The same for quadratic elements; two steps are enough. *)
Theorem C29_quadratic_affine : forall fuel g A b x,
  g = Curvilinear Triangle 2 \/ g = Curvilinear Tetrahedron 2 -> invertible A (dimension (base g)) ->
  length x = dimension (base g) ->
  let d := dimension (base g) in let nodes := map (affine A b d) (geometry_points g) in
  phys_inverse (S (S fuel)) g nodes (affine A b d x) = Some (At x).
Proof. exact quadratic_affine. Qed.
Print Assumptions C29_quadratic_affine.

(** A convex quadrilateral and a point outside of it that is located in its centre. *)
Theorem C29_newton_refuted : forall fuel,
  let nodes := [[0; 1]; [2; 3]; [-2; 3]; [0; 9]] in let q := [0; -12] in let p := [0; 0] in
  are_nodes_of (Base Square) nodes /\
  (forall x, internal Square x -> exists d, jacobian_determinant (Base Square) nodes x d /\ 0 < d) /\
  (forall x, internal Square x -> phys_transform (Base Square) nodes x <> Some q) /\
  phys_inverse fuel (Base Square) nodes q = Some (At p) /\ internal Square p /\
  exists c, phys_transform (Base Square) nodes p = Some c /\ distance2 q c = 256.
Proof. exact wrong_location. Qed.
Print Assumptions C29_newton_refuted.

(** A valid quadratic triangle and a point for which the iteration never ends. *)
Theorem C29_quadratic_refuted : exists nodes q,
  are_nodes_of (Curvilinear Triangle 2) nodes /\ length q = 2%nat /\
  (forall x, internal Triangle x -> exists d, jacobian_determinant (Curvilinear Triangle 2) nodes x d /\ 0 < d) /\
  forall fuel, phys_inverse fuel (Curvilinear Triangle 2) nodes q = None.
Proof.
  exists bent, [-3; 333/1000]. destruct no_end as (A & B & C).
  split; [exact A|]. split; [reflexivity|]. split; [exact B|exact C].
Qed.
Print Assumptions C29_quadratic_refuted.

Example C29_nonvacuous :
  are_nodes_of (Base Line) [[2]; [5]] /\ nth_error [[2]; [5]] 0 <> nth_error [[2]; [5]] 1 /\
  uses_newton (Base Cube) /\ invertible (fun i j => if Nat.eqb i j then 2 else 0) 3 /\
  are_nodes_of (Base Triangle) [[0; 0]; [2; 0]; [1; 3]] /\
  jacobian_determinant (Base Triangle) [[0; 0]; [2; 0]; [1; 3]] (zero_point 2) 6.
Proof.
  split; [split; [reflexivity|repeat constructor]|]. split; [cbn; intros E; injection E as E; lra|].
  split; [exact I|]. split; [unfold invertible; cbn; lra|].
  split; [split; [reflexivity|repeat constructor]|].
  eexists. exists (fun i j => entry (Mat 2 2 [2 - 0; 0 - 0; 1 - 0; 3 - 0]) i j).
  split; [cbn; unfold columns; cbn; reflexivity|]. split.
  - split; [reflexivity|split; [reflexivity|split; [reflexivity|]]].
    intros i j. cbn [base dimension]. enum 2%nat i; enum 2%nat j; reflexivity.
  - cbn. ring.
Qed.
