(** C25 and C46: normal vectors and diameters of faces. *)
From Coq Require Import List Arith Bool Lia Reals Lra.
From Verif Require Import Matrix_model Matrix_spec Determinant_spec RefGeometry_model RefGeometry_spec RefGeometry_proofs
  Curvilinear_model PhysMapping_model PhysMapping_spec PhysInverse_proofs FaceGeometry_model FaceGeometry_spec FaceGeometry_proofs.
Import ListNotations.
Local Open Scope R_scope.

(** For every type of element, every face and every point x of that face where the Jacobian e of the
    element is not singular: moving the reference point from x towards any point y of the element never
    moves the physical point to the side of the normal vector, and moves it at a right
    angle to the normal vector exactly if y is on the same face. *)
Theorem C25_outward : forall g nodes f m fs ns p x J e, the_face (base g) f m fs ns ->
  internal fs p -> transform m p = Some x ->
  phys_jacobian g nodes x = Some J -> is_matrix J (dimension (base g)) (dimension (base g)) e ->
  leibniz 0 1 Rplus Rmult Ropp (dimension (base g)) e <> 0 ->
  exists n, getNormalVector g nodes f p = Some n /\ length n = dimension (base g) /\
  forall y, internal (base g) y ->
    inner_product n (velocity e (dimension (base g)) x y) <= 0 /\
    (inner_product n (velocity e (dimension (base g)) x y) = 0 <-> on_face (base g) f y).
Proof. exact normal_outward. Qed.
Print Assumptions C25_outward.

(** For an affine image of the reference element: the whole physical element is behind the face,
    and only the face itself is in the plane at right angles to the normal vector. *)
Theorem C25_affine : forall g A b f m fs ns p x, has_mapping g -> g <> Base Pyramid -> invertible A (dimension (base g)) ->
  the_face (base g) f m fs ns -> internal fs p -> transform m p = Some x ->
  let nodes := map (affine A b (dimension (base g))) (geometry_points g) in
  exists n X, getNormalVector g nodes f p = Some n /\ phys_transform g nodes x = Some X /\
  forall y, internal (base g) y -> exists Y, phys_transform g nodes y = Some Y /\
    inner_product n (difference Y X) <= 0 /\ (inner_product n (difference Y X) = 0 <-> on_face (base g) f y).
Proof. exact normal_affine. Qed.
Print Assumptions C25_affine.

(** The length of the normal vector is the ratio of physical and reference area: its square is the
    Gram determinant of the derivatives of the map from the reference face to physical space. *)
Theorem C25_length : forall g nodes f m fs ns p x J e j1 t, the_face (base g) f m fs ns ->
  internal fs p -> transform m p = Some x ->
  phys_jacobian g nodes x = Some J -> is_matrix J (dimension (base g)) (dimension (base g)) e ->
  calcJacobian m p = Some j1 -> is_matrix j1 (dimension (base g)) (dimension fs) t ->
  exists n, getNormalVector g nodes f p = Some n /\
  inner_product n n = gram_determinant (fun i k => sum (map (fun l => e i l * t l k) (seq 0 (dimension (base g)))))
                        (dimension (base g)) (dimension fs).
Proof. exact normal_length. Qed.
Print Assumptions C25_length.

(** a mirrored triangle (negative Jacobian) with corners (1,0), (0,0), (1,2), and its face
    between the last two, along (1,2) *)
Example C25_nonvacuous :
  the_face Triangle 2 LineToTriangle2 Line [1;2]%nat /\ internal Line [1/2] /\
  invertible mirrored 2 /\ leibniz 0 1 Rplus Rmult Ropp 2 mirrored = -2 /\
  (exists x, transform LineToTriangle2 [1/2] = Some x) /\
  exists a b, getNormalVector (Base Triangle) (map (affine mirrored (fun i => if Nat.eqb i 0 then 1 else 0) 2) (points Triangle)) 2 [1/2] = Some [a; b]
    /\ a = -1 /\ b = 1/2.
Proof.
  split; [repeat split|]. split.
  { unfold internal. cbn. apply f_equal. repeat (apply andb_true_iff; split); apply leb_true; lra. }
  split; [unfold invertible; cbn; lra|]. split; [cbn; lra|]. split; [eexists; reflexivity|].
  do 2 eexists. cbn -[Rlt_dec]. split; [reflexivity|].
  destruct (Rlt_dec _ _) as [H|H]; [exfalso; cbn in H; lra|]. split; lra.
Qed.

(** The diameter of a face is the largest distance between two of its nodes. *)
Theorem C46_diameter : forall E f ns, are_nodes_of (geom E) (coordinates E) -> codim1_indices (geom E) f = Some ns ->
  (2 <= dimension (base (geom E)) <= 4)%nat -> (1 < length ns)%nat -> (forall a, In a ns -> (a < length (coordinates E))%nat) ->
  exists d, computeDiameter E f = Some d /\
  (forall a b, In a ns -> In b ns -> sqrt (distance2 (nth a (coordinates E) []) (nth b (coordinates E) [])) <= d) /\
  exists a b, In a ns /\ In b ns /\ d = sqrt (distance2 (nth a (coordinates E) []) (nth b (coordinates E) [])).
Proof. exact diameter_ok. Qed.
Print Assumptions C46_diameter.

(** In one dimension there is nothing to measure. *)
Theorem C46_diameter_1d : forall E f, dimension (base (geom E)) = 1%nat -> computeDiameter E f = Some 1.
Proof. exact diameter_1d. Qed.
Print Assumptions C46_diameter_1d.

Example C46_nonvacuous :
  let E := Element (Base Cube) (points Cube) [0;1;2;3;4;5;6;7]%nat in
  are_nodes_of (geom E) (coordinates E) /\ codim1_indices (geom E) 1 = Some [0;1;4;5]%nat /\
  (forall a, In a [0;1;4;5]%nat -> (a < length (coordinates E))%nat).
Proof.
  split; [split; [reflexivity|repeat constructor]|]. split; [reflexivity|]. intros a H. cbn in H |- *. lia.
Qed.
