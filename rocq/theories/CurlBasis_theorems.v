(** C55: curl conforming basis functions. *)
From Coq Require Import List Arith Bool ZArith Reals Lra Lia.
From Verif Require Import RefGeometry_model RefGeometry_spec BasisFunctions_model BasisFunctions_spec BasisSets_model Independence_spec
  CurlBasis_model CurlBasis_spec CurlBasis_proofs CurlTraces_proofs CurlSizes_proofs CurlIndependence_proofs CurlAinsworth_proofs CurlFree_proofs CurlPlane_proofs CurlDegree_proofs.
Import ListNotations.
Local Open Scope R_scope.

(** The curl that is returned is the curl of the values that are returned. *)
Theorem C55_curl : forall f p v c, curl_eval f p = Some v -> evalCurl f p = Some c -> is_curl (curl_eval f) p c.
Proof. exact curls. Qed.
Print Assumptions C55_curl.
Example C55_curl_nonvacuous : exists v c, curl_eval (EdgeNedelec 1 0 1 2) [1/2; 1/4; 1/8] = Some v /\ evalCurl (EdgeNedelec 1 0 1 2) [1/2; 1/4; 1/8] = Some c /\
  c <> [0; 0; 0].
Proof.
  destruct (curl_defined_3D (EdgeNedelec 1 0 1 2) (1/2) (1/4) (1/8)) as (v & c & Hv & Hc); [cbn; lia|]. exists v, c. split; [exact Hv|]. split; [exact Hc|].
  cbn in Hc. apply Some_inj in Hc. subst c. intros E. injection E. intros H. exfalso. revert H. lra.
Qed.

(** A function belongs to an edge, a face or the element.  On every part of the boundary that does not contain that edge or
    face, it has no tangential component; so elements that meet in a face only need to agree on the functions of that face. *)
Theorem C55_traces : forall s order l f ns ps, curl_set s order l -> In f l -> map (nth_error (points s)) ns = map Some ps ->
  ~ incl (corners_of f) ns -> no_tangential (curl_eval f) ps.
Proof.
  intros s order l f ns ps Hs Hf Hps Hn. destruct s; try contradiction.
  - destruct Hs as (asserts & Hs). exact (traces_2D f ns ps (nedelec_2D_plane _ _ _ _ Hs Hf) Hps Hn).
  - destruct Hs as [->| ->]; [exact (traces_3D f ns ps (proj1 (in_nedelec order f Hf)) Hps Hn)|exact (traces_3D f ns ps (proj1 (in_ainsworth order f Hf)) Hps Hn)].
Qed.
Print Assumptions C55_traces.
(** the face 0, 1, 2 and a function of the face 0, 1, 3 *)
Example C55_traces_nonvacuous : In (FaceAinsworthCoyle 0 0 2 1) (createDGBasisFunctionSet3DAinsworthCoyle 3) /\
  map (nth_error (points Tetrahedron)) [0; 1; 2]%nat = map Some [[0; 0; 0]; [1; 0; 0]; [0; 1; 0]] /\ ~ incl (corners_of (FaceAinsworthCoyle 0 0 2 1)) [0; 1; 2]%nat.
Proof.
  split; [|split].
  - vm_compute. intuition.
  - reflexivity.
  - intros H. specialize (H 3%nat). cbn in H. lia.
Qed.

(** The sets have as many functions as the polynomial spaces they are made for. *)
Theorem C55_sizes : forall asserts order l, (1 <= order)%nat -> createDGBasisFunctionSet2DNedelec asserts order = Some l ->
  (length l = order * (order + 2) /\
   2 * length (createDGBasisFunctionSet3DNedelec order) = order * (order + 2) * (order + 3) /\
   2 * length (createDGBasisFunctionSet3DAinsworthCoyle order) = (order + 1) * (order + 2) * (order + 3))%nat.
Proof.
  intros asserts order l Ho H. split; [exact (nedelec_2D_size asserts order l H)|]. split; [apply nedelec_size|apply ainsworth_size; exact Ho].
Qed.
Print Assumptions C55_sizes.

(** The functions are polynomials of degree at most the order. *)
Theorem C55_degree : forall s order l f, curl_set s order l -> In f l -> (1 <= order)%nat -> degree_at_most order (curl_eval f) (dimension s).
Proof.
  intros s order l f Hs Hf Ho. destruct s; try contradiction.
  - destruct Hs as (asserts & Hs). exact (nedelec_2D_degree asserts order l f Hs Hf).
  - destruct Hs as [->| ->]; [exact (nedelec_degree order f Hf)|exact (ainsworth_degree order f Ho Hf)].
Qed.
Print Assumptions C55_degree.

(** The constructors succeed, and values exist in all points. *)
Theorem C55_values_exist : forall asserts order, (1 <= order)%nat -> (exists l, createDGBasisFunctionSet2DNedelec asserts order = Some l) /\
  forall s l f p, curl_set s order l -> In f l -> length p = dimension s -> exists v, curl_eval f p = Some v.
Proof.
  intros asserts order Ho. split; [apply nedelec_2D_exists; exact Ho|]. intros s l f p Hs Hf Hp. destruct s; try contradiction; cbn [dimension] in Hp.
  - destruct p as [|x [|y [|]]]; try discriminate. destruct Hs as (b & Hs). exact (nedelec_2D_value b order l f x y Hs Hf).
  - destruct p as [|x [|y [|z [|]]]]; try discriminate.
    assert (proper3 f) as P by (destruct Hs as [->| ->]; [exact (proj1 (in_nedelec order f Hf))|exact (proj1 (in_ainsworth order f Hf))]).
    destruct (curl_defined_3D f x y z P) as (v & _ & E & _). eauto.
Qed.
Print Assumptions C55_values_exist.

(** Curls exist in all points for all sets on tetrahedra and, up to order 6, on triangles. *)
Theorem C55_curls_exist_partial : forall s order l f p, curl_set s order l -> In f l -> length p = dimension s -> (s = Triangle -> order <= 6)%nat ->
  exists c, evalCurl f p = Some c.
Proof.
  intros s order l f p Hs Hf Hp Ho. destruct s; try contradiction; cbn [dimension] in Hp.
  - destruct p as [|x [|y [|]]]; try discriminate. destruct Hs as (b & Hs). exact (nedelec_2D_curl_defined b order l f x y (Ho eq_refl) Hs Hf).
  - destruct p as [|x [|y [|z [|]]]]; try discriminate.
    assert (proper3 f) as P by (destruct Hs as [->| ->]; [exact (proj1 (in_nedelec order f Hf))|exact (proj1 (in_ainsworth order f Hf))]).
    destruct (curl_defined_3D f x y z P) as (_ & c & _ & E). eauto.
Qed.
Print Assumptions C55_curls_exist_partial.
(** From order 7 on, every set on triangles has a function whose curl cannot be computed anywhere. *)
Theorem C55_curls_missing_refuted : forall asserts order l, (7 <= order)%nat -> createDGBasisFunctionSet2DNedelec asserts order = Some l ->
  exists f, In f l /\ forall p, evalCurl f p = None.
Proof. exact nedelec_2D_curl_missing. Qed.
Print Assumptions C55_curls_missing_refuted.

(** Order 0 is not rejected: on triangles the constructor does not come to an end, and on tetrahedra the set of Ainsworth and
    Coyle has six functions although there are three constant vector fields. *)
Theorem C55_order_zero_refuted : forall asserts, createDGBasisFunctionSet2DNedelec asserts 0 = None /\
  length (createDGBasisFunctionSet3DAinsworthCoyle 0) = 6%nat.
Proof. intros asserts. split; reflexivity. Qed.
Print Assumptions C55_order_zero_refuted.

(** No function of a set on tetrahedra, or up to order 7 on triangles, is a combination of the others. *)
Theorem C55_independent_partial : forall s order l, curl_set s order l -> (s = Triangle -> order <= 7)%nat -> curl_independent s l.
Proof.
  intros s order l Hs Ho. destruct s; try contradiction.
  - destruct Hs as (b & Hs). exact (nedelec_2D_independent b order l (Ho eq_refl) Hs).
  - destruct Hs as [->| ->]; [apply nedelec_independent|apply ainsworth_independent].
Qed.
Print Assumptions C55_independent_partial.
(** From order 8 on the functions on triangles are dependent. *)
Theorem C55_independent_refuted : forall asserts order l, (8 <= order)%nat -> createDGBasisFunctionSet2DNedelec asserts order = Some l ->
  ~ curl_independent Triangle l.
Proof. exact nedelec_2D_dependent. Qed.
Print Assumptions C55_independent_refuted.
Example C55_independent_nonvacuous : (exists l, curl_set Triangle 3 l /\ length l = 15%nat) /\
  (exists l, curl_set Tetrahedron 3 l /\ length l = 45%nat) /\ (exists l, curl_set Tetrahedron 3 l /\ length l = 60%nat) /\ 
  (exists l, createDGBasisFunctionSet2DNedelec true 8 = Some l).
Proof.
  split; [|split; [|split]].
  - destruct (nedelec_2D_exists true 3 ltac:(lia)) as (l & E). exists l. split; [exists true; exact E|]. rewrite (nedelec_2D_size _ _ _ E). reflexivity.
  - exists (createDGBasisFunctionSet3DNedelec 3). split; [left; reflexivity|reflexivity].
  - exists (createDGBasisFunctionSet3DAinsworthCoyle 3). split; [right; reflexivity|reflexivity].
  - apply nedelec_2D_exists. lia.
Qed.
