(** C52, C53: the mesh of the preprocessor. *)
From Coq Require Import List Arith Bool Lia.
From Verif Require Import PreMesh_model PreShapes_model PreMesh_spec PreMesh_proofs PreMeshShare_proofs PreMeshMore_proofs MergePlan_model MergePlan_spec MergePlan_proofs MergePlanMore_proofs.
Import ListNotations.

(** After any calls, every entity lists exactly the elements that have it as a part, each once, every part of an
    element exists, and the coordinate of a node of an element belongs to that node. *)
Theorem C52_consistent : forall dimension ops m, 1 <= dimension -> history ops (empty dimension) = Some m -> consistent m.
Proof. exact all_consistent. Qed.
Print Assumptions C52_consistent.
Example C52_consistent_nonvacuous : exists m,
  history (two_triangles ++ [Merge 0 0 3; SetEntity 1 1 2 0; RemoveUnused]) (empty 2) = Some m /\ part_of m 0 1 2 = Some 0 /\ part_of m 1 0 2 = part_of m 1 1 0.
Proof. eexists. split; [vm_compute; reflexivity|split; reflexivity]. Qed.

(** Merging replaces the source by the target on all elements and changes nothing else. *)
Theorem C52_merge : forall m d t s, consistent m -> links_of m d t <> None -> links_of m d s <> None -> s <> t ->
  exists m', merge m d t s = Some m' /\ consistent m' /\ same_elements m m' /\
    (forall d' el l, part_of m' d' el l = match part_of m d' el l with Some x => Some (if (d' =? d) && (x =? s) then t else x) | None => None end) /\
    links_of m' d s = Some [] /\
    forall c, nth_error (coordinates m') c = nth_error (coordinates m) c \/
      (d = 0 /\ nth_error (coordinates m) c = Some (Some s) /\ nth_error (coordinates m') c = Some (Some t)).
Proof.
  intros m d t s C Ht Hs N. destruct (merge_ok m d t s C Ht Hs N) as (m' & E & M). exists m'. destruct M.
  split; [exact E|]. split; [assumption|]. split; [split; assumption|]. split; [|split; assumption].
  intros d' el l. rewrite mi_part. reflexivity.
Qed.
Print Assumptions C52_merge.
Example C52_merge_nonvacuous : exists m, history two_triangles (empty 2) = Some m /\ links_of m 1 0 = Some [(0, 0)] /\ links_of m 1 2 = Some [(0, 2); (1, 0)].
Proof. eexists. split; [vm_compute; reflexivity|split; reflexivity]. Qed.

(** Executing disjoint groups of existing entities succeeds; afterwards two parts are the same entity if and only if
    they were or were in one group. *)
Theorem C52_execute : forall m merges, consistent m -> length merges = length (meshEntities m) ->
  (forall d gs, nth_error merges d = Some gs -> NoDup (List.concat gs) /\ forall x, In x (List.concat gs) -> exists en, links_of m d x = Some en) ->
  exists m', executeMerge merges m = Some m' /\ consistent m' /\ same_elements m m' /\
    forall d gs el l x el' l' x', nth_error merges d = Some gs -> part_of m d el l = Some x -> part_of m d el' l' = Some x' ->
      (part_of m' d el l = part_of m' d el' l' <-> x = x' \/ exists g, In g gs /\ In x g /\ In x' g).
Proof.
  intros m merges C HL HX. destruct (execute_ok m merges C (conj HL HX)) as (m' & E & [A1 A2 A3 A4 A5]). exists m'.
  split; [exact E|]. split; [exact A1|]. split; [split; assumption|].
  intros d gs el l x el' l' x' Hg Hx Hx'. rewrite (A2 d el l gs Hg), (A2 d el' l' gs Hg), Hx, Hx'. cbn [option_map].
  rewrite <- (collapse_same gs x x' (proj1 (HX d gs Hg))). split; congruence.
Qed.
Print Assumptions C52_execute.
Example C52_execute_nonvacuous : exists m, history two_triangles (empty 2) = Some m /\ links_of m 0 0 <> None /\ links_of m 0 3 <> None /\
  executeMerge [[[0; 3]; [1; 2]]; [[0; 4]]] m <> None.
Proof. eexists. split; [vm_compute; reflexivity|]. split; [discriminate|]. split; [discriminate|]. vm_compute. discriminate. Qed.

(** Removing unused entities renumbers the used ones without identifying any, leaves no unused ones, and moves the
    coordinates with their nodes. *)
Theorem C52_remove_unused : forall m m', consistent m -> removeUnusedEntities m = Some m' ->
  consistent m' /\ same_elements m m' /\ (forall d y, d < length (meshEntities m) -> links_of m' d y <> Some []) /\
  exists f : nat -> nat -> nat,
    (forall d el l, part_of m' d el l = match part_of m d el l with Some x => Some (f d x) | None => None end) /\
    (forall d x y el l el' l', part_of m d el l = Some x -> part_of m d el' l' = Some y -> f d x = f d y -> x = y) /\
    (forall c n en, nth_error (coordinates m) c = Some (Some n) -> links_of m 0 n = Some en -> en <> [] -> nth_error (coordinates m') c = Some (Some (f 0 n))).
Proof.
  intros m m' C H. destruct (removed_ok _ m m' C H) as (f & [A1 A2 A3 A4 A5 A6 A7]). split; [exact A1|]. split; [exact A4|]. split; [exact A5|]. exists f. split; [exact A3|]. split; [exact A2|exact A7].
Qed.
Print Assumptions C52_remove_unused.
Example C52_remove_unused_nonvacuous : exists m m', history (two_triangles ++ [Merge 0 0 2]) (empty 2) = Some m /\ links_of m 0 2 = Some [] /\
  removeUnusedEntities m = Some m' /\ part_of m 0 1 2 = Some 3 /\ part_of m' 0 1 2 = Some 2.
Proof. eexists. eexists. split; [vm_compute; reflexivity|]. split; [reflexivity|]. split; [vm_compute; reflexivity|split; reflexivity]. Qed.

(** It succeeds when all coordinates belong to existing nodes ... *)
Theorem C52_remove_unused_returns : forall dimension ops m, 1 <= dimension -> history ops (empty dimension) = Some m ->
  (forall c o, nth_error (coordinates m) c = Some o -> exists n, o = Some n /\ links_of m 0 n <> None) -> exists m', removeUnusedEntities m = Some m'.
Proof.
  intros dimension ops m Hd H P. apply (remove_returns _ m); [exact (all_consistent _ _ _ Hd H)|exact (all_sized _ _ _ Hd H)|apply le_n|exact P].
Qed.
Print Assumptions C52_remove_unused_returns.
Example C52_remove_unused_returns_nonvacuous : exists m, history (two_triangles ++ [Merge 0 0 2]) (empty 2) = Some m /\
  forall c o, nth_error (coordinates m) c = Some o -> exists n, o = Some n /\ links_of m 0 n <> None.
Proof.
  eexists. split; [vm_compute; reflexivity|]. intros [|[|[|[|c]]]] o H; cbn in H; try (injection H as <-; eexists; split; [reflexivity|discriminate]). destruct c; discriminate.
Qed.

(** ... but it leaves coordinates without a node, on which a later call fails: it uses the node number -1 as an index. *)
Theorem C52_remove_again_refuted : exists m m', consistent m /\ removeUnusedEntities m = Some m' /\
  history [AddNode; AddCoordinate 0] (empty 2) = Some m /\ history [AddNode; RemoveUnused] m' = None.
Proof.
  eexists. eexists. split; [eapply (all_consistent 2 [AddNode; AddCoordinate 0]); [lia|vm_compute; reflexivity]|].
  split; [vm_compute; reflexivity|]. split; vm_compute; reflexivity.
Qed.
Print Assumptions C52_remove_again_refuted.

(** In a mesh to which only fitting elements were added, two parts are the same entity if and only if they have the
    same nodes. *)
Theorem C53_sharing : forall dimension m d el l x el' l' x' ns ns', 1 <= dimension -> built dimension m -> 1 <= d ->
  part_of m d el l = Some x -> part_of m d el' l' = Some x' -> nodes_of m d el l ns -> nodes_of m d el' l' ns' -> (x = x' <-> same_nodes ns ns').
Proof. exact built_sharing. Qed.
Print Assumptions C53_sharing.
Example C53_sharing_nonvacuous : exists m, built 2 m /\ part_of m 1 0 2 = Some 2 /\ part_of m 1 1 0 = Some 2 /\ part_of m 1 1 1 = Some 3 /\ nodes_of m 1 0 2 [1; 2].
Proof.
  eexists. split; [eapply (buildable_built 2 two_triangles (empty 2)); [constructor|vm_compute; reflexivity|vm_compute; reflexivity]|].
  split; [reflexivity|]. split; [reflexivity|]. split; [reflexivity|]. exists triangle, [1; 2]. split; [reflexivity|]. split; [reflexivity|]. repeat constructor.
Qed.

(** Adding a fitting element succeeds (no "mesh data is not consistent"), gives it its coordinates and shape, and
    leaves the other elements as they are. *)
Theorem C53_adding : forall dimension m coords, 1 <= dimension -> built dimension m -> fits m coords ->
  exists m', perform (AddElement coords) m = Some m' /\ built dimension m' /\ exists s, findGeometry dimension (length coords) = Some s /\ added m coords s m'.
Proof. exact built_fits. Qed.
Print Assumptions C53_adding.
Example C53_adding_nonvacuous : exists m, built 2 m /\ length (elementsList m) = 1 /\ fits m [1; 2; 3].
Proof.
  eexists. split; [eapply (buildable_built 2 (firstn 9 two_triangles) (empty 2)); [constructor|vm_compute; reflexivity|vm_compute; reflexivity]|].
  split; [reflexivity|]. apply fitsb_sound. vm_compute. reflexivity.
Qed.

(** Elements get all parts of their shape, with different nodes. *)
Theorem C53_whole : forall dimension m el s d, 1 <= dimension -> built dimension m -> shape_of m el = Some s -> 1 <= d < dimension ->
  exists ps, nth_error s d = Some ps /\ ps <> [] /\ (forall l, part_of m d el l <> None <-> l < length ps) /\
    forall l nodes, nth_error ps l = Some nodes -> nodes <> [] /\ NoDup nodes /\ exists ns, nodes_of m d el l ns /\ NoDup ns.
Proof. exact built_whole. Qed.
Print Assumptions C53_whole.
Example C53_whole_nonvacuous : exists m, built 2 m /\ shape_of m 1 = Some triangle.
Proof.
  eexists. split; [eapply (buildable_built 2 two_triangles (empty 2)); [constructor|vm_compute; reflexivity|vm_compute; reflexivity]|reflexivity].
Qed.
