(** What a process must have after the mesh file was written and read. *)
From Coq Require Import String Ascii List Arith Permutation.
From Verif Require Import PreMesh_model PreMesh_spec MeshFile_model.
From Verif Require Submesh_model.
Import ListNotations.

Section Spec.
Context {D : Type} (geometry : nat -> option (list (list nat) * list (nat * nat))) (i : input D).

Definition owner (el : nat) : option nat := nth_error (partitions i) el.
(** elements [a] and [b] have a node in common *)
Definition touch (a b : nat) : Prop := exists v j k, part_of (theMesh i) 0 a j = Some v /\ part_of (theMesh i) 0 b k = Some v.
(** process [p] must know element [el]: it is its own, or a neighbour of one of its own *)
Definition seen (p el : nat) : Prop := exists mine, owner mine = Some p /\ (el = mine \/ touch el mine).
(** the coordinates of the [j]-th node of element [el] *)
Definition value_of (el j : nat) : option (list D) := c <- coord_of (theMesh i) el j; nth_error (values i) c.

(** A mesh of dimension [dim] that the preprocessor can hand over to [n] processes: it is consistent (C52), everything has
    a value, no element has the same node twice, faces have one or two sides, and the kernel has reference geometries
    with as many faces and edges as the elements have. *)
Record ready (dim n : nat) : Prop := {
  r_consistent : consistent (theMesh i);
  r_dim : length (meshEntities (theMesh i)) = dim;
  r_values : forall el j c, coord_of (theMesh i) el j = Some c -> exists v, nth_error (values i) c = Some v /\ length v = dim;
  r_partitions : length (partitions i) = length (elementsList (theMesh i)) /\ forall p, In p (partitions i) -> p < n;
  r_zones : length (zoneIds i) = length (elementsList (theMesh i)) /\ forall z, In z (zoneIds i) -> z < length (zoneNames i);
  r_distinct : forall el j k v, part_of (theMesh i) 0 el j = Some v -> part_of (theMesh i) 0 el k = Some v -> j = k;
  r_sides : forall x links, links_of (theMesh i) (dim - 1) x = Some links -> 1 <= length links <= 2;
  r_geometry : forall el e, nth_error (elementsList (theMesh i)) el = Some e ->
    length (incidenceLists e) = dim /\ exists nodes faces edges, nth_error (incidenceLists e) 0 = Some nodes /\ nodes <> [] /\ geometry (length nodes) = Some (faces, edges) /\
      (forall l, part_of (theMesh i) (dim - 1) el l <> None <-> l < length faces) /\
      (dim = 3 -> forall l, part_of (theMesh i) 1 el l <> None <-> l < length edges) /\
      (forall f v, In f faces -> In v f -> v < length nodes) /\ (forall a b, In (a, b) edges -> a < length nodes /\ b < length nodes) }.

(** the nodes of a face of an element and their coordinates, in the order of the kernel *)
Definition face_points (el l : nat) : option (list (option nat * option (list D))) :=
  e <- nth_error (elementsList (theMesh i)) el;
  nodes <- nth_error (incidenceLists e) 0;
  '(faces, _) <- geometry (length nodes);
  f <- nth_error faces l;
  Some (map (fun j => (part_of (theMesh i) 0 el j, value_of el j)) f).
(** the two sides of a face are at the same place *)
Definition same_place (a b : nat * nat) : Prop := exists P Q, face_points (fst a) (snd a) = Some P /\ face_points (fst b) (snd b) = Some Q /\ Permutation P Q.
(** the nodes of an edge of an element *)
Definition edge_nodes (el l : nat) : option (nat * nat) :=
  e <- nth_error (elementsList (theMesh i)) el;
  nodes <- nth_error (incidenceLists e) 0;
  '(_, edges) <- geometry (length nodes);
  '(a, b) <- nth_error edges l;
  x <- part_of (theMesh i) 0 el a; y <- part_of (theMesh i) 0 el b; Some (x, y).

(** The sides of a face on process [p], where the element [el] has the id [e0 + el]: all sides that the process knows. *)
Inductive sides (p e0 : nat) (links : list (nat * nat)) (f : face) : Prop :=
| sides_wall a l : links = [(a, l)] -> f_left f = (e0 + a, l) -> f_right f = None -> f_type f = WALL_BC -> sides p e0 links f
| sides_first a l b l' : links = [(a, l); (b, l')] -> seen p a -> ~ seen p b -> f_left f = (e0 + a, l) -> f_right f = None -> f_type f = PARTIAL_FACE -> sides p e0 links f
| sides_second a l b l' : links = [(a, l); (b, l')] -> ~ seen p a -> seen p b -> f_left f = (e0 + b, l') -> f_right f = None -> f_type f = PARTIAL_FACE -> sides p e0 links f
| sides_both a l b l' : links = [(a, l); (b, l')] -> seen p a -> seen p b -> f_left f = (e0 + a, l) -> f_right f = Some (e0 + b, l') ->
    f_type f <> WALL_BC -> f_type f <> PARTIAL_FACE -> sides p e0 links f.

(** [L] is what process [p] must have: the elements it must know with everything on their boundaries, and nothing else.
    The ids are those of the preprocessor, from [n0], [e0], [f0] and [g0] on. *)
Record copy (dim p n0 e0 f0 g0 : nat) (L : localMesh (D := D)) : Prop := {
  k_elements : NoDup (map fst (l_elements L)) /\ forall id, In id (map fst (l_elements L)) <-> exists el, id = e0 + el /\ seen p el;
  k_element : forall el x, get (l_elements L) (e0 + el) = Some x ->
    owner el = Some (e_owner x) /\ e_owning x = (e_owner x =? p) /\
    (exists z, nth_error (zoneIds i) el = Some z /\ nth_error (zoneNames i) z = Some (e_zone x)) /\
    forall j, (c <- nth_error (e_coords x) j; nth_error (l_coords L) c) = value_of el j;
  k_nodes : NoDup (map n_id (l_nodes L)) /\ forall id, In id (map n_id (l_nodes L)) <-> exists v el j, id = n0 + v /\ part_of (theMesh i) 0 el j = Some v /\ seen p el;
  k_node : forall v x, In x (l_nodes L) -> n_id x = n0 + v ->
    NoDup (n_elements x) /\ forall id j, In (id, j) (n_elements x) <-> exists el, id = e0 + el /\ seen p el /\ part_of (theMesh i) 0 el j = Some v;
  k_nodesOf : forall el, seen p el -> exists mine, get (l_elementNodes L) (e0 + el) = Some mine /\
    forall j, (o <- nth_error mine j; k <- o; x <- nth_error (l_nodes L) k; Some (n_id x)) = option_map (fun v => n0 + v) (part_of (theMesh i) 0 el j);
  k_faces : NoDup (map fst (l_faces L)) /\ forall id, In id (map fst (l_faces L)) <-> exists x el l, id = f0 + x /\ part_of (theMesh i) (dim - 1) el l = Some x /\ seen p el;
  k_face : forall x f, get (l_faces L) (f0 + x) = Some f -> exists links, links_of (theMesh i) (dim - 1) x = Some links /\ sides p e0 links f;
  k_facesOf : forall el, seen p el -> exists mine, get (l_elementFaces L) (e0 + el) = Some mine /\
    forall l, nth_error mine l = option_map (fun x => Some (f0 + x)) (part_of (theMesh i) (dim - 1) el l);
  k_edges : NoDup (map fst (l_edges L)) /\ forall id, In id (map fst (l_edges L)) <-> dim = 3 /\ exists x el l, id = g0 + x /\ part_of (theMesh i) 1 el l = Some x /\ seen p el;
  k_edge : forall x g, get (l_edges L) (g0 + x) = Some g ->
    NoDup (g_elements g) /\ (forall id l, In (id, l) (g_elements g) <-> exists el, id = e0 + el /\ seen p el /\ part_of (theMesh i) 1 el l = Some x) /\
    Forall2 (fun '(id, l) o => exists el a b, id = e0 + el /\ edge_nodes el l = Some (a, b) /\ (a < b -> o = 0) /\ (b < a -> o = 1)) (g_elements g) (g_orientation g);
  k_edgesOf : dim = 3 -> forall el, seen p el -> exists mine, get (l_elementEdges L) (e0 + el) = Some mine /\
    forall l, nth_error mine l = option_map (fun x => Some (g0 + x)) (part_of (theMesh i) 1 el l) }.

(** The type of a face with two sides of which one belongs to the process: inside, at the boundary of the domain of the
    process, and in both cases periodic or not. *)
Definition type_ok (p e0 : nat) (f : face) : Prop := forall a l b l', f_left f = (e0 + a, l) -> f_right f = Some (e0 + b, l') ->
  (owner a = Some p \/ owner b = Some p) ->
  (f_type f = INTERNAL <-> owner a = owner b /\ same_place (a, l) (b, l')) /\
  (f_type f = PERIODIC_BC <-> owner a = owner b /\ ~ same_place (a, l) (b, l')) /\
  (f_type f = SUBDOMAIN_BOUNDARY <-> owner a <> owner b /\ same_place (a, l) (b, l')) /\
  (f_type f = PERIODIC_SUBDOMAIN_BC <-> owner a <> owner b /\ ~ same_place (a, l) (b, l')).

(** The partitions and shadow partitions of the elements in the file: an element is in the shadow of the other processes that must know it. *)
Definition shadow_lines (lines : list Submesh_model.line) : Prop :=
  length lines = length (elementsList (theMesh i)) /\
  forall el x, nth_error lines el = Some x -> owner el = Some (Submesh_model.partition x) /\
    forall q, In q (Submesh_model.shadowPartitions x) <-> seen q el /\ owner el <> Some q.
End Spec.
