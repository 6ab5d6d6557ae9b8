(** Vocabulary for statements about the preprocessor's mesh. *)
From Coq Require Import List Arith.
From Verif Require Import PreMesh_model PreShapes_model.
Import ListNotations.

(** the entity that is the [l]-th part of dimension [d] of element [el] *)
Definition part_of (m : mesh) (d el l : nat) : option nat :=
  e <- nth_error (elementsList m) el; ls <- nth_error (incidenceLists e) d; nth_error ls l.
(** the coordinate of the [l]-th node of element [el] *)
Definition coord_of (m : mesh) (el l : nat) : option nat :=
  e <- nth_error (elementsList m) el; nth_error (globalCoordinateIndices e) l.
(** the shape of element [el] *)
Definition shape_of (m : mesh) (el : nat) : option shape := option_map referenceGeometry (nth_error (elementsList m) el).
(** the elements that entity [x] of dimension [d] lists, with the local index of the entity on the element *)
Definition links_of (m : mesh) (d x : nat) : option (list (nat * nat)) := es <- nth_error (meshEntities m) d; nth_error es x.

(** Elements and entities know each other, and coordinates belong to the nodes that use them. *)
Record consistent (m : mesh) : Prop := {
  c_links : forall d x en, links_of m d x = Some en ->
    NoDup en /\ forall el l, In (el, l) en <-> part_of m d el l = Some x;
  c_exists : forall d el l x, part_of m d el l = Some x -> exists en, links_of m d x = Some en;
  c_coords : forall el l,
    match part_of m 0 el l, coord_of m el l with
    | Some x, Some c => nth_error (coordinates m) c = Some (Some x)
    | None, None => True
    | _, _ => False
    end }.

(** The calls that change a mesh. *)
Inductive op :=
| AddNode
| AddCoordinate (node : nat)
| AddElement (coords : list nat)
| SetNode (el l node coord : nat)
| SetEntity (d el l x : nat)
| Merge (d target source : nat)
| RemoveUnused.
Definition perform (o : op) (m : mesh) : option mesh :=
  match o with
  | AddNode => option_map fst (addNode m)
  | AddCoordinate node => Some (fst (addNodeCoordinate m node))
  | AddElement coords => s <- findGeometry (length (meshEntities m)) (length coords); addElement m s coords
  | SetNode el l node coord => setNode m el l node coord
  | SetEntity d el l x => if d =? 0 then None else setEntity m d el l x (* only for d > 0, Element.h:106 *)
  | Merge d target source => merge m d target source
  | RemoveUnused => removeUnusedEntities m
  end.
Fixpoint history (ops : list op) (m : mesh) : option mesh :=
  match ops with [] => Some m | o :: r => m' <- perform o m; history r m' end.
(** a mesh without nodes *)
Definition empty (dimension : nat) : mesh := Mesh [] (repeat [] dimension) [].

(** [ns] are the nodes of the [l]-th part of dimension [d] of element [el] *)
Definition nodes_of (m : mesh) (d el l : nat) (ns : list nat) : Prop :=
  exists s locals, shape_of m el = Some s /\ part s d l = Some locals /\ Forall2 (fun k n => part_of m 0 el k = Some n) locals ns.
Definition same_nodes (a b : list nat) : Prop := forall n, In n a <-> In n b.

(** An element with these coordinates can be added: its nodes exist and differ, and no part of it lies strictly
    within a part of the same dimension of an earlier element. *)
Definition fits (m : mesh) (coords : list nat) : Prop :=
  exists s ns, findGeometry (length (meshEntities m)) (length coords) = Some s /\
    Forall2 (fun c n => nth_error (coordinates m) c = Some (Some n) /\ links_of m 0 n <> None) coords ns /\ NoDup ns /\
    forall d i locals mine el l theirs, 1 <= d -> part s d i = Some locals -> Forall2 (fun k n => nth_error ns k = Some n) locals mine ->
      nodes_of m d el l theirs -> incl mine theirs -> incl theirs mine.
(** Meshes made by adding nodes, coordinates of nodes and elements that fit *)
Inductive built (dimension : nat) : mesh -> Prop :=
| built_empty : built dimension (empty dimension)
| built_node m m' : built dimension m -> perform AddNode m = Some m' -> built dimension m'
| built_coordinate m m' n : built dimension m -> links_of m 0 n <> None -> perform (AddCoordinate n) m = Some m' -> built dimension m'
| built_element m m' coords : built dimension m -> fits m coords -> perform (AddElement coords) m = Some m' -> built dimension m'.

(** Elements keep their coordinates and shapes. *)
Definition same_elements (m m' : mesh) : Prop :=
  (forall el l, coord_of m' el l = coord_of m el l) /\ (forall el, shape_of m' el = shape_of m el).

(** What adding an element does to the rest of the mesh *)
Record added (m : mesh) (coords : list nat) (s : shape) (m' : mesh) : Prop := {
  a_shape : shape_of m' (length (elementsList m)) = Some s;
  a_coords : forall l, coord_of m' (length (elementsList m)) l = nth_error coords l;
  a_elements : length (elementsList m') = S (length (elementsList m));
  a_parts : forall d el l, el <> length (elementsList m) -> part_of m' d el l = part_of m d el l;
  a_coord : forall el l, el <> length (elementsList m) -> coord_of m' el l = coord_of m el l;
  a_shapes : forall el, el <> length (elementsList m) -> shape_of m' el = shape_of m el;
  a_coordinates : coordinates m' = coordinates m;
  a_exist : forall n, links_of m 0 n <> None -> links_of m' 0 n <> None }.
