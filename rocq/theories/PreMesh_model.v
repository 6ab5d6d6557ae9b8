(** Model of the preprocessor's mesh (applications/Preprocessor/lib/mesh) as far as it concerns connectivity:
    elements, the mesh entities on their boundaries, and which coordinate belongs to which node.
    Left out: the coordinate values, zones, and the copies of the elements as entities of the full dimension
    (Mesh.h:383-387), which only isValid uses.  Ids are [nat].  [None] is an access out of range, a failed
    assert_always, or a loop that does not end. *)
From Coq Require Import List Arith Bool.
From Verif Require Import Loop_model StdMap_model.
Import ListNotations.

Notation "x <- a ; b" := (match a with None => None | Some x => b end) (at level 100, a at next level, right associativity).

(** for (auto& x : l) body *)
Fixpoint for_each {A St} (l : list A) (body : A -> St -> option St) (s : St) : option St :=
  match l with [] => Some s | x :: r => s' <- body x s; for_each r body s' end.
Definition mem (x : nat) (l : list nat) : bool := existsb (Nat.eqb x) l.

(** elementShape.h:171-345 ElementShape: for each dimension below that of the shape, the nodes of its parts *)
Definition shape := list (list (list nat)).
Definition part (s : shape) (d i : nat) : option (list nat) := ps <- nth_error s d; nth_error ps i.
(** elementShape_impl.h:46-51 getNumberOfEntities *)
Definition getNumberOfEntities (s : shape) (d : nat) : option nat := option_map (@length _) (nth_error s d).
(** elementShape.h:235-238 getNodesOfEntity, getAdjacentEntities<d, 0> *)
Definition getNodesOfEntity (s : shape) (d i : nat) : option (list nat) := part s d i.
(** elementShape_impl.h:67-80 getAdjacentEntities, with the lists made by completeSubShapes (192-264).
    std::includes of the sorted lists is inclusion here, which is the same for lists without repetitions.
    For [entityDim = targetDim] the list is {entityDimension}, as the code has it. *)
Definition getAdjacentEntities (s : shape) (entityDim targetDim i : nat) : option (list nat) :=
  nodes <- part s entityDim i;
  if targetDim =? 0 then Some nodes
  else if entityDim =? targetDim then Some [entityDim]
  else
    candidates <- nth_error s targetDim;
    Some (map fst (filter (fun '(_, c) =>
            if targetDim <? entityDim then forallb (fun n => mem n nodes) c else forallb (fun n => mem n c) nodes)
          (combine (seq 0 (length candidates)) candidates))).

(** Element.h:169-177: the shape, the entities on the boundary by dimension, the coordinates of the nodes *)
Record element := Elt { referenceGeometry : shape; incidenceLists : list (list nat); globalCoordinateIndices : list nat }.
(** MeshEntity.h:216-223 elementIDs and localIDs, as a list of pairs *)
Definition entity := list (nat * nat).
(** Mesh.h:372-387 coordinates (only nodeIndex; [None] is EntityGId(-1)), meshEntities by dimension, elementsList *)
Record mesh := Mesh { coordinates : list (option nat); meshEntities : list (list entity); elementsList : list element }.

Definition set_coordinates (m : mesh) c := Mesh c (meshEntities m) (elementsList m).
Definition set_entities (m : mesh) e := Mesh (coordinates m) e (elementsList m).
Definition set_elements (m : mesh) e := Mesh (coordinates m) (meshEntities m) e.

(** Mesh.h:120-124, 187-190 getElement, getEntity<d> *)
Definition getElement (m : mesh) (i : nat) : option element := nth_error (elementsList m) i.
Definition getEntity (m : mesh) (d i : nat) : option entity := es <- nth_error (meshEntities m) d; nth_error es i.
(** assignments to an element, to an entity *)
Definition put_element (m : mesh) (i : nat) (e : element) : option mesh :=
  es <- write (elementsList m) i e; Some (set_elements m es).
Definition put_entity (m : mesh) (d i : nat) (e : entity) : option mesh :=
  es <- nth_error (meshEntities m) d; es <- write es i e; all <- write (meshEntities m) d es; Some (set_entities m all).
(** coordinates[c].nodeIndex; [None] also when it is EntityGId(-1), which every use would take as an index *)
Definition nodeIndex (m : mesh) (c : nat) : option nat := x <- nth_error (coordinates m) c; x.
(** Element_Impl.h:60-63 getCoordinateIndex *)
Definition getCoordinateIndex (e : element) (local : nat) : option nat := nth_error (globalCoordinateIndices e) local.
(** Element_Impl.h:115-128 getIncidentEntityIndex<d>, d < dimension *)
Definition getIncidentEntityIndex (e : element) (d local : nat) : option nat := l <- nth_error (incidenceLists e) d; nth_error l local.
Definition put_incidence (e : element) (d local x : nat) : option element :=
  l <- nth_error (incidenceLists e) d; l <- write l local x; all <- write (incidenceLists e) d l;
  Some (Elt (referenceGeometry e) all (globalCoordinateIndices e)).
Definition push_incidence (e : element) (d x : nat) : option element :=
  l <- nth_error (incidenceLists e) d; all <- write (incidenceLists e) d (l ++ [x]);
  Some (Elt (referenceGeometry e) all (globalCoordinateIndices e)).

(** MeshEntity_Impl.h:204-209 addElement *)
Definition addElementLink (e : entity) (elementID local : nat) : entity := e ++ [(elementID, local)].
(** MeshEntity_Impl.h:211-229 removeElement; the last line is assert_always(false) *)
Fixpoint removeElement (e : entity) (elementID local : nat) : option entity :=
  match e with
  | [] => None
  | (x, l) :: r =>
      if (x =? elementID) && (l =? local) then Some r
      else r' <- removeElement r elementID local; Some ((x, l) :: r')
  end.

(** The common part of setNode and setEntity: Element_Impl.h:91-97, 104-112 *)
Definition relink (m : mesh) (d element local globalIndex : nat) : option mesh :=
  e <- getElement m element;
  currentId <- getIncidentEntityIndex e d local;
  if currentId =? globalIndex then Some m
  else
    e' <- put_incidence e d local globalIndex;
    m <- put_element m element e';
    old <- getEntity m d currentId;
    old <- removeElement old element local;
    m <- put_entity m d currentId old;
    new <- getEntity m d globalIndex;
    put_entity m d globalIndex (addElementLink new element local).
(** Element_Impl.h:83-98 setNode *)
Definition setNode (m : mesh) (element local globalIndex coordinateIndex : nat) : option mesh :=
  e <- getElement m element;
  cs <- write (globalCoordinateIndices e) local coordinateIndex;
  m <- put_element m element (Elt (referenceGeometry e) (incidenceLists e) cs);
  n <- nodeIndex m coordinateIndex;
  if n =? globalIndex then relink m 0 element local globalIndex else None.
(** Element_Impl.h:100-113 setEntity *)
Definition setEntity (m : mesh) (d element local globalIndex : nat) : option mesh := relink m d element local globalIndex.

(** MeshEntity_Impl.h:148-172 and 174-202 merge.  The while loop takes as many steps as the source has links;
    [fuel] limits the number of steps. *)
Fixpoint merge_loop (fuel : nat) (d target source : nat) (m : mesh) : option mesh :=
  src <- getEntity m d source;
  match src with
  | [] => Some m
  | (element, local) :: _ =>
      match fuel with
      | 0 => None
      | S fuel =>
          m <- (match d with
                | 0 =>
                    e <- getElement m element;
                    coordId <- getCoordinateIndex e local;
                    n <- nodeIndex m coordId;
                    if (n =? source) || (n =? target) then
                      cs <- write (coordinates m) coordId (Some target);
                      setNode (set_coordinates m cs) element local target coordId
                    else None
                | _ => setEntity m d element local target
                end);
          merge_loop fuel d target source m
      end
  end.
Definition merge (m : mesh) (d target source : nat) : option mesh :=
  src <- getEntity m d source; merge_loop (length src) d target source m.

(** Mesh.h:355-363 newEntity<d> *)
Definition newEntity (m : mesh) (d : nat) : option (mesh * nat) :=
  es <- nth_error (meshEntities m) d; all <- write (meshEntities m) d (es ++ [[]]);
  Some (set_entities m all, length es).
(** Mesh_Impl.h:125-142 addNode, addNodeCoordinate *)
Definition addNode (m : mesh) : option (mesh * nat) := newEntity m 0.
Definition addNodeCoordinate (m : mesh) (node : nat) : mesh * nat :=
  (set_coordinates m (coordinates m ++ [Some node]), length (coordinates m)).

(** MeshEntity_Impl.h:82-94 getLocalIndex(element); ERROR when not found *)
Fixpoint getLocalIndex (e : entity) (elementID : nat) : option nat :=
  match e with
  | [] => None
  | (x, l) :: r => if x =? elementID then Some l else getLocalIndex r elementID
  end.
(** Element_Impl.h:144-177 getIncidenceListAsIndices<d>(node) with getLocalIncidenceListAsIndices, 0 < d < dimension *)
Definition incidentToNode (m : mesh) (d elementID : nat) (node : entity) : option (list nat) :=
  e <- getElement m elementID;
  have <- nth_error (incidenceLists e) d;
  want <- getNumberOfEntities (referenceGeometry e) d;
  if length have <? want then Some []
  else
    local <- getLocalIndex node elementID;
    locals <- getAdjacentEntities (referenceGeometry e) 0 d local;
    for_each locals (fun l acc => x <- nth_error have l; Some (acc ++ [x])) [].
(** MeshEntity_Impl.h:115-146 getIncidenceListAsIndices<d> of a node, 0 < d < dimension.
    Sorting and removing duplicates is inserting into an ordered set here. *)
Definition entitiesOfNode (m : mesh) (d node : nat) : option (list nat) :=
  n <- getEntity m 0 node;
  for_each n (fun '(elementID, _) acc =>
    new <- incidentToNode m d elementID n;
    Some (fold_left (fun s x => sinsert Nat.ltb x s) new acc)) [].

(** Mesh_Impl.h:202-232 fixEntity.  std::set_intersection of ordered lists without duplicates is a filter here. *)
Definition fixEntity (m : mesh) (d elementID index : nat) : option mesh :=
  e <- getElement m elementID;
  localNodes <- getAdjacentEntities (referenceGeometry e) d 0 index;
  globalNodes <- for_each localNodes (fun l acc => x <- getIncidentEntityIndex e 0 l; Some (acc ++ [x])) [];
  match globalNodes with
  | [] => None
  | first :: others =>
      candidates <- entitiesOfNode m d first;
      candidates <- for_each others (fun n cs => new <- entitiesOfNode m d n; Some (filter (fun c => mem c new) cs)) candidates;
      p <- (match candidates with
            | [] => newEntity m d
            | [c] => Some (m, c)
            | _ => None
            end);
      let '(m, entityIndex) := p in
      (** addEntity, Element_Impl.h:196-202 *)
      e <- getElement m elementID;
      old <- nth_error (incidenceLists e) d;
      e <- push_incidence e d entityIndex;
      m <- put_element m elementID e;
      x <- getEntity m d entityIndex;
      put_entity m d entityIndex (addElementLink x elementID (length old))
  end.
(** Mesh_Impl.h:182-200 fixElement: dimensions d, d - 1, ..., 1 *)
Fixpoint fixElement (m : mesh) (elementID d : nat) : option mesh :=
  match d with
  | 0 => Some m
  | S d' =>
      e <- getElement m elementID;
      have <- nth_error (incidenceLists e) d;
      want <- getNumberOfEntities (referenceGeometry e) d;
      m <- for_from (length have) (want - length have) (fun i m => fixEntity m d elementID i) m;
      fixElement m elementID d'
  end.
(** Mesh_Impl.h:144-157 addElement, with the shape that findGeometry returns as an argument; the loop is
    Element::addNode, Element_Impl.h:187-194 *)
Definition addElement (m : mesh) (s : shape) (coords : list nat) : option mesh :=
  let elementID := length (elementsList m) in
  let dimension := length (meshEntities m) in
  p <- for_each coords (fun c '(m, e) =>
         n <- nodeIndex m c;
         old <- nth_error (incidenceLists e) 0;
         e <- push_incidence (Elt (referenceGeometry e) (incidenceLists e) (globalCoordinateIndices e ++ [c])) 0 n;
         x <- getEntity m 0 n;
         m <- put_entity m 0 n (addElementLink x elementID (length old));
         Some (m, e)) (m, Elt s (repeat [] dimension) []);
  let '(m, e) := p in
  fixElement (set_elements m (elementsList m ++ [e])) elementID (dimension - 1).

(** Mesh_Impl.h:234-284 removeUnusedEntities for one dimension.  The renumbering, and the kept entities in order:
    moving an entity to position newId while the loop runs is appending it to those kept so far. *)
Fixpoint renumber (es : list entity) (newId : nat) : list (option nat) * list entity :=
  match es with
  | [] => ([], [])
  | [] :: r => let '(rn, kept) := renumber r newId in (None :: rn, kept)
  | e :: r => let '(rn, kept) := renumber r (S newId) in (Some newId :: rn, e :: kept)
  end.
(** Element_Impl.h:179-185 renumberEntities; an entity that is renumbered to EntityGId(-1) is an error here *)
Definition renumberEntities (rn : list (option nat)) (d : nat) (e : element) : option element :=
  l <- nth_error (incidenceLists e) d;
  l <- for_each l (fun x acc => y <- nth_error rn x; y <- y; Some (acc ++ [y])) [];
  all <- write (incidenceLists e) d l;
  Some (Elt (referenceGeometry e) all (globalCoordinateIndices e)).
Definition removeUnusedLevel (m : mesh) (d : nat) : option mesh :=
  es <- nth_error (meshEntities m) d;
  let '(rn, kept) := renumber es 0 in
  if length kept =? length es then Some m
  else
    all <- write (meshEntities m) d kept;
    els <- for_each (elementsList m) (fun e acc => e <- renumberEntities rn d e; Some (acc ++ [e])) [];
    cs <- (match d with
           | 0 => for_each (coordinates m) (fun c acc => n <- c; y <- nth_error rn n; Some (acc ++ [y])) []
           | _ => Some (coordinates m)
           end);
    Some (Mesh cs all els).
(** dimension - 1 down to 0 *)
Fixpoint removeUnusedFrom (m : mesh) (n : nat) : option mesh :=
  match n with
  | 0 => Some m
  | S d => m <- removeUnusedLevel m d; removeUnusedFrom m d
  end.
Definition removeUnusedEntities (m : mesh) : option mesh := removeUnusedFrom m (length (meshEntities m)).
