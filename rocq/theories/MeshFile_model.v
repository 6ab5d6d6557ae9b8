(** Model of the file through which the preprocessor hands a mesh to the kernel: the writer (Preprocessor::outputMesh,
    applications/Preprocessor/lib/output_impl.h) and the reader (MeshManipulator::readMesh,
    kernel/Base/MeshManipulator_Impl.h, with MeshFileInformation::readInformation).
    A file is a list of numbers, words and ends of lines.  Simplifications: a number that is printed (std::hexfloat for
    coordinates) and read again is the same number, as long as white space separates it from the next; the name of a
    zone is one word, also when it has spaces, since names are written and read as whole lines.  Coordinates are of any
    type [D] with a comparison.  Ids are [nat].  [None] is a failed assertion, a call of logger ERROR, an access out of
    range, or input that is not of the expected kind. *)
From Coq Require Import List Arith Bool String Ascii.
From Verif Require Import Loop_model Std_model StdMap_model PreMesh_model.
From Verif Require Submesh_model.
Import ListNotations.

Notation "' p <- a ; b" := (match a with None => None | Some p => b end) (at level 100, p pattern, a at next level, right associativity).

Inductive token {D : Type} := Int (n : nat) | Real (x : D) | Word (s : string) | EndL.
Arguments token : clear implicits.

(** What the preprocessor has: its mesh, the values of its coordinates (Mesh.h:372-375), the names of the zones and the
    zone of each element (Element.h:164, Mesh_Impl.h:309-319), and the partition of each element. *)
Record input {D : Type} := Input { theMesh : mesh; values : list (list D); zoneNames : list string; zoneIds : list nat; partitions : list nat }.
Arguments input : clear implicits.

Section Writer.
Context {D : Type} (ltb : D -> D -> bool) (i : input D).

(** MeshEntity.h getElementsList, getElement(i), getLocalIndex(i) of a node *)
Definition linksOf (v : nat) : option entity := getEntity (theMesh i) 0 v.
(** Element.h getNodesList *)
Definition nodesList (el : nat) : option (list nat) := e <- getElement (theMesh i) el; nth_error (incidenceLists e) 0.
(** Element_Impl.h:54-58 getCoordinate *)
Definition getCoordinate (el l : nat) : option (list D) :=
  e <- getElement (theMesh i) el; c <- getCoordinateIndex e l; nth_error (values i) c.
(** MeshEntity_Impl.h:58-69 getElementIndex *)
Fixpoint getElementIndex (links : entity) (el : nat) : option nat :=
  match links with
  | [] => None
  | (x, _) :: r => if x =? el then Some 0 else option_map S (getElementIndex r el)
  end.
(** output_impl.h:81-86, 139-148, 191-197: inserts the partitions of the elements that share a node with [el], except
    one *)
Definition insertNeighbours (except : option nat) (el : nat) (s : list nat) : option (list nat) :=
  nodes <- nodesList el;
  for_each nodes (fun otherNode s =>
    others <- linksOf otherNode;
    for_each others (fun '(otherElement, _) s =>
      q <- nth_error (partitions i) otherElement;
      Some (match except with
            | Some p => if q =? p then s else sinsert Nat.ltb q s
            | None => sinsert Nat.ltb q s
            end)) s) s.

(** output_impl.h:132-157: nodePartitions and nodeCoordinates of a node *)
Definition nodePartitions (v : nat) : option (list nat) :=
  links <- linksOf v;
  for_each links (fun '(el, _) s => p <- nth_error (partitions i) el; insertNeighbours (Some p) el (sinsert Nat.ltb p s)) [].
Definition nodeCoordinates (v : nat) : option (list (list D)) :=
  links <- linksOf v;
  for_each links (fun '(el, l) s => c <- getCoordinate el l; Some (sinsert (lex_ltb ltb) c s)) [].
(** std::distance(s.begin(), s.find(x)) *)
Fixpoint distance (s : list (list D)) (x : list D) : nat :=
  match s with
  | [] => 0
  | y :: r => if lex_ltb ltb x y then S (distance r x) else if lex_ltb ltb y x then S (distance r x) else 0
  end.
(** output_impl.h:159-165: coordinateIndices[node] *)
Definition coordinateIndices (v : nat) : option (list nat) :=
  links <- linksOf v;
  coordinates <- nodeCoordinates v;
  for_each links (fun '(el, l) acc => c <- getCoordinate el l; Some (acc ++ [distance coordinates c])) [].

(** output_impl.h:131-177, the body of the loop over the nodes; the state is the output and partitionData *)
Definition writeNode (v : nat) (st : list (token D) * list nat) : option (list (token D) * list nat) :=
  let '(out, partitionData) := st in
  parts <- nodePartitions v;
  coords <- nodeCoordinates v;
  partitionData <- for_each parts (fun p data => n <- nth_error data p; write data p (S n)) partitionData;
  Some (out ++ Int (List.length parts) :: map Int parts ++ [EndL; Int (List.length coords)] ++ flat_map (map Real) coords ++ [EndL], partitionData).
(** output_impl.h:179-200, the body of the loop over the elements.  element.getNumberOfNodes(), which the code takes from
    the shape, is the number of nodes here. *)
Definition writeElement (el : nat) (out : list (token D)) : option (list (token D)) :=
  nodes <- nodesList el;
  pairs <- for_each nodes (fun v acc =>
             links <- linksOf v;
             k <- getElementIndex links el;
             offsets <- coordinateIndices v;
             c <- nth_error offsets k;
             Some (acc ++ [Int v; Int c])) [];
  p <- nth_error (partitions i) el;
  shadows <- insertNeighbours (Some p) el [];
  zone <- nth_error (zoneIds i) el;
  Some (out ++ Int (List.length nodes) :: pairs ++ [Int p; Int (List.length shadows)] ++ map Int shadows ++ [EndL; Int zone; EndL]).
(** output_impl.h:73-93, the body of the loop over the entities of dimension [d] *)
Definition writeEntity (d x : nat) (out : list (token D)) : option (list (token D)) :=
  links <- getEntity (theMesh i) d x;
  parts <- for_each links (fun '(el, _) s => insertNeighbours None el s) [];
  Some (out ++ Int (List.length links) :: flat_map (fun '(el, l) => [Int el; Int l]) links ++ Int (List.length parts) :: map Int parts ++ [EndL]).
(** the word that starts a section, for less than ten dimensions *)
Definition codim (k : nat) : string := ("codim" ++ String (ascii_of_nat (48 + k)) "")%string.
Definition getNumberOf (d : nat) : option nat := option_map (@List.length _) (nth_error (meshEntities (theMesh i)) d).
(** output_impl.h:66-95 printOtherEntities *)
Fixpoint printOtherEntities (d : nat) (out : list (token D)) : option (list (token D)) :=
  match d with
  | 0 => Some out
  | S d' =>
      n <- getNumberOf d;
      out <- for_loop n (writeEntity d) (out ++ [Word (codim (List.length (meshEntities (theMesh i)) - d)); EndL]);
      printOtherEntities d' out
  end.
(** output_impl.h:53-64 printOtherEntityCounts *)
Fixpoint printOtherEntityCounts (d : nat) : option (list (token D)) :=
  match d with
  | 0 => Some []
  | S d' => n <- getNumberOf d; r <- printOtherEntityCounts d'; Some (Int n :: r)
  end.
(** output_impl.h:98-205 outputMesh.  The numbers of nodes that are written over the reserved space at the end
    (201-204) are in their place here; see [reservedSpace] for the space. *)
Definition outputMesh (numberOfPartitions : nat) : option (list (token D)) :=
  let dimension := List.length (meshEntities (theMesh i)) in
  numberOfNodes <- getNumberOf 0;
  counts <- printOtherEntityCounts (dimension - 1);
  '(nodes, partitionData) <- for_loop numberOfNodes writeNode ([], repeat 0 numberOfPartitions);
  elements <- for_loop (List.length (elementsList (theMesh i))) writeElement [];
  others <- printOtherEntities (dimension - 1) [];
  Some ([Word "mesh"%string; Int 2; EndL] ++
        Int numberOfNodes :: Int (List.length (elementsList (theMesh i))) :: Int dimension :: counts ++ EndL ::
        Int numberOfPartitions :: map Int partitionData ++ EndL ::
        Word "zones"%string :: EndL :: Int (List.length (zoneNames i)) :: EndL :: flat_map (fun z => [Word z; EndL]) (zoneNames i) ++
        Word "nodes"%string :: EndL :: nodes ++ Word "elements"%string :: EndL :: elements ++ others).
End Writer.

(** The decimal digits of a number, last digit first; [fuel] limits the number of digits *)
Fixpoint digits_fuel (fuel n : nat) : list nat :=
  match fuel with
  | 0 => []
  | S fuel => if n <? 10 then [n] else (n mod 10) :: digits_fuel fuel (n / 10)
  end.
Definition digits (n : nat) : list nat := digits_fuel (S n) n.
(** output << n: the characters *)
Definition printed (n : nat) : list ascii := map (fun d => ascii_of_nat (48 + d)) (rev (digits n)).
(** output_impl.h:113-114; the whole part of log10(n) is one less than the number of digits of n *)
Definition reservedSpace (numberOfNodes : nat) : nat := (if numberOfNodes =? 0 then 0 else List.length (digits numberOfNodes) - 1) + 2.
(** output_impl.h:118-122: the characters of the rest of the line before the end of the line *)
Definition whiteSpace (numberOfNodes numberOfPartitions : nat) : list ascii := repeat " "%char (numberOfPartitions * reservedSpace numberOfNodes).
(** output_impl.h:201-204: what is written from position partitionInformation on *)
Definition partitionNumbers (partitionData : list nat) : list ascii := flat_map (fun n => printed n ++ [" "%char]) partitionData.
(** writing after seekp replaces what was there *)
Definition overwrite (old new : list ascii) : list ascii := new ++ skipn (List.length new) old.

(** ** The reader *)
(** operator>> for std::size_t: skips white space *)
Fixpoint readInt {D} (ts : list (token D)) : option (nat * list (token D)) :=
  match ts with EndL :: r => readInt r | Int n :: r => Some (n, r) | _ => None end.
(** MeshManipulator_Impl.h:2035-2066 readDouble *)
Fixpoint readReal {D} (ts : list (token D)) : option (D * list (token D)) :=
  match ts with EndL :: r => readReal r | Real x :: r => Some (x, r) | _ => None end.
(** operator>> for std::string *)
Fixpoint readWord {D} (ts : list (token D)) : option (string * list (token D)) :=
  match ts with EndL :: r => readWord r | Word s :: r => Some (s, r) | _ => None end.
(** ignore(max, '\n') *)
Fixpoint ignoreLine {D} (ts : list (token D)) : list (token D) :=
  match ts with [] => [] | EndL :: r => r | _ :: r => ignoreLine r end.
(** std::getline *)
Fixpoint getline {D} (ts : list (token D)) : list (token D) * list (token D) :=
  match ts with [] => ([], []) | EndL :: r => ([], r) | t :: r => let '(l, r) := getline r in (t :: l, r) end.
(** [n] times the same read *)
Fixpoint readMany {D A} (n : nat) (f : list (token D) -> option (A * list (token D))) (ts : list (token D)) : option (list A * list (token D)) :=
  match n with
  | 0 => Some ([], ts)
  | S n => '(x, ts) <- f ts; '(r, ts) <- readMany n f ts; Some (x :: r, ts)
  end.
(** input >> a >> b *)
Definition readPair {D} (ts : list (token D)) : option (nat * nat * list (token D)) :=
  '(a, ts) <- readInt ts; '(b, ts) <- readInt ts; Some ((a, b), ts).
(** MeshManipulator_Impl.h:1494-1501 readSegmentHeader *)
Definition readSegmentHeader {D} (expected : string) (ts : list (token D)) : option (list (token D)) :=
  '(line, ts) <- readWord ts; if String.eqb line expected then Some ts else None.

(** MeshFileInformation.h *)
Record information := Information { version : nat; dimension : nat; entityCount : list nat; partitionNodeCounts : list nat; names : list string }.
(** MeshFileInformation.cpp:49-103 readInformation *)
Definition readInformation {D} (ts : list (token D)) : option (information * list (token D)) :=
  let '(line, ts) := getline ts in
  version <- (match line with [Word w; Int v] => if (String.eqb w "mesh" && (1 <=? v) && (v <=? 2))%bool then Some v else None | _ => None end);
  '(nodes, ts) <- readInt ts;
  '(elements, ts) <- readInt ts;
  '(dimension, ts) <- readInt ts;
  if dimension =? 0 then None
  else
    '(others, ts) <- readMany (dimension - 1) readInt ts;
    '(partitionCount, ts) <- readInt ts;
    '(counts, ts) <- readMany partitionCount readInt ts;
    let ts := ignoreLine ts in
    '(zones, ts) <- (if version =? 1 then Some (["Main"%string], ts)
       else
         let '(line, ts) := getline ts in
         match line with
         | [Word w] =>
             if String.eqb w "zones" then
               '(zoneCount, ts) <- readInt ts;
               readMany zoneCount (fun ts => match getline ts with ([Word s], ts) => Some (s, ts) | _ => None end) (ignoreLine ts)
             else None
         | _ => None
         end);
    Some (Information version dimension (nodes :: rev others ++ [elements]) counts zones, ts).

(** Node.h: id, and elements_ with localNodeNumbers_ *)
Record node := Node { n_id : nat; n_elements : list (nat * nat) }.
(** Element.h: coordinates of the nodes (indices), zone, owner; the element is known by its id *)
Record relement := RElement { e_coords : list nat; e_zone : string; e_owner : nat; e_owning : bool }.
(** FaceType *)
Inductive faceType := INTERNAL | PERIODIC_BC | WALL_BC | PARTIAL_FACE | SUBDOMAIN_BOUNDARY | PERIODIC_SUBDOMAIN_BC.
(** FaceGeometry.h: elements with the number of the face on them *)
Record face := Face { f_left : nat * nat; f_right : option (nat * nat); f_type : faceType }.
(** Edge.h: elements_ with localEdgeNumbers_, and orientation_ *)
Record edge := Edge { g_elements : list (nat * nat); g_orientation : list nat }.

(** objects by id: the first entry *)
Fixpoint get {A} (l : list (nat * A)) (id : nat) : option A :=
  match l with [] => None | (k, x) :: r => if k =? id then Some x else get r id end.
(** assignment to an object that exists *)
Fixpoint put {A} (l : list (nat * A)) (id : nat) (x : A) : option (list (nat * A)) :=
  match l with
  | [] => None
  | (k, y) :: r => if k =? id then Some ((k, x) :: r) else r' <- put r id x; Some ((k, y) :: r')
  end.

Section Reader.
Context {D : Type}.
(** Reference geometries by the number of nodes: the nodes of their faces (getCodim1EntityLocalIndices) and of their
    edges (getCodim2EntityLocalIndices); ElementGeometry::createReferenceGeometry *)
Context (geometry : nat -> option (list (list nat) * list (nat * nat))).
Context (dim processorID : nat).

(** MeshManipulator_Impl.h:1590-1616: whether one of the [n] partitions is that of the process; no more is read after it *)
Fixpoint findPartition (n : nat) (ts : list (token D)) : option (bool * list (token D)) :=
  match n with
  | 0 => Some (false, ts)
  | S n => '(partition, ts) <- readInt ts; if partition =? processorID then Some (true, ts) else findPartition n ts
  end.
(** the coordinates, the nodes, localNodeIndex, startOfCoordinates, processedNodes and the counter of node ids *)
Record nodesRead := NodesRead { r_coords : list (list D); r_nodes : list node; r_localNodeIndex : list (nat * nat);
  r_startOfCoordinates : list (nat * nat); r_processedNodes : nat; r_nodeIndex : nat }.
(** MeshManipulator_Impl.h:1589-1623, the body of the loop over the nodes.  Of the partitions that are left when the own
    one is found, the rest of the line is ignored. *)
Definition readNode (i : nat) (st : nodesRead * list (token D)) : option (nodesRead * list (token D)) :=
  let '(s, ts) := st in
  '(n, ts) <- readInt ts;
  '(present, ts) <- findPartition n ts;
  if present : bool then
    '(numberOfCoordinates, ts) <- readInt (ignoreLine ts);
    '(new, ts) <- readMany numberOfCoordinates (readMany dim readReal) ts;
    Some (NodesRead (r_coords s ++ new) (r_nodes s ++ [Node (r_nodeIndex s) []])
            (mput Nat.ltb i (r_processedNodes s) (r_localNodeIndex s))
            (mput Nat.ltb i (List.length (r_coords s)) (r_startOfCoordinates s)) (S (r_processedNodes s)) (S (r_nodeIndex s)), ts)
  else
    Some (NodesRead (r_coords s) (r_nodes s) (r_localNodeIndex s) (r_startOfCoordinates s) (r_processedNodes s) (S (r_nodeIndex s)),
          ignoreLine (ignoreLine ts)).

(** m[k] of a std::map of numbers: 0 when there is no entry *)
Definition entryOr0 (m : list (nat * nat)) (k : nat) : nat := match mfind Nat.ltb k m with Some x => x | None => 0 end.
(** the elements, their nodes_List (positions in the list of nodes), facesList_ and edgesList_, the nodes, the submesh, actualElement and the
    counter of element ids *)
Record elementsRead := ElementsRead { r_elements : list (nat * relement); r_elementNodes : list (nat * list (option nat));
  r_elementFaces : list (nat * list (option nat)); r_elementEdges : list (nat * list (option nat));
  r_nodesNow : list node; r_submesh : Submesh_model.submesh; r_actualElement : list (nat * nat); r_elementIndex : nat }.
(** Node.cpp:48-66 addElement and Element.cpp:233-243 setNode: node [k] of the list gets element [id], whose nodes are
    [mine], as its [j]-th *)
Definition addElementToNode (id j k : nat) (st : list node * list (option nat)) : option (list node * list (option nat)) :=
  let '(nodes, mine) := st in
  x <- nth_error nodes k;
  if existsb (Nat.eqb id) (map fst (n_elements x)) then None
  else
    nodes <- write nodes k (Node (n_id x) (n_elements x ++ [(id, j)]));
    if existsb (fun o => match o with Some k' => k' =? k | None => false end) mine then None
    else mine <- write mine j (Some k); Some (nodes, mine).
Fixpoint distinct (l : list nat) : bool := match l with [] => true | x :: r => (negb (existsb (Nat.eqb x) r) && distinct r)%bool end.
(** MeshManipulator_Impl.h:1636-1699, the body of the loop over the elements, with addElement (1139-1153) and
    ElementFactory.h:107-115.  The lists of pushes and pulls are those of Submesh_model. *)
Definition readElement (version : nat) (meshZones : list string) (ns : nodesRead) (i : nat) (st : elementsRead * list (token D)) :
  option (elementsRead * list (token D)) :=
  let '(s, ts) := st in
  '(nodesPerElement, ts) <- readInt ts;
  '(pairs, ts) <- readMany nodesPerElement readPair ts;
  let coordinateIndices := map (fun '(globalIndex, offset) => entryOr0 (r_startOfCoordinates ns) globalIndex + offset) pairs in
  let nodeNumbers := map (fun '(globalIndex, _) => entryOr0 (r_localNodeIndex ns) globalIndex) pairs in
  '(partition, ts) <- readInt ts;
  '(numberOfShadowPartitions, ts) <- readInt ts;
  '(shadowPartitions, ts) <- readMany numberOfShadowPartitions readInt ts;
  let inShadow := existsb (Nat.eqb processorID) shadowPartitions in
  '(zoneIndex, ts) <- (if version =? 1 then Some (0, ts) else readInt ts);
  zone <- nth_error meshZones zoneIndex;
  let owning := partition =? processorID in
  if (owning || inShadow)%bool then
    if distinct coordinateIndices then
      '(faces, edges) <- geometry (List.length coordinateIndices);
      let id := r_elementIndex s in
      '(nodes, mine) <- for_loop (List.length nodeNumbers) (fun j st => k <- nth_error nodeNumbers j; addElementToNode id j k st)
                          (r_nodesNow s, repeat None (List.length coordinateIndices));
      Some (ElementsRead (r_elements s ++ [(id, RElement coordinateIndices zone partition owning)])
              (r_elementNodes s ++ [(id, mine)]) (r_elementFaces s ++ [(id, repeat None (List.length faces))])
              (r_elementEdges s ++ [(id, repeat None (List.length edges))]) nodes
              (Submesh_model.readElement processorID id (Submesh_model.Line partition shadowPartitions) (r_submesh s))
              (mput Nat.ltb i id (r_actualElement s)) (S id), ts)
    else None
  else
    Some (ElementsRead (r_elements s) (r_elementNodes s) (r_elementFaces s) (r_elementEdges s) (r_nodesNow s) (r_submesh s)
            (r_actualElement s) (S (r_elementIndex s)), ts).

(** the faces, the faces of the elements and the counter of face ids *)
Record facesRead := FacesRead { r_faces : list (nat * face); r_facesOf : list (nat * list (option nat)); r_faceIndex : nat }.
(** Element.cpp:200-216 setFace, 218-231 setEdge *)
Definition setPart (table : list (nat * list (option nat))) (element l id : nat) : option (list (nat * list (option nat))) :=
  mine <- get table element; mine <- write mine l (Some id); put table element mine.
(** PhysicalGeometry getGlobalFaceNodeIndices *)
Definition globalFaceNodes (es : list (nat * relement)) (side : nat * nat) : option (list nat) :=
  let '(element, l) := side in
  e <- get es element;
  '(faces, _) <- geometry (List.length (e_coords e));
  nodes <- nth_error faces l;
  for_each nodes (fun n acc => c <- nth_error (e_coords e) n; Some (acc ++ [c])) [].
Fixpoint same_list (a b : list nat) : bool :=
  match a, b with [], [] => true | x :: a, y :: b => ((x =? y) && same_list a b)%bool | _, _ => false end.
(** MeshManipulator_Impl.h:1171-1187 addFace, Mesh_Impl.h:167-185, FaceFactory.cpp:48-69, Face.cpp:58-127.  The face-to-face
    map index that the constructor also determines is left out. *)
Definition addFace (es : list (nat * relement)) (s : facesRead) (side : nat * nat) (other : option (nat * nat)) (type : faceType) : option facesRead :=
  let id := r_faceIndex s in
  type <- (match other with
           | None => Some type
           | Some other =>
               a <- globalFaceNodes es side; b <- globalFaceNodes es other;
               Some (if same_list (sort a) (sort b) then INTERNAL else PERIODIC_BC)
           end);
  table <- setPart (r_facesOf s) (fst side) (snd side) id;
  table <- (match other with None => Some table | Some other => setPart table (fst other) (snd other) id end);
  Some (FacesRead (r_faces s ++ [(id, Face side other type)]) table (S id)).
(** MeshManipulator_Impl.h:1711-1770, the body of the loop over the faces *)
Definition readFace (es : list (nat * relement)) (actualElement : list (nat * nat)) (st : facesRead * list (token D)) : option (facesRead * list (token D)) :=
  let '(s, ts) := st in
  '(localNumberOfFaces, ts) <- readInt ts;
  if ((0 <? localNumberOfFaces) && (localNumberOfFaces <? 3))%bool then
    '(pairs, ts) <- readMany localNumberOfFaces readPair ts;
    '(numberOfPartitions, ts) <- readInt ts;
    '(parts, ts) <- readMany numberOfPartitions readInt ts;
    let element k := '(global, l) <- nth_error pairs k; Some (match mfind Nat.ltb global actualElement with Some id => Some (id, l) | None => None end) in
    '(inPartition, s) <- for_each parts (fun partition '(inPartition, s) =>
      if partition =? processorID then
        a <- element 0;
        s <- (if localNumberOfFaces =? 1 then a <- a; addFace es s a None WALL_BC
              else
                b <- element 1;
                match a, b with
                | None, None => None
                | None, Some b => addFace es s b None PARTIAL_FACE
                | Some a, None => addFace es s a None PARTIAL_FACE
                | Some a, Some b => addFace es s a (Some b) INTERNAL
                end);
        Some (true, s)
      else Some (inPartition, s)) (false, s);
    Some (if inPartition : bool then s else FacesRead (r_faces s) (r_facesOf s) (S (r_faceIndex s)), ts)
  else None.

(** the edges, the edges of the elements and the counter of edge ids *)
Record edgesRead := EdgesRead { r_edges : list (nat * edge); r_edgesOf : list (nat * list (option nat)); r_edgeIndex : nat }.
(** Edge.cpp:53-77 addElement *)
Definition addElementToEdge (es : list (nat * relement)) (id element l : nat) (st : edge * list (nat * list (option nat))) :
  option (edge * list (nat * list (option nat))) :=
  let '(g, table) := st in
  e <- get es element;
  table <- setPart table element l id;
  '(_, edges) <- geometry (List.length (e_coords e));
  '(a, b) <- nth_error edges l;
  x <- nth_error (e_coords e) a;
  y <- nth_error (e_coords e) b;
  Some (Edge (g_elements g ++ [(element, l)]) (g_orientation g ++ [if x <? y then 0 else 1]), table).
(** MeshManipulator_Impl.h:1779-1808, the body of the loop over the edges *)
Definition readEdge (es : list (nat * relement)) (actualElement : list (nat * nat)) (st : edgesRead * list (token D)) : option (edgesRead * list (token D)) :=
  let '(s, ts) := st in
  '(localNumberOfEdges, ts) <- readInt ts;
  '(pairs, ts) <- readMany localNumberOfEdges readPair ts;
  '(numberOfPartitions, ts) <- readInt ts;
  '(parts, ts) <- readMany numberOfPartitions readInt ts;
  '(inPartition, s) <- for_each parts (fun partition '(inPartition, s) =>
    if partition =? processorID then
      let id := r_edgeIndex s in
      '(g, table) <- for_each pairs (fun '(global, l) st =>
          match mfind Nat.ltb global actualElement with Some element => addElementToEdge es id element l st | None => Some st end)
        (Edge [] [], r_edgesOf s);
      Some (true, EdgesRead (r_edges s ++ [(id, g)]) table (S id))
    else Some (inPartition, s)) (false, s);
  Some (if inPartition : bool then s else EdgesRead (r_edges s) (r_edgesOf s) (S (r_edgeIndex s)), ts).

(** MeshManipulator_Impl.h:1812-1825: one face for each node, when the dimension is 1.  The loop in 1817-1818 leaves
    lastIndex at the id of the node, if it was not beyond it, and takes as many face ids; node->getID() is positive. *)
Definition faceOfNode (es : list (nat * relement)) (x : node) (st : facesRead * nat) : option (facesRead * nat) :=
  let '(s, lastIndex) := st in
  let skipped := (n_id x - 1) - lastIndex in
  let s := FacesRead (r_faces s) (r_facesOf s) (r_faceIndex s + skipped) in
  s <- (match n_elements x with
        | [a] => addFace es s a None WALL_BC
        | a :: b :: _ => addFace es s a (Some b) INTERNAL
        | [] => None
        end);
  Some (s, lastIndex + skipped + 1).

(** MeshManipulator_Impl.h:1832-1839 for one face *)
Definition markFace (fs : list (nat * face)) (id : nat) : option (list (nat * face)) :=
  f <- get fs id;
  match f_right f with
  | None => Some fs
  | Some _ => put fs id (Face (f_left f) (f_right f) (match f_type f with INTERNAL => SUBDOMAIN_BOUNDARY | _ => PERIODIC_SUBDOMAIN_BC end))
  end.
(** MeshManipulator_Impl.h:1829-1843 *)
Definition markFaces (pulls : list (nat * list nat)) (table : list (nat * list (option nat))) (fs : list (nat * face)) : option (list (nat * face)) :=
  for_each pulls (fun '(_, elements) fs =>
    for_each elements (fun element fs =>
      mine <- get table element;
      for_each mine (fun o fs => id <- o; markFace fs id) fs) fs) fs.

(** What the process has when the file is read *)
Record localMesh := LocalMesh { l_coords : list (list D); l_nodes : list node; l_elements : list (nat * relement);
  l_elementNodes : list (nat * list (option nat)); l_elementFaces : list (nat * list (option nat)); l_elementEdges : list (nat * list (option nat));
  l_faces : list (nat * face); l_edges : list (nat * edge); l_submesh : Submesh_model.submesh }.

(** MeshManipulator_Impl.h:1505-1844 readMesh, into an empty mesh, on a process that gets the ids [nodeIndex],
    [elementIndex], [faceIndex] and [edgeIndex] next; [processes] is the number of processes *)
Definition readMesh (processes nodeIndex elementIndex faceIndex edgeIndex : nat) (ts : list (token D)) : option localMesh :=
  '(info, ts) <- readInformation ts;
  if ((dimension info =? dim) && (processes =? List.length (partitionNodeCounts info)))%bool then
    numberOfNodes <- nth_error (entityCount info) 0;
    numberOfEdges <- (if 3 <=? dim then nth_error (entityCount info) 1 else Some 0);
    numberOfFaces <- (if 2 <=? dim then nth_error (entityCount info) (dim - 1) else Some 0);
    numberOfElements <- nth_error (entityCount info) dim;
    localNumberOfNodes <- nth_error (partitionNodeCounts info) processorID;
    if (negb (List.length (names info) =? 0) || (numberOfElements =? 0))%bool then
      ts <- (if 1 <? version info then readSegmentHeader "nodes" ts else Some ts);
      '(ns, ts) <- for_loop numberOfNodes readNode (NodesRead [] [] [] [] 0 (if dim =? 1 then S nodeIndex else nodeIndex), ts);
      if r_processedNodes ns =? localNumberOfNodes then
        ts <- (if 1 <? version info then readSegmentHeader "elements" ts else Some ts);
        '(es, ts) <- for_loop numberOfElements (readElement (version info) (names info) ns)
                       (ElementsRead [] [] [] [] (r_nodes ns) (Submesh_model.Submesh [] [] [] []) [] elementIndex, ts);
        ts <- (if ((1 <? version info) && (1 <? dim))%bool then readSegmentHeader "codim1" ts else Some ts);
        '(fs, ts) <- for_loop numberOfFaces (fun _ => readFace (r_elements es) (r_actualElement es)) (FacesRead [] (r_elementFaces es) faceIndex, ts);
        ts <- (if ((1 <? version info) && (2 <? dim))%bool then readSegmentHeader "codim2" ts else Some ts);
        '(gs, ts) <- for_loop numberOfEdges (fun _ => readEdge (r_elements es) (r_actualElement es)) (EdgesRead [] (r_elementEdges es) edgeIndex, ts);
        let lastIndex := r_faceIndex fs in
        let fs := FacesRead (r_faces fs) (r_facesOf fs) (S (r_faceIndex fs)) in
        fs <- (if dim =? 1 then '(fs, _) <- for_each (r_nodesNow es) (faceOfNode (r_elements es)) (fs, lastIndex); Some fs else Some fs);
        faces <- markFaces (Submesh_model.pullElements (r_submesh es)) (r_facesOf fs) (r_faces fs);
        Some (LocalMesh (r_coords ns) (r_nodesNow es) (r_elements es) (r_elementNodes es) (r_facesOf fs) (r_edgesOf gs) faces (r_edges gs) (r_submesh es))
      else None
    else None
  else None.
End Reader.
