(** Model of MergePlan (applications/Preprocessor/lib/MergePlan.h:47-541), except groupMerges, which is in
    UnionFind_model.  A std::map from coordinates to coordinates is an ordered association list. *)
From Coq Require Import List Arith Bool.
From Verif Require Import Loop_model StdMap_model UnionFind_model PreMesh_model.
Import ListNotations.

(** MergePlan.h:514-541 computeAdjacentElements; [side] selects pair.first or pair.second *)
Definition computeAdjacentElements (m : mesh) (pairing : list (nat * nat)) (side : nat * nat -> nat) : option (list nat) :=
  for_each pairing (fun pair result =>
    let coordId := side pair in
    n <- nodeIndex m coordId;
    node <- getEntity m 0 n;
    for_each node (fun '(elementID, localId) result =>
      e <- getElement m elementID;
      c <- getCoordinateIndex e localId;
      Some (if c =? coordId then sinsert Nat.ltb elementID result else result)) result) [].

(** getNumberOfIncidentEntities<d> of an element, d < dimension: MeshEntity_Impl.h:115-133 with
    Element_Impl.h:144-177.  All parts of a shape are adjacent to its interior. *)
Definition getNumberOfIncidentEntities (e : element) (d : nat) : option nat :=
  l <- nth_error (incidenceLists e) d;
  want <- getNumberOfEntities (referenceGeometry e) d;
  Some (if length l <? want then 0 else want).
(** MergePlan.h:95-113 forEachBoundingEntity *)
Definition forEachBoundingEntity {St} (m : mesh) (d : nat) (elements : list nat)
    (f : element -> nat -> St -> option St) (s : St) : option St :=
  for_each elements (fun gid s =>
    e <- getElement m gid;
    n <- getNumberOfIncidentEntities e d;
    for_loop n (fun i s => f e i s) s) s.

(** std::map<std::set<CoordId>, EntityGId> *)
Notation kfind := (mfind (lex_ltb Nat.ltb)).
Notation kput := (mput (lex_ltb Nat.ltb)).
(** Inserting values into an empty std::set *)
Definition set_of (l : list nat) : list nat := fold_left (fun s x => sinsert Nat.ltb x s) l [].

(** MergePlan.h:443-490 findLeftCandidates.  [None] in the accumulator: the lambda returned early. *)
Definition findLeftCandidates (m : mesh) (d : nat) (pairing : list (nat * nat)) (left : list nat) : option (list (list nat * nat)) :=
  forEachBoundingEntity m d left (fun e lid candidates =>
    nodes <- getNodesOfEntity (referenceGeometry e) d lid;
    mapped <- for_each nodes (fun n acc =>
      match acc with
      | None => Some None
      | Some rightCoords =>
          c <- getCoordinateIndex e n;
          match mfind Nat.ltb c pairing with
          | None => Some None
          | Some c' => Some (Some (sinsert Nat.ltb c' rightCoords))
          end
      end) (Some []);
    match mapped with
    | None => Some candidates
    | Some rightCoords =>
        if length nodes =? length rightCoords then
          x <- getIncidentEntityIndex e d lid; Some (kput rightCoords x candidates)
        else None
    end) [].

(** MergePlan.h:385-441 computeMergePlanLevels, one level: the pairs *)
Definition levelPairs (m : mesh) (d : nat) (pairing : list (nat * nat)) (left right : list nat) : option (list (nat * nat)) :=
  candidates <- findLeftCandidates m d pairing left;
  forEachBoundingEntity m d right (fun e rid pairs =>
    nodes <- getNodesOfEntity (referenceGeometry e) d rid;
    coords <- for_each nodes (fun n acc => c <- getCoordinateIndex e n; Some (acc ++ [c])) [];
    match kfind (set_of coords) candidates with
    | None => Some pairs
    | Some leftEntity => x <- getIncidentEntityIndex e d rid; Some (pairs ++ [(leftEntity, x)])
    end) [].
(** MergePlan.h:339-352: the pairs of nodes *)
Definition nodePairs (m : mesh) (pairing : list (nat * nat)) : option (list (nat * nat)) :=
  for_each pairing (fun '(a, b) acc => x <- nodeIndex m a; y <- nodeIndex m b; Some (acc ++ [(x, y)])) [].

(** MergePlan.h:333-383 computeMergePlan: the groups of each dimension.  [fuel] is for groupMerges. *)
Definition computeMergePlan (fuel : nat) (m : mesh) (pairing : list (nat * nat)) : option (list (list (list nat))) :=
  let dimension := length (meshEntities m) in
  match pairing with
  | [] => Some (repeat [] dimension)
  | _ =>
      np <- nodePairs m pairing;
      g0 <- groupMerges fuel np;
      left <- computeAdjacentElements m pairing fst;
      right <- computeAdjacentElements m pairing snd;
      for_from 1 (dimension - 1) (fun d merges =>
        ps <- levelPairs m d pairing left right;
        g <- groupMerges fuel ps;
        Some (merges ++ [g])) [g0]
  end.

(** MergePlan.h:492-512 executeMerge *)
Definition executeGroup (d : nat) (group : list nat) (m : mesh) : option mesh :=
  match group with
  | target :: others => for_each others (fun s m => merge m d target s) m
  | [] => Some m
  end.
Definition executeMerge (merges : list (list (list nat))) (m : mesh) : option mesh :=
  for_loop (length (meshEntities m)) (fun d m =>
    groups <- nth_error merges d; for_each groups (executeGroup d) m) m.
