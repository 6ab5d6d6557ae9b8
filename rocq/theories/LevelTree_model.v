(** Base::LevelTree, Base::TreeEntry and Base::TreeIterator: a forest of entries and the
    iterators that walk over it (kernel/Base/LevelTree_Impl.h, TreeEntry.h, TreeIterator.h). *)
From Coq Require Import List Arith Bool.
Import ListNotations.

(** Sequencing of operations that may fail: [None] is a failed assertion, the dereference of
    an iterator that points past the end, or a loop that has not finished after [fuel] rounds. *)
Definition bind {A B} (x : option A) (f : A -> option B) : option B :=
  match x with Some a => f a | None => None end.
Notation "'do' x <- a ;; b" := (bind a (fun x => b)) (at level 200, x name, a at level 100, b at level 200).

(** [while (cond) body], cut off after [fuel] rounds. Both may fail. *)
Fixpoint while {St} (fuel : nat) (cond : St -> option bool) (body : St -> option St) (s : St)
  : option St :=
  do c <- cond s ;;
  if c then match fuel with
            | 0 => None
            | S n => do s' <- body s ;; while n cond body s'
            end
  else Some s.

Section LevelTree.
Context {V : Type}.

(** TreeEntry (TreeEntry.h 68-320): data_, level_ (the lowest level of the entry), depth_ (the
    number of levels it occupies) and children_. siblings_, siblingIndex_ and parent_ are given
    by the position in the forest. *)
Inductive Tree := Node (data_ : V) (level_ depth_ : nat) (children_ : list Tree).
Definition data (t : Tree) := let 'Node v _ _ _ := t in v.
Definition level (t : Tree) := let 'Node _ l _ _ := t in l.
Definition depth (t : Tree) := let 'Node _ _ d _ := t in d.
Definition children (t : Tree) := let 'Node _ _ _ c := t in c.

(** An entry on the way from a root to the position of an iterator, without its children:
    the siblings before it (nearest first), its own fields, the siblings behind it. *)
Record Frame := { f_before : list Tree; f_data : V; f_level : nat; f_depth : nat;
                  f_after : list Tree }.
Definition plug (fr : Frame) (c : list Tree) : Tree := Node (f_data fr) (f_level fr) (f_depth fr) c.

(** TreeIterator (TreeIterator.h 626-640). ptr_ points into the vector of siblings
    [rev before ++ after], at the first entry of [after]; [after = []] is ptr_ == end_.
    [above] leads from the parent of these siblings to its root; counter is depthCounter_.
    traversalMethod_ is a parameter of the operations that use it. *)
Record Iter := { before : list Tree; after : list Tree; above : list Frame; counter : nat }.

Inductive Method := SingleLevel (activeLevel : nat) | AllLevel | PreOrder | PostOrder.

(** ptr_ == end_ *)
Definition atEnd (i : Iter) : bool := match after i with [] => true | _ => false end.
(** the entry that ptr_ points at *)
Definition entry (i : Iter) : option Tree := match after i with [] => None | t :: _ => Some t end.
(** [TreeEntry::isRoot] 130, [isFirstSibling] 171, [isLastSibling] 174-176, [hasChild] 265 *)
Definition isRoot (i : Iter) : option bool := do t <- entry i ;; Some (level t =? 0).
Definition isFirstSibling (i : Iter) : option bool :=
  do t <- entry i ;; Some (length (before i) =? 0).
Definition isLastSibling (i : Iter) : option bool :=
  do t <- entry i ;; Some (S (length (before i)) =? length (before i) + length (after i)).
Definition hasChild (i : Iter) : option bool :=
  do t <- entry i ;; Some (negb (length (children t) =? 0)).
(** ptr->getLevel() + depthCounter_ *)
Definition currentLevel (i : Iter) : option nat := do t <- entry i ;; Some (level t + counter i).
(** ++ptr_ and --ptr_ *)
Definition ptrNext (i : Iter) : option Iter :=
  match after i with
  | [] => None
  | t :: r => Some {| before := t :: before i; after := r; above := above i; counter := counter i |}
  end.
Definition ptrPrev (i : Iter) : option Iter :=
  match before i with
  | [] => None
  | t :: b => Some {| before := b; after := t :: after i; above := above i; counter := counter i |}
  end.
Definition setCounter (c : nat) (i : Iter) : Iter :=
  {| before := before i; after := after i; above := above i; counter := c |}.
(** children_[k]->getIterator(...) / entries_[k]->getIterator(...) with the parents [ab]
    (TreeEntry.h 105-124, TreeIterator.h 115-122) *)
Definition iteratorAt (ab : list Frame) (sibs : list Tree) (k : nat) : option Iter :=
  if k <? length sibs
  then Some {| before := rev (firstn k sibs); after := skipn k sibs; above := ab; counter := 0 |}
  else None.

(** canIncreaseCounter 345-347 *)
Definition canIncreaseCounter (i : Iter) : bool :=
  match after i with [] => false | t :: _ => counter i <? depth t - 1 end.

(** moveToParent 362-375 (with decreaseCounter 356-361 and setMaxDepthCounter 363-365) *)
Definition moveToParent (i : Iter) : option Iter :=
  match after i with
  | [] => None
  | t :: r =>
      if 0 <? counter i then Some (setCounter (counter i - 1) i)
      else if level t =? 0 then None
      else match above i with
           | [] => None
           | fr :: up => Some {| before := f_before fr;
                                 after := plug fr (rev (before i) ++ after i) :: f_after fr;
                                 above := up; counter := f_depth fr - 1 |}
           end
  end.

(** moveToChild 378-391 *)
Definition moveToChild (k : nat) (i : Iter) : option Iter :=
  match after i with
  | [] => None
  | t :: r =>
      if canIncreaseCounter i then Some (setCounter (S (counter i)) i)
      else iteratorAt ({| f_before := before i; f_data := data t; f_level := level t;
                          f_depth := depth t; f_after := r |} :: above i) (children t) k
  end.
(** moveToChild(ptr->getNumberOfChildren() - 1) *)
Definition moveToLastChild (i : Iter) : option Iter :=
  do t <- entry i ;; moveToChild (length (children t) - 1) i.

Definition andb' (a b : option bool) : option bool := do x <- a ;; if x then b else Some false.
Definition orb' (a b : option bool) : option bool := do x <- a ;; if x then Some true else b.
Definition not' (a : option bool) : option bool := do x <- a ;; Some (negb x).

(** moveUpToLevel 416-422 *)
Definition moveUpToLevel (fuel lev : nat) (i : Iter) : option Iter :=
  if atEnd i then None
  else while fuel (fun i => do l <- currentLevel i ;; Some (lev <? l)) moveToParent i.

(** moveToNextPreOrder 518-536 *)
Definition moveToNextPreOrder (fuel : nat) (i : Iter) : option Iter :=
  do h <- hasChild i ;;
  if h || canIncreaseCounter i then moveToChild 0 i
  else
    do i1 <- while fuel (fun i => andb' (not' (isRoot i)) (isLastSibling i)) moveToParent i ;;
    do last <- isLastSibling i1 ;;
    do i2 <- (if last then while fuel hasChild moveToLastChild i1 else Some i1) ;;
    do i3 <- ptrNext i2 ;;
    Some (setCounter 0 i3).

(** moveToPreviousPreOrder 539-552 *)
Definition moveToPreviousPreOrder (fuel : nat) (i : Iter) : option Iter :=
  do c <- (if atEnd i then Some true
           else andb' (not' (isFirstSibling i)) (Some (counter i =? 0))) ;;
  if c then do i1 <- ptrPrev i ;; while fuel hasChild moveToLastChild i1
  else do r <- isRoot i ;;
       if negb r || (0 <? counter i) then moveToParent i else None.

(** moveToNextPostOrder 555-568 *)
Definition moveToNextPostOrder (fuel : nat) (i : Iter) : option Iter :=
  do last <- isLastSibling i ;;
  if negb last && (counter i =? 0)
  then do i1 <- ptrNext i ;; while fuel hasChild (moveToChild 0) i1
  else do r <- isRoot i ;;
       if r && (counter i =? 0) then ptrNext i else moveToParent i.

(** hasPreviousPostOrder 589-600 *)
Definition hasPreviousPostOrder (fuel : nat) (i : Iter) : option bool :=
  if atEnd i then Some true
  else
    do h <- hasChild i ;; do f <- isFirstSibling i ;;
    if h || negb f || canIncreaseCounter i then Some true
    else
      do j <- while fuel (fun i => andb' (not' (isRoot i)) (isFirstSibling i)) moveToParent i ;;
      not' (isFirstSibling j).

(** moveToPreviousPostOrder 571-587 *)
Definition moveToPreviousPostOrder (fuel : nat) (i : Iter) : option Iter :=
  do p <- hasPreviousPostOrder fuel i ;;
  if negb p then None
  else if atEnd i then ptrPrev i
  else
    do h <- hasChild i ;;
    if h || canIncreaseCounter i then moveToLastChild i
    else do j <- while fuel isFirstSibling moveToParent i ;; ptrPrev j.

(** moveDownToLevelBegin 426-432; its result is !(ptr_ == end_) *)
Definition moveDownToLevelBegin (fuel lev : nat) (i : Iter) : option Iter :=
  while fuel (fun i => if atEnd i then Some false
                       else do l <- currentLevel i ;; Some (l <? lev))
        (moveToNextPreOrder fuel) i.

(** moveDownToLevelEnd 436-443; its result is whether the level is reached *)
Definition moveDownToLevelEnd (fuel lev : nat) (i : Iter) : option Iter :=
  while fuel (fun i => if atEnd i then Some true
                       else do l <- currentLevel i ;;
                            andb' (Some (l <? lev)) (hasPreviousPostOrder fuel i))
        (moveToPreviousPostOrder fuel) i.

Definition stepBackFromEnd (i : Iter) : option Iter := if atEnd i then ptrPrev i else Some i.

(** moveToFirstOnLevel 394-402 *)
Definition moveToFirstOnLevel (fuel lev : nat) (i : Iter) : option Iter :=
  do i1 <- stepBackFromEnd i ;;
  do i2 <- moveUpToLevel fuel 0 i1 ;;
  do i3 <- iteratorAt (above i2) (rev (before i2) ++ after i2) 0 ;;
  moveDownToLevelBegin fuel lev i3.

(** moveToLastOnLevel 405-414 *)
Definition moveToLastOnLevel (fuel lev : nat) (i : Iter) : option Iter :=
  do i1 <- stepBackFromEnd i ;;
  do i2 <- moveUpToLevel fuel 0 i1 ;;
  let sibs := rev (before i2) ++ after i2 in
  do i3 <- iteratorAt (above i2) sibs (length sibs - 1) ;;
  moveDownToLevelEnd fuel lev i3.

(** moveToNextOnLevel 446-474 *)
Definition moveToNextOnLevel (fuel : nat) (i : Iter) : option Iter :=
  do lev <- currentLevel i ;;
  do i1 <- while fuel (fun i => andb' (isLastSibling i) (not' (isRoot i))) moveToParent i ;;
  do last <- isLastSibling i1 ;;
  if last then ptrNext i
  else
    do i2 <- ptrNext i1 ;;
    do i3 <- moveDownToLevelBegin fuel lev (setCounter 0 i2) ;;
    if atEnd i3 then ptrNext i else Some i3.

(** moveToPreviousOnLevel 477-501 *)
Definition moveToPreviousOnLevel (fuel : nat) (i : Iter) : option Iter :=
  if atEnd i then ptrPrev i
  else
    do lev <- currentLevel i ;;
    do i1 <- while fuel isFirstSibling moveToParent i ;;
    do i2 <- ptrPrev i1 ;;
    do i3 <- moveDownToLevelEnd fuel lev (setCounter 0 i2) ;;
    do l <- currentLevel i3 ;;
    if l =? lev then Some i3 else None.

(** moveToNextMultiLevel 602-613 *)
Definition moveToNextMultiLevel (fuel : nat) (i : Iter) : option Iter :=
  do i1 <- moveToNextOnLevel fuel i ;;
  if atEnd i1
  then do i2 <- ptrPrev i1 ;;
       do l <- currentLevel i2 ;;
       moveToFirstOnLevel fuel (S l) i2
  else Some i1.

(** moveToPreviousMultiLevel 615-625 with hasPreviousOnLevel 503-515 inlined.
    hasPreviousOnLevel decrements a copy of the iterator, in the code with operator--: [n]
    bounds the nesting of these decrements. *)
Fixpoint moveToPreviousMultiLevel (n fuel : nat) (i : Iter) : option Iter :=
  do has <-
    (if atEnd i then Some true
     else
       do f <- isFirstSibling i ;;
       if negb f then Some true
       else
         do lev <- currentLevel i ;;
         do j <- while fuel (fun i => andb' (not' (isRoot i)) (isFirstSibling i)) moveToParent i ;;
         do first <- isFirstSibling j ;;
         if first then Some false
         else match n with
              | 0 => None
              | S n' => do j1 <- moveToPreviousMultiLevel n' fuel j ;;
                        do j2 <- moveDownToLevelEnd fuel lev j1 ;;
                        do l <- currentLevel j2 ;;
                        Some (l =? lev)
              end) ;;
  if has then moveToPreviousOnLevel fuel i
  else do lev <- currentLevel i ;;
       if 0 <? lev then moveToLastOnLevel fuel (lev - 1) i else None.

(** operator++ 180-205 and operator-- 207-228 *)
Definition increment (fuel : nat) (m : Method) (i : Iter) : option Iter :=
  if atEnd i then None
  else match m with
       | AllLevel => moveToNextMultiLevel fuel i
       | PreOrder => moveToNextPreOrder fuel i
       | PostOrder => moveToNextPostOrder fuel i
       | SingleLevel _ => moveToNextOnLevel fuel i
       end.
Definition decrement (fuel : nat) (m : Method) (i : Iter) : option Iter :=
  match m with
  | AllLevel => moveToPreviousMultiLevel fuel fuel i
  | PreOrder => moveToPreviousPreOrder fuel i
  | PostOrder => moveToPreviousPostOrder fuel i
  | SingleLevel _ => moveToPreviousOnLevel fuel i
  end.

(** Which entry of the forest an iterator points at: sibling indices, the own one first.
    Two entries of one forest are the same object exactly when their places are equal. *)
Definition place (i : Iter) : list nat :=
  length (before i) :: map (fun fr => length (f_before fr)) (above i).
(** operator== 260-272, for two iterators of one forest with the same traversal method *)
Definition iterEqual (i j : Iter) : bool :=
  if negb (atEnd i) && negb (atEnd j)
  then if list_eq_dec Nat.eq_dec (place i) (place j) then true else false
  else atEnd i && atEnd j.

(** The constructor with a level (TreeIterator.h 101-112) and setSingleLevelTraversal 281-292
    for an iterator that is not past the end. *)
Definition getIterator (fuel : nat) (m : Method) (i : Iter) : option Iter :=
  match m with
  | SingleLevel lev =>
      do l <- currentLevel i ;;
      if lev <? l then moveUpToLevel fuel lev i else moveDownToLevelBegin fuel lev i
  | _ => Some i
  end.

(** LevelTree::begin 117-129. The empty LevelTree has no entry: its iterators are the
    default constructed ones, which are past the end. *)
Definition emptyIter : Iter := {| before := []; after := []; above := []; counter := 0 |}.
Definition begin (fuel : nat) (m : Method) (f : list Tree) : option Iter :=
  match f with
  | [] => Some emptyIter
  | _ =>
      do i <- iteratorAt [] f 0 ;;
      do i1 <- getIterator fuel m i ;;
      match m with
      | PostOrder => while fuel hasChild (moveToChild 0) i1
      | _ => Some i1
      end
  end.

(** LevelTree::end 133-152 *)
Definition end_ (fuel : nat) (m : Method) (f : list Tree) : option Iter :=
  match f with
  | [] => Some emptyIter
  | _ =>
      do i <- iteratorAt [] f (length f - 1) ;;
      do i1 <- getIterator fuel m i ;;
      do i2 <- match m with
               | PreOrder | AllLevel => while fuel hasChild moveToLastChild i1
               | SingleLevel lev => moveToLastOnLevel fuel lev i1
               | PostOrder => Some i1
               end ;;
      increment fuel m i2
  end.

(** for (it = tree.begin(); it != tree.end(); ++it) visit the entry: the visited entries in order;
    at most [n] of them. *)
Fixpoint visitFrom (n fuel : nat) (m : Method) (f : list Tree) (i : Iter) : option (list V) :=
  do e <- end_ fuel m f ;;
  if iterEqual i e then Some []
  else match n with
       | 0 => None
       | S n' => do t <- entry i ;;
                 do i' <- increment fuel m i ;;
                 do r <- visitFrom n' fuel m f i' ;;
                 Some (data t :: r)
       end.
Definition visit (fuel : nat) (m : Method) (f : list Tree) : option (list V) :=
  do i <- begin fuel m f ;; visitFrom fuel fuel m f i.

(** The members entries_ and maxLevel_ of LevelTree (LevelTree.h). *)
Record LevelTree := { entries_ : list Tree; maxLevel_ : nat }.
Definition emptyTree : LevelTree := {| entries_ := []; maxLevel_ := 0 |}.

(** TreeEntry(data, level) 70-76 *)
Definition newEntry (lev : nat) (v : V) : Tree := Node v lev 1 [].

(** addRootEntry 215-220 *)
Definition addRootEntry (v : V) (lt : LevelTree) : LevelTree :=
  {| entries_ := entries_ lt ++ [newEntry 0 v]; maxLevel_ := max 1 (maxLevel_ lt) |}.

(** Replace the entry at the place [p] (sibling indices from the root downwards) by [g] of it:
    what a member function called on that entry does to the forest. *)
Fixpoint updateAt (p : list nat) (g : Tree -> Tree) (f : list Tree) : option (list Tree) :=
  match p with
  | [] => None
  | k :: p' =>
      match nth_error f k with
      | None => None
      | Some t =>
          match p' with
          | [] => Some (firstn k f ++ g t :: skipn (S k) f)
          | _ => do c <- updateAt p' g (children t) ;;
                 Some (firstn k f ++ Node (data t) (level t) (depth t) c :: skipn (S k) f)
          end
      end
  end.
Fixpoint entryAt (p : list nat) (f : list Tree) : option Tree :=
  match p with
  | [] => None
  | k :: p' =>
      match nth_error f k with
      | None => None
      | Some t => match p' with [] => Some t | _ => entryAt p' (children t) end
      end
  end.

(** TreeEntry::addChild/addChildren 278-292 and setDepth 144-147 *)
Definition withChildren (vs : list V) (t : Tree) : Tree :=
  Node (data t) (level t) (depth t) (children t ++ map (newEntry (level t + depth t)) vs).
Definition withDepth (d : nat) (t : Tree) : Tree := Node (data t) (level t) d (children t).

(** addChildren and addChild (one value) 223-240; [p] is where parentEl points. getLastChild
    asserts that there is a child afterwards. *)
Definition addChildren (p : list nat) (vs : list V) (lt : LevelTree) : option LevelTree :=
  do t <- entryAt p (entries_ lt) ;;
  if length (children (withChildren vs t)) =? 0 then None
  else
    do f <- updateAt p (withChildren vs) (entries_ lt) ;;
    do t' <- entryAt p f ;;
    match rev (children t') with
    | [] => None
    | lastChild :: _ =>
        Some {| entries_ := f; maxLevel_ := max (depth lastChild + level lastChild) (maxLevel_ lt) |}
    end.
(** addChildren and addChild with a level 243-269 *)
Definition addChildrenAtLevel (p : list nat) (vs : list V) (lev : nat) (lt : LevelTree)
  : option LevelTree :=
  do t <- entryAt p (entries_ lt) ;;
  if level t <? lev
  then do f <- updateAt p (withDepth (lev - level t)) (entries_ lt) ;;
       addChildren p vs {| entries_ := f; maxLevel_ := maxLevel_ lt |}
  else None.

(** eraseChilds 329-339: removeChildren (TreeEntry.h 295-301), then maxLevel_ is lowered while no
    entry is found on the last level. *)
Fixpoint lowerMaxLevel (n fuel : nat) (f : list Tree) (m : nat) : option nat :=
  do i <- iteratorAt [] f 0 ;;
  do j <- moveDownToLevelBegin fuel (m - 1) i ;;
  if atEnd j then match n with 0 => None | S n' => lowerMaxLevel n' fuel f (m - 1) end
  else Some m.
Definition eraseChilds (fuel : nat) (p : list nat) (lt : LevelTree) : option LevelTree :=
  do f <- updateAt p (fun t => Node (data t) (level t) 1 []) (entries_ lt) ;;
  do m <- lowerMaxLevel fuel fuel f (maxLevel_ lt) ;;
  Some {| entries_ := f; maxLevel_ := m |}.

(** Mesh::addElement, addFace, addEdge (kernel/Base/Mesh_Impl.h 141-151, 167-187, 209-215): the
    place that setPositionInTree((--elements_.end()).getTreeEntry()) stores in the new object. *)
Definition recordedPosition (fuel : nat) (m : Method) (lt : LevelTree) : option (list nat) :=
  do e <- end_ fuel m (entries_ lt) ;;
  do i <- decrement fuel m e ;;
  do t <- entry i ;;
  Some (place i).
Definition addEntity (fuel : nat) (m : Method) (v : V) (lt : LevelTree)
  : option (LevelTree * list nat) :=
  let lt' := addRootEntry v lt in
  do p <- recordedPosition fuel m lt' ;; Some (lt', p).

(** Mesh::addSubElements, addSubFaces (Mesh_Impl.h 154-164, 190-206): the pairs (object, place)
    of the calls subElements[i]->setPositionInTree(parent->getPositionInTree()->getChild(i));
    the place is given from the root downwards. [None] when subElements has no entry i. *)
Fixpoint positionsFrom (p : list nat) (vs : list V) (i n : nat) : option (list (V * list nat)) :=
  match n with
  | 0 => Some []
  | S n' => match nth_error vs i with
            | None => None
            | Some v => do r <- positionsFrom p vs (S i) n' ;; Some ((v, p ++ [i]) :: r)
            end
  end.
Definition addSubEntities (p : list nat) (vs : list V) (lt : LevelTree)
  : option (LevelTree * list (V * list nat)) :=
  do lt' <- addChildren p vs lt ;;
  do t <- entryAt p (entries_ lt') ;;
  do ps <- positionsFrom p vs 0 (length (children t)) ;;
  Some (lt', ps).

End LevelTree.
Arguments Tree : clear implicits.
Arguments Frame : clear implicits.
Arguments Iter : clear implicits.
Arguments LevelTree : clear implicits.

(** fillToLevel 277-291: every leaf is extended to the level. The loop over all entries in
    post-order changes nothing but depth_ of the entry it is at, and only of leaves, so it is
    written here as a map over the forest. *)
Fixpoint fillTree {V} (lev : nat) (t : Tree V) : Tree V :=
  match t with
  | Node v l d [] => Node v l (if l + d - 1 <? lev then lev - l + 1 else d) []
  | Node v l d c => Node v l d (map (fillTree lev) c)
  end.
Definition fillToLevel {V} (lev : nat) (lt : LevelTree V) : LevelTree V :=
  {| entries_ := map (fillTree lev) (entries_ lt); maxLevel_ := max (lev + 1) (maxLevel_ lt) |}.
