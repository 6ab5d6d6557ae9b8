(** Model of the exchange lists of Base::Submesh (kernel/Base/Submesh.cpp, Submesh.h) on all [n] MPI processes, of the
    part of MeshManipulator::readMesh that fills them, and of HpgemAPIBase::synchronize.
    Elements are represented by their id, which is the same on all processes.  processPullRequests is collective:
    all processes call it together and only communicate by collective MPI functions, so it is modelled as one
    function on the list of all processes.  [None]: out of range access or failed assertion. *)
From Coq Require Import List Arith Bool.
From Verif Require Import Loop_model Std_model StdMap_model.
Import ListNotations.

Notation "x <- a ; b" := (match a with None => None | Some x => b end) (at level 100, a at next level, right associativity).

(** Submesh.h:160-200.  Only root entries are ever added to elements_ (refined elements are only added to the list of
    the mesh, Mesh_Impl.h:154-165), so it is a list. *)
Record submesh := Submesh {
  elements : list nat;
  pullElements : list (nat * list nat); pushElements : list (nat * list nat);
  otherPulls : list nat }.

(** m[k].push_back(x) *)
Definition push_back (m : list (nat * list nat)) (k x : nat) : list (nat * list nat) :=
  mput Nat.ltb k (match mfind Nat.ltb k m with Some l => l | None => [] end ++ [x]) m.

(** Submesh.cpp:49-52 add of an element *)
Definition add (s : submesh) (e : nat) : submesh :=
  Submesh (elements s ++ [e]) (pullElements s) (pushElements s) (otherPulls s).
(** Submesh.cpp:54-57 addPush *)
Definition addPush (s : submesh) (e pid : nat) : submesh :=
  Submesh (elements s) (pullElements s) (push_back (pushElements s) pid e) (otherPulls s).
(** Submesh.cpp:59-62 addPull *)
Definition addPull (s : submesh) (e pid : nat) : submesh :=
  Submesh (elements s) (push_back (pullElements s) pid e) (pushElements s) (otherPulls s).

(** std::inplace_merge of a sorted range and one more element *)
Fixpoint merge_last (l : list nat) (x : nat) : list nat :=
  match l with [] => [x] | y :: r => if x <? y then x :: l else y :: merge_last r x end.
(** Submesh.h:79-93 addPullElement; std::binary_search on a sorted range is membership *)
Definition addPullElement (s : submesh) (e : nat) : submesh :=
  if existsb (Nat.eqb e) (otherPulls s) then s
  else Submesh (elements s) (pullElements s) (pushElements s) (merge_last (otherPulls s) e).

(** std::partial_sum *)
Fixpoint partial_sum_from (a : nat) (l : list nat) : list nat :=
  match l with [] => [] | x :: r => (a + x) :: partial_sum_from (a + x) r end.
Definition partial_sum (l : list nat) : list nat := partial_sum_from 0 l.
(** the part of [l] of [len] entries from [start] *)
Definition slice {A} (l : list A) (start len : nat) : option (list A) :=
  if start + len <=? length l then Some (firstn len (skipn start l)) else None.

(** Submesh.cpp:106-112: numberOfElements after MPI_Allgather *)
Definition numberOfElements (system : list submesh) : list nat := 0 :: map (fun s => S (length (elements s))) system.

(** Submesh.cpp:117-131: the part of elementIDs that process [rank] fills, sorts and sends with MPI_Allgatherv;
    [top] is the largest std::size_t *)
Definition ownIDs (top : nat) (system : list submesh) (rank : nat) (s : submesh) : option (list nat) :=
  let cumulative := partial_sum (numberOfElements system) in
  total <- nth_error cumulative (length system);
  start <- nth_error cumulative rank;
  stop <- nth_error cumulative (S rank);
  ids <- for_loop (length (elements s)) (fun k v => x <- nth_error (elements s) k; write v (start + k) x) (repeat 0 total);
  ids <- write ids (start + length (elements s)) top;
  part <- slice ids start (stop - start);
  Some (sort part).

(** Submesh.cpp:132-136: elementIDs after MPI_Allgatherv *)
Definition elementIDs (top : nat) (system : list submesh) : option (list nat) :=
  blocks <- collect (length system) (fun r => s <- nth_error system r; ownIDs top system r s);
  Some (List.concat blocks).

(** Submesh.cpp:153-155: while ( *it < id) it++.  An iterator is what is left of elementIDs. *)
Fixpoint advance (it : list nat) (id : nat) : option (list nat) :=
  match it with [] => None | x :: r => if x <? id then advance r id else Some it end.

(** searchIterators, pullElements_, newPushes *)
Definition searching := (list (list nat) * list (nat * list nat) * list (list nat))%type.
(** Submesh.cpp:152-161 *)
Definition requestFrom (rank id i : nat) (st : searching) : option searching :=
  if i =? rank then Some st
  else
    let '(its, pulls, newPushes) := st in
    it <- nth_error its i;
    it <- advance it id;
    its <- write its i it;
    match it with
    | [] => None
    | x :: _ =>
        if x =? id then
          old <- nth_error newPushes i;
          newPushes <- write newPushes i (old ++ [id]);
          Some (its, push_back pulls i id, newPushes)
        else Some (its, pulls, newPushes)
    end.

(** Submesh.cpp:138-164: pullElements_ and newPushes of process [rank] *)
Definition insertPullRequests (ids : list nat) (system : list submesh) (rank : nat) (s : submesh) :
  option (list (nat * list nat) * list (list nat)) :=
  let cumulative := partial_sum (numberOfElements system) in
  its <- collect (length system) (fun i => c <- nth_error cumulative i; Some (skipn c ids));
  st <- for_loop (length (otherPulls s)) (fun k st =>
          id <- nth_error (otherPulls s) k;
          for_loop (length system) (requestFrom rank id) st)
        (its, pullElements s, repeat [] (length system));
  let '(_, pulls, newPushes) := st in Some (pulls, newPushes).

(** Submesh.cpp:167-175: numberOfSendElements and sendBuffer *)
Definition numberOfSendElements (newPushes : list (list nat)) : list nat := 0 :: map (@length nat) newPushes.
Definition sendBuffer (newPushes : list (list nat)) : list nat := List.concat newPushes.

(** Submesh.cpp:181-184: numberOfRecieveElements of process [q] after MPI_Alltoall *)
Definition numberOfRecieveElements (all : list (list (list nat))) (q : nat) : option (list nat) :=
  counts <- collect (length all) (fun p => newPushes <- nth_error all p; nth_error (numberOfSendElements newPushes) (S q));
  Some (0 :: counts).
(** Submesh.cpp:188-195: recieveBuffer of process [q] after MPI_Alltoallv, which puts what process p sends at the sum
    of the counts of the processes before p *)
Definition recieveBuffer (all : list (list (list nat))) (q : nat) : option (list nat) :=
  parts <- collect (length all) (fun p =>
    newPushes <- nth_error all p;
    start <- nth_error (partial_sum (numberOfSendElements newPushes)) q;
    count <- nth_error (numberOfSendElements newPushes) (S q);
    slice (sendBuffer newPushes) start count);
  Some (List.concat parts).

(** Submesh.cpp:196-209: pushElements_ of process [q] *)
Definition insertPushes (all : list (list (list nat))) (q : nat) (s : submesh) : option (list (nat * list nat)) :=
  counts <- numberOfRecieveElements all q;
  buffer <- recieveBuffer all q;
  r <- for_loop (length all) (fun i '(k, pushes) =>
         stop <- nth_error (partial_sum counts) (S i);
         pushes <- for_from k (stop - k) (fun j pushes =>
             id <- nth_error buffer j;
             if existsb (Nat.eqb id) (elements s) then Some (push_back pushes i id) else None) pushes;
         Some (stop, pushes))
       (0, pushElements s);
  Some (snd r).

(** Submesh.cpp:89-213 processPullRequests *)
Definition processPullRequests (top : nat) (system : list submesh) : option (list submesh) :=
  if existsb (fun s => negb (length (otherPulls s) =? 0)) system then
    ids <- elementIDs top system;
    found <- collect (length system) (fun r => s <- nth_error system r; insertPullRequests ids system r s);
    collect (length system) (fun r =>
      s <- nth_error system r;
      new <- nth_error found r;
      pushes <- insertPushes (map snd found) r s;
      Some (Submesh (elements s) (fst new) pushes []))
  else Some system.

(** MeshManipulator_Impl.h:1654-1695: the partition and the shadow partitions of an element in the mesh file *)
Record line := Line { partition : nat; shadowPartitions : list nat }.
(** MeshManipulator_Impl.h:1678-1699: element [id] is read on process [processorID] *)
Definition readElement (processorID id : nat) (l : line) (s : submesh) : submesh :=
  if partition l =? processorID then
    fold_left (fun s shadowPartition => addPush s id shadowPartition) (shadowPartitions l) (add s id)
  else if existsb (Nat.eqb processorID) (shadowPartitions l) then addPull s id (partition l)
  else s.
(** MeshManipulator_Impl.h:1636-1704: the elements are numbered from [first] on *)
Fixpoint readElements (processorID first : nat) (lines : list line) (s : submesh) : submesh :=
  match lines with [] => s | l :: r => readElements processorID (S first) r (readElement processorID first l s) end.
Definition readMesh (first : nat) (lines : list line) (processorID : nat) : submesh :=
  readElements processorID first lines (Submesh [] [] [] []).
