(** Model of Utilities::GlobalIndexing (kernel/Utilities/GlobalIndexing.{h,cpp}), the part
    that numbers the basis functions; the exchange between processes is in
    IndexExchange_model.v.

    Indices are unbounded (no overflow of int).  offsets_, a vector with one entry per
    unknown, is a function of the unknown: reset() checks with assert_always that every
    unknown used as index is in range.  The four maps in an entry are one map per kind of
    geometric object.  Objects are identified by their kind and id. *)
From Coq Require Import List Arith ZArith Bool.
From Verif Require Import Loop_model StdMap_model.
Import ListNotations.

Inductive Kind := KElement | KFace | KEdge | KNode.
Definition kind_eqb (a b : Kind) : bool :=
  match a, b with
  | KElement, KElement | KFace, KFace | KEdge, KEdge | KNode, KNode => true
  | _, _ => false
  end.
Definition object := (Kind * nat)%type.

(** A distributed mesh.  [elementsOf k x] are the elements adjacent to object [x] of kind
    [k], in the order of the mesh file (MeshManipulator_Impl.h:1644-1815): for a face its
    left and right element; for an element the element itself.  A process sees the
    elements it owns and those in its shadow layer, [visible]. *)
Record Mesh := {
  dimension : nat;
  numberOfUnknowns : nat;
  elements : list nat;
  owner : nat -> nat;
  localElements : nat -> list nat;                 (* getElementsList() on a process *)
  objectsOf : Kind -> nat -> list nat;             (* getFacesList(), getEdgesList(), getNodesList() of an element *)
  elementsOf : Kind -> nat -> list nat;
  visible : nat -> nat -> bool;                    (* process, element *)
  localNumberOfBasisFunctions : Kind -> nat -> nat -> nat   (* kind, id, unknown *)
}.

Definition smap := list (nat * nat).
(** GlobalIndexing.h:456-497 struct Offsets *)
Record Offsets := {
  blockStart_ : nat;
  localOffset_ : nat;
  numberOfBasisFunctionsInBlock_ : nat;
  includedInIndex_ : bool;
  table : Kind -> smap       (* elementOffsets_, faceOffsets_, edgeOffsets_, nodeOffsets_ *)
}.
Definition noOffsets (included : bool) : Offsets :=
  {| blockStart_ := 0; localOffset_ := 0; numberOfBasisFunctionsInBlock_ := 0;
     includedInIndex_ := included; table := fun _ => [] |}.

(** GlobalIndexing.h:499-511, the state *)
Record GlobalIndexing := {
  offsets_ : nat -> Offsets;
  totalNumberOfUnknowns_ : nat;
  localNumberOfBasisFunctions_ : nat;
  globalNumberOfBasisFunctions_ : nat;
  includedUnknowns_ : list nat
}.

(** offset.<kind>Offsets_[id] = v *)
Definition putOffset (o : Offsets) (k : Kind) (id v : nat) : Offsets :=
  {| blockStart_ := blockStart_ o; localOffset_ := localOffset_ o;
     numberOfBasisFunctionsInBlock_ := numberOfBasisFunctionsInBlock_ o;
     includedInIndex_ := includedInIndex_ o;
     table := fun k' => if kind_eqb k' k then mput Nat.ltb id v (table o k) else table o k' |}.
Definition upd (f : nat -> Offsets) (u : nat) (o : Offsets) : nat -> Offsets :=
  fun u' => if u' =? u then o else f u'.

(** GlobalIndexing.cpp:864-897 Offsets::setOffset *)
Definition setOffset (globalOffset localOffset number : nat) (o : Offsets) : Offsets :=
  {| blockStart_ := globalOffset; localOffset_ := localOffset;
     numberOfBasisFunctionsInBlock_ := number; includedInIndex_ := includedInIndex_ o;
     table := fun k => if globalOffset =? 0 then table o k
                       else map (fun p => (fst p, snd p + globalOffset)) (table o k) |}.

Section OnProcess.
Variable m : Mesh.

(** The first element adjacent to an object on process [p]: getPtrElementLeft() of a face
    (MeshManipulator_Impl.h:1721-1755 takes the first element that is present), getElement(0)
    of an edge or node. *)
Definition firstElement (p : nat) (k : Kind) (x : nat) : option nat :=
  hd_error (filter (visible m p) (elementsOf m k x)).
Definition isFirst (p : nat) (k : Kind) (e x : nat) : bool :=
  match firstElement p k x with Some e' => e' =? e | None => false end.

(** One step of the numbering: offsets_[unknown].<kind>Offsets_[id] = index;
    index += getLocalNumberOfBasisFunctions(unknown) *)
Definition assign (k : Kind) (x : nat) (s : (nat -> Offsets) * nat) (u : nat) : (nat -> Offsets) * nat :=
  (upd (fst s) u (putOffset (fst s u) k x (snd s)), snd s + localNumberOfBasisFunctions m k x u).

(** The objects numbered with one kind for element [e] (e.g. GlobalIndexing.cpp:234-241) *)
Definition numberKind (p : nat) (visit : Kind -> nat -> (nat -> Offsets) * nat -> (nat -> Offsets) * nat)
    (e : nat) (s : (nat -> Offsets) * nat) (k : Kind) : (nat -> Offsets) * nat :=
  fold_left (fun s x => if isFirst p k e x then visit k x s else s) (objectsOf m k e) s.
(** the body of the loop over the elements (GlobalIndexing.cpp:228-261 and 306-332):
    element, faces, edges and, if dimension() > 1, nodes *)
Definition numberElement (p : nat) (visit : Kind -> nat -> (nat -> Offsets) * nat -> (nat -> Offsets) * nat)
    (s : (nat -> Offsets) * nat) (e : nat) : (nat -> Offsets) * nat :=
  let s := visit KElement e s in
  let s := numberKind p visit e s KFace in
  let s := numberKind p visit e s KEdge in
  if 1 <? dimension m then numberKind p visit e s KNode else s.

(** GlobalIndexing.cpp:225-263, local ordering of constructUnblocked *)
Definition localUnblocked (p : nat) (included : list nat) (offsets : nat -> Offsets) : (nat -> Offsets) * nat :=
  fold_left (numberElement p (fun k x s => fold_left (assign k x) included s)) (localElements m p) (offsets, 0).

(** GlobalIndexing.cpp:296-335, local ordering of constructBlocked: also returns
    numberOfBasisFunctions[unknown] for the included unknowns, in order *)
Fixpoint localBlocked (p : nat) (included : list nat) (offsets : nat -> Offsets) : (nat -> Offsets) * list nat :=
  match included with
  | [] => (offsets, [])
  | u :: rest =>
      let s := fold_left (numberElement p (fun k x s => assign k x s u)) (localElements m p) (offsets, 0) in
      let r := localBlocked p rest (fst s) in
      (fst r, snd s :: snd r)
  end.
End OnProcess.

(** std::partial_sum of a vector in place *)
Fixpoint partial_sum (acc : nat) (l : list nat) : list nat :=
  match l with [] => [] | x :: r => (acc + x) :: partial_sum (acc + x) r end.
(** globalOffset[0] = base; MPI_Allgather of [counts] behind it; partial_sum
    (GlobalIndexing.cpp:275-283, 347-353, 370-377) *)
Definition gatherOffsets (base : nat) (counts : list nat) : list nat := partial_sum 0 (base :: counts).

Inductive Layout := SEQUENTIAL | BLOCKED_PROCESSOR | BLOCKED_GLOBAL.

Section System.
(** [n] processes that run reset() together *)
Variables (m : Mesh) (n : nat).
Definition procs : list nat := seq 0 n.

(** GlobalIndexing.cpp:225-293 on process [p]; the counts gathered are those that every
    process computes *)
Definition constructUnblocked (p : nat) (total : nat) (included : list nat) (offsets : nat -> Offsets) : option GlobalIndexing :=
  let s := localUnblocked m p included offsets in
  let counts := map (fun q => snd (localUnblocked m q included offsets)) procs in
  let globalOffset := gatherOffsets 0 counts in
  match nth_error globalOffset p, nth_error globalOffset n with
  | Some mpiOffset, Some N =>
      Some {| offsets_ := fun u => if (u <? total) && includedInIndex_ (fst s u)
                                   then setOffset mpiOffset 0 (snd s) (fst s u) else fst s u;
              totalNumberOfUnknowns_ := total;
              localNumberOfBasisFunctions_ := snd s;
              globalNumberOfBasisFunctions_ := N;
              includedUnknowns_ := included |}
  | _, _ => None
  end.

(** GlobalIndexing.cpp:343-368: the loop over the unknowns with [global]; [column j] are the
    numbers of basis functions of the j-th included unknown on all processes.  Returns the
    offsets and globalNumberOfBasisFunctions_ ([N] if there is no unknown). *)
Fixpoint blockedGlobal (p : nat) (us : list nat) (j : nat) (column : nat -> list nat)
    (baseOffset localBaseOffset N : nat) (offsets : nat -> Offsets) : option ((nat -> Offsets) * nat) :=
  match us with
  | [] => Some (offsets, N)
  | u :: rest =>
      let globalOffset := gatherOffsets baseOffset (column j) in
      match nth_error globalOffset p, nth_error globalOffset n, nth_error (column j) p with
      | Some mpiOffset, Some next, Some mine =>
          blockedGlobal p rest (S j) column next (localBaseOffset + mine) next
            (upd offsets u (setOffset mpiOffset localBaseOffset mine (offsets u)))
      | _, _, _ => None
      end
  end.
(** GlobalIndexing.cpp:378-388: the loop over the unknowns without [global] *)
Fixpoint blockedProcessor (us counts : list nat) (start localOffset : nat) (offsets : nat -> Offsets) : option (nat -> Offsets) :=
  match us, counts with
  | [], _ => Some offsets
  | u :: rest, mine :: counts =>
      blockedProcessor rest counts start (localOffset + mine)
        (upd offsets u (setOffset (start + localOffset) localOffset mine (offsets u)))
  | _, _ => None
  end.

(** GlobalIndexing.cpp:296-402 constructBlocked on process [p].  Without MPI (392-400) the
    code is the case of one process, where start and base offsets coincide. *)
Definition constructBlocked (global : bool) (p : nat) (total : nat) (included : list nat) (offsets : nat -> Offsets)
  : option GlobalIndexing :=
  let s := localBlocked m p included offsets in
  let local := fold_right Nat.add 0 (snd s) in
  let allCounts := map (fun q => snd (localBlocked m q included offsets)) procs in
  let finish o N := Some {| offsets_ := o; totalNumberOfUnknowns_ := total; localNumberOfBasisFunctions_ := local;
                            globalNumberOfBasisFunctions_ := N; includedUnknowns_ := included |} in
  if global then
    match blockedGlobal p included 0 (fun j => map (fun c => nth j c 0) allCounts) 0 0 0 (fst s) with
    | Some (o, N) => finish o N
    | None => None
    end
  else
    let globalOffset := gatherOffsets 0 (map (fold_right Nat.add 0) allCounts) in
    match nth_error globalOffset p, nth_error globalOffset n with
    | Some start, Some N =>
        match blockedProcessor included (snd s) start 0 (fst s) with
        | Some o => finish o N
        | None => None
        end
    | _, _ => None
    end.

(** std::sort of the unknowns *)
Fixpoint insert_sorted (x : nat) (l : list nat) : list nat :=
  match l with [] => [x] | y :: r => if x <=? y then x :: l else y :: insert_sorted x r end.
Definition sort (l : list nat) : list nat := fold_right insert_sorted [] l.

(** GlobalIndexing.cpp:152-223 reset with a mesh, on process [p], without the final
    exchange.  [unknowns = None] is the null pointer.  [None]: a failed assertion. *)
Definition reset (layout : Layout) (unknowns : option (list nat)) (p : nat) : option GlobalIndexing :=
  let total := numberOfUnknowns m in
  let setup :=
    match unknowns with
    | None => Some (seq 0 total, fun _ => noOffsets true)
    | Some us =>
        if (0 <? length us) && forallb (fun u => u <? total) us
        then Some (sort us, fun u => noOffsets (existsb (Nat.eqb u) us))
        else None
    end in
  match setup with
  | None => None
  | Some (included, offsets) =>
      match layout with
      | SEQUENTIAL => constructUnblocked p total included offsets
      | BLOCKED_GLOBAL => constructBlocked true p total included offsets
      | BLOCKED_PROCESSOR => constructBlocked false p total included offsets
      end
  end.
End System.

(** GlobalIndexing.h:141-192 getGlobalIndex(object, unknown) *)
Definition getGlobalIndex (g : GlobalIndexing) (k : Kind) (x u : nat) : option nat :=
  if (u <? totalNumberOfUnknowns_ g) && includedInIndex_ (offsets_ g u)
  then mfind Nat.ltb x (table (offsets_ g u) k) else None.
(** GlobalIndexing.h:202-246 getProcessorLocalIndex(object, unknown) *)
Definition getProcessorLocalIndex (g : GlobalIndexing) (k : Kind) (x u : nat) : option Z :=
  match getGlobalIndex g k x u with
  | None => None
  | Some i => Some (Z.of_nat i - Z.of_nat (blockStart_ (offsets_ g u)) + Z.of_nat (localOffset_ (offsets_ g u)))%Z
  end.
(** GlobalIndexing.h:489-494 Offsets::owns *)
Definition owns (o : Offsets) (globalIndex : Z) : bool :=
  includedInIndex_ o && (Z.of_nat (blockStart_ o) <=? globalIndex)%Z &&
  (globalIndex <? Z.of_nat (blockStart_ o) + Z.of_nat (numberOfBasisFunctionsInBlock_ o))%Z.
(** GlobalIndexing.h:251-261 globalToProcessorLocalIndex *)
Fixpoint findOwner (g : GlobalIndexing) (us : list nat) (globalIndex : Z) : Z :=
  match us with
  | [] => (-1)%Z
  | u :: us => if owns (offsets_ g u) globalIndex
               then (globalIndex - Z.of_nat (blockStart_ (offsets_ g u)) + Z.of_nat (localOffset_ (offsets_ g u)))%Z
               else findOwner g us globalIndex
  end.
Definition globalToProcessorLocalIndex (g : GlobalIndexing) (globalIndex : Z) : Z :=
  findOwner g (seq 0 (totalNumberOfUnknowns_ g)) globalIndex.

(** GlobalIndexing.cpp:61-137 getGlobalIndices(element, offset, indices).
    Writes to [indices] are checked; the final assertion compares with
    getNumberOfBasisFunctions(unknown) of the element, [total e u]. *)
Section Indices.
Variables (m : Mesh) (g : GlobalIndexing) (total : nat -> nat -> nat).
(** [count] consecutive indices starting at the offset of the object *)
Definition writeRange (k : Kind) (u x : nat) (s : list nat * nat) : option (list nat * nat) :=
  match getGlobalIndex g k x u with
  | None => None
  | Some basis0 =>
      for_loop (localNumberOfBasisFunctions m k x u)
        (fun i s => match write (fst s) (snd s) (basis0 + i) with None => None | Some v => Some (v, S (snd s)) end) s
  end.
Fixpoint writeRanges (k : Kind) (u : nat) (xs : list nat) (s : list nat * nat) : option (list nat * nat) :=
  match xs with
  | [] => Some s
  | x :: xs => match writeRange k u x s with None => None | Some s => writeRanges k u xs s end
  end.
Definition bind {X Y} (o : option X) (f : X -> option Y) : option Y := match o with None => None | Some x => f x end.
Definition writeUnknown (e u : nat) (s : list nat * nat) : option (list nat * nat) :=
  bind (writeRange KElement u e s) (fun s =>
  bind (writeRanges KFace u (objectsOf m KFace e) s) (fun s =>
  bind (writeRanges KEdge u (objectsOf m KEdge e) s) (fun s =>
  if 1 <? dimension m then writeRanges KNode u (objectsOf m KNode e) s else Some s))).
Definition getGlobalIndicesAt (e offset : nat) (indices : list nat) : option (list nat * nat) :=
  let nu := totalNumberOfUnknowns_ g in
  let totalBasisFunctions :=
    fold_left (fun acc u => if includedInIndex_ (offsets_ g u) then acc + total e u else acc) (seq 0 nu) 0 in
  let indices := if length indices <? offset + totalBasisFunctions
                 then vresize indices (offset + totalBasisFunctions) 0 else indices in
  match for_loop nu (fun u s => if includedInIndex_ (offsets_ g u) then writeUnknown e u s else Some s) (indices, offset) with
  | None => None
  | Some (indices, localBasisIndex) =>
      let expected := fold_left (fun acc u => acc + total e u) (includedUnknowns_ g) 0 in
      if localBasisIndex =? offset + expected then Some (indices, localBasisIndex) else None
  end.
(** GlobalIndexing.h:289-293 getGlobalIndices(element, indices) *)
Definition getGlobalIndicesOfElement (e : nat) (indices : list nat) : option (list nat) :=
  match getGlobalIndicesAt e 0 indices with None => None | Some (v, size) => Some (vresize v size 0) end.
(** GlobalIndexing.cpp:139-150 getGlobalIndices(face, indices); [right] if the face is internal *)
Definition getGlobalIndicesOfFace (left : nat) (right : option nat) (indices : list nat) : option (list nat) :=
  match getGlobalIndicesAt left 0 indices with
  | None => None
  | Some (v, size) =>
      match right with
      | None => Some (vresize v size 0)
      | Some r => match getGlobalIndicesAt r size v with None => None | Some (v, size) => Some (vresize v size 0) end
      end
  end.
End Indices.
