(** Model of Utilities::SparsityEstimator (kernel/Utilities/SparsityEstimator.cpp) and of the insertions of
    Utilities::GlobalPetscMatrix::assemble (kernel/Utilities/GlobalMatrix.cpp) on process [p].

    The meshes and the indexings are those of GlobalIndexing_model.  Vectors with one entry per unknown are functions of
    the unknown (their length is getTotalNumberOfUnknowns() and all included unknowns are below it).  The entries of
    the result are unbounded (no overflow of int). [None]: an index that is not there, a write out of range or
    logger(ERROR, ...). *)
From Coq Require Import List Arith ZArith Bool.
From Verif Require Import Loop_model StdMap_model GlobalIndexing_model.
Import ListNotations.

(** SparsityEstimator.cpp:21-27: (start, size), ordered by operator< of std::pair *)
Definition interval := (nat * nat)%type.
Definition interval_ltb (a b : interval) : bool :=
  if fst a <? fst b then true else if fst b <? fst a then false else snd a <? snd b.
Definition intervals := list interval.

Fixpoint for_each {A St} (l : list A) (body : A -> St -> option St) (s : St) : option St :=
  match l with [] => Some s | a :: r => match body a s with None => None | Some s' => for_each r body s' end end.

(** SparsityEstimator.cpp:142-165, the members of LocalMatrixSideDoFs that change *)
Record side := {
  isOnlyElementBased : nat -> bool;
  ownedIntervals : nat -> intervals;
  nonOwnedIntervals : nat -> intervals
}.
(** SparsityEstimator.cpp:40-50 *)
Definition newSide : side := {| isOnlyElementBased := fun _ => true; ownedIntervals := fun _ => []; nonOwnedIntervals := fun _ => [] |}.
(** SparsityEstimator.cpp:52-60 clear *)
Definition clear (s : side) : side :=
  {| isOnlyElementBased := isOnlyElementBased s; ownedIntervals := fun _ => []; nonOwnedIntervals := fun _ => [] |}.
Definition setFn {A} (f : nat -> A) (u : nat) (a : A) : nat -> A := fun v => if v =? u then a else f v.

Section OnProcess.
Variables (m : Mesh) (p : nat).

(** isOwnedByCurrentProcessor(): Element.cpp:373, Face.h:356-359, Edge.cpp:110-112, Node.cpp:145-147 *)
Definition isOwned (k : Kind) (x : nat) : bool :=
  match k with
  | KElement => owner m x =? p
  | _ => match firstElement m p k x with Some e => owner m e =? p | None => false end
  end.

(** SparsityEstimator.cpp:105-140 addLocal, the body for one unknown; [rows]: rowsOrColumns_ == ROWS.
    The local index is converted to std::size_t; it may not be negative. *)
Definition addLocalUnknown (rows : bool) (g : GlobalIndexing) (k : Kind) (x u : nat) (s : side) : option side :=
  let size := localNumberOfBasisFunctions m k x u in
  if size =? 0 then Some s
  else
    let s := if kind_eqb k KElement then s
             else {| isOnlyElementBased := setFn (isOnlyElementBased s) u false;
                     ownedIntervals := ownedIntervals s; nonOwnedIntervals := nonOwnedIntervals s |} in
    if rows && negb (isOwned k x) then Some s
    else
      let index := if rows
                   then match getProcessorLocalIndex g k x u with Some z => if (z <? 0)%Z then None else Some (Z.to_nat z) | None => None end
                   else getGlobalIndex g k x u in
      match index with
      | None => None
      | Some start =>
          Some (if isOwned k x
                then {| isOnlyElementBased := isOnlyElementBased s;
                        ownedIntervals := setFn (ownedIntervals s) u (sinsert interval_ltb (start, size) (ownedIntervals s u));
                        nonOwnedIntervals := nonOwnedIntervals s |}
                else {| isOnlyElementBased := isOnlyElementBased s; ownedIntervals := ownedIntervals s;
                        nonOwnedIntervals := setFn (nonOwnedIntervals s) u (sinsert interval_ltb (start, size) (nonOwnedIntervals s u)) |})
      end.
Definition addLocal (rows : bool) (g : GlobalIndexing) (k : Kind) (x : nat) (s : side) : option side :=
  for_each (includedUnknowns_ g) (addLocalUnknown rows g k x) s.

Definition bind {X Y} (o : option X) (f : X -> option Y) : option Y := match o with None => None | Some x => f x end.

(** SparsityEstimator.cpp:75-91 *)
Definition addLocalElementMatrixDoFs (rows : bool) (g : GlobalIndexing) (e : nat) (s : side) : option side :=
  bind (addLocal rows g KElement e s) (fun s =>
  bind (for_each (objectsOf m KFace e) (addLocal rows g KFace) s) (fun s =>
  bind (for_each (objectsOf m KEdge e) (addLocal rows g KEdge) s) (fun s =>
  if 1 <? dimension m then for_each (objectsOf m KNode e) (addLocal rows g KNode) s else Some s))).

(** The left and the right element of a face on this process (MeshManipulator_Impl.h:1711-1764): the first and the
    second of its elements that are present; the face is internal if there are two. *)
Definition leftAndRight (x : nat) : option (nat * option nat) :=
  match filter (visible m p) (elementsOf m KFace x) with
  | [l] => Some (l, None)
  | [l; r] => Some (l, Some r)
  | _ => None
  end.
(** FaceGeometry.cpp:171-174 with MeshManipulator_Impl.h:1830-1845: the internal faces of the elements that are owned
    by other processes *)
Definition isSubdomainBoundary (x : nat) : bool :=
  match leftAndRight x with
  | Some (l, Some r) => negb (owner m l =? p) || negb (owner m r =? p)
  | _ => false
  end.

(** SparsityEstimator.cpp:62-73 *)
Definition addLocalFaceMatrixDoFs (rows : bool) (g : GlobalIndexing) (x : nat) (s : side) : option side :=
  bind (leftAndRight x) (fun lr =>
  bind (addLocalElementMatrixDoFs rows g (fst lr) s) (fun s =>
  match snd lr with None => Some s | Some r => addLocalElementMatrixDoFs rows g r s end)).

(** std::map<DoFInterval, DoFIntervals> *)
Definition couplings := list (interval * intervals).
Definition lookup (row : interval) (c : couplings) : intervals := match mfind interval_ltb row c with Some s => s | None => [] end.
(** c[row].insert(columns.begin(), columns.end()) (SparsityEstimator.cpp:255-258) *)
Definition insertRange (columns : intervals) (row : interval) (c : couplings) : couplings :=
  mput interval_ltb row (fold_left (fun s i => sinsert interval_ltb i s) columns (lookup row c)) c.
(** for each column: c[row].insert(column) (SparsityEstimator.cpp:316-323) *)
Definition insertEach (columns : intervals) (row : interval) (c : couplings) : couplings :=
  fold_left (fun c i => mput interval_ltb row (sinsert interval_ltb i (lookup row c)) c) columns c.

(** SparsityEstimator.cpp:231-262, one element *)
Definition coupleElement (gr gc : GlobalIndexing) (e : nat) (s : side * side * couplings * couplings)
  : option (side * side * couplings * couplings) :=
  let '(rowDoFs, columnDoFs, owned, nonOwned) := s in
  bind (addLocalElementMatrixDoFs true gr e (clear rowDoFs)) (fun rowDoFs =>
  bind (addLocalElementMatrixDoFs false gc e (clear columnDoFs)) (fun columnDoFs =>
  let '(owned, nonOwned) :=
    fold_left (fun c rowUnknown => fold_left (fun c colUnknown =>
      fold_left (fun (c : couplings * couplings) row =>
          (insertRange (ownedIntervals columnDoFs colUnknown) row (fst c), insertRange (nonOwnedIntervals columnDoFs colUnknown) row (snd c)))
        (ownedIntervals rowDoFs rowUnknown) c) (includedUnknowns_ gc) c) (includedUnknowns_ gr) (owned, nonOwned) in
  Some (rowDoFs, columnDoFs, owned, nonOwned))).

(** SparsityEstimator.cpp:282-328, one face; [faceCoupling ri ci] *)
Definition coupleFace (gr gc : GlobalIndexing) (faceCoupling : nat -> nat -> bool) (x : nat)
    (s : side * side * couplings * couplings * bool) : option (side * side * couplings * couplings * bool) :=
  let '(rowDoFs, columnDoFs, owned, nonOwned, distributedMesh) := s in
  let distributedMesh := if isSubdomainBoundary x then true else distributedMesh in
  bind (addLocalFaceMatrixDoFs true gr x (clear rowDoFs)) (fun rowDoFs =>
  bind (addLocalFaceMatrixDoFs false gc x (clear columnDoFs)) (fun columnDoFs =>
  let '(owned, nonOwned) :=
    fold_left (fun c (ru : nat * nat) => fold_left (fun c (cu : nat * nat) =>
      if faceCoupling (fst ru) (fst cu) then
        fold_left (fun (c : couplings * couplings) row =>
            (insertEach (ownedIntervals columnDoFs (snd cu)) row (fst c), insertEach (nonOwnedIntervals columnDoFs (snd cu)) row (snd c)))
          (ownedIntervals rowDoFs (snd ru)) c
      else c) (combine (seq 0 (length (includedUnknowns_ gc))) (includedUnknowns_ gc)) c)
      (combine (seq 0 (length (includedUnknowns_ gr))) (includedUnknowns_ gr)) (owned, nonOwned) in
  Some (rowDoFs, columnDoFs, owned, nonOwned, distributedMesh))).

(** SparsityEstimator.cpp:392-418: the result of the rows of one map *)
Definition writeRows (c : couplings) (nonZeroPerRow : list nat) : option (list nat) :=
  for_each c (fun o v =>
    let nonZero := fold_left (fun acc columns => acc + snd columns) (snd o) 0 in
    for_from (fst (fst o)) (snd (fst o)) (fun ri v => write v ri nonZero) v) nonZeroPerRow.

(** SparsityEstimator.cpp:179-421.  The table faceCoupling has [tableRows] rows and [tableColumns] columns; [allElements]
    is getElementsList(GLOBAL) and [faces] getFacesList() of the mesh. *)
Definition computeSparsityEstimate (gr gc : GlobalIndexing) (tableRows tableColumns : nat) (faceCoupling : nat -> nat -> bool)
    (allElements faces : list nat) : option (list nat * list nat) :=
  let nr := length (includedUnknowns_ gr) in
  let nc := length (includedUnknowns_ gc) in
  if negb ((tableRows =? nr) && (tableColumns =? nc)) then None
  else
    let total := localNumberOfBasisFunctions_ gr in
    let zeros := repeat 0 total in
    if total =? 0 then Some (zeros, zeros)
    else
      bind (for_each allElements (coupleElement gr gc) (newSide, newSide, [], [])) (fun s =>
      let '(rowDoFs, columnDoFs, owned, nonOwned) := s in
      let anyFaceCoupling := existsb (fun ri => existsb (fun ci => faceCoupling ri ci) (seq 0 nc)) (seq 0 nr) in
      bind (if anyFaceCoupling
            then for_each faces (coupleFace gr gc faceCoupling) (rowDoFs, columnDoFs, owned, nonOwned, false)
            else Some (rowDoFs, columnDoFs, owned, nonOwned, false)) (fun s =>
      let '(rowDoFs, columnDoFs, owned, nonOwned, distributedMesh) := s in
      (** lines 380-391: the argument of isOnlyElementBased is the position of the unknown *)
      if distributedMesh && existsb (fun i => existsb (fun j => faceCoupling i j && negb (isOnlyElementBased rowDoFs i)) (seq 0 nc)) (seq 0 nr)
      then None
      else
        bind (writeRows owned zeros) (fun nonZeroPerRowOwned =>
        bind (writeRows nonOwned zeros) (fun nonZeroPerRowNonOwned =>
        Some (nonZeroPerRowOwned, nonZeroPerRowNonOwned))))).

(** GlobalMatrix.cpp:301-330: the rows and columns of the matrices of the elements of this process (the index lists
    do not depend on the old contents of the vectors, see C03) *)
Definition insertsElement (gr gc : GlobalIndexing) (total : nat -> nat -> nat) (e : nat) : option (list nat * list nat) :=
  bind (getGlobalIndicesOfElement m gr total e []) (fun rows =>
  bind (getGlobalIndicesOfElement m gc total e []) (fun columns => Some (rows, columns))).
(** GlobalMatrix.cpp:333-362: the same for the faces; a face of another process is skipped *)
Definition insertsFace (gr gc : GlobalIndexing) (total : nat -> nat -> nat) (x : nat) : option (list nat * list nat) :=
  if negb (isOwned KFace x) then Some ([], [])
  else
    bind (leftAndRight x) (fun lr =>
    bind (getGlobalIndicesOfFace m gr total (fst lr) (snd lr) []) (fun rows =>
    bind (getGlobalIndicesOfFace m gc total (fst lr) (snd lr) []) (fun columns => Some (rows, columns)))).
End OnProcess.
