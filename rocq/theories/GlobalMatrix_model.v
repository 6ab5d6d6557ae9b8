(** Model of Utilities::GlobalMatrix (kernel/Utilities/GlobalMatrix.cpp:77-151) and of the assembly of Utilities::GlobalPetscMatrix
    (kernel/Utilities/GlobalMatrix.cpp:291-368).

    As for the vector: the calls to MatSetValues of all processes are triples of a row, a column and a value, which PETSc adds in an
    order that it does not specify; see Sparsity_model.v for the memory that is reserved for them.  MAT_IGNORE_ZERO_ENTRIES leaves
    out values that are zero, which does not change a sum. *)
From Coq Require Import List Arith Bool Permutation.
From Verif Require Import Loop_model StdMap_model GlobalIndexing_model GlobalVector_model.
Import ListNotations.

Section PETSc.
Context {A : Type}.
Definition entry : Type := (nat * nat) * A.
(** MatSetValues(A, rows, columns, data, ADD_VALUES) with MAT_ROW_ORIENTED switched off: [data] is stored by columns *)
Definition matSetValues (rows columns : list nat) (data : list A) : option (list entry) :=
  forEach (fun acc l => forEach (fun acc k =>
    match nth_error rows k, nth_error columns l, nth_error data (l * length rows + k) with
    | Some i, Some j, Some v => Some (acc ++ [((i, j), v)])
    | _, _, _ => None
    end) (seq 0 (length rows)) acc) (seq 0 (length columns)) [].
(** ADD_VALUES for one entry of a matrix, given by its rows; an index outside of the matrix is an error *)
Definition addEntry (add : A -> A -> A) (M : list (list A)) (t : entry) : option (list (list A)) :=
  match nth_error M (fst (fst t)) with
  | None => None
  | Some row => match nth_error row (snd (fst t)) with
                | None => None
                | Some x => match write row (snd (fst t)) (add x (snd t)) with None => None | Some row => write M (fst (fst t)) row end
                end
  end.
(** MatAssemblyBegin, MatAssemblyEnd *)
Definition matAssembled (add : A -> A -> A) (M : list (list A)) (entries : list entry) (result : option (list (list A))) : Prop :=
  exists order, Permutation order entries /\ forEach (addEntry add) order M = result.
(** LinearAlgebra::MiddleSizeMatrix: stored by columns *)
Record LocalMatrix := { numberOfRows : nat; numberOfColumns : nat; storage : list A }.
End PETSc.
Arguments LocalMatrix : clear implicits.

Section GlobalMatrix.
Context {A : Type} (m : Mesh) (total : nat -> nat -> nat).
(** ** On one process, with the indexing of the rows; [gc] is None if the columns have the same indexing (symmetricIndexing_) *)
Section Process.
Context (p : nat) (gr : GlobalIndexing) (gc : option GlobalIndexing).

(** 304-328; the state is localToGlobalRow, localToGlobalColumn and the entries that are set *)
Definition assembleElementMatrices (elementMatrix : option (nat -> LocalMatrix A)) : option (list entry) :=
  match elementMatrix with
  | None => Some []
  | Some matrix =>
      option_map snd (forEach (fun s e =>
        match getGlobalIndicesOfElement m gr total e (fst (fst s)) with
        | None => None
        | Some localToGlobalRow =>
            match match gc with None => Some (snd (fst s)) | Some gc => getGlobalIndicesOfElement m gc total e (snd (fst s)) end with
            | None => None
            | Some localToGlobalColumn =>
                let columnRef := match gc with None => localToGlobalRow | Some _ => localToGlobalColumn end in
                if (numberOfRows (matrix e) =? length localToGlobalRow) && (numberOfColumns (matrix e) =? length columnRef)
                then option_map (fun new => ((localToGlobalRow, localToGlobalColumn), snd s ++ new)) (matSetValues localToGlobalRow columnRef (storage (matrix e)))
                else None
            end
        end) (localElements m p) (([], []), []))
  end.
(** 330-358 *)
Definition assembleFaceMatrices (facesList : list nat) (faceMatrix : option (nat -> LocalMatrix A)) : option (list entry) :=
  match faceMatrix with
  | None => Some []
  | Some matrix =>
      option_map snd (forEach (fun s f =>
        if negb (isOwnedByCurrentProcessor m p f) then Some s
        else match elementLeft m p f with
        | None => None
        | Some first =>
            match getGlobalIndicesOfFace m gr total first (elementRight m p f) (fst (fst s)) with
            | None => None
            | Some localToGlobalRow =>
                match match gc with None => Some (snd (fst s)) | Some gc => getGlobalIndicesOfFace m gc total first (elementRight m p f) (snd (fst s)) end with
                | None => None
                | Some localToGlobalColumn =>
                    let columnRef := match gc with None => localToGlobalRow | Some _ => localToGlobalColumn end in
                    if (numberOfRows (matrix f) =? length localToGlobalRow) && (numberOfColumns (matrix f) =? length columnRef)
                    then option_map (fun new => ((localToGlobalRow, localToGlobalColumn), snd s ++ new)) (matSetValues localToGlobalRow columnRef (storage (matrix f)))
                    else None
                end
            end
        end) facesList (([], []), []))
  end.
Definition assembleMatrix (facesList : list nat) (elementMatrix faceMatrix : option (nat -> LocalMatrix A)) : option (list entry) :=
  match assembleElementMatrices elementMatrix, assembleFaceMatrices facesList faceMatrix with
  | Some a, Some b => Some (a ++ b)
  | _, _ => None
  end.
End Process.
End GlobalMatrix.

(** ** 77-151 getMatrixBCEntries.  [faceNodes f]: getLocalFaceNodeIndices(localFaceNumberLeft()) of the element on the left of face
    [f].  [edgeNodes e i]: getCodim2EntityLocalIndices(i) of element [e].  [nodeIndex e j]: getNodeIndex(j). *)
Section Boundary.
Context (m : Mesh) (p : nat) (g : GlobalIndexing) (faceNodes : nat -> list nat) (edgeNodes : nat -> nat -> nat * nat) (nodeIndex : nat -> nat -> nat).
(** the loops over the basis functions of an object for all unknowns: 88-95, 120-128 and 140-148 *)
Definition pushIndices (k : Kind) (x : nat) (s : nat * list nat) : option (nat * list nat) :=
  forEach (fun s unknown =>
    match getGlobalIndex g k x unknown with
    | None => None
    | Some basis0 =>
        let nBasis := localNumberOfBasisFunctions m k x unknown in
        Some (fst s + nBasis, snd s ++ map (fun basisId => basis0 + basisId) (seq 0 nBasis))
    end) (includedUnknowns_ g) s.
(** 112-117 *)
Definition onFace (nodeEntries : list nat) (e i : nat) : bool :=
  existsb (Nat.eqb (nodeIndex e (fst (edgeNodes e i)))) nodeEntries && existsb (Nat.eqb (nodeIndex e (snd (edgeNodes e i)))) nodeEntries.
Definition getMatrixBCEntries (f : nat) (numberOfEntries : nat) (entries : list nat) : option (nat * list nat) :=
  match elementLeft m p f with
  | None => None
  | Some e =>
      bind (pushIndices KFace f (numberOfEntries, entries)) (fun s =>
      bind (forEach (fun s i =>
        if onFace (map (nodeIndex e) (faceNodes f)) e i
        then match nth_error (objectsOf m KEdge e) i with None => None | Some edge => pushIndices KEdge edge s end
        else Some s) (seq 0 (length (objectsOf m KEdge e))) s) (fun s =>
      if 1 <? dimension m
      then forEach (fun s i => match nth_error (objectsOf m KNode e) i with None => None | Some node => pushIndices KNode node s end) (faceNodes f) s
      else Some s))
  end.
End Boundary.
