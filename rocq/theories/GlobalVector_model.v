(** Model of Utilities::GlobalPetscVector (kernel/Utilities/GlobalVector.cpp:116-466): the exchange of data between a vector of
    PETSc and the elements.

    A vector is the list of all its entries.  The calls to VecSetValues of all processes between two assemblies are pairs of an
    index and a value; VecAssemblyBegin and VecAssemblyEnd apply them in an order that PETSc does not specify.  Failed
    assertions (debug assertions too) and reading or writing outside of an array are [None]. *)
From Coq Require Import List Arith Bool Permutation.
From Verif Require Import Loop_model StdMap_model GlobalIndexing_model.
Import ListNotations.

(** a loop over a container that may fail *)
Fixpoint forEach {S B : Type} (body : S -> B -> option S) (l : list B) (s : S) : option S :=
  match l with
  | [] => Some s
  | x :: l => match body s x with None => None | Some s => forEach body l s end
  end.

Section PETSc.
Context {A : Type}.
(** VecSetValues(b, number, indices, values): the first [number] entries of the arrays; a negative index is skipped *)
Fixpoint setValues (number : nat) (indices : list (option nat)) (values : list A) : option (list (nat * A)) :=
  match number with
  | 0 => Some []
  | S number =>
      match indices, values with
      | i :: indices, v :: values =>
          match setValues number indices values with
          | None => None
          | Some r => Some (match i with Some i => (i, v) :: r | None => r end)
          end
      | _, _ => None
      end
  end.
(** One entry; [mode] is ADD_VALUES or INSERT_VALUES.  An index outside of the vector is an error. *)
Definition setValue (mode : A -> A -> A) (b : list A) (iv : nat * A) : option (list A) :=
  match nth_error b (fst iv) with None => None | Some x => write b (fst iv) (mode x (snd iv)) end.
(** VecAssemblyBegin, VecAssemblyEnd *)
Definition assembled (mode : A -> A -> A) (b : list A) (pairs : list (nat * A)) (result : option (list A)) : Prop :=
  exists order, Permutation order pairs /\ forEach (setValue mode) order b = result.
Definition INSERT_VALUES (old new : A) : A := new.
End PETSc.

Section GlobalVector.
Context {A : Type} (zero : A) (m : Mesh) (total : nat -> nat -> nat).
(** getTotalNumberOfBasisFunctions() of an element, ElementData.cpp:183-189 *)
Definition totalNumber (e : nat) : nat := fold_left (fun number u => number + total e u) (seq 0 (numberOfUnknowns m)) 0.
(** ElementData.h:209-224 convertToSingleIndex, after its assertions *)
Definition singleIndex (e i u : nat) : nat := fold_left (fun number v => number + total e v) (seq 0 u) 0 + i.

(** ** On one process, with its indexing *)
Section Process.
Context (p : nat) (g : GlobalIndexing).

(** getPtrElementLeft() and getPtrElementRight() of a face, see [firstElement] *)
Definition elementLeft (f : nat) : option nat := firstElement m p KFace f.
Definition elementRight (f : nat) : option nat := nth_error (filter (visible m p) (elementsOf m KFace f)) 1.
(** Face.h:356-359 *)
Definition isOwnedByCurrentProcessor (f : nat) : bool :=
  match elementLeft f with Some e => owner m e =? p | None => false end.

(** 121-160 assemble: the values that this process adds.  [elementVector]: None if elementVectorID_ < 0, and so for faces. *)
Definition assembleElements (elementVector : option (nat -> list A)) : option (list (nat * A)) :=
  match elementVector with
  | None => Some []
  | Some vector =>
      option_map snd (forEach (fun s e =>
        match getGlobalIndicesOfElement m g total e (fst s) with
        | None => None
        | Some elementToGlobal =>
            if length (vector e) =? length elementToGlobal
            then option_map (fun pairs => (elementToGlobal, snd s ++ pairs)) (setValues (length elementToGlobal) (map Some elementToGlobal) (vector e))
            else None
        end) (localElements m p) ([], []))
  end.
Definition assembleFaces (facesList : list nat) (faceVector : option (nat -> list A)) : option (list (nat * A)) :=
  match faceVector with
  | None => Some []
  | Some vector =>
      forEach (fun pairs f =>
        if negb (isOwnedByCurrentProcessor f) then Some pairs
        else match elementLeft f with
        | None => None
        | Some first =>
            match getGlobalIndicesOfFace m g total first (elementRight f) [] with
            | None => None
            | Some faceToGlobal =>
                if length (vector f) =? length faceToGlobal
                then option_map (fun new => pairs ++ new) (setValues (length faceToGlobal) (map Some faceToGlobal) (vector f))
                else None
            end
        end) facesList []
  end.
Definition assemble (facesList : list nat) (elementVector faceVector : option (nat -> list A)) : option (list (nat * A)) :=
  match assembleElements elementVector, assembleFaces facesList faceVector with
  | Some a, Some b => Some (a ++ b)
  | _, _ => None
  end.

(** 199-228 constructFromTimeIntegrationVector(id); [data e] is the time integration vector of element [e], whose length
    getTimeIntegrationVector checks *)
Definition construct (data : nat -> list A) : option (list (nat * A)) :=
  option_map snd (forEach (fun s e =>
    match getGlobalIndicesOfElement m g total e (fst s) with
    | None => None
    | Some localToGlobal =>
        if length (data e) =? totalNumber e
        then option_map (fun pairs => (localToGlobal, snd s ++ pairs)) (setValues (totalNumber e) (map Some localToGlobal) (data e))
        else None
    end) (localElements m p) ([], [])).

(** 162-197 constructFromTimeIntegrationVector(id, solutionVar).  The state is localToGlobal, elementData and the values that
    are set.  Where localToGlobal had -1 the next element finds 0; it is overwritten. *)
Definition selectUnknown (solutionVar e : nat) (values : list A) (s : list (option nat) * list A) : option (list (option nat) * list A) :=
  for_loop (numberOfUnknowns m) (fun j s => for_loop (total e j) (fun i s =>
    if j =? solutionVar
    then match nth_error values (singleIndex e i solutionVar) with
         | None => None
         | Some x => option_map (fun d => (fst s, d)) (write (snd s) (singleIndex e i solutionVar) x)
         end
    else option_map (fun l => (l, snd s)) (write (fst s) (singleIndex e i j) None)) s) s.
Definition constructOne (solutionVar : nat) (data : nat -> list A) : option (list (nat * A)) :=
  option_map snd (forEach (fun s e =>
    match getGlobalIndicesOfElement m g total e (map (fun o => match o with Some i => i | None => 0 end) (fst (fst s))) with
    | None => None
    | Some localToGlobal =>
        if length (data e) =? totalNumber e
        then match selectUnknown solutionVar e (data e) (map Some localToGlobal, vresize (snd (fst s)) (totalNumber e) zero) with
             | None => None
             | Some (localToGlobal, elementData) =>
                 option_map (fun pairs => (localToGlobal, elementData, snd s ++ pairs)) (setValues (length localToGlobal) localToGlobal elementData)
             end
        else None
    end) (localElements m p) ([], [], [])).

(** 230-264: the entries that the process fetches from the vector [b]; an entry that it does not fetch cannot be used *)
Definition positions (es : list nat) : option (list nat) :=
  option_map snd (forEach (fun s e =>
    match getGlobalIndicesOfElement m g total e (fst s) with
    | None => None
    | Some newPositions => Some (newPositions, snd s ++ newPositions)
    end) es ([], [])).
Definition fetch (b : list A) (l : list nat) (i : nat) : option A := if existsb (Nat.eqb i) l then nth_error b i else None.

(** 269-349: localData of one element; the state is localData and runningTotal *)
Section Element.
Context (data : nat -> option A).
Definition copyRange (k : Kind) (u x : nat) (s : list A * nat) : option (list A * nat) :=
  match getGlobalIndex g k x u with
  | None => None
  | Some basis0 =>
      for_loop (localNumberOfBasisFunctions m k x u) (fun i s =>
        match data (basis0 + i) with
        | None => None
        | Some v => match write (fst s) (snd s) v with None => None | Some l => Some (l, S (snd s)) end
        end) s
  end.
Fixpoint copyRanges (k : Kind) (u : nat) (xs : list nat) (s : list A * nat) : option (list A * nat) :=
  match xs with
  | [] => Some s
  | x :: xs => match copyRange k u x s with None => None | Some s => copyRanges k u xs s end
  end.
Definition copyUnknown (e u : nat) (s : list A * nat) : option (list A * nat) :=
  bind (copyRange KElement u e s) (fun s =>
  bind (copyRanges KFace u (objectsOf m KFace e) s) (fun s =>
  bind (copyRanges KEdge u (objectsOf m KEdge e) s) (fun s =>
  if 1 <? dimension m then copyRanges KNode u (objectsOf m KNode e) s else Some s))).
Definition localData (e : nat) : option (list A) :=
  match for_loop (numberOfUnknowns m) (copyUnknown e) (repeat zero (totalNumber e), 0) with
  | None => None
  | Some (l, runningTotal) => if length l =? runningTotal then Some l else None
  end.
End Element.

(** 230-352 writeTimeIntegrationVector(id): the elements of the process, those of other processes included, with the vector
    that they get *)
Definition writeVector (b : list A) : option (list (nat * list A)) :=
  let es := filter (visible m p) (elements m) in
  match positions es with
  | None => None
  | Some l => forEach (fun rows e => option_map (fun d => rows ++ [(e, d)]) (localData (fetch b l) e)) es []
  end.
(** 354-466 writeTimeIntegrationVector(id, unknown): the values for the unknown.  getNumberOfBasisFunctions() checks that all
    unknowns have the same number of basis functions. *)
Definition sameNumbers (e : nat) : option nat :=
  if forallb (fun u => total e u =? total e 0) (seq 0 (numberOfUnknowns m)) then Some (total e 0) else None.
Definition writeOne (b : list A) (unknown : nat) : option (list (nat * list A)) :=
  let es := filter (visible m p) (elements m) in
  match positions es with
  | None => None
  | Some l =>
      forEach (fun rows e =>
        match localData (fetch b l) e, sameNumbers e with
        | Some d, Some number =>
            if unknown <? numberOfUnknowns m
            then option_map (fun single => rows ++ [(e, single)]) (collect number (fun i => nth_error d (singleIndex e i unknown)))
            else None
        | _, _ => None
        end) es []
  end.
End Process.
End GlobalVector.
