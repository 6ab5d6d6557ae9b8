(** Model of kernel/Base/ElementBasisFunctions.{h,cpp}, of the functions of
    kernel/Base/Element.cpp that change the basis function sets, and of the DoF
    numbering of kernel/Base/Face.cpp.

    A basis function set is represented by its size; [sz] lists the sizes of the
    shared collection [*sets_].  [setPositions_] is a list (per unknown) of lists
    (per place) of [option nat], [None] being the value -1.  A failed assertion or
    an out-of-range access is [None].  The default argument
    [unknown = LEGACY_BEHAVIOUR] is not modelled. *)
From Coq Require Import List Arith.
Import ListNotations.

Definition positions := list (list (option nat)).

(** size of the set at a position, [sets_->at(pos)->size()] *)
Definition set_size (sz : list nat) (pos : nat) : option nat := nth_error sz pos.

(** ElementBasisFunctions.h:217-231 [getNumberOfBasisFunctions(unknown)], the loop *)
Fixpoint total_size (sz : list nat) (l : list (option nat)) : option nat :=
  match l with
  | [] => Some 0
  | None :: r => total_size sz r
  | Some p :: r =>
      match set_size sz p, total_size sz r with
      | Some n, Some t => Some (n + t)
      | _, _ => None
      end
  end.
Definition getNumberOfBasisFunctions (sz : list nat) (s : positions) (u : nat) : option nat :=
  match nth_error s u with None => None | Some l => total_size sz l end.

(** ElementBasisFunctions.h:245-252 [getNumberOfLocalBasisFunctions(unknown)] *)
Definition getNumberOfLocalBasisFunctions (sz : list nat) (s : positions) (u : nat) : option nat :=
  match nth_error s u with
  | None => None
  | Some [] => Some 0
  | Some (None :: _) => Some 0
  | Some (Some p :: _) => set_size sz p
  end.

(** sum of [f i] for [i < n], failing when one term fails *)
Fixpoint sum_to (f : nat -> option nat) (n : nat) : option nat :=
  match n with
  | 0 => Some 0
  | S n' => match sum_to f n', f n' with Some a, Some b => Some (a + b) | _, _ => None end
  end.

(** ElementBasisFunctions.h:267-275 [getTotalLocalNumberOfBasisFunctions] *)
Definition getTotalLocalNumberOfBasisFunctions (sz : list nat) (s : positions) : option nat :=
  sum_to (getNumberOfLocalBasisFunctions sz s) (length s).

(** ElementBasisFunctions.cpp:73-89 [getBasisFunctionOffset] *)
Definition getBasisFunctionOffset (sz : list nat) (s : positions) (u place : nat) : option nat :=
  match nth_error s u with
  | None => None
  | Some l => if length l <=? place then Some 0 else total_size sz (firstn place l)
  end.

(** ElementBasisFunctions.cpp:91-117 [getBasisFunctionSetAndIndex], the scan *)
Fixpoint scan (sz : list nat) (l : list (option nat)) (index : nat) : option (nat * nat) :=
  match l with
  | [] => None
  | None :: r => scan sz r index
  | Some p :: r =>
      match set_size sz p with
      | None => None
      | Some n => if index <? n then Some (p, index) else scan sz r (index - n)
      end
  end.
Definition getBasisFunctionSetAndIndex (sz : list nat) (s : positions) (index u : nat)
  : option (nat * nat) :=
  match nth_error s u with None => None | Some l => scan sz l index end.

Fixpoint update {A} (l : list A) (i : nat) (x : A) : list A :=
  match l, i with
  | [], _ => []
  | _ :: r, 0 => x :: r
  | y :: r, S i' => y :: update r i' x
  end.

(** ElementBasisFunctions.cpp:131-134 [clearBasisFunctionPosition] *)
Definition clearBasisFunctionPosition (s : positions) (u : nat) : option positions :=
  match nth_error s u with None => None | Some _ => Some (update s u []) end.

(** ElementBasisFunctions.cpp:136-146 [registerBasisFunctionPosition] *)
Definition registerBasisFunctionPosition (sz : list nat) (s : positions) (u place pos : nat)
  : option positions :=
  match nth_error s u with
  | None => None
  | Some l =>
      if pos <? length sz then
        let l' := if length l <=? place then l ++ repeat None (1 + place - length l) else l in
        Some (update s u (update l' place (Some pos)))
      else None
  end.

(** *** kernel/Base/Element.cpp *)

(** Number of faces, edges and nodes of the element, the basis function positions
    and [ElementData::numberOfBasisFunctions_] (ElementData.h:236). *)
Record element := { nFaces : nat; nEdges : nat; nNodes : nat;
                    pos_ : positions; counts : list nat }.

(** Element.h:90-103, the constructor part that concerns basis functions, for
    [unknowns] unknowns: no sets, all counts 0 *)
Definition new_element (nf ne nn unknowns : nat) : element :=
  {| nFaces := nf; nEdges := ne; nNodes := nn; pos_ := repeat [] unknowns;
     counts := repeat 0 unknowns |}.

(** ElementData.cpp:151-157 [setNumberOfBasisFunctions(number, unknown)], the count
    (for the data vectors see ElementData_model.v), after
    [getNumberOfBasisFunctions(unknown)] as in Element.cpp:93-95, 108-110, 121-123,
    135-137 *)
Definition refresh_count (sz : list nat) (e : element) (s : positions) (u : nat) : option element :=
  match getNumberOfBasisFunctions sz s u with
  | None => None
  | Some n => if u <? length (counts e)
              then Some {| nFaces := nFaces e; nEdges := nEdges e; nNodes := nNodes e;
                           pos_ := s; counts := update (counts e) u n |}
              else None
  end.

(** Element.cpp:89-98 [setDefaultBasisFunctionSet] (the quadrature order is not
    modelled here) *)
Definition setDefaultBasisFunctionSet (sz : list nat) (e : element) (pos u : nat) : option element :=
  match clearBasisFunctionPosition (pos_ e) u with
  | None => None
  | Some s1 =>
      match registerBasisFunctionPosition sz s1 u 0 pos with
      | None => None
      | Some s2 => refresh_count sz e s2 u
      end
  end.

(** Element.cpp:100-111 [setFaceBasisFunctionSet] *)
Definition setFaceBasisFunctionSet (sz : list nat) (e : element) (pos f u : nat) : option element :=
  if f <? nFaces e then
    match registerBasisFunctionPosition sz (pos_ e) u (1 + f) pos with
    | None => None
    | Some s => refresh_count sz e s u
    end
  else None.

(** Element.cpp:113-124 [setEdgeBasisFunctionSet] *)
Definition setEdgeBasisFunctionSet (sz : list nat) (e : element) (pos d u : nat) : option element :=
  if d <? nEdges e then
    match registerBasisFunctionPosition sz (pos_ e) u (1 + nFaces e + d) pos with
    | None => None
    | Some s => refresh_count sz e s u
    end
  else None.

(** Element.cpp:126-138 [setVertexBasisFunctionSet] *)
Definition setVertexBasisFunctionSet (sz : list nat) (e : element) (pos v u : nat) : option element :=
  if v <? nNodes e then
    match registerBasisFunctionPosition sz (pos_ e) u (1 + nFaces e + nEdges e + v) pos with
    | None => None
    | Some s => refresh_count sz e s u
    end
  else None.

Inductive edit :=
| SetDefault (pos u : nat)
| SetFace (pos f u : nat)
| SetEdge (pos d u : nat)
| SetVertex (pos v u : nat).
Definition do_edit (sz : list nat) (e : element) (c : edit) : option element :=
  match c with
  | SetDefault pos u => setDefaultBasisFunctionSet sz e pos u
  | SetFace pos f u => setFaceBasisFunctionSet sz e pos f u
  | SetEdge pos d u => setEdgeBasisFunctionSet sz e pos d u
  | SetVertex pos v u => setVertexBasisFunctionSet sz e pos v u
  end.
Fixpoint edits (sz : list nat) (e : element) (h : list edit) : option element :=
  match h with
  | [] => Some e
  | c :: h' => match do_edit sz e c with None => None | Some e' => edits sz e' h' end
  end.

(** ElementData.cpp:170-181 [getNumberOfBasisFunctions(unknown)] as used by Face *)
Definition count_of (e : element) (u : nat) : option nat := nth_error (counts e) u.
(** ElementData.cpp:183-189 [getTotalNumberOfBasisFunctions] *)
Definition total_of (e : element) : nat := list_sum (counts e).
(** ElementData.h:209-224 [convertToSingleIndex] *)
Definition elementIndex (e : element) (b u : nat) : option nat :=
  match count_of e u with
  | None => None
  | Some n => if b <? n then Some (list_sum (firstn u (counts e)) + b) else None
  end.

(** *** kernel/Base/Face.cpp *)
Record face := { fleft : element; fright : option element }.
Inductive side := LEFT | RIGHT.

(** Face.cpp:214-248 [convertToSingleIndex] *)
Definition convertToSingleIndex (sz : list nat) (f : face) (sd : side) (b u : nat) : option nat :=
  if u <? length (counts (fleft f)) then
    match sd with
    | LEFT =>
        match sum_to (count_of (fleft f)) u, count_of (fleft f) u with
        | Some number, Some n => if b <? n then Some (number + b) else None
        | _, _ => None
        end
    | RIGHT =>
        match fright f with
        | None => None
        | Some r =>
            match sum_to (count_of r) u, count_of r u,
                  getTotalLocalNumberOfBasisFunctions sz (pos_ (fleft f)) with
            | Some number, Some n, Some nDOFLeft =>
                if b <? n then Some (nDOFLeft + number + b) else None
            | _, _, _ => None
            end
        end
    end
  else None.

Definition right_total (f : face) : nat :=
  match fright f with None => 0 | Some r => total_of r end.

(** Face.cpp:250-270 [getSide] *)
Definition getSide (f : face) (i : nat) : option side :=
  if i <? total_of (fleft f) then Some LEFT
  else if i <? total_of (fleft f) + right_total f then Some RIGHT else None.

(** Face.cpp:272-293 [getElementBasisFunctionId] *)
Definition getElementBasisFunctionId (f : face) (i : nat) : option nat :=
  if i <? total_of (fleft f) then Some i
  else if i <? total_of (fleft f) + right_total f then Some (i - total_of (fleft f)) else None.
