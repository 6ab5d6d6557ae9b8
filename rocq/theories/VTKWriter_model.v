(** Model of kernel/Output/VTKSpecificTimeWriter_Impl.h: the arrays with the mesh and with the fields, and the descriptions of
    the arrays in the local file and in the master file.

    A double is a real number.  The text of the file around the arrays (the nesting of the tags, closing tags) is not modelled;
    a DataArray is its name, its NumberOfComponents and its numbers.  std::uint32_t variables wrap around.  An index outside
    of an array and a failed assertion are [None].  The functions that are given to writeMultiple do not change the data that
    they receive by reference. *)
From Coq Require Import List Arith NArith Bool Reals String Ascii.
From Verif Require Import Loop_model RefGeometry_model Curvilinear_model VTKElements_model Base64_model.
Import ListNotations.
Local Open Scope list_scope.
Local Open Scope nat_scope.

(** a value in a std::uint32_t *)
Definition u32 (n : nat) : nat := N.to_nat (N.modulo (N.of_nat n) 4294967296).

(** VTKElement.h, with the type in the header of each element: VTKStandardElements.h, VTKLagrange*.h *)
Record vtkElement : Type := { vtkId : nat; getPoints : list point }.
(** what the writer uses of a Base::Element: getReferenceGeometry()->getGeometryType() and referenceToPhysical *)
Record element : Type := { geometryType : shape; referenceToPhysical : point -> point }.

(** VTKSpecificTimeWriter_Impl.h:505-566 setupMapping.  [None]: no specialisation for the dimension, or a constructor fails. *)
Definition lagrange (s : shape) (id : nat) (pts : option (list point)) : option (shape * vtkElement) :=
  option_map (fun l => (s, {| vtkId := id; getPoints := l |})) pts.
Definition standard (s : shape) (id : nat) (pts : list point) : shape * vtkElement := (s, {| vtkId := id; getPoints := pts |}).
Definition setupMapping (dim order : nat) : option (list (shape * vtkElement)) :=
  match dim with
  | 0 => Some [standard Point 1 vtkPoint]
  | 1 => if order =? 1 then Some [standard Line 3 vtkLine]
         else all_some [lagrange Line 68 (curve order)]
  | 2 => if order =? 1 then Some [standard Triangle 5 vtkTriangle; standard Square 9 vtkQuad]
         else all_some [lagrange Triangle 69 (triangle order); lagrange Square 70 (quadrilateral order)]
  | 3 => if order =? 1 then Some [standard Tetrahedron 10 vtkTetra; standard Cube 12 vtkHexahedron;
                                  standard TriangularPrism 13 vtkWedge; standard Pyramid 14 vtkPyramid]
         else all_some [lagrange Cube 72 (hexahedron order); lagrange Tetrahedron 71 (tetrahedron order)]
  | _ => None
  end.

Definition shape_eqb (a b : shape) : bool :=
  match a, b with
  | Point, Point | Line, Line | Triangle, Triangle | Square, Square | Tetrahedron, Tetrahedron | Pyramid, Pyramid
  | TriangularPrism, TriangularPrism | Cube, Cube | Hypercube, Hypercube => true
  | _, _ => false
  end.
(** elementMapping_.find *)
Fixpoint find (s : shape) (m : list (shape * vtkElement)) : option vtkElement :=
  match m with
  | [] => None
  | (s', v) :: m' => if shape_eqb s' s then Some v else find s m'
  end.

(** a loop over a list that may end with an error *)
Fixpoint foldM {A B : Type} (f : A -> B -> option A) (l : list B) (a : A) : option A :=
  match l with
  | [] => Some a
  | b :: l' => match f a b with Some a' => foldM f l' a' | None => None end
  end.

(** the loop over the elements and the points of their cells: 172-196, 365-396 *)
Definition forPoints {A : Type} (mapping : list (shape * vtkElement)) (body : A -> element * point -> option A)
  (after : A -> element -> vtkElement -> option A) (elements : list element) (a : A) : option A :=
  foldM (fun a e =>
    match find (geometryType e) mapping with
    | None => None
    | Some v =>
        match foldM body (map (fun p => (e, p)) (getPoints v)) a with
        | Some a => after a e v
        | None => None
        end
    end) elements a.

(** 331-340: the number of points and the number of elements *)
Definition countPass (mapping : list (shape * vtkElement)) (elements : list element) : option (nat * nat) :=
  foldM (fun st e =>
    match find (geometryType e) mapping with
    | None => None
    | Some v => Some (u32 (fst st + List.length (getPoints v)), u32 (snd st + 1))
    end) elements (0, 0).

Record mesh_arrays : Type := {
  numberOfPoints : nat; numberOfCells : nat;
  pointCoordinates : list R; connectivity : list nat; offsets : list nat; types : list nat }.

(** the local variables of the second pass *)
Record pass : Type := {
  p_coordinates : list R; p_connectivity : list nat; p_offsets : list nat; p_types : list nat;
  pointCount : nat; localPointCount : nat; elementId : nat }.

(** 387-390: copy min(DIM, 3) coordinates *)
Definition copyCoordinates (dim : nat) (coordinate : point) (at_ : nat) (out : list R) : option (list R) :=
  for_loop (Nat.min dim 3) (fun j out =>
    match nth_error coordinate j with Some x => write out (3 * at_ + j) x | None => None end) out.
(** 376-392 *)
Definition pointPass (dim : nat) (st : pass) (ep : element * point) : option pass :=
  let at_ := pointCount st + localPointCount st in
  match write (p_connectivity st) at_ (u32 at_) with
  | None => None
  | Some conn =>
      match copyCoordinates dim (referenceToPhysical (fst ep) (snd ep)) at_ (p_coordinates st) with
      | None => None
      | Some coords =>
          Some {| p_coordinates := coords; p_connectivity := conn; p_offsets := p_offsets st; p_types := p_types st;
                  pointCount := pointCount st; localPointCount := S (localPointCount st); elementId := elementId st |}
      end
  end.
(** 374-375 and 393-396.  [types[elementId]] is assigned before the loop over the points, which does not use it. *)
Definition elementPass (st : pass) (e : element) (v : vtkElement) : option pass :=
  let count := u32 (pointCount st + localPointCount st) in
  match write (p_types st) (elementId st) (vtkId v), write (p_offsets st) (elementId st) count with
  | Some ty, Some off =>
      Some {| p_coordinates := p_coordinates st; p_connectivity := p_connectivity st; p_offsets := off; p_types := ty;
              pointCount := count; localPointCount := 0; elementId := S (elementId st) |}
  | _, _ => None
  end.
(** 308-430 writeLocalFileHeader *)
Definition writeLocalFileHeader (dim : nat) (mapping : list (shape * vtkElement)) (elements : list element) : option mesh_arrays :=
  match countPass mapping elements with
  | None => None
  | Some (totalPoints, totalElements) =>
      match forPoints mapping (pointPass dim) elementPass elements
        {| p_coordinates := repeat 0%R (u32 (totalPoints * 3)); p_connectivity := repeat 0 totalPoints;
           p_offsets := repeat 0 totalElements; p_types := repeat 0 totalElements;
           pointCount := 0; localPointCount := 0; elementId := 0 |} with
      | None => None
      | Some st =>
          Some {| numberOfPoints := totalPoints; numberOfCells := totalElements;
                  pointCoordinates := p_coordinates st; connectivity := p_connectivity st;
                  offsets := p_offsets st; types := p_types st |}
      end
  end.

(** ** Fields *)
(** std::map<std::string, std::vector<double>>; it is used with operator[] only *)
Definition fields := list (string * list R).
Fixpoint dget (name : string) (d : fields) : list R :=
  match d with
  | [] => []
  | (n, a) :: r => if String.eqb n name then a else dget name r
  end.
Definition dput (name : string) (a : list R) (d : fields) : fields := (name, a) :: d.
(** std::vector<double>::resize *)
Definition resize (n : nat) (l : list R) : list R := firstn n l ++ repeat 0%R (n - List.length l).

(** 445-458 writePaddedVector *)
Definition writePaddedVector (dim : nat) (offset : nat) (v : list R) (out : list R) : option (list R) :=
  match for_loop (Nat.min dim 3) (fun i out =>
      match nth_error v i with Some x => write out (3 * offset + i) x | None => None end) out with
  | None => None
  | Some out => for_from (Nat.min dim 3) (3 - Nat.min dim 3) (fun i out => write out i 0%R) out
  end.
(** 461-483 writePaddedTensor *)
Definition writePaddedTensor (dim : nat) (offset : nat) (m : nat -> nat -> R) (out : list R) : option (list R) :=
  for_loop 3 (fun i out => for_loop 3 (fun j out =>
    write out (9 * offset + 3 * i + j)
      (if (i <? dim) && (j <? dim) then m i j else if i =? j then 1%R else 0%R)) out) out.

Section Multiple.
Context {T : Type}.
(** the functions of writeMultiple: names and conversions *)
Record outputs : Type := {
  scalars : list (string * (T -> R)); vectors : list (string * (T -> list R)); tensors : list (string * (T -> nat -> nat -> R)) }.

Definition store {V : Type} (put : nat -> V -> list R -> option (list R)) (pointId : nat) (localData : T)
  (entries : list (string * (T -> V))) (d : fields) : option fields :=
  foldM (fun d entry => option_map (fun a => dput (fst entry) a d) (put pointId (snd entry localData) (dget (fst entry) d))) entries d.
Definition writeScalar (pointId : nat) (x : R) (out : list R) : option (list R) := write out pointId x.
(** 178-195 *)
Definition storePoint (dim : nat) (o : outputs) (extractor : element -> point -> T) (st : fields * nat) (ep : element * point)
  : option (fields * nat) :=
  let localData := extractor (fst ep) (snd ep) in
  match store writeScalar (snd st) localData (scalars o) (fst st) with
  | None => None
  | Some d =>
      match store (writePaddedVector dim) (snd st) localData (vectors o) d with
      | None => None
      | Some d =>
          match store (writePaddedTensor dim) (snd st) localData (tensors o) d with
          | None => None
          | Some d => Some (d, S (snd st))
          end
      end
  end.
Definition resizeAll {V : Type} (n : nat) (entries : list (string * V)) (d : fields) : fields :=
  fold_left (fun d entry => dput (fst entry) (resize n (dget (fst entry) d)) d) entries d.

(** a DataArray with its attributes *)
Record data_array : Type := { name : string; numberOfComponents : nat; values : list R }.
(** 131-241 writeMultiple: the arrays in the local file *)
Definition writeMultiple (dim : nat) (mapping : list (shape * vtkElement)) (totalPoints : nat) (elements : list element)
  (extractor : element -> point -> T) (o : outputs) : option (list data_array) :=
  let d := resizeAll totalPoints (scalars o) [] in
  let d := resizeAll (u32 (3 * totalPoints)) (vectors o) d in
  let d := resizeAll (u32 (9 * totalPoints)) (tensors o) d in
  match forPoints mapping (storePoint dim o extractor) (fun st _ _ => Some st) elements (d, 0) with
  | None => None
  | Some (d, _) =>
      Some (map (fun e => {| name := fst e; numberOfComponents := 1; values := dget (fst e) d |}) (scalars o) ++
            map (fun e => {| name := fst e; numberOfComponents := 3; values := dget (fst e) d |}) (vectors o) ++
            map (fun e => {| name := fst e; numberOfComponents := 3; values := dget (fst e) d |}) (tensors o))
  end.
(** 143-163: the arrays that the master file announces *)
Definition masterArrays (o : outputs) : list (string * nat) :=
  map (fun e => (fst e, 1)) (scalars o) ++ map (fun e => (fst e, 3)) (vectors o) ++ map (fun e => (fst e, 3)) (tensors o).
End Multiple.
Arguments outputs T : clear implicits.

(** 433-443 writeBinaryDataArrayData, for a type of [sizeof] bytes.  [encode] gives the bytes of a value; the bytes of the
    size are in the order of a little endian machine. *)
Definition bytes4 (n : N) : list N :=
  [n mod 256; (n / 256) mod 256; (n / 65536) mod 256; (n / 16777216) mod 256]%N.
Definition writeBinaryDataArrayData {V : Type} (sizeof : nat) (encode : V -> list N) (data : list V) : option (list Ascii.ascii) :=
  let size := u32 (List.length data * sizeof) in
  match toBase64 (bytes4 (N.of_nat size)), toBase64 (firstn size (flat_map encode data)) with
  | Some header, Some content => Some (header ++ content)
  | _, _ => None
  end.

(** 288-296 and 315: the name of a piece in the master file and the name of the file that the process writes.
    [number] is std::to_string. . *)
Definition slash : Ascii.ascii := "/"%char.
Fixpoint after_last_slash (acc : list Ascii.ascii) (s : list Ascii.ascii) : list Ascii.ascii :=
  match s with
  | [] => acc
  | c :: s' => if Ascii.eqb c slash then after_last_slash s' s' else after_last_slash acc s'
  end.
Definition pieceName (number : nat -> list Ascii.ascii) (base : list Ascii.ascii) (i : nat) : list Ascii.ascii :=
  after_last_slash base base ++ list_ascii_of_string "." ++ number i ++ list_ascii_of_string ".vtu".
Definition localName (number : nat -> list Ascii.ascii) (base : list Ascii.ascii) (id : nat) : list Ascii.ascii :=
  base ++ list_ascii_of_string "." ++ number id ++ list_ascii_of_string ".vtu".
