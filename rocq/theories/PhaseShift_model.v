(** Model of the phase shifts of the global matrix of a k-shifted periodic mesh (applications/DG-Max/Utils/
    KPhaseShift.{h,cpp}, MatrixBlocks.{h,cpp}, FaceKPhaseShiftBuilder.cpp).
    The matrix is a function of the row and the column; a block is the list of its entries by columns, as in
    MiddleSizeMatrix.  Simplifications: exact arithmetic; calls of PETSc do not fail, and every row can be written.
    Entries out of the range of a list are 0; none are read for blocks that have the right sizes. *)
From Coq Require Import List Arith Bool Reals.
Import ListNotations.

Definition complex := (R * R)%type.
Definition zero : complex := (0, 0)%R.
Definition cmul (a b : complex) : complex := (fst a * fst b - snd a * snd b, fst a * snd b + snd a * fst b)%R.
Definition isZero (a : complex) : bool := if Req_EM_T (fst a) 0 then (if Req_EM_T (snd a) 0 then true else false) else false.
(** std::exp of an imaginary number *)
Definition expi (t : R) : complex := (cos t, sin t).
(** SmallVector: the inner product and the negative *)
Definition dot (k x : list R) : R := fold_right Rplus 0%R (map (fun p => (fst p * snd p)%R) (combine k x)).
Definition neg (x : list R) : list R := map Ropp x.

(** MatrixBlocks.h:116-127, the members; [block2] is there for a pair *)
Record blocks := Blocks { rowIndices : list nat; columnIndices : list nat; block1 : list complex; block2 : option (list complex) }.
Definition getBlockSize (b : blocks) : nat := length (rowIndices b) * length (columnIndices b).
Definition isPair (b : blocks) : bool := match block2 b with Some _ => true | None => false end.
(** MatrixBlocks.h:97-104, a loop that copies; what goes past the end of the storage, where the code would write out of
    range, is lost *)
Definition copy (at_ : nat) (values storage : list complex) : list complex :=
  firstn (length storage) (firstn at_ storage ++ values ++ skipn (at_ + length values) storage).
(** MatrixBlocks.h:89-105 loadBlocks: the storage is used for one block after the other *)
Definition loadBlocks (b : blocks) (storage : list complex) : list complex :=
  let n := getBlockSize b in
  let m := if isPair b then 2 * n else n in
  let storage := if length storage <? m then storage ++ repeat zero (m - length storage) else storage in
  let storage := copy 0 (map (fun i => nth i (block1 b) zero) (seq 0 n)) storage in
  match block2 b with
  | None => storage
  | Some b2 => copy n (map (fun i => nth i b2 zero) (seq 0 n)) storage
  end.
Definition matrix := nat -> nat -> complex.
(** MatSetValue with INSERT_VALUES *)
Definition MatSetValue (m : matrix) (w : nat * nat * complex) : matrix :=
  fun r c => if (r =? fst (fst w)) && (c =? snd (fst w)) then snd w else m r c.
(** MatrixBlocks.cpp:42-76 insertBlock: the values that are inserted, in their order *)
Definition insertBlock (b : blocks) (storage : list complex) (hermitianPart : bool) : list (nat * nat * complex) :=
  flat_map (fun i => flat_map (fun j =>
    let row := nth i (rowIndices b) 0 in
    let col := nth j (columnIndices b) 0 in
    let w := if hermitianPart then (col, row, nth (getBlockSize b + length (columnIndices b) * i + j) storage zero)
             else (row, col, nth (length (rowIndices b) * j + i) storage zero) in
    if isZero (snd w) then [] else [w])
    (seq 0 (length (columnIndices b)))) (seq 0 (length (rowIndices b))).
(** MatrixBlocks.h:108-113 insertBlocks *)
Definition insertBlocks (b : blocks) (storage : list complex) : list (nat * nat * complex) :=
  insertBlock b storage false ++ (if isPair b then insertBlock b storage true else []).

(** KPhaseShift.h:79-97 *)
Record shift := Shift { shiftBlocks : blocks; dx : list R }.
(** KPhaseShift.cpp:45-72 apply: the new storage, and the values that are inserted *)
Definition applyBlock (s : shift) (k : list R) (storage : list complex) : list complex * list (nat * nat * complex) :=
  let b := shiftBlocks s in
  let n := getBlockSize b in
  let storage := loadBlocks b storage in
  let phase := expi (dot k (dx s)) in
  let storage := map (fun x => cmul x phase) (firstn n storage) ++ skipn n storage in
  let storage :=
    if isPair b then
      let antiPhase := expi (- dot k (dx s)) in
      firstn n storage ++ map (fun x => cmul x antiPhase) (firstn n (skipn n storage)) ++ skipn (2 * n) storage
    else storage in
  (storage, insertBlocks b storage).
(** KPhaseShift.cpp:75-94 apply *)
Fixpoint writes (l : list shift) (k : list R) (storage : list complex) : list (nat * nat * complex) :=
  match l with [] => [] | s :: l => let '(storage, w) := applyBlock s k storage in w ++ writes l k storage end.
Definition apply (l : list shift) (k : list R) (m : matrix) : matrix := fold_left MatSetValue (writes l k []) m.

(** A periodic face as a processor sees it: the global indices of the basis functions of its elements, and whether it
    owns them; the jump in the coordinates (boundaryFaceShift and the extra shift), and the two blocks of the face matrix. *)
Record face := Face { leftIndices : list nat; rightIndices : list nat; ownsLeft : bool; ownsRight : bool;
                      jump : list R; blockLR : list complex; blockRL : list complex }.
(** FaceKPhaseShiftBuilder.cpp:87-148 facePhaseShift *)
Definition facePhaseShift (f : face) : shift :=
  if ownsLeft f then
    Shift (Blocks (leftIndices f) (rightIndices f) (blockLR f) (if ownsRight f then Some (blockRL f) else None)) (jump f)
  else Shift (Blocks (rightIndices f) (leftIndices f) (blockRL f) None) (neg (jump f)).
(** FaceKPhaseShiftBuilder.cpp:45-85 build, for the faces that are marked as periodic *)
Definition build (fs : list face) : list shift :=
  flat_map (fun f => if negb (ownsLeft f) && negb (ownsRight f) then [] else [facePhaseShift f]) fs.
