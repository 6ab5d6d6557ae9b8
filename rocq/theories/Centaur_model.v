(** Model of the binary files of Centaur: the reader of records (FortranUnformattedFile) and the parts of
    Preprocessor::CentaurReader that read groups, elements and zones.
    A file is the list of the bytes (0..255) that are still to be read.  A seek past the end leaves the empty list, and
    a seek back is only by the number of bytes that were just read, so that it restores the list.  Numbers of the C++
    type std::uint32_t are in [Z]; where the code can wrap around, the model takes the value modulo 2^32.  [None] is a
    failed assertion, or a write outside of a buffer.
    Not modelled: the header, the boundary groups, the higher order nodes; the file type
    (centaurFileType) is a parameter. *)
From Coq Require Import List ZArith Bool.
Import ListNotations.
Open Scope Z_scope.

Notation "x <- a ; b" := (match a with None => None | Some x => b end) (at level 100, a at next level, right associativity).
Notation "' p <- a ; b" := (match a with None => None | Some p => b end) (at level 100, p pattern, a at next level, right associativity).

Definition bytes := list Z.
Definition u32 (x : Z) : Z := x mod 2 ^ 32.
(** the value of a std::uint32_t with these bytes in memory, on a little endian machine *)
Definition value (b : bytes) : Z := fold_right (fun x r => x + 256 * r) 0 b.
Definition size (b : bytes) : Z := Z.of_nat (length b).
(** std::filebuf::sgetn: what is read and what is left *)
Definition sgetn (n : Z) (s : bytes) : bytes * bytes := (firstn (Z.to_nat n) s, skipn (Z.to_nat n) s).

(** How the program was built and what it finds in uninitialised variables: whether logger.assert_debug is compiled in
    (Logger.h:563-566 removes the call and its arguments otherwise), and the (four) bytes on the stack at [recordSize] and
    at [endSize]. *)
Record build := Build { asserts : bool; atStart : bytes; atEnd : bytes }.
(** logger.assert_debug (Logger.h:410-417) *)
Definition assert_debug (c : build) (b : bool) : bool := if asserts c then b else true.

(** FortranUnformattedFile.cpp:100-110 readRecordSize: whether it succeeds, the new value of the variable that held
    [old], and what is left *)
Definition readRecordSize (old s : bytes) : bool * Z * bytes :=
  let '(r, rest) := sgetn 4 s in
  let v := value (firstn 4 (r ++ skipn (length r) old)) in
  if size r =? 4 then (true, v, rest) else (false, v, s).

(** FortranUnformattedFile.cpp:49-64 readRawRecord: the bytes that are put at the start of the buffer, which has room
    for [expected] bytes, and what is left *)
Definition readRawRecord (c : build) (expected : Z) (s : bytes) : option (bytes * bytes) :=
  let '(ok, recordSize, s1) := if asserts c then readRecordSize (atStart c) s else (true, value (atStart c), s) in
  if assert_debug c ok && assert_debug c (recordSize =? expected) then
    let '(content, s2) := sgetn recordSize s1 in
    if expected <? size content then None
    else if assert_debug c (size content =? recordSize) then
      let '(_, endSize, s3) := readRecordSize (atEnd c) s2 in
      if assert_debug c (recordSize =? endSize) then Some (content, s3) else None
    else None
  else None.

(** FortranUnformattedFile.cpp:66-77 peekRecordSize: it does not move *)
Definition peekRecordSize (c : build) (s : bytes) : option Z :=
  let '(r, _) := sgetn 4 s in
  if assert_debug c (size r =? 4) then Some (value (firstn 4 (r ++ skipn (length r) (atStart c)))) else None.

(** FortranUnformattedFile.cpp:79-93 skipRecord *)
Definition skipRecord (c : build) (expected : Z) (s : bytes) : option bytes :=
  let '(ok, recordSize, s1) := if asserts c then readRecordSize (atStart c) s else (true, value (atStart c), s) in
  if assert_debug c ok && assert_debug c (recordSize =? expected) then
    let s2 := skipn (Z.to_nat recordSize) s1 in
    let '(ok2, endSize, s3) := if asserts c then readRecordSize (atEnd c) s2 else (true, value (atEnd c), s2) in
    if assert_debug c ok2 && assert_debug c (recordSize =? endSize) then Some s3 else None
  else None.

(** FortranUnformattedFile.cpp:95-98 eof *)
Definition eof (s : bytes) : bool := match s with [] => true | _ => false end.

(** the numbers of a buffer of std::uint32_t *)
Fixpoint words (n : nat) (b : bytes) : list Z :=
  match n with O => [] | S n => value (firstn 4 b) :: words n (skipn 4 b) end.

Section Reader.
Context (c : build) (fileType : Z).

(** centaur.h: getDimension, is2D, is3D *)
Definition is3D : bool := 0 <? fileType.

(** centaur.cpp:622-635 readGroupSize: the total count and the count per line *)
Definition readGroupSize (expectMultiline : bool) (s : bytes) : option (Z * Z * bytes) :=
  let multiline := expectMultiline && (4 <? fileType) in
  '(b, s1) <- readRawRecord c (if multiline then 8 else 4) s;
  if multiline then Some (value (firstn 4 b), value (firstn 4 (skipn 4 b)), s1)
  else Some (value (firstn 4 b), value (firstn 4 b), s1).

(** a record that is read into the buffer [data] at a number of bytes; the buffer ends there or after the record *)
Definition readInto (at_ len : Z) (data s : bytes) : option (bytes * bytes) :=
  '(b, s1) <- readRawRecord c len s;
  if at_ + size b <=? size data then
    Some (firstn (Z.to_nat at_) data ++ b ++ skipn (Z.to_nat (at_ + size b)) data, s1)
  else None.

(** centaur.cpp:658-671, the while loop; [entriesRead * numComponents] and [lineSize * numComponents] are products of
    std::uint32_t, the length of a record is again one.  [fuel] bounds the number of records; a loop that needs more does
    not end (a group whose count per line is 0). *)
Fixpoint readLines (fuel : nat) (bytesPer total perLine components entriesRead : Z) (data s : bytes) : option (bytes * bytes) :=
  if entriesRead <? total then
    match fuel with
    | O => None
    | S fuel =>
        let lineSize := Z.min perLine (total - entriesRead) in
        '(data, s) <- readInto (u32 (entriesRead * components) * bytesPer) (u32 (u32 (lineSize * components) * bytesPer)) data s;
        readLines fuel bytesPer total perLine components (u32 (entriesRead + lineSize)) data s
    end
  else if entriesRead =? total then Some (data, s) else None.

(** centaur.cpp:637-674 readGroup<T> with lineCountIsComponents = false, where sizeof(T) = [bytesPer]: the count that is
    returned and the bytes of [data] *)
Definition readGroup (bytesPer components : Z) (expectMultiline : bool) (s : bytes) : option (Z * bytes * bytes) :=
  '(total, perLine, s) <- readGroupSize expectMultiline s;
  let data := repeat 0 (Z.to_nat (total * components * bytesPer)) in
  if total * components =? 0 then '(_, s) <- readRawRecord c 0 s; Some (total, data, s)
  else '(data, s) <- readLines (S (length s)) bytesPer total perLine components 0 data s; Some (total, data, s).

(** centaur.cpp:293-309 skipGroup, the inner loop *)
Fixpoint skipLines (fuel : nat) (total perLine read : Z) (s : bytes) : option bytes :=
  if read <? total then
    match fuel with
    | O => None
    | S fuel => len <- peekRecordSize c s; s <- skipRecord c len s; skipLines fuel total perLine (read + perLine) s
    end
  else Some s.
Fixpoint skipProperties (linesPerEntity : nat) (total perLine : Z) (s : bytes) : option bytes :=
  match linesPerEntity with
  | O => Some s
  | S k => s <- skipLines (S (length s)) total perLine 0 s; skipProperties k total perLine s
  end.
Definition skipGroup (linesPerEntity : nat) (multiline : bool) (s : bytes) : option (Z * bytes) :=
  '(total, perLine, s) <- readGroupSize multiline s;
  s <- (if total =? 0 then skipRecord c 0 s else skipProperties linesPerEntity total perLine s);
  Some (total, s).

(** centaur.cpp:251-266 readCoordinates: for each node its coordinates, each with the eight bytes of a double; the id of
    a node is its index *)
Definition dimension : nat := if is3D then 3 else 2.
Fixpoint pieces (n width : nat) (b : bytes) : list bytes :=
  match n with O => [] | S n => firstn width b :: pieces n width (skipn width b) end.
Definition readCoordinates (s : bytes) : option (list (list bytes) * bytes) :=
  '(_, data, s) <- readGroup 8 (Z.of_nat dimension) true s;
  let count := (length data / 8 / dimension)%nat in
  Some (map (pieces dimension 8) (pieces count (dimension * 8) data), s).

(** centaur.cpp:345-357, the loop over the pairs of nodes: the assignments [merge[node0] = node1] in their order;
    [pairs[i] - 1] is a std::uint32_t *)
Fixpoint mergesOf (pairs : list Z) : list (Z * Z) :=
  match pairs with
  | a :: b :: r =>
      let node0 := u32 (a - 1) in let node1 := u32 (b - 1) in
      if node1 =? 2 ^ 32 - 1 then mergesOf r else (node0, node1) :: mergesOf r
  | _ => []
  end.
(** centaur.cpp:320-358, one periodic connection; centaur.cpp:311-361 readPeriodicNodeConnections *)
Definition readConnection (s : bytes) : option (list (Z * Z) * bytes) :=
  let transformSize := 4 + Z.of_nat (S dimension * S dimension) * 8 in
  s <- skipRecord c transformSize s;
  s <- skipRecord c transformSize s;
  '(pairs, _, s) <- readGroupSize false s;
  '(b, s) <- readRawRecord c (u32 (2 * pairs * 4)) s;
  if size b =? 2 * pairs * 4 then Some (mergesOf (words (Z.to_nat (2 * pairs)) b), s) else None.
Fixpoint readConnections (n : nat) (s : bytes) : option (list (list (Z * Z)) * bytes) :=
  match n with
  | O => Some ([], s)
  | S n => '(m, s) <- readConnection s; '(ms, s) <- readConnections n s; Some (m :: ms, s)
  end.
Definition readPeriodicNodeConnections (s : bytes) : option (list (list (Z * Z)) * bytes) :=
  if (3 <? fileType) || negb is3D then
    '(n, _, s) <- readGroupSize false s;
    readConnections (Z.to_nat n) s
  else None.

(** centaur.cpp:676-697 numNodes *)
Definition numNodes (elemType : nat) : option Z :=
  if is3D then nth_error [8; 6; 5; 4] elemType else nth_error [3; 4] elemType.

(** centaur.cpp:699-733 reorderElementCoords *)
Definition reorderElementCoords (elemType : nat) (l : list Z) : option (list Z) :=
  match is3D, elemType, l with
  | false, 0%nat, _ => Some l
  | false, 1%nat, [a; b; c; d] => Some [a; b; d; c]
  | true, 0%nat, [a; b; c; d; e; f; g; h] => Some [a; b; d; c; e; f; h; g]
  | true, 1%nat, _ => Some l
  | true, 2%nat, [a; b; c; d; top] => Some [top; a; b; d; c]
  | true, 3%nat, _ => Some l
  | _, _, _ => None
  end.

(** centaur.cpp:268-291 readElements: the new elements in order; [coordIds - 1] is a std::uint32_t.  The zone name of
    each is set to "UNSET", see [applyZones]. *)
Fixpoint elementsOf (count components : nat) (elemType : nat) (b : bytes) : option (list (list Z)) :=
  match count with
  | O => Some []
  | S k =>
      e <- reorderElementCoords elemType (map (fun x => u32 (x - 1)) (words components b));
      r <- elementsOf k components elemType (skipn (4 * components) b);
      Some (e :: r)
  end.
Definition readElements (elemType : nat) (s : bytes) : option (list (list Z) * bytes) :=
  n <- numNodes elemType;
  '(count, data, s) <- readGroup 4 n true s;
  es <- elementsOf (Z.to_nat count) (Z.to_nat n) elemType data;
  Some (es, s).

(** centaur.cpp:136-142, the loop of the constructor over the types of elements: the elements and the number of each
    type (elementCount, which has four entries) *)
Fixpoint readTypes (types : list nat) (s : bytes) : option (list (list Z) * list nat * bytes) :=
  match types with
  | [] => Some ([], [], s)
  | t :: ts => '(es, s) <- readElements t s; '(es2, counts, s) <- readTypes ts s; Some (es ++ es2, length es :: counts, s)
  end.
Definition readAllElements (s : bytes) : option (list (list Z) * list nat * bytes) :=
  '(es, counts, s) <- readTypes (if is3D then [0; 1; 2; 3]%nat else [0; 1]%nat) s;
  Some (es, if is3D then counts else counts ++ [0; 0]%nat, s).
End Reader.

(** centaur.cpp:521-525: one zone for one type: from [pos] on, as long as it is below the end offset; [None] if it leaves
    the vector *)
Section Zones.
Context {A : Type}.
Fixpoint assign (n : nat) (name : A) (pos : nat) (names : list A) : option (list A) :=
  match n with
  | O => Some names
  | S n => if (pos <? length names)%nat then assign n name (S pos) (firstn pos names ++ name :: skipn (S pos) names) else None
  end.
(** the loop over the types: the positions and the names after it *)
Fixpoint zoneTypes (name : A) (ends positions : list nat) (names : list A) : option (list nat * list A) :=
  match ends, positions with
  | e :: ends, p :: positions =>
      names <- assign (e - p) name p names;
      '(ps, names) <- zoneTypes name ends positions names;
      Some (Nat.max p e :: ps, names)
  | _, _ => Some ([], names)
  end.
Fixpoint zonesFrom (zones : list (A * list nat)) (positions : list nat) (names : list A) : option (list A) :=
  match zones with
  | [] => Some names
  | (name, ends) :: r => '(positions, names) <- zoneTypes name ends positions names; zonesFrom r positions names
  end.
(** centaur.cpp:511-527: the names of the zones of all elements; [zones] holds the name and the end offsets of each
    zone.  Every element starts with the name "UNSET" (centaur.cpp:278), here [unset]. *)
Definition startsOf (counts : list nat) : list nat :=
  match counts with [a; b; c; _] => [0; a; a + b; a + b + c]%nat | _ => [] end.
Definition applyZones (unset : A) (counts : list nat) (zones : list (A * list nat)) : option (list A) :=
  zonesFrom zones (startsOf counts) (repeat unset (fold_right Nat.add 0%nat counts)).
(** centaur.cpp:412-464: the end offsets of the zones, from the first elements (counted from 1) of each zone in the
    record; [starts] has one row for each zone with the entries for four types of elements ([numIndexEntries] is 2 in
    two dimensions; the others are then 1).  The end of a zone is the start of the next, that of the
    last the number of elements.  A start of 0, which no file has, would wrap around; here it stays 0.  No zone at all is an access out of range (centaur.cpp:458). *)
Fixpoint endsFrom (counts : list nat) (starts : list (list nat)) : option (list (list nat)) :=
  match starts with
  | [] => None
  | [_] => Some [counts]
  | _ :: (next :: _) as r => e <- endsFrom counts r; Some (map pred next :: e)
  end.
Definition endOffsets (counts : list nat) (starts : list (list nat)) : option (list (list nat)) :=
  match starts with
  | s :: _ => if forallb (Nat.eqb 1) s then endsFrom counts starts else None
  | [] => None
  end.
(** centaur.cpp:382-528 readZoneInfo after the records have been read.  [zones] is [None] for a two-dimensional file of
    an old version that ends before the zones (centaur.cpp:383-395): one zone is made, and the function returns. *)
Definition nameZones (unset : A) (counts : list nat) (zones : option (list (A * list nat))) : option (list A) :=
  match zones with
  | None => Some (repeat unset (fold_right Nat.add 0%nat counts))
  | Some zs => ends <- endOffsets counts (map snd zs); applyZones unset counts (combine (map fst zs) ends)
  end.
End Zones.
