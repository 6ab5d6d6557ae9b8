(** Model of applications/Preprocessor/lib/gmsh.{h,cpp}: the reader of Gmsh files (format 2.2).

    The file is its list of characters. size_t values are in Z, with arithmetic modulo 2^64. [None]: an assertion fails,
    an exception is thrown, a vector is read out of range, or an extraction from the file fails (in C++ the fail bit is set
    and the value is 0 or indeterminate from then on). A number is the whole word up to the next white space; that the
    stream would stop inside a word, after the last character that can belong to a number, is not modelled. The conversion
    of floating point numbers is abstract. *)
From Coq Require Import String Ascii List Arith Bool ZArith DecimalString.
From Verif Require Import Loop_model Std_model StdMap_model Reorder_model.
From Verif Require CommandLine_model.
Import ListNotations.
Notation isSpace := CommandLine_model.isSpace.
Notation skipSpace := CommandLine_model.skipSpace.
Notation readSign := CommandLine_model.readSign.
Notation readDigits := CommandLine_model.readDigits.
Notation atEnd := CommandLine_model.atEnd.

Definition text := list ascii.
Definition chars (s : string) : text := list_ascii_of_string s.
Definition same (a b : text) : bool := if list_eq_dec ascii_dec a b then true else false.
Definition LF : ascii := "010"%char.
Definition CR : ascii := "013"%char.
Definition QUOTE : ascii := "034"%char.
Definition BACKSLASH : ascii := "092"%char.
Definition DOLLAR : ascii := "036"%char.

Definition bind {A B} (o : option A) (f : A -> option B) : option B := match o with Some a => f a | None => None end.
Notation "x <- e ; k" := (bind e (fun x => k)) (at level 61, e at next level, right associativity).
Definition must (b : bool) : option unit := if b then Some tt else None.

(** a stream: the characters that follow, and the eof bit *)
Record stream := Stream { rest : text; eof : bool }.
Definition isEmpty (t : text) : bool := match t with [] => true | _ => false end.

(** gmsh.cpp:63-91 [safeGetline]: the line, what follows it, and whether the end of the file was met *)
Fixpoint getChars (t : text) : text * (text * bool) :=
  match t with
  | [] => ([], ([], true))
  | c :: t' =>
      if Ascii.eqb c LF then ([], (t', false))
      else if Ascii.eqb c CR
      then ([], (match t' with c' :: t'' => if Ascii.eqb c' LF then t'' else t' | [] => [] end, false))
      else let r := getChars t' in (c :: fst r, snd r)
  end.
Definition safeGetline (s : stream) : text * stream :=
  let r := getChars (rest s) in
  (fst r, Stream (fst (snd r)) (eof s || (snd (snd r) && isEmpty (fst r)))).

(** [Filehandle_ >> w]: white space is skipped; the word ends before the next white space *)
Fixpoint span (t : text) : text * text :=
  match t with
  | [] => ([], [])
  | c :: t' => if isSpace c then ([], t) else let r := span t' in (c :: fst r, snd r)
  end.
Definition extract (s : stream) : option (text * stream) :=
  if eof s then None
  else let r := span (skipSpace (rest s)) in
       if isEmpty (fst r) then None else Some (fst r, Stream (snd r) (isEmpty (snd r))).
(** std::size_t (64 bits) and int (32 bits) *)
Definition sizeBound : Z := (2 ^ 64)%Z.
Definition toSize (w : text) : option Z :=
  let s := readSign w in
  let n := readDigits 0 (snd s) in
  if (negb (isEmpty (snd s)) && atEnd (snd n) && (fst n <? sizeBound)%Z)%bool
  then Some (if fst s then ((- fst n) mod sizeBound)%Z else fst n) else None.
Definition toInt (w : text) : option Z :=
  let s := readSign w in
  let n := readDigits 0 (snd s) in
  let z := if fst s then (- fst n)%Z else fst n in
  if (negb (isEmpty (snd s)) && atEnd (snd n) && (- 2 ^ 31 <=? z)%Z && (z <? 2 ^ 31)%Z)%bool then Some z else None.
Definition readSize (s : stream) : option (Z * stream) :=
  r <- extract s; z <- toSize (fst r); Some (z, snd r).
Definition readInt (s : stream) : option (Z * stream) :=
  r <- extract s; z <- toInt (fst r); Some (z, snd r).
(** [>> std::quoted(name)]: up to the next quote, with backslash as escape; without a first quote the next word *)
Fixpoint untilQuote (t : text) : option (text * text) :=
  match t with
  | [] => None
  | c :: t' =>
      if Ascii.eqb c QUOTE then Some ([], t')
      else if Ascii.eqb c BACKSLASH
      then match t' with [] => None | c' :: t'' => r <- untilQuote t''; Some (c' :: fst r, snd r) end
      else r <- untilQuote t'; Some (c :: fst r, snd r)
  end.
Definition readQuoted (s : stream) : option (text * stream) :=
  if eof s then None
  else match skipSpace (rest s) with
       | c :: t => if Ascii.eqb c QUOTE then r <- untilQuote t; Some (fst r, Stream (snd r) false) else extract s
       | [] => None
       end.

(** [x - 1] for a size_t *)
Definition predecessor (z : Z) : Z := ((z - 1) mod sizeBound)%Z.

(** [for (i = 0; i < n; i++) body] on a state *)
Fixpoint times {St} (n : nat) (body : St -> option St) (s : St) : option St :=
  match n with 0 => Some s | S n' => s' <- body s; times n' body s' end.

(** gmsh.cpp:113-233 [fillElementTypeMap]: dimension and number of nodes; [at] throws for other types *)
Definition elementType (t : Z) : option (nat * nat) :=
  match t with
  | 1 => Some (1%nat, 2%nat) | 2 => Some (2%nat, 3%nat) | 3 => Some (2%nat, 4%nat) | 4 => Some (3%nat, 4%nat) | 5 => Some (3%nat, 8%nat)
  | 6 => Some (3%nat, 6%nat) | 7 => Some (3%nat, 5%nat) | 8 => Some (1%nat, 3%nat) | 9 => Some (2%nat, 6%nat) | 10 => Some (2%nat, 9%nat)
  | 11 => Some (3%nat, 10%nat) | 12 => Some (3%nat, 27%nat) | 13 => Some (3%nat, 18%nat) | 14 => Some (3%nat, 14%nat) | 15 => Some (0%nat, 1%nat)
  | 16 => Some (2%nat, 8%nat) | 17 => Some (3%nat, 20%nat) | 18 => Some (3%nat, 15%nat) | 19 => Some (3%nat, 13%nat) | 20 => Some (2%nat, 9%nat)
  | 21 => Some (2%nat, 10%nat) | 22 => Some (2%nat, 12%nat) | 23 => Some (2%nat, 15%nat) | 24 => Some (2%nat, 15%nat) | 25 => Some (2%nat, 21%nat)
  | 26 => Some (1%nat, 4%nat) | 27 => Some (1%nat, 5%nat) | 28 => Some (1%nat, 6%nat) | 29 => Some (3%nat, 20%nat) | 30 => Some (3%nat, 35%nat)
  | 31 => Some (3%nat, 56%nat) | 92 => Some (3%nat, 64%nat) | 93 => Some (3%nat, 125%nat)
  | _ => None
  end%Z.

(** gmsh.h:81-97 [Element] *)
Definition NO_TAG : Z := (sizeBound - 1)%Z.
Record raw := Raw { gmshTag : Z; r_dimension : nat; physicalNameTag : Z; coordinates : list Z }.

(** gmsh.cpp:522-557: the ends of sections. The assertions after the loops are about a string literal and always hold. *)
Definition startsEnd (line : text) : bool := same (firstn 4 line) (chars "$End").
Fixpoint skipSection (fuel : nat) (sectionName : text) (s : stream) : option stream :=
  match fuel with
  | 0 => None
  | S fuel =>
      if eof s then Some s
      else let r := safeGetline s in
           if startsEnd (fst r)
           then _u <- must (same (skipn 4 (fst r)) sectionName); Some (snd r)
           else skipSection fuel sectionName (snd r)
  end.
Fixpoint readSectionEnd (fuel : nat) (sectionName : text) (s : stream) : option stream :=
  match fuel with
  | 0 => None
  | S fuel =>
      if eof s then Some s
      else let r := safeGetline s in
           if forallb isSpace (fst r) then readSectionEnd fuel sectionName (snd r)
           else _u <- must (4 <=? length (fst r));
                _u <- must (same (skipn 4 (fst r)) sectionName); Some (snd r)
  end.
(** every round takes a character or sets the eof bit *)
Definition enough (s : stream) : nat := length (rest s) + 2.

Section Reader.
  Context {D : Type}.
  Variable convert : text -> option D.
  (** [std::abs(x) > tol], [version_ == 2.2], [static_cast<std::size_t>(std::round(x))], [double()] *)
  Variable exceeds : D -> bool.
  Variable isVersion : D -> bool.
  Variable rounded : D -> Z.
  Variable zero : D.

  Definition readReal (s : stream) : option (D * stream) :=
    r <- extract s; z <- convert (fst r); Some (z, snd r).

  Record reader := Reader {
    dimension : nat;
    physicalNames : list (list (Z * text));
    rawElements : list raw;
    nodes : list (Z * list D);
    merges : list (list (Z * Z)) }.

  (** gmsh.cpp:235-249 *)
  Definition readHeader (s : stream) : option stream :=
    version <- readReal s;
    filetype <- readInt (snd version);
    datasize <- readInt (snd filetype);
    _u <- must (isVersion (fst version));
    _u <- must (fst filetype =? 0)%Z;
    readSectionEnd (enough (snd datasize)) (chars "MeshFormat") (snd datasize).

  (** gmsh.cpp:251-276. The vector of maps is enlarged to hold the dimension; [-tag] overflows for the smallest int. *)
  Definition readName (x : reader * stream) : option (reader * stream) :=
    let st := fst x in
    d <- readSize (snd x);
    t <- readInt (snd d);
    _u <- must (negb (fst t =? - 2 ^ 31)%Z);
    name <- readQuoted (snd t);
    let dim := Z.to_nat (fst d) in
    let tag := if (fst t <? 0)%Z then (- fst t)%Z else fst t in
    let names := if length (physicalNames st) <? dim + 1 then vresize (physicalNames st) (dim + 1) [] else physicalNames st in
    m <- nth_error names dim;
    names <- write names dim (mput Z.ltb tag (fst name) m);
    Some (Reader (if dimension st <? dim then dim else dimension st) names (rawElements st) (nodes st) (merges st), snd name).
  Definition readPhysicalNames (x : reader * stream) : option (reader * stream) :=
    n <- readSize (snd x);
    y <- times (Z.to_nat (fst n)) readName (fst x, snd n);
    s <- readSectionEnd (enough (snd y)) (chars "PhysicalNames") (snd y);
    Some (fst y, s).

  (** gmsh.cpp:278-305 *)
  Definition readNode (x : reader * stream) : option (reader * stream) :=
    let st := fst x in
    tag <- readSize (snd x);
    a <- readReal (snd tag);
    b <- readReal (snd a);
    c <- readReal (snd b);
    let dim := dimension st in
    let dim := if ((dim <? 3) && exceeds (fst c))%bool then 3
               else if ((dim <? 2) && exceeds (fst b))%bool then 2
               else if ((dim <? 1) && exceeds (fst a))%bool then 1 else dim in
    Some (Reader dim (physicalNames st) (rawElements st)
            (nodes st ++ [(predecessor (fst tag), [fst a; fst b; fst c])]) (merges st), snd c).
  Definition readNodes (x : reader * stream) : option (reader * stream) :=
    n <- readSize (snd x);
    y <- times (Z.to_nat (fst n)) readNode (fst x, snd n);
    s <- readSectionEnd (enough (snd y)) (chars "Nodes") (snd y);
    Some (fst y, s).

  (** gmsh.cpp:336-374 *)
  Definition skipInt (s : stream) : option stream := r <- readInt s; Some (snd r).
  Definition readCoordinate (x : list Z * stream) : option (list Z * stream) :=
    r <- readSize (snd x); Some (fst x ++ [predecessor (fst r)], snd r).
  Definition readElement (reorder : registry) (x : reader * stream) : option (reader * stream) :=
    let st := fst x in
    number <- readSize (snd x);
    type <- readSize (snd number);
    noTags <- readSize (snd type);
    info <- elementType (fst type);
    _u <- must (predecessor (fst number) =? Z.of_nat (length (rawElements st)))%Z;
    tag <- (if (0 <? fst noTags)%Z then readSize (snd noTags) else Some (NO_TAG, snd noTags));
    s <- times (Z.to_nat (predecessor (fst noTags))) skipInt (snd tag);
    points <- times (snd info) readCoordinate ([], s);
    coords <- reorderToHpGem reorder (fst info) (fst points);
    Some (Reader (dimension st) (physicalNames st)
            (rawElements st ++ [Raw (fst number) (fst info) (fst tag) coords]) (nodes st) (merges st), snd points).
  (** gmsh.cpp:307-377; the registrations are in Reorder_model *)
  Definition readElements (x : reader * stream) : option (reader * stream) :=
    reorder <- register_all [] gmsh_orders;
    n <- readSize (snd x);
    y <- times (Z.to_nat (fst n)) (readElement reorder) (fst x, snd n);
    s <- readSectionEnd (enough (snd y)) (chars "Elements") (snd y);
    Some (fst y, s).

  (** gmsh.cpp:379-446 *)
  Definition skipWord (s : stream) : option stream := r <- extract s; Some (snd r).
  Definition skipReal (s : stream) : option stream := r <- readReal s; Some (snd r).
  Definition skipSize (s : stream) : option stream := r <- readSize s; Some (snd r).
  Definition readDatum (x : reader * stream) : option (reader * stream) :=
    let st := fst x in
    id <- readSize (snd x);
    zone <- readReal (snd id);
    let k := Z.to_nat (predecessor (fst id)) in
    e <- nth_error (rawElements st) k;
    _u <- must (gmshTag e =? fst id)%Z;
    l <- write (rawElements st) k (Raw (gmshTag e) (r_dimension e) (rounded (fst zone)) (coordinates e));
    Some (Reader (dimension st) (physicalNames st) l (nodes st) (merges st), snd zone).
  Definition readElementData (x : reader * stream) : option (reader * stream) :=
    match physicalNames (fst x) with
    | _ :: _ => s <- skipSection (enough (snd x)) (chars "ElementData") (snd x); Some (fst x, s)
    | [] =>
        a <- readSize (snd x);
        s <- times (Z.to_nat (fst a)) skipWord (snd a);
        b <- readSize s;
        s <- times (Z.to_nat (fst b)) skipReal (snd b);
        c <- readSize s;
        _u <- must (2 <? fst c)%Z;
        step <- readSize (snd c);
        components <- readSize (snd step);
        entities <- readSize (snd components);
        _u <- must (fst components =? 1)%Z;
        s <- times (Z.to_nat (fst c - 3)) skipSize (snd entities);
        y <- times (Z.to_nat (fst entities)) readDatum (fst x, s);
        s <- readSectionEnd (enough (snd y)) (chars "ElementData") (snd y);
        Some (fst y, s)
    end.

  (** gmsh.cpp:448-474 *)
  Definition readPair (x : list (Z * Z) * stream) : option (list (Z * Z) * stream) :=
    node2 <- readSize (snd x);
    node1 <- readSize (snd node2);
    Some (mput Z.ltb (predecessor (fst node2)) (predecessor (fst node1)) (fst x), snd node1).
  Definition readMerge (i : nat) (x : list (list (Z * Z)) * stream) : option (list (list (Z * Z)) * stream) :=
    s <- times 3 skipSize (snd x);
    n <- readSize s;
    m <- nth_error (fst x) i;
    y <- times (Z.to_nat (fst n)) readPair (m, snd n);
    l <- write (fst x) i (fst y);
    Some (l, snd y).
  Definition readPBCs (x : reader * stream) : option (reader * stream) :=
    let st := fst x in
    n <- readSize (snd x);
    y <- for_loop (Z.to_nat (fst n)) readMerge (vresize (merges st) (Z.to_nat (fst n)) [], snd n);
    s <- readSectionEnd (enough (snd y)) (chars "Periodic") (snd y);
    Some (Reader (dimension st) (physicalNames st) (rawElements st) (nodes st) (fst y), s).

  (** gmsh.cpp:476-511: std::to_string, map::operator[] (an empty name if there is none) *)
  Definition decimal (z : Z) : text := chars (NilZero.string_of_uint (N.to_uint (Z.to_N z))).
  Record element := Element { id : nat; coordinateIds : list Z; zoneName : text; e_dimension : nat }.
  Definition zoneOf (st : reader) (e : raw) : option text :=
    if (physicalNameTag e =? NO_TAG)%Z then Some (chars "Main")
    else match physicalNames st with
         | _ :: _ => m <- nth_error (physicalNames st) (dimension st);
                     Some (match mfind Z.ltb (physicalNameTag e) m with Some n => n | None => [] end)
         | [] => Some (decimal (physicalNameTag e))
         end.
  Fixpoint convertRawElements (st : reader) (index : nat) (l : list raw) : option (list element) :=
    match l with
    | [] => Some []
    | e :: l' =>
        if r_dimension e =? dimension st
        then zone <- zoneOf st e;
             r <- convertRawElements st (S index) l';
             Some (Element index (coordinates e) zone (r_dimension e) :: r)
        else convertRawElements st index l'
    end.

  (** what getDimension, getCoordinates, getElements and getMerges return *)
  Record mesh := Mesh { m_dimension : nat; m_nodes : list (Z * list D); m_elements : list element; m_merges : list (list (Z * Z)) }.
  (** gmsh.cpp:513-520 [pruneCoordinatesToDimension] *)
  Definition prune (dim : nat) (n : Z * list D) : Z * list D :=
    if dim =? 3 then n else (fst n, vresize (snd n) dim zero).

  (** gmsh.cpp:559-613, the constructor *)
  Fixpoint readSections (fuel : nat) (found : bool) (x : reader * stream) : option reader :=
    match fuel with
    | 0 => None
    | S fuel =>
        if eof (snd x) then Some (fst x)
        else
          let r := safeGetline (snd x) in
          let y := (fst x, snd r) in
          match fst r with
          | [] => readSections fuel found y
          | c :: sectionName =>
              if negb (Ascii.eqb c DOLLAR) then readSections fuel found y
              else if same sectionName (chars "MeshFormat")
              then _u <- must (negb found); s <- readHeader (snd y); readSections fuel true (fst y, s)
              else if same sectionName (chars "PhysicalNames")
              then _u <- must found; z <- readPhysicalNames y; readSections fuel found z
              else if same sectionName (chars "Nodes")
              then _u <- must found; z <- readNodes y; readSections fuel found z
              else if same sectionName (chars "Elements")
              then _u <- must found; z <- readElements y; readSections fuel found z
              else if same sectionName (chars "Periodic")
              then z <- readPBCs y; readSections fuel found z
              else if same sectionName (chars "ElementData")
              then z <- readElementData y; readSections fuel found z
              else s <- skipSection (enough (snd y)) sectionName (snd y); readSections fuel found (fst y, s)
          end
    end.
  Definition readGmsh (file : text) : option mesh :=
    let s := Stream file false in
    st <- readSections (enough s) false (Reader 0 [] [] [] [], s);
    elements <- convertRawElements st 0 (rawElements st);
    Some (Mesh (dimension st) (map (prune (dimension st)) (nodes st)) elements (merges st)).
End Reader.
