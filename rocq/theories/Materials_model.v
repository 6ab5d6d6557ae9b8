(** Model of the texts that describe the materials and the absorbing layers of a DG-Max computation
    (applications/DG-Max/DGMaxProgramUtils.cpp), and of the choice of the material of an element by the name of its zone
    (applications/DG-Max/Utils/ZoneStructureDescription.cpp, kernel/Base/Zone.cpp).
    [None] is a failed assertion or an exception.  The C++ library is left open: [compile] makes a regular expression of a
    text, [isMatch] is std::regex_match, [stod] gives the number at the start of a text and the characters it took, and
    [strtol] likewise, 0 and 0 if there is none. *)
From Coq Require Import List Arith Bool Ascii ZArith.
Import ListNotations.

Notation text := (list ascii).
Definition comma : ascii := ","%char.
(** std::string::find_first_of and find_last_of, from the start of a text *)
Fixpoint find_first_of (c : ascii) (s : text) : option nat :=
  match s with [] => None | x :: s => if Ascii.eqb x c then Some 0 else option_map S (find_first_of c s) end.
Fixpoint find_last_of (c : ascii) (s : text) : option nat :=
  match s with
  | [] => None
  | x :: s => match find_last_of c s with Some i => Some (S i) | None => if Ascii.eqb x c then Some 0 else None end
  end.
(** std::getline with a separator: the line, what remains, and whether the end of the text was met *)
Fixpoint getline (separator : ascii) (s : text) : text * text * bool :=
  match s with
  | [] => ([], [], true)
  | c :: s => if Ascii.eqb c separator then ([], s, false) else let '(line, rest, eof) := getline separator s in (c :: line, rest, eof)
  end.

Section Materials.
Context {RE E : Type} (compile : text -> option RE) (isMatch : RE -> text -> bool) (stod : text -> option (E * nat)).

(** DGMaxProgramUtils.cpp:140-168, the body of the loop for a line that is not empty *)
Definition parseLine (line : text) : option (RE * E) :=
  match find_last_of comma line with
  | None => None
  | Some commaLoc =>
      match compile (firstn commaLoc line) with
      | None => None
      | Some regex =>
          let epsilonStr := skipn (commaLoc + 1) line in
          match epsilonStr with
          | [] => None
          | _ => match stod epsilonStr with
                 | None => None
                 | Some (epsilon, idx) => if idx =? length epsilonStr then Some (regex, epsilon) else None
                 end
          end
      end
  end.
(** DGMaxProgramUtils.cpp:128-174 readZonedDescription: the loop until the end of the text was met; the regular expressions
    and the values of epsilon are added at the end of both lists *)
Fixpoint readLoop (fuel : nat) (separator : ascii) (s : text) (regexes : list RE) (epsilons : list E) : option (list RE * list E) :=
  match fuel with
  | O => None
  | S fuel =>
      let '(line, rest, eof) := getline separator s in
      match (match line with
             | [] => Some (regexes, epsilons)
             | _ => match parseLine line with None => None | Some (r, e) => Some (regexes ++ [r], epsilons ++ [e]) end
             end) with
      | None => None
      | Some (regexes, epsilons) => if eof then Some (regexes, epsilons) else readLoop fuel separator rest regexes epsilons
      end
  end.
Definition readZonedDescription (separator : ascii) (s : text) : option (list RE * list E) := readLoop (S (length s)) separator s [] [].

(** Zone.cpp:46-53 matchName; [None] for -1 *)
Fixpoint matchName (name : text) (regexes : list RE) : option nat :=
  match regexes with [] => None | r :: l => if isMatch r name then Some 0 else option_map S (matchName name l) end.
(** ZoneStructureDescription.cpp:41-52 createElementInfo, with the default epsilon of the constructor, which is NaN *)
Definition createElementInfo (d : list RE * list E) (name : text) : option E :=
  match matchName name (fst d) with Some i => nth_error (snd d) i | None => None end.

(** DGMaxProgramUtils.cpp:182-218 tryParseLong and determineStructureDescription; PredefinedStructure.cpp:94-112
    structureFromInt.  [file] is the content of the file of that name *)
Inductive structure := Predefined (n : Z) | Zones (d : list RE * list E).
Context (strtol : text -> Z * nat).
Definition tryParseLong (s : text) : option Z := let '(n, end_) := strtol s in if end_ =? length s then Some n else None.
Definition determineStructureDescription (input : text) (file : option text) : option structure :=
  match tryParseLong input with
  | Some n => if (0 <=? n)%Z && (n <=? 5)%Z then Some (Predefined n) else None
  | None =>
      match find_first_of comma input with
      | Some _ => option_map Zones (readZonedDescription ";"%char input)
      | None => match file with Some s => option_map Zones (readZonedDescription "010"%char s) | None => None end
      end
  end.
End Materials.

(** DGMaxProgramUtils.cpp:220-235 stringSplit *)
Fixpoint splitLoop (fuel : nat) (separator : ascii) (s : text) : list text :=
  match fuel, find_first_of separator s with
  | S fuel, Some i => firstn i s :: splitLoop fuel separator (skipn (i + 1) s)
  | _, _ => [s]
  end.
Definition stringSplit (input : text) (separator : ascii) : list text :=
  match input with [] => [] | _ => splitLoop (length input) separator input end.

Section Layers.
Context {E : Type} (stod : text -> option (E * nat)) (valid : E -> bool).
(** DGMaxProgramUtils.cpp:322-353, the loop over the directions; [valid] is the test of line 348 *)
Definition direction (c : ascii) : option Z :=
  if Ascii.eqb c "0"%char then Some 0%Z else if Ascii.eqb c "+"%char then Some 1%Z else if Ascii.eqb c "-"%char then Some (-1)%Z else None.
Fixpoint readDirections (cs : text) (parts : list text) : option (list Z * list E) :=
  match cs, parts with
  | [], _ => Some ([], [])
  | c :: cs, p :: parts =>
      match direction c, stod p with
      | Some d, Some (a, n) =>
          if (n =? length p) && ((d =? 0)%Z || valid a) then
            match readDirections cs parts with Some (ds, l) => Some (d :: ds, a :: l) | None => None end
          else None
      | _, _ => None
      end
  | _ :: _, [] => None
  end.
(** DGMaxProgramUtils.cpp:305-356 parsePMLZoneDescription *)
Definition parsePMLZoneDescription (dim : nat) (input : text) : option (text * list Z * list E) :=
  match stringSplit input comma with
  | zoneName :: directions :: attenuations =>
      if (length attenuations =? dim) && negb (length zoneName =? 0) && (length directions =? dim) then
        match readDirections directions attenuations with Some (d, a) => Some (zoneName, d, a) | None => None end
      else None
  | _ => None
  end.
End Layers.
