(** Model of kernel/Base/CommandLineOptions.{h,cpp}: the options of the command line, and of parsePoint in
    kernel/Base/CommandLineHelpers.h.

    Strings are lists of characters, an option pointer is a position in the list of all options, the two std::maps are
    association lists.  The program can be stopped with a message ([Stopped]: logger.assert_always, logger(ERROR),
    std::exit) or do something undefined ([Undefined]: argv read outside its bounds). *)
From Coq Require Import String Ascii List Arith Bool ZArith.
Import ListNotations.

Inductive outcome {A : Type} := Good (a : A) | Stopped | Undefined.
Arguments outcome : clear implicits.
Definition bind {A B} (x : outcome A) (f : A -> outcome B) : outcome B :=
  match x with Good a => f a | Stopped => Stopped | Undefined => Undefined end.
Notation "x <- e ; k" := (bind e (fun x => k)) (at level 100, e at level 99, right associativity).
Definition must (b : bool) : outcome unit := if b then Good tt else Stopped.

Definition word := list ascii.
Definition same_word (a b : word) : bool := if list_eq_dec ascii_dec a b then true else false.
Definition find {K V : Type} (eq : K -> K -> bool) (k : K) (m : list (K * V)) : option V :=
  option_map snd (List.find (fun p => eq (fst p) k) m).

Section Options.
Context {D : Type}.
Variable dzero : D.
(** the value of [arg >> x] with a double x and whether arg.eof() holds after it *)
Variable extractDouble : word -> D * bool.

(** the type argument of CommandLineOption: bool, std::string, double, char, a signed integer of the given bounds or an
    unsigned integer below the given bound *)
Inductive type := Flag | Text | Real | Character | Signed (low high : Z) | Unsigned (bound : Z).
Inductive value := VFlag (b : bool) | VText (w : word) | VReal (d : D) | VCharacter (c : ascii) | VInteger (z : Z).

(** CommandLineOptions.h:106-137 and 216-239: CommandLineOption and its base; the description is left out *)
Record opt := Opt { tag : option ascii; long_tag : word; used : bool; required : bool; kind : type; current : value }.
(** the arguments of register_argument; no [d_tag] is the character 0 *)
Record declaration := Declare_ { d_tag : option ascii; d_long : word; d_required : bool; d_kind : type; d_default : value }.
Record registry := Registry { options : list opt; longs : list (word * nat); shorts : list (ascii * nat) }.

(** CommandLineOptions.h:241-261 register_argument *)
Definition register_argument (d : declaration) (r : registry) : registry :=
  let t := length (options r) in
  Registry (options r ++ [Opt (d_tag d) (d_long d) false (d_required d) (d_kind d) (d_default d)])
    (match find same_word (d_long d) (longs r) with None => (d_long d, t) :: longs r | Some _ => longs r end)
    (match d_tag d with
     | Some c => match find Ascii.eqb c (shorts r) with None => (c, t) :: shorts r | Some _ => shorts r end
     | None => shorts r
     end).
Definition registerAll (l : list declaration) : registry := fold_left (fun r d => register_argument d r) l (Registry [] [] []).

(** CommandLineOptions.h:239 hasArgument *)
Definition hasArgument (o : opt) : bool := match kind o with Flag => false | _ => true end.

(** [arg >> x] with an integer x (std::num_get, decimal): white space, a sign, digits; the value and arg.eof() *)
Definition isSpace (c : ascii) : bool := existsb (Ascii.eqb c) [" "%char; "009"%char; "010"%char; "011"%char; "012"%char; "013"%char].
Definition digitOf (c : ascii) : option Z :=
  let n := Z.of_nat (nat_of_ascii c) in if ((48 <=? n) && (n <=? 57))%Z%bool then Some (n - 48)%Z else None.
Fixpoint skipSpace (w : word) : word := match w with c :: w' => if isSpace c then skipSpace w' else w | [] => [] end.
Fixpoint readDigits (n : Z) (w : word) : Z * word :=
  match w with c :: w' => match digitOf c with Some d => readDigits (10 * n + d) w' | None => (n, w) end | [] => (n, []) end.
Definition readSign (w : word) : bool * word :=
  match w with c :: w' => if Ascii.eqb c "-" then (true, w') else if Ascii.eqb c "+" then (false, w') else (false, w) | [] => (false, []) end.
Definition atEnd (w : word) : bool := match w with [] => true | _ => false end.
(** a number that does not fit gives the nearest bound; the digits of a negative number are read for an unsigned integer too,
    and wrap around; without digits the value is 0.  The fail bit of the stream is not looked at by the caller. *)
Definition extractSigned (low high : Z) (w : word) : Z * bool :=
  let s := readSign (skipSpace w) in
  let n := readDigits 0 (snd s) in
  let z := if fst s then (- fst n)%Z else fst n in
  (Z.max low (Z.min high z), atEnd (snd n)).
Definition extractUnsigned (bound : Z) (w : word) : Z * bool :=
  let s := readSign (skipSpace w) in
  let n := readDigits 0 (snd s) in
  ((if (fst n <? bound)%Z then if fst s then (- fst n) mod bound else fst n else bound - 1)%Z, atEnd (snd n)).
(** [arg >> c] with a character c: the first character that is no white space; the end is not met when there is one *)
Definition extractCharacter (w : word) : ascii * bool :=
  match skipSpace w with c :: _ => (c, false) | [] => (zero, true) end.

(** CommandLineOptions.h:77-101 the parser: argv and the position; *p is read with [word_at] *)
Definition word_at (argv : list word) (i : nat) : outcome word := match nth_error argv i with Some w => Good w | None => Undefined end.
(** CommandLineOptions.h:143-184 parse_argument: the value and the new position *)
Definition parse_argument (t : type) (argv : list word) (i : nat) : outcome (value * nat) :=
  match t with
  | Flag => Good (VFlag true, i)
  | Text => w <- word_at argv (S i); Good (VText w, S i)
  | Real => w <- word_at argv (S i); (let r := extractDouble w in _u <- must (snd r); Good (VReal (fst r), S i))
  | Character => w <- word_at argv (S i); (let r := extractCharacter w in _u <- must (snd r); Good (VCharacter (fst r), S i))
  | Signed low high => w <- word_at argv (S i); (let r := extractSigned low high w in _u <- must (snd r); Good (VInteger (fst r), S i))
  | Unsigned bound => w <- word_at argv (S i); (let r := extractUnsigned bound w in _u <- must (snd r); Good (VInteger (fst r), S i))
  end.
Definition option_at (l : list opt) (k : nat) : outcome opt := match nth_error l k with Some o => Good o | None => Undefined end.
Fixpoint replace {A} (l : list A) (k : nat) (a : A) : list A :=
  match l, k with [], _ => [] | _ :: l, 0 => a :: l | b :: l, S k => b :: replace l k a end.
(** CommandLineOptions.h:232-235 CommandLineOption::parse of the option at [k] *)
Definition parse (argv : list word) (k : nat) (s : list opt * nat) : outcome (list opt * nat) :=
  o <- option_at (fst s) k;
  v <- parse_argument (kind o) argv (snd s);
  Good (replace (fst s) k (Opt (tag o) (long_tag o) true (required o) (kind o) (fst v)), snd v).

(** CommandLineOptions.cpp:173-187: the options of a word with one dash, from its character [i] on; [argc] - position is remaining() *)
Fixpoint shortOptions (r : registry) (argv : list word) (letters : word) (s : list opt * nat) : outcome (list opt * nat) :=
  match letters with
  | [] => Good s
  | c :: letters' =>
      k <- (match find Ascii.eqb c (shorts r) with Some k => Good k | None => Stopped end);
      o <- option_at (fst s) k;
      _u <- must (negb (hasArgument o && (negb (atEnd letters') || (length argv - snd s <=? 1))));
      s <- parse argv k s;
      shortOptions r argv letters' s
  end.
(** CommandLineOptions.cpp:158-171: an option with two dashes *)
Definition longOption (r : registry) (argv : list word) (realtag : word) (s : list opt * nat) : outcome (list opt * nat) :=
  k <- (match find same_word realtag (longs r) with Some k => Good k | None => Stopped end);
  o <- option_at (fst s) k;
  _u <- must (negb (hasArgument o && (length argv - snd s <=? 1)));
  parse argv k s.
Definition isTrue (v : value) : bool := match v with VFlag b => b | _ => false end.
(** CommandLineOptions.cpp:149-196: the loop; [isDone] is the position of the special option.  Every turn moves to the
    next word, so that it has at most [argc] turns; more would be [Undefined]. *)
Fixpoint loop (r : registry) (isDone : nat) (argv : list word) (turns : nat) (s : list opt * nat) : outcome (list opt * nat) :=
  if snd s <? length argv then
    match turns with
    | 0 => Undefined
    | S turns =>
        w <- word_at argv (snd s);
        s <- (match w with
              | c :: c' :: rest =>
                  _u <- must (Ascii.eqb c "-");
                  if Ascii.eqb c' "-" then longOption r argv rest s else shortOptions r argv (c' :: rest) s
              | _ => Stopped
              end);
        d <- option_at (fst s) isDone;
        if used d && isTrue (current d) then Good s else loop r isDone argv turns (fst s, S (snd s))
    end
  else Good s.
(** CommandLineOptions.cpp:143-270 CLOParser::go; [printHelp] is the position of the option --help.  A command line without
    the name of the program makes remaining() wrap around. *)
Definition go (r : registry) (isDone printHelp : nat) (argv : list word) : outcome (list opt * nat) :=
  match argv with
  | [] => Undefined
  | _ =>
      s <- loop r isDone argv (length argv) (options r, 1);
      h <- option_at (fst s) printHelp;
      _u <- must (negb (isTrue (current h) || existsb (fun o => required o && negb (used o)) (fst s)));
      Good s
  end.
(** CommandLineOptions.cpp:85-131 parse_options: the options and the arguments for the libraries, argv + count with
    argv[count] = argv[0] and argc - count words *)
Definition parse_options (r : registry) (isDone printHelp : nat) (argv : list word) : outcome (list opt * list word) :=
  s <- go r isDone printHelp argv;
  name <- word_at argv 0;
  Good (fst s, skipn (snd s) (replace argv (snd s) name)).

(** CommandLineHelpers.h:51-80 parsePoint; [stod] gives the number at the begin of a string and the number of characters it
    has, or throws invalid_argument ([None]; out_of_range is left out) *)
Variable stod : word -> option (D * nat).
Fixpoint parseCoordinates (DIM : nat) (s : word) (start : nat) : outcome (list D * nat) :=
  match DIM with
  | 0 => Good ([], start)
  | S rest =>
      _u <- must (start <? length s);
      d <- (match stod (skipn start s) with Some d => Good d | None => Stopped end);
      let start := start + snd d in
      if 0 <? rest then
        _u <- must (start <? length s);
        _u <- must (match nth_error s start with Some c => Ascii.eqb c "," | None => false end);
        p <- parseCoordinates rest s (S start);
        Good (fst d :: fst p, snd p)
      else Good ([fst d], start)
  end.
End Options.
