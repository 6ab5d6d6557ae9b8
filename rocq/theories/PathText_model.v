(** Model of parsePath (applications/DG-Max/DGMaxProgramUtils.cpp:88-120), which reads a path through k-space from the command
    line; parsePoint, words and outcomes are those of CommandLine_model.  An exception is [Stopped]. *)
From Coq Require Import String Ascii List Arith Bool ZArith.
From Verif Require Import CommandLine_model.
Import ListNotations.

(** std::string::find_first_of *)
Fixpoint find_first_of (c : ascii) (s : word) : option nat :=
  match s with [] => None | d :: r => if Ascii.eqb d c then Some 0 else option_map S (find_first_of c r) end.
(** lines 96-97, the conversion of an unsigned long to an int *)
Definition toInt (v : Z) : Z := ((v + 2 ^ 31) mod 2 ^ 32 - 2 ^ 31)%Z.
(** lines 111-117: how many characters are skipped (std::isspace is that of the C locale) *)
Fixpoint skipped (s : word) : nat :=
  match s with c :: r => if isSpace c || Ascii.eqb c ":" then S (skipped r) else 0 | [] => 0 end.
Section Path.
Context {D : Type}.
(** std::stod as in parsePoint, and std::stoul, which gives the number and the number of characters that it has, or throws *)
Context (stod : word -> option (D * nat)) (stoul : word -> option (Z * nat)).
(** lines 105-118, with a bound on the number of rounds *)
Fixpoint readPoints (fuel DIM : nat) (path : word) (index : nat) : outcome (list (list D)) :=
  match fuel with
  | 0 => Undefined
  | S fuel =>
      if index <? length path then
        p <- parseCoordinates stod DIM path index;
        ps <- readPoints fuel DIM path (snd p + skipped (skipn (snd p) path));
        Good (fst p :: ps)
      else Good []
  end.
(** lines 88-120 parsePath *)
Definition parsePath (DIM : nat) (path : word) : outcome (list (list D) * Z) :=
  start <- (match find_first_of "@" path with
            | None => Good ((-1)%Z, 0)
            | Some atIndex =>
                match stoul path with
                | None => Stopped
                | Some (v, len) => if len =? atIndex then Good (toInt v, S atIndex) else Stopped
                end
            end);
  points <- readPoints (S (length path)) DIM path (snd start);
  Good (points, fst start).
End Path.
