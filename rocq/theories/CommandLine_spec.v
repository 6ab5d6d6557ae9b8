(** The command line of a program: what the words mean, and what the options are after it. *)
From Coq Require Import String Ascii List Arith Bool ZArith.
From Verif Require Import CommandLine_model.
Import ListNotations.

(** the number of a text of decimal digits *)
Inductive digits : list ascii -> Z -> Prop :=
| digits_none : digits [] 0
| digits_more w n d : digits w n -> d <= 9 -> digits (w ++ [ascii_of_nat (48 + d)]) (10 * n + Z.of_nat d).
Definition space (c : ascii) : Prop := In (nat_of_ascii c) [32; 9; 10; 11; 12; 13].
Inductive sign : list ascii -> Z -> Prop := no_sign : sign [] 1 | plus : sign ["+"%char] 1 | minus : sign ["-"%char] (-1).

Section Spec.
Context {D : Type}.
Variable extractDouble : word -> D * bool.
Notation declaration := (@declaration D).
Notation value := (@value D).

(** what an option of a type takes from its argument.  This is what the program does; it accepts more texts than numbers:
    see C65_bad_numbers_refuted. *)
Inductive accepted : type -> option word -> value -> Prop :=
| accept_flag : accepted Flag None (VFlag true)
| accept_text w : accepted Text (Some w) (VText w)
| accept_real w d : extractDouble w = (d, true) -> accepted Real (Some w) (VReal d)
| accept_signed low high b s ds e n : Forall space b -> sign s e -> digits ds n ->
    accepted (Signed low high) (Some (b ++ s ++ ds)) (VInteger (Z.max low (Z.min high (e * n))))
| accept_unsigned bound b s ds e n : Forall space b -> sign s e -> digits ds n ->
    accepted (Unsigned bound) (Some (b ++ s ++ ds)) (VInteger (if (n <? bound)%Z then (if (e =? -1)%Z then (- n) mod bound else n) else (bound - 1)%Z))
| accept_character w : Forall space w -> accepted Character (Some w) (VCharacter zero).

Variable declared : list declaration.
(** the option with a long name or a letter: the first that was declared with it *)
Definition named (w : word) (k : nat) (d : declaration) : Prop :=
  nth_error declared k = Some d /\ d_long d = w /\ forall j e, j < k -> nth_error declared j = Some e -> d_long e <> w.
Definition lettered (c : ascii) (k : nat) (d : declaration) : Prop :=
  nth_error declared k = Some d /\ d_tag d = Some c /\ forall j e, j < k -> nth_error declared j = Some e -> d_tag e <> Some c.
Definition flag (d : declaration) : Prop := d_kind d = Flag.

(** the words of one use of options: --name, --name argument, -abc, -abc argument; and the options with their arguments *)
Definition occurrence : Type := nat * option word.
Definition dash : ascii := "-"%char.
Inductive use : list word -> list occurrence -> Prop :=
| use_flag n k d : named n k d -> flag d -> use [dash :: dash :: n] [(k, None)]
| use_value n k d a : named n k d -> ~ flag d -> use [dash :: dash :: n; a] [(k, Some a)]
| use_letters c cs ks : c <> dash -> Forall2 (fun c k => exists d, lettered c k d /\ flag d) (c :: cs) ks ->
    use [dash :: c :: cs] (map (fun k => (k, None)) ks)
| use_letters_value cs ks c k d a : hd c cs <> dash -> Forall2 (fun c k => exists d, lettered c k d /\ flag d) cs ks -> lettered c k d -> ~ flag d ->
    use [dash :: cs ++ [c]; a] (map (fun k => (k, None)) ks ++ [(k, Some a)]).
(** a command line is a list of these, up to its end ([None]) or to the special option, after which there is a rest *)
Inductive command (done : nat) : list word -> list occurrence -> option (list word) -> Prop :=
| command_end : command done [] [] None
| command_use g o ws os rest : use g o -> ~ In done (map fst o) -> command done ws os rest -> command done (g ++ ws) (o ++ os) rest
| command_done g o ws : use g o -> In done (map fst o) -> command done (g ++ ws) o (Some ws).

(** the value of an option is that of its last use, or its default *)
Inductive valued (k : nat) (d : declaration) (os : list occurrence) : value -> Prop :=
| valued_default : ~ In k (map fst os) -> valued k d os (d_default d)
| valued_last l a l' v : os = l ++ (k, a) :: l' -> ~ In k (map fst l') -> accepted (d_kind d) a v -> valued k d os v.
Definition option_after (os : list occurrence) (k : nat) (d : declaration) (o : @opt D) : Prop :=
  tag o = d_tag d /\ long_tag o = d_long d /\ required o = d_required d /\ kind o = d_kind d /\
  (used o = true <-> In k (map fst os)) /\ valued k d os (current o).
Definition options_after (os : list occurrence) (l : list (@opt D)) : Prop :=
  length l = length declared /\ forall k d o, nth_error declared k = Some d -> nth_error l k = Some o -> option_after os k d o.

(** a command line that is accepted, the options after it, and the arguments that are left for the libraries *)
Definition right_command (done help : nat) (name : word) (words : list word) (l : list (@opt D)) (libraries : list word) : Prop :=
  exists os rest, command done words os rest /\
  (forall k a, In (k, a) os -> exists d v, nth_error declared k = Some d /\ accepted (d_kind d) a v) /\
  ~ In help (map fst os) /\
  (forall k d, nth_error declared k = Some d -> d_required d = true -> In k (map fst os)) /\
  options_after os l /\ libraries = match rest with Some ws => name :: ws | None => [] end.

(** the coordinates of a point: numbers with a comma between them; [number d t u] says that a text [t ++ u] begins with the
    number [d], written as [t] *)
Inductive coordinates (number : D -> word -> word -> Prop) : list D -> word -> word -> Prop :=
| one_coordinate d t u : number d t u -> coordinates number [d] t u
| more_coordinates d t ds ts u : number d t (","%char :: ts ++ u) -> coordinates number ds ts u -> coordinates number (d :: ds) (t ++ ","%char :: ts) u.
End Spec.
