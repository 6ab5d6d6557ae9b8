(** Specification of the text of a path. *)
From Coq Require Import String Ascii List Arith ZArith.
From Verif Require Import CommandLine_model CommandLine_spec.
Import ListNotations.

Section Spec.
Context {D : Type} (stod : word -> option (D * nat)) (DIM : nat).
(** spaces and colons *)
Definition separator (c : ascii) : Prop := space c \/ c = ":"%char.
(** Points, each with [DIM] coordinates and followed by as many separators as there are, up to the end of the text. *)
Inductive path_text : list (list D) -> word -> Prop :=
| end_of_path : path_text [] []
| point_of_path p t s rest ps :
    length p = DIM -> coordinates (fun d t u => stod (t ++ u) = Some (d, length t)) p t (s ++ rest) ->
    Forall separator s -> (forall c r, rest = c :: r -> ~ separator c) -> path_text ps rest -> path_text (p :: ps) (t ++ s ++ rest).
End Spec.
(** the int that an unsigned long becomes *)
Definition as_int (v n : Z) : Prop := (- 2 ^ 31 <= n < 2 ^ 31)%Z /\ exists k, v = (n + k * 2 ^ 32)%Z.
