(** Specification of the texts that describe materials. *)
From Coq Require Import List Ascii ZArith.
Import ListNotations.

(** Pieces with a separator between them. *)
Fixpoint join (c : ascii) (l : list (list ascii)) : list ascii :=
  match l with [] => [] | [s] => s | s :: l => s ++ c :: join c l end.

Section Spec.
Context {RE E : Type} (compile : list ascii -> option RE) (isMatch : RE -> list ascii -> bool) (stod : list ascii -> option (E * nat)).
(** [e] is the whole text of the number [v]. *)
Definition number (e : list ascii) (v : E) : Prop := stod e = Some (v, length e).
(** The lines and the entries that they describe: empty lines are left out; the others have an expression, in which there
    may be commas, a comma and a number. *)
Inductive describe : list (list ascii) -> list (RE * E) -> Prop :=
| describe_nil : describe [] []
| describe_empty l d : describe l d -> describe ([] :: l) d
| describe_entry r x e v l d : compile r = Some x -> number e v -> e <> [] -> ~ In ","%char e -> describe l d ->
    describe ((r ++ ","%char :: e) :: l) ((x, v) :: d).
(** The value for a name is that of the first entry that matches it. *)
Inductive first_match (name : list ascii) : list (RE * E) -> E -> Prop :=
| here x v d : isMatch x name = true -> first_match name ((x, v) :: d) v
| later x v d w : isMatch x name = false -> first_match name d w -> first_match name ((x, v) :: d) w.

(** Layers: a character for each direction, and the attenuation, which has to be valid in the directions in which the
    layer attenuates. *)
Inductive towards : ascii -> Z -> Prop := none : towards "0"%char 0 | up : towards "+"%char 1 | down : towards "-"%char (-1).
Inductive layer (valid : E -> bool) : list ascii -> list (list ascii) -> list Z -> list E -> Prop :=
| layer_nil : layer valid [] [] [] []
| layer_cons c d p a cs ps ds l : towards c d -> number p a -> (d <> 0%Z -> valid a = true) -> layer valid cs ps ds l ->
    layer valid (c :: cs) (p :: ps) (d :: ds) (a :: l).
End Spec.
