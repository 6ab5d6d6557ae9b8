(** Specification of facets. *)
From Coq Require Import List Arith.
From Verif Require Import Facets_model.
Import ListNotations.

(** Seen from this side, [f] goes from the zone [a] to [b], another zone or the outside. *)
Inductive goes (f : face) : side -> nat -> option nat -> Prop :=
| from_left : goes f LEFT (leftZone f) (rightZone f)
| from_right r : rightZone f = Some r -> goes f RIGHT r (Some (leftZone f)).
(** A facet goes from a zone to the outside or to a zone with a larger number. *)
Definition outward (p : pair) : Prop := match snd p with None => True | Some b => fst p < b end.
(** Numbers in lexicographical order, the outside before all zones. *)
Definition earlier (p q : pair) : Prop :=
  fst p < fst q \/ (fst p = fst q /\ match snd p, snd q with None, Some _ => True | Some a, Some b => a < b | _, _ => False end).
(** All zones of a face have a number below [N]. *)
Definition within (N : nat) (f : face) : Prop := leftZone f < N /\ forall r, rightZone f = Some r -> r < N.
