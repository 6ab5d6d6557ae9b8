(** Specification: what std::map and std::set need of the order of their keys. *)
Section Spec.
Context {A : Type}.
(** on the elements of [P]: an element is not before itself, before is transitive, and of two different elements one is
    before the other *)
Definition strict_total (P : A -> Prop) (before : A -> A -> Prop) : Prop :=
  (forall x, P x -> ~ before x x) /\
  (forall x y z, P x -> P y -> P z -> before x y -> before y z -> before x z) /\
  (forall x y, P x -> P y -> x <> y -> before x y \/ before y x).
(** the weaker demand of the standard: elements of which none is before the other can be exchanged *)
Definition strict_weak (P : A -> Prop) (before : A -> A -> Prop) : Prop :=
  (forall x, P x -> ~ before x x) /\
  (forall x y z, P x -> P y -> P z -> before x y -> before y z -> before x z) /\
  (forall x y z, P x -> P y -> P z -> ~ before x y -> ~ before y x -> ~ before y z -> ~ before z y -> ~ before x z /\ ~ before z x).
End Spec.
