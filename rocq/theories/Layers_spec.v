(** Specification of bounding boxes and layers. *)
From Coq Require Import List Arith Reals.
From Verif Require Import Layers_model.
Import ListNotations.

(** [x] is coordinate [j] of a node of an element in zone [i]. *)
Definition coordinate (processors : list (list element)) (i j : nat) (x : R) : Prop :=
  exists es e node, In es processors /\ In e es /\ owned e = true /\ zoneId e = i /\ In node (nodes e) /\ nth_error node j = Some x.
Definition least (P : R -> Prop) (x : R) : Prop := P x /\ forall y, P y -> (x <= y)%R.
Definition greatest (P : R -> Prop) (x : R) : Prop := P x /\ forall y, P y -> (y <= x)%R.

(** The last description of a zone. *)
Definition last_for {Name : Type} (pmls : list Name) (name : Name) (i : nat) : Prop :=
  nth_error pmls i = Some name /\ forall j, i < j -> nth_error pmls j <> Some name.
