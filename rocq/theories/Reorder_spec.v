(** Specification vocabulary for node reordering: [order] says that position
    [i] of the hpGEM list holds node [order[i]] of the foreign list. *)
From Coq Require Import List Arith Permutation.
Import ListNotations.

Definition is_permutation (order : list nat) : Prop :=
  Permutation order (seq 0 (length order)).

(** [hp] is [foreign] rearranged by [order]. *)
Definition rearranged {A} (order : list nat) (foreign hp : list A) : Prop :=
  length hp = length foreign /\
  forall i o, nth_error order i = Some o -> nth_error hp i = nth_error foreign o.
