(** Models of a few C++ standard library algorithms that are used in several
    places of the code. *)
From Coq Require Import List Arith.
Import ListNotations.

(** std::sort on a vector of indices (insertion sort; the result of sorting
    numbers does not depend on the algorithm). *)
Fixpoint insert (x : nat) (l : list nat) : list nat :=
  match l with
  | [] => [x]
  | y :: r => if x <=? y then x :: l else y :: insert x r
  end.
Fixpoint sort (l : list nat) : list nat :=
  match l with [] => [] | x :: r => insert x (sort r) end.
