(** Specification of a matrix that is Hermitian up to a tolerance. *)
From Coq Require Import List Arith Reals.
From Verif Require Import Hermitian_model.
Import ListNotations.

(** The entry in row [i] and column [j] of a matrix stored by columns is x + y i. *)
Definition entry (a : matrix) (i j : nat) (x y : R) : Prop :=
  i < numberOfRows a /\ j < numberOfColumns a /\ nth_error (data a) (numberOfRows a * j + i) = Some (Some x, Some y).
(** All entries are there and none is a NaN. *)
Definition complete (a : matrix) : Prop :=
  length (data a) = numberOfRows a * numberOfColumns a /\ forall c, In c (data a) -> exists x y, c = (Some x, Some y).
(** Every entry is at most [tol] away from the conjugate of the opposite entry. *)
Definition hermitian_up_to (a : matrix) (tol : R) : Prop :=
  numberOfRows a = numberOfColumns a /\
  forall i j x y u v, entry a i j x y -> entry a j i u v -> (sqrt ((x - u) ^ 2 + (y - - v) ^ 2) <= tol)%R.
