(** Specification: a walk along straight lines from corner to corner, with [n] equal steps on each line. *)
From Coq Require Import List Reals.
From Verif Require Import KSpacePath_model.
Import ListNotations.

(** The point a part [t] of the way from [a] to [b]. *)
Definition between (a b : point) (t : R) : point :=
  let '(x, y, z) := a in let '(u, v, w) := b in (x + t * (u - x), y + t * (v - y), z + t * (w - z))%R.
(** [x] is where the walk is after [i] steps: at a corner, or [s] steps from it towards the next. *)
Inductive after (corners : list point) (n : nat) : nat -> point -> Prop :=
| at_corner j x : nth_error corners j = Some x -> after corners n (j * n) x
| on_line j s a b : nth_error corners j = Some a -> nth_error corners (S j) = Some b -> s <= n ->
    after corners n (j * n + s) (between a b (INR s / INR n)).
(** The sum of the first points of a sequence. *)
Fixpoint total (f : nat -> point) (n : nat) : point :=
  match n with O => origin | S n => add (total f n) (f n) end.
