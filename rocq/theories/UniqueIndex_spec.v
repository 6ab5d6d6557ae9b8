From Coq Require Import List NArith.
From Verif Require Import UniqueIndex_model.
Import ListNotations.

Definition kind_eqb (a b : kind) : bool :=
  match a, b with
  | Element, Element | Face, Face | Edge, Edge | Node, Node => true
  | _, _ => false
  end.

(** the numbers handed out to requests of kind [k], in order *)
Definition handed_out (k : kind) (log : list (kind * N)) : list N :=
  map snd (filter (fun p => kind_eqb (fst p) k) log).

(** the number of requests of kind [k] in a history *)
Definition requests (k : kind) (h : list kind) : nat :=
  length (filter (fun x => kind_eqb x k) h).

(** 0, 1, ..., n-1 *)
Definition first_numbers (n : nat) : list N := map N.of_nat (seq 0 n).
