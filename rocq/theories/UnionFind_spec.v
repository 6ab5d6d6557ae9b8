(** Vocabulary for statements about union-find: which items are connected by merged
    pairs, and histories of calls. *)
From Coq Require Import List Arith.
From Verif Require Import StdMap_model UnionFind_model.
Import ListNotations.

(** The least equivalence relation that relates the members of each pair. *)
Inductive connected (pairs : list (nat * nat)) : nat -> nat -> Prop :=
| conn_pair a b : In (a, b) pairs -> connected pairs a b
| conn_refl a : connected pairs a a
| conn_sym a b : connected pairs a b -> connected pairs b a
| conn_trans a b c : connected pairs a b -> connected pairs b c -> connected pairs a c.

(** The calls a user can make. *)
Inductive op := Union (a b : nat) | Find (a : nat) | Same (a b : nat).
(** A history on one object; [None] when a call does not return. *)
Fixpoint history (fuel : nat) (s : storage) (h : list op) : option storage :=
  match h with
  | [] => Some s
  | Union a b :: r => match unionSets fuel s a b with None => None | Some s' => history fuel s' r end
  | Find a :: r => match findSet fuel s a with None => None | Some (s', _) => history fuel s' r end
  | Same a b :: r => match inSameSet fuel s a b with None => None | Some (s', _) => history fuel s' r end
  end.
(** The pairs merged in a history. *)
Definition merged (h : list op) : list (nat * nat) :=
  flat_map (fun o => match o with Union a b => [(a, b)] | _ => [] end) h.

(** A bound for the depth of recursion after merging [pairs] pairs. *)
Definition depth (pairs : nat) : nat := Nat.log2 (2 * pairs).
