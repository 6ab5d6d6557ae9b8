(** What the traversals of a LevelTree should visit. *)
From Coq Require Import List Arith Bool.
From Verif Require Import LevelTree_model.
Import ListNotations.

(** Every entry of a tree, parents before children, siblings from left to right. *)
Fixpoint subtree {V} (t : Tree V) : list (Tree V) :=
  match t with Node _ _ _ c => t :: flat_map subtree c end.
(** Every entry of a tree, children before parents, siblings from left to right. *)
Fixpoint subtreePost {V} (t : Tree V) : list (Tree V) :=
  match t with Node _ _ _ c => flat_map subtreePost c ++ [t] end.
Definition allEntries {V} (f : list (Tree V)) : list (Tree V) := flat_map subtree f.
Definition allEntriesPost {V} (f : list (Tree V)) : list (Tree V) := flat_map subtreePost f.

(** An entry lives on the levels level, ..., level + depth - 1. *)
Definition livesOn {V} (lev : nat) (t : Tree V) : bool :=
  (level t <=? lev) && (lev <? level t + depth t).
(** The entries on a level from left to right. *)
Definition onLevel {V} (lev : nat) (f : list (Tree V)) : list (Tree V) :=
  filter (livesOn lev) (allEntries f).

(** Children live directly below their parent and every entry occupies at least one level. *)
Inductive consistent {V} : nat -> Tree V -> Prop :=
| Consistent : forall v l d c, 1 <= d -> Forall (consistent (l + d)) c -> consistent l (Node v l d c).
Definition consistentForest {V} (f : list (Tree V)) : Prop := Forall (consistent 0) f.
(** Every entry occupies one level, which is so unless addChild(ren) is given a level or
    fillToLevel is used. *)
Definition plainForest {V} (f : list (Tree V)) : Prop :=
  consistentForest f /\ Forall (fun t => depth t = 1) (allEntries f).

(** The result of a computation with a large enough bound on the number of loop rounds: all
    loops of the C++ code end and no assertion fails. *)
Definition returns {A} (F : nat -> option A) (r : A) : Prop :=
  exists N, forall fuel, N <= fuel -> F fuel = Some r.

(** The states of an iterator that starts at begin() and is incremented before the end. *)
Inductive reached {V} (m : Method) (f : list (Tree V)) : Iter V -> Prop :=
| Reached_begin : forall i, returns (fun n => begin n m f) i -> reached m f i
| Reached_next : forall i j, reached m f i -> atEnd i = false ->
    returns (fun n => increment n m i) j -> reached m f j.

(** Everything that users can do to build a LevelTree. A level is given to addChildren only for
    a parent without children, and the tree is not empty when it is filled to a level. *)
Inductive built {V} : LevelTree V -> Prop :=
| Built_empty : built emptyTree
| Built_root : forall lt v, built lt -> built (addRootEntry v lt)
| Built_children : forall lt p vs lt', built lt -> addChildren p vs lt = Some lt' -> built lt'
| Built_childrenAt : forall lt p vs lev lt' t, built lt -> entryAt p (entries_ lt) = Some t ->
    children t = [] -> addChildrenAtLevel p vs lev lt = Some lt' -> built lt'
| Built_fill : forall lt lev, built lt -> entries_ lt <> [] -> built (fillToLevel lev lt)
| Built_erase : forall lt p lt', built lt -> returns (fun n => eraseChilds n p lt) lt' -> built lt'.
(** Without levels: what a mesh does. *)
Inductive builtPlain {V} : LevelTree V -> Prop :=
| Plain_empty : builtPlain emptyTree
| Plain_root : forall lt v, builtPlain lt -> builtPlain (addRootEntry v lt)
| Plain_children : forall lt p vs lt', builtPlain lt -> addChildren p vs lt = Some lt' ->
    builtPlain lt'
| Plain_erase : forall lt p lt', builtPlain lt -> returns (fun n => eraseChilds n p lt) lt' ->
    builtPlain lt'.

(** The entries of level 0, then those of level 1, ..., up to level n - 1. *)
Definition byLevels {V} (n : nat) (f : list (Tree V)) : list (Tree V) :=
  flat_map (fun k => onLevel k f) (seq 0 n).
