(** Model of FluxFacets (applications/DG-Max/Utils/FluxFacets.cpp:42-133): the facets between the zones of a mesh, through
    which fluxes are computed.
    A zone is its number; a pair has [None] where the code has -1, the outside.  The std::map of the facets is an association
    list; MPI is its result. *)
From Coq Require Import String List Arith Bool.
Import ListNotations.

(** a face: whether the processor owns it, the zone of its left element, and that of its right element if it is internal *)
Record face := Face { ownedFace : bool; leftZone : nat; rightZone : option nat }.
Inductive side := LEFT | RIGHT.
Definition pair := (nat * option nat)%type.
(** lines 73-86 getZoneIndexPair *)
Definition getZoneIndexPair (f : face) : pair :=
  match rightZone f with
  | Some r => if r <? leftZone f then (r, Some (leftZone f)) else (leftZone f, Some r)
  | None => (leftZone f, None)
  end.
(** lines 45-66: the side of a face that is taken, [None] for continue *)
Definition select (f : face) : option side :=
  if negb (ownedFace f) then None else
  match rightZone f with
  | Some r => if leftZone f =? r then None else Some (if leftZone f <? r then LEFT else RIGHT)
  | None => Some LEFT
  end.
Definition samePair (p q : pair) : bool :=
  (fst p =? fst q) && match snd p, snd q with Some a, Some b => a =? b | None, None => true | _, _ => false end.
(** line 68, facets[p].push_back(x) *)
Fixpoint push {A : Type} (p : pair) (x : A) (m : list (pair * list A)) : list (pair * list A) :=
  match m with [] => [(p, [x])] | (q, l) :: r => if samePair p q then (q, l ++ [x]) :: r else (q, l) :: push p x r end.
Definition lookup {A : Type} (p : pair) (m : list (pair * list A)) : list A :=
  match find (fun e => samePair p (fst e)) m with Some e => snd e | None => [] end.
(** lines 42-71, the constructor *)
Definition facets (faces : list face) : list (pair * list (face * side)) :=
  fold_left (fun m f => match select f with Some s => push (getZoneIndexPair f) (f, s) m | None => m end) faces [].

(** lines 88-133 generateZoneOrdering *)
Fixpoint set (i x : nat) (l : list nat) : list nat := match l, i with [], _ => [] | _ :: r, 0 => x :: r | y :: r, S i => y :: set i x r end.
Definition linear (N : nat) (p : pair) : nat := fst p * (N + 1) + match snd p with None => 0 | Some j => S j end.
(** lines 95-103 *)
Definition present {A : Type} (N : nat) (m : list (pair * A)) : list nat :=
  fold_left (fun l e => set (linear N (fst e)) 1 l) m (repeat 0 (N * (N + 1))).
(** lines 104-108, MPI_Allreduce with MPI_MAX *)
Definition larger (a b : list nat) : list nat := map (fun p => Nat.max (fst p) (snd p)) (combine a b).
Definition Allreduce (N : nat) (l : list (list nat)) : list nat := fold_left larger l (repeat 0 (N * (N + 1))).
(** lines 111-120: the pairs in the order of their numbers *)
Fixpoint pairs (N i : nat) (ordering : list nat) : list pair :=
  match ordering with
  | [] => []
  | x :: r => if x =? 0 then pairs N (S i) r
              else (i / (N + 1), match i mod (N + 1) with 0 => None | S j => Some j end) :: pairs N (S i) r
  end.
Definition faceIndexOrdering (N : nat) (processors : list (list face)) : list pair :=
  pairs N 0 (Allreduce N (map (fun faces => present N (facets faces)) processors)).
(** lines 122-129 *)
Definition name (zones : list string) (p : pair) : option string :=
  match nth_error zones (fst p), snd p with
  | Some a, None => Some ("flux-" ++ a)%string
  | Some a, Some j => match nth_error zones j with Some b => Some ("flux-" ++ a ++ "--" ++ b)%string | None => None end
  | None, _ => None
  end.
