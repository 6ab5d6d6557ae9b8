(** Model of FluxFacets::computeFluxes (applications/DG-Max/Utils/FluxFacets.cpp:135-170).
    [flux] stands for computeEnergyFlux, which gives four numbers for a side of a face; numbers are real numbers.  [None] is
    the assertion that a facet has a number. *)
From Coq Require Import List Arith Reals.
From Verif Require Import Facets_model.
Import ListNotations.

Definition total (l : list R) : R := fold_right Rplus 0%R l.
Fixpoint put (i : nat) (x : R) (l : list R) : list R := match l, i with [], _ => [] | _ :: r, 0 => x :: r | y :: r, S i => y :: put i x r end.
(** line 149, faceIndexOrdering_.find *)
Fixpoint position (p : pair) (order : list pair) : option nat :=
  match order with [] => None | q :: r => if samePair p q then Some 0 else option_map S (position p r) end.
Section Fluxes.
Context (flux : face -> side -> nat -> R).
(** lines 152-155, with lines 143-147 for the sum over the faces *)
Definition putFlux (k : nat) (faces : list (face * side)) (flat : list R) : list R :=
  fold_left (fun l i => put (4 * k + i) (fold_left (fun s f => (s + flux (fst f) (snd f) i)%R) faces 0%R) l) (seq 0 4) flat.
(** lines 141-156, on one processor *)
Fixpoint flatFluxes (order : list pair) (m : list (pair * list (face * side))) (flat : list R) : option (list R) :=
  match m with
  | [] => Some flat
  | (p, faces) :: r => match position p order with Some k => flatFluxes order r (putFlux k faces flat) | None => None end
  end.
(** lines 157-160, MPI_Allreduce with MPI_SUM *)
Definition plus (a b : list R) : list R := map (fun p => (fst p + snd p)%R) (combine a b).
Fixpoint reduce (n : nat) (l : list (option (list R))) : option (list R) :=
  match l with
  | [] => Some (repeat 0%R n)
  | a :: r => match a, reduce n r with Some a, Some b => Some (plus a b) | _, _ => None end
  end.
(** lines 135-170, where all processors have the order of all of them *)
Definition computeFluxes (N : nat) (processors : list (list face)) : option (list (list R)) :=
  let order := faceIndexOrdering N processors in
  let n := length order in
  match reduce (4 * n) (map (fun faces => flatFluxes order (facets faces) (repeat 0%R (4 * n))) processors) with
  | Some flat => Some (map (fun i => map (fun j => nth (4 * i + j) flat 0%R) (seq 0 4)) (seq 0 n))
  | None => None
  end.
End Fluxes.
