(** Model of computeZoneBoundingBoxes and applyPMLs (applications/DG-Max/DGMaxProgramUtils.cpp:237-296, 405-452), which
    lay absorbing layers on the zones of a mesh.
    Coordinates are real numbers, [None] is the infinity that an array starts with.  The processors are a list; MPI is its
    result.  [None] as a result is an access out of range. *)
From Coq Require Import List Arith Bool ZArith Reals.
Import ListNotations.

Definition set {A : Type} (i : nat) (x : A) (l : list A) : list A := firstn i l ++ x :: skipn (S i) l.

(** an element: the number of its zone, whether the processor owns it, its nodes *)
Record element := Element { zoneId : nat; owned : bool; nodes : list (list R) }.
(** std::min(a, b) and std::max(a, b), where [a] may be infinite *)
Definition lower (a : option R) (b : R) : option R := match a with None => Some b | Some a => Some (if Rlt_dec b a then b else a) end.
Definition upper (a : option R) (b : R) : option R := match a with None => Some b | Some a => Some (if Rlt_dec a b then b else a) end.
(** lines 267-270 for one of the two arrays, a loop over the coordinates *)
Fixpoint update (f : option R -> R -> option R) (at_ : nat) (coordinates : list R) (l : list (option R)) : list (option R) :=
  match coordinates with [] => l | x :: r => update f (S at_) r (set at_ (f (nth at_ l None) x) l) end.
(** lines 255-272 *)
Definition bounds (f : option R -> R -> option R) (dim zoneCount : nat) (elements : list element) : list (option R) :=
  fold_left (fun l e => if owned e then fold_left (fun l node => update f (dim * zoneId e) node l) (nodes e) l else l)
    elements (repeat None (dim * zoneCount)).
(** lines 274-281, MPI_Allreduce of one array, by the same function, entry by entry *)
Definition merge (f : option R -> R -> option R) (a b : list (option R)) : list (option R) :=
  map (fun p => match snd p with None => fst p | Some x => f (fst p) x end) (combine a b).
Definition Allreduce (f : option R -> R -> option R) (n : nat) (l : list (list (option R))) : list (option R) := fold_left (merge f) l (repeat None n).
(** lines 283-295: coordinate [j] of a corner of the box of zone [i], on every processor *)
Definition box (f : option R -> R -> option R) (dim zoneCount : nat) (processors : list (list element)) (i j : nat) : option R :=
  nth (dim * i + j) (Allreduce f (dim * zoneCount) (map (bounds f dim zoneCount) processors)) None.

Section Apply.
Context {Name Material : Type} (same : Name -> Name -> bool).
Definition NO_PML_NEEDED : Z := (- 2 ^ 31)%Z.
(** lines 424-431: the loops over the descriptions and the zones *)
Fixpoint first_zone (name : Name) (zones : list Name) (j : nat) : option nat :=
  match zones with [] => None | z :: r => if same name z then Some j else first_zone name r (S j) end.
Fixpoint mark (i : Z) (pmls zones : list Name) (pmlIndices : list Z) : list Z :=
  match pmls with
  | [] => pmlIndices
  | p :: r => mark (i + 1) r zones (match first_zone p zones 0 with Some j => set j (- i - 1)%Z pmlIndices | None => pmlIndices end)
  end.
(** A layer: the number of the description, the zone of which the bounding box is taken, and the material. *)
Record layer := Layer { description : nat; zone : nat; material : Material }.
(** lines 433-450: the loop over the elements, each with its zone and its material; the layers, and for each element the
    number of the layer that it gets *)
Fixpoint lay (elements : list (nat * Material)) (pmlinfos : list layer) (pmlIndices : list Z) : option (list layer * list (option nat)) :=
  match elements with
  | [] => Some (pmlinfos, [])
  | (z, m) :: r =>
      match nth_error pmlIndices z with
      | None => None
      | Some index =>
          if (index =? NO_PML_NEEDED)%Z then
            match lay r pmlinfos pmlIndices with Some (l, u) => Some (l, None :: u) | None => None end
          else
            let '(pmlinfos, pmlIndices) :=
              if (index <? 0)%Z then (pmlinfos ++ [Layer (Z.to_nat (- index - 1)) z m], set z (Z.of_nat (length pmlinfos)) pmlIndices)
              else (pmlinfos, pmlIndices) in
            match nth_error pmlIndices z with
            | None => None
            | Some index => match lay r pmlinfos pmlIndices with Some (l, u) => Some (l, Some (Z.to_nat index) :: u) | None => None end
            end
      end
  end.
(** lines 405-452 applyPMLs *)
Definition applyPMLs (pmls zones : list Name) (elements : list (nat * Material)) : option (list layer * list (option nat)) :=
  match pmls with
  | [] => Some ([], map (fun _ => None) elements)
  | _ => lay elements [] (mark 0 pmls zones (repeat NO_PML_NEEDED (length zones)))
  end.
End Apply.
