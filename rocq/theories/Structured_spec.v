(** Structured meshes: the text that describes one, the grid, and its cutting into triangles or tetrahedra. *)
From Coq Require Import String Ascii List Arith Bool ZArith Reals.
From Verif Require Import Gmsh_spec CommandLine_spec.
From Verif Require Gmsh_model.
Import ListNotations.
Notation text := Gmsh_model.text.
Notation chars := Gmsh_model.chars.

(** * The text: [natural], [real] and [laid] are those of Gmsh_spec *)
Record direction := Direction { cells : nat; low : R; high : R; periodic : bool }.
Record structured := Structured { directions : list direction; simplices : bool }.

Section Text.
  Variable convert : text -> option R.
  Definition count (n : nat) (w : text) : Prop := natural (Z.of_nat n) w.
  Definition yes_no (b : bool) : text := chars (if b then "true" else "false").
  (** structured 1 dimension, the numbers of cells, the low ends, the high ends, the kind, the periodicity *)
  Definition describes (t : text) (m : structured) : Prop :=
    exists w1 wd wn wl wh tail, count 1 w1 /\ count (length (directions m)) wd /\
      Forall2 (fun d w => count (cells d) w) (directions m) wn /\
      Forall2 (fun d w => real convert (low d) w) (directions m) wl /\
      Forall2 (fun d w => real convert (high d) w) (directions m) wh /\
      Forall space tail /\
      exists body, laid ([chars "structured"; w1; wd] ++ wn ++ wl ++ wh ++
            [chars (if simplices m then "triangular" else "rectangular")] ++
            map (fun d => yes_no (periodic d)) (directions m)) body /\ t = body ++ tail.
End Text.

(** * The grid *)
(** grid points have one number for every direction, from 0 up to the number of cells *)
Definition grid_point (ds : list direction) (g : list nat) : Prop := Forall2 (fun d k => k <= cells d) ds g.
Definition position (ds : list direction) (g : list nat) : list R :=
  map (fun p => (low (fst p) + INR (snd p) * (high (fst p) - low (fst p)) / INR (cells (fst p)))%R) (combine ds g).
(** points that periodicity makes the same node *)
Definition same_node (ds : list direction) (g g' : list nat) : Prop :=
  forall i d k k', nth_error ds i = Some d -> nth_error g i = Some k -> nth_error g' i = Some k' ->
    k = k' \/ (periodic d = true /\ (k = 0 /\ k' = cells d \/ k = cells d /\ k' = 0)).
(** a cell is known by its lowest corner; corner [j] is a step away from it in direction [i] when bit [i] of [j] is set *)
Definition cell (ds : list direction) (l : list nat) : Prop := Forall2 (fun d k => k < cells d) ds l.
Definition corner (l : list nat) (j : nat) : list nat :=
  map (fun p => snd p + Nat.b2n (Nat.testbit j (fst p))) (combine (seq 0 (length l)) l).

(** every cell once, with the corners of the elements in it *)
Definition covers (ds : list direction) (cs : list (list nat * list (list nat))) : Prop :=
  NoDup (map fst cs) /\ forall l, In l (map fst cs) <-> cell ds l.

(** the coordinates, numbered in the order of the nodes, with the number of their node *)
Fixpoint numbered (n : nat) (nodes : list (list (list R))) : list (nat * list R) :=
  match nodes with [] => [] | c :: nodes => map (pair n) c ++ numbered (S n) nodes end.

(** [nodes] and [elements] are a mesh of the grid that has the elements [cs] *)
Definition mesh_of (ds : list direction) (cs : list (list nat * list (list nat)))
    (nodes : list (list (list R))) (elements : list (list nat * string)) : Prop :=
  exists (id node : list nat -> nat),
    (forall g, grid_point ds g -> nth_error (numbered 0 nodes) (id g) = Some (node g, position ds g)) /\
    (forall g g', grid_point ds g -> grid_point ds g' -> id g = id g' -> g = g') /\
    (forall g g', grid_point ds g -> grid_point ds g' -> (node g = node g' <-> same_node ds g g')) /\
    (forall c, c < length (numbered 0 nodes) -> exists g, grid_point ds g /\ id g = c) /\
    (forall n, n < length nodes -> exists g, grid_point ds g /\ node g = n) /\
    elements = flat_map (fun p => map (fun s => (map (fun j => id (corner (fst p) j)) s, "Main"%string)) (snd p)) cs.

(** * Simplices in a cell *)
Definition coordinate (j i : nat) : R := INR (Nat.b2n (Nat.testbit j i)).
(** the determinant of the edges from the first vertex: the number of simplices of the size of this one that fill the
    cell when its orientation is positive *)
Definition orientation (s : list nat) : R :=
  match s with
  | [a; b; c] =>
      let e v i := (coordinate v i - coordinate a i)%R in
      (e b 0%nat * e c 1%nat - e b 1%nat * e c 0%nat)%R
  | [a; b; c; d] =>
      let e v i := (coordinate v i - coordinate a i)%R in
      (e b 0%nat * (e c 1%nat * e d 2%nat - e c 2%nat * e d 1%nat)
       - e b 1%nat * (e c 0%nat * e d 2%nat - e c 2%nat * e d 0%nat)
       + e b 2%nat * (e c 0%nat * e d 1%nat - e c 1%nat * e d 0%nat))%R
  | _ => 0%R
  end.
Fixpoint rsum (l : list R) : R := match l with [] => 0%R | x :: l => (x + rsum l)%R end.
Definition inside (dim : nat) (x : nat -> R) (s : list nat) : Prop :=
  exists weights, length weights = length s /\ Forall (fun w => 0 <= w)%R weights /\ rsum weights = 1%R /\
    forall i, i < dim -> x i = rsum (map (fun p => fst p * coordinate (snd p) i)%R (combine weights s)).
(** simplices with their vertices in the right order that together are the cell *)
Definition cut (dim : nat) (ss : list (list nat)) : Prop :=
  Forall (fun s => length s = S dim /\ Forall (fun j => j < 2 ^ dim) s /\ (0 < orientation s)%R) ss /\
  rsum (map orientation ss) = INR (fact dim) /\
  forall x : nat -> R, (forall i, i < dim -> (0 <= x i <= 1)%R) -> exists s, In s ss /\ inside dim x s.

(** the grid points [f] are a facet of an element of a cell *)
Definition facet (dim : nat) (l : list nat) (ss : list (list nat)) (f : list (list nat)) : Prop :=
  length f = dim /\ NoDup f /\ exists s, In s ss /\ incl f (map (corner l) s).
(** [l'] is the next cell in direction [i] *)
Definition next_cell (i : nat) (l l' : list nat) : Prop :=
  length l' = length l /\ forall q k, nth_error l q = Some k -> nth_error l' q = Some (if q =? i then S k else k).
(** facets of elements in the plane between two cells belong to elements of both *)
Definition match_between (dim : nat) (cs : list (list nat * list (list nat))) : Prop :=
  forall l ss l' ss' i f, In (l, ss) cs -> In (l', ss') cs -> i < dim -> next_cell i l l' ->
    Forall (fun g => nth_error g i = nth_error l' i) f ->
    (facet dim l ss f <-> facet dim l' ss' f).
(** [l'] is the first cell and [l] the last one in direction [i], and equal otherwise *)
Definition opposite (ds : list direction) (i : nat) (l l' : list nat) : Prop :=
  length l' = length l /\ nth_error l' i = Some 0 /\
  (exists d, nth_error ds i = Some d /\ periodic d = true /\ nth_error l i = Some (cells d - 1)) /\
  forall q, q <> i -> nth_error l' q = nth_error l q.
(** the point of the first plane that is opposite to a point of the last one *)
Definition across (i : nat) (g : list nat) : list nat := map (fun p => if fst p =? i then 0 else snd p) (combine (seq 0 (length g)) g).
(** facets in a periodic boundary have an opposite facet *)
Definition match_across (ds : list direction) (i : nat) (cs : list (list nat * list (list nat))) : Prop :=
  forall l ss l' ss' f, In (l, ss) cs -> In (l', ss') cs -> opposite ds i l l' ->
    Forall (fun g => nth_error g i = option_map S (nth_error l i)) f ->
    (facet (length ds) l ss f <-> facet (length ds) l' ss' (map (across i) f)).
