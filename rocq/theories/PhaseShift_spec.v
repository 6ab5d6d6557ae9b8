(** Specification of phase shifts. *)
From Coq Require Import List Arith Reals.
From Verif Require Import PhaseShift_model.
Import ListNotations.

Definition conj (a : complex) : complex := (fst a, (- snd a)%R).
(** [v] is what a block, stored by columns, has at row [r] and column [c] of the matrix. *)
Definition has (rows cols : list nat) (block : list complex) (r c : nat) (v : complex) : Prop :=
  exists i j, nth_error rows i = Some r /\ nth_error cols j = Some c /\ nth_error block (length rows * j + i) = Some v.
(** A block at rows and columns with the jump in its coordinates, and possibly another one placed symmetrically. *)
Definition sized (s : shift) : Prop :=
  let b := shiftBlocks s in
  length (block1 b) = length (rowIndices b) * length (columnIndices b) /\
  forall b2, block2 b = Some b2 -> length b2 = length (columnIndices b) * length (rowIndices b).
(** The entry [v], which is not 0, is to be shifted by the jump [x]. *)
Inductive shifted (l : list shift) (r c : nat) (v : complex) (x : list R) : Prop :=
| shifted_first s : In s l -> has (rowIndices (shiftBlocks s)) (columnIndices (shiftBlocks s)) (block1 (shiftBlocks s)) r c v ->
    v <> zero -> x = dx s -> shifted l r c v x
| shifted_second s b2 : In s l -> block2 (shiftBlocks s) = Some b2 -> has (columnIndices (shiftBlocks s)) (rowIndices (shiftBlocks s)) b2 r c v ->
    v <> zero -> x = neg (dx s) -> shifted l r c v x.
(** No entry is shifted in two ways. *)
Definition one_way (l : list shift) : Prop :=
  forall r c v v' x x', shifted l r c v x -> shifted l r c v' x' -> v = v' /\ x = x'.
(** All are pairs, and the second block is the conjugate transpose of the first. *)
Definition mirrored (l : list shift) : Prop :=
  forall s, In s l -> exists b2, block2 (shiftBlocks s) = Some b2 /\ forall r c v,
    has (columnIndices (shiftBlocks s)) (rowIndices (shiftBlocks s)) b2 c r (conj v) <->
    has (rowIndices (shiftBlocks s)) (columnIndices (shiftBlocks s)) (block1 (shiftBlocks s)) r c v.
Definition hermitian (m : matrix) : Prop := forall r c, m c r = conj (m r c).
