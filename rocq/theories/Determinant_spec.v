(** The determinant as Leibniz' sum over permutations. *)
From Coq Require Import List Arith Bool Permutation.
Import ListNotations.

(** all arrangements of a list *)
Fixpoint insertions (x : nat) (l : list nat) : list (list nat) :=
  match l with
  | [] => [[x]]
  | y :: r => (x :: y :: r) :: map (cons y) (insertions x r)
  end.
Fixpoint arrangements (l : list nat) : list (list nat) :=
  match l with
  | [] => [[]]
  | x :: r => flat_map (insertions x) (arrangements r)
  end.

(** number of pairs in the wrong order *)
Fixpoint inversions (p : list nat) : nat :=
  match p with
  | [] => 0
  | x :: r => length (filter (fun y => y <? x) r) + inversions r
  end.

Section Leibniz.
Context {A : Type} (zero one : A) (add mul : A -> A -> A) (opp : A -> A).

Definition signed (p : list nat) (x : A) : A := if Nat.even (inversions p) then x else opp x.
(** product of e 0 p_0, e 1 p_1, ... *)
Definition product (e : nat -> nat -> A) (p : list nat) : A :=
  fold_right mul one (map (fun ij => e (fst ij) (snd ij)) (combine (seq 0 (length p)) p)).
Definition leibniz (n : nat) (e : nat -> nat -> A) : A :=
  fold_right add zero (map (fun p => signed p (product e p)) (arrangements (seq 0 n))).

Definition inner (n : nat) (x y : nat -> A) : A :=
  fold_right add zero (map (fun i => mul (x i) (y i)) (seq 0 n)).
End Leibniz.

Definition unit_vector {A} (zero one : A) (k : nat) (i : nat) : A := if i =? k then one else zero.
(** [e] with [v] as an additional column [c] on the right *)
Definition augmented {A} (c : nat) (e : nat -> nat -> A) (v : nat -> A) (i j : nat) : A :=
  if j =? c then v i else e i j.
Definition swap_columns {A} (e : nat -> nat -> A) (k l : nat) (i j : nat) : A :=
  e i (if j =? k then l else if j =? l then k else j).
