(** Vocabulary for statements about dense matrices. *)
From Coq Require Import List Arith Bool.
From Verif Require Import Matrix_model.
Import ListNotations.

(** As many array entries as the sizes say; every constructor establishes this. *)
Definition wf {A} (M : matrix A) : Prop := length (data M) = nrows M * ncols M.

(** [M] is the r x c matrix with entries [e i j]. *)
Definition is_matrix {A} (M : matrix A) (r c : nat) (e : nat -> nat -> A) : Prop :=
  nrows M = r /\ ncols M = c /\ wf M /\
  forall i j, mget M i j = if (i <? r) && (j <? c) then Some (e i j) else None.

(** [l] is the vector of length [n] with entries [e i]. *)
Definition is_vector {A} (l : list A) (n : nat) (e : nat -> A) : Prop := l = map e (seq 0 n).

(** x_0 + ... + x_(n-1), summed from the left *)
Definition bigsum {A} (zero : A) (add : A -> A -> A) (n : nat) (x : nat -> A) : A :=
  fold_left (fun acc l => add acc (x l)) (seq 0 n) zero.

(** Number of columns of the first matrices. *)
Definition columns_before {A} (l : list (matrix A)) (k : nat) : nat := list_sum (map ncols (firstn k l)).

(** A history of assignments [M(i,j) = x]. *)
Fixpoint assignments {A} (M : matrix A) (h : list (nat * nat * A)) : option (matrix A) :=
  match h with
  | [] => Some M
  | (i, j, x) :: h' => match mset M i j x with None => None | Some M' => assignments M' h' end
  end.
(** The value assigned last to position (i,j), if any. *)
Definition last_assigned {A} (h : list (nat * nat * A)) (i j : nat) : option A :=
  fold_left (fun cur w => match w with (a, b, x) => if (a =? i) && (b =? j) then Some x else cur end) h None.
