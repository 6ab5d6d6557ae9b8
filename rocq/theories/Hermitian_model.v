(** Model of MiddleSizeMatrix::isHermitian (kernel/LinearAlgebra/MiddleSizeMatrix.cpp:969-984).
    A number is a real number or, as [None], a NaN; rounding and overflow are left out.  A result [None] is an access out of range. *)
From Coq Require Import List Arith Reals.
Import ListNotations.

Definition num := option R.
Definition lift (f : R -> R -> R) (a b : num) : num := match a, b with Some a, Some b => Some (f a b) | _, _ => None end.
(** a > b, false if one of them is a NaN *)
Definition gt (a b : num) : bool := match a, b with Some a, Some b => if Rlt_dec b a then true else false | _, _ => false end.
(** std::complex: conj, the difference and norm, which is the square of the modulus *)
Definition complex := (num * num)%type.
Definition conj (a : complex) : complex := (fst a, option_map Ropp (snd a)).
Definition sub (a b : complex) : complex := (lift Rminus (fst a) (fst b), lift Rminus (snd a) (snd b)).
Definition norm (a : complex) : num := lift Rplus (lift Rmult (fst a) (fst a)) (lift Rmult (snd a) (snd a)).
(** MiddleSizeMatrix.h:301-307, the members *)
Record matrix := Matrix { data : list complex; numberOfRows : nat; numberOfColumns : nat }.
(** MiddleSizeMatrix.h:122-132 operator() *)
Definition at_ (a : matrix) (n m : nat) : option complex := nth_error (data a) (n + m * numberOfRows a).
(** lines 975-981, the loop over j *)
Fixpoint row (a : matrix) (tol : num) (i : nat) (js : list nat) : option bool :=
  match js with
  | [] => Some true
  | j :: r =>
      match at_ a i j, at_ a j i with
      | Some x, Some y => if gt (norm (sub (conj x) y)) (lift Rmult tol tol) then Some false else row a tol i r
      | _, _ => None
      end
  end.
(** lines 974-982, the loop over i *)
Fixpoint rows (a : matrix) (tol : num) (is_ : list nat) : option bool :=
  match is_ with
  | [] => Some true
  | i :: r => match row a tol i (seq i (numberOfColumns a - i)) with Some true => rows a tol r | o => o end
  end.
(** lines 969-984 isHermitian *)
Definition isHermitian (a : matrix) (tol : num) : option bool :=
  if negb (numberOfRows a =? numberOfColumns a) then Some false else rows a tol (seq 0 (numberOfRows a)).
