(** Model of MaterialTensor (applications/DG-Max/MaterialTensor.h:47-175).
    Numbers are exact complex numbers, division by 0 gives something unspecified.  A tensor that the default constructor made,
    which has no type yet, is left out; vectors of complex numbers are lists. *)
From Coq Require Import List Reals.
Import ListNotations.

Definition complex := (R * R)%type.
Definition cadd (a b : complex) : complex := (fst a + fst b, snd a + snd b)%R.
Definition cmul (a b : complex) : complex := (fst a * fst b - snd a * snd b, fst a * snd b + snd a * fst b)%R.
Definition conj (a : complex) : complex := (fst a, - snd a)%R.
Definition cdiv (a b : complex) : complex :=
  let n := (fst b * fst b + snd b * snd b)%R in ((fst a * fst b + snd a * snd b) / n, (snd a * fst b - fst a * snd b) / n)%R.
(** lines 54-78: the tag and the union *)
Inductive tensor := Scalar (s : complex) | Diagonal (x y z : complex).
(** lines 98-107 adjoint *)
Definition adjoint (t : tensor) : tensor :=
  match t with Scalar s => Scalar (conj s) | Diagonal x y z => Diagonal (conj x) (conj y) (conj z) end.
(** lines 121-137 applyDiv; the loop over the entries ends with the vector *)
Definition applyDiv (t : tensor) (vec : list complex) : list complex :=
  match t with
  | Scalar s => map (fun v => cmul v s) vec
  | Diagonal x y z => map (fun p => cmul (fst p) (snd p)) (combine vec [x; y; z])
  end.
(** lines 147-159 applyCurl for the plane *)
Definition applyCurl2 (t : tensor) (vec : list complex) : list complex :=
  match vec with [] => [] | v :: r => match t with Scalar s => cdiv v s | Diagonal x y z => cdiv v z end :: r end.
(** lines 160-174 applyCurl for space *)
Definition applyCurl3 (t : tensor) (vec : list complex) : list complex :=
  match t with
  | Scalar s => map (fun v => cdiv v s) vec
  | Diagonal x y z => map (fun p => cdiv (fst p) (snd p)) (combine vec [x; y; z])
  end.
