(** Model of the comparisons of vectors: LinearAlgebra::GSmallVector (SmallVector.h), of which Geometry::Point uses the
    real one (Point_Impl.h:59-72), and LinearAlgebra::MiddleSizeVector (MiddleSizeVector.cpp).
    A double is [Some] number of an ordered type [D], or [None] for NaN, which compares as neither smaller nor equal.
    Infinities and the two zeros need no special treatment: -0 and +0 are one number of [D].  A vector is a list. *)
From Coq Require Import List Bool.
Import ListNotations.

Section Orders.
Context {D : Type} (ltb eqb : D -> D -> bool).

Notation double := (option D).
Definition lt (a b : double) : bool := match a, b with Some x, Some y => ltb x y | _, _ => false end.
Definition ne (a b : double) : bool := match a, b with Some x, Some y => negb (eqb x y) | _, _ => true end.
(** std::complex<double>, with operator!= *)
Notation complex := (option D * option D)%type.
Definition neC (a b : complex) : bool := ne (fst a) (fst b) || ne (snd a) (snd b).
(** SmallVector.h:115-125 Detail::less *)
Definition less (a b : double) : bool := lt a b.
Definition lessC (a b : complex) : bool := if ne (fst a) (fst b) then lt (fst a) (fst b) else lt (snd a) (snd b).

(** SmallVector.h:268-287 operator== and operator<, for either type of entries; both vectors have the size of the type *)
Fixpoint equal {E : Type} (neE : E -> E -> bool) (l r : list E) : bool :=
  match l, r with a :: l, b :: r => if neE a b then false else equal neE l r | _, _ => true end.
Fixpoint smaller {E : Type} (neE lessE : E -> E -> bool) (l r : list E) : bool :=
  match l, r with a :: l, b :: r => if neE a b then lessE a b else smaller neE lessE l r | _, _ => false end.
Definition smallEqual := equal ne.
Definition smallLess := smaller ne less.
Definition smallEqualC := equal neC.
Definition smallLessC := smaller neC lessC.

(** MiddleSizeVector.cpp:172-179, a loop over the entries that both have: [None] if it ends *)
Fixpoint decide (l r : list double) : option bool :=
  match l, r with
  | a :: l, b :: r => if lt a b then Some true else if lt b a then Some false else decide l r
  | _, _ => None
  end.
(** MiddleSizeVector.cpp:170-191 operator<, in a build with real and in one with complex numbers *)
Definition middleLess (l r : list double) : bool := match decide l r with Some b => b | None => false end.
Definition middleLessC (l r : list complex) : bool :=
  match decide (map fst l) (map fst r) with
  | Some b => b
  | None => match decide (map snd l) (map snd r) with Some b => b | None => false end
  end.
End Orders.
