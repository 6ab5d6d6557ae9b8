(** Model of SmallMatrix::determinant (kernel/LinearAlgebra/SmallMatrix_impl.h:274-340),
    Jacobian::determinant (kernel/Geometry/Jacobian_Impl.h:49-117, the same formulas) and
    computeWedgeStuffVector (SmallMatrix_impl.h:196-252, MiddleSizeMatrix.cpp:485-536, the
    same formulas).

    The scalars are an arbitrary type with the operations of a ring, so rounding is
    not modelled.  Entries are read with the checked access [mget]; the arithmetic is
    lifted to results that may be missing.  A failed assertion or an unsupported size
    is [None]. *)
From Coq Require Import List Arith Bool.
From Verif Require Import Loop_model Matrix_model.
Import ListNotations.

Section Determinant.
Context {A : Type} (zero one : A) (add mul sub : A -> A -> A) (opp : A -> A).

Definition lift2 (f : A -> A -> A) (x y : option A) : option A :=
  match x, y with Some x, Some y => Some (f x y) | _, _ => None end.
Declare Scope entry_scope.
Delimit Scope entry_scope with entry.
Notation "x + y" := (lift2 add x y) : entry_scope.
Notation "x - y" := (lift2 sub x y) : entry_scope.
Notation "x * y" := (lift2 mul x y) : entry_scope.
Notation "- x" := (option_map opp x) : entry_scope.
Notation "M (. i , j .)" := (mget M i j) (at level 8, i at level 0, j at level 0, format "M (. i , j .)") : entry_scope.

(** SmallMatrix_impl.h:274-340 determinant, Jacobian_Impl.h:49-117 *)
Definition determinant (M : matrix A) : option A :=
  if nrows M =? ncols M then
    match nrows M with
    | 0 => Some one
    | 1 => (M(.0,0.))%entry
    | 2 => (M(.0,0.) * M(.1,1.) - M(.0,1.) * M(.1,0.))%entry
    | 3 => (M(.0,0.) * (M(.1,1.) * M(.2,2.) - M(.1,2.) * M(.2,1.)) - M(.0,1.) * (M(.1,0.) * M(.2,2.) - M(.2,0.) *
            M(.1,2.)) + M(.0,2.) * (M(.1,0.) * M(.2,1.) - M(.2,0.) * M(.1,1.)))%entry
    | 4 => ((M(.3,0.) * M(.2,1.) * M(.0,3.) - M(.2,0.) * M(.3,1.) * M(.0,3.)) * M(.1,2.) + (-M(.3,0.) * M(.0,3.) *
            M(.2,2.) + M(.2,0.) * M(.0,3.) * M(.3,2.)) * M(.1,1.) + (M(.3,1.) * M(.0,3.) * M(.2,2.) - M(.2,1.) *
            M(.0,3.) * M(.3,2.)) * M(.1,0.) + (-M(.3,0.) * M(.2,1.) * M(.1,3.) + M(.2,0.) * M(.3,1.) * M(.1,3.) +
            (-M(.2,0.) * M(.3,3.) + M(.3,0.) * M(.2,3.)) * M(.1,1.) + (M(.2,1.) * M(.3,3.) - M(.3,1.) * M(.2,3.)) *
            M(.1,0.)) * M(.0,2.) + (M(.3,0.) * M(.1,3.) * M(.2,2.) - M(.2,0.) * M(.1,3.) * M(.3,2.) + (M(.2,0.) *
            M(.3,3.) - M(.3,0.) * M(.2,3.)) * M(.1,2.) + (-M(.2,2.) * M(.3,3.) + M(.2,3.) * M(.3,2.)) * M(.1,0.)) *
            M(.0,1.) + (-M(.3,1.) * M(.1,3.) * M(.2,2.) + M(.2,1.) * M(.1,3.) * M(.3,2.) + (M(.3,1.) * M(.2,3.) -
            M(.2,1.) * M(.3,3.)) * M(.1,2.) + M(.1,1.) * (M(.2,2.) * M(.3,3.) - M(.2,3.) * M(.3,2.))) * M(.0,0.))%entry
    | _ => None
    end
  else None.

(** collect the results *)
Fixpoint vector_of (l : list (option A)) : option (list A) :=
  match l with
  | [] => Some []
  | x :: l' => match x, vector_of l' with Some x, Some v => Some (x :: v) | _, _ => None end
  end.

(** SmallMatrix_impl.h:196-252 computeWedgeStuffVector, MiddleSizeMatrix.cpp:485-536.
    With 0 rows [numberOfRows - 1] wraps around, so the assertion fails. *)
Definition computeWedgeStuffVector (M : matrix A) : option (list A) :=
  if negb (nrows M =? 0) && (ncols M =? nrows M - 1) then
    match nrows M with
    | 2 => vector_of [-M(.1,0.); M(.0,0.)]%entry
    | 3 => vector_of [M(.1,0.) * M(.2,1.) - M(.2,0.) * M(.1,1.);
           M(.0,1.) * M(.2,0.) - M(.0,0.) * M(.2,1.);
           M(.0,0.) * M(.1,1.) - M(.1,0.) * M(.0,1.)]%entry
    | 4 => vector_of [M(.1,0.) * (-M(.2,1.) * M(.3,2.) + M(.3,1.) * M(.2,2.)) + M(.2,0.) * (M(.1,1.) * M(.3,2.) - M(.3,1.) *
           M(.1,2.)) + M(.3,0.) * (-M(.1,1.) * M(.2,2.) + M(.2,1.) * M(.1,2.));
           M(.0,0.) * (M(.2,1.) * M(.3,2.) - M(.3,1.) * M(.2,2.)) + M(.2,0.) * (-M(.0,1.) * M(.3,2.) + M(.3,1.) *
           M(.0,2.)) + M(.3,0.) * (M(.0,1.) * M(.2,2.) - M(.2,1.) * M(.0,2.));
           M(.0,0.) * (-M(.1,1.) * M(.3,2.) + M(.3,1.) * M(.1,2.)) + M(.1,0.) * (M(.0,1.) * M(.3,2.) - M(.3,1.) *
           M(.0,2.)) + M(.3,0.) * (-M(.0,1.) * M(.1,2.) + M(.1,1.) * M(.0,2.));
           M(.0,0.) * (M(.1,1.) * M(.2,2.) - M(.2,1.) * M(.1,2.)) + M(.1,0.) * (-M(.0,1.) * M(.2,2.) + M(.2,1.) *
           M(.0,2.)) + M(.2,0.) * (M(.0,1.) * M(.1,2.) - M(.1,1.) * M(.0,2.))]%entry
    | _ => None
    end
  else None.
End Determinant.
