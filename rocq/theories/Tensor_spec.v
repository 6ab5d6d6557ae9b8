(** Specification of material tensors: diagonal matrices. *)
From Coq Require Import List Reals.
From Verif Require Import Tensor_model.
Import ListNotations.

(** the entry [i] on the diagonal *)
Inductive diagonal : tensor -> nat -> complex -> Prop :=
| of_scalar s i : diagonal (Scalar s) i s
| of_x x y z : diagonal (Diagonal x y z) 0 x
| of_y x y z : diagonal (Diagonal x y z) 1 y
| of_z x y z : diagonal (Diagonal x y z) 2 z.
Definition invertible (t : tensor) : Prop := forall i a, diagonal t i a -> a <> (0, 0)%R.
(** the Hermitian inner product *)
Fixpoint inner (v w : list complex) : complex :=
  match v, w with a :: v, b :: w => cadd (cmul a (conj b)) (inner v w) | _, _ => (0, 0)%R end.
