(** What the limiters are supposed to do, in terms of the polynomials on the elements. *)
From Coq Require Import List Reals.
From Verif Require Import Quadrature_spec Limiter_model.
Import ListNotations.
Local Open Scope R_scope.

(** [f] is unknown [var] on the element: 0 is the height, 1 the discharge, 2 the height of the small particles *)
Definition unknown (e : element) (var : nat) (f : R -> R) : Prop :=
  exists cs, nth_error (coefficients e) var = Some cs /\ f = expand (basisFunctions e) cs.

(** the mean value of a function on the reference line *)
Definition mean (f : R -> R) (m : R) : Prop := newton f (-1) 1 (2 * m).

(** [f] is a linear combination of the basis functions *)
Definition spanned (e : element) (f : R -> R) : Prop :=
  exists cs, length cs = length (basisFunctions e) /\ forall x, expand (basisFunctions e) cs x = f x.

(** an element as the application has them: distinct nodes, one coefficient for each basis function, a quadrature rule
    that integrates the basis functions exactly, and the constants and linear functions are spanned *)
Definition regular (e : element) : Prop :=
  node0 e <> node1 e /\
  Forall (fun cs => length cs = length (basisFunctions e)) (coefficients e) /\
  Forall (fun b => newton b (-1) 1 (rsum (map (fun q => fst q * b (snd q)) (quadratureRule e)))) (basisFunctions e) /\
  spanned e (fun _ => 1) /\ spanned e (fun x => x).

(** the quadrature points determine the linear combinations of basis functions *)
Definition determined (e : element) : Prop :=
  Forall (fun q => 0 < fst q) (quadratureRule e) /\
  forall cs, length cs = length (basisFunctions e) ->
    (forall q, In q (quadratureRule e) -> expand (basisFunctions e) cs (snd q) = 0) -> forall x, expand (basisFunctions e) cs x = 0.

(** the linear solver solves the systems with the mass matrix of the element *)
Fixpoint dot (a b : list R) : R := match a, b with x :: a', y :: b' => x * y + dot a' b' | _, _ => 0 end.
Definition solves (solve : solver) (e : element) : Prop :=
  forall b, length b = length (basisFunctions e) ->
    length (solve (massMatrix e) b) = length (basisFunctions e) /\
    map (fun row => dot row (solve (massMatrix e) b)) (massMatrix e) = b.

(** everything but the coefficients stays *)
Definition same_shape (e e' : element) : Prop :=
  getID e' = getID e /\ basisFunctions e' = basisFunctions e /\ quadratureRule e' = quadratureRule e /\ node0 e' = node0 e /\ node1 e' = node1 e.

(** all mean values of unknown [var] are kept *)
Definition keeps_mean (e e' : element) (var : nat) : Prop :=
  forall f f' m, unknown e var f -> unknown e' var f' -> mean f m -> mean f' m.

(** the first two basis functions are those of the nodes *)
Definition nodal (e : element) : Prop :=
  exists b0 b1 rest, basisFunctions e = b0 :: b1 :: rest /\ (forall x, b0 x = (1 - x) / 2) /\ (forall x, b1 x = (1 + x) / 2) /\
    Forall (fun b => b (-1) = 0 /\ b 1 = 0) rest.
