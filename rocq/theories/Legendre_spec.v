(** Vocabulary for polynomials in one variable; independent of the model. *)
From Coq Require Import Reals List.
Import ListNotations.
Local Open Scope R_scope.

(** the integral of f over [a, b] exists (as a Riemann integral) and is v *)
Definition integral_is (f : R -> R) (a b v : R) : Prop :=
  exists pr : Riemann_integrable f a b, RiemannInt pr = v.

(** value of the polynomial c0 + c1 x + c2 x^2 + ... *)
Fixpoint poly_value (c : list R) (x : R) : R :=
  match c with
  | [] => 0
  | a :: rest => a + x * poly_value rest x
  end.

(** f is a polynomial function of degree exactly n, resp. at most n *)
Definition polynomial_of_degree (n : nat) (f : R -> R) : Prop :=
  exists c lead, length c = n /\ lead <> 0 /\ forall x, f x = poly_value (c ++ [lead]) x.
Definition polynomial_below (n : nat) (f : R -> R) : Prop :=
  exists c, length c = n /\ forall x, f x = poly_value c x.
