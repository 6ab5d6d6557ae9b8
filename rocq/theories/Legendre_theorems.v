(** C33: the Legendre and Lobatto polynomials *)
From Coq Require Import Reals Lra List.
From Verif Require Import Legendre_model Legendre_spec Legendre_proofs.
Import ListNotations.
Local Open Scope R_scope.

(** LegendrePolynomialDerivative is the derivative of LegendrePolynomial *)
Theorem C33_legendre_derivative : forall n x,
  derivable_pt_lim (LegendrePolynomial n) x (LegendrePolynomialDerivative n x).
Proof. exact legendre_derivative. Qed.
Print Assumptions C33_legendre_derivative.

(** LegendrePolynomial(n, .) is the polynomial of degree n with value 1 at 1 that is orthogonal to
    every polynomial of lower degree; its square integrates to 2 / (2n + 1) *)
Theorem C33_legendre : forall n,
  polynomial_of_degree n (LegendrePolynomial n) /\
  LegendrePolynomial n 1 = 1 /\
  (forall f, polynomial_below n f -> integral_is (fun x => LegendrePolynomial n x * f x) (-1) 1 0) /\
  integral_is (fun x => LegendrePolynomial n x * LegendrePolynomial n x) (-1) 1 (2 / (2 * INR n + 1)).
Proof.
  exact (fun n => conj (legendre_degree n) (conj (legendre_one n)
    (conj (fun f => integral_P_poly n n f (le_n n)) (legendre_norm n)))).
Qed.
Print Assumptions C33_legendre.

(** different Legendre polynomials are orthogonal *)
Theorem C33_legendre_orthogonal : forall m n, m <> n ->
  integral_is (fun x => LegendrePolynomial m x * LegendrePolynomial n x) (-1) 1 0.
Proof. exact legendre_orthogonal. Qed.
Print Assumptions C33_legendre_orthogonal.

(** Legendre's differential equation and the symmetry P_n(-x) = (-1)^n P_n(x) *)
Theorem C33_legendre_equation : forall n x,
  derivable_pt_lim (fun t => (1 - t * t) * LegendrePolynomialDerivative n t) x
                   (- (INR n * (INR n + 1) * LegendrePolynomial n x)).
Proof. exact legendre_equation. Qed.
Print Assumptions C33_legendre_equation.
Theorem C33_legendre_parity : forall n x, LegendrePolynomial n (- x) = (-1) ^ n * LegendrePolynomial n x.
Proof. exact legendre_parity. Qed.
Print Assumptions C33_legendre_parity.

(** [(1 - x^2) / 4 * LobattoPolynomial(k, x)] is the integral of P_(k+1), scaled such that the derivative
    has norm 1.  Proved for k <= 9 except k = 5. *)
Theorem C33_lobatto_partial : forall k x v, (k <= 9)%nat -> k <> 5%nat -> -1 <= x <= 1 ->
  integral_is (LegendrePolynomial (k + 1)) (-1) x v ->
  (1 - x * x) / 4 * LobattoPolynomial k x = sqrt ((2 * INR k + 3) / 2) * v.
Proof. exact lobatto_integral. Qed.
Print Assumptions C33_lobatto_partial.

(** up to a factor independent of x this holds for all k other than 5 *)
Theorem C33_lobatto_shape_partial : forall k, k <> 5%nat -> exists c, c <> 0 /\
  forall x v, -1 <= x <= 1 -> integral_is (LegendrePolynomial (k + 1)) (-1) x v ->
  (1 - x * x) / 4 * LobattoPolynomial k x = c * v.
Proof. exact lobatto_shape. Qed.
Print Assumptions C33_lobatto_shape_partial.

(** k = 5 is not a multiple of the integral of P_6, and from k = 10 on the scaling is missing *)
Theorem C33_lobatto_refuted :
  (forall c, c <> 0 ->
     ~ (forall x v, -1 <= x <= 1 -> integral_is (LegendrePolynomial 6) (-1) x v ->
        (1 - x * x) / 4 * LobattoPolynomial 5 x = c * v)) /\
  ~ (forall x v, -1 <= x <= 1 -> integral_is (LegendrePolynomial 11) (-1) x v ->
     (1 - x * x) / 4 * LobattoPolynomial 10 x = sqrt ((2 * INR 10 + 3) / 2) * v).
Proof. exact (conj lobatto_5 lobatto_10_wrong). Qed.
Print Assumptions C33_lobatto_refuted.

(** LobattoPolynomialDerivative, available for degrees up to 3, is the derivative of LobattoPolynomial *)
Theorem C33_lobatto_derivative : forall k x,
  match LobattoPolynomialDerivative k x with
  | Some d => (k <= 3)%nat /\ derivable_pt_lim (LobattoPolynomial k) x d
  | None => (4 <= k)%nat
  end.
Proof. exact lobatto_derivative_all. Qed.
Print Assumptions C33_lobatto_derivative.

(** the integrals in the hypotheses exist *)
Example C33_nonvacuous :
  (exists v, integral_is (LegendrePolynomial (4 + 1)) (-1) (1 / 2) v) /\
  polynomial_below 3 (fun x => 2 * x * x - x + 5) /\ LobattoPolynomialDerivative 3 2 <> None.
Proof.
  split; [|split].
  - eexists. apply (integral_P 4 (1 / 2)). lra.
  - exists [5; -1; 2]. split; [reflexivity|]. intro x. simpl. ring.
  - discriminate.
Qed.
