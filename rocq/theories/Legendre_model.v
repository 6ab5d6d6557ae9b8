(** The one-dimensional polynomials behind the basis functions: kernel/FE/helperFunctions.cpp.
    doubles are real numbers. *)
From Coq Require Import Reals.
Local Open Scope R_scope.

(** helperFunctions.cpp:110-122 *)
Fixpoint LegendrePolynomial (degree : nat) (x : R) : R :=
  match degree with
  | O => 1
  | S d1 =>
      match d1 with
      | O => x
      | S d2 =>
          (2 * INR degree - 1) / INR degree * x * LegendrePolynomial d1 x
          - (INR degree - 1) / INR degree * LegendrePolynomial d2 x
      end
  end.

(** helperFunctions.cpp:124-138 *)
Fixpoint LegendrePolynomialDerivative (degree : nat) (x : R) : R :=
  match degree with
  | O => 0
  | S d1 =>
      match d1 with
      | O => 1
      | S d2 =>
          (2 * INR degree - 1) / INR degree
            * (x * LegendrePolynomialDerivative d1 x + LegendrePolynomial d1 x)
          - (INR degree - 1) / INR degree * LegendrePolynomialDerivative d2 x
      end
  end.

(** helperFunctions.cpp:49-89 *)
Definition LobattoPolynomial (degree : nat) (x : R) : R :=
  match degree with
  | 0%nat => sqrt (3 / 2) * -2
  | 1%nat => sqrt (5 / 2) * x * -2
  | 2%nat => sqrt (7 / 2) * (5 * x * x - 1) / -2
  | 3%nat => sqrt (9 / 2) * (7 * x * x - 3) * x / -2
  | 4%nat => sqrt (11 / 2) * ((21 * x * x - 14) * x * x + 1) / -4
  | 5%nat => sqrt (13 / 2) * ((33 * x * x - 30 * x * x) + 5) * x / -4
  | 6%nat => sqrt (15 / 2) * (((429 * x * x - 495) * x * x + 135) * x * x - 5) / -32
  | 7%nat => sqrt (17 / 2) * (((715 * x * x - 1001) * x * x + 385) * x * x - 35) * x / -32
  | 8%nat =>
      sqrt (19 / 2) * ((((2431 * x * x - 4004) * x * x + 2002) * x * x - 308) * x * x + 7) / -64
  | 9%nat =>
      sqrt (21 / 2) * ((((4199 * x * x - 7956) * x * x + 4914) * x * x - 1092) * x * x + 63) * x / -64
  | _ => LegendrePolynomialDerivative (degree + 1) x
  end.

(** helperFunctions.cpp:91-108; [None]: logger(FATAL, ...) *)
Definition LobattoPolynomialDerivative (degree : nat) (x : R) : option R :=
  match degree with
  | 0%nat => Some 0
  | 1%nat => Some (-2 * sqrt (5 / 2))
  | 2%nat => Some (-2 * sqrt (7 / 2) * (5 / 2 * x))
  | 3%nat => Some (-2 * sqrt (9 / 2) * (21 / 4 * x * x - 3 / 4))
  | _ => None
  end.
