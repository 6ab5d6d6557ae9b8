(** Model of the scalar basis functions on the reference shapes: kernel/FE/BasisFunctions*H1Conforming*.cpp,
    BasisFunctionsMonomials.cpp, BasisFunctionsPiecewiseConstant.cpp and helperFunctions.cpp.

    doubles are real numbers.  [None]: a point of the wrong dimension, an index out of bounds or a logged
    FATAL.  The functions eval and evalDeriv0/1/2 of the classes were transcribed from the sources by a
    script: p[0], p[1], p[2] are x, y, z; calls that can fail are bound before the expression. *)
From Coq Require Import List Arith Bool ZArith Reals.
From Verif Require Import Legendre_model RefGeometry_model.
Import ListNotations.
Local Open Scope R_scope.

Definition bind {A B} (o : option A) (f : A -> option B) : option B := match o with Some a => f a | None => None end.
Notation "x <- e ; k" := (bind e (fun x => k)) (at level 61, e at next level, right associativity).

(** helperFunctions.cpp:140-146 *)
Definition baricentric_3D (node : nat) (x y z : R) : option R :=
  match node with O => Some (1 - x - y - z) | S k => nth_error [x; y; z] k end.
(** helperFunctions.cpp:148-154 *)
Definition baricentric_2D (node : nat) (x y : R) : option R :=
  match node with O => Some (1 - x - y) | S k => nth_error [x; y] k end.
(** helperFunctions.cpp:156-165 *)
Definition baricentricDeriv (node direction : nat) : R :=
  if Nat.eqb node 0 then -1 else if Nat.eqb node (direction + 1) then 1 else 0.

(** BasisFunctions1DH1ConformingLine.cpp:52-55 *)
Definition VertexLine_eval (nodePosition : Z) (p : point) : option R :=
  match p with
  | [x] =>
      Some ((1 + IZR nodePosition * x) / 2)
  | _ => None
  end.

(** BasisFunctions1DH1ConformingLine.cpp:57-60 *)
Definition VertexLine_evalDeriv0 (nodePosition : Z) (p : point) : option R :=
  match p with
  | [x] =>
      Some (IZR nodePosition / 2)
  | _ => None
  end.

(** BasisFunctions1DH1ConformingLine.cpp:62-66 *)
Definition InteriorLine_eval (polynomialOrder : nat) (p : point) : option R :=
  match p with
  | [x] =>
      Some ((1 + x) * (1 - x) * LobattoPolynomial polynomialOrder (x) / 4)
  | _ => None
  end.

(** BasisFunctions1DH1ConformingLine.cpp:68-73 *)
Definition InteriorLine_evalDeriv0 (polynomialOrder : nat) (p : point) : option R :=
  match p with
  | [x] =>
      d0 <- LobattoPolynomialDerivative polynomialOrder (x);
      Some (-x * LobattoPolynomial polynomialOrder (x) / 2 + (1 + x) * (1 - x) * d0 / 4)
  | _ => None
  end.

(** BasisFunctions2DH1ConformingSquare.cpp:54-57 *)
Definition VertexSquare_eval (nodePosition0 : Z) (nodePosition1 : Z) (p : point) : option R :=
  match p with
  | [x; y] =>
      Some ((1 + IZR nodePosition0 * x) * (1 + IZR nodePosition1 * y) / 4)
  | _ => None
  end.

(** BasisFunctions2DH1ConformingSquare.cpp:59-62 *)
Definition VertexSquare_evalDeriv0 (nodePosition0 : Z) (nodePosition1 : Z) (p : point) : option R :=
  match p with
  | [x; y] =>
      Some (IZR nodePosition0 * (1 + IZR nodePosition1 * y) / 4)
  | _ => None
  end.

(** BasisFunctions2DH1ConformingSquare.cpp:64-67 *)
Definition VertexSquare_evalDeriv1 (nodePosition0 : Z) (nodePosition1 : Z) (p : point) : option R :=
  match p with
  | [x; y] =>
      Some (IZR nodePosition1 * (1 + IZR nodePosition0 * x) / 4)
  | _ => None
  end.

(** BasisFunctions2DH1ConformingSquare.cpp:81-85 *)
Definition FaceSquare_0_eval (edgePosition : Z) (mirroring : Z) (polynomialOrder : nat) (p : point) : option R :=
  match p with
  | [x; y] =>
      Some ((1 + IZR edgePosition * y) * (1 - x) * (1 + x) * LobattoPolynomial polynomialOrder (IZR mirroring
            * x) / 8)
  | _ => None
  end.

(** BasisFunctions2DH1ConformingSquare.cpp:87-96 *)
Definition FaceSquare_0_evalDeriv0 (edgePosition : Z) (mirroring : Z) (polynomialOrder : nat) (p : point) : option R :=
  match p with
  | [x; y] =>
      d0 <- LobattoPolynomialDerivative polynomialOrder (IZR mirroring * x);
      Some ((1 + IZR edgePosition * y) * (-x * LobattoPolynomial polynomialOrder (IZR mirroring * x) + (1 - x)
            * (1 + x) * d0 * IZR mirroring / 2) / 4)
  | _ => None
  end.

(** BasisFunctions2DH1ConformingSquare.cpp:98-102 *)
Definition FaceSquare_0_evalDeriv1 (edgePosition : Z) (mirroring : Z) (polynomialOrder : nat) (p : point) : option R :=
  match p with
  | [x; y] =>
      Some (IZR edgePosition * (1 - x) * (1 + x) * LobattoPolynomial polynomialOrder (IZR mirroring * x) / 8)
  | _ => None
  end.

(** BasisFunctions2DH1ConformingSquare.cpp:116-120 *)
Definition FaceSquare_1_eval (edgePosition : Z) (mirroring : Z) (polynomialOrder : nat) (p : point) : option R :=
  match p with
  | [x; y] =>
      Some ((1 + IZR edgePosition * x) * (1 - y) * (1 + y) * LobattoPolynomial polynomialOrder (IZR mirroring
            * y) / 8)
  | _ => None
  end.

(** BasisFunctions2DH1ConformingSquare.cpp:122-126 *)
Definition FaceSquare_1_evalDeriv0 (edgePosition : Z) (mirroring : Z) (polynomialOrder : nat) (p : point) : option R :=
  match p with
  | [x; y] =>
      Some (IZR edgePosition * (1 - y) * (1 + y) * LobattoPolynomial polynomialOrder (IZR mirroring * y) / 8)
  | _ => None
  end.

(** BasisFunctions2DH1ConformingSquare.cpp:128-137 *)
Definition FaceSquare_1_evalDeriv1 (edgePosition : Z) (mirroring : Z) (polynomialOrder : nat) (p : point) : option R :=
  match p with
  | [x; y] =>
      d0 <- LobattoPolynomialDerivative polynomialOrder (IZR mirroring * y);
      Some ((1 + IZR edgePosition * x) * (-y * LobattoPolynomial polynomialOrder (IZR mirroring * y) + (1 - y)
            * (1 + y) * d0 * IZR mirroring / 2) / 4)
  | _ => None
  end.

(** BasisFunctions2DH1ConformingSquare.cpp:139-144 *)
Definition InteriorSquare_eval (polynomialOrder0 : nat) (polynomialOrder1 : nat) (p : point) : option R :=
  match p with
  | [x; y] =>
      Some ((1 - x) * (1 + x) * (1 - y) * (1 + y) * LobattoPolynomial polynomialOrder0 (x) * LobattoPolynomial
            polynomialOrder1 (y) / 16)
  | _ => None
  end.

(** BasisFunctions2DH1ConformingSquare.cpp:146-153 *)
Definition InteriorSquare_evalDeriv0 (polynomialOrder0 : nat) (polynomialOrder1 : nat) (p : point) : option R :=
  match p with
  | [x; y] =>
      d0 <- LobattoPolynomialDerivative polynomialOrder0 (x);
      Some (LobattoPolynomial polynomialOrder1 (y) * (1 - y) * (1 + y) / 4 * (-x * LobattoPolynomial
            polynomialOrder0 (x) / 2 + (1 - x) * (1 + x) * d0 / 4))
  | _ => None
  end.

(** BasisFunctions2DH1ConformingSquare.cpp:155-162 *)
Definition InteriorSquare_evalDeriv1 (polynomialOrder0 : nat) (polynomialOrder1 : nat) (p : point) : option R :=
  match p with
  | [x; y] =>
      d0 <- LobattoPolynomialDerivative polynomialOrder1 (y);
      Some (LobattoPolynomial polynomialOrder0 (x) * (1 - x) * (1 + x) / 4 * (-y * LobattoPolynomial
            polynomialOrder1 (y) / 2 + (1 - y) * (1 + y) * d0 / 4))
  | _ => None
  end.

(** BasisFunctions2DH1ConformingTriangle.cpp:84-87 *)
Definition VertexTriangle_eval (node : nat) (p : point) : option R :=
  match p with
  | [x; y] =>
      l0 <- baricentric_2D node x y;
      Some (l0)
  | _ => None
  end.

(** BasisFunctions2DH1ConformingTriangle.cpp:53-56 *)
Definition VertexTriangle_evalDeriv0 (node : nat) (p : point) : option R :=
  match p with
  | [x; y] =>
      Some (baricentricDeriv node 0)
  | _ => None
  end.

(** BasisFunctions2DH1ConformingTriangle.cpp:98-101 *)
Definition VertexTriangle_evalDeriv1 (node : nat) (p : point) : option R :=
  match p with
  | [x; y] =>
      Some (baricentricDeriv node 1)
  | _ => None
  end.

(** BasisFunctions2DH1ConformingTriangle.cpp:147-152 *)
Definition FaceTriangle_eval (node0 : nat) (node1 : nat) (polynomialOrder : nat) (p : point) : option R :=
  match p with
  | [x; y] =>
      l0 <- baricentric_2D node0 x y;
      l1 <- baricentric_2D node1 x y;
      Some (l0 * l1 * LobattoPolynomial polynomialOrder (l1 - l0))
  | _ => None
  end.

(** BasisFunctions2DH1ConformingTriangle.cpp:125-145 *)
Definition FaceTriangle_evalDeriv0 (node0 : nat) (node1 : nat) (polynomialOrder : nat) (p : point) : option R :=
  match p with
  | [x; y] =>
      l0 <- baricentric_2D node1 x y;
      l1 <- baricentric_2D node0 x y;
      d0 <- LobattoPolynomialDerivative polynomialOrder (l0 - l1);
      Some (baricentricDeriv node0 0 * (l0 * LobattoPolynomial polynomialOrder (l0 - l1) - l1 * l0 * d0) +
            baricentricDeriv node1 0 * (l1 * LobattoPolynomial polynomialOrder (l0 - l1) + l0 * l1 * d0))
  | _ => None
  end.

(** BasisFunctions2DH1ConformingTriangle.cpp:103-123 *)
Definition FaceTriangle_evalDeriv1 (node0 : nat) (node1 : nat) (polynomialOrder : nat) (p : point) : option R :=
  match p with
  | [x; y] =>
      l0 <- baricentric_2D node1 x y;
      l1 <- baricentric_2D node0 x y;
      d0 <- LobattoPolynomialDerivative polynomialOrder (l0 - l1);
      Some (baricentricDeriv node0 1 * (l0 * LobattoPolynomial polynomialOrder (l0 - l1) - l1 * l0 * d0) +
            baricentricDeriv node1 1 * (l1 * LobattoPolynomial polynomialOrder (l0 - l1) + l0 * l1 * d0))
  | _ => None
  end.

(** BasisFunctions2DH1ConformingTriangle.cpp:89-96 *)
Definition InteriorTriangle_eval (polynomialOrder0 : nat) (polynomialOrder1 : nat) (p : point) : option R :=
  match p with
  | [x; y] =>
      l0 <- baricentric_2D 0 x y;
      l1 <- baricentric_2D 1 x y;
      l2 <- baricentric_2D 2 x y;
      let x0 := l0 - l1 in
      let x1 := l1 - l2 in
      Some (l0 * l1 * l2 * LobattoPolynomial polynomialOrder0 (x0) * LobattoPolynomial polynomialOrder1 (x1))
  | _ => None
  end.

(** BasisFunctions2DH1ConformingTriangle.cpp:58-82 *)
Definition InteriorTriangle_evalDeriv0 (polynomialOrder0 : nat) (polynomialOrder1 : nat) (p : point) : option R :=
  match p with
  | [x; y] =>
      l0 <- baricentric_2D 0 x y;
      l1 <- baricentric_2D 1 x y;
      l2 <- baricentric_2D 2 x y;
      let x0 := l0 - l1 in
      let x1 := l1 - l2 in
      d0 <- LobattoPolynomialDerivative polynomialOrder0 (x0);
      d1 <- LobattoPolynomialDerivative polynomialOrder1 (x1);
      Some (baricentricDeriv 0 0 * (l1 * l2 * LobattoPolynomial polynomialOrder0 (x0) * LobattoPolynomial
            polynomialOrder1 (x1) + l0 * l1 * l2 * d0 * LobattoPolynomial polynomialOrder1 (x1)) +
            baricentricDeriv 1 0 * (l0 * l2 * LobattoPolynomial polynomialOrder0 (x0) * LobattoPolynomial
            polynomialOrder1 (x1) - l0 * l1 * l2 * d0 * LobattoPolynomial polynomialOrder1 (x1) + l0 * l1 * l2
            * LobattoPolynomial polynomialOrder0 (x0) * d1))
  | _ => None
  end.

(** BasisFunctions2DH1ConformingTriangle.cpp:154-174 *)
Definition InteriorTriangle_evalDeriv1 (polynomialOrder0 : nat) (polynomialOrder1 : nat) (p : point) : option R :=
  match p with
  | [x; y] =>
      l0 <- baricentric_2D 0 x y;
      l1 <- baricentric_2D 1 x y;
      l2 <- baricentric_2D 2 x y;
      let x0 := l0 - l1 in
      let x1 := l1 - l2 in
      d0 <- LobattoPolynomialDerivative polynomialOrder0 (x0);
      d1 <- LobattoPolynomialDerivative polynomialOrder1 (x1);
      Some (baricentricDeriv 0 1 * (l1 * l2 * LobattoPolynomial polynomialOrder0 (x0) * LobattoPolynomial
            polynomialOrder1 (x1) + l0 * l1 * l2 * d0 * LobattoPolynomial polynomialOrder1 (x1)) +
            baricentricDeriv 2 1 * (l0 * l1 * LobattoPolynomial polynomialOrder0 (x0) * LobattoPolynomial
            polynomialOrder1 (x1) - l0 * l1 * l2 * LobattoPolynomial polynomialOrder0 (x0) * d1))
  | _ => None
  end.

(** BasisFunctions3DH1ConformingCube.cpp:60-64 *)
Definition VertexCube_eval (nodePosition0 : Z) (nodePosition1 : Z) (nodePosition2 : Z) (p : point) : option R :=
  match p with
  | [x; y; z] =>
      Some ((1 + IZR nodePosition0 * x) * (1 + IZR nodePosition1 * y) * (1 + IZR nodePosition2 * z) / 8)
  | _ => None
  end.

(** BasisFunctions3DH1ConformingCube.cpp:66-70 *)
Definition VertexCube_evalDeriv0 (nodePosition0 : Z) (nodePosition1 : Z) (nodePosition2 : Z) (p : point) : option R :=
  match p with
  | [x; y; z] =>
      Some (IZR nodePosition0 * (1 + IZR nodePosition1 * y) * (1 + IZR nodePosition2 * z) / 8)
  | _ => None
  end.

(** BasisFunctions3DH1ConformingCube.cpp:72-76 *)
Definition VertexCube_evalDeriv1 (nodePosition0 : Z) (nodePosition1 : Z) (nodePosition2 : Z) (p : point) : option R :=
  match p with
  | [x; y; z] =>
      Some (IZR nodePosition1 * (1 + IZR nodePosition0 * x) * (1 + IZR nodePosition2 * z) / 8)
  | _ => None
  end.

(** BasisFunctions3DH1ConformingCube.cpp:78-82 *)
Definition VertexCube_evalDeriv2 (nodePosition0 : Z) (nodePosition1 : Z) (nodePosition2 : Z) (p : point) : option R :=
  match p with
  | [x; y; z] =>
      Some (IZR nodePosition2 * (1 + IZR nodePosition0 * x) * (1 + IZR nodePosition1 * y) / 8)
  | _ => None
  end.

(** BasisFunctions3DH1ConformingCube.cpp:100-105 *)
Definition EdgeCube_0_eval (edgePosition1 : Z) (edgePosition2 : Z) (mirroring : Z) (polynomialOrder : nat) (p : point) : option R :=
  match p with
  | [x; y; z] =>
      Some ((1 - x) * (1 + x) * (1 + IZR edgePosition1 * y) * (1 + IZR edgePosition2 * z) * LobattoPolynomial
            polynomialOrder (IZR mirroring * x) / 16)
  | _ => None
  end.

(** BasisFunctions3DH1ConformingCube.cpp:107-116 *)
Definition EdgeCube_0_evalDeriv0 (edgePosition1 : Z) (edgePosition2 : Z) (mirroring : Z) (polynomialOrder : nat) (p : point) : option R :=
  match p with
  | [x; y; z] =>
      d0 <- LobattoPolynomialDerivative polynomialOrder (IZR mirroring * x);
      Some (-x * (1 + IZR edgePosition1 * y) * (1 + IZR edgePosition2 * z) * LobattoPolynomial polynomialOrder
            (IZR mirroring * x) / 8 + IZR mirroring * (1 - x) * (1 + x) * (1 + IZR edgePosition1 * y) * (1 +
            IZR edgePosition2 * z) * d0 / 16)
  | _ => None
  end.

(** BasisFunctions3DH1ConformingCube.cpp:118-123 *)
Definition EdgeCube_0_evalDeriv1 (edgePosition1 : Z) (edgePosition2 : Z) (mirroring : Z) (polynomialOrder : nat) (p : point) : option R :=
  match p with
  | [x; y; z] =>
      Some ((1 - x) * (1 + x) * IZR edgePosition1 * (1 + IZR edgePosition2 * z) * LobattoPolynomial
            polynomialOrder (IZR mirroring * x) / 16)
  | _ => None
  end.

(** BasisFunctions3DH1ConformingCube.cpp:125-130 *)
Definition EdgeCube_0_evalDeriv2 (edgePosition1 : Z) (edgePosition2 : Z) (mirroring : Z) (polynomialOrder : nat) (p : point) : option R :=
  match p with
  | [x; y; z] =>
      Some ((1 - x) * (1 + x) * IZR edgePosition2 * (1 + IZR edgePosition1 * y) * LobattoPolynomial
            polynomialOrder (IZR mirroring * x) / 16)
  | _ => None
  end.

(** BasisFunctions3DH1ConformingCube.cpp:148-153 *)
Definition EdgeCube_1_eval (edgePosition0 : Z) (edgePosition2 : Z) (mirroring : Z) (polynomialOrder : nat) (p : point) : option R :=
  match p with
  | [x; y; z] =>
      Some ((1 - y) * (1 + y) * (1 + IZR edgePosition0 * x) * (1 + IZR edgePosition2 * z) * LobattoPolynomial
            polynomialOrder (IZR mirroring * y) / 16)
  | _ => None
  end.

(** BasisFunctions3DH1ConformingCube.cpp:155-160 *)
Definition EdgeCube_1_evalDeriv0 (edgePosition0 : Z) (edgePosition2 : Z) (mirroring : Z) (polynomialOrder : nat) (p : point) : option R :=
  match p with
  | [x; y; z] =>
      Some ((1 - y) * (1 + y) * IZR edgePosition0 * (1 + IZR edgePosition2 * z) * LobattoPolynomial
            polynomialOrder (IZR mirroring * y) / 16)
  | _ => None
  end.

(** BasisFunctions3DH1ConformingCube.cpp:162-171 *)
Definition EdgeCube_1_evalDeriv1 (edgePosition0 : Z) (edgePosition2 : Z) (mirroring : Z) (polynomialOrder : nat) (p : point) : option R :=
  match p with
  | [x; y; z] =>
      d0 <- LobattoPolynomialDerivative polynomialOrder (IZR mirroring * y);
      Some (-y * (1 + IZR edgePosition0 * x) * (1 + IZR edgePosition2 * z) * LobattoPolynomial polynomialOrder
            (IZR mirroring * y) / 8 + IZR mirroring * (1 - y) * (1 + y) * (1 + IZR edgePosition0 * x) * (1 +
            IZR edgePosition2 * z) * d0 / 16)
  | _ => None
  end.

(** BasisFunctions3DH1ConformingCube.cpp:173-178 *)
Definition EdgeCube_1_evalDeriv2 (edgePosition0 : Z) (edgePosition2 : Z) (mirroring : Z) (polynomialOrder : nat) (p : point) : option R :=
  match p with
  | [x; y; z] =>
      Some ((1 - y) * (1 + y) * IZR edgePosition2 * (1 + IZR edgePosition0 * x) * LobattoPolynomial
            polynomialOrder (IZR mirroring * y) / 16)
  | _ => None
  end.

(** BasisFunctions3DH1ConformingCube.cpp:203-208 *)
Definition EdgeCube_2_eval (edgePosition0 : Z) (edgePosition1 : Z) (mirroring : Z) (polynomialOrder : nat) (p : point) : option R :=
  match p with
  | [x; y; z] =>
      Some ((1 - z) * (1 + z) * (1 + IZR edgePosition0 * x) * (1 + IZR edgePosition1 * y) * LobattoPolynomial
            polynomialOrder (IZR mirroring * z) / 16)
  | _ => None
  end.

(** BasisFunctions3DH1ConformingCube.cpp:196-201 *)
Definition EdgeCube_2_evalDeriv0 (edgePosition0 : Z) (edgePosition1 : Z) (mirroring : Z) (polynomialOrder : nat) (p : point) : option R :=
  match p with
  | [x; y; z] =>
      Some ((1 - z) * (1 + z) * IZR edgePosition0 * (1 + IZR edgePosition1 * y) * LobattoPolynomial
            polynomialOrder (IZR mirroring * z) / 16)
  | _ => None
  end.

(** BasisFunctions3DH1ConformingCube.cpp:210-215 *)
Definition EdgeCube_2_evalDeriv1 (edgePosition0 : Z) (edgePosition1 : Z) (mirroring : Z) (polynomialOrder : nat) (p : point) : option R :=
  match p with
  | [x; y; z] =>
      Some ((1 - z) * (1 + z) * IZR edgePosition1 * (1 + IZR edgePosition0 * x) * LobattoPolynomial
            polynomialOrder (IZR mirroring * z) / 16)
  | _ => None
  end.

(** BasisFunctions3DH1ConformingCube.cpp:217-226 *)
Definition EdgeCube_2_evalDeriv2 (edgePosition0 : Z) (edgePosition1 : Z) (mirroring : Z) (polynomialOrder : nat) (p : point) : option R :=
  match p with
  | [x; y; z] =>
      d0 <- LobattoPolynomialDerivative polynomialOrder (IZR mirroring * z);
      Some (-z * (1 + IZR edgePosition0 * x) * (1 + IZR edgePosition1 * y) * LobattoPolynomial polynomialOrder
            (IZR mirroring * z) / 8 + IZR mirroring * (1 - z) * (1 + z) * (1 + IZR edgePosition0 * x) * (1 +
            IZR edgePosition1 * y) * d0 / 16)
  | _ => None
  end.

(** BasisFunctions3DH1ConformingCube.cpp:247-253 *)
Definition FaceCube_0_eval (facePosition : Z) (mirroring1 : Z) (mirroring2 : Z) (polynomialOrder1 : nat) (polynomialOrder2 : nat) (p : point) : option R :=
  match p with
  | [x; y; z] =>
      Some ((1 + IZR facePosition * x) * (1 - y) * (1 + y) * (1 - z) * (1 + z) * LobattoPolynomial
            polynomialOrder1 (IZR mirroring1 * y) * LobattoPolynomial polynomialOrder2 (IZR mirroring2 * z) /
            32)
  | _ => None
  end.

(** BasisFunctions3DH1ConformingCube.cpp:1069-1074 *)
Definition FaceCube_0_evalDeriv0 (facePosition : Z) (mirroring1 : Z) (mirroring2 : Z) (polynomialOrder1 : nat) (polynomialOrder2 : nat) (p : point) : option R :=
  match p with
  | [x; y; z] =>
      Some (IZR facePosition * (1 - y) * (1 + y) * (1 - z) * (1 + z) * LobattoPolynomial polynomialOrder1 (IZR
            mirroring1 * y) * LobattoPolynomial polynomialOrder2 (IZR mirroring2 * z) / 32)
  | _ => None
  end.

(** BasisFunctions3DH1ConformingCube.cpp:255-265 *)
Definition FaceCube_0_evalDeriv1 (facePosition : Z) (mirroring1 : Z) (mirroring2 : Z) (polynomialOrder1 : nat) (polynomialOrder2 : nat) (p : point) : option R :=
  match p with
  | [x; y; z] =>
      d0 <- LobattoPolynomialDerivative polynomialOrder1 (IZR mirroring1 * y);
      Some (-y * (1 + IZR facePosition * x) * (1 - z) * (1 + z) * LobattoPolynomial polynomialOrder1 (IZR
            mirroring1 * y) * LobattoPolynomial polynomialOrder2 (IZR mirroring2 * z) / 16 + IZR mirroring1 *
            (1 + IZR facePosition * x) * (1 - y) * (1 + y) * (1 - z) * (1 + z) * d0 * LobattoPolynomial
            polynomialOrder2 (IZR mirroring2 * z) / 32)
  | _ => None
  end.

(** BasisFunctions3DH1ConformingCube.cpp:267-278 *)
Definition FaceCube_0_evalDeriv2 (facePosition : Z) (mirroring1 : Z) (mirroring2 : Z) (polynomialOrder1 : nat) (polynomialOrder2 : nat) (p : point) : option R :=
  match p with
  | [x; y; z] =>
      d0 <- LobattoPolynomialDerivative polynomialOrder2 (IZR mirroring2 * z);
      Some (-z * (1 + IZR facePosition * x) * (1 - y) * (1 + y) * LobattoPolynomial polynomialOrder1 (IZR
            mirroring1 * y) * LobattoPolynomial polynomialOrder2 (IZR mirroring2 * z) / 16 + IZR mirroring2 *
            (1 + IZR facePosition * x) * (1 - y) * (1 + y) * (1 - z) * (1 + z) * LobattoPolynomial
            polynomialOrder1 (IZR mirroring1 * y) * d0 / 32)
  | _ => None
  end.

(** BasisFunctions3DH1ConformingCube.cpp:298-304 *)
Definition FaceCube_1_eval (facePosition : Z) (mirroring0 : Z) (mirroring2 : Z) (polynomialOrder0 : nat) (polynomialOrder2 : nat) (p : point) : option R :=
  match p with
  | [x; y; z] =>
      Some ((1 + IZR facePosition * y) * (1 - x) * (1 + x) * (1 - z) * (1 + z) * LobattoPolynomial
            polynomialOrder0 (IZR mirroring0 * x) * LobattoPolynomial polynomialOrder2 (IZR mirroring2 * z) /
            32)
  | _ => None
  end.

(** BasisFunctions3DH1ConformingCube.cpp:306-316 *)
Definition FaceCube_1_evalDeriv0 (facePosition : Z) (mirroring0 : Z) (mirroring2 : Z) (polynomialOrder0 : nat) (polynomialOrder2 : nat) (p : point) : option R :=
  match p with
  | [x; y; z] =>
      d0 <- LobattoPolynomialDerivative polynomialOrder0 (IZR mirroring0 * x);
      Some (-x * (1 + IZR facePosition * y) * (1 - z) * (1 + z) * LobattoPolynomial polynomialOrder0 (IZR
            mirroring0 * x) * LobattoPolynomial polynomialOrder2 (IZR mirroring2 * z) / 16 + IZR mirroring0 *
            (1 + IZR facePosition * y) * (1 - x) * (1 + x) * (1 - z) * (1 + z) * d0 * LobattoPolynomial
            polynomialOrder2 (IZR mirroring2 * z) / 32)
  | _ => None
  end.

(** BasisFunctions3DH1ConformingCube.cpp:318-323 *)
Definition FaceCube_1_evalDeriv1 (facePosition : Z) (mirroring0 : Z) (mirroring2 : Z) (polynomialOrder0 : nat) (polynomialOrder2 : nat) (p : point) : option R :=
  match p with
  | [x; y; z] =>
      Some (IZR facePosition * (1 - x) * (1 + x) * (1 - z) * (1 + z) * LobattoPolynomial polynomialOrder0 (IZR
            mirroring0 * x) * LobattoPolynomial polynomialOrder2 (IZR mirroring2 * z) / 32)
  | _ => None
  end.

(** BasisFunctions3DH1ConformingCube.cpp:325-336 *)
Definition FaceCube_1_evalDeriv2 (facePosition : Z) (mirroring0 : Z) (mirroring2 : Z) (polynomialOrder0 : nat) (polynomialOrder2 : nat) (p : point) : option R :=
  match p with
  | [x; y; z] =>
      d0 <- LobattoPolynomialDerivative polynomialOrder2 (IZR mirroring2 * z);
      Some (-z * (1 + IZR facePosition * y) * (1 - x) * (1 + x) * LobattoPolynomial polynomialOrder0 (IZR
            mirroring0 * x) * LobattoPolynomial polynomialOrder2 (IZR mirroring2 * z) / 16 + IZR mirroring2 *
            (1 + IZR facePosition * y) * (1 - x) * (1 + x) * (1 - z) * (1 + z) * LobattoPolynomial
            polynomialOrder0 (IZR mirroring0 * x) * d0 / 32)
  | _ => None
  end.

(** BasisFunctions3DH1ConformingCube.cpp:356-362 *)
Definition FaceCube_2_eval (facePosition : Z) (mirroring0 : Z) (mirroring1 : Z) (polynomialOrder0 : nat) (polynomialOrder1 : nat) (p : point) : option R :=
  match p with
  | [x; y; z] =>
      Some ((1 + IZR facePosition * z) * (1 - x) * (1 + x) * (1 - y) * (1 + y) * LobattoPolynomial
            polynomialOrder0 (IZR mirroring0 * x) * LobattoPolynomial polynomialOrder1 (IZR mirroring1 * y) /
            32)
  | _ => None
  end.

(** BasisFunctions3DH1ConformingCube.cpp:364-375 *)
Definition FaceCube_2_evalDeriv0 (facePosition : Z) (mirroring0 : Z) (mirroring1 : Z) (polynomialOrder0 : nat) (polynomialOrder1 : nat) (p : point) : option R :=
  match p with
  | [x; y; z] =>
      d0 <- LobattoPolynomialDerivative polynomialOrder0 (IZR mirroring0 * x);
      Some (-x * (1 + IZR facePosition * z) * (1 - y) * (1 + y) * LobattoPolynomial polynomialOrder1 (IZR
            mirroring1 * y) * LobattoPolynomial polynomialOrder0 (IZR mirroring0 * x) / 16 + IZR mirroring0 *
            (1 + IZR facePosition * z) * (1 - x) * (1 + x) * (1 - y) * (1 + y) * LobattoPolynomial
            polynomialOrder1 (IZR mirroring1 * y) * d0 / 32)
  | _ => None
  end.

(** BasisFunctions3DH1ConformingCube.cpp:377-387 *)
Definition FaceCube_2_evalDeriv1 (facePosition : Z) (mirroring0 : Z) (mirroring1 : Z) (polynomialOrder0 : nat) (polynomialOrder1 : nat) (p : point) : option R :=
  match p with
  | [x; y; z] =>
      d0 <- LobattoPolynomialDerivative polynomialOrder1 (IZR mirroring1 * y);
      Some (-y * (1 + IZR facePosition * z) * (1 - x) * (1 + x) * LobattoPolynomial polynomialOrder1 (IZR
            mirroring1 * y) * LobattoPolynomial polynomialOrder0 (IZR mirroring0 * x) / 16 + IZR mirroring1 *
            (1 + IZR facePosition * z) * (1 - x) * (1 + x) * (1 - y) * (1 + y) * d0 * LobattoPolynomial
            polynomialOrder0 (IZR mirroring0 * x) / 32)
  | _ => None
  end.

(** BasisFunctions3DH1ConformingCube.cpp:389-394 *)
Definition FaceCube_2_evalDeriv2 (facePosition : Z) (mirroring0 : Z) (mirroring1 : Z) (polynomialOrder0 : nat) (polynomialOrder1 : nat) (p : point) : option R :=
  match p with
  | [x; y; z] =>
      Some (IZR facePosition * (1 - x) * (1 + x) * (1 - y) * (1 + y) * LobattoPolynomial polynomialOrder1 (IZR
            mirroring1 * y) * LobattoPolynomial polynomialOrder0 (IZR mirroring0 * x) / 32)
  | _ => None
  end.

(** BasisFunctions3DH1ConformingCube.cpp:396-402 *)
Definition InteriorCube_eval (polynomialOrder0 : nat) (polynomialOrder1 : nat) (polynomialOrder2 : nat) (p : point) : option R :=
  match p with
  | [x; y; z] =>
      Some ((1 - x) * (1 + x) * (1 - y) * (1 + y) * (1 - z) * (1 + z) * LobattoPolynomial polynomialOrder0 (x)
            * LobattoPolynomial polynomialOrder1 (y) * LobattoPolynomial polynomialOrder2 (z) / 64)
  | _ => None
  end.

(** BasisFunctions3DH1ConformingCube.cpp:404-412 *)
Definition InteriorCube_evalDeriv0 (polynomialOrder0 : nat) (polynomialOrder1 : nat) (polynomialOrder2 : nat) (p : point) : option R :=
  match p with
  | [x; y; z] =>
      d0 <- LobattoPolynomialDerivative polynomialOrder0 (x);
      Some ((1 - y) * (1 + y) * (1 - z) * (1 + z) * LobattoPolynomial polynomialOrder1 (y) * LobattoPolynomial
            polynomialOrder2 (z) * (-x * LobattoPolynomial polynomialOrder0 (x) / 32 + (1 - x) * (1 + x) * d0
            / 64))
  | _ => None
  end.

(** BasisFunctions3DH1ConformingCube.cpp:414-422 *)
Definition InteriorCube_evalDeriv1 (polynomialOrder0 : nat) (polynomialOrder1 : nat) (polynomialOrder2 : nat) (p : point) : option R :=
  match p with
  | [x; y; z] =>
      d0 <- LobattoPolynomialDerivative polynomialOrder1 (y);
      Some ((1 - x) * (1 + x) * (1 - z) * (1 + z) * LobattoPolynomial polynomialOrder0 (x) * LobattoPolynomial
            polynomialOrder2 (z) * (-y * LobattoPolynomial polynomialOrder1 (y) / 32 + (1 - y) * (1 + y) * d0
            / 64))
  | _ => None
  end.

(** BasisFunctions3DH1ConformingCube.cpp:424-432 *)
Definition InteriorCube_evalDeriv2 (polynomialOrder0 : nat) (polynomialOrder1 : nat) (polynomialOrder2 : nat) (p : point) : option R :=
  match p with
  | [x; y; z] =>
      d0 <- LobattoPolynomialDerivative polynomialOrder2 (z);
      Some ((1 - x) * (1 + x) * (1 - y) * (1 + y) * LobattoPolynomial polynomialOrder0 (x) * LobattoPolynomial
            polynomialOrder1 (y) * (-z * LobattoPolynomial polynomialOrder2 (z) / 32 + (1 - z) * (1 + z) * d0
            / 64))
  | _ => None
  end.

(** BasisFunctions3DH1ConformingTetrahedron.cpp:53-56 *)
Definition VertexTetrahedron_eval (node : nat) (p : point) : option R :=
  match p with
  | [x; y; z] =>
      l0 <- baricentric_3D node x y z;
      Some (l0)
  | _ => None
  end.

(** BasisFunctions3DH1ConformingTetrahedron.cpp:58-61 *)
Definition VertexTetrahedron_evalDeriv0 (node : nat) (p : point) : option R :=
  match p with
  | [x; y; z] =>
      Some (baricentricDeriv node 0)
  | _ => None
  end.

(** BasisFunctions3DH1ConformingTetrahedron.cpp:63-66 *)
Definition VertexTetrahedron_evalDeriv1 (node : nat) (p : point) : option R :=
  match p with
  | [x; y; z] =>
      Some (baricentricDeriv node 1)
  | _ => None
  end.

(** BasisFunctions3DH1ConformingTetrahedron.cpp:68-71 *)
Definition VertexTetrahedron_evalDeriv2 (node : nat) (p : point) : option R :=
  match p with
  | [x; y; z] =>
      Some (baricentricDeriv node 2)
  | _ => None
  end.

(** BasisFunctions3DH1ConformingTetrahedron.cpp:73-78 *)
Definition EdgeTetrahedron_eval (node0 : nat) (node1 : nat) (polynomialOrder : nat) (p : point) : option R :=
  match p with
  | [x; y; z] =>
      l0 <- baricentric_3D node0 x y z;
      l1 <- baricentric_3D node1 x y z;
      Some (l0 * l1 * LobattoPolynomial polynomialOrder (l0 - l1))
  | _ => None
  end.

(** BasisFunctions3DH1ConformingTetrahedron.cpp:80-100 *)
Definition EdgeTetrahedron_evalDeriv0 (node0 : nat) (node1 : nat) (polynomialOrder : nat) (p : point) : option R :=
  match p with
  | [x; y; z] =>
      l0 <- baricentric_3D node1 x y z;
      l1 <- baricentric_3D node0 x y z;
      d0 <- LobattoPolynomialDerivative polynomialOrder (l1 - l0);
      Some (baricentricDeriv node0 0 * (l0 * LobattoPolynomial polynomialOrder (l1 - l0) + l1 * l0 * d0) +
            baricentricDeriv node1 0 * (l1 * LobattoPolynomial polynomialOrder (l1 - l0) - l1 * l0 * d0))
  | _ => None
  end.

(** BasisFunctions3DH1ConformingTetrahedron.cpp:102-122 *)
Definition EdgeTetrahedron_evalDeriv1 (node0 : nat) (node1 : nat) (polynomialOrder : nat) (p : point) : option R :=
  match p with
  | [x; y; z] =>
      l0 <- baricentric_3D node1 x y z;
      l1 <- baricentric_3D node0 x y z;
      d0 <- LobattoPolynomialDerivative polynomialOrder (l1 - l0);
      Some (baricentricDeriv node0 1 * (l0 * LobattoPolynomial polynomialOrder (l1 - l0) + l1 * l0 * d0) +
            baricentricDeriv node1 1 * (l1 * LobattoPolynomial polynomialOrder (l1 - l0) - l1 * l0 * d0))
  | _ => None
  end.

(** BasisFunctions3DH1ConformingTetrahedron.cpp:124-144 *)
Definition EdgeTetrahedron_evalDeriv2 (node0 : nat) (node1 : nat) (polynomialOrder : nat) (p : point) : option R :=
  match p with
  | [x; y; z] =>
      l0 <- baricentric_3D node1 x y z;
      l1 <- baricentric_3D node0 x y z;
      d0 <- LobattoPolynomialDerivative polynomialOrder (l1 - l0);
      Some (baricentricDeriv node0 2 * (l0 * LobattoPolynomial polynomialOrder (l1 - l0) + l1 * l0 * d0) +
            baricentricDeriv node1 2 * (l1 * LobattoPolynomial polynomialOrder (l1 - l0) - l1 * l0 * d0))
  | _ => None
  end.

(** BasisFunctions3DH1ConformingTetrahedron.cpp:146-154 *)
Definition FaceTetrahedron_eval (node0 : nat) (node1 : nat) (node2 : nat) (polynomialOrder0 : nat) (polynomialOrder1 : nat) (p : point) : option R :=
  match p with
  | [x; y; z] =>
      l0 <- baricentric_3D node0 x y z;
      l1 <- baricentric_3D node1 x y z;
      l2 <- baricentric_3D node2 x y z;
      let x0 := l0 - l1 in
      let x1 := l1 - l2 in
      Some (l0 * l1 * l2 * LobattoPolynomial polynomialOrder0 (x0) * LobattoPolynomial polynomialOrder1 (x1))
  | _ => None
  end.

(** BasisFunctions3DH1ConformingTetrahedron.cpp:156-188 *)
Definition FaceTetrahedron_evalDeriv0 (node0 : nat) (node1 : nat) (node2 : nat) (polynomialOrder0 : nat) (polynomialOrder1 : nat) (p : point) : option R :=
  match p with
  | [x; y; z] =>
      l0 <- baricentric_3D node0 x y z;
      l1 <- baricentric_3D node1 x y z;
      l2 <- baricentric_3D node2 x y z;
      let x0 := l0 - l1 in
      let x1 := l1 - l2 in
      d0 <- LobattoPolynomialDerivative polynomialOrder0 (x0);
      d1 <- LobattoPolynomialDerivative polynomialOrder1 (x1);
      Some (baricentricDeriv node0 0 * (l1 * l2 * LobattoPolynomial polynomialOrder0 (x0) * LobattoPolynomial
            polynomialOrder1 (x1) + l0 * l1 * l2 * d0 * LobattoPolynomial polynomialOrder1 (x1)) +
            baricentricDeriv node1 0 * (l0 * l2 * LobattoPolynomial polynomialOrder0 (x0) * LobattoPolynomial
            polynomialOrder1 (x1) - l0 * l1 * l2 * d0 * LobattoPolynomial polynomialOrder1 (x1) + l0 * l1 * l2
            * LobattoPolynomial polynomialOrder0 (x0) * d1) + baricentricDeriv node2 0 * (l0 * l1 *
            LobattoPolynomial polynomialOrder0 (x0) * LobattoPolynomial polynomialOrder1 (x1) - l0 * l1 * l2 *
            LobattoPolynomial polynomialOrder0 (x0) * d1))
  | _ => None
  end.

(** BasisFunctions3DH1ConformingTetrahedron.cpp:190-222 *)
Definition FaceTetrahedron_evalDeriv1 (node0 : nat) (node1 : nat) (node2 : nat) (polynomialOrder0 : nat) (polynomialOrder1 : nat) (p : point) : option R :=
  match p with
  | [x; y; z] =>
      l0 <- baricentric_3D node0 x y z;
      l1 <- baricentric_3D node1 x y z;
      l2 <- baricentric_3D node2 x y z;
      let x0 := l0 - l1 in
      let x1 := l1 - l2 in
      d0 <- LobattoPolynomialDerivative polynomialOrder0 (x0);
      d1 <- LobattoPolynomialDerivative polynomialOrder1 (x1);
      Some (baricentricDeriv node0 1 * (l1 * l2 * LobattoPolynomial polynomialOrder0 (x0) * LobattoPolynomial
            polynomialOrder1 (x1) + l0 * l1 * l2 * d0 * LobattoPolynomial polynomialOrder1 (x1)) +
            baricentricDeriv node1 1 * (l0 * l2 * LobattoPolynomial polynomialOrder0 (x0) * LobattoPolynomial
            polynomialOrder1 (x1) - l0 * l1 * l2 * d0 * LobattoPolynomial polynomialOrder1 (x1) + l0 * l1 * l2
            * LobattoPolynomial polynomialOrder0 (x0) * d1) + baricentricDeriv node2 1 * (l0 * l1 *
            LobattoPolynomial polynomialOrder0 (x0) * LobattoPolynomial polynomialOrder1 (x1) - l0 * l1 * l2 *
            LobattoPolynomial polynomialOrder0 (x0) * d1))
  | _ => None
  end.

(** BasisFunctions3DH1ConformingTetrahedron.cpp:224-256 *)
Definition FaceTetrahedron_evalDeriv2 (node0 : nat) (node1 : nat) (node2 : nat) (polynomialOrder0 : nat) (polynomialOrder1 : nat) (p : point) : option R :=
  match p with
  | [x; y; z] =>
      l0 <- baricentric_3D node0 x y z;
      l1 <- baricentric_3D node1 x y z;
      l2 <- baricentric_3D node2 x y z;
      let x0 := l0 - l1 in
      let x1 := l1 - l2 in
      d0 <- LobattoPolynomialDerivative polynomialOrder0 (x0);
      d1 <- LobattoPolynomialDerivative polynomialOrder1 (x1);
      Some (baricentricDeriv node0 2 * (l1 * l2 * LobattoPolynomial polynomialOrder0 (x0) * LobattoPolynomial
            polynomialOrder1 (x1) + l0 * l1 * l2 * d0 * LobattoPolynomial polynomialOrder1 (x1)) +
            baricentricDeriv node1 2 * (l0 * l2 * LobattoPolynomial polynomialOrder0 (x0) * LobattoPolynomial
            polynomialOrder1 (x1) - l0 * l1 * l2 * d0 * LobattoPolynomial polynomialOrder1 (x1) + l0 * l1 * l2
            * LobattoPolynomial polynomialOrder0 (x0) * d1) + baricentricDeriv node2 2 * (l0 * l1 *
            LobattoPolynomial polynomialOrder0 (x0) * LobattoPolynomial polynomialOrder1 (x1) - l0 * l1 * l2 *
            LobattoPolynomial polynomialOrder0 (x0) * d1))
  | _ => None
  end.

(** BasisFunctions3DH1ConformingTetrahedron.cpp:258-267 *)
Definition InteriorTetrahedron_eval (polynomialOrder0 : nat) (polynomialOrder1 : nat) (polynomialOrder2 : nat) (p : point) : option R :=
  match p with
  | [x; y; z] =>
      l0 <- baricentric_3D 0 x y z;
      l1 <- baricentric_3D 1 x y z;
      l2 <- baricentric_3D 2 x y z;
      l3 <- baricentric_3D 3 x y z;
      let x0 := l0 - l1 in
      let x1 := l1 - l2 in
      let x2 := l2 - l3 in
      Some (l0 * l1 * l2 * l3 * LobattoPolynomial polynomialOrder0 (x0) * LobattoPolynomial polynomialOrder1
            (x1) * LobattoPolynomial polynomialOrder2 (x2))
  | _ => None
  end.

(** BasisFunctions3DH1ConformingTetrahedron.cpp:269-301 *)
Definition InteriorTetrahedron_evalDeriv0 (polynomialOrder0 : nat) (polynomialOrder1 : nat) (polynomialOrder2 : nat) (p : point) : option R :=
  match p with
  | [x; y; z] =>
      l0 <- baricentric_3D 0 x y z;
      l1 <- baricentric_3D 1 x y z;
      l2 <- baricentric_3D 2 x y z;
      l3 <- baricentric_3D 3 x y z;
      let x0 := l0 - l1 in
      let x1 := l1 - l2 in
      let x2 := l2 - l3 in
      d0 <- LobattoPolynomialDerivative polynomialOrder0 (x0);
      d1 <- LobattoPolynomialDerivative polynomialOrder1 (x1);
      Some (baricentricDeriv 0 0 * (l1 * l2 * l3 * LobattoPolynomial polynomialOrder0 (x0) * LobattoPolynomial
            polynomialOrder1 (x1) * LobattoPolynomial polynomialOrder2 (x2) + l0 * l1 * l2 * l3 * d0 *
            LobattoPolynomial polynomialOrder1 (x1) * LobattoPolynomial polynomialOrder2 (x2)) +
            baricentricDeriv 1 0 * (l0 * l2 * l3 * LobattoPolynomial polynomialOrder0 (x0) * LobattoPolynomial
            polynomialOrder1 (x1) * LobattoPolynomial polynomialOrder2 (x2) - l0 * l1 * l2 * l3 * d0 *
            LobattoPolynomial polynomialOrder1 (x1) * LobattoPolynomial polynomialOrder2 (x2) + l0 * l1 * l2 *
            l3 * LobattoPolynomial polynomialOrder0 (x0) * d1 * LobattoPolynomial polynomialOrder2 (x2)))
  | _ => None
  end.

(** BasisFunctions3DH1ConformingTetrahedron.cpp:303-335 *)
Definition InteriorTetrahedron_evalDeriv1 (polynomialOrder0 : nat) (polynomialOrder1 : nat) (polynomialOrder2 : nat) (p : point) : option R :=
  match p with
  | [x; y; z] =>
      l0 <- baricentric_3D 0 x y z;
      l1 <- baricentric_3D 1 x y z;
      l2 <- baricentric_3D 2 x y z;
      l3 <- baricentric_3D 3 x y z;
      let x0 := l0 - l1 in
      let x1 := l1 - l2 in
      let x2 := l2 - l3 in
      d0 <- LobattoPolynomialDerivative polynomialOrder0 (x0);
      d1 <- LobattoPolynomialDerivative polynomialOrder1 (x1);
      d2 <- LobattoPolynomialDerivative polynomialOrder2 (x2);
      Some (baricentricDeriv 0 1 * (l1 * l2 * l3 * LobattoPolynomial polynomialOrder0 (x0) * LobattoPolynomial
            polynomialOrder1 (x1) * LobattoPolynomial polynomialOrder2 (x2) + l0 * l1 * l2 * l3 * d0 *
            LobattoPolynomial polynomialOrder1 (x1) * LobattoPolynomial polynomialOrder2 (x2)) +
            baricentricDeriv 2 1 * (l0 * l1 * l3 * LobattoPolynomial polynomialOrder0 (x0) * LobattoPolynomial
            polynomialOrder1 (x1) * LobattoPolynomial polynomialOrder2 (x2) - l0 * l1 * l2 * l3 *
            LobattoPolynomial polynomialOrder0 (x0) * d1 * LobattoPolynomial polynomialOrder2 (x2) + l0 * l1 *
            l2 * l3 * LobattoPolynomial polynomialOrder0 (x0) * LobattoPolynomial polynomialOrder1 (x1) * d2))
  | _ => None
  end.

(** BasisFunctions3DH1ConformingTetrahedron.cpp:337-364 *)
Definition InteriorTetrahedron_evalDeriv2 (polynomialOrder0 : nat) (polynomialOrder1 : nat) (polynomialOrder2 : nat) (p : point) : option R :=
  match p with
  | [x; y; z] =>
      l0 <- baricentric_3D 0 x y z;
      l1 <- baricentric_3D 1 x y z;
      l2 <- baricentric_3D 2 x y z;
      l3 <- baricentric_3D 3 x y z;
      let x0 := l0 - l1 in
      let x1 := l1 - l2 in
      let x2 := l2 - l3 in
      d0 <- LobattoPolynomialDerivative polynomialOrder0 (x0);
      d1 <- LobattoPolynomialDerivative polynomialOrder2 (x2);
      Some (baricentricDeriv 0 2 * (l1 * l2 * l3 * LobattoPolynomial polynomialOrder0 (x0) * LobattoPolynomial
            polynomialOrder1 (x1) * LobattoPolynomial polynomialOrder2 (x2) + l0 * l1 * l2 * l3 * d0 *
            LobattoPolynomial polynomialOrder1 (x1) * LobattoPolynomial polynomialOrder2 (x2)) +
            baricentricDeriv 3 2 * (l0 * l1 * l2 * LobattoPolynomial polynomialOrder0 (x0) * LobattoPolynomial
            polynomialOrder1 (x1) * LobattoPolynomial polynomialOrder2 (x2) - l0 * l1 * l2 * l3 *
            LobattoPolynomial polynomialOrder0 (x0) * LobattoPolynomial polynomialOrder1 (x1) * d1))
  | _ => None
  end.

(** BasisFunctions3DH1ConformingPrism.cpp:59-63 *)
Definition VertexPrism_eval (nodePosition : Z) (node : nat) (p : point) : option R :=
  match p with
  | [x; y; z] =>
      l0 <- baricentric_2D node x y;
      Some (l0 * (1 + IZR nodePosition * z) / 2)
  | _ => None
  end.

(** BasisFunctions3DH1ConformingPrism.cpp:65-68 *)
Definition VertexPrism_evalDeriv0 (nodePosition : Z) (node : nat) (p : point) : option R :=
  match p with
  | [x; y; z] =>
      Some (baricentricDeriv node 0 * (1 + IZR nodePosition * z) / 2)
  | _ => None
  end.

(** BasisFunctions3DH1ConformingPrism.cpp:70-73 *)
Definition VertexPrism_evalDeriv1 (nodePosition : Z) (node : nat) (p : point) : option R :=
  match p with
  | [x; y; z] =>
      Some (baricentricDeriv node 1 * (1 + IZR nodePosition * z) / 2)
  | _ => None
  end.

(** BasisFunctions3DH1ConformingPrism.cpp:75-78 *)
Definition VertexPrism_evalDeriv2 (nodePosition : Z) (node : nat) (p : point) : option R :=
  match p with
  | [x; y; z] =>
      l0 <- baricentric_2D node x y;
      Some (l0 * IZR nodePosition / 2)
  | _ => None
  end.

(** BasisFunctions3DH1ConformingPrism.cpp:80-88 *)
Definition EdgePrism_0_eval (edgePosition : Z) (node0 : nat) (node1 : nat) (polynomialOrder : nat) (p : point) : option R :=
  match p with
  | [x; y; z] =>
      l0 <- baricentric_2D node0 x y;
      l1 <- baricentric_2D node1 x y;
      Some ((1 + IZR edgePosition * z) * l0 * l1 * LobattoPolynomial polynomialOrder (l0 - l1) / 2)
  | _ => None
  end.

(** BasisFunctions3DH1ConformingPrism.cpp:90-113 *)
Definition EdgePrism_0_evalDeriv0 (edgePosition : Z) (node0 : nat) (node1 : nat) (polynomialOrder : nat) (p : point) : option R :=
  match p with
  | [x; y; z] =>
      l0 <- baricentric_2D node1 x y;
      l1 <- baricentric_2D node0 x y;
      d0 <- LobattoPolynomialDerivative polynomialOrder (l1 - l0);
      Some ((1 + IZR edgePosition * z) * baricentricDeriv node0 0 * (l0 * LobattoPolynomial polynomialOrder
            (l1 - l0) + l1 * l0 * d0) / 2 + (1 + IZR edgePosition * z) * baricentricDeriv node1 0 * (l1 *
            LobattoPolynomial polynomialOrder (l1 - l0) - l1 * l0 * d0) / 2)
  | _ => None
  end.

(** BasisFunctions3DH1ConformingPrism.cpp:115-138 *)
Definition EdgePrism_0_evalDeriv1 (edgePosition : Z) (node0 : nat) (node1 : nat) (polynomialOrder : nat) (p : point) : option R :=
  match p with
  | [x; y; z] =>
      l0 <- baricentric_2D node1 x y;
      l1 <- baricentric_2D node0 x y;
      d0 <- LobattoPolynomialDerivative polynomialOrder (l1 - l0);
      Some ((1 + IZR edgePosition * z) * baricentricDeriv node0 1 * (l0 * LobattoPolynomial polynomialOrder
            (l1 - l0) + l1 * l0 * d0) / 2 + (1 + IZR edgePosition * z) * baricentricDeriv node1 1 * (l1 *
            LobattoPolynomial polynomialOrder (l1 - l0) - l1 * l0 * d0) / 2)
  | _ => None
  end.

(** BasisFunctions3DH1ConformingPrism.cpp:140-149 *)
Definition EdgePrism_0_evalDeriv2 (edgePosition : Z) (node0 : nat) (node1 : nat) (polynomialOrder : nat) (p : point) : option R :=
  match p with
  | [x; y; z] =>
      l0 <- baricentric_2D node0 x y;
      l1 <- baricentric_2D node1 x y;
      Some (IZR edgePosition * l0 * l1 * LobattoPolynomial polynomialOrder (l0 - l1) / 2)
  | _ => None
  end.

(** BasisFunctions3DH1ConformingPrism.cpp:161-165 *)
Definition EdgePrism_1_eval (mirroring : Z) (node : nat) (polynomialOrder : nat) (p : point) : option R :=
  match p with
  | [x; y; z] =>
      l0 <- baricentric_2D node x y;
      Some (l0 * (1 - z) * (1 + z) * LobattoPolynomial polynomialOrder (IZR mirroring * z) / 4)
  | _ => None
  end.

(** BasisFunctions3DH1ConformingPrism.cpp:167-171 *)
Definition EdgePrism_1_evalDeriv0 (mirroring : Z) (node : nat) (polynomialOrder : nat) (p : point) : option R :=
  match p with
  | [x; y; z] =>
      Some (baricentricDeriv node 0 * (1 - z) * (1 + z) * LobattoPolynomial polynomialOrder (IZR mirroring *
            z) / 4)
  | _ => None
  end.

(** BasisFunctions3DH1ConformingPrism.cpp:173-177 *)
Definition EdgePrism_1_evalDeriv1 (mirroring : Z) (node : nat) (polynomialOrder : nat) (p : point) : option R :=
  match p with
  | [x; y; z] =>
      Some (baricentricDeriv node 1 * (1 - z) * (1 + z) * LobattoPolynomial polynomialOrder (IZR mirroring *
            z) / 4)
  | _ => None
  end.

(** BasisFunctions3DH1ConformingPrism.cpp:179-188 *)
Definition EdgePrism_1_evalDeriv2 (mirroring : Z) (node : nat) (polynomialOrder : nat) (p : point) : option R :=
  match p with
  | [x; y; z] =>
      l0 <- baricentric_2D node x y;
      d0 <- LobattoPolynomialDerivative polynomialOrder (IZR mirroring * z);
      Some (l0 * (-z * LobattoPolynomial polynomialOrder (IZR mirroring * z) / 2 + (1 - z) * (1 + z) * d0 *
            IZR mirroring / 4))
  | _ => None
  end.

(** BasisFunctions3DH1ConformingPrism.cpp:208-217 *)
Definition FacePrism_0_eval (facePosition : Z) (polynomialOrder0 : nat) (polynomialOrder1 : nat) (node0 : nat) (node1 : nat) (node2 : nat) (p : point) : option R :=
  match p with
  | [x; y; z] =>
      l0 <- baricentric_2D node0 x y;
      l1 <- baricentric_2D node1 x y;
      l2 <- baricentric_2D node2 x y;
      let x0 := l0 - l1 in
      let x1 := l1 - l2 in
      Some ((1 + IZR facePosition * z) * l0 * l1 * l2 * LobattoPolynomial polynomialOrder0 (x0) *
            LobattoPolynomial polynomialOrder1 (x1) / 2)
  | _ => None
  end.

(** BasisFunctions3DH1ConformingPrism.cpp:219-255 *)
Definition FacePrism_0_evalDeriv0 (facePosition : Z) (polynomialOrder0 : nat) (polynomialOrder1 : nat) (node0 : nat) (node1 : nat) (node2 : nat) (p : point) : option R :=
  match p with
  | [x; y; z] =>
      l0 <- baricentric_2D node0 x y;
      l1 <- baricentric_2D node1 x y;
      l2 <- baricentric_2D node2 x y;
      let x0 := l0 - l1 in
      let x1 := l1 - l2 in
      d0 <- LobattoPolynomialDerivative polynomialOrder0 (x0);
      d1 <- LobattoPolynomialDerivative polynomialOrder1 (x1);
      Some ((1 + IZR facePosition * z) * baricentricDeriv node0 0 * (l1 * l2 * LobattoPolynomial
            polynomialOrder0 (x0) * LobattoPolynomial polynomialOrder1 (x1) + l0 * l1 * l2 * d0 *
            LobattoPolynomial polynomialOrder1 (x1)) / 2 + (1 + IZR facePosition * z) * baricentricDeriv node1
            0 * (l0 * l2 * LobattoPolynomial polynomialOrder0 (x0) * LobattoPolynomial polynomialOrder1 (x1) -
            l0 * l1 * l2 * d0 * LobattoPolynomial polynomialOrder1 (x1) + l0 * l1 * l2 * LobattoPolynomial
            polynomialOrder0 (x0) * d1) / 2 + (1 + IZR facePosition * z) * baricentricDeriv node2 0 * (l0 * l1
            * LobattoPolynomial polynomialOrder0 (x0) * LobattoPolynomial polynomialOrder1 (x1) - l0 * l1 * l2
            * LobattoPolynomial polynomialOrder0 (x0) * d1) / 2)
  | _ => None
  end.

(** BasisFunctions3DH1ConformingPrism.cpp:257-293 *)
Definition FacePrism_0_evalDeriv1 (facePosition : Z) (polynomialOrder0 : nat) (polynomialOrder1 : nat) (node0 : nat) (node1 : nat) (node2 : nat) (p : point) : option R :=
  match p with
  | [x; y; z] =>
      l0 <- baricentric_2D node0 x y;
      l1 <- baricentric_2D node1 x y;
      l2 <- baricentric_2D node2 x y;
      let x0 := l0 - l1 in
      let x1 := l1 - l2 in
      d0 <- LobattoPolynomialDerivative polynomialOrder0 (x0);
      d1 <- LobattoPolynomialDerivative polynomialOrder1 (x1);
      Some ((1 + IZR facePosition * z) * baricentricDeriv node0 1 * (l1 * l2 * LobattoPolynomial
            polynomialOrder0 (x0) * LobattoPolynomial polynomialOrder1 (x1) + l0 * l1 * l2 * d0 *
            LobattoPolynomial polynomialOrder1 (x1)) / 2 + (1 + IZR facePosition * z) * baricentricDeriv node1
            1 * (l0 * l2 * LobattoPolynomial polynomialOrder0 (x0) * LobattoPolynomial polynomialOrder1 (x1) -
            l0 * l1 * l2 * d0 * LobattoPolynomial polynomialOrder1 (x1) + l0 * l1 * l2 * LobattoPolynomial
            polynomialOrder0 (x0) * d1) / 2 + (1 + IZR facePosition * z) * baricentricDeriv node2 1 * (l0 * l1
            * LobattoPolynomial polynomialOrder0 (x0) * LobattoPolynomial polynomialOrder1 (x1) - l0 * l1 * l2
            * LobattoPolynomial polynomialOrder0 (x0) * d1) / 2)
  | _ => None
  end.

(** BasisFunctions3DH1ConformingPrism.cpp:295-304 *)
Definition FacePrism_0_evalDeriv2 (facePosition : Z) (polynomialOrder0 : nat) (polynomialOrder1 : nat) (node0 : nat) (node1 : nat) (node2 : nat) (p : point) : option R :=
  match p with
  | [x; y; z] =>
      l0 <- baricentric_2D node0 x y;
      l1 <- baricentric_2D node1 x y;
      l2 <- baricentric_2D node2 x y;
      let x0 := l0 - l1 in
      let x1 := l1 - l2 in
      Some (IZR facePosition * l0 * l1 * l2 * LobattoPolynomial polynomialOrder0 (x0) * LobattoPolynomial
            polynomialOrder1 (x1) / 2)
  | _ => None
  end.

(** BasisFunctions3DH1ConformingPrism.cpp:326-335 *)
Definition FacePrism_1_eval (mirroring : Z) (node0 : nat) (node1 : nat) (polynomialOrder0 : nat) (polynomialOrder1 : nat) (p : point) : option R :=
  match p with
  | [x; y; z] =>
      l0 <- baricentric_2D node0 x y;
      l1 <- baricentric_2D node1 x y;
      Some ((1 + z) * (1 - z) * l0 * l1 * LobattoPolynomial polynomialOrder0 (l0 - l1) * LobattoPolynomial
            polynomialOrder1 (IZR mirroring * z) / 4)
  | _ => None
  end.

(** BasisFunctions3DH1ConformingPrism.cpp:337-364 *)
Definition FacePrism_1_evalDeriv0 (mirroring : Z) (node0 : nat) (node1 : nat) (polynomialOrder0 : nat) (polynomialOrder1 : nat) (p : point) : option R :=
  match p with
  | [x; y; z] =>
      l0 <- baricentric_2D node1 x y;
      l1 <- baricentric_2D node0 x y;
      d0 <- LobattoPolynomialDerivative polynomialOrder0 (l1 - l0);
      Some ((1 + z) * (1 - z) * LobattoPolynomial polynomialOrder1 (IZR mirroring * z) * baricentricDeriv
            node0 0 * (l0 * LobattoPolynomial polynomialOrder0 (l1 - l0) + l1 * l0 * d0) / 4 + (1 + z) * (1 -
            z) * LobattoPolynomial polynomialOrder1 (IZR mirroring * z) * baricentricDeriv node1 0 * (l1 *
            LobattoPolynomial polynomialOrder0 (l1 - l0) - l1 * l0 * d0) / 4)
  | _ => None
  end.

(** BasisFunctions3DH1ConformingPrism.cpp:366-393 *)
Definition FacePrism_1_evalDeriv1 (mirroring : Z) (node0 : nat) (node1 : nat) (polynomialOrder0 : nat) (polynomialOrder1 : nat) (p : point) : option R :=
  match p with
  | [x; y; z] =>
      l0 <- baricentric_2D node1 x y;
      l1 <- baricentric_2D node0 x y;
      d0 <- LobattoPolynomialDerivative polynomialOrder0 (l1 - l0);
      Some ((1 + z) * (1 - z) * LobattoPolynomial polynomialOrder1 (IZR mirroring * z) * baricentricDeriv
            node0 1 * (l0 * LobattoPolynomial polynomialOrder0 (l1 - l0) + l1 * l0 * d0) / 4 + (1 + z) * (1 -
            z) * LobattoPolynomial polynomialOrder1 (IZR mirroring * z) * baricentricDeriv node1 1 * (l1 *
            LobattoPolynomial polynomialOrder0 (l1 - l0) - l1 * l0 * d0) / 4)
  | _ => None
  end.

(** BasisFunctions3DH1ConformingPrism.cpp:395-408 *)
Definition FacePrism_1_evalDeriv2 (mirroring : Z) (node0 : nat) (node1 : nat) (polynomialOrder0 : nat) (polynomialOrder1 : nat) (p : point) : option R :=
  match p with
  | [x; y; z] =>
      l0 <- baricentric_2D node0 x y;
      l1 <- baricentric_2D node1 x y;
      d0 <- LobattoPolynomialDerivative polynomialOrder1 (IZR mirroring * z);
      Some (l0 * l1 * LobattoPolynomial polynomialOrder0 (l0 - l1) * (-z * LobattoPolynomial polynomialOrder1
            (IZR mirroring * z) / 2 + (1 + z) * (1 - z) * d0 * IZR mirroring / 4))
  | _ => None
  end.

(** BasisFunctions3DH1ConformingPrism.cpp:410-420 *)
Definition InteriorPrism_eval (polnomialOrder0 : nat) (polynomialOrder1 : nat) (polynomialOrder2 : nat) (p : point) : option R :=
  match p with
  | [x; y; z] =>
      l0 <- baricentric_2D 0 x y;
      l1 <- baricentric_2D 1 x y;
      l2 <- baricentric_2D 2 x y;
      let x0 := l0 - l1 in
      let x1 := l1 - l2 in
      Some (l0 * l1 * l2 * (1 - z) * (1 + z) * LobattoPolynomial polnomialOrder0 (x0) * LobattoPolynomial
            polynomialOrder1 (x1) * LobattoPolynomial polynomialOrder2 (z) / 4)
  | _ => None
  end.

(** BasisFunctions3DH1ConformingPrism.cpp:422-449 *)
Definition InteriorPrism_evalDeriv0 (polnomialOrder0 : nat) (polynomialOrder1 : nat) (polynomialOrder2 : nat) (p : point) : option R :=
  match p with
  | [x; y; z] =>
      l0 <- baricentric_2D 0 x y;
      l1 <- baricentric_2D 1 x y;
      l2 <- baricentric_2D 2 x y;
      let x0 := l0 - l1 in
      let x1 := l1 - l2 in
      d0 <- LobattoPolynomialDerivative polnomialOrder0 (x0);
      d1 <- LobattoPolynomialDerivative polynomialOrder1 (x1);
      Some ((1 - z) * (1 + z) * LobattoPolynomial polynomialOrder2 (z) / 4 * (baricentricDeriv 0 0 * (l1 * l2
            * LobattoPolynomial polnomialOrder0 (x0) * LobattoPolynomial polynomialOrder1 (x1) + l0 * l1 * l2
            * d0 * LobattoPolynomial polynomialOrder1 (x1)) + baricentricDeriv 1 0 * (l0 * l2 *
            LobattoPolynomial polnomialOrder0 (x0) * LobattoPolynomial polynomialOrder1 (x1) - l0 * l1 * l2 *
            d0 * LobattoPolynomial polynomialOrder1 (x1) + l0 * l1 * l2 * LobattoPolynomial polnomialOrder0
            (x0) * d1)))
  | _ => None
  end.

(** BasisFunctions3DH1ConformingPrism.cpp:451-474 *)
Definition InteriorPrism_evalDeriv1 (polnomialOrder0 : nat) (polynomialOrder1 : nat) (polynomialOrder2 : nat) (p : point) : option R :=
  match p with
  | [x; y; z] =>
      l0 <- baricentric_2D 0 x y;
      l1 <- baricentric_2D 1 x y;
      l2 <- baricentric_2D 2 x y;
      let x0 := l0 - l1 in
      let x1 := l1 - l2 in
      d0 <- LobattoPolynomialDerivative polnomialOrder0 (x0);
      d1 <- LobattoPolynomialDerivative polynomialOrder1 (x1);
      Some ((1 - z) * (1 + z) * LobattoPolynomial polynomialOrder2 (z) / 4 * (baricentricDeriv 0 1 * (l1 * l2
            * LobattoPolynomial polnomialOrder0 (x0) * LobattoPolynomial polynomialOrder1 (x1) + l0 * l1 * l2
            * d0 * LobattoPolynomial polynomialOrder1 (x1)) + baricentricDeriv 2 1 * (l0 * l1 *
            LobattoPolynomial polnomialOrder0 (x0) * LobattoPolynomial polynomialOrder1 (x1) - l0 * l1 * l2 *
            LobattoPolynomial polnomialOrder0 (x0) * d1)))
  | _ => None
  end.

(** BasisFunctions3DH1ConformingPrism.cpp:476-487 *)
Definition InteriorPrism_evalDeriv2 (polnomialOrder0 : nat) (polynomialOrder1 : nat) (polynomialOrder2 : nat) (p : point) : option R :=
  match p with
  | [x; y; z] =>
      l0 <- baricentric_2D 0 x y;
      l1 <- baricentric_2D 1 x y;
      l2 <- baricentric_2D 2 x y;
      let x0 := l0 - l1 in
      let x1 := l1 - l2 in
      d0 <- LobattoPolynomialDerivative polynomialOrder2 (z);
      Some (l0 * l1 * l2 * LobattoPolynomial polnomialOrder0 (x0) * LobattoPolynomial polynomialOrder1 (x1) *
            (-z * LobattoPolynomial polynomialOrder2 (z) / 2 + (1 - z) * (1 + z) * d0 / 4))
  | _ => None
  end.

(** the addition of 1e-50 in double precision: every other value of 1 - p[2] is so much larger
    that the sum is rounded to it (BasisFunctions3DH1ConformingPyramid.cpp:70,73,76,79) *)
Definition plus_tiny (a : R) : R := if Req_EM_T a 0 then / 10 ^ 50 else a.

(** BasisFunctions3DH1ConformingPyramid.cpp:58-85 *)
Definition VertexPyramid_eval (node : nat) (p : point) : option R :=
  match p with
  | [x; y; z] =>
      match node with
      | 0%nat => Some z
      | 1%nat => Some ((1 - z - x) * (1 - z - y) / 4 / plus_tiny (1 - z))
      | 2%nat => Some ((1 - z + x) * (1 - z - y) / 4 / plus_tiny (1 - z))
      | 3%nat => Some ((1 - z - x) * (1 - z + y) / 4 / plus_tiny (1 - z))
      | 4%nat => Some ((1 - z + x) * (1 - z + y) / 4 / plus_tiny (1 - z))
      | _ => None
      end
  | _ => None
  end.

(** BasisFunctions3DH1ConformingPyramid.cpp:89-92,113-116,137-140: the height that is used for the derivatives *)
Definition shifted_height (x y z : R) : R :=
  if Rlt_dec (Rabs x + Rabs y + Rabs (z - 1)) (/ 10 ^ 14) then z - / 10 ^ 10 else z.

(** BasisFunctions3DH1ConformingPyramid.cpp:87-169; [None] also for the division by zero if z = 1
    away from the tip *)
Definition VertexPyramid_evalDeriv (i node : nat) (p : point) : option R :=
  match p with
  | [x; y; z'] =>
      let z := shifted_height x y z' in
      if Req_EM_T (1 - z) 0 then None else
      match i, node with
      | 0%nat, 0%nat => Some 0
      | 0%nat, 1%nat => Some (- (1 - z - y) / 4 / (1 - z))
      | 0%nat, 2%nat => Some ((1 - z - y) / 4 / (1 - z))
      | 0%nat, 3%nat => Some (- (1 - z + y) / 4 / (1 - z))
      | 0%nat, 4%nat => Some ((1 - z + y) / 4 / (1 - z))
      | 1%nat, 0%nat => Some 0
      | 1%nat, 1%nat => Some (- (1 - z - x) / 4 / (1 - z))
      | 1%nat, 2%nat => Some (- (1 - z + x) / 4 / (1 - z))
      | 1%nat, 3%nat => Some ((1 - z - x) / 4 / (1 - z))
      | 1%nat, 4%nat => Some ((1 - z + x) / 4 / (1 - z))
      | 2%nat, 0%nat => Some 1
      | 2%nat, 1%nat =>
          Some ((1 - z - x) * (1 - z - y) / 4 / (1 - z) / (1 - z) - (1 - z - y) / 4 / (1 - z)
                - (1 - z - x) / 4 / (1 - z))
      | 2%nat, 2%nat =>
          Some ((1 - z + x) * (1 - z - y) / 4 / (1 - z) / (1 - z) - (1 - z - y) / 4 / (1 - z)
                - (1 - z + x) / 4 / (1 - z))
      | 2%nat, 3%nat =>
          Some ((1 - z - x) * (1 - z + y) / 4 / (1 - z) / (1 - z) - (1 - z + y) / 4 / (1 - z)
                - (1 - z - x) / 4 / (1 - z))
      | 2%nat, 4%nat =>
          Some ((1 - z + x) * (1 - z + y) / 4 / (1 - z) / (1 - z) - (1 - z + y) / 4 / (1 - z)
                - (1 - z + x) / 4 / (1 - z))
      | _, _ => None
      end
  | _ => None
  end.

(** BasisFunctionsMonomials.cpp:49-53 *)
Fixpoint ipow (value : R) (power : nat) : R :=
  match power with O => 1 | S n => ipow value n * value end.

(** BasisFunctionsMonomials.cpp:61-67: the loop, from the coordinates and powers that are left *)
Fixpoint evalDIM (result : R) (p : point) (powers : list nat) : R :=
  match p, powers with
  | x :: p', n :: powers' => evalDIM (result * ipow x n) p' powers'
  | _, _ => result
  end.
Definition Monomial_eval (powers : list nat) (p : point) : option R :=
  if Nat.eqb (length p) (length powers) then Some (evalDIM 1 p powers) else None.

(** BasisFunctionsMonomials.cpp:69-83: the loop; [derivCoord] counts from the coordinates that are left *)
Fixpoint evalDerivDIM (result : R) (p : point) (powers : list nat) (derivCoord : option nat) : R :=
  match p, powers with
  | x :: p', n :: powers' =>
      match derivCoord with
      | Some O =>
          if Nat.eqb n 0 then evalDerivDIM 0 p' powers' None
          else evalDerivDIM (result * ipow x (n - 1)) p' powers' None
      | Some (S c) => evalDerivDIM (result * ipow x n) p' powers' (Some c)
      | None => evalDerivDIM (result * ipow x n) p' powers' None
      end
  | _, _ => result
  end.
Definition Monomial_evalDeriv (i : nat) (powers : list nat) (p : point) : option R :=
  if Nat.eqb (length p) (length powers) then
    n <- nth_error powers i; Some (evalDerivDIM (INR n) p powers (Some i))
  else None.

(** BasisFunctionsPiecewiseConstant.cpp:47-56,67-80,90-107,113-134 *)
Definition PiecewiseConstant_eval (dim : nat) (p : point) : option R :=
  if Nat.eqb (length p) dim then Some 1 else None.
Definition PiecewiseConstant_evalDeriv (i dim : nat) (p : point) : option R :=
  if Nat.eqb (length p) dim && (i <? dim) then Some 0 else None.


(** The classes of basis functions with their members, in the order of declaration in the headers. *)
Inductive basis_function :=
(* BasisFunction1DVertexLine *)
| VertexLine (nodePosition : Z)
(* BasisFunction1DInteriorLine *)
| InteriorLine (polynomialOrder : nat)
(* BasisFunction2DVertexSquare *)
| VertexSquare (nodePosition0 : Z) (nodePosition1 : Z)
(* BasisFunction2DFaceSquare_0 *)
| FaceSquare_0 (edgePosition : Z) (mirroring : Z) (polynomialOrder : nat)
(* BasisFunction2DFaceSquare_1 *)
| FaceSquare_1 (edgePosition : Z) (mirroring : Z) (polynomialOrder : nat)
(* BasisFunction2DInteriorSquare *)
| InteriorSquare (polynomialOrder0 : nat) (polynomialOrder1 : nat)
(* BasisFunction2DVertexTriangle *)
| VertexTriangle (node : nat)
(* BasisFunction2DFaceTriangle *)
| FaceTriangle (node0 : nat) (node1 : nat) (polynomialOrder : nat)
(* BasisFunction2DInteriorTriangle *)
| InteriorTriangle (polynomialOrder0 : nat) (polynomialOrder1 : nat)
(* BasisFunction3DVertexCube *)
| VertexCube (nodePosition0 : Z) (nodePosition1 : Z) (nodePosition2 : Z)
(* BasisFunction3DEdgeCube_0 *)
| EdgeCube_0 (edgePosition1 : Z) (edgePosition2 : Z) (mirroring : Z) (polynomialOrder : nat)
(* BasisFunction3DEdgeCube_1 *)
| EdgeCube_1 (edgePosition0 : Z) (edgePosition2 : Z) (mirroring : Z) (polynomialOrder : nat)
(* BasisFunction3DEdgeCube_2 *)
| EdgeCube_2 (edgePosition0 : Z) (edgePosition1 : Z) (mirroring : Z) (polynomialOrder : nat)
(* BasisFunction3DFaceCube_0 *)
| FaceCube_0 (facePosition : Z) (mirroring1 : Z) (mirroring2 : Z) (polynomialOrder1 : nat) (polynomialOrder2 : nat)
(* BasisFunction3DFaceCube_1 *)
| FaceCube_1 (facePosition : Z) (mirroring0 : Z) (mirroring2 : Z) (polynomialOrder0 : nat) (polynomialOrder2 : nat)
(* BasisFunction3DFaceCube_2 *)
| FaceCube_2 (facePosition : Z) (mirroring0 : Z) (mirroring1 : Z) (polynomialOrder0 : nat) (polynomialOrder1 : nat)
(* BasisFunction3DInteriorCube *)
| InteriorCube (polynomialOrder0 : nat) (polynomialOrder1 : nat) (polynomialOrder2 : nat)
(* BasisFunction3DVertexTetrahedron *)
| VertexTetrahedron (node : nat)
(* BasisFunction3DEdgeTetrahedron *)
| EdgeTetrahedron (node0 : nat) (node1 : nat) (polynomialOrder : nat)
(* BasisFunction3DFaceTetrahedron *)
| FaceTetrahedron (node0 : nat) (node1 : nat) (node2 : nat) (polynomialOrder0 : nat) (polynomialOrder1 : nat)
(* BasisFunction3DInteriorTetrahedron *)
| InteriorTetrahedron (polynomialOrder0 : nat) (polynomialOrder1 : nat) (polynomialOrder2 : nat)
(* BasisFunction3DVertexPrism *)
| VertexPrism (nodePosition : Z) (node : nat)
(* BasisFunction3DEdgePrism_0 *)
| EdgePrism_0 (edgePosition : Z) (node0 : nat) (node1 : nat) (polynomialOrder : nat)
(* BasisFunction3DEdgePrism_1 *)
| EdgePrism_1 (mirroring : Z) (node : nat) (polynomialOrder : nat)
(* BasisFunction3DFacePrism_0 *)
| FacePrism_0 (facePosition : Z) (polynomialOrder0 : nat) (polynomialOrder1 : nat) (node0 : nat) (node1 : nat) (node2 : nat)
(* BasisFunction3DFacePrism_1 *)
| FacePrism_1 (mirroring : Z) (node0 : nat) (node1 : nat) (polynomialOrder0 : nat) (polynomialOrder1 : nat)
(* BasisFunction3DInteriorPrism *)
| InteriorPrism (polnomialOrder0 : nat) (polynomialOrder1 : nat) (polynomialOrder2 : nat)
(* BasisFunctions3DH1ConformingPyramid.h:60-77 BasisFunction3DVertexPyramid *)
| VertexPyramid (node : nat)
(* BasisFunctionsMonomials.cpp:55-171 BasisFunctionsMonomials1, ..., BasisFunctionsMonomials4 *)
| Monomial (powers : list nat)
(* BasisFunctionsPiecewiseConstant.cpp:47-135 PiecewiseConstant1, ..., PiecewiseConstant4 *)
| PiecewiseConstant (dim : nat).

(** BaseBasisFunction::eval: the virtual call *)
Definition eval (f : basis_function) (p : point) : option R :=
  match f with
  | VertexLine nodePosition => VertexLine_eval nodePosition p
  | InteriorLine polynomialOrder => InteriorLine_eval polynomialOrder p
  | VertexSquare nodePosition0 nodePosition1 => VertexSquare_eval nodePosition0 nodePosition1 p
  | FaceSquare_0 edgePosition mirroring polynomialOrder => FaceSquare_0_eval edgePosition mirroring polynomialOrder p
  | FaceSquare_1 edgePosition mirroring polynomialOrder => FaceSquare_1_eval edgePosition mirroring polynomialOrder p
  | InteriorSquare polynomialOrder0 polynomialOrder1 => InteriorSquare_eval polynomialOrder0 polynomialOrder1 p
  | VertexTriangle node => VertexTriangle_eval node p
  | FaceTriangle node0 node1 polynomialOrder => FaceTriangle_eval node0 node1 polynomialOrder p
  | InteriorTriangle polynomialOrder0 polynomialOrder1 => InteriorTriangle_eval polynomialOrder0 polynomialOrder1 p
  | VertexCube nodePosition0 nodePosition1 nodePosition2 => VertexCube_eval nodePosition0 nodePosition1 nodePosition2 p
  | EdgeCube_0 edgePosition1 edgePosition2 mirroring polynomialOrder => EdgeCube_0_eval edgePosition1 edgePosition2 mirroring polynomialOrder p
  | EdgeCube_1 edgePosition0 edgePosition2 mirroring polynomialOrder => EdgeCube_1_eval edgePosition0 edgePosition2 mirroring polynomialOrder p
  | EdgeCube_2 edgePosition0 edgePosition1 mirroring polynomialOrder => EdgeCube_2_eval edgePosition0 edgePosition1 mirroring polynomialOrder p
  | FaceCube_0 facePosition mirroring1 mirroring2 polynomialOrder1 polynomialOrder2 => FaceCube_0_eval facePosition mirroring1 mirroring2 polynomialOrder1 polynomialOrder2 p
  | FaceCube_1 facePosition mirroring0 mirroring2 polynomialOrder0 polynomialOrder2 => FaceCube_1_eval facePosition mirroring0 mirroring2 polynomialOrder0 polynomialOrder2 p
  | FaceCube_2 facePosition mirroring0 mirroring1 polynomialOrder0 polynomialOrder1 => FaceCube_2_eval facePosition mirroring0 mirroring1 polynomialOrder0 polynomialOrder1 p
  | InteriorCube polynomialOrder0 polynomialOrder1 polynomialOrder2 => InteriorCube_eval polynomialOrder0 polynomialOrder1 polynomialOrder2 p
  | VertexTetrahedron node => VertexTetrahedron_eval node p
  | EdgeTetrahedron node0 node1 polynomialOrder => EdgeTetrahedron_eval node0 node1 polynomialOrder p
  | FaceTetrahedron node0 node1 node2 polynomialOrder0 polynomialOrder1 => FaceTetrahedron_eval node0 node1 node2 polynomialOrder0 polynomialOrder1 p
  | InteriorTetrahedron polynomialOrder0 polynomialOrder1 polynomialOrder2 => InteriorTetrahedron_eval polynomialOrder0 polynomialOrder1 polynomialOrder2 p
  | VertexPrism nodePosition node => VertexPrism_eval nodePosition node p
  | EdgePrism_0 edgePosition node0 node1 polynomialOrder => EdgePrism_0_eval edgePosition node0 node1 polynomialOrder p
  | EdgePrism_1 mirroring node polynomialOrder => EdgePrism_1_eval mirroring node polynomialOrder p
  | FacePrism_0 facePosition polynomialOrder0 polynomialOrder1 node0 node1 node2 => FacePrism_0_eval facePosition polynomialOrder0 polynomialOrder1 node0 node1 node2 p
  | FacePrism_1 mirroring node0 node1 polynomialOrder0 polynomialOrder1 => FacePrism_1_eval mirroring node0 node1 polynomialOrder0 polynomialOrder1 p
  | InteriorPrism polnomialOrder0 polynomialOrder1 polynomialOrder2 => InteriorPrism_eval polnomialOrder0 polynomialOrder1 polynomialOrder2 p
  | VertexPyramid node => VertexPyramid_eval node p
  | Monomial powers => Monomial_eval powers p
  | PiecewiseConstant dim => PiecewiseConstant_eval dim p
  end.

(** BaseBasisFunction::evalDeriv0, ..., evalDeriv3 for i = 0, ..., 3; without an override
    (BaseBasisFunction.h, BaseBasisFunction.cpp) these log an error *)
Definition evalDeriv (i : nat) (f : basis_function) (p : point) : option R :=
  match f with
  | VertexLine nodePosition =>
      match i with 0%nat => VertexLine_evalDeriv0 nodePosition p | _ => None end
  | InteriorLine polynomialOrder =>
      match i with 0%nat => InteriorLine_evalDeriv0 polynomialOrder p | _ => None end
  | VertexSquare nodePosition0 nodePosition1 =>
      match i with 0%nat => VertexSquare_evalDeriv0 nodePosition0 nodePosition1 p | 1%nat => VertexSquare_evalDeriv1 nodePosition0 nodePosition1 p | _ => None end
  | FaceSquare_0 edgePosition mirroring polynomialOrder =>
      match i with 0%nat => FaceSquare_0_evalDeriv0 edgePosition mirroring polynomialOrder p | 1%nat => FaceSquare_0_evalDeriv1 edgePosition mirroring polynomialOrder p | _ => None end
  | FaceSquare_1 edgePosition mirroring polynomialOrder =>
      match i with 0%nat => FaceSquare_1_evalDeriv0 edgePosition mirroring polynomialOrder p | 1%nat => FaceSquare_1_evalDeriv1 edgePosition mirroring polynomialOrder p | _ => None end
  | InteriorSquare polynomialOrder0 polynomialOrder1 =>
      match i with 0%nat => InteriorSquare_evalDeriv0 polynomialOrder0 polynomialOrder1 p | 1%nat => InteriorSquare_evalDeriv1 polynomialOrder0 polynomialOrder1 p | _ => None end
  | VertexTriangle node =>
      match i with 0%nat => VertexTriangle_evalDeriv0 node p | 1%nat => VertexTriangle_evalDeriv1 node p | _ => None end
  | FaceTriangle node0 node1 polynomialOrder =>
      match i with 0%nat => FaceTriangle_evalDeriv0 node0 node1 polynomialOrder p | 1%nat => FaceTriangle_evalDeriv1 node0 node1 polynomialOrder p | _ => None end
  | InteriorTriangle polynomialOrder0 polynomialOrder1 =>
      match i with 0%nat => InteriorTriangle_evalDeriv0 polynomialOrder0 polynomialOrder1 p | 1%nat => InteriorTriangle_evalDeriv1 polynomialOrder0 polynomialOrder1 p | _ => None end
  | VertexCube nodePosition0 nodePosition1 nodePosition2 =>
      match i with 0%nat => VertexCube_evalDeriv0 nodePosition0 nodePosition1 nodePosition2 p | 1%nat => VertexCube_evalDeriv1 nodePosition0 nodePosition1 nodePosition2 p | 2%nat => VertexCube_evalDeriv2 nodePosition0 nodePosition1 nodePosition2 p | _ => None end
  | EdgeCube_0 edgePosition1 edgePosition2 mirroring polynomialOrder =>
      match i with 0%nat => EdgeCube_0_evalDeriv0 edgePosition1 edgePosition2 mirroring polynomialOrder p | 1%nat => EdgeCube_0_evalDeriv1 edgePosition1 edgePosition2 mirroring polynomialOrder p | 2%nat => EdgeCube_0_evalDeriv2 edgePosition1 edgePosition2 mirroring polynomialOrder p | _ => None end
  | EdgeCube_1 edgePosition0 edgePosition2 mirroring polynomialOrder =>
      match i with 0%nat => EdgeCube_1_evalDeriv0 edgePosition0 edgePosition2 mirroring polynomialOrder p | 1%nat => EdgeCube_1_evalDeriv1 edgePosition0 edgePosition2 mirroring polynomialOrder p | 2%nat => EdgeCube_1_evalDeriv2 edgePosition0 edgePosition2 mirroring polynomialOrder p | _ => None end
  | EdgeCube_2 edgePosition0 edgePosition1 mirroring polynomialOrder =>
      match i with 0%nat => EdgeCube_2_evalDeriv0 edgePosition0 edgePosition1 mirroring polynomialOrder p | 1%nat => EdgeCube_2_evalDeriv1 edgePosition0 edgePosition1 mirroring polynomialOrder p | 2%nat => EdgeCube_2_evalDeriv2 edgePosition0 edgePosition1 mirroring polynomialOrder p | _ => None end
  | FaceCube_0 facePosition mirroring1 mirroring2 polynomialOrder1 polynomialOrder2 =>
      match i with 0%nat => FaceCube_0_evalDeriv0 facePosition mirroring1 mirroring2 polynomialOrder1 polynomialOrder2 p | 1%nat => FaceCube_0_evalDeriv1 facePosition mirroring1 mirroring2 polynomialOrder1 polynomialOrder2 p | 2%nat => FaceCube_0_evalDeriv2 facePosition mirroring1 mirroring2 polynomialOrder1 polynomialOrder2 p | _ => None end
  | FaceCube_1 facePosition mirroring0 mirroring2 polynomialOrder0 polynomialOrder2 =>
      match i with 0%nat => FaceCube_1_evalDeriv0 facePosition mirroring0 mirroring2 polynomialOrder0 polynomialOrder2 p | 1%nat => FaceCube_1_evalDeriv1 facePosition mirroring0 mirroring2 polynomialOrder0 polynomialOrder2 p | 2%nat => FaceCube_1_evalDeriv2 facePosition mirroring0 mirroring2 polynomialOrder0 polynomialOrder2 p | _ => None end
  | FaceCube_2 facePosition mirroring0 mirroring1 polynomialOrder0 polynomialOrder1 =>
      match i with 0%nat => FaceCube_2_evalDeriv0 facePosition mirroring0 mirroring1 polynomialOrder0 polynomialOrder1 p | 1%nat => FaceCube_2_evalDeriv1 facePosition mirroring0 mirroring1 polynomialOrder0 polynomialOrder1 p | 2%nat => FaceCube_2_evalDeriv2 facePosition mirroring0 mirroring1 polynomialOrder0 polynomialOrder1 p | _ => None end
  | InteriorCube polynomialOrder0 polynomialOrder1 polynomialOrder2 =>
      match i with 0%nat => InteriorCube_evalDeriv0 polynomialOrder0 polynomialOrder1 polynomialOrder2 p | 1%nat => InteriorCube_evalDeriv1 polynomialOrder0 polynomialOrder1 polynomialOrder2 p | 2%nat => InteriorCube_evalDeriv2 polynomialOrder0 polynomialOrder1 polynomialOrder2 p | _ => None end
  | VertexTetrahedron node =>
      match i with 0%nat => VertexTetrahedron_evalDeriv0 node p | 1%nat => VertexTetrahedron_evalDeriv1 node p | 2%nat => VertexTetrahedron_evalDeriv2 node p | _ => None end
  | EdgeTetrahedron node0 node1 polynomialOrder =>
      match i with 0%nat => EdgeTetrahedron_evalDeriv0 node0 node1 polynomialOrder p | 1%nat => EdgeTetrahedron_evalDeriv1 node0 node1 polynomialOrder p | 2%nat => EdgeTetrahedron_evalDeriv2 node0 node1 polynomialOrder p | _ => None end
  | FaceTetrahedron node0 node1 node2 polynomialOrder0 polynomialOrder1 =>
      match i with 0%nat => FaceTetrahedron_evalDeriv0 node0 node1 node2 polynomialOrder0 polynomialOrder1 p | 1%nat => FaceTetrahedron_evalDeriv1 node0 node1 node2 polynomialOrder0 polynomialOrder1 p | 2%nat => FaceTetrahedron_evalDeriv2 node0 node1 node2 polynomialOrder0 polynomialOrder1 p | _ => None end
  | InteriorTetrahedron polynomialOrder0 polynomialOrder1 polynomialOrder2 =>
      match i with 0%nat => InteriorTetrahedron_evalDeriv0 polynomialOrder0 polynomialOrder1 polynomialOrder2 p | 1%nat => InteriorTetrahedron_evalDeriv1 polynomialOrder0 polynomialOrder1 polynomialOrder2 p | 2%nat => InteriorTetrahedron_evalDeriv2 polynomialOrder0 polynomialOrder1 polynomialOrder2 p | _ => None end
  | VertexPrism nodePosition node =>
      match i with 0%nat => VertexPrism_evalDeriv0 nodePosition node p | 1%nat => VertexPrism_evalDeriv1 nodePosition node p | 2%nat => VertexPrism_evalDeriv2 nodePosition node p | _ => None end
  | EdgePrism_0 edgePosition node0 node1 polynomialOrder =>
      match i with 0%nat => EdgePrism_0_evalDeriv0 edgePosition node0 node1 polynomialOrder p | 1%nat => EdgePrism_0_evalDeriv1 edgePosition node0 node1 polynomialOrder p | 2%nat => EdgePrism_0_evalDeriv2 edgePosition node0 node1 polynomialOrder p | _ => None end
  | EdgePrism_1 mirroring node polynomialOrder =>
      match i with 0%nat => EdgePrism_1_evalDeriv0 mirroring node polynomialOrder p | 1%nat => EdgePrism_1_evalDeriv1 mirroring node polynomialOrder p | 2%nat => EdgePrism_1_evalDeriv2 mirroring node polynomialOrder p | _ => None end
  | FacePrism_0 facePosition polynomialOrder0 polynomialOrder1 node0 node1 node2 =>
      match i with 0%nat => FacePrism_0_evalDeriv0 facePosition polynomialOrder0 polynomialOrder1 node0 node1 node2 p | 1%nat => FacePrism_0_evalDeriv1 facePosition polynomialOrder0 polynomialOrder1 node0 node1 node2 p | 2%nat => FacePrism_0_evalDeriv2 facePosition polynomialOrder0 polynomialOrder1 node0 node1 node2 p | _ => None end
  | FacePrism_1 mirroring node0 node1 polynomialOrder0 polynomialOrder1 =>
      match i with 0%nat => FacePrism_1_evalDeriv0 mirroring node0 node1 polynomialOrder0 polynomialOrder1 p | 1%nat => FacePrism_1_evalDeriv1 mirroring node0 node1 polynomialOrder0 polynomialOrder1 p | 2%nat => FacePrism_1_evalDeriv2 mirroring node0 node1 polynomialOrder0 polynomialOrder1 p | _ => None end
  | InteriorPrism polnomialOrder0 polynomialOrder1 polynomialOrder2 =>
      match i with 0%nat => InteriorPrism_evalDeriv0 polnomialOrder0 polynomialOrder1 polynomialOrder2 p | 1%nat => InteriorPrism_evalDeriv1 polnomialOrder0 polynomialOrder1 polynomialOrder2 p | 2%nat => InteriorPrism_evalDeriv2 polnomialOrder0 polynomialOrder1 polynomialOrder2 p | _ => None end
  | VertexPyramid node => VertexPyramid_evalDeriv i node p
  | Monomial powers => Monomial_evalDeriv i powers p
  | PiecewiseConstant dim => PiecewiseConstant_evalDeriv i dim p
  end.
