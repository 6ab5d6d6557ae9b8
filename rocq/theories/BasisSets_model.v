(** Model of the constructors of the scalar basis functions, the functions that create the sets of
    basis functions of a reference shape (kernel/FE/BasisFunctions*H1Conforming*.cpp, BasisFunctionsMonomials.cpp,
    BasisFunctionSet.h, OrientedBasisFunctionSet.h) and the choice of a set by the mesh
    (kernel/Base/MeshManipulator_Impl.h, kernel/Base/Edge.cpp).

    [asserts] tells whether assertions (logger.assert_debug) are compiled in; [None] is a failed
    assertion.  A set is the list of its functions in the order of addBasisFunction.  Loops
    [for (i = 0; i + k <= order; ++i)] run over [loop k order]. *)
From Coq Require Import List Arith Bool ZArith Reals.
From Verif Require Import RefGeometry_model BasisFunctions_model.
Import ListNotations.

Section Sets.
Variable asserts : bool.

(** a constructor whose body contains the assertion [c] *)
Definition new (c : bool) (f : basis_function) : option basis_function := if asserts && negb c then None else Some f.

(** static_cast<int>(...) * 2 - 1 *)
Definition position (n : nat) : Z := (Z.of_nat n * 2 - 1)%Z.
(** c ? a : b on ints *)
Definition sign_if (c : bool) (a b : Z) : Z := if c then a else b.

(** BasisFunctions1DH1ConformingLine.h:59-62 *)
Definition newVertexLine (node : nat) := new (node <? 2) (VertexLine (2 * Z.of_nat node - 1)).
(** BasisFunctions1DH1ConformingLine.h:74-76 *)
Definition newInteriorLine (o : nat) := Some (InteriorLine o).
(** BasisFunctions2DH1ConformingSquare.h:59-63 *)
Definition newVertexSquare (node : nat) := new (node <? 4) (VertexSquare (position (node mod 2)) (position (node / 2))).
(** BasisFunctions2DH1ConformingSquare.cpp:69-79 *)
Definition newFaceSquare_0 (node0 node1 o : nat) :=
  new ((node0 <? 4) && (node1 <? 4) && ((node0 + node1) mod 2 =? 1))
    (FaceSquare_0 (sign_if (node0 + node1 <? 3) (-1) 1) (sign_if (node1 <? node0) (-1) 1) o).
(** BasisFunctions2DH1ConformingSquare.cpp:104-114 *)
Definition newFaceSquare_1 (node0 node1 o : nat) :=
  new ((node0 <? 4) && (node1 <? 4) && ((node0 + node1) mod 2 =? 0))
    (FaceSquare_1 (sign_if (node0 + node1 <? 3) (-1) 1) (sign_if (node1 <? node0) (-1) 1) o).
(** BasisFunctions2DH1ConformingSquare.h:112-116 *)
Definition newInteriorSquare (o0 o1 : nat) := Some (InteriorSquare o0 o1).
(** BasisFunctions2DH1ConformingTriangle.h:59-62 *)
Definition newVertexTriangle (node : nat) := new (node <? 3) (VertexTriangle node).
(** BasisFunctions2DH1ConformingTriangle.h:75-81 *)
Definition newFaceTriangle (node0 node1 o : nat) := new ((node0 <? 3) && (node1 <? 3)) (FaceTriangle node0 node1 o).
(** BasisFunctions2DH1ConformingTriangle.h:94-98 *)
Definition newInteriorTriangle (o0 o1 : nat) := Some (InteriorTriangle o0 o1).
(** BasisFunctions3DH1ConformingCube.cpp:53-58 *)
Definition newVertexCube (node : nat) :=
  new (node <? 8) (VertexCube (position (node mod 2)) (position ((node / 2) mod 2)) (position (node / 4))).
(** BasisFunctions3DH1ConformingCube.cpp:84-98 *)
Definition newEdgeCube_0 (node0 node1 o : nat) :=
  new ((node0 <? 8) && (node1 <? 8) && (node0 / 4 =? node1 / 4) && ((node0 / 2) mod 2 =? (node1 / 2) mod 2))
    (EdgeCube_0 (position ((node0 / 2) mod 2)) (position (node0 / 4)) (sign_if (node0 <? node1) 1 (-1)) o).
(** BasisFunctions3DH1ConformingCube.cpp:132-146 *)
Definition newEdgeCube_1 (node0 node1 o : nat) :=
  new ((node0 <? 8) && (node1 <? 8) && (node0 / 4 =? node1 / 4) && (node0 mod 2 =? node1 mod 2))
    (EdgeCube_1 (position (node0 mod 2)) (position (node0 / 4)) (sign_if (node0 <? node1) 1 (-1)) o).
(** BasisFunctions3DH1ConformingCube.cpp:180-194 *)
Definition newEdgeCube_2 (node0 node1 o : nat) :=
  new ((node0 <? 8) && (node1 <? 8) && (node0 mod 2 =? node1 mod 2) && ((node0 / 2) mod 2 =? (node1 / 2) mod 2))
    (EdgeCube_2 (position (node0 mod 2)) (position ((node0 / 2) mod 2)) (sign_if (node0 <? node1) 1 (-1)) o).
(** BasisFunctions3DH1ConformingCube.cpp:228-245 *)
Definition newFaceCube_0 (node0 node1 node2 o1 o2 : nat) :=
  new ((node0 <? 8) && (node1 <? 8) && (node2 <? 8) && (node0 mod 2 =? node1 mod 2) && (node0 mod 2 =? node2 mod 2))
    (FaceCube_0 (position (node0 mod 2)) (sign_if (node0 <? node1) 1 (-1)) (sign_if (node0 <? node2) 1 (-1)) o1 o2).
(** BasisFunctions3DH1ConformingCube.cpp:280-296 *)
Definition newFaceCube_1 (node0 node1 node2 o0 o2 : nat) :=
  new ((node0 <? 8) && (node1 <? 8) && (node2 <? 8) && ((node0 / 2) mod 2 =? (node1 / 2) mod 2)
       && ((node0 / 2) mod 2 =? (node2 / 2) mod 2))
    (FaceCube_1 (position ((node0 / 2) mod 2)) (sign_if (node0 <? node1) 1 (-1)) (sign_if (node0 <? node2) 1 (-1)) o0 o2).
(** BasisFunctions3DH1ConformingCube.cpp:338-354 *)
Definition newFaceCube_2 (node0 node1 node2 o0 o1 : nat) :=
  new ((node0 <? 8) && (node1 <? 8) && (node2 <? 8) && (node0 / 4 =? node1 / 4) && (node0 / 4 =? node2 / 4))
    (FaceCube_2 (position (node0 / 4)) (sign_if (node0 <? node1) 1 (-1)) (sign_if (node0 <? node2) 1 (-1)) o0 o1).
(** BasisFunctions3DH1ConformingCube.h:201-206 *)
Definition newInteriorCube (o0 o1 o2 : nat) := Some (InteriorCube o0 o1 o2).
(** BasisFunctions3DH1ConformingTetrahedron.h:59-62 *)
Definition newVertexTetrahedron (node : nat) := new (node <? 4) (VertexTetrahedron node).
(** BasisFunctions3DH1ConformingTetrahedron.h:77-83 *)
Definition newEdgeTetrahedron (node0 node1 o : nat) := new ((node0 <? 4) && (node1 <? 4)) (EdgeTetrahedron node0 node1 o).
(** BasisFunctions3DH1ConformingTetrahedron.h:98-111 *)
Definition newFaceTetrahedron (node0 node1 node2 o0 o1 : nat) :=
  new ((node0 <? 4) && (node1 <? 4) && (node2 <? 4)) (FaceTetrahedron node0 node1 node2 o0 o1).
(** BasisFunctions3DH1ConformingTetrahedron.h:126-132 *)
Definition newInteriorTetrahedron (o0 o1 o2 : nat) := Some (InteriorTetrahedron o0 o1 o2).
(** BasisFunctions3DH1ConformingPrism.cpp:53-57 *)
Definition newVertexPrism (node : nat) := new (node <? 6) (VertexPrism (position (node / 3)) (node mod 3)).
(** BasisFunctions3DH1ConformingPrism.h:76-92 *)
Definition newEdgePrism_0 (node0 node1 o : nat) :=
  new ((node0 <? 6) && (node1 <? 6) && (node0 / 3 =? node1 / 3))
    (EdgePrism_0 (position (node0 / 3)) (node0 mod 3) (node1 mod 3) o).
(** BasisFunctions3DH1ConformingPrism.cpp:151-159 *)
Definition newEdgePrism_1 (node0 node1 o : nat) :=
  new ((node0 <? 6) && (node1 <? 6) && (node0 mod 3 =? node1 mod 3))
    (EdgePrism_1 (sign_if (node0 <? node1) (-1) 1) (node0 mod 3) o).
(** BasisFunctions3DH1ConformingPrism.cpp:190-206 *)
Definition newFacePrism_0 (node0 node1 node2 o0 o1 : nat) :=
  new ((node0 <? 6) && (node1 <? 6) && (node2 <? 6) && (node0 / 3 =? node1 / 3) && (node0 / 3 =? node2 / 3))
    (FacePrism_0 (position (node0 / 3)) o0 o1 (node0 mod 3) (node1 mod 3) (node2 mod 3)).
(** BasisFunctions3DH1ConformingPrism.cpp:306-324 *)
Definition newFacePrism_1 (node0 node1 node2 o0 o1 : nat) :=
  new ((node0 <? 6) && (node1 <? 6) && (node2 <? 6))
    (if node1 mod 3 =? node0 mod 3
     then FacePrism_1 (sign_if (node0 <? node1) (-1) 1) (node0 mod 3) (node2 mod 3) o0 o1
     else FacePrism_1 (sign_if (node0 <? node2) (-1) 1) (node0 mod 3) (node1 mod 3) o1 o0).
(** BasisFunctions3DH1ConformingPrism.h:160-166 *)
Definition newInteriorPrism (o0 o1 o2 : nat) := Some (InteriorPrism o0 o1 o2).
(** BasisFunctions3DH1ConformingPyramid.cpp:53-56 *)
Definition newVertexPyramid (node : nat) := new (node <? 5) (VertexPyramid node).

(** ** The sets *)

(** addBasisFunction one after the other; the program stops at the first failed assertion *)
Fixpoint all (l : list (option basis_function)) : option (list basis_function) :=
  match l with
  | [] => Some []
  | o :: l' => f <- o; r <- all l'; Some (f :: r)
  end.
Definition loop (k order : nat) : list nat := seq 0 (S order - k).

(** BasisFunctions1DH1ConformingLine.cpp:75-98 *)
Definition createDGBasisFunctionSet1DH1Line (order : nat) : option (list basis_function) :=
  if 0 <? order then
    all ([newVertexLine 0; newVertexLine 1] ++ map newInteriorLine (loop 2 order))
  else Some [PiecewiseConstant 1].

(** BasisFunctions2DH1ConformingSquare.cpp:164-184 *)
Definition createDGBasisFunctionSet2DH1Square (order : nat) : option (list basis_function) :=
  if 0 <? order then
    all (map newVertexSquare (seq 0 4) ++
         flat_map (fun i =>
           [newFaceSquare_0 0 1 i; newFaceSquare_0 2 3 i; newFaceSquare_1 0 2 i; newFaceSquare_1 1 3 i] ++
           map (fun j => newInteriorSquare i j) (loop 2 order)) (loop 2 order))
  else Some [PiecewiseConstant 2].

(** BasisFunctions2DH1ConformingTriangle.cpp:176-209 *)
Definition createDGBasisFunctionSet2DH1Triangle (order : nat) : option (list basis_function) :=
  if 0 <? order then
    all (map newVertexTriangle (seq 0 3) ++
         flat_map (fun k =>
           flat_map (fun i => map (fun j => newFaceTriangle i j k) (seq 0 i)) (seq 0 3) ++
           (if k + 3 <=? order then map (fun j => newInteriorTriangle (k - j) j) (seq 0 (k + 1)) else [])) (loop 2 order))
  else Some [PiecewiseConstant 2].

(** vectorOfPointIndices[0], [1], ... of an edge or face: undefined behaviour if there are too few *)
Definition with2 (l : option (list nat)) (f : nat -> nat -> option basis_function) : option basis_function :=
  match l with Some (a :: b :: _) => f a b | _ => None end.
Definition with3 (l : option (list nat)) (f : nat -> nat -> nat -> option basis_function) : option basis_function :=
  match l with Some (a :: b :: c :: _) => f a b c | _ => None end.

(** BasisFunctions3DH1ConformingTetrahedron.cpp:366-409 *)
Definition createDGBasisFunctionSet3DH1Tetrahedron (order : nat) : option (list basis_function) :=
  if 0 <? order then
    all (map newVertexTetrahedron (seq 0 4) ++
         flat_map (fun j =>
           map (fun i => with2 (getCodim2EntityLocalIndices Tetrahedron i) (fun a b => newEdgeTetrahedron a b j)) (seq 0 6) ++
           (if 0 <? j then
              flat_map (fun i =>
                map (fun k => with3 (getCodim1EntityLocalIndices Tetrahedron i)
                                (fun a b c => newFaceTetrahedron a b c (j - k - 1) k)) (loop 1 j)) (seq 0 4)
            else []) ++
           (if 1 <? j then
              flat_map (fun i => map (fun k => newInteriorTetrahedron i (j - i - k - 2) k) (loop (i + 2) j)) (loop 2 j)
            else [])) (loop 2 order))
  else Some [PiecewiseConstant 3].

(** BasisFunctions3DH1ConformingCube.cpp:434-528 *)
Definition createDGBasisFunctionSet3DH1Cube (order : nat) : option (list basis_function) :=
  if 0 <? order then
    all (map newVertexCube (seq 0 8) ++
         flat_map (fun j =>
           map (fun i => with2 (getCodim2EntityLocalIndices Cube i) (fun a b => newEdgeCube_0 a b j)) (seq 0 4) ++
           map (fun i => with2 (getCodim2EntityLocalIndices Cube i) (fun a b => newEdgeCube_1 a b j)) (seq 4 4) ++
           map (fun i => with2 (getCodim2EntityLocalIndices Cube i) (fun a b => newEdgeCube_2 a b j)) (seq 8 4) ++
           [newFaceCube_2 0 1 2 j j; newFaceCube_1 0 1 4 j j; newFaceCube_0 0 2 4 j j;
            newFaceCube_0 1 3 5 j j; newFaceCube_1 2 3 6 j j; newFaceCube_2 4 5 6 j j; newInteriorCube j j j] ++
           flat_map (fun i =>
             [newFaceCube_2 0 1 2 i j; newFaceCube_1 0 1 4 i j; newFaceCube_0 0 2 4 i j;
              newFaceCube_0 1 3 5 i j; newFaceCube_1 2 3 6 i j; newFaceCube_2 4 5 6 i j;
              newFaceCube_2 0 1 2 j i; newFaceCube_1 0 1 4 j i; newFaceCube_0 0 2 4 j i;
              newFaceCube_0 1 3 5 j i; newFaceCube_1 2 3 6 j i; newFaceCube_2 4 5 6 j i;
              newInteriorCube i i j; newInteriorCube i j i; newInteriorCube j i i;
              newInteriorCube j j i; newInteriorCube j i j; newInteriorCube i j j] ++
             flat_map (fun k =>
               [newInteriorCube i j k; newInteriorCube i k j; newInteriorCube j i k;
                newInteriorCube j k i; newInteriorCube k i j; newInteriorCube k j i]) (seq 0 i)) (seq 0 j)) (loop 2 order))
  else Some [PiecewiseConstant 3].

(** BasisFunctions3DH1ConformingPrism.cpp:489-549 *)
Definition createDGBasisFunctionSet3DH1ConformingPrism (order : nat) : option (list basis_function) :=
  if 0 <? order then
    all (map newVertexPrism (seq 0 6) ++
         flat_map (fun j =>
           map (fun i => with2 (getCodim2EntityLocalIndices TriangularPrism i) (fun a b => newEdgePrism_0 a b j)) (seq 0 6) ++
           map (fun i => with2 (getCodim2EntityLocalIndices TriangularPrism i) (fun a b => newEdgePrism_1 a b j)) (seq 6 3) ++
           flat_map (fun i =>
             if 0 <? j then
               map (fun k => with3 (getCodim1EntityLocalIndices TriangularPrism i)
                               (fun a b c => newFacePrism_0 a b c (j - k - 1) k)) (seq 0 j)
             else []) (seq 0 2) ++
           flat_map (fun i =>
             with3 (getCodim1EntityLocalIndices TriangularPrism i) (fun a b c => newFacePrism_1 a b c j j) ::
             flat_map (fun k =>
               [with3 (getCodim1EntityLocalIndices TriangularPrism i) (fun a b c => newFacePrism_1 a b c j k);
                with3 (getCodim1EntityLocalIndices TriangularPrism i) (fun a b c => newFacePrism_1 a b c k j)])
               (seq 0 j)) (seq 2 3) ++
           flat_map (fun i =>
             flat_map (fun k => [newInteriorPrism i j k; newInteriorPrism j i k; newInteriorPrism i k j])
               (loop (i + 1) j)) (seq 0 j)) (loop 2 order))
  else Some [PiecewiseConstant 3].

(** BasisFunctions3DH1ConformingPyramid.cpp:171-186 *)
Definition createDGBasisFunctionSet3DH1ConformingPyramid (order : nat) : option (list basis_function) :=
  if asserts && negb (order <? 2) then None
  else if order =? 1 then
    all [newVertexPyramid 0; newVertexPyramid 1; newVertexPyramid 2; newVertexPyramid 3; newVertexPyramid 4]
  else Some [PiecewiseConstant 3].

(** BasisFunctionsMonomials.cpp:174-209 assembleMonomialBasisFunctions1D, ..., 4D *)
Definition assembleMonomialBasisFunctions1D (maxPower : nat) : list basis_function :=
  map (fun i => Monomial [i]) (loop 0 maxPower).
Definition assembleMonomialBasisFunctions2D (maxPower : nat) : list basis_function :=
  flat_map (fun i => map (fun j => Monomial [i; j]) (loop i maxPower)) (loop 0 maxPower).
Definition assembleMonomialBasisFunctions3D (maxPower : nat) : list basis_function :=
  flat_map (fun i => flat_map (fun j => map (fun k => Monomial [i; j; k]) (loop (i + j) maxPower)) (loop i maxPower))
    (loop 0 maxPower).
Definition assembleMonomialBasisFunctions4D (maxPower : nat) : list basis_function :=
  flat_map (fun i => flat_map (fun j => flat_map (fun k =>
    map (fun l => Monomial [i; j; k; l]) (loop (i + j + k) maxPower)) (loop (i + j) maxPower)) (loop i maxPower))
    (loop 0 maxPower).

(** ** Conforming sets: one set for the interior, sets for the vertices, edges and faces *)

(** assert_debug(order > 0) at the start of these functions *)
Definition positive {A} (order : nat) (k : option A) : option A := if asserts && negb (0 <? order) then None else k.

(** BasisFunctions1DH1ConformingLine.cpp:100-110 *)
Definition createInteriorBasisFunctionSet1DH1Line (order : nat) :=
  positive order (all (map newInteriorLine (loop 2 order))).
(** BasisFunctions2DH1ConformingSquare.cpp:186-197 *)
Definition createInteriorBasisFunctionSet2DH1Square (order : nat) :=
  positive order (all (flat_map (fun i => map (fun j => newInteriorSquare i j) (loop 2 order)) (loop 2 order))).
(** BasisFunctions2DH1ConformingTriangle.cpp:211-223 *)
Definition createInteriorBasisFunctionSet2DH1Triangle (order : nat) :=
  positive order (all (flat_map (fun i => map (fun j => newInteriorTriangle i j) (loop (i + 3) order)) (loop 3 order))).
(** BasisFunctions3DH1ConformingTetrahedron.cpp:411-426 *)
Definition createInteriorBasisFunctionSet3DH1Tetrahedron (order : nat) :=
  positive order (all (flat_map (fun i => flat_map (fun j =>
    map (fun k => newInteriorTetrahedron i j k) (loop (i + j + 4) order)) (loop (i + 4) order)) (loop 4 order))).
(** BasisFunctions3DH1ConformingCube.cpp:530-544 *)
Definition createInteriorBasisFunctionSet3DH1Cube (order : nat) :=
  positive order (all (flat_map (fun i => flat_map (fun j =>
    map (fun k => newInteriorCube i j k) (loop 2 order)) (loop 2 order)) (loop 2 order))).
(** BasisFunctions3DH1ConformingPrism.cpp:551-566 *)
Definition createInteriorBasisFunctionSet3DH1ConformingPrism (order : nat) :=
  positive order (all (flat_map (fun i => flat_map (fun j =>
    map (fun k => newInteriorPrism i j k) (loop 2 order)) (loop (i + 3) order)) (loop 3 order))).
(** BasisFunctions3DH1ConformingPyramid.cpp:188-193 *)
Definition createInteriorBasisFunctionSet3DH1ConformingPyramid (order : nat) : option (list basis_function) :=
  if asserts && negb (order =? 1) then None else Some [].

(** OrientedBasisFunctionSet.h:54-76; for the vertices of shapes of dimension 2 and 3 (BasisFunctionSet
    without orientation) the orientation is 0 and the face the number of the node *)
Record oriented_set := OrientedSet { orientation : nat; face : nat; functions : list basis_function }.
(** OrientedBasisFunctionSet.h:65-68 *)
Definition checkOrientation (codim0mapIndex faceIndex : nat) (s : oriented_set) : bool :=
  (codim0mapIndex =? orientation s) && (faceIndex =? face s).

Fixpoint all_sets (l : list (nat * nat * list (option basis_function))) : option (list oriented_set) :=
  match l with
  | [] => Some []
  | (o, f, fs) :: l' => fs' <- all fs; r <- all_sets l'; Some (OrientedSet o f fs' :: r)
  end.

(** BasisFunctions1DH1ConformingLine.cpp:112-126 *)
Definition createVertexBasisFunctionSet1DH1Line (order : nat) :=
  positive order (all_sets [(0, 0, [newVertexLine 0]); (0, 1, [newVertexLine 1])]).
(** BasisFunctions2DH1ConformingSquare.cpp:199-212 *)
Definition createVertexBasisFunctionSet2DH1Square (order : nat) :=
  positive order (all_sets (map (fun i => (0, i, [newVertexSquare i])) (seq 0 4))).
(** BasisFunctions2DH1ConformingTriangle.cpp:225-238 *)
Definition createVertexBasisFunctionSet2DH1Triangle (order : nat) :=
  positive order (all_sets (map (fun i => (0, i, [newVertexTriangle i])) (seq 0 3))).
(** BasisFunctions3DH1ConformingTetrahedron.cpp:428-441 *)
Definition createVertexBasisFunctionSet3DH1Tetrahedron (order : nat) :=
  positive order (all_sets (map (fun i => (0, i, [newVertexTetrahedron i])) (seq 0 4))).
(** BasisFunctions3DH1ConformingCube.cpp:546-560 *)
Definition createVertexBasisFunctionSet3DH1Cube (order : nat) :=
  positive order (all_sets (map (fun i => (0, i, [newVertexCube i])) (seq 0 8))).
(** BasisFunctions3DH1ConformingPrism.cpp:568-581 *)
Definition createVertexBasisFunctionSet3DH1ConformingPrism (order : nat) :=
  positive order (all_sets (map (fun i => (0, i, [newVertexPrism i])) (seq 0 6))).
(** BasisFunctions3DH1ConformingPyramid.cpp:195-206 *)
Definition createVertexBasisFunctionSet3DH1ConformingPyramid (order : nat) :=
  if asserts && negb (order =? 1) then None
  else all_sets (map (fun i => (0, i, [newVertexPyramid i])) (seq 0 5)).

(** BasisFunctions3DH1ConformingTetrahedron.cpp:443-469 *)
Definition createEdgeBasisFunctionSet3DH1Tetrahedron (order : nat) :=
  positive order (all_sets (flat_map (fun i =>
    [(0, i, map (fun j => with2 (getCodim2EntityLocalIndices Tetrahedron i) (fun a b => newEdgeTetrahedron a b j)) (loop 2 order));
     (1, i, map (fun j => with2 (getCodim2EntityLocalIndices Tetrahedron i) (fun a b => newEdgeTetrahedron b a j)) (loop 2 order))])
    (seq 0 6))).
(** BasisFunctions3DH1ConformingCube.cpp:562-617 *)
Definition createEdgeBasisFunctionSet3DH1Cube (order : nat) :=
  positive order (all_sets (
    let sets c := flat_map (fun i =>
      [(0, i, map (fun j => with2 (getCodim2EntityLocalIndices Cube i) (fun a b => c a b j)) (loop 2 order));
       (1, i, map (fun j => with2 (getCodim2EntityLocalIndices Cube i) (fun a b => c b a j)) (loop 2 order))]) in
    sets newEdgeCube_0 (seq 0 4) ++ sets newEdgeCube_1 (seq 4 4) ++ sets newEdgeCube_2 (seq 8 4))).
(** BasisFunctions3DH1ConformingPrism.cpp:583-624 *)
Definition createEdgeBasisFunctionSet3DH1ConformingPrism (order : nat) :=
  positive order (all_sets (
    let sets c := flat_map (fun i =>
      [(0, i, map (fun j => with2 (getCodim2EntityLocalIndices TriangularPrism i) (fun a b => c a b j)) (loop 2 order));
       (1, i, map (fun j => with2 (getCodim2EntityLocalIndices TriangularPrism i) (fun a b => c b a j)) (loop 2 order))]) in
    sets newEdgePrism_0 (seq 0 6) ++ sets newEdgePrism_1 (seq 6 3))).

(** BasisFunctions2DH1ConformingSquare.cpp:214-247 *)
Definition createFaceBasisFunctionSet2DH1Square (order : nat) :=
  positive order (all_sets (flat_map (fun i =>
    let c a b j := if (a + b) mod 2 =? 1 then newFaceSquare_0 a b j else newFaceSquare_1 a b j in
    [(0, i, map (fun j => with2 (getCodim1EntityLocalIndices Square i) (fun a b => c a b j)) (loop 2 order));
     (1, i, map (fun j => with2 (getCodim1EntityLocalIndices Square i) (fun a b => c b a j)) (loop 2 order))])
    (seq 0 4))).
(** BasisFunctions2DH1ConformingTriangle.cpp:240-266 *)
Definition createFaceBasisFunctionSet2DH1Triangle (order : nat) :=
  positive order (all_sets (flat_map (fun i =>
    [(0, i, map (fun j => with2 (getCodim1EntityLocalIndices Triangle i) (fun a b => newFaceTriangle a b j)) (loop 2 order));
     (1, i, map (fun j => with2 (getCodim1EntityLocalIndices Triangle i) (fun a b => newFaceTriangle b a j)) (loop 2 order))])
    (seq 0 3))).

(** the sets for one face: number of the orientation and positions in the list of nodes *)
Definition oriented_sets (c : nat -> nat -> nat -> nat -> nat -> option basis_function) (nodes : option (list nat))
    (i : nat) (orders : list (nat * nat)) (orientations : list (nat * (nat * nat * nat))) :=
  map (fun oi : nat * (nat * nat * nat) =>
    let '(o, (p0, p1, p2)) := oi in
    (o, i, map (fun jk : nat * nat =>
      ns <- nodes; a <- nth_error ns p0; b <- nth_error ns p1; d <- nth_error ns p2; c a b d (fst jk) (snd jk)) orders))
    orientations.
(** for (j; j + 3 <= order) for (k; j + k + 3 <= order) *)
Definition triangle_orders (order : nat) : list (nat * nat) :=
  flat_map (fun j => map (fun k => (j, k)) (loop (j + 3) order)) (loop 3 order).
(** for (j; j + 2 <= order) for (k; k + 2 <= order) *)
Definition square_orders (order : nat) : list (nat * nat) :=
  flat_map (fun j => map (fun k => (j, k)) (loop 2 order)) (loop 2 order).
Definition triangle_orientations : list (nat * (nat * nat * nat)) :=
  [(0, (0, 1, 2)); (1, (0, 2, 1)); (2, (1, 2, 0)); (3, (1, 0, 2)); (4, (2, 1, 0)); (5, (2, 0, 1))].

(** BasisFunctions3DH1ConformingTetrahedron.cpp:471-539 *)
Definition createFaceBasisFunctionSet3DH1Tetrahedron (order : nat) :=
  positive order (all_sets (flat_map (fun i =>
    oriented_sets newFaceTetrahedron (getCodim1EntityLocalIndices Tetrahedron i) i (triangle_orders order) triangle_orientations)
    (seq 0 4))).
(** BasisFunctions3DH1ConformingCube.cpp:619-1067 *)
Definition createFaceBasisFunctionSet3DH1Cube (order : nat) :=
  positive order (all_sets (flat_map (fun ic : nat * (nat -> nat -> nat -> nat -> nat -> option basis_function) =>
    oriented_sets (snd ic) (getCodim1EntityLocalIndices Cube (fst ic)) (fst ic) (square_orders order)
      [(0, (0, 1, 2)); (1, (1, 3, 0)); (2, (3, 2, 1)); (3, (2, 0, 3)); (4, (2, 3, 0)); (5, (1, 0, 3)); (6, (3, 1, 2)); (7, (0, 2, 1))])
    [(0, newFaceCube_2); (1, newFaceCube_1); (2, newFaceCube_0); (3, newFaceCube_0); (4, newFaceCube_1); (5, newFaceCube_2)])).
(** BasisFunctions3DH1ConformingPrism.cpp:626-769 *)
Definition createFaceBasisFunctionSet3DH1ConformingPrism (order : nat) :=
  positive order (all_sets (
    flat_map (fun i =>
      oriented_sets newFacePrism_0 (getCodim1EntityLocalIndices TriangularPrism i) i (triangle_orders order) triangle_orientations)
      (seq 0 2) ++
    flat_map (fun i =>
      oriented_sets newFacePrism_0 (getCodim1EntityLocalIndices TriangularPrism i) i (square_orders order)
        [(0, (0, 1, 2)); (1, (1, 2, 3)); (2, (2, 3, 0)); (3, (3, 0, 1)); (4, (3, 2, 1)); (5, (1, 0, 3)); (6, (2, 1, 0)); (7, (0, 3, 2))])
      (seq 2 3))).

(** ** The sets that MeshManipulator uses *)

(** MeshManipulator_Impl.h:154-231 useDefaultDGBasisFunctions: the set of an element with a given shape *)
Definition default_DG_set (s : shape) (order : nat) : option (list basis_function) :=
  match s with
  | Line => createDGBasisFunctionSet1DH1Line order
  | Square => createDGBasisFunctionSet2DH1Square order
  | Triangle => createDGBasisFunctionSet2DH1Triangle order
  | Cube => createDGBasisFunctionSet3DH1Cube order
  | Tetrahedron => createDGBasisFunctionSet3DH1Tetrahedron order
  | TriangularPrism => createDGBasisFunctionSet3DH1ConformingPrism order
  | Pyramid => createDGBasisFunctionSet3DH1ConformingPyramid order
  | _ => None
  end.

(** The sets of useDefaultConformingBasisFunctions (MeshManipulator_Impl.h:391-705): interior, faces, edges, nodes *)
Record conforming_sets := ConformingSets {
  interior_set : list basis_function;
  face_sets : list oriented_set;
  edge_sets : list oriented_set;
  node_sets : list oriented_set }.
(** MeshManipulator_Impl.h:422-606 *)
Definition default_conforming_sets (s : shape) (order : nat) : option conforming_sets :=
  match s with
  | Line =>
      i <- createInteriorBasisFunctionSet1DH1Line order; f <- createVertexBasisFunctionSet1DH1Line order;
      Some (ConformingSets i f [] [])
  | Square =>
      i <- createInteriorBasisFunctionSet2DH1Square order; f <- createFaceBasisFunctionSet2DH1Square order;
      n <- createVertexBasisFunctionSet2DH1Square order; Some (ConformingSets i f [] n)
  | Triangle =>
      i <- createInteriorBasisFunctionSet2DH1Triangle order; f <- createFaceBasisFunctionSet2DH1Triangle order;
      n <- createVertexBasisFunctionSet2DH1Triangle order; Some (ConformingSets i f [] n)
  | Cube =>
      i <- createInteriorBasisFunctionSet3DH1Cube order; f <- createFaceBasisFunctionSet3DH1Cube order;
      e <- createEdgeBasisFunctionSet3DH1Cube order; n <- createVertexBasisFunctionSet3DH1Cube order;
      Some (ConformingSets i f e n)
  | Tetrahedron =>
      i <- createInteriorBasisFunctionSet3DH1Tetrahedron order; f <- createFaceBasisFunctionSet3DH1Tetrahedron order;
      e <- createEdgeBasisFunctionSet3DH1Tetrahedron order; n <- createVertexBasisFunctionSet3DH1Tetrahedron order;
      Some (ConformingSets i f e n)
  | TriangularPrism =>
      i <- createInteriorBasisFunctionSet3DH1ConformingPrism order; f <- createFaceBasisFunctionSet3DH1ConformingPrism order;
      e <- createEdgeBasisFunctionSet3DH1ConformingPrism order; n <- createVertexBasisFunctionSet3DH1ConformingPrism order;
      Some (ConformingSets i f e n)
  | Pyramid =>
      i <- createInteriorBasisFunctionSet3DH1ConformingPyramid order;
      n <- createVertexBasisFunctionSet3DH1ConformingPyramid order; Some (ConformingSets i [] [] n)
  | _ => None
  end.

(** the set that the loops of MeshManipulator_Impl.h:613-653,660-681 select: the last one that matches
    (setFaceBasisFunctionSet, setEdgeBasisFunctionSet replace an earlier choice) *)
Definition select (o i : nat) (sets : list oriented_set) : option (list basis_function) :=
  fold_left (fun r s => if checkOrientation o i s then Some (functions s) else r) sets None.
(** MeshManipulator_Impl.h:613-653: the functions of face [i] in the element with shape [s]; the orientation is 0
    in the left element and the index of the face-to-face map in the right element *)
Definition face_functions (s : shape) (order o i : nat) : option (list basis_function) :=
  sets <- default_conforming_sets s order; select o i (face_sets sets).
(** MeshManipulator_Impl.h:655-682 *)
Definition edge_functions (s : shape) (order o i : nat) : option (list basis_function) :=
  sets <- default_conforming_sets s order; select o i (edge_sets sets).
(** MeshManipulator_Impl.h:683-704 *)
Definition node_functions (s : shape) (order i : nat) : option (list basis_function) :=
  sets <- default_conforming_sets s order; t <- nth_error (node_sets sets) i; Some (functions t).

End Sets.

(** Edge.cpp:55-64 addElement: orientation of the edge in an element, from the indices of its two nodes in the list
    of coordinates of the mesh (PhysicalGeometry::getNodeIndex) *)
Definition edge_orientation (index0 index1 : nat) : nat := if index0 <? index1 then 0 else 1.
