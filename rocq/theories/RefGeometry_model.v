(** Model of the reference geometries and the mappings between them:
    kernel/Geometry/Reference{Point,Line,Triangle,Square,Tetrahedron,Pyramid,
    TriangularPrism,Cube,Hypercube}.cpp and
    kernel/Geometry/Mappings/MappingToRef*.cpp, MappingRefLineToTetrahedron.cpp.

    Coordinates are real numbers (rounding is not modelled).  A point is the list of
    its coordinates, a Jacobian a matrix in the storage order of the code.  A point of
    the wrong dimension, an index out of range and a logged ERROR or FATAL are
    [None].  The singletons behind [Instance()] and the arrays of pointers to them
    are the functions from shape and index to mapping below.  The mappings were
    transcribed from the sources by a script. *)
From Coq Require Import List Arith Bool Reals.
From Verif Require Import Matrix_model.
Import ListNotations.
Local Open Scope R_scope.

Definition point := list R.

(** MappingReferenceToReference.h:66-104 *)
Record refmap := RefMap {
  transform : point -> option point;
  calcJacobian : point -> option (matrix R) }.
(** MappingReferenceToReference.h:110-123 BoundaryFaceMapping *)
Record boundary_map := BoundaryFaceMapping {
  face_map :> refmap;
  outwardNormalSign : R }.

(** MappingToRefPointToPoint.cpp:52-64 *)
Definition PointToPoint : refmap :=
  RefMap (fun p => match p with [] => Some [] | _ => None end)
    (fun p => match p with [] => Some (Mat 0 0 []) | _ => None end).
(** MappingToRefLineToLine.cpp:67-81 *)
Definition LineToLine0 : refmap :=
  RefMap (fun p => match p with [x] => Some [x] | _ => None end)
    (fun p => match p with [_] => Some (Mat 1 1 [1]) | _ => None end).
(** MappingToRefLineToLine.cpp:95-109 *)
Definition LineToLine1 : refmap :=
  RefMap (fun p => match p with [x] => Some [-x] | _ => None end)
    (fun p => match p with [_] => Some (Mat 1 1 [-1]) | _ => None end).
(** MappingToRefTriangleToTriangle.cpp:57-74 *)
Definition TriangleToTriangle0 : refmap :=
  RefMap (fun p => match p with [x;y] => Some [x; y] | _ => None end)
    (fun p => match p with [_;_] => Some (Mat 2 2 [1; 0; 0; 1]) | _ => None end).
(** MappingToRefTriangleToTriangle.cpp:89-106 *)
Definition TriangleToTriangle1 : refmap :=
  RefMap (fun p => match p with [x;y] => Some [y; x] | _ => None end)
    (fun p => match p with [_;_] => Some (Mat 2 2 [0; 1; 1; 0]) | _ => None end).
(** MappingToRefTriangleToTriangle.cpp:121-138 *)
Definition TriangleToTriangle2 : refmap :=
  RefMap (fun p => match p with [x;y] => Some [1 - x - y; x] | _ => None end)
    (fun p => match p with [_;_] => Some (Mat 2 2 [-1; 1; -1; 0]) | _ => None end).
(** MappingToRefTriangleToTriangle.cpp:153-170 *)
Definition TriangleToTriangle3 : refmap :=
  RefMap (fun p => match p with [x;y] => Some [1 - x - y; y] | _ => None end)
    (fun p => match p with [_;_] => Some (Mat 2 2 [-1; 0; -1; 1]) | _ => None end).
(** MappingToRefTriangleToTriangle.cpp:185-202 *)
Definition TriangleToTriangle4 : refmap :=
  RefMap (fun p => match p with [x;y] => Some [x; 1 - x - y] | _ => None end)
    (fun p => match p with [_;_] => Some (Mat 2 2 [1; -1; 0; -1]) | _ => None end).
(** MappingToRefTriangleToTriangle.cpp:217-234 *)
Definition TriangleToTriangle5 : refmap :=
  RefMap (fun p => match p with [x;y] => Some [y; 1 - x - y] | _ => None end)
    (fun p => match p with [_;_] => Some (Mat 2 2 [0; -1; 1; -1]) | _ => None end).
(** MappingToRefSquareToSquare.cpp:56-73 *)
Definition SquareToSquare0 : refmap :=
  RefMap (fun p => match p with [x;y] => Some [x; y] | _ => None end)
    (fun p => match p with [_;_] => Some (Mat 2 2 [1; 0; 0; 1]) | _ => None end).
(** MappingToRefSquareToSquare.cpp:87-104 *)
Definition SquareToSquare1 : refmap :=
  RefMap (fun p => match p with [x;y] => Some [-y; x] | _ => None end)
    (fun p => match p with [_;_] => Some (Mat 2 2 [0; 1; -1; 0]) | _ => None end).
(** MappingToRefSquareToSquare.cpp:118-135 *)
Definition SquareToSquare2 : refmap :=
  RefMap (fun p => match p with [x;y] => Some [-x; -y] | _ => None end)
    (fun p => match p with [_;_] => Some (Mat 2 2 [-1; 0; 0; -1]) | _ => None end).
(** MappingToRefSquareToSquare.cpp:149-166 *)
Definition SquareToSquare3 : refmap :=
  RefMap (fun p => match p with [x;y] => Some [y; -x] | _ => None end)
    (fun p => match p with [_;_] => Some (Mat 2 2 [0; -1; 1; 0]) | _ => None end).
(** MappingToRefSquareToSquare.cpp:180-197 *)
Definition SquareToSquare4 : refmap :=
  RefMap (fun p => match p with [x;y] => Some [x; -y] | _ => None end)
    (fun p => match p with [_;_] => Some (Mat 2 2 [1; 0; 0; -1]) | _ => None end).
(** MappingToRefSquareToSquare.cpp:211-228 *)
Definition SquareToSquare5 : refmap :=
  RefMap (fun p => match p with [x;y] => Some [-x; y] | _ => None end)
    (fun p => match p with [_;_] => Some (Mat 2 2 [-1; 0; 0; 1]) | _ => None end).
(** MappingToRefSquareToSquare.cpp:242-259 *)
Definition SquareToSquare6 : refmap :=
  RefMap (fun p => match p with [x;y] => Some [-y; -x] | _ => None end)
    (fun p => match p with [_;_] => Some (Mat 2 2 [0; -1; -1; 0]) | _ => None end).
(** MappingToRefSquareToSquare.cpp:273-290 *)
Definition SquareToSquare7 : refmap :=
  RefMap (fun p => match p with [x;y] => Some [y; x] | _ => None end)
    (fun p => match p with [_;_] => Some (Mat 2 2 [0; 1; 1; 0]) | _ => None end).
(** MappingToRefCubeToCube.cpp:54-76 *)
Definition CubeToCube0 : refmap :=
  RefMap (fun p => match p with [x;y;z] => Some [x; y; z] | _ => None end)
    (fun p => match p with [_;_;_] => Some (Mat 3 3 [1; 0; 0; 0; 1; 0; 0; 0; 1]) | _ => None end).
(** MappingToRefCubeToCube.cpp:88-110 *)
Definition CubeToCube1 : refmap :=
  RefMap (fun p => match p with [x;y;z] => Some [x; -z; y] | _ => None end)
    (fun p => match p with [_;_;_] => Some (Mat 3 3 [1; 0; 0; 0; 0; 1; 0; -1; 0]) | _ => None end).
(** MappingToRefCubeToCube.cpp:122-144 *)
Definition CubeToCube2 : refmap :=
  RefMap (fun p => match p with [x;y;z] => Some [x; -y; -z] | _ => None end)
    (fun p => match p with [_;_;_] => Some (Mat 3 3 [1; 0; 0; 0; -1; 0; 0; 0; -1]) | _ => None end).
(** MappingToRefCubeToCube.cpp:156-178 *)
Definition CubeToCube3 : refmap :=
  RefMap (fun p => match p with [x;y;z] => Some [x; z; -y] | _ => None end)
    (fun p => match p with [_;_;_] => Some (Mat 3 3 [1; 0; 0; 0; 0; -1; 0; 1; 0]) | _ => None end).
(** MappingToRefCubeToCube.cpp:190-212 *)
Definition CubeToCube4 : refmap :=
  RefMap (fun p => match p with [x;y;z] => Some [x; y; -z] | _ => None end)
    (fun p => match p with [_;_;_] => Some (Mat 3 3 [1; 0; 0; 0; 1; 0; 0; 0; -1]) | _ => None end).
(** MappingToRefCubeToCube.cpp:224-246 *)
Definition CubeToCube5 : refmap :=
  RefMap (fun p => match p with [x;y;z] => Some [x; -y; z] | _ => None end)
    (fun p => match p with [_;_;_] => Some (Mat 3 3 [1; 0; 0; 0; -1; 0; 0; 0; 1]) | _ => None end).
(** MappingToRefCubeToCube.cpp:258-280 *)
Definition CubeToCube6 : refmap :=
  RefMap (fun p => match p with [x;y;z] => Some [x; -z; -y] | _ => None end)
    (fun p => match p with [_;_;_] => Some (Mat 3 3 [1; 0; 0; 0; 0; -1; 0; -1; 0]) | _ => None end).
(** MappingToRefCubeToCube.cpp:292-314 *)
Definition CubeToCube7 : refmap :=
  RefMap (fun p => match p with [x;y;z] => Some [x; z; y] | _ => None end)
    (fun p => match p with [_;_;_] => Some (Mat 3 3 [1; 0; 0; 0; 0; 1; 0; 1; 0]) | _ => None end).
(** MappingToRefPointToLine.cpp:67-82 *)
Definition PointToLine0 : boundary_map := BoundaryFaceMapping
  (RefMap (fun p => match p with [] => Some [-1] | _ => None end)
    (fun p => match p with [] => Some (Mat 1 0 []) | _ => None end))
  (-1).
(** MappingToRefPointToLine.cpp:94-109 *)
Definition PointToLine1 : boundary_map := BoundaryFaceMapping
  (RefMap (fun p => match p with [] => Some [1] | _ => None end)
    (fun p => match p with [] => Some (Mat 1 0 []) | _ => None end))
  (1).
(** MappingToRefLineToTriangle.cpp:56-74 *)
Definition LineToTriangle0 : boundary_map := BoundaryFaceMapping
  (RefMap (fun p => match p with [x] => Some [(1/2) * (1 + x); 0] | _ => None end)
    (fun p => match p with [_] => Some (Mat 2 1 [(1/2); 0]) | _ => None end))
  (-1).
(** MappingToRefLineToTriangle.cpp:86-104 *)
Definition LineToTriangle1 : boundary_map := BoundaryFaceMapping
  (RefMap (fun p => match p with [x] => Some [0; (1/2) * (1 + x)] | _ => None end)
    (fun p => match p with [_] => Some (Mat 2 1 [0; (1/2)]) | _ => None end))
  (1).
(** MappingToRefLineToTriangle.cpp:116-134 *)
Definition LineToTriangle2 : boundary_map := BoundaryFaceMapping
  (RefMap (fun p => match p with [x] => Some [(1/2) * (1 - x); (1/2) * (1 + x)] | _ => None end)
    (fun p => match p with [_] => Some (Mat 2 1 [-(1/2); (1/2)]) | _ => None end))
  (-1).
(** MappingToRefLineToSquare.cpp:56-74 *)
Definition LineToSquare0 : boundary_map := BoundaryFaceMapping
  (RefMap (fun p => match p with [x] => Some [x; -1] | _ => None end)
    (fun p => match p with [_] => Some (Mat 2 1 [1; 0]) | _ => None end))
  (-1).
(** MappingToRefLineToSquare.cpp:86-104 *)
Definition LineToSquare1 : boundary_map := BoundaryFaceMapping
  (RefMap (fun p => match p with [x] => Some [-1; x] | _ => None end)
    (fun p => match p with [_] => Some (Mat 2 1 [0; 1]) | _ => None end))
  (1).
(** MappingToRefLineToSquare.cpp:116-134 *)
Definition LineToSquare2 : boundary_map := BoundaryFaceMapping
  (RefMap (fun p => match p with [x] => Some [1; x] | _ => None end)
    (fun p => match p with [_] => Some (Mat 2 1 [0; 1]) | _ => None end))
  (-1).
(** MappingToRefLineToSquare.cpp:146-164 *)
Definition LineToSquare3 : boundary_map := BoundaryFaceMapping
  (RefMap (fun p => match p with [x] => Some [x; 1] | _ => None end)
    (fun p => match p with [_] => Some (Mat 2 1 [1; 0]) | _ => None end))
  (1).
(** MappingToRefTriangleToTetrahedron.cpp:55-78 *)
Definition TriangleToTetrahedron0 : boundary_map := BoundaryFaceMapping
  (RefMap (fun p => match p with [x;y] => Some [0; y; x] | _ => None end)
    (fun p => match p with [_;_] => Some (Mat 3 2 [0; 0; 1; 0; 1; 0]) | _ => None end))
  (1).
(** MappingToRefTriangleToTetrahedron.cpp:89-112 *)
Definition TriangleToTetrahedron1 : boundary_map := BoundaryFaceMapping
  (RefMap (fun p => match p with [x;y] => Some [x; 0; y] | _ => None end)
    (fun p => match p with [_;_] => Some (Mat 3 2 [1; 0; 0; 0; 0; 1]) | _ => None end))
  (1).
(** MappingToRefTriangleToTetrahedron.cpp:123-146 *)
Definition TriangleToTetrahedron2 : boundary_map := BoundaryFaceMapping
  (RefMap (fun p => match p with [x;y] => Some [y; x; 0] | _ => None end)
    (fun p => match p with [_;_] => Some (Mat 3 2 [0; 1; 0; 1; 0; 0]) | _ => None end))
  (1).
(** MappingToRefTriangleToTetrahedron.cpp:157-180 *)
Definition TriangleToTetrahedron3 : boundary_map := BoundaryFaceMapping
  (RefMap (fun p => match p with [x;y] => Some [1 - x - y; x; y] | _ => None end)
    (fun p => match p with [_;_] => Some (Mat 3 2 [-1; 1; 0; -1; 0; 1]) | _ => None end))
  (1).
(** MappingToRefSquareToCube.cpp:54-77 *)
Definition SquareToCube0 : boundary_map := BoundaryFaceMapping
  (RefMap (fun p => match p with [x;y] => Some [x; y; -1] | _ => None end)
    (fun p => match p with [_;_] => Some (Mat 3 2 [1; 0; 0; 0; 1; 0]) | _ => None end))
  (-1).
(** MappingToRefSquareToCube.cpp:87-110 *)
Definition SquareToCube1 : boundary_map := BoundaryFaceMapping
  (RefMap (fun p => match p with [x;y] => Some [x; -1; y] | _ => None end)
    (fun p => match p with [_;_] => Some (Mat 3 2 [1; 0; 0; 0; 0; 1]) | _ => None end))
  (1).
(** MappingToRefSquareToCube.cpp:120-143 *)
Definition SquareToCube2 : boundary_map := BoundaryFaceMapping
  (RefMap (fun p => match p with [x;y] => Some [-1; x; y] | _ => None end)
    (fun p => match p with [_;_] => Some (Mat 3 2 [0; 1; 0; 0; 0; 1]) | _ => None end))
  (-1).
(** MappingToRefSquareToCube.cpp:153-176 *)
Definition SquareToCube3 : boundary_map := BoundaryFaceMapping
  (RefMap (fun p => match p with [x;y] => Some [1; x; y] | _ => None end)
    (fun p => match p with [_;_] => Some (Mat 3 2 [0; 1; 0; 0; 0; 1]) | _ => None end))
  (1).
(** MappingToRefSquareToCube.cpp:186-209 *)
Definition SquareToCube4 : boundary_map := BoundaryFaceMapping
  (RefMap (fun p => match p with [x;y] => Some [x; 1; y] | _ => None end)
    (fun p => match p with [_;_] => Some (Mat 3 2 [1; 0; 0; 0; 0; 1]) | _ => None end))
  (-1).
(** MappingToRefSquareToCube.cpp:219-242 *)
Definition SquareToCube5 : boundary_map := BoundaryFaceMapping
  (RefMap (fun p => match p with [x;y] => Some [x; y; 1] | _ => None end)
    (fun p => match p with [_;_] => Some (Mat 3 2 [1; 0; 0; 0; 1; 0]) | _ => None end))
  (1).
(** MappingToRefFaceToPyramid.cpp:54-77 *)
Definition FaceToPyramid0 : boundary_map := BoundaryFaceMapping
  (RefMap (fun p => match p with [x;y] => Some [x; -y; 0] | _ => None end)
    (fun p => match p with [_;_] => Some (Mat 3 2 [1; 0; 0; 0; -1; 0]) | _ => None end))
  (1).
(** MappingToRefFaceToPyramid.cpp:87-110 *)
Definition FaceToPyramid1 : boundary_map := BoundaryFaceMapping
  (RefMap (fun p => match p with [x;y] => Some [-1 + y; 1 - 2 * x - y; y] | _ => None end)
    (fun p => match p with [_;_] => Some (Mat 3 2 [0; -2; 0; 1; -1; 1]) | _ => None end))
  (1).
(** MappingToRefFaceToPyramid.cpp:120-143 *)
Definition FaceToPyramid2 : boundary_map := BoundaryFaceMapping
  (RefMap (fun p => match p with [x;y] => Some [1 - y; -1 + 2 * x + y; y] | _ => None end)
    (fun p => match p with [_;_] => Some (Mat 3 2 [0; 2; 0; -1; 1; 1]) | _ => None end))
  (1).
(** MappingToRefFaceToPyramid.cpp:153-176 *)
Definition FaceToPyramid3 : boundary_map := BoundaryFaceMapping
  (RefMap (fun p => match p with [x;y] => Some [-1 + 2 * x + y; -1 + y; y] | _ => None end)
    (fun p => match p with [_;_] => Some (Mat 3 2 [2; 0; 0; 1; 1; 1]) | _ => None end))
  (1).
(** MappingToRefFaceToPyramid.cpp:186-209 *)
Definition FaceToPyramid4 : boundary_map := BoundaryFaceMapping
  (RefMap (fun p => match p with [x;y] => Some [1 - 2 * x - y; 1 - y; y] | _ => None end)
    (fun p => match p with [_;_] => Some (Mat 3 2 [-2; 0; 0; -1; -1; 1]) | _ => None end))
  (1).
(** MappingToRefFaceToTriangularPrism.cpp:55-78 *)
Definition FaceToTriangularPrism0 : boundary_map := BoundaryFaceMapping
  (RefMap (fun p => match p with [x;y] => Some [y; x; -1] | _ => None end)
    (fun p => match p with [_;_] => Some (Mat 3 2 [0; 1; 0; 1; 0; 0]) | _ => None end))
  (1).
(** MappingToRefFaceToTriangularPrism.cpp:89-112 *)
Definition FaceToTriangularPrism1 : boundary_map := BoundaryFaceMapping
  (RefMap (fun p => match p with [x;y] => Some [x; y; 1] | _ => None end)
    (fun p => match p with [_;_] => Some (Mat 3 2 [1; 0; 0; 0; 1; 0]) | _ => None end))
  (1).
(** MappingToRefFaceToTriangularPrism.cpp:123-146 *)
Definition FaceToTriangularPrism2 : boundary_map := BoundaryFaceMapping
  (RefMap (fun p => match p with [x;y] => Some [0; (1/2) * (1 - x); y] | _ => None end)
    (fun p => match p with [_;_] => Some (Mat 3 2 [0; -(1/2); 0; 0; 0; 1]) | _ => None end))
  (1).
(** MappingToRefFaceToTriangularPrism.cpp:157-180 *)
Definition FaceToTriangularPrism3 : boundary_map := BoundaryFaceMapping
  (RefMap (fun p => match p with [x;y] => Some [(1/2) * (1 + x); 0; y] | _ => None end)
    (fun p => match p with [_;_] => Some (Mat 3 2 [(1/2); 0; 0; 0; 0; 1]) | _ => None end))
  (1).
(** MappingToRefFaceToTriangularPrism.cpp:191-214 *)
Definition FaceToTriangularPrism4 : boundary_map := BoundaryFaceMapping
  (RefMap (fun p => match p with [x;y] => Some [(1/2) * (1 - x); (1/2) * (1 + x); y] | _ => None end)
    (fun p => match p with [_;_] => Some (Mat 3 2 [-(1/2); (1/2); 0; 0; 0; 1]) | _ => None end))
  (1).
(** MappingToRefCubeToHypercube.cpp:56-86 *)
Definition CubeToHypercube0 : boundary_map := BoundaryFaceMapping
  (RefMap (fun p => match p with [x;y;z] => Some [x; y; z; -1] | _ => None end)
    (fun p => match p with [_;_;_] => Some (Mat 4 3 [1; 0; 0; 0; 0; 1; 0; 0; 0; 0; 1; 0]) | _ => None end))
  (-1).
(** MappingToRefCubeToHypercube.cpp:96-126 *)
Definition CubeToHypercube1 : boundary_map := BoundaryFaceMapping
  (RefMap (fun p => match p with [x;y;z] => Some [x; y; -1; z] | _ => None end)
    (fun p => match p with [_;_;_] => Some (Mat 4 3 [1; 0; 0; 0; 0; 1; 0; 0; 0; 0; 0; 1]) | _ => None end))
  (1).
(** MappingToRefCubeToHypercube.cpp:136-166 *)
Definition CubeToHypercube2 : boundary_map := BoundaryFaceMapping
  (RefMap (fun p => match p with [x;y;z] => Some [x; -1; y; z] | _ => None end)
    (fun p => match p with [_;_;_] => Some (Mat 4 3 [1; 0; 0; 0; 0; 0; 1; 0; 0; 0; 0; 1]) | _ => None end))
  (-1).
(** MappingToRefCubeToHypercube.cpp:176-206 *)
Definition CubeToHypercube3 : boundary_map := BoundaryFaceMapping
  (RefMap (fun p => match p with [x;y;z] => Some [-1; x; y; z] | _ => None end)
    (fun p => match p with [_;_;_] => Some (Mat 4 3 [0; 1; 0; 0; 0; 0; 1; 0; 0; 0; 0; 1]) | _ => None end))
  (1).
(** MappingToRefCubeToHypercube.cpp:216-246 *)
Definition CubeToHypercube4 : boundary_map := BoundaryFaceMapping
  (RefMap (fun p => match p with [x;y;z] => Some [1; x; y; z] | _ => None end)
    (fun p => match p with [_;_;_] => Some (Mat 4 3 [0; 1; 0; 0; 0; 0; 1; 0; 0; 0; 0; 1]) | _ => None end))
  (-1).
(** MappingToRefCubeToHypercube.cpp:256-286 *)
Definition CubeToHypercube5 : boundary_map := BoundaryFaceMapping
  (RefMap (fun p => match p with [x;y;z] => Some [x; 1; y; z] | _ => None end)
    (fun p => match p with [_;_;_] => Some (Mat 4 3 [1; 0; 0; 0; 0; 0; 1; 0; 0; 0; 0; 1]) | _ => None end))
  (1).
(** MappingToRefCubeToHypercube.cpp:296-326 *)
Definition CubeToHypercube6 : boundary_map := BoundaryFaceMapping
  (RefMap (fun p => match p with [x;y;z] => Some [x; y; 1; z] | _ => None end)
    (fun p => match p with [_;_;_] => Some (Mat 4 3 [1; 0; 0; 0; 0; 1; 0; 0; 0; 0; 0; 1]) | _ => None end))
  (-1).
(** MappingToRefCubeToHypercube.cpp:336-366 *)
Definition CubeToHypercube7 : boundary_map := BoundaryFaceMapping
  (RefMap (fun p => match p with [x;y;z] => Some [x; y; z; 1] | _ => None end)
    (fun p => match p with [_;_;_] => Some (Mat 4 3 [1; 0; 0; 0; 0; 1; 0; 0; 0; 0; 1; 0]) | _ => None end))
  (1).

(** ReferenceGeometry.h:71-81 ReferenceGeometryType *)
Inductive shape := Point | Line | Triangle | Square | Tetrahedron | Pyramid | TriangularPrism | Cube | Hypercube.

(** the template argument of PointReference for the shape: Reference*.h getCenter *)
Definition dimension (s : shape) : nat :=
  match s with
  | Point => 0 | Line => 1 | Triangle => 2 | Square => 2
  | Tetrahedron => 3 | Pyramid => 3 | TriangularPrism => 3 | Cube => 3
  | Hypercube => 4
  end.

(** [points_]: ReferencePoint.cpp:49-56, ReferenceLine.cpp:60-61, ReferenceSimplex_Impl.h:20-30 (the
    origin and the unit vectors), ReferenceSquare.cpp:103-106, ReferencePyramid.cpp:67-71,
    ReferenceTriangularPrism.cpp:62-67, ReferenceCube.cpp:66-73, ReferenceHypercube.cpp:65-80 *)
Definition points (s : shape) : list point :=
  match s with
  | Point => [[]]
  | Line => [[-1]; [1]]
  | Triangle => [[0;0]; [1;0]; [0;1]]
  | Square => [[-1;-1]; [1;-1]; [-1;1]; [1;1]]
  | Tetrahedron => [[0;0;0]; [1;0;0]; [0;1;0]; [0;0;1]]
  | Pyramid => [[0;0;1]; [-1;-1;0]; [1;-1;0]; [-1;1;0]; [1;1;0]]
  | TriangularPrism => [[0;0;-1]; [1;0;-1]; [0;1;-1]; [0;0;1]; [1;0;1]; [0;1;1]]
  | Cube => [[-1;-1;-1]; [1;-1;-1]; [-1;1;-1]; [1;1;-1]; [-1;-1;1]; [1;-1;1]; [-1;1;1]; [1;1;1]]
  | Hypercube =>
      [[-1;-1;-1;-1]; [1;-1;-1;-1]; [-1;1;-1;-1]; [1;1;-1;-1]; [-1;-1;1;-1]; [1;-1;1;-1]; [-1;1;1;-1]; [1;1;1;-1];
       [-1;-1;-1;1]; [1;-1;-1;1]; [-1;1;-1;1]; [1;1;-1;1]; [-1;-1;1;1]; [1;-1;1;1]; [-1;1;1;1]; [1;1;1;1]]
  end.

(** the comparison of doubles *)
Definition leb (x y : R) : bool := if Rle_dec x y then true else false.

(** isInternalPoint: ReferencePoint.cpp:58-62, ReferenceLine.cpp:71-73, ReferenceTriangle.cpp:88-93,
    ReferenceSquare.cpp:110-114, ReferenceTetrahedron.cpp:86-91, ReferencePyramid.cpp:81-86,
    ReferenceTriangularPrism.cpp:82-88, ReferenceCube.cpp:93-98, ReferenceHypercube.cpp:93-97 *)
Definition isInternalPoint (s : shape) (p : point) : option bool :=
  match s, p with
  | Point, [] => Some true
  | Line, [x] => Some (leb (-1) x && leb x 1)
  | Triangle, [x;y] => Some (leb 0 x && leb x 1 && leb 0 y && leb y (1 - x))
  | Square, [x;y] => Some (leb (-1) x && leb x 1 && leb (-1) y && leb y 1)
  | Tetrahedron, [x;y;z] => Some (leb 0 x && leb x 1 && leb 0 y && leb y (1 - x) && leb 0 z && leb z (1 - x - y))
  | Pyramid, [x;y;z] => Some (leb 0 z && leb z 1 && leb (Rabs x) (1 - z) && leb (Rabs y) (1 - z))
  | TriangularPrism, [x;y;z] => Some (leb (-1) z && leb z 1 && leb 0 x && leb x 1 && leb 0 y && leb y (1 - x))
  | Cube, [x;y;z] => Some (leb (-1) x && leb x 1 && leb (-1) y && leb y 1 && leb (-1) z && leb z 1)
  | Hypercube, [x;y;z;w] =>
      Some (leb (-1) x && leb x 1 && leb (-1) y && leb y 1 && leb (-1) z && leb z 1 && leb (-1) w && leb w 1)
  | _, _ => None
  end.

(** getCodim1EntityLocalIndices and the tables localNodeIndexes_: ReferenceLine.cpp:54,114-122,
    ReferenceTriangle.cpp:59-60,132-139, ReferenceSquare.cpp:60-65,184-192, ReferenceTetrahedron.cpp:56-57,112-119,
    ReferencePyramid.cpp:52-54,142-153, ReferenceTriangularPrism.cpp:49-50,127-143, ReferenceCube.cpp:52-54,169-174,
    ReferenceHypercube.cpp:48-53,148-156 *)
Definition getCodim1EntityLocalIndices (s : shape) (face : nat) : option (list nat) :=
  nth_error
    match s with
    | Point => []
    | Line => [[0]; [1]]
    | Triangle => [[0;1]; [0;2]; [1;2]]
    | Square => [[0;1]; [0;2]; [1;3]; [2;3]]
    | Tetrahedron => [[0;3;2]; [0;1;3]; [0;2;1]; [1;2;3]]
    | Pyramid => [[3;4;1;2]; [3;1;0]; [2;4;0]; [1;2;0]; [4;3;0]]
    | TriangularPrism => [[0;2;1]; [3;4;5]; [2;0;5;3]; [0;1;3;4]; [1;2;4;5]]
    | Cube => [[0;1;2;3]; [0;1;4;5]; [0;2;4;6]; [1;3;5;7]; [2;3;6;7]; [4;5;6;7]]
    | Hypercube =>
        [[0;1;2;3;4;5;6;7]; [0;1;2;3;8;9;10;11]; [0;1;4;5;8;9;12;13]; [0;2;4;6;8;10;12;14];
         [1;3;5;7;9;11;13;15]; [2;3;6;7;10;11;14;15]; [4;5;6;7;12;13;14;15]; [8;9;10;11;12;13;14;15]]
    end%nat face.

(** getCodim1ReferenceGeometry: ReferenceLine.cpp:124-130, ReferenceTriangle.cpp:141-147,
    ReferenceSquare.cpp:194-200, ReferenceTetrahedron.cpp:121-127, ReferencePyramid.cpp:132-140,
    ReferenceTriangularPrism.cpp:145-158, ReferenceCube.cpp:163-167 (there the assertion allows 8 faces; here 6),
    ReferenceHypercube.cpp:140-146 *)
Definition getCodim1ReferenceGeometry (s : shape) (face : nat) : option shape :=
  nth_error
    match s with
    | Point => []
    | Line => [Point; Point]
    | Triangle => [Line; Line; Line]
    | Square => [Line; Line; Line; Line]
    | Tetrahedron => [Triangle; Triangle; Triangle; Triangle]
    | Pyramid => [Square; Triangle; Triangle; Triangle; Triangle]
    | TriangularPrism => [Triangle; Triangle; Square; Square; Square]
    | Cube => [Square; Square; Square; Square; Square; Square]
    | Hypercube => [Cube; Cube; Cube; Cube; Cube; Cube; Cube; Cube]
    end face.

(** getCodim1MappingPtr and the constructors: ReferenceLine.cpp:67-68, ReferenceTriangle.cpp:66-71,
    ReferenceSquare.cpp:73-80, ReferenceTetrahedron.cpp:76-83, ReferencePyramid.cpp:74-78,
    ReferenceTriangularPrism.cpp:70-79, ReferenceCube.cpp:76-81, ReferenceHypercube.cpp:83-90 *)
Definition getCodim1MappingPtr (s : shape) (face : nat) : option boundary_map :=
  nth_error
    match s with
    | Point => []
    | Line => [PointToLine0; PointToLine1]
    | Triangle => [LineToTriangle0; LineToTriangle1; LineToTriangle2]
    | Square => [LineToSquare0; LineToSquare1; LineToSquare2; LineToSquare3]
    | Tetrahedron =>
        [TriangleToTetrahedron0; TriangleToTetrahedron1; TriangleToTetrahedron2; TriangleToTetrahedron3]
    | Pyramid => [FaceToPyramid0; FaceToPyramid1; FaceToPyramid2; FaceToPyramid3; FaceToPyramid4]
    | TriangularPrism =>
        [FaceToTriangularPrism0; FaceToTriangularPrism1; FaceToTriangularPrism2; FaceToTriangularPrism3;
         FaceToTriangularPrism4]
    | Cube => [SquareToCube0; SquareToCube1; SquareToCube2; SquareToCube3; SquareToCube4; SquareToCube5]
    | Hypercube =>
        [CubeToHypercube0; CubeToHypercube1; CubeToHypercube2; CubeToHypercube3; CubeToHypercube4; CubeToHypercube5;
         CubeToHypercube6; CubeToHypercube7]
    end face.

(** getCodim0MappingPtr and the constructors: ReferencePoint.cpp:74-80, ReferenceLine.cpp:64-65,
    ReferenceTriangle.cpp:74-85, ReferenceSquare.cpp:84-99, ReferenceCube.cpp:83-90; FATAL for the others *)
Definition getCodim0MappingPtr (s : shape) (i : nat) : option refmap :=
  nth_error
    match s with
    | Point => [PointToPoint]
    | Line => [LineToLine0; LineToLine1]
    | Triangle =>
        [TriangleToTriangle0; TriangleToTriangle1; TriangleToTriangle2; TriangleToTriangle3; TriangleToTriangle4;
         TriangleToTriangle5]
    | Square =>
        [SquareToSquare0; SquareToSquare1; SquareToSquare2; SquareToSquare3; SquareToSquare4; SquareToSquare5;
         SquareToSquare6; SquareToSquare7]
    | Cube =>
        [CubeToCube0; CubeToCube1; CubeToCube2; CubeToCube3; CubeToCube4; CubeToCube5; CubeToCube6; CubeToCube7]
    | _ => []
    end i.

(** getCodim0MappingIndex: ReferencePoint.cpp:64-74, ReferenceLine.cpp:89-101, ReferenceTriangle.cpp:97-121,
    ReferenceSquare.cpp:131-173, ReferenceCube.cpp:116-146; FATAL for the others *)
Definition getCodim0MappingIndex (s : shape) (list1 list2 : list nat) : option nat :=
  match s, list1, list2 with
  | Point, [_], [_] => Some 0
  | Line, [a0; _], [b0; _] => if a0 =? b0 then Some 0 else Some 1
  | Triangle, [a0; a1; _], [b0; b1; b2] =>
      if a0 =? b0 then
        if a1 =? b1 then Some 0 else Some 1
      else if a0 =? b1 then
        if a1 =? b2 then Some 2 else Some 3
      else if a1 =? b1 then Some 4 else Some 5
  | Square, [a0; a1; a2; a3], [b0; b1; b2; b3] =>
      if a0 =? b0 then
        if a1 =? b1 then Some 0 else if a3 =? b3 then Some 7 else None
      else if a0 =? b1 then
        if a1 =? b0 then Some 5 else if a1 =? b3 then Some 3 else None
      else if a0 =? b2 then
        if a2 =? b0 then Some 4 else if a2 =? b3 then Some 1 else None
      else
        if a1 =? b1 then Some 6 else if a1 =? b2 then Some 2 else None
  | Cube, [a0; a1; a2; a3; a4; a5; a6; a7], [b0; b1; b2; b3; b4; b5; b6; b7] =>
      if (a0 =? b0) && (a4 =? b4) then
        if a1 =? b1 then Some 0 else Some 7
      else if (a0 =? b1) && (a4 =? b5) then
        if a1 =? b0 then Some 5 else Some 3
      else if (a0 =? b2) && (a4 =? b6) then
        if a2 =? b0 then Some 4 else Some 1
      else if (a0 =? b3) && (a4 =? b7) then
        if a1 =? b1 then Some 6 else Some 2
      else None
  | _, _, _ => None
  end%nat.

(** getCodim2EntityLocalIndices of the three-dimensional shapes and their tables localNodesOnEdge_:
    ReferenceTetrahedron.cpp:59-60,140-147, ReferencePyramid.cpp:56-58,172-179,
    ReferenceTriangularPrism.cpp:52-53,171-178, ReferenceCube.cpp:56-59,193-198 *)
Definition getCodim2EntityLocalIndices (s : shape) (edge : nat) : option (list nat) :=
  nth_error
    match s with
    | Tetrahedron => [[0;1]; [0;2]; [0;3]; [2;3]; [1;3]; [1;2]]
    | Pyramid => [[0;1]; [0;2]; [0;3]; [0;4]; [1;2]; [2;4]; [4;3]; [3;1]]
    | TriangularPrism => [[0;1]; [0;2]; [1;2]; [3;4]; [3;5]; [4;5]; [0;3]; [1;4]; [2;5]]
    | Cube => [[0;1]; [2;3]; [4;5]; [6;7]; [0;2]; [1;3]; [4;6]; [5;7]; [0;4]; [1;5]; [2;6]; [3;7]]
    | _ => []
    end%nat edge.

(** MappingRefLineToTetrahedron.cpp:42-68: the mapping for one edge, and the only non-null
    getCodim2MappingPtr (ReferenceTetrahedron.cpp:157-161) to a line *)
Definition LineToTetrahedron (edge : nat) : option refmap :=
  match getCodim2EntityLocalIndices Tetrahedron edge with
  | Some [n1; n2] =>
      match nth_error (points Tetrahedron) n1, nth_error (points Tetrahedron) n2 with
      | Some [x1; y1; z1], Some [x2; y2; z2] =>
          let b0 := (x1 + x2) / 2 in let b1 := (y1 + y2) / 2 in let b2 := (z1 + z2) / 2 in
          let d0 := (x2 - x1) / 2 in let d1 := (y2 - y1) / 2 in let d2 := (z2 - z1) / 2 in
          Some (RefMap
            (fun p => match p with [t] => Some [b0 + d0 * t; b1 + d1 * t; b2 + d2 * t] | _ => None end)
            (fun p => match p with [_] => Some (Mat 3 1 [d0; d1; d2]) | _ => None end))
      | _, _ => None
      end
  | _ => None
  end.
