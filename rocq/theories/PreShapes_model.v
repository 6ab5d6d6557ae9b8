(** The shapes of the preprocessor: applications/Preprocessor/lib/mesh/ElementShapes.cpp *)
From Coq Require Import List Arith.
From Verif Require Import PreMesh_model.
Import ListNotations.

(** ElementShapes.cpp:193-200 generateVertices *)
Definition generateVertices (n : nat) : list (list nat) := map (fun i => [i]) (seq 0 n).

(** ElementShapes.cpp:74-76 *)
Definition line : shape := [generateVertices 2].
Definition line2 : shape := [generateVertices 3].
(** ElementShapes.cpp:78-94 *)
Definition triangle : shape := [generateVertices 3; [[0; 1]; [0; 2]; [1; 2]]].
Definition square : shape := [generateVertices 4; [[0; 1]; [0; 2]; [1; 3]; [2; 3]]].
Definition triangle2 : shape := [generateVertices 6; [[0; 1; 2]; [0; 3; 5]; [2; 4; 5]]].
(** ElementShapes.cpp:96-107 *)
Definition tetrahedron : shape :=
  [generateVertices 4; [[0; 1]; [0; 2]; [0; 3]; [2; 3]; [1; 3]; [1; 2]]; [[0; 3; 2]; [0; 1; 3]; [0; 2; 1]; [1; 2; 3]]].
(** ElementShapes.cpp:109-133 *)
Definition cube : shape :=
  [generateVertices 8;
   [[0; 1]; [2; 3]; [4; 5]; [6; 7]; [0; 2]; [1; 3]; [4; 6]; [5; 7]; [0; 4]; [1; 5]; [2; 6]; [3; 7]];
   [[0; 1; 2; 3]; [0; 1; 4; 5]; [0; 2; 4; 6]; [1; 3; 5; 7]; [2; 3; 6; 7]; [4; 5; 6; 7]]].
(** ElementShapes.cpp:135-154 *)
Definition triangularPrism : shape :=
  [generateVertices 6; [[0; 1]; [0; 2]; [1; 2]; [3; 4]; [3; 5]; [4; 5]; [0; 3]; [1; 4]; [2; 5]];
   [[0; 2; 1]; [3; 4; 5]; [2; 0; 5; 3]; [0; 1; 3; 4]; [1; 2; 4; 5]]].
(** ElementShapes.cpp:155-169 *)
Definition pyramid : shape :=
  [generateVertices 5; [[0; 1]; [0; 2]; [0; 3]; [0; 4]; [1; 2]; [2; 4]; [4; 3]; [3; 1]];
   [[3; 4; 1; 2]; [3; 1; 0]; [2; 4; 0]; [1; 2; 0]; [4; 3; 0]]].
(** ElementShapes.cpp:171-189 *)
Definition tetrahedron2 : shape :=
  [generateVertices 10; [[0; 1; 2]; [0; 3; 5]; [0; 6; 9]; [5; 8; 9]; [2; 7; 9]; [2; 4; 5]];
   [[0; 6; 9; 3; 8; 5]; [0; 1; 2; 6; 7; 9]; [0; 3; 5; 1; 4; 2]; [2; 4; 5; 7; 8; 9]]].

(** ElementShapes.cpp:213-220 hpgemShapes, by dimension *)
Definition hpgemShapes (dimension : nat) : list shape :=
  match dimension with
  | 1 => [line; line2]
  | 2 => [triangle; triangle2; square]
  | 3 => [tetrahedron; cube; triangularPrism; pyramid; tetrahedron2]
  | _ => []
  end.
(** Mesh_Impl.h:297-306 findGeometry; [None] is the ERROR *)
Definition findGeometry (dimension numberOfNodes : nat) : option shape :=
  find (fun s => match getNumberOfEntities s 0 with Some n => n =? numberOfNodes | None => false end) (hpgemShapes dimension).
