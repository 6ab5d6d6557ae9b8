(** Where VTK expects the points of its cells.  The functions follow the sources of VTK (vtkHigherOrderCurve,
    vtkHigherOrderQuadrilateral, vtkHigherOrderHexahedron: PointIndexFromIJK, the numbering up to version 2.1 of the file
    format; vtkHigherOrderTriangle, vtkHigherOrderTetra: BarycentricIndex), which is what reads the output. *)
From Coq Require Import List Arith Bool Reals.
From Verif Require Import RefGeometry_model Curvilinear_model.
Import ListNotations.

(** The lattice points of a line, square or cube have the coordinates -1 + 2 k / order, k = 0, ..., order. *)
Definition lattice (order k : nat) : R := (-1 + 2 * (INR k / INR order))%R.

(** The number of the point (i, j, k) of the lattice *)
Definition vtk_curve_index (order i : nat) : nat :=
  if i =? 0 then 0 else if i =? order then 1 else i + 1.

Definition on_boundary (order i : nat) : bool := (i =? 0) || (i =? order).
Definition yes (i : nat) : bool := negb (i =? 0).

Definition vtk_quadrilateral_index (order i j : nat) : nat :=
  match on_boundary order i, on_boundary order j with
  | true, true => if yes i then (if yes j then 2 else 1) else (if yes j then 3 else 0)
  | false, true => (i - 1) + (if yes j then (order - 1) + (order - 1) else 0) + 4
  | true, false => (j - 1) + (if yes i then order - 1 else 2 * (order - 1) + (order - 1)) + 4
  | false, false => 4 + 2 * ((order - 1) + (order - 1)) + (i - 1) + (order - 1) * (j - 1)
  end.

Definition vtk_hexahedron_index (order i j k : nat) : nat :=
  let m := order - 1 in
  match on_boundary order i, on_boundary order j, on_boundary order k with
  | true, true, true => (if yes i then (if yes j then 2 else 1) else (if yes j then 3 else 0)) + (if yes k then 4 else 0)
  | false, true, true => (i - 1) + (if yes j then m + m else 0) + (if yes k then 2 * (m + m) else 0) + 8
  | true, false, true => (j - 1) + (if yes i then m else 2 * m + m) + (if yes k then 2 * (m + m) else 0) + 8
  | true, true, false => (k - 1) + m * (if yes i then (if yes j then 3 else 1) else (if yes j then 2 else 0)) + (8 + 4 * m + 4 * m)
  | true, false, false => (j - 1) + m * (k - 1) + (if yes i then m * m else 0) + (8 + 4 * (m + m + m))
  | false, true, false => (i - 1) + m * (k - 1) + (if yes j then m * m else 0) + (8 + 4 * (m + m + m) + 2 * m * m)
  | false, false, true => (i - 1) + m * (j - 1) + (if yes k then m * m else 0) + (8 + 4 * (m + m + m) + 2 * m * m + 2 * m * m)
  | false, false, false =>
      (8 + 4 * (m + m + m) + 2 * m * m + 2 * m * m + 2 * m * m) + (i - 1) + m * ((j - 1) + m * (k - 1))
  end.

(** The barycentric index of the point with a number in a triangle.  The loop walks to the layer of the point; [None] when
    [fuel] does not suffice for it. *)
Fixpoint vtk_triangle_loop (fuel index max min order : nat) : option (list nat) :=
  if negb (index =? 0) && (3 * order <=? index) then
    match fuel with
    | O => None
    | S fuel => vtk_triangle_loop fuel (index - 3 * order) (max - 2) (min + 1) (order - 3)
    end
  else if index <? 3 then
    Some (map (fun c => if c =? (index + 2) mod 3 then max else min) [0; 1; 2])
  else
    let dim := (index - 3) / (order - 1) in
    let offset := (index - 3) - dim * (order - 1) in
    Some (map (fun c => if c =? (dim + 1) mod 3 then min else if c =? (dim + 2) mod 3 then (max - 1) - offset else (min + 1) + offset)
      [0; 1; 2]).
Definition vtk_triangle (index order : nat) : option (list nat) := vtk_triangle_loop order index order 0 order.

(** The same for a tetrahedron *)
Definition vtk_vertex_max (v : nat) : nat := nth v [3; 0; 1; 2] 0.
Definition vtk_edge (e : nat) : nat * nat := nth e [(0, 1); (1, 2); (2, 0); (0, 3); (1, 3); (2, 3)] (0, 0).
Definition vtk_linear_vertex (v c : nat) : nat := if c =? vtk_vertex_max v then 1 else 0.
Definition vtk_face_coords (f : nat) : list nat := nth f [[0; 2; 3]; [2; 0; 1]; [2; 1; 3]; [1; 0; 3]] [].
(** the coordinate [c] of a point with the coordinates [p] in the places [m], and [min] elsewhere *)
Fixpoint placed (m p : list nat) (min c : nat) : nat :=
  match m, p with
  | x :: m', y :: p' => if c =? x then y else placed m' p' min c
  | _, _ => min
  end.
Fixpoint vtk_tetrahedron_loop (fuel index max min order : nat) : option (list nat) :=
  if (2 * (order * order + 1) <=? index) && negb (index =? 0) && (3 <? order) then
    match fuel with
    | O => None
    | S fuel => vtk_tetrahedron_loop fuel (index - 2 * (order * order + 1)) (max - 3) (min + 1) (order - 4)
    end
  else if index <? 4 then
    Some (map (fun c => if c =? vtk_vertex_max index then max else min) [0; 1; 2; 3])
  else if index - 4 <? 6 * (order - 1) then
    let edge := vtk_edge ((index - 4) / (order - 1)) in
    let vertex := (index - 4) mod (order - 1) in
    Some (map (fun c => min + (vtk_linear_vertex (fst edge) c * (max - min - 1 - vertex) + vtk_linear_vertex (snd edge) c * (1 + vertex)))
      [0; 1; 2; 3])
  else
    let perFace := (order - 2) * (order - 1) / 2 in
    let face := (index - 4 - 6 * (order - 1)) / perFace in
    let vertex := (index - 4 - 6 * (order - 1)) - face * perFace in
    match (if order =? 3 then Some [0; 0; 0] else vtk_triangle vertex (order - 3)) with
    | None => None
    | Some projected =>
        Some (map (placed (vtk_face_coords face) (map (fun x => min + 1 + x) projected) min) [0; 1; 2; 3])
    end.
Definition vtk_tetrahedron (index order : nat) : option (list nat) := vtk_tetrahedron_loop order index order 0 order.

(** The coordinates that belong to a barycentric index: all but the last, divided by the order. *)
Definition from_barycentric (order : nat) (b : list nat) : point := map (fun x => INR x / INR order)%R (removelast b).
