(** Model of the elements in the output for ParaView: kernel/Output/VTKLagrangeCurve.cpp, VTKLagrangeQuadrilateral.cpp,
    VTKLagrangeHexahedron.cpp, VTKLagrangeTriangle.cpp, VTKLagrangeTetrahedron.cpp and VTKStandardElements.cpp.

    Coordinates are real numbers; rounding is not modelled.  A constructor is a list of assignments to entries of the array
    of points, in the order of the program.  An index outside of the array and a failed assertion are [None].  For order 0,
    [order - 1] wraps around and 1.0 / order is infinite; the model ends before such a value is used, because an earlier
    assignment is outside of the array or by the test for order 0. *)
From Coq Require Import List Arith Bool Reals.
From Verif Require Import Loop_model RefGeometry_model Curvilinear_model.
Import ListNotations.
Local Open Scope R_scope.

(** assignments [array[index] = value], one after the other *)
Definition assign {A : Type} (array : list A) (writes : list (nat * A)) : option (list A) :=
  fold_left (fun acc w => match acc with Some a => write a (fst w) (snd w) | None => None end) writes (Some array).
(** [array[index++] = value] for all values in turn *)
Definition numbered {A : Type} (index : nat) (values : list A) : list (nat * A) := combine (seq index (length values)) values.
(** a [PointReference] that was not assigned *)
Definition unset : point := [].

(** [points_[index] = p] *)
Definition set (index : nat) (p : point) : nat * point := (index, p).

(** VTKLagrangeCurve.cpp:43-53 *)
Definition curve (order : nat) : option (list point) :=
  let h := 2 / INR order in
  assign (repeat unset (1 + order))
    ([set 0 [-1]; set 1 [1]] ++ map (fun i => set (i + 1) [-1 + INR i * h]) (seq 1 (order - 1))).

(** VTKLagrangeQuadrilateral.cpp:44-80 *)
Definition quadrilateral_writes (order : nat) : list (nat * point) :=
  let h := 2 / INR order in
  [set 0 [-1; -1]; set 1 [1; -1]; set 2 [1; 1]; set 3 [-1; 1]] ++
  flat_map (fun i =>
    [set (4 + 0 * order + i) [-1 + INR (i + 1) * h; -1];
     set (3 + 1 * order + i) [1; -1 + INR (i + 1) * h];
     set (2 + 2 * order + i) [-1 + INR (i + 1) * h; 1];
     set (1 + 3 * order + i) [-1; -1 + INR (i + 1) * h]]) (seq 0 (order - 1)).
Definition quadrilateral_inner (order : nat) : list point :=
  let h := 2 / INR order in
  flat_map (fun i => let y := -1 + INR (i + 1) * h in
    map (fun j => let x := -1 + INR (j + 1) * h in [x; y]) (seq 0 (order - 1))) (seq 0 (order - 1)).
Definition quadrilateral (order : nat) : option (list point) :=
  let size := ((order + 1) * (order + 1))%nat in
  let index := (4 * order)%nat in
  match assign (repeat unset size) (quadrilateral_writes order ++ numbered index (quadrilateral_inner order)) with
  | Some points => if (index + length (quadrilateral_inner order) =? size)%nat then Some points else None
  | None => None
  end.

(** VTKLagrangeHexahedron.cpp:43-133: corners and edges *)
Definition hexahedron_edges (order : nat) : list (nat * point) :=
  let h := 2 / INR order in
  let offset := 8%nat in
  [set 0 [-1; -1; -1]; set 1 [1; -1; -1]; set 2 [1; 1; -1]; set 3 [-1; 1; -1];
   set 4 [-1; -1; 1]; set 5 [1; -1; 1]; set 6 [1; 1; 1]; set 7 [-1; 1; 1]] ++
  flat_map (fun i =>
    let dx := INR (i + 1) * h in
    [set (offset + 0 * (order - 1) + i) [-1 + dx; -1; -1];
     set (offset + 1 * (order - 1) + i) [1; -1 + dx; -1];
     set (offset + 2 * (order - 1) + i) [-1 + dx; 1; -1];
     set (offset + 3 * (order - 1) + i) [-1; -1 + dx; -1];
     set (offset + 4 * (order - 1) + i) [-1 + dx; -1; 1];
     set (offset + 5 * (order - 1) + i) [1; -1 + dx; 1];
     set (offset + 6 * (order - 1) + i) [-1 + dx; 1; 1];
     set (offset + 7 * (order - 1) + i) [-1; -1 + dx; 1];
     set (offset + 8 * (order - 1) + i) [-1; -1; -1 + dx];
     set (offset + 9 * (order - 1) + i) [1; -1; -1 + dx];
     set (offset + 10 * (order - 1) + i) [-1; 1; -1 + dx];
     set (offset + 11 * (order - 1) + i) [1; 1; -1 + dx]]) (seq 0 (order - 1)).
(** the faces, 89-115 *)
Definition hexahedron_faces (order : nat) : list (nat * point) :=
  let h := 2 / INR order in
  let offset := (8 + 12 * (order - 1))%nat in
  let facePoints := ((order - 1) * (order - 1))%nat in
  flat_map (fun i =>
    let slow := -1 + INR (i + 1) * h in
    flat_map (fun j =>
      let fast := -1 + INR (j + 1) * h in
      [set (offset + 0 * facePoints + i * (order - 1) + j) [-1; fast; slow];
       set (offset + 1 * facePoints + i * (order - 1) + j) [1; fast; slow];
       set (offset + 2 * facePoints + i * (order - 1) + j) [fast; -1; slow];
       set (offset + 3 * facePoints + i * (order - 1) + j) [fast; 1; slow];
       set (offset + 4 * facePoints + i * (order - 1) + j) [fast; slow; -1];
       set (offset + 5 * facePoints + i * (order - 1) + j) [fast; slow; 1]]) (seq 0 (order - 1))) (seq 0 (order - 1)).
(** 118-130: the inside *)
Definition hexahedron_inner (order : nat) : list point :=
  let h := 2 / INR order in
  flat_map (fun zi => let z := -1 + INR (zi + 1) * h in
    flat_map (fun yi => let y := -1 + INR (yi + 1) * h in
      map (fun xi => let x := -1 + INR (xi + 1) * h in [x; y; z]) (seq 0 (order - 1))) (seq 0 (order - 1))) (seq 0 (order - 1)).
Definition hexahedron (order : nat) : option (list point) :=
  let size := ((order + 1) * (order + 1) * (order + 1))%nat in
  let offset := (8 + 12 * (order - 1) + 6 * ((order - 1) * (order - 1)))%nat in
  match assign (repeat unset size) (hexahedron_edges order ++ hexahedron_faces order ++ numbered offset (hexahedron_inner order)) with
  | Some points => if (offset + length (hexahedron_inner order) =? size)%nat then Some points else None
  | None => None
  end.

(** ** Triangles and tetrahedra, in scaled barycentric coordinates *)
(** std::valarray operator+ *)
Fixpoint vplus (a b : list nat) : list nat :=
  match a, b with x :: a', y :: b' => (x + y)%nat :: vplus a' b' | _, _ => [] end.

(** VTKLagrangeTriangle.cpp:68-96: the assignments for a layer and the index behind it *)
Definition triangle_layer (order layer index : nat) : list (nat * list nat) * nat :=
  let offset := [layer; layer; layer] in
  let rOrder := (order - 3 * layer)%nat in
  let first := (index, vplus offset [rOrder; 0; 0])%nat in
  if (rOrder =? 0)%nat then ([first], index + 1)%nat
  else
    (first :: [(index + 1, vplus offset [0; rOrder; 0]); (index + 2, vplus offset [0; 0; rOrder])]%nat ++
     flat_map (fun i =>
       let i1 := (i + 1)%nat in
       let i2 := (rOrder - i - 1)%nat in
       [(index + 3 + i + 0 * (rOrder - 1), vplus offset [i2; i1; 0]);
        (index + 3 + i + 1 * (rOrder - 1), vplus offset [0; i2; i1]);
        (index + 3 + i + 2 * (rOrder - 1), vplus offset [i1; 0; i2])]%nat) (seq 0 (rOrder - 1)),
     (index + 3 + 3 * (rOrder - 1))%nat).
(** 67: the loop over the layers; it has order / 3 + 1 steps.  The [break] is reached in the last of them only. *)
Definition layers (layer : nat -> nat -> list (nat * list nat) * nat) (n : nat) : list (nat * list nat) * nat :=
  fold_left (fun st l => match st with (ws, index) => match layer l index with (w, index') => (ws ++ w, index') end end)
    (seq 0 n) ([], 0%nat).

(** 54-104 computeBaryIntegerPoints *)
Definition computeBaryIntegerPoints (order : nat) : option (list (list nat)) :=
  let numPoints := ((order + 1) * (order + 2) / 2)%nat in
  match layers (triangle_layer order) (order / 3 + 1) with
  | (ws, index) =>
      match assign (repeat [] numPoints) ws with
      | Some points => if (index =? numPoints)%nat then Some points else None
      | None => None
      end
  end.
(** VTKLagrangeTriangle.cpp:44-54.  For order 0, 1.0 / order is infinite and infinity times 0 is not a number. *)
Definition triangle (order : nat) : option (list point) :=
  let h := 1 / INR order in
  if (order =? 0)%nat then None
  else option_map (map (fun b => [h * INR (nth 1 b 0%nat); h * INR (nth 2 b 0%nat)])) (computeBaryIntegerPoints order).

(** VTKLagrangeTetrahedron.cpp:157-163 *)
Definition faceMapping : list (list nat) := [[0; 1; 3]; [2; 3; 1]; [0; 3; 2]; [0; 2; 1]]%nat.
(** 167-170: a point with the coordinates of [p] in the places [m] and zero in the fourth *)
Definition localPoint (m p : list nat) : option (list nat) :=
  assign [0; 0; 0; 0]%nat (combine m p).

Fixpoint all_some {A : Type} (l : list (option A)) : option (list A) :=
  match l with
  | [] => Some []
  | x :: l' => match x, all_some l' with Some x, Some r => Some (x :: r) | _, _ => None end
  end.

(** 68-176: the assignments for a layer and the index behind it *)
Definition tetrahedron_layer (order layer index : nat) : option (list (nat * list nat) * nat) :=
  let offset := [layer; layer; layer; layer] in
  let rOrder := (order - 4 * layer)%nat in
  let first := (index, vplus offset [rOrder; 0; 0; 0])%nat in
  if (rOrder =? 0)%nat then Some ([first], index + 1)%nat
  else
    let corners := [(index + 1, vplus offset [0; rOrder; 0; 0]); (index + 2, vplus offset [0; 0; rOrder; 0]);
                    (index + 3, vplus offset [0; 0; 0; rOrder])]%nat in
    let edges := flat_map (fun i =>
      let ito := (i + 1)%nat in
      let ifrom := (rOrder - ito)%nat in
      [(index + 4 + 0 * (rOrder - 1) + i, vplus offset [ifrom; ito; 0; 0]);
       (index + 4 + 1 * (rOrder - 1) + i, vplus offset [0; ifrom; ito; 0]);
       (index + 4 + 2 * (rOrder - 1) + i, vplus offset [ito; 0; ifrom; 0]);
       (index + 4 + 3 * (rOrder - 1) + i, vplus offset [ifrom; 0; 0; ito]);
       (index + 4 + 4 * (rOrder - 1) + i, vplus offset [0; ifrom; 0; ito]);
       (index + 4 + 5 * (rOrder - 1) + i, vplus offset [0; 0; ifrom; ito])]%nat) (seq 0 (rOrder - 1)) in
    match computeBaryIntegerPoints rOrder with
    | None => None
    | Some facePoints =>
        let skip := (3 * rOrder)%nat in
        if (length facePoints <? skip)%nat then None
        else
          match all_some (flat_map (fun m => map (fun p => localPoint m p) (skipn skip facePoints)) faceMapping) with
          | None => None
          | Some faces =>
              let start := (index + 4 + 6 * (rOrder - 1))%nat in
              Some (first :: corners ++ edges ++ numbered start (map (vplus offset) faces), (start + length faces)%nat)
          end
    end.
Definition tetrahedron_layers (order n : nat) : option (list (nat * list nat) * nat) :=
  fold_left (fun st l =>
    match st with
    | Some (ws, index) => match tetrahedron_layer order l index with Some (w, index') => Some (ws ++ w, index') | None => None end
    | None => None
    end) (seq 0 n) (Some ([], 0%nat)).
(** VTKLagrangeTetrahedron.cpp:64-182 *)
Definition tetrahedron_bary (order : nat) : option (list (list nat)) :=
  let numPoints := ((order + 1) * (order + 2) * (order + 3) / 6)%nat in
  match tetrahedron_layers order (order / 4 + 1) with
  | Some (ws, index) =>
      match assign (repeat [] numPoints) ws with
      | Some points => if (index =? numPoints)%nat then Some points else None
      | None => None
      end
  | None => None
  end.
(** VTKLagrangeTetrahedron.cpp:46-189 *)
Definition tetrahedron (order : nat) : option (list point) :=
  let h := 1 / INR order in
  if (order =? 0)%nat then None
  else option_map (map (fun b => [h * INR (nth 1 b 0%nat); h * INR (nth 2 b 0%nat); h * INR (nth 3 b 0%nat)])) (tetrahedron_bary order).

(** ** VTKStandardElements.cpp:46-98 *)
Definition vtkPoint : list point := [[]].
Definition vtkLine : list point := [[-1]; [1]].
Definition vtkTriangle : list point := [[0; 0]; [1; 0]; [0; 1]].
Definition vtkQuad : list point := [[-1; -1]; [1; -1]; [1; 1]; [-1; 1]].
Definition vtkTetra : list point := [[0; 0; 0]; [1; 0; 0]; [0; 1; 0]; [0; 0; 1]].
Definition vtkHexahedron : list point :=
  [[-1; -1; -1]; [1; -1; -1]; [1; 1; -1]; [-1; 1; -1]; [-1; -1; 1]; [1; -1; 1]; [1; 1; 1]; [-1; 1; 1]].
Definition vtkWedge : list point := [[0; 0; -1]; [1; 0; -1]; [0; 1; -1]; [0; 0; 1]; [1; 0; 1]; [0; 1; 1]].
Definition vtkPyramid : list point := [[-1; -1; 0]; [1; -1; 0]; [1; 1; 0]; [-1; 1; 0]; [0; 0; 1]].
