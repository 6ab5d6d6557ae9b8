(** Model of the reference elements with extra nodes for curved sides:
    kernel/Geometry/ReferenceCurvilinear{Line,Triangle,Tetrahedron}.cpp,
    ReferenceCurvilinearElement_Impl.h and ReferenceGeometryFactory.cpp.

    Real numbers instead of doubles; [None] for a logged failure.  Each (order, shape) has one
    object, created on first use (the static maps): here the object is the pair itself. *)
From Coq Require Import List Arith Bool ZArith Reals.
From Verif Require Import Matrix_model RefGeometry_model.
Import ListNotations.
Local Open Scope R_scope.

(** ReferenceCurvilinearLine.cpp:69-79 createReferencePoints *)
Definition line_points (order : nat) : list point :=
  let h := 2 / INR order in
  map (fun i => [-1 + INR i * h]) (seq 0 (order + 1)).

(** ReferenceCurvilinearTriangle.cpp:85-100 createPoints *)
Definition triangle_points (order : nat) : list point :=
  let h := 1 / INR order in
  flat_map (fun i => map (fun j => [INR j * h; INR i * h]) (seq 0 (order + 1 - i))) (seq 0 (order + 1)).

(** ReferenceCurvilinearTetrahedron.cpp:90-107 createPoints *)
Definition tetrahedron_points (order : nat) : list point :=
  let h := 1 / INR order in
  flat_map (fun iz => flat_map (fun iy => map (fun ix => [INR ix * h; INR iy * h; INR iz * h])
    (seq 0 (order + 1 - iz - iy))) (seq 0 (order + 1 - iz))) (seq 0 (order + 1)).

(** A reference element: one of the basic shapes, or a basic shape (the baseGeometry_) with
    the nodes of the given order. *)
Inductive geometry :=
| Base (s : shape)
| Curvilinear (s : shape) (order : nat).

Definition base (g : geometry) : shape := match g with Base s => s | Curvilinear s _ => s end.
(** getReferenceNodeCoordinate, getNumberOfNodes (ReferenceCurvilinearElement.h) *)
Definition geometry_points (g : geometry) : list point :=
  match g with
  | Base s => points s
  | Curvilinear Line o => line_points o
  | Curvilinear Triangle o => triangle_points o
  | Curvilinear Tetrahedron o => tetrahedron_points o
  | Curvilinear _ _ => []
  end.

(** the integer nearest to x, halves away from zero (std::lround) *)
Definition lround (x : R) : Z := if Rle_dec 0 x then Int_part (x + 1/2) else (- Int_part (- x + 1/2))%Z.

(** ReferenceCurvilinearTriangle.cpp:52-66 getOrderFromPoints; for no points at all the
    subtraction in std::size_t wraps around, and so does the product: 9 + 8 * (0 - 1) = 1.
    The conversions to int and std::size_t are exact for sizes below 2^31. *)
Definition triangle_order (n : nat) : Z :=
  let orderD := - (3/2) + sqrt (9 + 8 * (INR n - 1)) / 2 in
  let order := lround orderD in
  if ((order + 2) * (order + 1) / 2 =? Z.of_nat n)%Z then order else (-1)%Z.

(** ReferenceCurvilinearTetrahedron.cpp:54-68 getOrderFromPoints: the loop, run at most
    [fuel] times *)
Fixpoint tetrahedron_order_loop (fuel tetraNumber order n : nat) : option Z :=
  match fuel with
  | O => None
  | S fuel' =>
      if (tetraNumber <=? n)%nat then
        if (tetraNumber =? n)%nat then Some (Z.of_nat order)
        else
          let order := S order in
          tetrahedron_order_loop fuel' (tetraNumber + ((order + 1) * (order + 2)) / 2)%nat order n
      else Some (-1)%Z
  end.
Definition tetrahedron_order (n : nat) : option Z := tetrahedron_order_loop (S n) 1 0 n.

(** ReferenceGeometryFactory.cpp:56-141 getGeometry, getGeometry0 .. getGeometry4 *)
Definition getGeometry (dim numberOfPoints : nat) : option geometry :=
  match dim, numberOfPoints with
  | 0, 1 => Some (Base Point)
  | 1, 2 => Some (Base Line)
  | 1, n => if (2 <? n)%nat then Some (Curvilinear Line (n - 1)) else None
  | 2, 3 => Some (Base Triangle)
  | 2, 4 => Some (Base Square)
  | 2, n => if (0 <? triangle_order n)%Z then Some (Curvilinear Triangle (Z.to_nat (triangle_order n))) else None
  | 3, 4 => Some (Base Tetrahedron)
  | 3, 5 => Some (Base Pyramid)
  | 3, 6 => Some (Base TriangularPrism)
  | 3, 8 => Some (Base Cube)
  | 3, n =>
      match tetrahedron_order n with
      | Some o => if (0 <? o)%Z then Some (Curvilinear Tetrahedron (Z.to_nat o)) else None
      | None => None
      end
  | 4, 16 => Some (Base Hypercube)
  | _, _ => None
  end%nat.

(** l2NormSquared of a difference *)
Fixpoint distance_squared (p q : point) : R :=
  match p, q with x :: p', y :: q' => (x - y) * (x - y) + distance_squared p' q' | _, _ => 0 end.

(** ReferenceCurvilinearElement_Impl.h:212-225 findPoint: index of the first point closer than 1e-8 *)
Fixpoint find_point (p : point) (ps : list point) : option nat :=
  match ps with
  | [] => None
  | q :: ps' =>
      if Rlt_dec (distance_squared p q) (/ 10 ^ 8 * / 10 ^ 8) then Some O
      else match find_point p ps' with Some i => Some (S i) | None => None end
  end.
Fixpoint find_points (qs ps : list point) : option (list nat) :=
  match qs with
  | [] => Some []
  | q :: qs' =>
      match find_point q ps, find_points qs' ps with Some i, Some l => Some (i :: l) | _, _ => None end
  end.

(** ReferenceCurvilinearElement_Impl.h:88-92 baseGeometryIndicices_ *)
Definition base_indices (g : geometry) : option (list nat) := find_points (points (base g)) (geometry_points g).

(** the sides of a curvilinear element: ReferenceCurvilinearTriangle.cpp:104-115 (lines of the same
    order), ReferenceCurvilinearTetrahedron.cpp:109-122 (triangles and lines of the same order),
    ReferenceCurvilinearElement_Impl.h:141-152 (points for the line) *)
Definition codim1_geometry (g : geometry) (index : nat) : option geometry :=
  match g with
  | Base s => match getCodim1ReferenceGeometry s index with Some fs => Some (Base fs) | None => None end
  | Curvilinear s o =>
      match getCodim1ReferenceGeometry s index with
      | Some Point => Some (Base Point)
      | Some fs => Some (Curvilinear fs o)
      | None => None
      end
  end.

Fixpoint map_points (m : refmap) (ps : list point) : option (list point) :=
  match ps with
  | [] => Some []
  | p :: ps' =>
      match transform m p, map_points m ps' with Some q, Some qs => Some (q :: qs) | _, _ => None end
  end.

(** ReferenceCurvilinearElement_Impl.h:243-262 computeCodim1Indices and 119-134
    getCodim1EntityLocalIndices (for the line: one of the end points) *)
Definition codim1_indices (g : geometry) (index : nat) : option (list nat) :=
  match g with
  | Base s => getCodim1EntityLocalIndices s index
  | Curvilinear Line o =>
      match base_indices g with
      | Some l => match nth_error l index with Some i => Some [i] | None => None end
      | None => None
      end
  | Curvilinear s o =>
      match getCodim1MappingPtr s index, codim1_geometry g index with
      | Some m, Some cg =>
          match map_points m (geometry_points cg) with
          | Some qs => find_points qs (geometry_points g)
          | None => None
          end
      | _, _ => None
      end
  end.

(** ReferenceCurvilinearElement_Impl.h:103-119 getCodim0MappingIndex: the entries of the lists
    that belong to the corners decide *)
Fixpoint select (l : list nat) (indices : list nat) : option (list nat) :=
  match indices with
  | [] => Some []
  | i :: r => match nth_error l i, select l r with Some x, Some xs => Some (x :: xs) | _, _ => None end
  end.
Definition codim0_mapping_index (g : geometry) (v1 v2 : list nat) : option nat :=
  match g with
  | Base s => getCodim0MappingIndex s v1 v2
  | Curvilinear s _ =>
      match base_indices g with
      | Some b =>
          match select v1 b, select v2 b with
          | Some w1, Some w2 => getCodim0MappingIndex s w1 w2
          | _, _ => None
          end
      | None => None
      end
  end.
