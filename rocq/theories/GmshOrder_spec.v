(** The reference elements of Gmsh and those of hpGEM. *)
From Coq Require Import List Arith ZArith Reals.
From Verif Require Import RefGeometry_model Curvilinear_model.
Import ListNotations.
Local Open Scope R_scope.

(** the nodes of the reference elements in the order of Gmsh (Gmsh reference manual, section Node ordering): the vertices,
    then the middles of the edges *)
Definition gmsh_points (t : Z) : list (list R) :=
  match t with
  | 15%Z => [[]]
  | 1%Z => [[-1]; [1]]
  | 8%Z => [[-1]; [1]; [0]]
  | 2%Z => [[0;0]; [1;0]; [0;1]]
  | 9%Z => [[0;0]; [1;0]; [0;1]; [1/2;0]; [1/2;1/2]; [0;1/2]]
  | 3%Z => [[-1;-1]; [1;-1]; [1;1]; [-1;1]]
  | 5%Z => [[-1;-1;-1]; [1;-1;-1]; [1;1;-1]; [-1;1;-1]; [-1;-1;1]; [1;-1;1]; [1;1;1]; [-1;1;1]]
  | 6%Z => [[0;0;-1]; [1;0;-1]; [0;1;-1]; [0;0;1]; [1;0;1]; [0;1;1]]
  | 7%Z => [[-1;-1;0]; [1;-1;0]; [1;1;0]; [-1;1;0]; [0;0;1]]
  | 11%Z => [[0;0;0]; [1;0;0]; [0;1;0]; [0;0;1]; [1/2;0;0]; [1/2;1/2;0]; [0;1/2;0]; [0;0;1/2]; [0;1/2;1/2]; [1/2;0;1/2]]
  | _ => []
  end.
(** the reference elements of hpGEM for the same types *)
Definition hpgem_element (t : Z) : option geometry :=
  match t with
  | 15%Z => Some (Base Point)
  | 1%Z => Some (Base Line)
  | 8%Z => Some (Curvilinear Line 2)
  | 2%Z => Some (Base Triangle)
  | 9%Z => Some (Curvilinear Triangle 2)
  | 3%Z => Some (Base Square)
  | 5%Z => Some (Base Cube)
  | 6%Z => Some (Base TriangularPrism)
  | 7%Z => Some (Base Pyramid)
  | 11%Z => Some (Curvilinear Tetrahedron 2)
  | _ => None
  end.

(** affine maps: the rows of a matrix, and a vector *)
Fixpoint inner (a b : list R) : R := match a, b with x :: a', y :: b' => x * y + inner a' b' | _, _ => 0 end.
Fixpoint plus (a b : list R) : list R := match a, b with x :: a', y :: b' => (x + y) :: plus a' b' | _, _ => [] end.
Definition affine (M : list (list R)) (c p : list R) : list R := plus (map (fun row => inner row p) M) c.
Definition square (dim : nat) (M : list (list R)) : Prop := length M = dim /\ Forall (fun row => length row = dim) M.
Definition det (M : list (list R)) : R :=
  match M with
  | [] => 1
  | [[a]] => a
  | [[a; b]; [c; d]] => a * d - b * c
  | [[a; b; c]; [d; e; f]; [g; h; i]] => a * (e * i - f * h) - b * (d * i - f * g) + c * (d * h - e * g)
  | _ => 0
  end.
(** the nodes of the element of hpGEM, in its order, are under an affine map those of Gmsh in the given order *)
Definition corresponds (t : Z) (g : geometry) (order : list nat) (M : list (list R)) (c : list R) : Prop :=
  map (affine M c) (geometry_points g) = map (fun i => nth i (gmsh_points t) []) order.
