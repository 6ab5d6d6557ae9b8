(** Model of the mappings from reference to physical elements:
    kernel/Geometry/Mappings/MappingToPhys{HypercubeLinear,SimplexLinear,Pyramid,
    TriangularPrism,TriangleQuadratic,TetrahedronQuadratic}.

    Coordinates are real numbers; rounding is not modelled, with one exception noted at
    [pyramid_denominator].  [nodes] is the list of what getLocalNodeCoordinates returns.
    The number of nodes and the length of each point are checked once, on entry
    (in the code they are template arguments or array bounds): wrong ones give [None].
    The warnings for points outside of the reference element do not change any result and
    are left out.  The coefficients stored by reinit() are recomputed from the nodes on
    every call. *)
From Coq Require Import List Arith Bool Reals.
From Verif Require Import Matrix_model Determinant_model RefGeometry_model Curvilinear_model.
Import ListNotations.
Local Open Scope R_scope.

(** Point.h / SmallVector.h: +, -, scaling, axpy (y.axpy(a, x): y + a x) *)
Fixpoint vadd (u v : point) : point :=
  match u, v with x :: u', y :: v' => (x + y) :: vadd u' v' | _, _ => [] end.
Fixpoint vsub (u v : point) : point :=
  match u, v with x :: u', y :: v' => (x - y) :: vsub u' v' | _, _ => [] end.
Definition vscale (a : R) (u : point) : point := map (fun x => a * x) u.
Definition axpy (y : point) (a : R) (x : point) : point := vadd y (vscale a x).
Definition zero_point (d : nat) : point := repeat 0 d.

(** the loop  result += f[i] * getLocalNodeCoordinates(i) *)
Fixpoint weighted (acc : point) (f : list R) (nodes : list point) : point :=
  match f, nodes with
  | w :: f', p :: nodes' => weighted (vadd acc (vscale w p)) f' nodes'
  | _, _ => acc
  end.

(** matrix with the given columns *)
Definition columns (r : nat) (cols : list point) : matrix R := Mat r (length cols) (List.concat cols).

Definition valid (n d : nat) (nodes : list point) (p : point) : bool :=
  (length nodes =? n)%nat && forallb (fun q => (length q =? d)%nat) nodes && (length p =? d)%nat.

(** MappingToPhysHypercubeLinear.cpp:62-74 transform, 81-86 reinit, 93-98 calcJacobian, 76-79 inverseTransform *)
Definition line_mid (p0 p1 : R) : R := 1/2 * (p1 + p0).
Definition line_slope (p0 p1 : R) : R := 1/2 * (p1 - p0).
Definition line_transform (nodes : list point) (p : point) : option point :=
  match nodes, p with
  | [[p0]; [p1]], [x] => Some [line_mid p0 p1 + x * line_slope p0 p1]
  | _, _ => None
  end.
Definition line_jacobian (nodes : list point) (p : point) : option (matrix R) :=
  match nodes, p with
  | [[p0]; [p1]], [x] => Some (Mat 1 1 [line_slope p0 p1])
  | _, _ => None
  end.
(** division by a zero slope is not a number *)
Definition line_inverse (nodes : list point) (q : point) : option point :=
  match nodes, q with
  | [[p0]; [p1]], [y] =>
      if Req_EM_T (line_slope p0 p1) 0 then None else Some [(y - line_mid p0 p1) / line_slope p0 p1]
  | _, _ => None
  end.

(** MappingToPhysHypercubeLinear.cpp:175-201 reinit: a0, a1, a2, a12 *)
Definition square_coefficients (nodes : list point) : option (point * point * point * point) :=
  match nodes with
  | [n0; n1; n2; n3] =>
      let temp := n3 in
      let a0 := vadd n0 temp in
      let a12 := vscale (-(1/4)) (vsub (vadd n1 n2) a0) in
      let a0 := vadd (vadd a0 n1) n2 in
      let a1 := vadd n1 temp in
      let a2 := vadd n2 temp in
      let a1 := axpy a1 (-(1/2)) a0 in
      let a2 := axpy a2 (-(1/2)) a0 in
      Some (vscale (1/4) a0, vscale (1/2) a1, vscale (1/2) a2, a12)
  | _ => None
  end.
(** MappingToPhysHypercubeLinear.cpp:113-140 transform *)
Definition square_transform (nodes : list point) (p : point) : option point :=
  if valid 4 2 nodes p then
    match square_coefficients nodes, p with
    | Some (a0, a1, a2, a12), [x; y] => Some (axpy (vadd (vscale y (axpy a2 x a12)) a0) x a1)
    | _, _ => None
    end
  else None.
(** MappingToPhysHypercubeLinear.cpp:163-173 calcJacobian *)
Definition square_jacobian (nodes : list point) (p : point) : option (matrix R) :=
  if valid 4 2 nodes p then
    match square_coefficients nodes, p with
    | Some (_, a1, a2, a12), [x; y] => Some (columns 2 [vadd a1 (vscale y a12); vadd a2 (vscale x a12)])
    | _, _ => None
    end
  else None.

(** MappingToPhysHypercubeLinear.cpp:286-304 reinit; [comb] is 0.125 times a signed sum of the nodes *)
Definition comb (c : R) (signs : list R) (nodes : list point) (d : nat) : point :=
  vscale c (weighted (zero_point d) signs nodes).
(** a0, a1, a2, a3, a12, a13, a23, a123 *)
Definition cube_coefficients (nodes : list point) : list point :=
  map (fun s => comb (1/8) s nodes 3)
    [[1; 1; 1; 1; 1; 1; 1; 1];
     [-1; 1; -1; 1; -1; 1; -1; 1];
     [-1; -1; 1; 1; -1; -1; 1; 1];
     [-1; -1; -1; -1; 1; 1; 1; 1];
     [1; -1; -1; 1; 1; -1; -1; 1];
     [1; -1; 1; -1; -1; 1; -1; 1];
     [1; 1; -1; -1; -1; -1; 1; 1];
     [-1; 1; 1; -1; 1; -1; -1; 1]].
(** MappingToPhysHypercubeLinear.cpp:222-231 transform *)
Definition cube_transform (nodes : list point) (p : point) : option point :=
  if valid 8 3 nodes p then
    match cube_coefficients nodes, p with
    | [a0; a1; a2; a3; a12; a13; a23; a123], [x; y; z] =>
        Some (vadd (vadd (vadd a0 (vscale x (vadd (vadd a1 (vscale y (vadd a12 (vscale z a123)))) (vscale z a13))))
                         (vscale y (vadd a2 (vscale z a23)))) (vscale z a3))
    | _, _ => None
    end
  else None.
(** MappingToPhysHypercubeLinear.cpp:254-284 calcJacobian *)
Definition cube_jacobian (nodes : list point) (p : point) : option (matrix R) :=
  if valid 8 3 nodes p then
    match cube_coefficients nodes, p with
    | [a0; a1; a2; a3; a12; a13; a23; a123], [x; y; z] =>
        Some (columns 3
          [vadd (vadd (vadd a1 (vscale y a12)) (vscale z a13)) (vscale (y * z) a123);
           vadd (vadd (vadd a2 (vscale x a12)) (vscale z a23)) (vscale (x * z) a123);
           vadd (vadd (vadd a3 (vscale x a13)) (vscale y a23)) (vscale (x * y) a123)])
    | _, _ => None
    end
  else None.

(** MappingToPhysHypercubeLinear.cpp:385-407 reinit, 328-333 transform, 356-383 calcJacobian *)
Definition hypercube_coefficients (nodes : list point) : list point :=
  map (fun s => comb (1/16) s nodes 4)
    [[1; 1; 1; 1; 1; 1; 1; 1; 1; 1; 1; 1; 1; 1; 1; 1];
     [-1; 1; -1; 1; -1; 1; -1; 1; -1; 1; -1; 1; -1; 1; -1; 1];
     [-1; -1; 1; 1; -1; -1; 1; 1; -1; -1; 1; 1; -1; -1; 1; 1];
     [-1; -1; -1; -1; 1; 1; 1; 1; -1; -1; -1; -1; 1; 1; 1; 1];
     [-1; -1; -1; -1; -1; -1; -1; -1; 1; 1; 1; 1; 1; 1; 1; 1]].
Definition hypercube_transform (nodes : list point) (p : point) : option point :=
  if valid 16 4 nodes p then
    match hypercube_coefficients nodes, p with
    | [abar; a0; a1; a2; a3], [x; y; z; w] =>
        Some (vadd (vadd (vadd (vadd abar (vscale x a0)) (vscale y a1)) (vscale z a2)) (vscale w a3))
    | _, _ => None
    end
  else None.
Definition hypercube_jacobian (nodes : list point) (p : point) : option (matrix R) :=
  if valid 16 4 nodes p then
    match hypercube_coefficients nodes with
    | [abar; a0; a1; a2; a3] => Some (columns 4 [a0; a1; a2; a3])
    | _ => None
    end
  else None.

(** MappingToPhysSimplexLinear_Impl.h:49-65 transform, for any dimension: the loop over i *)
Fixpoint simplex_loop (acc first : point) (rest : list point) (p : point) : point :=
  match rest, p with
  | q :: rest', x :: p' => simplex_loop (vadd acc (vscale x (vsub q first))) first rest' p'
  | _, _ => acc
  end.
Definition simplex_transform (d : nat) (nodes : list point) (p : point) : option point :=
  if valid (S d) d nodes p then
    match nodes with first :: rest => Some (simplex_loop first first rest p) | [] => None end
  else None.
(** MappingToPhysSimplexLinear_Impl.h:78-96 calcJacobian *)
Definition simplex_jacobian (d : nat) (nodes : list point) (p : point) : option (matrix R) :=
  if valid (S d) d nodes p then
    match nodes with first :: rest => Some (columns d (map (fun q => vsub q first) rest)) | [] => None end
  else None.

(** MappingToPhysPyramid.cpp:63-65: the double 1 - z + 1e-50.  Here rounding matters: 1 - z is
    either 0 or, as a double, at least 2^-53 in size, and then adding 1e-50 does not change it. *)
Definition pyramid_denominator (z : R) : R := if Req_EM_T (1 - z) 0 then / 10 ^ 50 else 1 - z.
(** MappingToPhysPyramid.cpp:57-84 transform *)
Definition pyramid_weights (x y z : R) : list R :=
  let t1 := x * y in
  let t2 := x * y * z / pyramid_denominator z in
  [z;
   1/4 * (1 - x - y + t1 - z + t2);
   1/4 * (1 + x - y - t1 - z - t2);
   1/4 * (1 - x + y - t1 - z - t2);
   1/4 * (1 + x + y + t1 - z + t2)].
Definition pyramid_transform (nodes : list point) (p : point) : option point :=
  if valid 5 3 nodes p then
    match p with [x; y; z] => Some (weighted (zero_point 3) (pyramid_weights x y z) nodes) | _ => None end
  else None.
(** MappingToPhysPyramid.cpp:107-167 calcJacobian *)
Definition pyramid_jacobian (nodes : list point) (p : point) : option (matrix R) :=
  if valid 5 3 nodes p then
    match p with
    | [x; y; z] =>
        let z := if Rlt_dec (Rabs (z - 1) + Rabs x + Rabs y) (/ 10 ^ 14) then z - / 10 ^ 10 else z in
        if Req_EM_T (1 - z) 0 then None
        else
        let dt6dx0 := y * z / (1 - z) in
        let dt6dx1 := x * z / (1 - z) in
        let dt6dx2 := x * y / ((1 - z) * (1 - z)) in
        let d0 := [0; 1/4 * (-1 + y + dt6dx0); 1/4 * (1 - y - dt6dx0); 1/4 * (-1 - y - dt6dx0); 1/4 * (1 + y + dt6dx0)] in
        let d1 := [0; 1/4 * (-1 + x + dt6dx1); 1/4 * (-1 - x - dt6dx1); 1/4 * (1 - x - dt6dx1); 1/4 * (1 + x + dt6dx1)] in
        let d2 := [1; 1/4 * (-1 + dt6dx2); 1/4 * (-1 - dt6dx2); 1/4 * (-1 - dt6dx2); 1/4 * (-1 + dt6dx2)] in
        Some (columns 3 (map (fun d => weighted (zero_point 3) d nodes) [d0; d1; d2]))
    | _ => None
    end
  else None.

(** MappingToPhysTriangularPrism.cpp:59-85 transform *)
Definition prism_weights (x y z : R) : list R :=
  let t1 := x * z in
  let t2 := y * z in
  [1/2 * (1 - x - y - z + t1 + t2); 1/2 * (x - t1); 1/2 * (y - t2);
   1/2 * (- t2 + 1 - x - t1 - y + z); 1/2 * (t1 + x); 1/2 * (t2 + y)].
Definition prism_transform (nodes : list point) (p : point) : option point :=
  if valid 6 3 nodes p then
    match p with [x; y; z] => Some (weighted (zero_point 3) (prism_weights x y z) nodes) | _ => None end
  else None.
(** MappingToPhysTriangularPrism.cpp:108-172 calcJacobian *)
Definition prism_jacobian (nodes : list point) (p : point) : option (matrix R) :=
  if valid 6 3 nodes p then
    match p with
    | [x; y; z] =>
        let d0 := [1/2 * (-1 + z); 1/2 * (1 - z); 0; 1/2 * (-1 - z); 1/2 * (1 + z); 0] in
        let d1 := [1/2 * (-1 + z); 0; 1/2 * (1 - z); 1/2 * (-1 - z); 0; 1/2 * (1 + z)] in
        let d2 := [1/2 * (-1 + x + y); -(1/2) * x; -(1/2) * y; 1/2 * (1 - y - x); 1/2 * x; 1/2 * y] in
        Some (columns 3 (map (fun d => weighted (zero_point 3) d nodes) [d0; d1; d2]))
    | _ => None
    end
  else None.

(** MappingToPhysTriangleQuadratic.cpp:67-88 transform, 108-147 calcJacobian *)
Definition triangle2_weights (x y : R) : list R :=
  let r := 1 - x - y in
  [r * (2 * r - 1); 4 * x * r; x * (2 * x - 1); 4 * y * r; 4 * x * y; y * (2 * y - 1)].
Definition triangle2_transform (nodes : list point) (p : point) : option point :=
  if valid 6 2 nodes p then
    match p with [x; y] => Some (weighted (zero_point 2) (triangle2_weights x y) nodes) | _ => None end
  else None.
Definition triangle2_jacobian (nodes : list point) (p : point) : option (matrix R) :=
  if valid 6 2 nodes p then
    match p with
    | [x; y] =>
        let r := 1 - x - y in
        let d0 := [-4 * r + 1; 4 * (r - x); 4 * x - 1; -4 * y; 4 * y; 0] in
        let d1 := [-4 * r + 1; -4 * x; 0; 4 * (r - y); 4 * x; 4 * y - 1] in
        Some (columns 2 (map (fun d => weighted (zero_point 2) d nodes) [d0; d1]))
    | _ => None
    end
  else None.

(** MappingToPhysTetrahedronQuadratic.cpp:71-88 transform, 107-138 calcJacobian *)
Definition tetrahedron2_weights (x y z : R) : list R :=
  let r := 1 - x - y - z in
  [r * (2 * r - 1); 4 * x * r; x * (2 * x - 1); 4 * r * y; 4 * x * y; y * (2 * y - 1); 4 * r * z; 4 * x * z; 4 * y * z;
   z * (2 * z - 1)].
Definition tetrahedron2_transform (nodes : list point) (p : point) : option point :=
  if valid 10 3 nodes p then
    match p with [x; y; z] => Some (weighted (zero_point 3) (tetrahedron2_weights x y z) nodes) | _ => None end
  else None.
Definition tetrahedron2_jacobian (nodes : list point) (p : point) : option (matrix R) :=
  if valid 10 3 nodes p then
    match p with
    | [x; y; z] =>
        let r := 1 - x - y - z in
        let t1 := -4 * r + 1 in
        let d0 := [t1; 4 * (r - x); 4 * x - 1; -4 * y; 4 * y; 0; -4 * z; 4 * z; 0; 0] in
        let d1 := [t1; -4 * x; 0; 4 * (r - y); 4 * x; 4 * y - 1; -4 * z; 0; 4 * z; 0] in
        let d2 := [t1; -4 * x; 0; -4 * y; 0; 0; 4 * (r - z); 4 * x; 4 * y; 4 * z - 1] in
        Some (columns 3 (map (fun d => weighted (zero_point 3) d nodes) [d0; d1; d2]))
    | _ => None
    end
  else None.

(** ElementGeometry.h:216-290 createMappings: which mapping belongs to which element *)
Definition phys_transform (g : geometry) (nodes : list point) (p : point) : option point :=
  match g with
  | Base Line => line_transform nodes p
  | Base Triangle => simplex_transform 2 nodes p
  | Base Square => square_transform nodes p
  | Base Tetrahedron => simplex_transform 3 nodes p
  | Base Pyramid => pyramid_transform nodes p
  | Base TriangularPrism => prism_transform nodes p
  | Base Cube => cube_transform nodes p
  | Base Hypercube => hypercube_transform nodes p
  | Curvilinear Triangle 2 => triangle2_transform nodes p
  | Curvilinear Tetrahedron 2 => tetrahedron2_transform nodes p
  | _ => None
  end.
Definition phys_jacobian (g : geometry) (nodes : list point) (p : point) : option (matrix R) :=
  match g with
  | Base Line => line_jacobian nodes p
  | Base Triangle => simplex_jacobian 2 nodes p
  | Base Square => square_jacobian nodes p
  | Base Tetrahedron => simplex_jacobian 3 nodes p
  | Base Pyramid => pyramid_jacobian nodes p
  | Base TriangularPrism => prism_jacobian nodes p
  | Base Cube => cube_jacobian nodes p
  | Base Hypercube => hypercube_jacobian nodes p
  | Curvilinear Triangle 2 => triangle2_jacobian nodes p
  | Curvilinear Tetrahedron 2 => tetrahedron2_jacobian nodes p
  | _ => None
  end.

(** SmallMatrix_impl.h:383-395 solve: dgesv of LAPACK, by its contract in exact arithmetic
    (at most four unknowns): the solution, written with Cramer's rule, if the matrix is not
    singular.  For a singular matrix dgesv leaves the right hand side as it is and reports this
    in [info], which the code does not read. *)
Definition replace_column (M : matrix R) (j : nat) (b : point) : matrix R :=
  Mat (nrows M) (ncols M) (firstn (j * nrows M) (data M) ++ b ++ skipn (S j * nrows M) (data M)).
Definition rdet (M : matrix R) : option R := determinant 1 Rplus Rmult Rminus Ropp M.
Definition solve (M : matrix R) (b : point) : option point :=
  match rdet M with
  | None => None
  | Some d =>
      if Req_EM_T d 0 then Some b
      else
        vector_of (map (fun j => match rdet (replace_column M j b) with Some dj => Some (dj / d) | None => None end)
          (seq 0 (ncols M)))
  end.

(** MappingToPhysSimplexLinear_Impl.h:66-75 inverseTransform *)
Definition simplex_inverse (d : nat) (nodes : list point) (q : point) : option point :=
  match nodes with
  | first :: _ =>
      match simplex_jacobian d nodes (zero_point d) with
      | Some J => solve J (vsub q first)
      | None => None
      end
  | [] => None
  end.

Definition norm_squared (p : point) : R := fold_right (fun x acc => x * x + acc) 0 p.
(** what inverseTransform returns: a point or a vector of NaNs *)
Inductive inverse_result := At (p : point) | NotANumber.

(** The loop of MappingToPhysHypercubeLinear.cpp:142-161 (the same in 233-252, 335-354, in
    MappingToPhysPyramid.cpp:86-105 and MappingToPhysTriangularPrism.cpp:87-106):
      while (error > 1e-28 && loop_count++ < 100)
    with [left] = 100 - loop_count.  Result: the point and the final loop_count. *)
Fixpoint newton_loop (F : point -> option point) (J : point -> option (matrix R)) (target : point)
    (left loop_count : nat) (result comparison : point) : option (point * nat) :=
  let residual := vsub target comparison in
  if Rlt_dec (/ 10 ^ 28) (norm_squared residual) then
    match left with
    | O => Some (result, S loop_count)
    | S left' =>
        match J result with
        | Some M =>
            match solve M residual with
            | Some correction =>
                let result := vadd result correction in
                match F result with
                | Some comparison => newton_loop F J target left' (S loop_count) result comparison
                | None => None
                end
            | None => None
            end
        | None => None
        end
    end
  else Some (result, loop_count).
Definition newton_inverse (F : point -> option point) (J : point -> option (matrix R)) (d : nat) (target : point)
    : option inverse_result :=
  let start := zero_point d in
  match F start with
  | Some comparison =>
      match newton_loop F J target 100 0 start comparison with
      | Some (result, loop_count) => Some (if (loop_count =? 100)%nat then NotANumber else At result)
      | None => None
      end
  | None => None
  end.

(** MappingToPhysTriangleQuadratic.cpp:90-107, MappingToPhysTetrahedronQuadratic.cpp:89-106: a
    do-while loop without a bound; here run at most [fuel] times, [None] if that is not enough *)
Fixpoint newton_unbounded (F : point -> option point) (J : point -> option (matrix R)) (target : point)
    (fuel : nat) (result : point) : option point :=
  match fuel with
  | O => None
  | S fuel' =>
      match F result, J result with
      | Some image, Some M =>
          match solve M (vsub image target) with
          | Some correction =>
              let result := vsub result correction in
              if Rlt_dec (/ 10 ^ 10) (norm_squared correction)
              then newton_unbounded F J target fuel' result
              else Some result
          | None => None
          end
      | _, _ => None
      end
  end.

(** inverseTransform; [fuel] only matters for the quadratic elements *)
Definition phys_inverse (fuel : nat) (g : geometry) (nodes : list point) (q : point) : option inverse_result :=
  let exactly o := match o with Some p => Some (At p) | None => None end in
  match g with
  | Base Line => exactly (line_inverse nodes q)
  | Base Triangle => exactly (simplex_inverse 2 nodes q)
  | Base Tetrahedron => exactly (simplex_inverse 3 nodes q)
  | Base Square => newton_inverse (phys_transform g nodes) (phys_jacobian g nodes) 2 q
  | Base Cube | Base Pyramid | Base TriangularPrism =>
      newton_inverse (phys_transform g nodes) (phys_jacobian g nodes) 3 q
  | Base Hypercube => newton_inverse (phys_transform g nodes) (phys_jacobian g nodes) 4 q
  | Curvilinear Triangle 2 =>
      exactly (newton_unbounded (phys_transform g nodes) (phys_jacobian g nodes) q fuel [3333/10000; 333/1000])
  | Curvilinear Tetrahedron 2 =>
      exactly (newton_unbounded (phys_transform g nodes) (phys_jacobian g nodes) q fuel
                 [3333/10000; 333/1000; 3333/10000])
  | _ => None
  end.
