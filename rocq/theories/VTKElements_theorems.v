(** C59: the points of the elements in the output are where VTK expects them. *)
From Coq Require Import List Arith Bool Lia Reals Lra Permutation.
From Verif Require Import RefGeometry_model Curvilinear_model VTKElements_model VTKElements_spec VTKElements_proofs VTKSimplex_proofs
  VTKTetra_proofs VTKDistinct_proofs.
Import ListNotations.
Local Open Scope nat_scope.

(** A curve of any order has order + 1 points, and the point with VTK's number of i is the i-th of the equidistant points. *)
Theorem C59_curve : forall order, 1 <= order -> exists pts, curve order = Some pts /\ length pts = order + 1 /\ NoDup pts /\
  forall i, i <= order -> nth_error pts (vtk_curve_index order i) = Some [lattice order i].
Proof.
  intros n Hn. destruct (curve_ok n Hn) as (pts & E & L & H). exists pts. split; [exact E|]. split; [exact L|]. split; [|exact H].
  apply (cube_covering n 1 pts Hn). { cbn. lia. }
  intros p Lp F. destruct p as [|i [|? ?]]; try discriminate. inversion F; subst.
  apply (nth_error_In _ (vtk_curve_index n i)). rewrite H by assumption. reflexivity.
Qed.
Print Assumptions C59_curve.

Theorem C59_quadrilateral : forall order, 1 <= order ->
  exists pts, quadrilateral order = Some pts /\ length pts = (order + 1) * (order + 1) /\ NoDup pts /\
  forall i j, i <= order -> j <= order ->
    nth_error pts (vtk_quadrilateral_index order i j) = Some [lattice order i; lattice order j].
Proof.
  intros n Hn. destruct (quadrilateral_ok n Hn) as (pts & E & L & H). exists pts. split; [exact E|]. split; [exact L|]. split; [|exact H].
  apply (cube_covering n 2 pts Hn). { cbn. lia. }
  intros p Lp F. destruct p as [|i [|j [|? ?]]]; try discriminate. inversion F as [|? ? Hi F']; subst. inversion F' as [|? ? Hj _]; subst.
  apply (nth_error_In _ (vtk_quadrilateral_index n i j)). rewrite H by assumption. reflexivity.
Qed.
Print Assumptions C59_quadrilateral.

Theorem C59_hexahedron : forall order, 1 <= order ->
  exists pts, hexahedron order = Some pts /\ length pts = (order + 1) * (order + 1) * (order + 1) /\ NoDup pts /\
  forall i j k, i <= order -> j <= order -> k <= order ->
    nth_error pts (vtk_hexahedron_index order i j k) = Some [lattice order i; lattice order j; lattice order k].
Proof.
  intros n Hn. destruct (hexahedron_ok n Hn) as (pts & E & L & H). exists pts. split; [exact E|]. split; [exact L|]. split; [|exact H].
  apply (cube_covering n 3 pts Hn). { cbn. lia. }
  intros p Lp F. destruct p as [|i [|j [|k [|? ?]]]]; try discriminate.
  inversion F as [|? ? Hi F']; subst. inversion F' as [|? ? Hj F'']; subst. inversion F'' as [|? ? Hk _]; subst.
  apply (nth_error_In _ (vtk_hexahedron_index n i j k)). rewrite H by assumption. reflexivity.
Qed.
Print Assumptions C59_hexahedron.

(** A triangle: every point is the one that VTK computes from its number, no point occurs twice, and no point of the lattice
    is missing. *)
Theorem C59_triangle : forall order, 1 <= order ->
  exists pts, triangle order = Some pts /\ length pts = (order + 1) * (order + 2) / 2 /\ NoDup pts /\
  (forall i, i < length pts -> exists b, vtk_triangle i order = Some b /\ nth_error pts i = Some (from_barycentric order b)) /\
  (forall x y, x + y <= order -> In [INR x / INR order; INR y / INR order]%R pts).
Proof.
  intros n Hn. destruct (triangle_ok n Hn) as (pts & E & L & H & C). exists pts. split; [exact E|]. split; [exact L|].
  split; [|split; assumption]. apply (simplex_covering n 2 pts Hn).
  - pose proof (simplex_2 n) as S2. pose proof (triangle_even n) as T. rewrite L. lia.
  - intros p Lp F. destruct p as [|x [|y [|? ?]]]; try discriminate. apply C. cbn in F. lia.
Qed.
Print Assumptions C59_triangle.

Theorem C59_tetrahedron : forall order, 1 <= order ->
  exists pts, tetrahedron order = Some pts /\ length pts = (order + 1) * (order + 2) * (order + 3) / 6 /\ NoDup pts /\
  (forall i, i < length pts -> exists b, vtk_tetrahedron i order = Some b /\ nth_error pts i = Some (from_barycentric order b)) /\
  (forall x y z, x + y + z <= order -> In [INR x / INR order; INR y / INR order; INR z / INR order]%R pts).
Proof.
  intros n Hn. destruct (tetrahedron_ok n Hn) as (pts & E & L & H & C). exists pts. split; [exact E|]. split; [exact L|].
  split; [|split; assumption]. apply (simplex_covering n 3 pts Hn).
  - pose proof (simplex_3 n) as S3. rewrite L, <- S3, (Nat.mul_comm 6), Nat.div_mul by lia. reflexivity.
  - intros p Lp F. destruct p as [|x [|y [|z [|? ?]]]]; try discriminate. apply C. cbn in F. lia.
Qed.
Print Assumptions C59_tetrahedron.

(** The standard elements: the corners of the reference element, in the order of VTK.  For those with a Lagrange element the
    order is that of the Lagrange element of order 1; for the wedge and the pyramid the parametric coordinates of VTK (vtkWedge,
    vtkPyramid) are given. *)
Definition vtk_wedge_pcoords : list point := [[0;0;0]; [1;0;0]; [0;1;0]; [0;0;1]; [1;0;1]; [0;1;1]]%R.
Definition vtk_pyramid_pcoords : list point := [[0;0;0]; [1;0;0]; [1;1;0]; [0;1;0]; [1/2;1/2;1]]%R.
Theorem C59_standard :
  (curve 1 = Some vtkLine /\ quadrilateral 1 = Some vtkQuad /\ hexahedron 1 = Some vtkHexahedron /\
   triangle 1 = Some vtkTriangle /\ tetrahedron 1 = Some vtkTetra) /\
  (vtkWedge = map (fun p => [nth 0 p 0; nth 1 p 0; 2 * nth 2 p 0 - 1]%R) vtk_wedge_pcoords /\
   vtkPyramid = map (fun p => [2 * nth 0 p 0 - 1; 2 * nth 1 p 0 - 1; nth 2 p 0]%R) vtk_pyramid_pcoords) /\
  (Permutation vtkPoint (points Point) /\ Permutation vtkLine (points Line) /\ Permutation vtkTriangle (points Triangle) /\
   Permutation vtkQuad (points Square) /\ Permutation vtkTetra (points Tetrahedron) /\ Permutation vtkHexahedron (points Cube) /\
   Permutation vtkWedge (points TriangularPrism) /\ Permutation vtkPyramid (points Pyramid)).
Proof.
  split; [|split].
  - split; [reflexivity|]. split; [reflexivity|]. split; [reflexivity|].
    unfold triangle, tetrahedron. cbn [Nat.eqb].
    change (computeBaryIntegerPoints 1) with (Some [[1; 0; 0]; [0; 1; 0]; [0; 0; 1]]).
    change (tetrahedron_bary 1) with (Some [[1; 0; 0; 0]; [0; 1; 0; 0]; [0; 0; 1; 0]; [0; 0; 0; 1]]).
    unfold vtkTriangle, vtkTetra. cbn [option_map map nth INR].
    split; repeat f_equal; lra.
  - unfold vtkWedge, vtkPyramid, vtk_wedge_pcoords, vtk_pyramid_pcoords. cbn [map nth]. split; repeat f_equal; lra.
  - repeat apply conj; cbn [points]; unfold vtkPoint, vtkLine, vtkTriangle, vtkQuad, vtkTetra, vtkHexahedron, vtkWedge, vtkPyramid;
      try apply Permutation_refl.
    + apply perm_skip, perm_skip, perm_swap.
    + apply perm_skip, perm_skip. eapply perm_trans; [apply perm_swap|]. apply perm_skip, perm_skip, perm_skip, perm_skip, perm_swap.
    + apply Permutation_sym. eapply perm_trans; [apply (Permutation_middle [] _ [0; 0; 1]%R)|].
      cbn [app]. apply Permutation_sym.
      eapply perm_trans; [apply Permutation_sym, (Permutation_middle [[-1; -1; 0]; [1; -1; 0]; [1; 1; 0]; [-1; 1; 0]]%R [] [0; 0; 1]%R)|].
      cbn [app]. apply perm_skip, perm_skip, perm_skip, perm_swap.
Qed.
Print Assumptions C59_standard.

(** Examples: a triangle of order 3 has the point in the centre last, and a cell of order 2 has a point in the centre. *)
Example C59_triangle_nonvacuous : exists pts, triangle 3 = Some pts /\ length pts = 10 /\ nth_error pts 9 = Some [1/3; 1/3]%R.
Proof.
  unfold triangle. cbn [Nat.eqb].
  change (computeBaryIntegerPoints 3) with (Some [[3;0;0]; [0;3;0]; [0;0;3]; [2;1;0]; [1;2;0]; [0;2;1]; [0;1;2]; [1;0;2]; [2;0;1]; [1;1;1]]).
  eexists. split; [reflexivity|]. split; [reflexivity|]. cbn [option_map map nth nth_error INR].
  apply f_equal, (f_equal2 (@cons R)); [lra|]. apply (f_equal2 (@cons R)); [lra|reflexivity].
Qed.
Example C59_hexahedron_nonvacuous : exists pts, hexahedron 2 = Some pts /\ length pts = 27 /\
  vtk_hexahedron_index 2 1 1 1 = 26 /\ nth_error pts 26 = Some [0; 0; 0]%R.
Proof.
  destruct (C59_hexahedron 2) as (pts & E & L & _ & H); [lia|]. exists pts. split; [exact E|]. split; [exact L|]. split; [reflexivity|].
  specialize (H 1 1 1 ltac:(lia) ltac:(lia) ltac:(lia)). change (vtk_hexahedron_index 2 1 1 1) with 26 in H. rewrite H.
  unfold lattice. cbn [INR].
  apply f_equal. repeat (apply (f_equal2 (@cons R)); [lra|]). reflexivity.
Qed.
Example C59_tetrahedron_nonvacuous : vtk_tetrahedron 34 4 = Some [1; 1; 1; 1] /\ vtk_tetrahedron 31 4 = Some [1; 1; 0; 2].
Proof. split; vm_compute; reflexivity. Qed.
