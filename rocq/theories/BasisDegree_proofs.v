(** The degree of the default basis functions. *)
From Coq Require Import List Arith Bool ZArith Reals Lra Lia.
From Verif Require Import Legendre_model RefGeometry_model BasisFunctions_model BasisSets_model BasisSets_proofs BasisSizes_spec BasisSizes_proofs
  BasisDegree_spec CurlDegree_proofs.
Import ListNotations.
Local Open Scope R_scope.

(** ** Degrees of expressions *)
Lemma pdeg_plus_max : forall n m f g, pdeg n f -> pdeg m g -> pdeg (Nat.max n m) (fun t => f t + g t).
Proof. intros n m f g Hf Hg. apply pdeg_plus; [apply (pdeg_le n)|apply (pdeg_le m)]; try assumption; lia. Qed.
Lemma pdeg_minus_max : forall n m f g, pdeg n f -> pdeg m g -> pdeg (Nat.max n m) (fun t => f t - g t).
Proof. intros n m f g Hf Hg. apply pdeg_minus; [apply (pdeg_le n)|apply (pdeg_le m)]; try assumption; lia. Qed.
Lemma pdeg_over : forall n f c, pdeg n f -> pdeg n (fun t => f t / c).
Proof. intros n f c H. apply pdeg_ext with (f := fun t => / c * f t); [apply pdeg_scale; exact H|]. intros; unfold Rdiv; ring. Qed.
Ltac degree :=
  lazymatch goal with
  | |- pdeg _ (fun _ => ?c) => exact (pdeg_const c)
  | |- pdeg _ (fun t => @?f t + @?g t) => refine (pdeg_plus_max _ _ f g _ _); degree
  | |- pdeg _ (fun t => @?f t - @?g t) => refine (pdeg_minus_max _ _ f g _ _); degree
  | |- pdeg _ (fun t => @?f t * @?g t) => refine (pdeg_mult _ _ f g _ _); degree
  | |- pdeg _ (fun t => @?f t / ?c) => refine (pdeg_over _ f c _); degree
  | |- pdeg _ (fun t => LobattoPolynomial ?o (@?f t)) => refine (pdeg_lobatto o f _); eapply pdeg_le; [|degree]; lia
  | |- _ => eassumption
  end.
Ltac degree_at := eapply pdeg_le; [|degree]; lia.

(** ** The functions that belong to a basis *)
Definition fits (s : shape) (n : nat) (f : basis_function) : Prop :=
  match s, f with
  | Line, PiecewiseConstant d => d = 1 | Line, VertexLine _ => 1 <= n | Line, InteriorLine o => o + 2 <= n
  | Square, PiecewiseConstant d => d = 2 | Square, VertexSquare _ _ => 1 <= n
  | Square, (FaceSquare_0 _ _ o | FaceSquare_1 _ _ o) => o + 2 <= n
  | Square, InteriorSquare o0 o1 => o0 + 2 <= n /\ o1 + 2 <= n
  | Triangle, PiecewiseConstant d => d = 2 | Triangle, VertexTriangle k => k < 3 /\ 1 <= n
  | Triangle, FaceTriangle a b o => a < 3 /\ b < 3 /\ o + 2 <= n
  | Triangle, InteriorTriangle o0 o1 => o0 + o1 + 3 <= n
  | Cube, PiecewiseConstant d => d = 3 | Cube, VertexCube _ _ _ => 1 <= n
  | Cube, (EdgeCube_0 _ _ _ o | EdgeCube_1 _ _ _ o | EdgeCube_2 _ _ _ o) => o + 2 <= n
  | Cube, (FaceCube_0 _ _ _ o0 o1 | FaceCube_1 _ _ _ o0 o1 | FaceCube_2 _ _ _ o0 o1) => o0 + 2 <= n /\ o1 + 2 <= n
  | Cube, InteriorCube o0 o1 o2 => o0 + 2 <= n /\ o1 + 2 <= n /\ o2 + 2 <= n
  | Tetrahedron, PiecewiseConstant d => d = 3 | Tetrahedron, VertexTetrahedron k => k < 4 /\ 1 <= n
  | Tetrahedron, EdgeTetrahedron a b o => a < 4 /\ b < 4 /\ o + 2 <= n
  | Tetrahedron, FaceTetrahedron a b c o0 o1 => a < 4 /\ b < 4 /\ c < 4 /\ o0 + o1 + 3 <= n
  | Tetrahedron, InteriorTetrahedron o0 o1 o2 => o0 + o1 + o2 + 4 <= n
  | _, _ => False
  end%nat.

Definition coordinates (s : shape) : nat := match s with Line => 1 | Square | Triangle => 2 | _ => 3 end%nat.
Lemma polynomial_from : forall n F a d g, pdeg n g -> (forall t, F (on_line a d t) = Some (g t)) -> polynomial_on n F a d.
Proof. intros n F a d g Hg E. destruct (horner n g Hg) as (cs & L & G). exists cs. split; [exact L|]. intros t. rewrite E, G. reflexivity. Qed.
Ltac linear x dx X HX := pose (X := fun t : R => x + t * dx); assert (pdeg 1 X) as HX by apply pdeg_linear.
Ltac nodes := repeat match goal with
  | H : (?a < 3)%nat |- _ => is_var a; destruct a as [|[|[|?]]]; [clear H|clear H|clear H|lia]
  | H : (?a < 4)%nat |- _ => is_var a; destruct a as [|[|[|[|?]]]]; [clear H|clear H|clear H|clear H|lia] end.
Ltac ands := repeat match goal with H : _ /\ _ |- _ => destruct H end.
Ltac coordinate e E := eapply polynomial_from; [|intros t; rewrite (E t); reflexivity]; degree_at.
Lemma axis_2 : forall dx dy, along_an_axis [dx; dy] -> dx = 0 \/ dy = 0.
Proof.
  intros dx dy H. destruct (Req_dec dx 0) as [|Nx]; [auto|]. destruct (Req_dec dy 0) as [|Ny]; [auto|]. specialize (H 0%nat 1%nat Nx Ny). discriminate.
Qed.
Lemma axis_3 : forall dx dy dz, along_an_axis [dx; dy; dz] -> (dy = 0 /\ dz = 0) \/ (dx = 0 /\ dz = 0) \/ (dx = 0 /\ dy = 0).
Proof.
  intros dx dy dz H. destruct (Req_dec dx 0) as [|Nx]; destruct (Req_dec dy 0) as [|Ny]; destruct (Req_dec dz 0) as [|Nz]; auto; exfalso.
  - specialize (H 1%nat 2%nat Ny Nz). discriminate.
  - specialize (H 0%nat 2%nat Nx Nz). discriminate.
  - specialize (H 0%nat 1%nat Nx Ny). discriminate.
  - specialize (H 0%nat 1%nat Nx Ny). discriminate.
Qed.
Lemma fits_degree : forall s n f, fits s n f -> of_order s n (coordinates s) (eval f).
Proof.
  intros s n f H a d La Ld Hd. destruct s; try contradiction; cbn [coordinates] in *.
  - destruct a as [|x [|]]; try discriminate. destruct d as [|dx [|]]; try discriminate. linear x dx X HX.
    assert (forall t, on_line [x] [dx] t = [X t]) as E by reflexivity. clearbody X.
    destruct f; try contradiction; cbn [fits] in H; subst; coordinate X E.
  - destruct a as [|x [|y [|]]]; try discriminate. destruct d as [|dx [|dy [|]]]; try discriminate. linear x dx X HX. linear y dy Y HY.
    assert (forall t, on_line [x; y] [dx; dy] t = [X t; Y t]) as E by reflexivity. clearbody X Y.
    destruct f; try contradiction; cbn [fits] in H; ands; subst; nodes; coordinate X E.
  - destruct a as [|x [|y [|]]]; try discriminate. destruct d as [|dx [|dy [|]]]; try discriminate. destruct (axis_2 dx dy Hd) as [->| ->].
    + linear y dy Y HY. assert (forall t, on_line [x; y] [0; dy] t = [x; Y t]) as E by (intros t; cbn; rewrite Rmult_0_r, Rplus_0_r; reflexivity). clearbody Y.
      destruct f; try contradiction; cbn [fits] in H; ands; subst; coordinate Y E.
    + linear x dx X HX. assert (forall t, on_line [x; y] [dx; 0] t = [X t; y]) as E by (intros t; cbn; rewrite Rmult_0_r, Rplus_0_r; reflexivity). clearbody X.
      destruct f; try contradiction; cbn [fits] in H; ands; subst; coordinate X E.
  - destruct a as [|x [|y [|z [|]]]]; try discriminate. destruct d as [|dx [|dy [|dz [|]]]]; try discriminate. linear x dx X HX. linear y dy Y HY. linear z dz W HW.
    assert (forall t, on_line [x; y; z] [dx; dy; dz] t = [X t; Y t; W t]) as E by reflexivity. clearbody X Y W.
    destruct f; try contradiction; cbn [fits] in H; ands; subst; nodes; coordinate X E.
  - destruct a as [|x [|y [|z [|]]]]; try discriminate. destruct d as [|dx [|dy [|dz [|]]]]; try discriminate.
    destruct (axis_3 dx dy dz Hd) as [[-> ->]|[[-> ->]|[-> ->]]].
    + linear x dx X HX. assert (forall t, on_line [x; y; z] [dx; 0; 0] t = [X t; y; z]) as E by (intros t; cbn; rewrite Rmult_0_r, !Rplus_0_r; reflexivity). clearbody X.
      destruct f; try contradiction; cbn [fits] in H; ands; subst; coordinate X E.
    + linear y dy Y HY. assert (forall t, on_line [x; y; z] [0; dy; 0] t = [x; Y t; z]) as E by (intros t; cbn; rewrite Rmult_0_r, !Rplus_0_r; reflexivity). clearbody Y.
      destruct f; try contradiction; cbn [fits] in H; ands; subst; coordinate Y E.
    + linear z dz W HW. assert (forall t, on_line [x; y; z] [0; 0; dz] t = [x; y; W t]) as E by (intros t; cbn; rewrite Rmult_0_r, !Rplus_0_r; reflexivity). clearbody W.
      destruct f; try contradiction; cbn [fits] in H; ands; subst; coordinate W E.
Qed.

(** ** All functions of a basis fit *)
Ltac enumerate := repeat match goal with
  | H : In _ (_ ++ _) |- _ => apply in_app_or in H; destruct H as [H|H]
  | H : In _ (map _ _) |- _ => apply in_map_iff in H; destruct H as (? & H & ?)
  | H : In _ (flat_map _ _) |- _ => apply in_flat_map in H; destruct H as (? & ? & H)
  | H : In _ (loop _ _) |- _ => apply in_loop in H
  | H : In _ (if ?b then _ else _) |- _ => destruct b eqn:?
  | H : In _ (_ :: _) |- _ => destruct H as [H|H]
  | H : In _ [] |- _ => destruct H
  | H : In _ (seq _ (S ?k)) |- _ => cbn [seq] in H
  | H : In _ (seq _ _) |- _ => apply in_seq in H
  | H : (_, _) = (_, _) |- _ => apply pair_equal_spec in H; destruct H
  end.
Ltac named H := cbn [bind with2 with3 nth_error fst snd getCodim1EntityLocalIndices getCodim2EntityLocalIndices] in H;
  first [apply new_inv in H | injection H; clear H; intros H; symmetry in H]; subst.
Lemma one_function : forall g l (f : basis_function), Some [g] = Some l -> In f l -> f = g.
Proof. intros g l f H Hf. injection H as <-. destruct Hf as [<-|[]]. reflexivity. Qed.
Ltac discontinuous n H Hf := destruct (0 <? n)%nat eqn:E; [apply Nat.ltb_lt in E|rewrite (one_function _ _ _ H Hf); reflexivity];
    apply (in_all _ _ _ H) in Hf; clear H; enumerate; subst; enumerate; subst; repeat match goal with B : (_ <? _)%nat = true |- _ => apply Nat.ltb_lt in B | B : (_ <=? _)%nat = true |- _ => apply Nat.leb_le in B end;
    named Hf; cbn [fits]; lia.
Lemma dg_fits : forall asserts s n l f, default_DG_set asserts s n = Some l -> s <> TriangularPrism -> s <> Pyramid -> In f l -> fits s n f.
Proof.
  intros asserts s n l f H N1 N2 Hf. destruct s; try discriminate; try congruence; cbn [default_DG_set] in H; clear N1 N2.
  - unfold createDGBasisFunctionSet1DH1Line in H. discontinuous n H Hf.
  - unfold createDGBasisFunctionSet2DH1Triangle in H. discontinuous n H Hf.
  - unfold createDGBasisFunctionSet2DH1Square in H. discontinuous n H Hf.
  - unfold createDGBasisFunctionSet3DH1Tetrahedron in H. discontinuous n H Hf.
  - unfold createDGBasisFunctionSet3DH1Cube in H. discontinuous n H Hf.
Qed.

Definition sets_fit (s : shape) (n : nat) (r : list oriented_set) : Prop := forall t f, In t r -> In f (functions t) -> fits s n f.
Lemma sets_from : forall s n l r, all_sets l = Some r -> (forall o i fs f, In (o, i, fs) l -> In (Some f) fs -> fits s n f) -> sets_fit s n r.
Proof.
  intros s n l r H K t f Ht Hf. destruct (in_all_sets _ _ _ H Ht) as (fs & A & B). apply (K _ _ _ f A). exact (in_all _ _ _ B Hf).
Qed.
Ltac oriented := repeat match goal with
  | H : In (_, _, _) (oriented_sets _ _ _ _ _) |- _ => apply in_oriented_sets in H; destruct H as (? & ? & ? & ? & H & ?)
  | H : In _ (triangle_orders _) |- _ => unfold triangle_orders in H
  | H : In _ (square_orders _) |- _ => unfold square_orders in H
  | H : In _ triangle_orientations |- _ => unfold triangle_orientations in H
  end.
Ltac sets H := apply positive_inv in H; refine (sets_from _ _ _ _ H _); clear H; intros o i fs f H Hf; cbv zeta in H;
  enumerate; subst; oriented; enumerate; subst; oriented; enumerate; subst; enumerate; subst; oriented; enumerate; subst; cbn [fst snd] in *;
  repeat match type of Hf with context [if ?b then _ else _] => destruct b end; named Hf; cbn [fits]; lia.
Ltac whole H Hf := apply positive_inv in H; apply (in_all _ _ _ H) in Hf; clear H; enumerate; named Hf; cbn [fits]; lia.
Lemma conforming_fits : forall asserts s n sets, (1 <= n)%nat -> default_conforming_sets asserts s n = Some sets -> s <> TriangularPrism -> s <> Pyramid ->
  (forall f, In f (interior_set sets) -> fits s n f) /\ sets_fit s n (face_sets sets) /\ sets_fit s n (edge_sets sets) /\ sets_fit s n (node_sets sets).
Proof.
  intros asserts s n sets Hn H N1 N2.
  assert (sets_fit s n []) as F0 by (intros ? ? []).
  destruct s; try discriminate; try congruence; cbn [default_conforming_sets] in H; clear N1 N2; bind_inv;
    match goal with H : Some _ = Some sets |- _ => injection H as <- end; cbn [interior_set face_sets edge_sets node_sets]; (split; [|split; [|split]]); try assumption.
  - intros f Hf. whole H Hf.
  - sets H0.
  - intros f Hf. whole H Hf.
  - sets H0.
  - sets H1.
  - intros f Hf. whole H Hf.
  - sets H0.
  - sets H1.
  - intros f Hf. whole H Hf.
  - sets H0.
  - sets H1.
  - sets H2.
  - intros f Hf. whole H Hf.
  - sets H0.
  - sets H1.
  - sets H2.
Qed.
Lemma conforming_basis_fits : forall asserts s n of oe l f, (1 <= n)%nat -> conforming_basis asserts s n of oe = Some l -> s <> TriangularPrism -> s <> Pyramid -> In f l -> fits s n f.
Proof.
  intros asserts s n of oe l f Hn H N1 N2 Hf. unfold conforming_basis in H. destruct (default_conforming_sets asserts s n) as [sets|] eqn:E; [|discriminate].
  destruct (conforming_fits asserts s n sets Hn E N1 N2) as (Fi & Ff & Fe & Fn).
  apply joined_inv in H. destruct H as (_ & _ & H). apply H in Hf. clear H. destruct Hf as (g & Hg & Hf).
  destruct Hg as [Hg|Hg]; [injection Hg as <-; auto|]. apply in_app_or in Hg. destruct Hg as [Hg|Hg]; [|apply in_app_or in Hg; destruct Hg as [Hg|Hg]];
    apply in_map_iff in Hg; destruct Hg as (i & Hg & _).
  - unfold face_functions in Hg. rewrite E in Hg. cbn [bind] in Hg. apply select_spec in Hg. destruct Hg as (t & Ht & _ & _ & <-). exact (Ff t f Ht Hf).
  - unfold edge_functions in Hg. rewrite E in Hg. cbn [bind] in Hg. apply select_spec in Hg. destruct Hg as (t & Ht & _ & _ & <-). exact (Fe t f Ht Hf).
  - unfold node_functions in Hg. rewrite E in Hg. cbn [bind] in Hg. bind_inv. match goal with K : Some _ = Some g |- _ => injection K as <- end.
    match goal with K : nth_error _ _ = Some _ |- _ => apply nth_error_In in K; exact (Fn _ f K Hf) end.
Qed.
Lemma default_degree : forall s n l f, default_basis s n l -> s <> TriangularPrism -> s <> Pyramid -> In f l -> of_order s n (coordinates s) (eval f).
Proof.
  intros s n l f (asserts & H) N1 N2 Hf. apply fits_degree. destruct H as [H|(Hn & of & oe & H)].
  - exact (dg_fits asserts s n l f H N1 N2 Hf).
  - exact (conforming_basis_fits asserts s n of oe l f Hn H N1 N2 Hf).
Qed.

(** ** Monomials *)
Lemma pdeg_ipow : forall k f, pdeg 1 f -> pdeg k (fun t => ipow (f t) k).
Proof.
  induction k as [|k IH]; intros f H; [exact (pdeg_const 1)|]. cbn [ipow]. apply (pdeg_le (k + 1)); [lia|]. apply (pdeg_mult k 1 (fun t => ipow (f t) k) f (IH f H) H).
Qed.
Lemma pdeg_evalDIM : forall ns m r a d, pdeg m r -> pdeg (m + list_sum ns) (fun t => evalDIM (r t) (on_line a d t) ns).
Proof.
  induction ns as [|k ns IH]; intros m r a d H.
  - apply (pdeg_le m); [lia|]. apply pdeg_ext with (f := r); [exact H|]. intros t. destruct (on_line a d t); reflexivity.
  - destruct a as [|x a]; [apply (pdeg_le m); [lia|exact H]|]. destruct d as [|dx d]; [apply (pdeg_le m); [lia|exact H]|].
    apply (pdeg_le (m + k + list_sum ns)); [change (list_sum (k :: ns)) with (k + list_sum ns)%nat; lia|]. apply (IH (m + k)%nat (fun t => r t * ipow (x + t * dx) k) a d).
    apply pdeg_mult; [exact H|]. apply pdeg_ipow. apply pdeg_linear.
Qed.
Lemma monomial_degree : forall ns n, (list_sum ns <= n)%nat -> of_total_degree n (length ns) (eval (Monomial ns)).
Proof.
  intros ns n H a d La Ld. apply (polynomial_from n _ a d (fun t => evalDIM 1 (on_line a d t) ns)).
  - apply (pdeg_le (0 + list_sum ns)); [lia|]. apply (pdeg_evalDIM ns 0 (fun _ => 1)). apply pdeg_const.
  - intros t. cbn [eval]. unfold Monomial_eval, on_line. rewrite map_length, combine_length, La, Ld, Nat.min_id, Nat.eqb_refl. reflexivity.
Qed.
Lemma monomials_degree : forall n f,
  (In f (assembleMonomialBasisFunctions1D n) -> of_total_degree n 1 (eval f)) /\ (In f (assembleMonomialBasisFunctions2D n) -> of_total_degree n 2 (eval f)) /\
  (In f (assembleMonomialBasisFunctions3D n) -> of_total_degree n 3 (eval f)) /\ (In f (assembleMonomialBasisFunctions4D n) -> of_total_degree n 4 (eval f)).
Proof.
  intros n f. split; [|split; [|split]]; intros H;
    [unfold assembleMonomialBasisFunctions1D in H|unfold assembleMonomialBasisFunctions2D in H|unfold assembleMonomialBasisFunctions3D in H|unfold assembleMonomialBasisFunctions4D in H];
    enumerate; subst f; match goal with |- of_total_degree _ _ (eval (Monomial ?ns)) => apply (monomial_degree ns n); cbn; lia end.
Qed.
