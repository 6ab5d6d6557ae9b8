From Coq Require Import List Arith Bool ZArith Reals Lra Lia.
From Verif Require Import Legendre_model Legendre_spec Legendre_proofs Derivative RefGeometry_model RefGeometry_spec
  BasisFunctions_model BasisFunctions_spec.
Import ListNotations.
Local Open Scope R_scope.

Lemma D_div_const : forall f c x a, derivable_pt_lim f x a -> derivable_pt_lim (fun t => f t / c) x (a / c).
Proof.
  intros f c x a H. unfold Rdiv. replace (a * / c) with (a * / c + f x * 0) by ring.
  apply (D_mult f (fun _ => / c)); [exact H|apply D_const].
Qed.
Lemma D_lobatto : forall k f x a b, derivable_pt_lim f x a -> LobattoPolynomialDerivative k (f x) = Some b ->
  derivable_pt_lim (fun t => LobattoPolynomial k (f t)) x (b * a).
Proof.
  intros k f x a b H Hb. pose proof (lobatto_derivative_all k (f x)) as HL. rewrite Hb in HL.
  exact (derivable_pt_lim_comp f (LobattoPolynomial k) x a b H (proj2 HL)).
Qed.
Ltac bf_rule :=
  match goal with
  | |- derivable_pt_lim (fun _ => ?c) _ _ => apply (D_const c)
  | |- derivable_pt_lim (fun t => @?f t / ?c) _ _ => apply (D_div_const f c)
  | |- derivable_pt_lim (fun t => LobattoPolynomial ?k (@?f t)) _ _ => eapply (D_lobatto k f); [|cbv beta; eassumption]
  | _ => derive_rule
  end.

(** barycentric coordinates are affine functions *)
Lemma baricentric_2D_affine : forall n x y l, baricentric_2D n x y = Some l ->
  exists c, forall s t, baricentric_2D n s t = Some (c + baricentricDeriv n 0 * s + baricentricDeriv n 1 * t).
Proof.
  intros n x y l H. unfold baricentricDeriv.
  destruct n as [|[|[|n]]]; [exists 1|exists 0|exists 0|cbn in H; destruct n; discriminate];
    intros s t; cbn -[Rplus Rmult Rminus]; f_equal; ring.
Qed.
Lemma baricentric_3D_affine : forall n x y z l, baricentric_3D n x y z = Some l ->
  exists c, forall s t u, baricentric_3D n s t u =
    Some (c + baricentricDeriv n 0 * s + baricentricDeriv n 1 * t + baricentricDeriv n 2 * u).
Proof.
  intros n x y z l H. unfold baricentricDeriv.
  destruct n as [|[|[|[|n]]]]; [exists 1|exists 0|exists 0|exists 0|cbn in H; destruct n; discriminate];
    intros s t u; cbn -[Rplus Rmult Rminus]; f_equal; ring.
Qed.

Lemma bind_some : forall A B (o : option A) (f : A -> option B) b, bind o f = Some b ->
  exists a, o = Some a /\ f a = Some b.
Proof. intros A B [a|] f b H; [eauto|discriminate]. Qed.

Ltac unbind H :=
  repeat match type of H with
  | bind ?o _ = Some _ =>
      let a := fresh "l" in let E := fresh "E" in
      apply bind_some in H; destruct H as (a & E & H)
  end.
(** the barycentric coordinates of the nodes of the function are affine functions *)
Ltac affine :=
  repeat match goal with
  | E : baricentric_2D ?n ?x ?y = Some ?l |- _ =>
      tryif is_var n then
        let c := fresh "c" in let A := fresh "A" in
        destruct (baricentric_2D_affine n x y l E) as (c & A); clear E;
        repeat match goal with E' : baricentric_2D n _ _ = Some _ |- _ => clear E' end
      else clear E
  | E : baricentric_3D ?n ?x ?y ?z = Some ?l |- _ =>
      tryif is_var n then
        let c := fresh "c" in let A := fresh "A" in
        destruct (baricentric_3D_affine n x y z l E) as (c & A); clear E;
        repeat match goal with E' : baricentric_3D n _ _ _ = Some _ |- _ => clear E' end
      else clear E
  end.
Ltac use_affine :=
  repeat match goal with
  | A : forall s t, baricentric_2D ?n s t = Some _, H : context [baricentric_2D ?n ?a ?b] |- _ =>
      lazymatch type of H with
      | forall _, _ => fail
      | _ => rewrite !A in H
      end
  | A : forall s t u, baricentric_3D ?n s t u = Some _, H : context [baricentric_3D ?n ?a ?b ?c] |- _ =>
      lazymatch type of H with
      | forall _, _ => fail
      | _ => rewrite !A in H
      end
  | A : forall s t, baricentric_2D ?n s t = Some _ |- context [baricentric_2D ?n ?a ?b] => rewrite !A
  | A : forall s t u, baricentric_3D ?n s t u = Some _ |- context [baricentric_3D ?n ?a ?b ?c] => rewrite !A
  end.
Ltac reduce_in H := cbn [bind baricentric_2D baricentric_3D nth_error] in H.
Lemma point1 : forall (A : Type) (f : R -> option A) p v, match p with [x] => f x | _ => None end = Some v ->
  exists x, p = [x].
Proof. intros A f p v H. destruct p as [|x [|? ?]]; try discriminate. eauto. Qed.
Lemma point2 : forall (A : Type) (f : R -> R -> option A) p v,
  match p with [x; y] => f x y | _ => None end = Some v -> exists x y, p = [x; y].
Proof. intros A f p v H. destruct p as [|x [|y [|? ?]]]; try discriminate. eauto. Qed.
Lemma point3 : forall (A : Type) (f : R -> R -> R -> option A) p v,
  match p with [x; y; z] => f x y z | _ => None end = Some v -> exists x y z, p = [x; y; z].
Proof. intros A f p v H. destruct p as [|x [|y [|z [|? ?]]]]; try discriminate. eauto. Qed.

(** [Hv] is the value, [H] the derivative; [u] unfolds eval *)
Ltac partial Hv H u :=
  unbind Hv; clear Hv; affine; use_affine; reduce_in H; unbind H;
  injection H as <-;
  eexists; split;
  [ let t := fresh "t" in intro t; unfold with_coordinate; cbn [firstn skipn app]; u; use_affine;
    cbn [bind baricentric_2D baricentric_3D nth_error]; reflexivity
  | cbn [nth]; eapply D_eq; [repeat bf_rule | cbv beta; first [field | cbv [baricentricDeriv Nat.eqb Nat.add]; field | idtac] ] ].
Lemma VertexLine_partial0 : forall nodePosition p v d, VertexLine_eval nodePosition p = Some v -> VertexLine_evalDeriv0 nodePosition p = Some d ->
  is_partial_derivative (VertexLine_eval nodePosition) 0 p d.
Proof.
  intros nodePosition p v d Hv H. unfold VertexLine_eval in Hv. pose proof Hv as Hp. apply point1 in Hp. destruct Hp as (x & ->).
  unfold VertexLine_evalDeriv0 in H. partial Hv H ltac:(unfold VertexLine_eval).
Qed.
Lemma InteriorLine_partial0 : forall polynomialOrder p v d, InteriorLine_eval polynomialOrder p = Some v -> InteriorLine_evalDeriv0 polynomialOrder p = Some d ->
  is_partial_derivative (InteriorLine_eval polynomialOrder) 0 p d.
Proof.
  intros polynomialOrder p v d Hv H. unfold InteriorLine_eval in Hv. pose proof Hv as Hp. apply point1 in Hp. destruct Hp as (x & ->).
  unfold InteriorLine_evalDeriv0 in H. partial Hv H ltac:(unfold InteriorLine_eval).
Qed.
Lemma VertexSquare_partial0 : forall nodePosition0 nodePosition1 p v d, VertexSquare_eval nodePosition0 nodePosition1 p = Some v -> VertexSquare_evalDeriv0 nodePosition0 nodePosition1 p = Some d ->
  is_partial_derivative (VertexSquare_eval nodePosition0 nodePosition1) 0 p d.
Proof.
  intros nodePosition0 nodePosition1 p v d Hv H. unfold VertexSquare_eval in Hv. pose proof Hv as Hp. apply point2 in Hp. destruct Hp as (x & y & ->).
  unfold VertexSquare_evalDeriv0 in H. partial Hv H ltac:(unfold VertexSquare_eval).
Qed.
Lemma VertexSquare_partial1 : forall nodePosition0 nodePosition1 p v d, VertexSquare_eval nodePosition0 nodePosition1 p = Some v -> VertexSquare_evalDeriv1 nodePosition0 nodePosition1 p = Some d ->
  is_partial_derivative (VertexSquare_eval nodePosition0 nodePosition1) 1 p d.
Proof.
  intros nodePosition0 nodePosition1 p v d Hv H. unfold VertexSquare_eval in Hv. pose proof Hv as Hp. apply point2 in Hp. destruct Hp as (x & y & ->).
  unfold VertexSquare_evalDeriv1 in H. partial Hv H ltac:(unfold VertexSquare_eval).
Qed.
Lemma FaceSquare_0_partial0 : forall edgePosition mirroring polynomialOrder p v d, FaceSquare_0_eval edgePosition mirroring polynomialOrder p = Some v -> FaceSquare_0_evalDeriv0 edgePosition mirroring polynomialOrder p = Some d ->
  is_partial_derivative (FaceSquare_0_eval edgePosition mirroring polynomialOrder) 0 p d.
Proof.
  intros edgePosition mirroring polynomialOrder p v d Hv H. unfold FaceSquare_0_eval in Hv. pose proof Hv as Hp. apply point2 in Hp. destruct Hp as (x & y & ->).
  unfold FaceSquare_0_evalDeriv0 in H. partial Hv H ltac:(unfold FaceSquare_0_eval).
Qed.
Lemma FaceSquare_0_partial1 : forall edgePosition mirroring polynomialOrder p v d, FaceSquare_0_eval edgePosition mirroring polynomialOrder p = Some v -> FaceSquare_0_evalDeriv1 edgePosition mirroring polynomialOrder p = Some d ->
  is_partial_derivative (FaceSquare_0_eval edgePosition mirroring polynomialOrder) 1 p d.
Proof.
  intros edgePosition mirroring polynomialOrder p v d Hv H. unfold FaceSquare_0_eval in Hv. pose proof Hv as Hp. apply point2 in Hp. destruct Hp as (x & y & ->).
  unfold FaceSquare_0_evalDeriv1 in H. partial Hv H ltac:(unfold FaceSquare_0_eval).
Qed.
Lemma FaceSquare_1_partial0 : forall edgePosition mirroring polynomialOrder p v d, FaceSquare_1_eval edgePosition mirroring polynomialOrder p = Some v -> FaceSquare_1_evalDeriv0 edgePosition mirroring polynomialOrder p = Some d ->
  is_partial_derivative (FaceSquare_1_eval edgePosition mirroring polynomialOrder) 0 p d.
Proof.
  intros edgePosition mirroring polynomialOrder p v d Hv H. unfold FaceSquare_1_eval in Hv. pose proof Hv as Hp. apply point2 in Hp. destruct Hp as (x & y & ->).
  unfold FaceSquare_1_evalDeriv0 in H. partial Hv H ltac:(unfold FaceSquare_1_eval).
Qed.
Lemma FaceSquare_1_partial1 : forall edgePosition mirroring polynomialOrder p v d, FaceSquare_1_eval edgePosition mirroring polynomialOrder p = Some v -> FaceSquare_1_evalDeriv1 edgePosition mirroring polynomialOrder p = Some d ->
  is_partial_derivative (FaceSquare_1_eval edgePosition mirroring polynomialOrder) 1 p d.
Proof.
  intros edgePosition mirroring polynomialOrder p v d Hv H. unfold FaceSquare_1_eval in Hv. pose proof Hv as Hp. apply point2 in Hp. destruct Hp as (x & y & ->).
  unfold FaceSquare_1_evalDeriv1 in H. partial Hv H ltac:(unfold FaceSquare_1_eval).
Qed.
Lemma InteriorSquare_partial0 : forall polynomialOrder0 polynomialOrder1 p v d, InteriorSquare_eval polynomialOrder0 polynomialOrder1 p = Some v -> InteriorSquare_evalDeriv0 polynomialOrder0 polynomialOrder1 p = Some d ->
  is_partial_derivative (InteriorSquare_eval polynomialOrder0 polynomialOrder1) 0 p d.
Proof.
  intros polynomialOrder0 polynomialOrder1 p v d Hv H. unfold InteriorSquare_eval in Hv. pose proof Hv as Hp. apply point2 in Hp. destruct Hp as (x & y & ->).
  unfold InteriorSquare_evalDeriv0 in H. partial Hv H ltac:(unfold InteriorSquare_eval).
Qed.
Lemma InteriorSquare_partial1 : forall polynomialOrder0 polynomialOrder1 p v d, InteriorSquare_eval polynomialOrder0 polynomialOrder1 p = Some v -> InteriorSquare_evalDeriv1 polynomialOrder0 polynomialOrder1 p = Some d ->
  is_partial_derivative (InteriorSquare_eval polynomialOrder0 polynomialOrder1) 1 p d.
Proof.
  intros polynomialOrder0 polynomialOrder1 p v d Hv H. unfold InteriorSquare_eval in Hv. pose proof Hv as Hp. apply point2 in Hp. destruct Hp as (x & y & ->).
  unfold InteriorSquare_evalDeriv1 in H. partial Hv H ltac:(unfold InteriorSquare_eval).
Qed.
Lemma VertexTriangle_partial0 : forall node p v d, VertexTriangle_eval node p = Some v -> VertexTriangle_evalDeriv0 node p = Some d ->
  is_partial_derivative (VertexTriangle_eval node) 0 p d.
Proof.
  intros node p v d Hv H. unfold VertexTriangle_eval in Hv. pose proof Hv as Hp. apply point2 in Hp. destruct Hp as (x & y & ->).
  unfold VertexTriangle_evalDeriv0 in H. partial Hv H ltac:(unfold VertexTriangle_eval).
Qed.
Lemma VertexTriangle_partial1 : forall node p v d, VertexTriangle_eval node p = Some v -> VertexTriangle_evalDeriv1 node p = Some d ->
  is_partial_derivative (VertexTriangle_eval node) 1 p d.
Proof.
  intros node p v d Hv H. unfold VertexTriangle_eval in Hv. pose proof Hv as Hp. apply point2 in Hp. destruct Hp as (x & y & ->).
  unfold VertexTriangle_evalDeriv1 in H. partial Hv H ltac:(unfold VertexTriangle_eval).
Qed.
Lemma FaceTriangle_partial0 : forall node0 node1 polynomialOrder p v d, FaceTriangle_eval node0 node1 polynomialOrder p = Some v -> FaceTriangle_evalDeriv0 node0 node1 polynomialOrder p = Some d ->
  is_partial_derivative (FaceTriangle_eval node0 node1 polynomialOrder) 0 p d.
Proof.
  intros node0 node1 polynomialOrder p v d Hv H. unfold FaceTriangle_eval in Hv. pose proof Hv as Hp. apply point2 in Hp. destruct Hp as (x & y & ->).
  unfold FaceTriangle_evalDeriv0 in H. partial Hv H ltac:(unfold FaceTriangle_eval).
Qed.
Lemma FaceTriangle_partial1 : forall node0 node1 polynomialOrder p v d, FaceTriangle_eval node0 node1 polynomialOrder p = Some v -> FaceTriangle_evalDeriv1 node0 node1 polynomialOrder p = Some d ->
  is_partial_derivative (FaceTriangle_eval node0 node1 polynomialOrder) 1 p d.
Proof.
  intros node0 node1 polynomialOrder p v d Hv H. unfold FaceTriangle_eval in Hv. pose proof Hv as Hp. apply point2 in Hp. destruct Hp as (x & y & ->).
  unfold FaceTriangle_evalDeriv1 in H. partial Hv H ltac:(unfold FaceTriangle_eval).
Qed.
Lemma InteriorTriangle_partial0 : forall polynomialOrder0 polynomialOrder1 p v d, InteriorTriangle_eval polynomialOrder0 polynomialOrder1 p = Some v -> InteriorTriangle_evalDeriv0 polynomialOrder0 polynomialOrder1 p = Some d ->
  is_partial_derivative (InteriorTriangle_eval polynomialOrder0 polynomialOrder1) 0 p d.
Proof.
  intros polynomialOrder0 polynomialOrder1 p v d Hv H. unfold InteriorTriangle_eval in Hv. pose proof Hv as Hp. apply point2 in Hp. destruct Hp as (x & y & ->).
  unfold InteriorTriangle_evalDeriv0 in H. partial Hv H ltac:(unfold InteriorTriangle_eval).
Qed.
Lemma InteriorTriangle_partial1 : forall polynomialOrder0 polynomialOrder1 p v d, InteriorTriangle_eval polynomialOrder0 polynomialOrder1 p = Some v -> InteriorTriangle_evalDeriv1 polynomialOrder0 polynomialOrder1 p = Some d ->
  is_partial_derivative (InteriorTriangle_eval polynomialOrder0 polynomialOrder1) 1 p d.
Proof.
  intros polynomialOrder0 polynomialOrder1 p v d Hv H. unfold InteriorTriangle_eval in Hv. pose proof Hv as Hp. apply point2 in Hp. destruct Hp as (x & y & ->).
  unfold InteriorTriangle_evalDeriv1 in H. partial Hv H ltac:(unfold InteriorTriangle_eval).
Qed.
Lemma VertexCube_partial0 : forall nodePosition0 nodePosition1 nodePosition2 p v d, VertexCube_eval nodePosition0 nodePosition1 nodePosition2 p = Some v -> VertexCube_evalDeriv0 nodePosition0 nodePosition1 nodePosition2 p = Some d ->
  is_partial_derivative (VertexCube_eval nodePosition0 nodePosition1 nodePosition2) 0 p d.
Proof.
  intros nodePosition0 nodePosition1 nodePosition2 p v d Hv H. unfold VertexCube_eval in Hv. pose proof Hv as Hp. apply point3 in Hp. destruct Hp as (x & y & z & ->).
  unfold VertexCube_evalDeriv0 in H. partial Hv H ltac:(unfold VertexCube_eval).
Qed.
Lemma VertexCube_partial1 : forall nodePosition0 nodePosition1 nodePosition2 p v d, VertexCube_eval nodePosition0 nodePosition1 nodePosition2 p = Some v -> VertexCube_evalDeriv1 nodePosition0 nodePosition1 nodePosition2 p = Some d ->
  is_partial_derivative (VertexCube_eval nodePosition0 nodePosition1 nodePosition2) 1 p d.
Proof.
  intros nodePosition0 nodePosition1 nodePosition2 p v d Hv H. unfold VertexCube_eval in Hv. pose proof Hv as Hp. apply point3 in Hp. destruct Hp as (x & y & z & ->).
  unfold VertexCube_evalDeriv1 in H. partial Hv H ltac:(unfold VertexCube_eval).
Qed.
Lemma VertexCube_partial2 : forall nodePosition0 nodePosition1 nodePosition2 p v d, VertexCube_eval nodePosition0 nodePosition1 nodePosition2 p = Some v -> VertexCube_evalDeriv2 nodePosition0 nodePosition1 nodePosition2 p = Some d ->
  is_partial_derivative (VertexCube_eval nodePosition0 nodePosition1 nodePosition2) 2 p d.
Proof.
  intros nodePosition0 nodePosition1 nodePosition2 p v d Hv H. unfold VertexCube_eval in Hv. pose proof Hv as Hp. apply point3 in Hp. destruct Hp as (x & y & z & ->).
  unfold VertexCube_evalDeriv2 in H. partial Hv H ltac:(unfold VertexCube_eval).
Qed.
Lemma EdgeCube_0_partial0 : forall edgePosition1 edgePosition2 mirroring polynomialOrder p v d, EdgeCube_0_eval edgePosition1 edgePosition2 mirroring polynomialOrder p = Some v -> EdgeCube_0_evalDeriv0 edgePosition1 edgePosition2 mirroring polynomialOrder p = Some d ->
  is_partial_derivative (EdgeCube_0_eval edgePosition1 edgePosition2 mirroring polynomialOrder) 0 p d.
Proof.
  intros edgePosition1 edgePosition2 mirroring polynomialOrder p v d Hv H. unfold EdgeCube_0_eval in Hv. pose proof Hv as Hp. apply point3 in Hp. destruct Hp as (x & y & z & ->).
  unfold EdgeCube_0_evalDeriv0 in H. partial Hv H ltac:(unfold EdgeCube_0_eval).
Qed.
Lemma EdgeCube_0_partial1 : forall edgePosition1 edgePosition2 mirroring polynomialOrder p v d, EdgeCube_0_eval edgePosition1 edgePosition2 mirroring polynomialOrder p = Some v -> EdgeCube_0_evalDeriv1 edgePosition1 edgePosition2 mirroring polynomialOrder p = Some d ->
  is_partial_derivative (EdgeCube_0_eval edgePosition1 edgePosition2 mirroring polynomialOrder) 1 p d.
Proof.
  intros edgePosition1 edgePosition2 mirroring polynomialOrder p v d Hv H. unfold EdgeCube_0_eval in Hv. pose proof Hv as Hp. apply point3 in Hp. destruct Hp as (x & y & z & ->).
  unfold EdgeCube_0_evalDeriv1 in H. partial Hv H ltac:(unfold EdgeCube_0_eval).
Qed.
Lemma EdgeCube_0_partial2 : forall edgePosition1 edgePosition2 mirroring polynomialOrder p v d, EdgeCube_0_eval edgePosition1 edgePosition2 mirroring polynomialOrder p = Some v -> EdgeCube_0_evalDeriv2 edgePosition1 edgePosition2 mirroring polynomialOrder p = Some d ->
  is_partial_derivative (EdgeCube_0_eval edgePosition1 edgePosition2 mirroring polynomialOrder) 2 p d.
Proof.
  intros edgePosition1 edgePosition2 mirroring polynomialOrder p v d Hv H. unfold EdgeCube_0_eval in Hv. pose proof Hv as Hp. apply point3 in Hp. destruct Hp as (x & y & z & ->).
  unfold EdgeCube_0_evalDeriv2 in H. partial Hv H ltac:(unfold EdgeCube_0_eval).
Qed.
Lemma EdgeCube_1_partial0 : forall edgePosition0 edgePosition2 mirroring polynomialOrder p v d, EdgeCube_1_eval edgePosition0 edgePosition2 mirroring polynomialOrder p = Some v -> EdgeCube_1_evalDeriv0 edgePosition0 edgePosition2 mirroring polynomialOrder p = Some d ->
  is_partial_derivative (EdgeCube_1_eval edgePosition0 edgePosition2 mirroring polynomialOrder) 0 p d.
Proof.
  intros edgePosition0 edgePosition2 mirroring polynomialOrder p v d Hv H. unfold EdgeCube_1_eval in Hv. pose proof Hv as Hp. apply point3 in Hp. destruct Hp as (x & y & z & ->).
  unfold EdgeCube_1_evalDeriv0 in H. partial Hv H ltac:(unfold EdgeCube_1_eval).
Qed.
Lemma EdgeCube_1_partial1 : forall edgePosition0 edgePosition2 mirroring polynomialOrder p v d, EdgeCube_1_eval edgePosition0 edgePosition2 mirroring polynomialOrder p = Some v -> EdgeCube_1_evalDeriv1 edgePosition0 edgePosition2 mirroring polynomialOrder p = Some d ->
  is_partial_derivative (EdgeCube_1_eval edgePosition0 edgePosition2 mirroring polynomialOrder) 1 p d.
Proof.
  intros edgePosition0 edgePosition2 mirroring polynomialOrder p v d Hv H. unfold EdgeCube_1_eval in Hv. pose proof Hv as Hp. apply point3 in Hp. destruct Hp as (x & y & z & ->).
  unfold EdgeCube_1_evalDeriv1 in H. partial Hv H ltac:(unfold EdgeCube_1_eval).
Qed.
Lemma EdgeCube_1_partial2 : forall edgePosition0 edgePosition2 mirroring polynomialOrder p v d, EdgeCube_1_eval edgePosition0 edgePosition2 mirroring polynomialOrder p = Some v -> EdgeCube_1_evalDeriv2 edgePosition0 edgePosition2 mirroring polynomialOrder p = Some d ->
  is_partial_derivative (EdgeCube_1_eval edgePosition0 edgePosition2 mirroring polynomialOrder) 2 p d.
Proof.
  intros edgePosition0 edgePosition2 mirroring polynomialOrder p v d Hv H. unfold EdgeCube_1_eval in Hv. pose proof Hv as Hp. apply point3 in Hp. destruct Hp as (x & y & z & ->).
  unfold EdgeCube_1_evalDeriv2 in H. partial Hv H ltac:(unfold EdgeCube_1_eval).
Qed.
Lemma EdgeCube_2_partial0 : forall edgePosition0 edgePosition1 mirroring polynomialOrder p v d, EdgeCube_2_eval edgePosition0 edgePosition1 mirroring polynomialOrder p = Some v -> EdgeCube_2_evalDeriv0 edgePosition0 edgePosition1 mirroring polynomialOrder p = Some d ->
  is_partial_derivative (EdgeCube_2_eval edgePosition0 edgePosition1 mirroring polynomialOrder) 0 p d.
Proof.
  intros edgePosition0 edgePosition1 mirroring polynomialOrder p v d Hv H. unfold EdgeCube_2_eval in Hv. pose proof Hv as Hp. apply point3 in Hp. destruct Hp as (x & y & z & ->).
  unfold EdgeCube_2_evalDeriv0 in H. partial Hv H ltac:(unfold EdgeCube_2_eval).
Qed.
Lemma EdgeCube_2_partial1 : forall edgePosition0 edgePosition1 mirroring polynomialOrder p v d, EdgeCube_2_eval edgePosition0 edgePosition1 mirroring polynomialOrder p = Some v -> EdgeCube_2_evalDeriv1 edgePosition0 edgePosition1 mirroring polynomialOrder p = Some d ->
  is_partial_derivative (EdgeCube_2_eval edgePosition0 edgePosition1 mirroring polynomialOrder) 1 p d.
Proof.
  intros edgePosition0 edgePosition1 mirroring polynomialOrder p v d Hv H. unfold EdgeCube_2_eval in Hv. pose proof Hv as Hp. apply point3 in Hp. destruct Hp as (x & y & z & ->).
  unfold EdgeCube_2_evalDeriv1 in H. partial Hv H ltac:(unfold EdgeCube_2_eval).
Qed.
Lemma EdgeCube_2_partial2 : forall edgePosition0 edgePosition1 mirroring polynomialOrder p v d, EdgeCube_2_eval edgePosition0 edgePosition1 mirroring polynomialOrder p = Some v -> EdgeCube_2_evalDeriv2 edgePosition0 edgePosition1 mirroring polynomialOrder p = Some d ->
  is_partial_derivative (EdgeCube_2_eval edgePosition0 edgePosition1 mirroring polynomialOrder) 2 p d.
Proof.
  intros edgePosition0 edgePosition1 mirroring polynomialOrder p v d Hv H. unfold EdgeCube_2_eval in Hv. pose proof Hv as Hp. apply point3 in Hp. destruct Hp as (x & y & z & ->).
  unfold EdgeCube_2_evalDeriv2 in H. partial Hv H ltac:(unfold EdgeCube_2_eval).
Qed.
Lemma FaceCube_0_partial0 : forall facePosition mirroring1 mirroring2 polynomialOrder1 polynomialOrder2 p v d, FaceCube_0_eval facePosition mirroring1 mirroring2 polynomialOrder1 polynomialOrder2 p = Some v -> FaceCube_0_evalDeriv0 facePosition mirroring1 mirroring2 polynomialOrder1 polynomialOrder2 p = Some d ->
  is_partial_derivative (FaceCube_0_eval facePosition mirroring1 mirroring2 polynomialOrder1 polynomialOrder2) 0 p d.
Proof.
  intros facePosition mirroring1 mirroring2 polynomialOrder1 polynomialOrder2 p v d Hv H. unfold FaceCube_0_eval in Hv. pose proof Hv as Hp. apply point3 in Hp. destruct Hp as (x & y & z & ->).
  unfold FaceCube_0_evalDeriv0 in H. partial Hv H ltac:(unfold FaceCube_0_eval).
Qed.
Lemma FaceCube_0_partial1 : forall facePosition mirroring1 mirroring2 polynomialOrder1 polynomialOrder2 p v d, FaceCube_0_eval facePosition mirroring1 mirroring2 polynomialOrder1 polynomialOrder2 p = Some v -> FaceCube_0_evalDeriv1 facePosition mirroring1 mirroring2 polynomialOrder1 polynomialOrder2 p = Some d ->
  is_partial_derivative (FaceCube_0_eval facePosition mirroring1 mirroring2 polynomialOrder1 polynomialOrder2) 1 p d.
Proof.
  intros facePosition mirroring1 mirroring2 polynomialOrder1 polynomialOrder2 p v d Hv H. unfold FaceCube_0_eval in Hv. pose proof Hv as Hp. apply point3 in Hp. destruct Hp as (x & y & z & ->).
  unfold FaceCube_0_evalDeriv1 in H. partial Hv H ltac:(unfold FaceCube_0_eval).
Qed.
Lemma FaceCube_0_partial2 : forall facePosition mirroring1 mirroring2 polynomialOrder1 polynomialOrder2 p v d, FaceCube_0_eval facePosition mirroring1 mirroring2 polynomialOrder1 polynomialOrder2 p = Some v -> FaceCube_0_evalDeriv2 facePosition mirroring1 mirroring2 polynomialOrder1 polynomialOrder2 p = Some d ->
  is_partial_derivative (FaceCube_0_eval facePosition mirroring1 mirroring2 polynomialOrder1 polynomialOrder2) 2 p d.
Proof.
  intros facePosition mirroring1 mirroring2 polynomialOrder1 polynomialOrder2 p v d Hv H. unfold FaceCube_0_eval in Hv. pose proof Hv as Hp. apply point3 in Hp. destruct Hp as (x & y & z & ->).
  unfold FaceCube_0_evalDeriv2 in H. partial Hv H ltac:(unfold FaceCube_0_eval).
Qed.
Lemma FaceCube_1_partial0 : forall facePosition mirroring0 mirroring2 polynomialOrder0 polynomialOrder2 p v d, FaceCube_1_eval facePosition mirroring0 mirroring2 polynomialOrder0 polynomialOrder2 p = Some v -> FaceCube_1_evalDeriv0 facePosition mirroring0 mirroring2 polynomialOrder0 polynomialOrder2 p = Some d ->
  is_partial_derivative (FaceCube_1_eval facePosition mirroring0 mirroring2 polynomialOrder0 polynomialOrder2) 0 p d.
Proof.
  intros facePosition mirroring0 mirroring2 polynomialOrder0 polynomialOrder2 p v d Hv H. unfold FaceCube_1_eval in Hv. pose proof Hv as Hp. apply point3 in Hp. destruct Hp as (x & y & z & ->).
  unfold FaceCube_1_evalDeriv0 in H. partial Hv H ltac:(unfold FaceCube_1_eval).
Qed.
Lemma FaceCube_1_partial1 : forall facePosition mirroring0 mirroring2 polynomialOrder0 polynomialOrder2 p v d, FaceCube_1_eval facePosition mirroring0 mirroring2 polynomialOrder0 polynomialOrder2 p = Some v -> FaceCube_1_evalDeriv1 facePosition mirroring0 mirroring2 polynomialOrder0 polynomialOrder2 p = Some d ->
  is_partial_derivative (FaceCube_1_eval facePosition mirroring0 mirroring2 polynomialOrder0 polynomialOrder2) 1 p d.
Proof.
  intros facePosition mirroring0 mirroring2 polynomialOrder0 polynomialOrder2 p v d Hv H. unfold FaceCube_1_eval in Hv. pose proof Hv as Hp. apply point3 in Hp. destruct Hp as (x & y & z & ->).
  unfold FaceCube_1_evalDeriv1 in H. partial Hv H ltac:(unfold FaceCube_1_eval).
Qed.
Lemma FaceCube_1_partial2 : forall facePosition mirroring0 mirroring2 polynomialOrder0 polynomialOrder2 p v d, FaceCube_1_eval facePosition mirroring0 mirroring2 polynomialOrder0 polynomialOrder2 p = Some v -> FaceCube_1_evalDeriv2 facePosition mirroring0 mirroring2 polynomialOrder0 polynomialOrder2 p = Some d ->
  is_partial_derivative (FaceCube_1_eval facePosition mirroring0 mirroring2 polynomialOrder0 polynomialOrder2) 2 p d.
Proof.
  intros facePosition mirroring0 mirroring2 polynomialOrder0 polynomialOrder2 p v d Hv H. unfold FaceCube_1_eval in Hv. pose proof Hv as Hp. apply point3 in Hp. destruct Hp as (x & y & z & ->).
  unfold FaceCube_1_evalDeriv2 in H. partial Hv H ltac:(unfold FaceCube_1_eval).
Qed.
Lemma FaceCube_2_partial0 : forall facePosition mirroring0 mirroring1 polynomialOrder0 polynomialOrder1 p v d, FaceCube_2_eval facePosition mirroring0 mirroring1 polynomialOrder0 polynomialOrder1 p = Some v -> FaceCube_2_evalDeriv0 facePosition mirroring0 mirroring1 polynomialOrder0 polynomialOrder1 p = Some d ->
  is_partial_derivative (FaceCube_2_eval facePosition mirroring0 mirroring1 polynomialOrder0 polynomialOrder1) 0 p d.
Proof.
  intros facePosition mirroring0 mirroring1 polynomialOrder0 polynomialOrder1 p v d Hv H. unfold FaceCube_2_eval in Hv. pose proof Hv as Hp. apply point3 in Hp. destruct Hp as (x & y & z & ->).
  unfold FaceCube_2_evalDeriv0 in H. partial Hv H ltac:(unfold FaceCube_2_eval).
Qed.
Lemma FaceCube_2_partial1 : forall facePosition mirroring0 mirroring1 polynomialOrder0 polynomialOrder1 p v d, FaceCube_2_eval facePosition mirroring0 mirroring1 polynomialOrder0 polynomialOrder1 p = Some v -> FaceCube_2_evalDeriv1 facePosition mirroring0 mirroring1 polynomialOrder0 polynomialOrder1 p = Some d ->
  is_partial_derivative (FaceCube_2_eval facePosition mirroring0 mirroring1 polynomialOrder0 polynomialOrder1) 1 p d.
Proof.
  intros facePosition mirroring0 mirroring1 polynomialOrder0 polynomialOrder1 p v d Hv H. unfold FaceCube_2_eval in Hv. pose proof Hv as Hp. apply point3 in Hp. destruct Hp as (x & y & z & ->).
  unfold FaceCube_2_evalDeriv1 in H. partial Hv H ltac:(unfold FaceCube_2_eval).
Qed.
Lemma FaceCube_2_partial2 : forall facePosition mirroring0 mirroring1 polynomialOrder0 polynomialOrder1 p v d, FaceCube_2_eval facePosition mirroring0 mirroring1 polynomialOrder0 polynomialOrder1 p = Some v -> FaceCube_2_evalDeriv2 facePosition mirroring0 mirroring1 polynomialOrder0 polynomialOrder1 p = Some d ->
  is_partial_derivative (FaceCube_2_eval facePosition mirroring0 mirroring1 polynomialOrder0 polynomialOrder1) 2 p d.
Proof.
  intros facePosition mirroring0 mirroring1 polynomialOrder0 polynomialOrder1 p v d Hv H. unfold FaceCube_2_eval in Hv. pose proof Hv as Hp. apply point3 in Hp. destruct Hp as (x & y & z & ->).
  unfold FaceCube_2_evalDeriv2 in H. partial Hv H ltac:(unfold FaceCube_2_eval).
Qed.
Lemma InteriorCube_partial0 : forall polynomialOrder0 polynomialOrder1 polynomialOrder2 p v d, InteriorCube_eval polynomialOrder0 polynomialOrder1 polynomialOrder2 p = Some v -> InteriorCube_evalDeriv0 polynomialOrder0 polynomialOrder1 polynomialOrder2 p = Some d ->
  is_partial_derivative (InteriorCube_eval polynomialOrder0 polynomialOrder1 polynomialOrder2) 0 p d.
Proof.
  intros polynomialOrder0 polynomialOrder1 polynomialOrder2 p v d Hv H. unfold InteriorCube_eval in Hv. pose proof Hv as Hp. apply point3 in Hp. destruct Hp as (x & y & z & ->).
  unfold InteriorCube_evalDeriv0 in H. partial Hv H ltac:(unfold InteriorCube_eval).
Qed.
Lemma InteriorCube_partial1 : forall polynomialOrder0 polynomialOrder1 polynomialOrder2 p v d, InteriorCube_eval polynomialOrder0 polynomialOrder1 polynomialOrder2 p = Some v -> InteriorCube_evalDeriv1 polynomialOrder0 polynomialOrder1 polynomialOrder2 p = Some d ->
  is_partial_derivative (InteriorCube_eval polynomialOrder0 polynomialOrder1 polynomialOrder2) 1 p d.
Proof.
  intros polynomialOrder0 polynomialOrder1 polynomialOrder2 p v d Hv H. unfold InteriorCube_eval in Hv. pose proof Hv as Hp. apply point3 in Hp. destruct Hp as (x & y & z & ->).
  unfold InteriorCube_evalDeriv1 in H. partial Hv H ltac:(unfold InteriorCube_eval).
Qed.
Lemma InteriorCube_partial2 : forall polynomialOrder0 polynomialOrder1 polynomialOrder2 p v d, InteriorCube_eval polynomialOrder0 polynomialOrder1 polynomialOrder2 p = Some v -> InteriorCube_evalDeriv2 polynomialOrder0 polynomialOrder1 polynomialOrder2 p = Some d ->
  is_partial_derivative (InteriorCube_eval polynomialOrder0 polynomialOrder1 polynomialOrder2) 2 p d.
Proof.
  intros polynomialOrder0 polynomialOrder1 polynomialOrder2 p v d Hv H. unfold InteriorCube_eval in Hv. pose proof Hv as Hp. apply point3 in Hp. destruct Hp as (x & y & z & ->).
  unfold InteriorCube_evalDeriv2 in H. partial Hv H ltac:(unfold InteriorCube_eval).
Qed.
Lemma VertexTetrahedron_partial0 : forall node p v d, VertexTetrahedron_eval node p = Some v -> VertexTetrahedron_evalDeriv0 node p = Some d ->
  is_partial_derivative (VertexTetrahedron_eval node) 0 p d.
Proof.
  intros node p v d Hv H. unfold VertexTetrahedron_eval in Hv. pose proof Hv as Hp. apply point3 in Hp. destruct Hp as (x & y & z & ->).
  unfold VertexTetrahedron_evalDeriv0 in H. partial Hv H ltac:(unfold VertexTetrahedron_eval).
Qed.
Lemma VertexTetrahedron_partial1 : forall node p v d, VertexTetrahedron_eval node p = Some v -> VertexTetrahedron_evalDeriv1 node p = Some d ->
  is_partial_derivative (VertexTetrahedron_eval node) 1 p d.
Proof.
  intros node p v d Hv H. unfold VertexTetrahedron_eval in Hv. pose proof Hv as Hp. apply point3 in Hp. destruct Hp as (x & y & z & ->).
  unfold VertexTetrahedron_evalDeriv1 in H. partial Hv H ltac:(unfold VertexTetrahedron_eval).
Qed.
Lemma VertexTetrahedron_partial2 : forall node p v d, VertexTetrahedron_eval node p = Some v -> VertexTetrahedron_evalDeriv2 node p = Some d ->
  is_partial_derivative (VertexTetrahedron_eval node) 2 p d.
Proof.
  intros node p v d Hv H. unfold VertexTetrahedron_eval in Hv. pose proof Hv as Hp. apply point3 in Hp. destruct Hp as (x & y & z & ->).
  unfold VertexTetrahedron_evalDeriv2 in H. partial Hv H ltac:(unfold VertexTetrahedron_eval).
Qed.
Lemma EdgeTetrahedron_partial0 : forall node0 node1 polynomialOrder p v d, EdgeTetrahedron_eval node0 node1 polynomialOrder p = Some v -> EdgeTetrahedron_evalDeriv0 node0 node1 polynomialOrder p = Some d ->
  is_partial_derivative (EdgeTetrahedron_eval node0 node1 polynomialOrder) 0 p d.
Proof.
  intros node0 node1 polynomialOrder p v d Hv H. unfold EdgeTetrahedron_eval in Hv. pose proof Hv as Hp. apply point3 in Hp. destruct Hp as (x & y & z & ->).
  unfold EdgeTetrahedron_evalDeriv0 in H. partial Hv H ltac:(unfold EdgeTetrahedron_eval).
Qed.
Lemma EdgeTetrahedron_partial1 : forall node0 node1 polynomialOrder p v d, EdgeTetrahedron_eval node0 node1 polynomialOrder p = Some v -> EdgeTetrahedron_evalDeriv1 node0 node1 polynomialOrder p = Some d ->
  is_partial_derivative (EdgeTetrahedron_eval node0 node1 polynomialOrder) 1 p d.
Proof.
  intros node0 node1 polynomialOrder p v d Hv H. unfold EdgeTetrahedron_eval in Hv. pose proof Hv as Hp. apply point3 in Hp. destruct Hp as (x & y & z & ->).
  unfold EdgeTetrahedron_evalDeriv1 in H. partial Hv H ltac:(unfold EdgeTetrahedron_eval).
Qed.
Lemma EdgeTetrahedron_partial2 : forall node0 node1 polynomialOrder p v d, EdgeTetrahedron_eval node0 node1 polynomialOrder p = Some v -> EdgeTetrahedron_evalDeriv2 node0 node1 polynomialOrder p = Some d ->
  is_partial_derivative (EdgeTetrahedron_eval node0 node1 polynomialOrder) 2 p d.
Proof.
  intros node0 node1 polynomialOrder p v d Hv H. unfold EdgeTetrahedron_eval in Hv. pose proof Hv as Hp. apply point3 in Hp. destruct Hp as (x & y & z & ->).
  unfold EdgeTetrahedron_evalDeriv2 in H. partial Hv H ltac:(unfold EdgeTetrahedron_eval).
Qed.
Lemma FaceTetrahedron_partial0 : forall node0 node1 node2 polynomialOrder0 polynomialOrder1 p v d, FaceTetrahedron_eval node0 node1 node2 polynomialOrder0 polynomialOrder1 p = Some v -> FaceTetrahedron_evalDeriv0 node0 node1 node2 polynomialOrder0 polynomialOrder1 p = Some d ->
  is_partial_derivative (FaceTetrahedron_eval node0 node1 node2 polynomialOrder0 polynomialOrder1) 0 p d.
Proof.
  intros node0 node1 node2 polynomialOrder0 polynomialOrder1 p v d Hv H. unfold FaceTetrahedron_eval in Hv. pose proof Hv as Hp. apply point3 in Hp. destruct Hp as (x & y & z & ->).
  unfold FaceTetrahedron_evalDeriv0 in H. partial Hv H ltac:(unfold FaceTetrahedron_eval).
Qed.
Lemma FaceTetrahedron_partial1 : forall node0 node1 node2 polynomialOrder0 polynomialOrder1 p v d, FaceTetrahedron_eval node0 node1 node2 polynomialOrder0 polynomialOrder1 p = Some v -> FaceTetrahedron_evalDeriv1 node0 node1 node2 polynomialOrder0 polynomialOrder1 p = Some d ->
  is_partial_derivative (FaceTetrahedron_eval node0 node1 node2 polynomialOrder0 polynomialOrder1) 1 p d.
Proof.
  intros node0 node1 node2 polynomialOrder0 polynomialOrder1 p v d Hv H. unfold FaceTetrahedron_eval in Hv. pose proof Hv as Hp. apply point3 in Hp. destruct Hp as (x & y & z & ->).
  unfold FaceTetrahedron_evalDeriv1 in H. partial Hv H ltac:(unfold FaceTetrahedron_eval).
Qed.
Lemma FaceTetrahedron_partial2 : forall node0 node1 node2 polynomialOrder0 polynomialOrder1 p v d, FaceTetrahedron_eval node0 node1 node2 polynomialOrder0 polynomialOrder1 p = Some v -> FaceTetrahedron_evalDeriv2 node0 node1 node2 polynomialOrder0 polynomialOrder1 p = Some d ->
  is_partial_derivative (FaceTetrahedron_eval node0 node1 node2 polynomialOrder0 polynomialOrder1) 2 p d.
Proof.
  intros node0 node1 node2 polynomialOrder0 polynomialOrder1 p v d Hv H. unfold FaceTetrahedron_eval in Hv. pose proof Hv as Hp. apply point3 in Hp. destruct Hp as (x & y & z & ->).
  unfold FaceTetrahedron_evalDeriv2 in H. partial Hv H ltac:(unfold FaceTetrahedron_eval).
Qed.
Lemma InteriorTetrahedron_partial0 : forall polynomialOrder0 polynomialOrder1 polynomialOrder2 p v d, InteriorTetrahedron_eval polynomialOrder0 polynomialOrder1 polynomialOrder2 p = Some v -> InteriorTetrahedron_evalDeriv0 polynomialOrder0 polynomialOrder1 polynomialOrder2 p = Some d ->
  is_partial_derivative (InteriorTetrahedron_eval polynomialOrder0 polynomialOrder1 polynomialOrder2) 0 p d.
Proof.
  intros polynomialOrder0 polynomialOrder1 polynomialOrder2 p v d Hv H. unfold InteriorTetrahedron_eval in Hv. pose proof Hv as Hp. apply point3 in Hp. destruct Hp as (x & y & z & ->).
  unfold InteriorTetrahedron_evalDeriv0 in H. partial Hv H ltac:(unfold InteriorTetrahedron_eval).
Qed.
Lemma InteriorTetrahedron_partial1 : forall polynomialOrder0 polynomialOrder1 polynomialOrder2 p v d, InteriorTetrahedron_eval polynomialOrder0 polynomialOrder1 polynomialOrder2 p = Some v -> InteriorTetrahedron_evalDeriv1 polynomialOrder0 polynomialOrder1 polynomialOrder2 p = Some d ->
  is_partial_derivative (InteriorTetrahedron_eval polynomialOrder0 polynomialOrder1 polynomialOrder2) 1 p d.
Proof.
  intros polynomialOrder0 polynomialOrder1 polynomialOrder2 p v d Hv H. unfold InteriorTetrahedron_eval in Hv. pose proof Hv as Hp. apply point3 in Hp. destruct Hp as (x & y & z & ->).
  unfold InteriorTetrahedron_evalDeriv1 in H. partial Hv H ltac:(unfold InteriorTetrahedron_eval).
Qed.
Lemma InteriorTetrahedron_partial2 : forall polynomialOrder0 polynomialOrder1 polynomialOrder2 p v d, InteriorTetrahedron_eval polynomialOrder0 polynomialOrder1 polynomialOrder2 p = Some v -> InteriorTetrahedron_evalDeriv2 polynomialOrder0 polynomialOrder1 polynomialOrder2 p = Some d ->
  is_partial_derivative (InteriorTetrahedron_eval polynomialOrder0 polynomialOrder1 polynomialOrder2) 2 p d.
Proof.
  intros polynomialOrder0 polynomialOrder1 polynomialOrder2 p v d Hv H. unfold InteriorTetrahedron_eval in Hv. pose proof Hv as Hp. apply point3 in Hp. destruct Hp as (x & y & z & ->).
  unfold InteriorTetrahedron_evalDeriv2 in H. partial Hv H ltac:(unfold InteriorTetrahedron_eval).
Qed.
Lemma VertexPrism_partial0 : forall nodePosition node p v d, VertexPrism_eval nodePosition node p = Some v -> VertexPrism_evalDeriv0 nodePosition node p = Some d ->
  is_partial_derivative (VertexPrism_eval nodePosition node) 0 p d.
Proof.
  intros nodePosition node p v d Hv H. unfold VertexPrism_eval in Hv. pose proof Hv as Hp. apply point3 in Hp. destruct Hp as (x & y & z & ->).
  unfold VertexPrism_evalDeriv0 in H. partial Hv H ltac:(unfold VertexPrism_eval).
Qed.
Lemma VertexPrism_partial1 : forall nodePosition node p v d, VertexPrism_eval nodePosition node p = Some v -> VertexPrism_evalDeriv1 nodePosition node p = Some d ->
  is_partial_derivative (VertexPrism_eval nodePosition node) 1 p d.
Proof.
  intros nodePosition node p v d Hv H. unfold VertexPrism_eval in Hv. pose proof Hv as Hp. apply point3 in Hp. destruct Hp as (x & y & z & ->).
  unfold VertexPrism_evalDeriv1 in H. partial Hv H ltac:(unfold VertexPrism_eval).
Qed.
Lemma VertexPrism_partial2 : forall nodePosition node p v d, VertexPrism_eval nodePosition node p = Some v -> VertexPrism_evalDeriv2 nodePosition node p = Some d ->
  is_partial_derivative (VertexPrism_eval nodePosition node) 2 p d.
Proof.
  intros nodePosition node p v d Hv H. unfold VertexPrism_eval in Hv. pose proof Hv as Hp. apply point3 in Hp. destruct Hp as (x & y & z & ->).
  unfold VertexPrism_evalDeriv2 in H. partial Hv H ltac:(unfold VertexPrism_eval).
Qed.
Lemma EdgePrism_0_partial0 : forall edgePosition node0 node1 polynomialOrder p v d, EdgePrism_0_eval edgePosition node0 node1 polynomialOrder p = Some v -> EdgePrism_0_evalDeriv0 edgePosition node0 node1 polynomialOrder p = Some d ->
  is_partial_derivative (EdgePrism_0_eval edgePosition node0 node1 polynomialOrder) 0 p d.
Proof.
  intros edgePosition node0 node1 polynomialOrder p v d Hv H. unfold EdgePrism_0_eval in Hv. pose proof Hv as Hp. apply point3 in Hp. destruct Hp as (x & y & z & ->).
  unfold EdgePrism_0_evalDeriv0 in H. partial Hv H ltac:(unfold EdgePrism_0_eval).
Qed.
Lemma EdgePrism_0_partial1 : forall edgePosition node0 node1 polynomialOrder p v d, EdgePrism_0_eval edgePosition node0 node1 polynomialOrder p = Some v -> EdgePrism_0_evalDeriv1 edgePosition node0 node1 polynomialOrder p = Some d ->
  is_partial_derivative (EdgePrism_0_eval edgePosition node0 node1 polynomialOrder) 1 p d.
Proof.
  intros edgePosition node0 node1 polynomialOrder p v d Hv H. unfold EdgePrism_0_eval in Hv. pose proof Hv as Hp. apply point3 in Hp. destruct Hp as (x & y & z & ->).
  unfold EdgePrism_0_evalDeriv1 in H. partial Hv H ltac:(unfold EdgePrism_0_eval).
Qed.
Lemma EdgePrism_0_partial2 : forall edgePosition node0 node1 polynomialOrder p v d, EdgePrism_0_eval edgePosition node0 node1 polynomialOrder p = Some v -> EdgePrism_0_evalDeriv2 edgePosition node0 node1 polynomialOrder p = Some d ->
  is_partial_derivative (EdgePrism_0_eval edgePosition node0 node1 polynomialOrder) 2 p d.
Proof.
  intros edgePosition node0 node1 polynomialOrder p v d Hv H. unfold EdgePrism_0_eval in Hv. pose proof Hv as Hp. apply point3 in Hp. destruct Hp as (x & y & z & ->).
  unfold EdgePrism_0_evalDeriv2 in H. partial Hv H ltac:(unfold EdgePrism_0_eval).
Qed.
Lemma EdgePrism_1_partial0 : forall mirroring node polynomialOrder p v d, EdgePrism_1_eval mirroring node polynomialOrder p = Some v -> EdgePrism_1_evalDeriv0 mirroring node polynomialOrder p = Some d ->
  is_partial_derivative (EdgePrism_1_eval mirroring node polynomialOrder) 0 p d.
Proof.
  intros mirroring node polynomialOrder p v d Hv H. unfold EdgePrism_1_eval in Hv. pose proof Hv as Hp. apply point3 in Hp. destruct Hp as (x & y & z & ->).
  unfold EdgePrism_1_evalDeriv0 in H. partial Hv H ltac:(unfold EdgePrism_1_eval).
Qed.
Lemma EdgePrism_1_partial1 : forall mirroring node polynomialOrder p v d, EdgePrism_1_eval mirroring node polynomialOrder p = Some v -> EdgePrism_1_evalDeriv1 mirroring node polynomialOrder p = Some d ->
  is_partial_derivative (EdgePrism_1_eval mirroring node polynomialOrder) 1 p d.
Proof.
  intros mirroring node polynomialOrder p v d Hv H. unfold EdgePrism_1_eval in Hv. pose proof Hv as Hp. apply point3 in Hp. destruct Hp as (x & y & z & ->).
  unfold EdgePrism_1_evalDeriv1 in H. partial Hv H ltac:(unfold EdgePrism_1_eval).
Qed.
Lemma EdgePrism_1_partial2 : forall mirroring node polynomialOrder p v d, EdgePrism_1_eval mirroring node polynomialOrder p = Some v -> EdgePrism_1_evalDeriv2 mirroring node polynomialOrder p = Some d ->
  is_partial_derivative (EdgePrism_1_eval mirroring node polynomialOrder) 2 p d.
Proof.
  intros mirroring node polynomialOrder p v d Hv H. unfold EdgePrism_1_eval in Hv. pose proof Hv as Hp. apply point3 in Hp. destruct Hp as (x & y & z & ->).
  unfold EdgePrism_1_evalDeriv2 in H. partial Hv H ltac:(unfold EdgePrism_1_eval).
Qed.
Lemma FacePrism_0_partial0 : forall facePosition polynomialOrder0 polynomialOrder1 node0 node1 node2 p v d, FacePrism_0_eval facePosition polynomialOrder0 polynomialOrder1 node0 node1 node2 p = Some v -> FacePrism_0_evalDeriv0 facePosition polynomialOrder0 polynomialOrder1 node0 node1 node2 p = Some d ->
  is_partial_derivative (FacePrism_0_eval facePosition polynomialOrder0 polynomialOrder1 node0 node1 node2) 0 p d.
Proof.
  intros facePosition polynomialOrder0 polynomialOrder1 node0 node1 node2 p v d Hv H. unfold FacePrism_0_eval in Hv. pose proof Hv as Hp. apply point3 in Hp. destruct Hp as (x & y & z & ->).
  unfold FacePrism_0_evalDeriv0 in H. partial Hv H ltac:(unfold FacePrism_0_eval).
Qed.
Lemma FacePrism_0_partial1 : forall facePosition polynomialOrder0 polynomialOrder1 node0 node1 node2 p v d, FacePrism_0_eval facePosition polynomialOrder0 polynomialOrder1 node0 node1 node2 p = Some v -> FacePrism_0_evalDeriv1 facePosition polynomialOrder0 polynomialOrder1 node0 node1 node2 p = Some d ->
  is_partial_derivative (FacePrism_0_eval facePosition polynomialOrder0 polynomialOrder1 node0 node1 node2) 1 p d.
Proof.
  intros facePosition polynomialOrder0 polynomialOrder1 node0 node1 node2 p v d Hv H. unfold FacePrism_0_eval in Hv. pose proof Hv as Hp. apply point3 in Hp. destruct Hp as (x & y & z & ->).
  unfold FacePrism_0_evalDeriv1 in H. partial Hv H ltac:(unfold FacePrism_0_eval).
Qed.
Lemma FacePrism_0_partial2 : forall facePosition polynomialOrder0 polynomialOrder1 node0 node1 node2 p v d, FacePrism_0_eval facePosition polynomialOrder0 polynomialOrder1 node0 node1 node2 p = Some v -> FacePrism_0_evalDeriv2 facePosition polynomialOrder0 polynomialOrder1 node0 node1 node2 p = Some d ->
  is_partial_derivative (FacePrism_0_eval facePosition polynomialOrder0 polynomialOrder1 node0 node1 node2) 2 p d.
Proof.
  intros facePosition polynomialOrder0 polynomialOrder1 node0 node1 node2 p v d Hv H. unfold FacePrism_0_eval in Hv. pose proof Hv as Hp. apply point3 in Hp. destruct Hp as (x & y & z & ->).
  unfold FacePrism_0_evalDeriv2 in H. partial Hv H ltac:(unfold FacePrism_0_eval).
Qed.
Lemma FacePrism_1_partial0 : forall mirroring node0 node1 polynomialOrder0 polynomialOrder1 p v d, FacePrism_1_eval mirroring node0 node1 polynomialOrder0 polynomialOrder1 p = Some v -> FacePrism_1_evalDeriv0 mirroring node0 node1 polynomialOrder0 polynomialOrder1 p = Some d ->
  is_partial_derivative (FacePrism_1_eval mirroring node0 node1 polynomialOrder0 polynomialOrder1) 0 p d.
Proof.
  intros mirroring node0 node1 polynomialOrder0 polynomialOrder1 p v d Hv H. unfold FacePrism_1_eval in Hv. pose proof Hv as Hp. apply point3 in Hp. destruct Hp as (x & y & z & ->).
  unfold FacePrism_1_evalDeriv0 in H. partial Hv H ltac:(unfold FacePrism_1_eval).
Qed.
Lemma FacePrism_1_partial1 : forall mirroring node0 node1 polynomialOrder0 polynomialOrder1 p v d, FacePrism_1_eval mirroring node0 node1 polynomialOrder0 polynomialOrder1 p = Some v -> FacePrism_1_evalDeriv1 mirroring node0 node1 polynomialOrder0 polynomialOrder1 p = Some d ->
  is_partial_derivative (FacePrism_1_eval mirroring node0 node1 polynomialOrder0 polynomialOrder1) 1 p d.
Proof.
  intros mirroring node0 node1 polynomialOrder0 polynomialOrder1 p v d Hv H. unfold FacePrism_1_eval in Hv. pose proof Hv as Hp. apply point3 in Hp. destruct Hp as (x & y & z & ->).
  unfold FacePrism_1_evalDeriv1 in H. partial Hv H ltac:(unfold FacePrism_1_eval).
Qed.
Lemma FacePrism_1_partial2 : forall mirroring node0 node1 polynomialOrder0 polynomialOrder1 p v d, FacePrism_1_eval mirroring node0 node1 polynomialOrder0 polynomialOrder1 p = Some v -> FacePrism_1_evalDeriv2 mirroring node0 node1 polynomialOrder0 polynomialOrder1 p = Some d ->
  is_partial_derivative (FacePrism_1_eval mirroring node0 node1 polynomialOrder0 polynomialOrder1) 2 p d.
Proof.
  intros mirroring node0 node1 polynomialOrder0 polynomialOrder1 p v d Hv H. unfold FacePrism_1_eval in Hv. pose proof Hv as Hp. apply point3 in Hp. destruct Hp as (x & y & z & ->).
  unfold FacePrism_1_evalDeriv2 in H. partial Hv H ltac:(unfold FacePrism_1_eval).
Qed.
Lemma InteriorPrism_partial0 : forall polnomialOrder0 polynomialOrder1 polynomialOrder2 p v d, InteriorPrism_eval polnomialOrder0 polynomialOrder1 polynomialOrder2 p = Some v -> InteriorPrism_evalDeriv0 polnomialOrder0 polynomialOrder1 polynomialOrder2 p = Some d ->
  is_partial_derivative (InteriorPrism_eval polnomialOrder0 polynomialOrder1 polynomialOrder2) 0 p d.
Proof.
  intros polnomialOrder0 polynomialOrder1 polynomialOrder2 p v d Hv H. unfold InteriorPrism_eval in Hv. pose proof Hv as Hp. apply point3 in Hp. destruct Hp as (x & y & z & ->).
  unfold InteriorPrism_evalDeriv0 in H. partial Hv H ltac:(unfold InteriorPrism_eval).
Qed.
Lemma InteriorPrism_partial1 : forall polnomialOrder0 polynomialOrder1 polynomialOrder2 p v d, InteriorPrism_eval polnomialOrder0 polynomialOrder1 polynomialOrder2 p = Some v -> InteriorPrism_evalDeriv1 polnomialOrder0 polynomialOrder1 polynomialOrder2 p = Some d ->
  is_partial_derivative (InteriorPrism_eval polnomialOrder0 polynomialOrder1 polynomialOrder2) 1 p d.
Proof.
  intros polnomialOrder0 polynomialOrder1 polynomialOrder2 p v d Hv H. unfold InteriorPrism_eval in Hv. pose proof Hv as Hp. apply point3 in Hp. destruct Hp as (x & y & z & ->).
  unfold InteriorPrism_evalDeriv1 in H. partial Hv H ltac:(unfold InteriorPrism_eval).
Qed.
Lemma InteriorPrism_partial2 : forall polnomialOrder0 polynomialOrder1 polynomialOrder2 p v d, InteriorPrism_eval polnomialOrder0 polynomialOrder1 polynomialOrder2 p = Some v -> InteriorPrism_evalDeriv2 polnomialOrder0 polynomialOrder1 polynomialOrder2 p = Some d ->
  is_partial_derivative (InteriorPrism_eval polnomialOrder0 polynomialOrder1 polynomialOrder2) 2 p d.
Proof.
  intros polnomialOrder0 polynomialOrder1 polynomialOrder2 p v d Hv H. unfold InteriorPrism_eval in Hv. pose proof Hv as Hp. apply point3 in Hp. destruct Hp as (x & y & z & ->).
  unfold InteriorPrism_evalDeriv2 in H. partial Hv H ltac:(unfold InteriorPrism_eval).
Qed.

(** derivatives depend on the values around the point only *)
Lemma D_local_eq : forall f g x d e, 0 < e -> (forall t, Rabs (t - x) < e -> f t = g t) ->
  derivable_pt_lim g x d -> derivable_pt_lim f x d.
Proof.
  intros f g x d e He Hfg Hg eps Heps. destruct (Hg eps Heps) as (del & Hdel).
  assert (Hm : 0 < Rmin del e) by (apply Rmin_pos; [apply cond_pos|exact He]).
  exists (mkposreal _ Hm). intros h Hh Hlt. cbn in Hlt.
  rewrite (Hfg (x + h)), (Hfg x).
  - apply Hdel; [exact Hh|]. pose proof (Rmin_l del e). lra.
  - replace (x - x) with 0 by ring. rewrite Rabs_R0. exact He.
  - replace (x + h - x) with h by ring. pose proof (Rmin_r del e). lra.
Qed.
Lemma plus_tiny_id : forall a, a <> 0 -> plus_tiny a = a.
Proof. intros a H. unfold plus_tiny. destruct (Req_EM_T a 0); [contradiction|reflexivity]. Qed.

Lemma VertexPyramid_partial : forall i node p v d, VertexPyramid_eval node p = Some v ->
  VertexPyramid_evalDeriv i node p = Some d -> ~ near_tip p -> is_partial_derivative (VertexPyramid_eval node) i p d.
Proof.
  intros i node p v d Hv H Ht. unfold VertexPyramid_eval in Hv. pose proof Hv as Hp. apply point3 in Hp.
  destruct Hp as (x & y & z & ->). unfold near_tip in Ht. cbn [nth] in Ht.
  unfold VertexPyramid_evalDeriv, shifted_height in H.
  destruct (Rlt_dec (Rabs x + Rabs y + Rabs (z - 1)) (/ 10 ^ 14)) as [Hlt|_]; [contradiction|]. clear Ht.
  destruct (Req_EM_T (1 - z) 0) as [|Hz]; [discriminate|].
  assert (Hloc : forall t, Rabs (t - z) < Rabs (1 - z) -> 1 - t <> 0).
  { intros t Hlt E. assert (t = 1) by lra. subst t. replace (1 - z) with (- (z - 1)) in Hlt by ring.
    rewrite Rabs_Ropp in Hlt. replace (1 - z) with (- (z - 1)) in Hlt by ring. try rewrite Rabs_Ropp in Hlt. lra. }
  destruct node as [|[|[|[|[|node]]]]]; try discriminate;
  destruct i as [|[|[|i]]]; try discriminate; injection H as <-;
  (eexists; split;
   [ let t := fresh "t" in intro t; unfold with_coordinate; cbn [firstn skipn app]; unfold VertexPyramid_eval; reflexivity
   | cbn [nth] ]).
  all: match goal with
       | |- derivable_pt_lim _ _ 0 => derive
       | |- derivable_pt_lim (fun t => t) _ 1 => derive
       | |- derivable_pt_lim (fun t => _ / plus_tiny (1 - t)) _ _ =>
           match goal with |- derivable_pt_lim (fun t => @?f t / plus_tiny (1 - t)) _ _ =>
             apply (D_local_eq _ (fun t => f t / (1 - t)) z _ (Rabs (1 - z)));
             [ apply Rabs_pos_lt; exact Hz
             | intros t Hlt; cbv beta; rewrite (plus_tiny_id (1 - t)) by (apply Hloc; exact Hlt); reflexivity
             | cbv beta; eapply D_eq; [repeat bf_rule; exact Hz | cbv beta; field; exact Hz] ] end
       | _ => rewrite (plus_tiny_id (1 - z) Hz); eapply D_eq; [repeat bf_rule | cbv beta; field; exact Hz]
       end.
Qed.

Lemma ipow_pow : forall x n, ipow x n = x ^ n.
Proof. induction n as [|n IH]; cbn; [reflexivity|]. rewrite IH. ring. Qed.
Lemma evalDIM_scale : forall p powers r, evalDIM r p powers = r * evalDIM 1 p powers.
Proof.
  induction p as [|x p IH]; intros powers r; cbn; [ring|]. destruct powers as [|n powers]; [ring|].
  rewrite (IH powers (r * _)), (IH powers (1 * _)). ring.
Qed.
Lemma evalDerivDIM_none : forall p powers r, evalDerivDIM r p powers None = evalDIM r p powers.
Proof.
  induction p as [|x p IH]; intros powers r; cbn; [reflexivity|]. destruct powers as [|n powers]; [reflexivity|].
  apply IH.
Qed.
Lemma evalDerivDIM_scale : forall p powers i r, evalDerivDIM r p powers (Some i) = r * evalDerivDIM 1 p powers (Some i).
Proof.
  induction p as [|x p IH]; intros powers i r; cbn; [ring|]. destruct powers as [|n powers]; [ring|].
  destruct i as [|i].
  - destruct (Nat.eqb n 0); rewrite !evalDerivDIM_none.
    + rewrite (evalDIM_scale _ _ 0). ring.
    + rewrite (evalDIM_scale _ _ (r * _)), (evalDIM_scale _ _ (1 * _)). ring.
  - rewrite (IH powers i (r * _)), (IH powers i (1 * _)). ring.
Qed.
Lemma with_coordinate_length : forall p i t, (i < length p)%nat -> length (with_coordinate p i t) = length p.
Proof.
  intros p i t H. unfold with_coordinate. rewrite app_length. cbn [length]. rewrite firstn_length, skipn_length. lia.
Qed.
Lemma D_evalDIM : forall p powers i n, length p = length powers -> nth_error powers i = Some n ->
  derivable_pt_lim (fun t => evalDIM 1 (with_coordinate p i t) powers) (nth i p 0) (INR n * evalDerivDIM 1 p powers (Some i)).
Proof.
  induction p as [|x p IH]; intros powers i n Hl Hn; destruct powers as [|m powers]; try discriminate.
  - destruct i; discriminate.
  - destruct i as [|i].
    + injection Hn as ->. cbn [nth].
      assert (Hd : derivable_pt_lim (fun t => t ^ n * evalDIM 1 p powers) x (INR n * x ^ pred n * evalDIM 1 p powers)).
      { eapply D_eq; [repeat bf_rule|cbv beta; ring]. }
      eapply D_eq.
      * eapply (D_local_eq _ (fun t => t ^ n * evalDIM 1 p powers) x _ 1); [lra| |exact Hd].
        intros t _. unfold with_coordinate. cbn [firstn skipn app evalDIM]. rewrite evalDIM_scale, ipow_pow. ring.
      * cbn [evalDerivDIM]. destruct (Nat.eqb n 0) eqn:E; rewrite evalDerivDIM_none.
        { apply Nat.eqb_eq in E. subst n. cbn. ring. }
        rewrite (evalDIM_scale _ _ (1 * _)), ipow_pow. replace (n - 1)%nat with (pred n) by lia. ring.
    + cbn [nth_error] in Hn. cbn [length] in Hl. injection Hl as Hl. specialize (IH powers i n Hl Hn). cbn [nth].
      assert (Hd : derivable_pt_lim (fun t => x ^ m * evalDIM 1 (with_coordinate p i t) powers) (nth i p 0)
                (x ^ m * (INR n * evalDerivDIM 1 p powers (Some i)))).
      { eapply D_eq.
        - apply (D_mult (fun _ => x ^ m)); [apply D_const|exact IH].
        - cbv beta. ring. }
      eapply D_eq.
      * eapply (D_local_eq _ _ (nth i p 0) _ 1); [lra| |exact Hd].
        intros t _. unfold with_coordinate. cbn [firstn skipn app evalDIM]. rewrite evalDIM_scale, ipow_pow.
        unfold with_coordinate. ring.
      * cbn [evalDerivDIM]. rewrite (evalDerivDIM_scale _ _ _ (1 * _)), ipow_pow. ring.
Qed.

Lemma derivatives : forall f i p v d, eval f p = Some v -> evalDeriv i f p = Some d ->
  match f with VertexPyramid _ => ~ near_tip p | _ => True end -> is_partial_derivative (eval f) i p d.
Proof.
  intros f i p v d Hv H Ht. destruct f; cbn [eval evalDeriv] in *;
    try (repeat (destruct i as [|i]; [solve [eauto using VertexLine_partial0, InteriorLine_partial0,
      VertexSquare_partial0, VertexSquare_partial1, FaceSquare_0_partial0, FaceSquare_0_partial1, FaceSquare_1_partial0,
      FaceSquare_1_partial1, InteriorSquare_partial0, InteriorSquare_partial1, VertexTriangle_partial0,
      VertexTriangle_partial1, FaceTriangle_partial0, FaceTriangle_partial1, InteriorTriangle_partial0,
      InteriorTriangle_partial1, VertexCube_partial0, VertexCube_partial1, VertexCube_partial2,
      EdgeCube_0_partial0, EdgeCube_0_partial1, EdgeCube_0_partial2, EdgeCube_1_partial0, EdgeCube_1_partial1,
      EdgeCube_1_partial2, EdgeCube_2_partial0, EdgeCube_2_partial1, EdgeCube_2_partial2, FaceCube_0_partial0,
      FaceCube_0_partial1, FaceCube_0_partial2, FaceCube_1_partial0, FaceCube_1_partial1, FaceCube_1_partial2,
      FaceCube_2_partial0, FaceCube_2_partial1, FaceCube_2_partial2, InteriorCube_partial0, InteriorCube_partial1,
      InteriorCube_partial2, VertexTetrahedron_partial0, VertexTetrahedron_partial1, VertexTetrahedron_partial2,
      EdgeTetrahedron_partial0, EdgeTetrahedron_partial1, EdgeTetrahedron_partial2, FaceTetrahedron_partial0,
      FaceTetrahedron_partial1, FaceTetrahedron_partial2, InteriorTetrahedron_partial0, InteriorTetrahedron_partial1,
      InteriorTetrahedron_partial2, VertexPrism_partial0, VertexPrism_partial1, VertexPrism_partial2,
      EdgePrism_0_partial0, EdgePrism_0_partial1, EdgePrism_0_partial2, EdgePrism_1_partial0, EdgePrism_1_partial1,
      EdgePrism_1_partial2, FacePrism_0_partial0, FacePrism_0_partial1, FacePrism_0_partial2, FacePrism_1_partial0,
      FacePrism_1_partial1, FacePrism_1_partial2, InteriorPrism_partial0, InteriorPrism_partial1,
      InteriorPrism_partial2]|]); discriminate).
  - exact (VertexPyramid_partial i node p v d Hv H Ht).
  - unfold Monomial_evalDeriv in H. destruct (Nat.eqb (length p) (length powers)) eqn:E; [|discriminate].
    apply Nat.eqb_eq in E. apply bind_some in H. destruct H as (n & Hn & H). injection H as <-.
    assert (Hi : (i < length p)%nat) by (rewrite E; apply nth_error_Some; congruence).
    exists (fun t => evalDIM 1 (with_coordinate p i t) powers). split.
    + intro t. cbn [eval]. unfold Monomial_eval. rewrite with_coordinate_length, E, Nat.eqb_refl by exact Hi. reflexivity.
    + rewrite evalDerivDIM_scale. exact (D_evalDIM p powers i n E Hn).
  - unfold PiecewiseConstant_evalDeriv in H. destruct (Nat.eqb (length p) dim) eqn:E; [|discriminate].
    destruct (i <? dim) eqn:Hi; [|discriminate]. injection H as <-. apply Nat.eqb_eq in E. apply Nat.ltb_lt in Hi.
    exists (fun _ => 1). split; [|apply D_const].
    intro t. cbn [eval]. unfold PiecewiseConstant_eval. rewrite with_coordinate_length, E, Nat.eqb_refl by lia. reflexivity.
Qed.

(** ** Where the derivatives are available *)
Lemma lobatto_derivative_low : forall k x, (k <= 3)%nat -> exists d, LobattoPolynomialDerivative k x = Some d.
Proof. intros k x H. destruct k as [|[|[|[|k]]]]; [eexists; reflexivity..|lia]. Qed.
Lemma lobatto_derivative_high : forall k x, (4 <= k)%nat -> LobattoPolynomialDerivative k x = None.
Proof. intros k x H. do 4 (destruct k as [|k]; [lia|]). reflexivity. Qed.

Ltac low :=
  repeat match goal with
  | HL : forall o, In o _ -> (o <= 3)%nat |- context [LobattoPolynomialDerivative ?k ?x] =>
      let d := fresh "d" in let E := fresh "E" in
      destruct (lobatto_derivative_low k x) as (d & E); [apply HL; cbn; tauto|]; rewrite E; cbn [bind]
  end.
#[local] Hint Unfold VertexLine_eval VertexLine_evalDeriv0 InteriorLine_eval InteriorLine_evalDeriv0 VertexSquare_eval 
  VertexSquare_evalDeriv0 VertexSquare_evalDeriv1 FaceSquare_0_eval FaceSquare_0_evalDeriv0 
  FaceSquare_0_evalDeriv1 FaceSquare_1_eval FaceSquare_1_evalDeriv0 FaceSquare_1_evalDeriv1 InteriorSquare_eval 
  InteriorSquare_evalDeriv0 InteriorSquare_evalDeriv1 VertexTriangle_eval VertexTriangle_evalDeriv0 
  VertexTriangle_evalDeriv1 FaceTriangle_eval FaceTriangle_evalDeriv0 FaceTriangle_evalDeriv1 
  InteriorTriangle_eval InteriorTriangle_evalDeriv0 InteriorTriangle_evalDeriv1 VertexCube_eval 
  VertexCube_evalDeriv0 VertexCube_evalDeriv1 VertexCube_evalDeriv2 EdgeCube_0_eval EdgeCube_0_evalDeriv0 
  EdgeCube_0_evalDeriv1 EdgeCube_0_evalDeriv2 EdgeCube_1_eval EdgeCube_1_evalDeriv0 EdgeCube_1_evalDeriv1 
  EdgeCube_1_evalDeriv2 EdgeCube_2_eval EdgeCube_2_evalDeriv0 EdgeCube_2_evalDeriv1 EdgeCube_2_evalDeriv2 
  FaceCube_0_eval FaceCube_0_evalDeriv0 FaceCube_0_evalDeriv1 FaceCube_0_evalDeriv2 FaceCube_1_eval 
  FaceCube_1_evalDeriv0 FaceCube_1_evalDeriv1 FaceCube_1_evalDeriv2 FaceCube_2_eval FaceCube_2_evalDeriv0 
  FaceCube_2_evalDeriv1 FaceCube_2_evalDeriv2 InteriorCube_eval InteriorCube_evalDeriv0 InteriorCube_evalDeriv1 
  InteriorCube_evalDeriv2 VertexTetrahedron_eval VertexTetrahedron_evalDeriv0 VertexTetrahedron_evalDeriv1 
  VertexTetrahedron_evalDeriv2 EdgeTetrahedron_eval EdgeTetrahedron_evalDeriv0 EdgeTetrahedron_evalDeriv1 
  EdgeTetrahedron_evalDeriv2 FaceTetrahedron_eval FaceTetrahedron_evalDeriv0 FaceTetrahedron_evalDeriv1 
  FaceTetrahedron_evalDeriv2 InteriorTetrahedron_eval InteriorTetrahedron_evalDeriv0 
  InteriorTetrahedron_evalDeriv1 InteriorTetrahedron_evalDeriv2 VertexPrism_eval VertexPrism_evalDeriv0 
  VertexPrism_evalDeriv1 VertexPrism_evalDeriv2 EdgePrism_0_eval EdgePrism_0_evalDeriv0 EdgePrism_0_evalDeriv1 
  EdgePrism_0_evalDeriv2 EdgePrism_1_eval EdgePrism_1_evalDeriv0 EdgePrism_1_evalDeriv1 EdgePrism_1_evalDeriv2 
  FacePrism_0_eval FacePrism_0_evalDeriv0 FacePrism_0_evalDeriv1 FacePrism_0_evalDeriv2 FacePrism_1_eval 
  FacePrism_1_evalDeriv0 FacePrism_1_evalDeriv1 FacePrism_1_evalDeriv2 InteriorPrism_eval 
  InteriorPrism_evalDeriv0 InteriorPrism_evalDeriv1 InteriorPrism_evalDeriv2 : bf.
Ltac the_point Hv :=
  let Hp := fresh "Hp" in
  pose proof Hv as Hp;
  first [apply point1 in Hp; destruct Hp as (x & ->)|apply point2 in Hp; destruct Hp as (x & y & ->)
        |apply point3 in Hp; destruct Hp as (x & y & z & ->)].
Lemma derivative_defined : forall f p v i, eval f p = Some v -> (forall o, In o (lobatto_degrees f) -> (o <= 3)%nat) ->
  (i < dimension_of f)%nat ->
  match f with VertexPyramid _ => nth 2 p 0 <> 1 \/ near_tip p | _ => True end ->
  exists d, evalDeriv i f p = Some d.
Proof.
  intros f p v i Hv HL Hi Ht.
  destruct f; cbn [eval evalDeriv dimension_of lobatto_degrees] in *;
  lazymatch goal with
  | |- context [VertexPyramid_evalDeriv] => idtac
  | |- context [Monomial_evalDeriv] => idtac
  | |- context [PiecewiseConstant_evalDeriv] => idtac
  | |- _ =>
    autounfold with bf in *; the_point Hv; unbind Hv; clear Hv; affine;
    repeat (destruct i as [|i]; [use_affine; cbn [bind baricentric_2D baricentric_3D nth_error]; low; eexists; reflexivity|]);
    lia
  end.
  - unfold VertexPyramid_eval in Hv. the_point Hv. cbn [nth] in Ht. unfold VertexPyramid_evalDeriv.
    destruct (Req_EM_T (1 - shifted_height x y z) 0) as [E|E].
    + exfalso. unfold shifted_height in E. unfold near_tip in Ht. cbn [nth] in Ht.
      destruct (Rlt_dec (Rabs x + Rabs y + Rabs (z - 1)) (/ 10 ^ 14)) as [Hn|Hn].
      * pose proof (Rabs_pos x). pose proof (Rabs_pos y). assert (Hz : z - 1 = / 10 ^ 10) by lra. rewrite Hz in Hn.
        rewrite (Rabs_right (/ 10 ^ 10)) in Hn by (apply Rle_ge, Rlt_le, Rinv_0_lt_compat, pow_lt; lra).
        assert (/ 10 ^ 14 < / 10 ^ 10). { apply Rinv_lt_contravar; [|apply Rlt_pow; [lra|lia]]. apply Rmult_lt_0_compat; apply pow_lt; lra. }
        lra.
      * destruct Ht as [Ht|Ht]; [lra|contradiction].
    + destruct node as [|[|[|[|[|node]]]]]; try discriminate; destruct i as [|[|[|i]]]; try lia; eexists; reflexivity.
  - unfold Monomial_eval in Hv. unfold Monomial_evalDeriv. destruct (Nat.eqb (length p) (length powers)); [|discriminate].
    destruct (nth_error powers i) as [n|] eqn:E; [eexists; reflexivity|]. apply nth_error_None in E. lia.
  - unfold PiecewiseConstant_eval in Hv. unfold PiecewiseConstant_evalDeriv. destruct (Nat.eqb (length p) dim); [|discriminate].
    rewrite (proj2 (Nat.ltb_lt i dim) Hi). eexists; reflexivity.
Qed.

Ltac fails_in i HL :=
  exists i; split; [cbn; lia|]; cbn [evalDeriv]; autounfold with bf; intros;
  repeat match goal with
  | |- match ?p with [] => _ | _ => _ end = None => destruct p as [|? ?]; try reflexivity
  | |- bind ?o _ = None => first [rewrite lobatto_derivative_high by exact HL; reflexivity | destruct o; cbn [bind]; [|reflexivity]]
  end.
Lemma derivative_missing : forall f o, In o (lobatto_degrees f) -> (4 <= o)%nat ->
  exists i, (i < dimension_of f)%nat /\ forall p, evalDeriv i f p = None.
Proof.
  intros f o Hin Ho. destruct f; cbn [lobatto_degrees In] in Hin;
    repeat (destruct Hin as [Hin|Hin]; [subst|]); try contradiction;
  first [solve [fails_in 0%nat Ho]|solve [fails_in 1%nat Ho]|solve [fails_in 2%nat Ho]].
Qed.
