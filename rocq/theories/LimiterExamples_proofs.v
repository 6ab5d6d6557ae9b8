(** Concrete elements: linear and quadratic lines with Gauss rules. *)
From Coq Require Import List Arith Reals Lra Lia Bool.
From Verif Require Import Legendre_model Quadrature_spec QuadIntegral_proofs Limiter_model Limiter_spec Limiter_proofs LimiterHeight_proofs.
Import ListNotations.
Local Open Scope R_scope.

Definition b0 (x : R) : R := (1 + -1 * x) / 2.
Definition b1 (x : R) : R := (1 + 1 * x) / 2.
Definition b2 (x : R) : R := (1 + x) * (1 - x) * LobattoPolynomial 0 x / 4.
(** the H1 basis functions of order 1 and 2 (BasisFunctions_model: VertexLine, InteriorLine) with the rules for lines of order 3 and 5 *)
Definition line1 (id : nat) (cs : list (list R)) : element :=
  Element id [b0; b1] [(1, - sqrt (1 / 3)); (1, sqrt (1 / 3))] 0 2 cs.
Definition line2 (cs : list (list R)) : element :=
  Element 0 [b0; b1; b2] [(5 / 9, - sqrt (3 / 5)); (8 / 9, 0); (5 / 9, sqrt (3 / 5))] 0 2 cs.
Definition solve1 : solver := fun _ b => match b with [x; y] => [2 * x - y; 2 * y - x] | _ => b end.
Definition kk : R := - sqrt (3 / 2) / 2.
Definition solve2 : solver := fun _ b =>
  match b with
  | [x; y; z] => [9 / 2 * x + 3 / 2 * y - 15 / 4 * (z / kk); 3 / 2 * x + 9 / 2 * y - 15 / 4 * (z / kk); (- 15 / 4 * (x + y) + 45 / 8 * (z / kk)) / kk]
  | _ => b
  end.

Lemma newton_quadratic : forall f a b c, (forall x, f x = a + b * x + c * (x * x)) -> newton f (-1) 1 (2 * a + 2 * c / 3).
Proof.
  intros f a b c H. exists (fun x => a * x + b / 2 * (x * x) + c / 3 * (x * x * x)). split; [|field].
  intros x _. rewrite H. replace (a + b * x + c * (x * x)) with (a * 1 + b / 2 * (1 * x + x * 1) + c / 3 * ((1 * x + x * 1) * x + x * x * 1)) by field.
  assert (I := derivable_pt_lim_id x). assert (Q := derivable_pt_lim_mult id id x _ _ I I). assert (T := derivable_pt_lim_mult _ id x _ _ Q I).
  apply (derivable_pt_lim_plus (fun x => a * x + b / 2 * (x * x)) (fun x => c / 3 * (x * x * x))).
  - apply (derivable_pt_lim_plus (fun x => a * x) (fun x => b / 2 * (x * x))).
    + exact (derivable_pt_lim_scal id a x 1 I).
    + exact (derivable_pt_lim_scal _ (b / 2) x _ Q).
  - exact (derivable_pt_lim_scal _ (c / 3) x _ T).
Qed.

Lemma third : sqrt (1 / 3) * sqrt (1 / 3) = 1 / 3.
Proof. apply sqrt_sqrt. lra. Qed.
Lemma three5 : sqrt (3 / 5) * sqrt (3 / 5) = 3 / 5.
Proof. apply sqrt_sqrt. lra. Qed.
Lemma kk_neg : kk < 0.
Proof. unfold kk. assert (0 < sqrt (3 / 2)) by (apply sqrt_lt_R0; lra). lra. Qed.
Lemma b2_kk : forall x, b2 x = kk - kk * (x * x).
Proof. intro x. unfold b2, kk. cbn [LobattoPolynomial]. field. Qed.

Lemma line1_regular : forall id cs, Forall (fun c => length c = 2%nat) cs -> regular (line1 id cs).
Proof.
  intros id cs F. assert (T := third). unfold regular, line1; cbn [node0 node1 basisFunctions coefficients quadratureRule].
  split; [lra|]. split; [exact F|]. split.
  - repeat constructor; cbn [map rsum fold_right fst snd].
    + eapply newton_ext; [apply (newton_quadratic b0 (/ 2) (- / 2) 0)|reflexivity|]; [intro x; unfold b0; field|unfold b0; lra].
    + eapply newton_ext; [apply (newton_quadratic b1 (/ 2) (/ 2) 0)|reflexivity|]; [intro x; unfold b1; field|unfold b1; lra].
  - split; [exists [1; 1]|exists [-1; 1]]; (split; [reflexivity|]); intro x; simpl; unfold b0, b1; field.
Qed.
Lemma line1_determined : forall id cs, determined (line1 id cs).
Proof.
  intros id cs. unfold determined, line1; cbn [basisFunctions quadratureRule]. split; [repeat constructor; simpl; lra|].
  intros [|a [|b [|]]] L H x; simpl in L; try discriminate. assert (P : 0 < sqrt (1 / 3)) by (apply sqrt_lt_R0; lra).
  assert (A := H (1, - sqrt (1 / 3)) ltac:(simpl; auto)). assert (B := H (1, sqrt (1 / 3)) ltac:(simpl; auto)).
  simpl in *. unfold b0, b1 in *. set (s := sqrt (1 / 3)) in *. clearbody s.
  assert (X : a + b = 0) by lra. assert (Y : s * (b - a) = 0) by lra. apply Rmult_integral in Y. destruct Y as [Y|Y]; [lra|].
  assert (b = 0) by lra. assert (a = 0) by lra. subst. field.
Qed.
Lemma line1_solves : forall id cs, solves solve1 (line1 id cs).
Proof.
  intros id cs b L. unfold line1 in *; cbn [basisFunctions length] in L. destruct b as [|x [|y [|]]]; try discriminate.
  split; [reflexivity|]. unfold massMatrix, integrate, jacobian; cbn [node0 node1 basisFunctions coefficients quadratureRule map rsum fold_right fst snd solve1 dot].
  replace ((2 - 0) / 2) with 1 by field. rewrite Rabs_R1. unfold b0, b1. assert (T := third). set (s := sqrt (1 / 3)) in *. clearbody s.
  assert (E : forall a b c : R, (a = b -> [a; c] = [b; c])) by (intros; subst; reflexivity).
  f_equal; [|f_equal].
  - transitivity ((2 * x - y) * ((1 + s * s) / 2) + (2 * y - x) * ((1 - s * s) / 2)); [field|]. rewrite T. field.
  - transitivity ((2 * x - y) * ((1 - s * s) / 2) + (2 * y - x) * ((1 + s * s) / 2)); [field|]. rewrite T. field.
Qed.
Lemma line1_nodal : forall id cs, nodal (line1 id cs).
Proof. intros id cs. exists b0, b1, []. split; [reflexivity|]. split; [intro; unfold b0; field|]. split; [intro; unfold b1; field|constructor]. Qed.
Lemma line1_average : forall id cs a b, averageOf (line1 id cs) [a; b] = (a + b) / 2.
Proof.
  intros id cs a b. rewrite averageOf_wsum by (simpl; lra). unfold line1, wsum; cbn [basisFunctions quadratureRule map rsum fold_right fst snd expand].
  unfold b0, b1. field.
Qed.

Lemma line2_regular : forall cs, Forall (fun c => length c = 3%nat) cs -> regular (line2 cs).
Proof.
  intros cs F. assert (T := three5). unfold regular, line2; cbn [node0 node1 basisFunctions coefficients quadratureRule].
  split; [lra|]. split; [exact F|]. split.
  - repeat constructor; cbn [map rsum fold_right fst snd].
    + eapply newton_ext; [apply (newton_quadratic b0 (/ 2) (- / 2) 0)|reflexivity|]; [intro x; unfold b0; field|unfold b0; lra].
    + eapply newton_ext; [apply (newton_quadratic b1 (/ 2) (/ 2) 0)|reflexivity|]; [intro x; unfold b1; field|unfold b1; lra].
    + eapply newton_ext with (f := b2); [apply (newton_quadratic b2 kk 0 (- kk)); intro x; rewrite b2_kk; ring|reflexivity|].
      rewrite !b2_kk. rewrite Rmult_opp_opp. rewrite !T. field.
  - split; [exists [1; 1; 0]|exists [-1; 1; 0]]; (split; [reflexivity|]); intro x; simpl; unfold b0, b1; field.
Qed.
Lemma line2_determined : forall cs, determined (line2 cs).
Proof.
  intros cs. unfold determined, line2; cbn [basisFunctions quadratureRule]. split; [repeat constructor; simpl; lra|].
  intros [|a [|b [|c [|]]]] L H x; simpl in L; try discriminate. assert (P : 0 < sqrt (3 / 5)) by (apply sqrt_lt_R0; lra).
  assert (A := H (5 / 9, - sqrt (3 / 5)) ltac:(simpl; auto)). assert (B := H (5 / 9, sqrt (3 / 5)) ltac:(simpl; auto)).
  assert (C := H (8 / 9, 0) ltac:(simpl; auto)). assert (T := three5).
  simpl in *. rewrite b2_kk in *. unfold b0, b1 in *. set (s := sqrt (3 / 5)) in *. clearbody s.
  replace (- s * - s) with (3 / 5) in A by (rewrite <- T; ring). rewrite T in B.
  assert (Z : kk * c = 0) by lra. assert (X : a + b = 0) by lra. assert (Y : s * (b - a) = 0) by lra. apply Rmult_integral in Y. destruct Y as [Y|Y]; [lra|].
  assert (b = 0) by lra. assert (a = 0) by lra. subst. replace (kk - kk * (x * x)) with (kk * (1 - x * x)) by ring.
  replace (kk * (1 - x * x) * c) with (kk * c * (1 - x * x)) by ring. rewrite Z. field.
Qed.
Lemma line2_solves : forall cs, solves solve2 (line2 cs).
Proof.
  intros cs b L. unfold line2 in *; cbn [basisFunctions length] in L. destruct b as [|x [|y [|z [|]]]]; try discriminate.
  split; [reflexivity|]. unfold massMatrix, integrate, jacobian; cbn [node0 node1 basisFunctions coefficients quadratureRule map rsum fold_right fst snd solve2 dot].
  replace ((2 - 0) / 2) with 1 by field. rewrite Rabs_R1. rewrite !b2_kk. unfold b0, b1. assert (T := three5). assert (K := kk_neg). set (s := sqrt (3 / 5)) in *. clearbody s.
  replace (- s * - s) with (3 / 5) by (rewrite <- T; ring). rewrite T. set (k := kk) in *. clearbody k.
  f_equal; [|f_equal; [|f_equal]].
  - match goal with |- ?l = _ => transitivity (l + (5 / 18) * (9 / 2 * x + 3 / 2 * y - 15 / 4 * (z / k)) * (3 / 5 - s * s) - (5 / 18) * (3 / 2 * x + 9 / 2 * y - 15 / 4 * (z / k)) * (3 / 5 - s * s)); [rewrite T; field; lra|field; lra] end.
  - match goal with |- ?l = _ => transitivity (l - (5 / 18) * (9 / 2 * x + 3 / 2 * y - 15 / 4 * (z / k)) * (3 / 5 - s * s) + (5 / 18) * (3 / 2 * x + 9 / 2 * y - 15 / 4 * (z / k)) * (3 / 5 - s * s)); [rewrite T; field; lra|field; lra] end.
  - field. lra.
Qed.
Lemma line2_average : forall cs a b c, averageOf (line2 cs) [a; b; c] = (a + b) / 2 + 2 / 3 * (kk * c).
Proof.
  intros cs a b c. rewrite averageOf_wsum by (simpl; lra). unfold line2, wsum; cbn [basisFunctions quadratureRule map rsum fold_right fst snd expand].
  rewrite !b2_kk. unfold b0, b1. assert (T := three5). set (s := sqrt (3 / 5)) in *. clearbody s.
  replace (- s * - s) with (3 / 5) by (rewrite <- T; ring). rewrite T. field.
Qed.
