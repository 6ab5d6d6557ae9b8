(** The degree of the curl conforming functions. *)
From Coq Require Import List Arith Bool ZArith Reals Lra Lia.
From Verif Require Import Legendre_model Legendre_spec Legendre_proofs RefGeometry_model RefGeometry_spec BasisFunctions_model BasisFunctions_proofs
  BasisSets_model Independence_spec FreeFamilies_proofs
  CurlBasis_model CurlBasis_spec CurlBasis_proofs CurlTraces_proofs CurlSizes_proofs CurlPlane_proofs.
Import ListNotations.
Local Open Scope R_scope.

(** degree at most n *)
Definition pdeg (n : nat) (f : R -> R) : Prop := exists a, poly n f a.
Lemma pdeg_le : forall n m f, (n <= m)%nat -> pdeg n f -> pdeg m f.
Proof.
  intros n m f H (a & Ha). destruct (Nat.eq_dec n m) as [->|]; [exists a; exact Ha|]. exists 0. eapply poly_bump_to; [exact Ha|lia].
Qed.
Lemma pdeg_ext : forall n f g, pdeg n f -> (forall x, g x = f x) -> pdeg n g.
Proof. intros n f g (a & Ha) E. exists a. eapply poly_ext; eauto. Qed.
Lemma pdeg_plus : forall n f g, pdeg n f -> pdeg n g -> pdeg n (fun x => f x + g x).
Proof. intros n f g (a & Ha) (b & Hb). exists (a + b). apply poly_plus; assumption. Qed.
Lemma pdeg_scale : forall n c f, pdeg n f -> pdeg n (fun x => c * f x).
Proof. intros n c f (a & Ha). exists (c * a). apply poly_scale. exact Ha. Qed.
Lemma pdeg_minus : forall n f g, pdeg n f -> pdeg n g -> pdeg n (fun x => f x - g x).
Proof. intros n f g Hf Hg. apply pdeg_ext with (f := fun x => f x + (-1) * g x); [|intros; ring]. apply pdeg_plus; [exact Hf|apply pdeg_scale; exact Hg]. Qed.
Lemma pdeg_const : forall c, pdeg 0 (fun _ => c).
Proof. intros c. exists c. apply poly_const. Qed.
Lemma pdeg_any : forall n c, pdeg n (fun _ => c).
Proof. intros n c. apply (pdeg_le 0); [lia|apply pdeg_const]. Qed.
Lemma pdeg_linear : forall a b, pdeg 1 (fun t => a + t * b).
Proof. intros a b. exists b. exists (fun _ => b), a. split; [intros x; reflexivity|reflexivity]. Qed.
Lemma pdeg_mult : forall n m f g, pdeg n f -> pdeg m g -> pdeg (n + m) (fun x => f x * g x).
Proof.
  induction n as [|n IH]; intros m f g (a & Hf) Hg.
  - apply pdeg_ext with (f := fun x => a * g x); [apply pdeg_scale; exact Hg|]. intros x. cbn in Hf. rewrite Hf. reflexivity.
  - destruct Hf as (h & b & Hh & E). apply pdeg_ext with (f := fun x => b * g x + x * (h x * g x)); [|intros x; rewrite E; ring].
    apply pdeg_plus; [apply (pdeg_le m); [lia|apply pdeg_scale; exact Hg]|].
    destruct (IH m h g (ex_intro _ a Hh) Hg) as (c & Hc). exists c. apply (poly_x (n + m)). exact Hc.
Qed.
Lemma pdeg_pow : forall k f, pdeg 1 f -> pdeg k (fun x => f x ^ k).
Proof. induction k as [|k IH]; intros f H; [exact (pdeg_const 1)|]. cbn [pow]. apply (pdeg_mult 1 k _ _ H (IH f H)). Qed.
Lemma pdeg_legendre : forall n f, pdeg 1 f -> pdeg n (fun x => LegendrePolynomial n (f x)).
Proof.
  intros n f H. induction n as [| |n IH0 IH1] using pair_ind.
  - exact (pdeg_const 1).
  - exact H.
  - apply pdeg_ext with (f := fun x => (2 * INR (S (S n)) - 1) / INR (S (S n)) * (f x * LegendrePolynomial (S n) (f x)) - (INR (S (S n)) - 1) / INR (S (S n)) * LegendrePolynomial n (f x)).
    + apply pdeg_minus; apply pdeg_scale; [apply (pdeg_mult 1 (S n)); assumption|apply (pdeg_le n); [lia|exact IH0]].
    + intros x. rewrite P_SS. ring.
Qed.
Lemma pdeg_legendre_derivative : forall n f, pdeg 1 f -> pdeg (n - 1) (fun x => LegendrePolynomialDerivative n (f x)).
Proof.
  intros n f H. induction n as [| |n IH0 IH1] using pair_ind.
  - exact (pdeg_const 0).
  - exact (pdeg_const 1).
  - replace (S (S n) - 1)%nat with (S n) by lia. replace (S n - 1)%nat with n in IH1 by lia.
    apply pdeg_ext with (f := fun x => (2 * INR (S (S n)) - 1) / INR (S (S n)) * (f x * LegendrePolynomialDerivative (S n) (f x) + LegendrePolynomial (S n) (f x))
      - (INR (S (S n)) - 1) / INR (S (S n)) * LegendrePolynomialDerivative n (f x)).
    + apply pdeg_minus; apply pdeg_scale; [apply pdeg_plus; [apply (pdeg_mult 1 n); assumption|apply pdeg_legendre; exact H]|apply (pdeg_le (n - 1)); [lia|exact IH0]].
    + intros x. rewrite D_SS. ring.
Qed.
Lemma horner : forall n f, pdeg n f -> exists cs, (length cs <= S n)%nat /\ forall t, f t = fold_right (fun c r => c + t * r) 0 cs.
Proof.
  induction n as [|n IH]; intros f (a & H).
  - exists [a]. split; [cbn; lia|]. intros t. cbn. cbn in H. rewrite H. ring.
  - destruct H as (g & b & Hg & E). destruct (IH g (ex_intro _ a Hg)) as (cs & L & G). exists (b :: cs). split; [cbn; lia|]. intros t. cbn. rewrite E, G. reflexivity.
Qed.

(** ** Vector fields *)
Definition vdeg (n : nat) (F : R -> vec) : Prop := pdeg n (fun t => fst (fst (F t))) /\ pdeg n (fun t => snd (fst (F t))) /\ pdeg n (fun t => snd (F t)).
Lemma vdeg_ext : forall n F G, vdeg n F -> (forall t, G t = F t) -> vdeg n G.
Proof. intros n F G (H0 & H1 & H2) E. split; [|split]; [refine (pdeg_ext _ _ _ H0 _)|refine (pdeg_ext _ _ _ H1 _)|refine (pdeg_ext _ _ _ H2 _)]; intros t; cbv beta; rewrite E; reflexivity. Qed.
Lemma vdeg_le : forall n m F, (n <= m)%nat -> vdeg n F -> vdeg m F.
Proof. intros n m F L (H0 & H1 & H2). split; [|split]; eapply pdeg_le; eauto. Qed.
Lemma vdeg_const : forall v, vdeg 0 (fun _ => v).
Proof. intros [[a b] c]. split; [|split]; apply pdeg_const. Qed.
Lemma vdeg_vmul : forall n m F s, vdeg n F -> pdeg m s -> vdeg (n + m) (fun t => vmul (F t) (s t)).
Proof.
  intros n m F s (H0 & H1 & H2) Hs. split; [|split].
  - apply pdeg_ext with (f := fun t => fst (fst (F t)) * s t); [apply pdeg_mult; assumption|]. intros t. destruct (F t) as [[a b] c]. reflexivity.
  - apply pdeg_ext with (f := fun t => snd (fst (F t)) * s t); [apply pdeg_mult; assumption|]. intros t. destruct (F t) as [[a b] c]. reflexivity.
  - apply pdeg_ext with (f := fun t => snd (F t) * s t); [apply pdeg_mult; assumption|]. intros t. destruct (F t) as [[a b] c]. reflexivity.
Qed.
Lemma vdeg_vadd : forall n F G, vdeg n F -> vdeg n G -> vdeg n (fun t => vadd (F t) (G t)).
Proof.
  intros n F G (H0 & H1 & H2) (K0 & K1 & K2). split; [|split].
  - apply pdeg_ext with (f := fun t => fst (fst (F t)) + fst (fst (G t))); [apply pdeg_plus; assumption|]. intros t. destruct (F t) as [[? ?] ?], (G t) as [[? ?] ?]. reflexivity.
  - apply pdeg_ext with (f := fun t => snd (fst (F t)) + snd (fst (G t))); [apply pdeg_plus; assumption|]. intros t. destruct (F t) as [[? ?] ?], (G t) as [[? ?] ?]. reflexivity.
  - apply pdeg_ext with (f := fun t => snd (F t) + snd (G t)); [apply pdeg_plus; assumption|]. intros t. destruct (F t) as [[? ?] ?], (G t) as [[? ?] ?]. reflexivity.
Qed.
Lemma vdeg_vsub : forall n F G, vdeg n F -> vdeg n G -> vdeg n (fun t => vsub (F t) (G t)).
Proof.
  intros n F G HF HG. apply vdeg_ext with (F := fun t => vadd (F t) (vmul (G t) (-1))).
  - apply vdeg_vadd; [exact HF|]. rewrite <- (Nat.add_0_r n). apply (vdeg_vmul n 0 G (fun _ => -1) HG (pdeg_const _)).
  - intros t. destruct (F t) as [[? ?] ?], (G t) as [[? ?] ?]. cbn. apply triple_eq; ring.
Qed.

Section Line.
Variables (x y z dx dy dz : R).
Let X t := x + t * dx.
Let Y t := y + t * dy.
Let Z t := z + t * dz.
Lemma pdeg_lam : forall n, pdeg 1 (fun t => lam n (X t) (Y t) (Z t)).
Proof.
  assert (pdeg 1 X /\ pdeg 1 Y /\ pdeg 1 Z) as (HX & HY & HZ) by (split; [|split]; apply pdeg_linear).
  intros n. destruct n as [|[|[|n]]]; cbn [lam]; try assumption.
  apply (pdeg_minus 1 _ Z); [|exact HZ]. apply (pdeg_minus 1 _ Y); [|exact HY]. apply (pdeg_minus 1 _ X); [|exact HX]. apply pdeg_any.
Qed.
Lemma pdeg_dif : forall i j, pdeg 1 (fun t => lam i (X t) (Y t) (Z t) - lam j (X t) (Y t) (Z t)).
Proof. intros. apply pdeg_minus; apply pdeg_lam. Qed.
Lemma vdeg_grad : forall i j, vdeg 1 (fun t => vmul (dlam i) (lam j (X t) (Y t) (Z t))).
Proof. intros. apply (vdeg_vmul 0 1 (fun _ => dlam i)); [apply vdeg_const|apply pdeg_lam]. Qed.
Lemma vdeg_whitney : forall i j, vdeg 1 (fun t => w_field i j (X t) (Y t) (Z t)).
Proof. intros. unfold w_field. apply vdeg_vsub; apply vdeg_grad. Qed.
Ltac prod := repeat first [ apply pdeg_mult | apply pdeg_lam | apply (pdeg_pow _ _ (pdeg_lam _)) | apply (pdeg_legendre _ _ (pdeg_dif _ _)) ].
Ltac deg n m := apply (vdeg_le (n + m)); [lia|]; apply vdeg_vmul; [first [apply vdeg_whitney|apply vdeg_const]|prod].
Lemma vdeg_field : forall f n, proper3 f ->
  match f with
  | EdgeNedelec l m _ _ => (l + m + 1 <= n)%nat
  | Face1Nedelec l m k _ | Face2Nedelec l m k _ => (l + m + k + 2 <= n)%nat
  | Interior1Nedelec l m k o | Interior2Nedelec l m k o | Interior3Nedelec l m k o => (l + m + k + o + 3 <= n)%nat
  | EdgeAinsworthCoyle deg _ _ => (deg <= n /\ 1 <= n)%nat
  | EdgeFaceAinsworthCoyle deg _ _ => (deg <= n)%nat
  | FaceAinsworthCoyle l m _ _ | FaceInteriorAinsworthCoyle l m _ => (l + m + 3 <= n)%nat
  | InteriorAinsworthCoyle l m k _ => (l + m + k + 4 <= n)%nat
  | _ => False
  end -> vdeg n (fun t => field f (X t) (Y t) (Z t)).
Proof.
  intros f n Hp H. destruct f; try contradiction; cbn [field].
  - deg 1%nat (deg1 + deg2)%nat.
  - destruct (face_vertices d) as [[a b] c]. deg 1%nat (deg1 + deg2 + (deg3 + 1))%nat.
  - destruct (face_vertices d) as [[a b] c]. deg 1%nat (deg1 + 1 + deg2 + deg3)%nat.
  - deg 1%nat (deg1 + deg2 + (deg3 + 1) + (deg4 + 1))%nat.
  - deg 1%nat (deg1 + 1 + deg2 + deg3 + (deg4 + 1))%nat.
  - deg 1%nat (deg1 + 1 + (deg2 + 1) + deg3 + deg4)%nat.
  - destruct deg as [|[|k]].
    + apply (vdeg_le 1); [lia|]. unfold phi0. apply vdeg_vsub; apply vdeg_grad.
    + apply (vdeg_le 1); [lia|]. unfold phi1. apply vdeg_vadd; apply vdeg_grad.
    + apply (vdeg_le (1 + S k)); [lia|]. unfold edge_high. apply vdeg_vadd; apply vdeg_vmul.
      * unfold phi0. apply vdeg_vsub; apply vdeg_grad.
      * apply pdeg_scale. apply (pdeg_le k); [lia|]. prod.
      * unfold phi1. apply vdeg_vadd; apply vdeg_grad.
      * apply pdeg_scale. prod.
  - destruct (edge_vertices opposing c) as [a b]. cbn [proper3 proper_function] in Hp. deg 0%nat (1 + 1 + (deg - 2))%nat.
  - destruct (directed_vertices opposing direction) as [[a b] c]. unfold bubble_field. deg 0%nat (1 + 1 + 1 + deg1 + deg2)%nat.
  - destruct (face_vertices d) as [[a b] c]. unfold bubble_field. deg 0%nat (1 + 1 + 1 + deg1 + deg2)%nat.
  - unfold interior_field. deg 0%nat (1 + 1 + 1 + 1 + deg1 + deg2 + deg3)%nat.
Qed.
End Line.

Lemma degree_3D : forall f n, proper3 f -> (forall x y z dx dy dz, vdeg n (fun t => field f (x + t * dx) (y + t * dy) (z + t * dz))) ->
  degree_at_most n (curl_eval f) 3.
Proof.
  intros f n Hp H a d k La Ld Hk. destruct a as [|x [|y [|z [|]]]]; try discriminate. destruct d as [|dx [|dy [|dz [|]]]]; try discriminate.
  destruct (H x y z dx dy dz) as (H0 & H1 & H2).
  assert (forall t, component (curl_eval f) k (on_line [x; y; z] [dx; dy; dz] t) = nth_error (list_of (field f (x + t * dx) (y + t * dy) (z + t * dz))) k) as E.
  { intros t. unfold component, on_line. cbn [combine map fst snd]. rewrite (eval_field f _ _ _ Hp). reflexivity. }
  destruct k as [|[|[|k]]]; [| | |lia].
  - destruct (horner n _ H0) as (cs & L & G). exists cs. split; [exact L|]. intros t. rewrite E, <- G. destruct (field _ _ _ _) as [[? ?] ?]. reflexivity.
  - destruct (horner n _ H1) as (cs & L & G). exists cs. split; [exact L|]. intros t. rewrite E, <- G. destruct (field _ _ _ _) as [[? ?] ?]. reflexivity.
  - destruct (horner n _ H2) as (cs & L & G). exists cs. split; [exact L|]. intros t. rewrite E, <- G. destruct (field _ _ _ _) as [[? ?] ?]. reflexivity.
Qed.
Lemma nedelec_degree : forall order f, In f (createDGBasisFunctionSet3DNedelec order) -> degree_at_most order (curl_eval f) 3.
Proof.
  intros order f H. destruct (in_nedelec order f H) as [Hp Ho]. apply degree_3D; [exact Hp|]. intros. apply vdeg_field; [exact Hp|].
  destruct f; try contradiction; lia.
Qed.
Lemma ainsworth_degree : forall order f, (1 <= order)%nat -> In f (createDGBasisFunctionSet3DAinsworthCoyle order) -> degree_at_most order (curl_eval f) 3.
Proof.
  intros order f Hpos H. destruct (in_ainsworth order f H) as [Hp Ho]. apply degree_3D; [exact Hp|]. intros. apply vdeg_field; [exact Hp|].
  destruct f; try contradiction; lia.
Qed.

(** ** The plane *)
Lemma pdeg_lobatto : forall o f, pdeg 1 f -> pdeg o (fun x => LobattoPolynomial o (f x)).
Proof.
  intros o f H.
  assert (pdeg 2 (fun x => f x * f x)) as F2 by (apply (pdeg_mult 1 1); assumption).
  pose (horn := fix horn (cs : list R) (x : R) : R := match cs with [] => 0 | c :: cs' => c + (f x * f x) * horn cs' x end).
  assert (forall cs, pdeg (2 * (length cs - 1)) (horn cs)) as HH.
  { induction cs as [|c [|c' cs] IH].
    - exact (pdeg_const 0).
    - apply pdeg_ext with (f := fun _ => c); [apply pdeg_const|]. intros x. cbn. ring.
    - apply pdeg_ext with (f := fun x => c + (f x * f x) * horn (c' :: cs) x); [|intros x; reflexivity].
      apply pdeg_plus; [apply pdeg_any|]. replace (2 * (length (c :: c' :: cs) - 1))%nat with (2 + 2 * (length (c' :: cs) - 1))%nat by (cbn [length]; lia).
      apply pdeg_mult; assumption. }
  destruct o as [|[|[|[|[|[|[|[|[|[|o]]]]]]]]]].
  - exact (pdeg_const _).
  - apply pdeg_ext with (f := fun x => (-2 * sqrt (5/2)) * f x); [apply pdeg_scale; exact H|]. intros; cbn; ring.
  - apply pdeg_ext with (f := fun x => (sqrt (7/2) / -2) * horn [-1; 5] x); [apply pdeg_scale; apply (HH [_; _])|]. intros; cbn; field.
  - apply pdeg_ext with (f := fun x => (sqrt (9/2) / -2) * (f x * horn [-3; 7] x)); [apply pdeg_scale; apply (pdeg_mult 1 2); [exact H|apply (HH [_; _])]|]. intros; cbn; field.
  - apply pdeg_ext with (f := fun x => (sqrt (11/2) / -4) * horn [1; -14; 21] x); [apply pdeg_scale; apply (HH [_; _; _])|]. intros; cbn; field.
  - apply pdeg_le with (n := 3%nat); [lia|].
    apply pdeg_ext with (f := fun x => (sqrt (13/2) / -4) * (f x * horn [5; 3] x)); [apply pdeg_scale; apply (pdeg_mult 1 2); [exact H|apply (HH [_; _])]|]. intros; cbn; field.
  - apply pdeg_ext with (f := fun x => (sqrt (15/2) / -32) * horn [-5; 135; -495; 429] x); [apply pdeg_scale; apply (HH [_; _; _; _])|]. intros; cbn; field.
  - apply pdeg_ext with (f := fun x => (sqrt (17/2) / -32) * (f x * horn [-35; 385; -1001; 715] x)); [apply pdeg_scale; apply (pdeg_mult 1 6); [exact H|apply (HH [_; _; _; _])]|]. intros; cbn; field.
  - apply pdeg_ext with (f := fun x => (sqrt (19/2) / -64) * horn [7; -308; 2002; -4004; 2431] x); [apply pdeg_scale; apply (HH [_; _; _; _; _])|]. intros; cbn; field.
  - apply pdeg_ext with (f := fun x => (sqrt (21/2) / -64) * (f x * horn [63; -1092; 4914; -7956; 4199] x)); [apply pdeg_scale; apply (pdeg_mult 1 8); [exact H|apply (HH [_; _; _; _; _])]|]. intros; cbn; field.
  - pose (k := (S (S (S (S (S (S (S (S (S (S o))))))))))). fold k. change (pdeg k (fun x => LegendrePolynomialDerivative (k + 1) (f x))).
    replace k with (k + 1 - 1)%nat at 1 by lia. apply pdeg_legendre_derivative. exact H.
Qed.
Lemma line_zero : forall asserts l f, createDGBasisFunctionSet1DH1Line asserts 0 = Some l -> In f l -> f = PiecewiseConstant 1.
Proof. intros asserts l f H Hf. destruct asserts; cbn in H; apply Some_inj in H; subst l; destruct Hf as [<-|[]]; reflexivity. Qed.
Lemma triangle_zero : forall asserts l f, createDGBasisFunctionSet2DH1Triangle asserts 0 = Some l -> In f l -> f = PiecewiseConstant 2.
Proof. intros asserts l f H Hf. destruct asserts; cbn in H; apply Some_inj in H; subst l; destruct Hf as [<-|[]]; reflexivity. Qed.
Lemma line_val_degree : forall asserts order l f g, createDGBasisFunctionSet1DH1Line asserts order = Some l -> In f l -> pdeg 1 g -> pdeg order (fun t => val f [g t]).
Proof.
  intros asserts order l f g H Hf Hg. destruct order as [|order].
  - rewrite (line_zero _ _ _ H Hf). exact (pdeg_const 1).
  - destruct (line_functions _ _ _ _ H Hf) as [->|[(e & ->)|(o & L & ->)]]; unfold val; cbn -[LobattoPolynomial].
    + apply pdeg_any.
    + apply (pdeg_le 1); [lia|]. apply pdeg_ext with (f := fun t => 1 / 2 + IZR e / 2 * g t); [|intros; field].
      apply pdeg_plus; [apply pdeg_any|apply pdeg_scale; exact Hg].
    + apply (pdeg_le (2 + o)); [lia|].
      apply pdeg_ext with (f := fun t => ((1 + g t) * (1 - g t)) * (1 / 4 * LobattoPolynomial o (g t))); [|intros; field].
      apply pdeg_mult; [apply (pdeg_mult 1 1); [apply pdeg_plus; [apply pdeg_any|exact Hg]|apply pdeg_minus; [apply pdeg_any|exact Hg]]|].
      apply pdeg_scale. apply pdeg_lobatto. exact Hg.
Qed.
Lemma lam2_degree : forall n (g h : R -> R), pdeg 1 g -> pdeg 1 h -> pdeg 1 (fun t => match n with O => 1 - g t - h t | S O => g t | _ => h t end).
Proof.
  intros [|[|n]] g h Hg Hh; cbn; try assumption. apply pdeg_minus; [apply pdeg_minus; [apply pdeg_any|exact Hg]|exact Hh].
Qed.
Lemma triangle_val_degree : forall asserts order l f g h, createDGBasisFunctionSet2DH1Triangle asserts order = Some l -> In f l -> pdeg 1 g -> pdeg 1 h ->
  pdeg order (fun t => val f [g t; h t]).
Proof.
  intros asserts order l f g h H Hf Hg Hh. destruct order as [|order].
  - rewrite (triangle_zero _ _ _ H Hf). exact (pdeg_const 1).
  - pose (lm := fun n t => match n with O => 1 - g t - h t | S O => g t | _ => h t end).
    assert (forall n, pdeg 1 (lm n)) as Hl by (intros; apply lam2_degree; assumption).
    assert (forall i j, pdeg 1 (fun t => lm i t - lm j t)) as Hd by (intros; apply pdeg_minus; apply Hl).
    destruct (triangle_functions _ _ _ _ H Hf) as [->|[(n & Hn & ->)|[(i & j & o & Hi & Hj & Lo & ->)|(o0 & o1 & Lo & ->)]]].
    + exact (pdeg_any _ 1).
    + apply (pdeg_le 1); [lia|]. apply pdeg_ext with (f := lm n); [apply Hl|]. intros t. unfold val. destruct n as [|[|[|n]]]; try lia; reflexivity.
    + apply (pdeg_le (1 + 1 + o)); [lia|].
      apply pdeg_ext with (f := fun t => lm i t * lm j t * LobattoPolynomial o (lm j t - lm i t)).
      * apply pdeg_mult; [apply pdeg_mult; apply Hl|apply pdeg_lobatto; apply Hd].
      * intros t. unfold val. destruct i as [|[|[|i]]]; try lia; destruct j as [|[|[|j]]]; try lia; cbn -[LobattoPolynomial]; reflexivity.
    + apply (pdeg_le (1 + 1 + 1 + o0 + o1)); [lia|].
      apply pdeg_ext with (f := fun t => lm 0%nat t * lm 1%nat t * lm 2%nat t * LobattoPolynomial o0 (lm 0%nat t - lm 1%nat t) * LobattoPolynomial o1 (lm 1%nat t - lm 2%nat t)).
      * apply pdeg_mult; [apply pdeg_mult; [apply pdeg_mult; [apply pdeg_mult|]; apply Hl|]|]; apply pdeg_lobatto; apply Hd.
      * intros t. unfold val. cbn -[LobattoPolynomial]. reflexivity.
Qed.
Lemma nedelec_2D_degree : forall asserts order l f, createDGBasisFunctionSet2DNedelec asserts order = Some l -> In f l -> degree_at_most order (curl_eval f) 2.
Proof.
  intros asserts order l f H Hf a d k La Ld Hk. destruct a as [|x [|y [|]]]; try discriminate. destruct d as [|dx [|dy [|]]]; try discriminate.
  pose (X := fun t : R => x + t * dx). pose (Y := fun t : R => y + t * dy).
  assert (pdeg 1 X /\ pdeg 1 Y) as [HX HY] by (split; apply pdeg_linear).
  assert (exists g, pdeg order g /\ forall t, component (curl_eval f) k [X t; Y t] = Some (g t)) as (g & Hg & E).
  { destruct (in_nedelec_2D _ _ _ _ H Hf) as [Ho [(s & m & ml & Hs & -> & Em & Hm)|(t & m & ml & Ht & H2 & -> & Em & Hm)]].
    - exists (fun t => nth k [fst (sideFunction s (X t) (Y t)); snd (sideFunction s (X t) (Y t))] 0 * val m [modulatorCoord s (X t) (Y t)]). split.
      + apply (pdeg_le (1 + (order - 1))); [lia|]. apply pdeg_mult.
        * destruct s as [|[|[|s]]]; try lia; destruct k as [|[|k]]; try lia; cbn [nth fst snd sideFunction];
            repeat first [assumption | apply pdeg_any | apply pdeg_minus | (apply pdeg_ext with (f := fun t => (-1) * X t); [apply pdeg_scale; assumption|intros; ring])].
        * apply (line_val_degree asserts (order - 1) ml m); [exact Em|exact Hm|]. destruct s as [|[|s]]; cbn [modulatorCoord]; try assumption. apply pdeg_minus; [apply pdeg_any|exact HY].
      + intros t. unfold component. rewrite (edge_value _ _ _ _ _ _ _ Em Hm). destruct k as [|[|k]]; [reflexivity|reflexivity|lia].
    - exists (fun u => nth k [fst (typePart t (X u) (Y u)); snd (typePart t (X u) (Y u))] 0 * val m [X u; Y u]). split.
      + apply (pdeg_le (1 + 1 + (order - 2))); [lia|]. apply pdeg_mult.
        * destruct t as [|[|t]]; try lia; destruct k as [|[|k]]; try lia; cbn [nth fst snd typePart]; apply (pdeg_mult 1 1);
            repeat first [assumption | apply pdeg_any | apply pdeg_minus].
        * exact (triangle_val_degree asserts (order - 2) ml m X Y Em Hm HX HY).
      + intros u. unfold component. rewrite (interior_value _ _ _ _ _ _ _ Em Hm). destruct k as [|[|k]]; [reflexivity|reflexivity|lia]. }
  destruct (horner order g Hg) as (cs & L & G). exists cs. split; [exact L|]. intros t. rewrite <- G. exact (E t).
Qed.
