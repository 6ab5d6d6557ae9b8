(** Integrals of monomials over the reference elements. *)
From Coq Require Import List Arith NArith ZArith Reals Lra Lia.
From Verif Require Import RefGeometry_model Quadrature_spec.
Import ListNotations.
Local Open Scope R_scope.

(** ** linearity and uniqueness *)
Lemma newton_ext : forall f g a b u v, newton f a b u -> (forall x, a <= x <= b -> f x = g x) -> u = v -> newton g a b v.
Proof.
  intros f g a b u v [F [H E]] X <-. exists F. split; auto.
  intros x Hx. rewrite <- X by assumption. auto.
Qed.

Lemma newton_lin : forall f g a b u v al be, newton f a b u -> newton g a b v ->
  newton (fun x => al * f x + be * g x) a b (al * u + be * v).
Proof.
  intros f g a b u v al be [F [HF ->]] [G [HG ->]].
  exists (fun x => al * F x + be * G x). split; [|ring].
  intros x Hx.
  apply (derivable_pt_lim_plus (fun x => al * F x) (fun x => be * G x)).
  - apply (derivable_pt_lim_scal F al x (f x)); auto.
  - apply (derivable_pt_lim_scal G be x (g x)); auto.
Qed.

Lemma newton_scal : forall f a b u k, newton f a b u -> newton (fun x => k * f x) a b (k * u).
Proof.
  intros f a b u k [F [HF ->]]. exists (fun x => k * F x). split; [|ring].
  intros x Hx. apply (derivable_pt_lim_scal F k x (f x)); auto.
Qed.

Lemma newton_unique : forall f a b u v, a <= b -> newton f a b u -> newton f a b v -> u = v.
Proof.
  intros f a b u v Hab [F [HF ->]] [G [HG ->]].
  destruct Hab as [L|E]; [|subst; ring].
  destruct (MVT_cor2 (fun x => F x - G x) (fun _ => 0) a b L) as [c [Hc _]].
  - intros x Hx. replace 0 with (f x - f x) by ring.
    apply (derivable_pt_lim_minus F G); auto.
  - lra.
Qed.

Lemma over_lin : forall a b (I J K : R -> R -> Prop) u v al be,
  (forall x p q, a <= x <= b -> I x p -> J x q -> K x (al * p + be * q)) ->
  over a b I u -> over a b J v -> over a b K (al * u + be * v).
Proof.
  intros a b I J K u v al be H [F [HF NF]] [G [HG NG]].
  exists (fun x => al * F x + be * G x). split; [auto|].
  apply newton_lin; assumption.
Qed.

Lemma over_unique : forall a b (I : R -> R -> Prop) u v, a <= b ->
  (forall x p q, a <= x <= b -> I x p -> I x q -> p = q) ->
  over a b I u -> over a b I v -> u = v.
Proof.
  intros a b I u v Hab H [F [HF NF]] [G [HG NG]].
  apply (newton_unique F a b); auto.
  eapply newton_ext; [exact NG| |reflexivity].
  intros x Hx. apply (H x); auto.
Qed.

Lemma over_intro : forall a b (I : R -> R -> Prop) G v,
  (forall x, a <= x <= b -> I x (G x)) -> newton G a b v -> over a b I v.
Proof. intros a b I G v H N. exists G. auto. Qed.

Lemma integral_lin : forall s f g u v al be, integral s f u -> integral s g v ->
  integral s (fun p => al * f p + be * g p) (al * u + be * v).
Proof.
  intros s f g u v al be. destruct s; simpl; intros A B.
  1: subst; reflexivity.
  all: revert A B; repeat (apply over_lin; intros ? ? ? _); intros -> ->; reflexivity.
Qed.

Lemma integral_unique : forall s f u v, integral s f u -> integral s f v -> u = v.
Proof.
  intros s f u v. destruct s; simpl; intros A B.
  1: congruence.
  all: revert A B; repeat (apply over_unique; [lra|intros ? ? ? ?]); congruence.
Qed.

Lemma over_ext : forall a b (I J : R -> R -> Prop) v, (forall x u, a <= x <= b -> I x u -> J x u) -> over a b I v -> over a b J v.
Proof. intros a b I J v H [G [HG N]]. exists G. auto. Qed.

Lemma integral_ext : forall s f g v, (forall p, f p = g p) -> integral s f v -> integral s g v.
Proof.
  intros s f g v H. destruct s; simpl.
  1: intros ->; apply H.
  all: repeat (apply over_ext; intros ? ? ?); intros ->; apply H.
Qed.

(** ** powers *)
Lemma newton_pow : forall n a b, newton (fun x => x ^ n) a b ((b ^ S n - a ^ S n) / INR (S n)).
Proof.
  intros n a b. exists (fun x => / INR (S n) * x ^ S n). split.
  - intros x _. replace (x ^ n) with (/ INR (S n) * (INR (S n) * x ^ pred (S n))).
    + apply (derivable_pt_lim_scal (fun y => y ^ S n)). apply derivable_pt_lim_pow.
    + simpl pred. field. apply not_0_INR. discriminate.
  - field. apply not_0_INR. discriminate.
Qed.

(** the integral of y^n from -c to c *)
Definition even_moment (n : nat) : R := if Nat.even n then 2 / INR (S n) else 0.

Lemma pow_neg : forall c n, (- c) ^ n = if Nat.even n then c ^ n else - c ^ n.
Proof.
  intros c n. induction n as [|n IH]; [reflexivity|].
  rewrite Nat.even_succ, <- Nat.negb_even. simpl. rewrite IH. destruct (Nat.even n); simpl; ring.
Qed.

Lemma newton_sym : forall n c, newton (fun x => x ^ n) (- c) c (c ^ S n * even_moment n).
Proof.
  intros n c. eapply newton_ext; [apply newton_pow|reflexivity|].
  rewrite pow_neg. unfold even_moment.
  rewrite Nat.even_succ, <- Nat.negb_even. destruct (Nat.even n); simpl negb; cbv iota.
  - field. apply not_0_INR. discriminate.
  - field. apply not_0_INR. discriminate.
Qed.

Lemma newton_line : forall n, newton (fun x => x ^ n) (-1) 1 (even_moment n).
Proof.
  intros n. assert (H := newton_sym n 1).
  replace (1 ^ S n * even_moment n) with (even_moment n) in H by (rewrite pow1; ring). exact H.
Qed.

(** ** the beta integral *)
Definition FR (n : nat) : R := INR (fact n).
Lemma FR_neq : forall n, FR n <> 0.
Proof. intro n. apply INR_fact_neq_0. Qed.
Lemma FR_S : forall n, FR (S n) = INR (S n) * FR n.
Proof. intro n. unfold FR. rewrite fact_simpl, mult_INR. reflexivity. Qed.

Definition beta (a b : nat) : R := FR a * FR b / FR (a + b + 1).

Lemma newton_beta : forall b a c, newton (fun y => y ^ a * (c - y) ^ b) 0 c (c ^ (a + b + 1) * beta a b).
Proof.
  induction b as [|b IH]; intros a c.
  - eapply newton_ext; [apply (newton_pow a 0 c)|intros; simpl; ring|].
    unfold beta. replace (a + 0 + 1)%nat with (S a) by lia. rewrite FR_S.
    rewrite pow_i by lia. change (FR 0) with 1.
    field. split; [apply FR_neq|apply not_0_INR; discriminate].
  - destruct (IH (S a) c) as [G [HG EG]].
    exists (fun y => / INR (S a) * (y ^ S a * (c - y) ^ S b) + INR (S b) / INR (S a) * G y). split.
    + intros y Hy. specialize (HG y Hy).
      assert (D1 : derivable_pt_lim (fun y => y ^ S a) y (INR (S a) * y ^ a)) by apply (derivable_pt_lim_pow y (S a)).
      assert (D2 : derivable_pt_lim (fun y => (c - y) ^ S b) y (INR (S b) * (c - y) ^ b * (0 - 1))).
      { apply (derivable_pt_lim_comp (fun y => c - y) (fun z => z ^ S b)).
        - apply (derivable_pt_lim_minus (fun _ => c) (fun y => y)).
          + apply derivable_pt_lim_const. + apply derivable_pt_lim_id.
        - apply (derivable_pt_lim_pow (c - y) (S b)). }
      assert (D3 := derivable_pt_lim_mult _ _ _ _ _ D1 D2).
      assert (D4 := derivable_pt_lim_scal _ (/ INR (S a)) _ _ D3).
      assert (D5 := derivable_pt_lim_scal _ (INR (S b) / INR (S a)) _ _ HG).
      assert (D6 := derivable_pt_lim_plus _ _ _ _ _ D4 D5).
      match type of D6 with derivable_pt_lim _ _ ?v => replace (y ^ a * (c - y) ^ S b) with v; [exact D6|] end.
      rewrite <- !tech_pow_Rmult. field. apply not_0_INR. discriminate.
    + replace (INR (S b) / INR (S a) * G c) with (INR (S b) / INR (S a) * (G c - G 0) + INR (S b) / INR (S a) * G 0) by ring.
      rewrite <- EG. unfold beta. rewrite (FR_S a), (FR_S b).
      replace (S a + b + 1)%nat with (a + S b + 1)%nat by lia.
      rewrite !(pow_i (S _)) by lia. replace ((c - c) ^ S b) with 0 by (rewrite Rminus_diag_eq by reflexivity; rewrite pow_i by lia; reflexivity).
      field. split; first [apply FR_neq | apply not_0_INR; discriminate].
Qed.

Lemma beta_unit : forall a b, newton (fun y => y ^ a * (1 - y) ^ b) 0 1 (beta a b).
Proof.
  intros a b. eapply newton_ext; [apply newton_beta|reflexivity|]. rewrite pow1. ring.
Qed.

(** ** integrals of monomials *)
Definition simplex2 (a b : nat) : R := FR a * FR b / FR (a + b + 2).
Definition simplex3 (a b c : nat) : R := FR a * FR b * FR c / FR (a + b + c + 3).
Definition pyramid3 (a b c : nat) : R := even_moment a * even_moment b * beta c (a + b + 2).

Definition monomial_integral (s : shape) (e : list nat) : R :=
  match s, e with
  | Line, [a] => even_moment a
  | Square, [a; b] => even_moment a * even_moment b
  | Cube, [a; b; c] => even_moment a * even_moment b * even_moment c
  | Hypercube, [a; b; c; d] => even_moment a * even_moment b * even_moment c * even_moment d
  | Triangle, [a; b] => simplex2 a b
  | Tetrahedron, [a; b; c] => simplex3 a b c
  | TriangularPrism, [a; b; c] => simplex2 a b * even_moment c
  | Pyramid, [a; b; c] => pyramid3 a b c
  | _, _ => 1
  end.

Ltac step G := apply (over_intro _ _ _ G).
Ltac scaled L := eapply newton_ext; [eapply newton_scal; exact L| |].


Lemma integral_monomial : forall s e, length e = dimension s -> integral s (monomial e) (monomial_integral s e).
Proof.
  intros s e He. destruct s; simpl in He;
    repeat match goal with H : length ?l = _ |- _ => destruct l; simpl in H; try discriminate H; apply eq_add_S in H || clear H end;
    simpl.
  - reflexivity.
  - rename n into a. step (fun x => x ^ a); [intros; ring|apply newton_line].
  - rename n into a, n0 into b.
    step (fun x => x ^ a * ((1 - x) ^ S b / INR (S b))).
    + intros x Hx. step (fun y => x ^ a * y ^ b); [intros; ring|].
      scaled (newton_pow b 0 (1 - x)); [intros; reflexivity|].
      rewrite (pow_i (S b)) by lia. field. apply not_0_INR. discriminate.
    + scaled (beta_unit a (S b)); [intros x Hx; cbv beta; instantiate (1 := / INR (S b)); field; apply not_0_INR; discriminate|].
      unfold beta, simplex2. rewrite FR_S. replace (a + S b + 1)%nat with (a + b + 2)%nat by lia.
      field. split; [apply FR_neq|apply not_0_INR; discriminate].
  - rename n into a, n0 into b.
    step (fun x => x ^ a * even_moment b).
    + intros x Hx. step (fun y => x ^ a * y ^ b); [intros; ring|].
      scaled (newton_line b); reflexivity.
    + scaled (newton_line a); [intros x Hx; cbv beta; apply Rmult_comm|ring].
  - rename n into a, n0 into b, n1 into c.
    step (fun x => / INR (S c) * (x ^ a * ((1 - x) ^ (b + S c + 1) * beta b (S c)))).
    + intros x Hx. step (fun y => x ^ a * y ^ b * ((1 - x - y) ^ S c / INR (S c))).
      * intros y Hy. step (fun z => x ^ a * y ^ b * z ^ c); [intros; ring|].
        scaled (newton_pow c 0 (1 - x - y)); [intros; reflexivity|].
        rewrite (pow_i (S c)) by lia. field. apply not_0_INR. discriminate.
      * scaled (newton_beta (S c) b (1 - x)); [intros y Hy; cbv beta; instantiate (1 := x ^ a / INR (S c)); field; apply not_0_INR; discriminate|].
        cbv beta. field. apply not_0_INR. discriminate.
    + scaled (beta_unit a (b + S c + 1)); [intros x Hx; cbv beta; instantiate (1 := beta b (S c) / INR (S c)); field; apply not_0_INR; discriminate|].
      unfold beta, simplex3. rewrite (FR_S c).
      replace (a + (b + S c + 1) + 1)%nat with (a + b + c + 3)%nat by lia.
      field. repeat split; try apply FR_neq. apply not_0_INR; discriminate.
  - rename n into a, n0 into b, n1 into c.
    step (fun z => z ^ c * ((1 - z) ^ (a + b + 2) * (even_moment a * even_moment b))).
    + intros z Hz. step (fun x => x ^ a * (z ^ c * ((1 - z) ^ S b * even_moment b))).
      * intros x Hx. step (fun y => x ^ a * z ^ c * y ^ b); [intros; ring|].
        scaled (newton_sym b (1 - z)); [intros; reflexivity|]. ring.
      * scaled (newton_sym a (1 - z)); [intros x Hx; cbv beta; apply Rmult_comm|].
        replace (a + b + 2)%nat with (S b + S a)%nat by lia. rewrite pow_add. ring.
    + scaled (beta_unit c (a + b + 2)); [intros x Hx; cbv beta; instantiate (1 := even_moment a * even_moment b); ring|].
      unfold pyramid3. reflexivity.
  - rename n into a, n0 into b, n1 into c.
    step (fun x => even_moment c * (x ^ a * ((1 - x) ^ S b / INR (S b)))).
    + intros x Hx. step (fun y => even_moment c * (x ^ a * y ^ b)).
      * intros y Hy. step (fun z => x ^ a * y ^ b * z ^ c); [intros; ring|].
        scaled (newton_line c); [intros; reflexivity|]. ring.
      * scaled (newton_pow b 0 (1 - x)); [intros y Hy; cbv beta; instantiate (1 := even_moment c * x ^ a); ring|].
        rewrite (pow_i (S b)) by lia. field. apply not_0_INR. discriminate.
    + scaled (beta_unit a (S b)); [intros x Hx; cbv beta; instantiate (1 := even_moment c / INR (S b)); field; apply not_0_INR; discriminate|].
      unfold beta, simplex2. rewrite FR_S. replace (a + S b + 1)%nat with (a + b + 2)%nat by lia.
      field. split; [apply FR_neq|apply not_0_INR; discriminate].
  - rename n into a, n0 into b, n1 into c.
    step (fun x => even_moment b * even_moment c * x ^ a).
    + intros x Hx. step (fun y => x ^ a * even_moment c * y ^ b).
      * intros y Hy. step (fun z => x ^ a * y ^ b * z ^ c); [intros; ring|].
        scaled (newton_line c); [intros; reflexivity|]. ring.
      * scaled (newton_line b); [intros; reflexivity|]. ring.
    + scaled (newton_line a); [intros; reflexivity|]. ring.
  - rename n into a, n0 into b, n1 into c, n2 into d.
    step (fun x => even_moment b * even_moment c * even_moment d * x ^ a).
    + intros x Hx. step (fun y => x ^ a * even_moment c * even_moment d * y ^ b).
      * intros y Hy. step (fun z => x ^ a * y ^ b * even_moment d * z ^ c).
        -- intros z Hz. step (fun t => x ^ a * y ^ b * z ^ c * t ^ d); [intros; ring|].
           scaled (newton_line d); [intros; reflexivity|]. ring.
        -- scaled (newton_line c); [intros; reflexivity|]. ring.
      * scaled (newton_line b); [intros; reflexivity|]. ring.
    + scaled (newton_line a); [intros; reflexivity|]. ring.
Qed.

(** the integral of a polynomial *)
Fixpoint pintegral (s : shape) (q : polynomial) : R :=
  match q with
  | [] => 0
  | (c, e) :: q' => c * monomial_integral s e + pintegral s q'
  end.

Lemma integral_poly : forall s q, Forall (fun t => length (snd t) = dimension s) q -> integral s (peval q) (pintegral s q).
Proof.
  intros s q. induction q as [|[c e] q IH]; intros H.
  - assert (Z := integral_lin s (monomial (repeat 0%nat (dimension s))) (monomial (repeat 0%nat (dimension s)))
      _ _ 0 0 (integral_monomial s _ (repeat_length _ _)) (integral_monomial s _ (repeat_length _ _))).
    simpl pintegral. replace (0 * monomial_integral s (repeat 0%nat (dimension s)) + 0 * monomial_integral s (repeat 0%nat (dimension s)))
      with 0 in Z by ring.
    eapply integral_ext; [|exact Z]. intros p. simpl. ring.
  - inversion H; subst.
    assert (Z := integral_lin s _ _ _ _ c 1 (integral_monomial s e H2) (IH H3)).
    simpl pintegral. rewrite Rmult_1_l in Z. eapply integral_ext; [|exact Z]. intros p. simpl. ring.
Qed.
