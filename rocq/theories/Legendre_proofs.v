From Coq Require Import Reals Lra Lia List.
From Verif Require Import Legendre_model Legendre_spec Derivative.
Import ListNotations.
Local Open Scope R_scope.

Lemma pair_ind : forall P : nat -> Prop, P O -> P 1%nat -> (forall n, P n -> P (S n) -> P (S (S n))) -> forall n, P n.
Proof.
  intros P H0 H1 HS n. assert (P n /\ P (S n)) as [H _]; [|exact H].
  induction n as [|n [IH1 IH2]]; split; auto.
Qed.
Lemma INR_S_pos : forall n, INR (S n) > 0.
Proof. intro n. apply lt_0_INR. lia. Qed.

Notation P := LegendrePolynomial.
Notation D := LegendrePolynomialDerivative.
Lemma P_SS : forall n x, P (S (S n)) x = (2 * INR (S (S n)) - 1) / INR (S (S n)) * x * P (S n) x - (INR (S (S n)) - 1) / INR (S (S n)) * P n x.
Proof. reflexivity. Qed.
Lemma D_SS : forall n x, D (S (S n)) x = (2 * INR (S (S n)) - 1) / INR (S (S n)) * (x * D (S n) x + P (S n) x) - (INR (S (S n)) - 1) / INR (S (S n)) * D n x.
Proof. reflexivity. Qed.
(** (n+2) P_{n+2} = (2n+3) x P_{n+1} - (n+1) P_n *)
Lemma P_rec : forall n x, (INR n + 2) * P (S (S n)) x = (2 * INR n + 3) * x * P (S n) x - (INR n + 1) * P n x.
Proof. intros. rewrite P_SS, !S_INR. pose proof (pos_INR n). field. lra. Qed.
Lemma D_rec : forall n x, (INR n + 2) * D (S (S n)) x = (2 * INR n + 3) * (x * D (S n) x + P (S n) x) - (INR n + 1) * D n x.
Proof. intros. rewrite D_SS, !S_INR. pose proof (pos_INR n). field. lra. Qed.

Lemma legendre_derivative : forall n x, derivable_pt_lim (P n) x (D n x).
Proof.
  intro n. induction n as [| |n IH1 IH2] using pair_ind; intro x.
  - apply (D_const 1 x).
  - apply (D_id x).
  - rewrite D_SS.
    apply (D_eq (fun t => (2 * INR (S (S n)) - 1) / INR (S (S n)) * t * P (S n) t - (INR (S (S n)) - 1) / INR (S (S n)) * P n t) x
             (((0 * x + (2 * INR (S (S n)) - 1) / INR (S (S n)) * 1) * P (S n) x + (2 * INR (S (S n)) - 1) / INR (S (S n)) * x * D (S n) x)
              - (0 * P n x + (INR (S (S n)) - 1) / INR (S (S n)) * D n x))).
    + apply D_minus.
      * apply (D_mult (fun t => _ * t)); [|apply IH2]. apply (D_mult (fun _ => _) (fun t => t)); [apply D_const|apply D_id].
      * apply (D_mult (fun _ => _)); [apply D_const|apply IH1].
    + ring.
Qed.

Lemma legendre_one : forall n, P n 1 = 1.
Proof.
  intro n. induction n as [| |n IH1 IH2] using pair_ind; try reflexivity.
  rewrite P_SS, IH1, IH2, !S_INR. pose proof (pos_INR n). field. lra.
Qed.
Lemma legendre_parity : forall n x, P n (- x) = (-1) ^ n * P n x.
Proof.
  intro n. induction n as [| |n IH1 IH2] using pair_ind; intro x.
  - simpl. ring.
  - simpl. ring.
  - rewrite !P_SS, IH1, IH2. cbn [pow]. ring.
Qed.

(** the three relations between P and D, proved together *)
Lemma relations : forall n x,
  D (S n) x - x * D n x = (INR n + 1) * P n x /\
  x * D (S n) x - D n x = (INR n + 1) * P (S n) x.
Proof.
  intros n x. induction n as [|n [IH1 IH2]].
  - simpl. split; ring.
  - pose proof (D_rec n x) as HD. pose proof (P_rec n x) as HP.
    pose proof (pos_INR n) as Hn. rewrite S_INR.
    set (d2 := D (S (S n)) x) in *. set (d1 := D (S n) x) in *. set (d0 := D n x) in *.
    set (p2 := P (S (S n)) x) in *. set (p1 := P (S n) x) in *. set (p0 := P n x) in *.
    set (m := INR n) in *.
    assert (E : d0 = x * d1 - (m + 1) * p1) by lra.
    assert (F : d1 - x * (x * d1 - (m + 1) * p1) = (m + 1) * p0) by (rewrite <- E; lra).
    assert (H1 : d2 - x * d1 = (m + 1 + 1) * p1).
    { apply (Rmult_eq_reg_l (m + 2)); [|lra].
      replace ((m + 2) * (d2 - x * d1)) with ((m + 2) * d2 - (m + 2) * x * d1) by ring.
      rewrite HD, E. ring. }
    split; [exact H1|].
    assert (d2 = x * d1 + (m + 1 + 1) * p1) as -> by lra.
    apply (Rmult_eq_reg_l (m + 2)); [|lra].
    replace ((m + 2) * ((m + 1 + 1) * p2)) with ((m + 2) * ((m + 2) * p2)) by ring.
    rewrite HP.
    replace ((m + 2) * ((2 * m + 3) * x * p1 - (m + 1) * p0)) with ((m + 2) * ((2 * m + 3) * x * p1 - ((m + 1) * p0))) by ring.
    rewrite <- F. ring.
Qed.
Lemma one_minus_square : forall n x,
  (1 - x * x) * D (S n) x = (INR n + 1) * (P n x - x * P (S n) x) /\
  (1 - x * x) * D n x = (INR n + 1) * (x * P n x - P (S n) x).
Proof.
  intros n x. destruct (relations n x) as [H1 H2].
  split; [|assert (D n x = x * D (S n) x - (INR n + 1) * P (S n) x) by lra].
  - replace ((INR n + 1) * (P n x - x * P (S n) x)) with ((INR n + 1) * P n x - x * ((INR n + 1) * P (S n) x)) by ring.
    rewrite <- H1, <- H2. ring.
  - replace ((INR n + 1) * (x * P n x - P (S n) x)) with (x * ((INR n + 1) * P n x) - ((INR n + 1) * P (S n) x)) by ring.
    rewrite <- H1, <- H2. ring.
Qed.

Lemma legendre_equation : forall n x,
  derivable_pt_lim (fun t => (1 - t * t) * D n t) x (- (INR n * (INR n + 1) * P n x)).
Proof.
  intros [|n] x.
  - apply (D_eq (fun t => (1 - t * t) * 0) x 0); [|simpl; ring]. derive.
  - apply (D_eq (fun t => (1 - t * t) * D (S n) t) x
             (0 * (P n x - x * P (S n) x) + (INR n + 1) * (D n x - (1 * P (S n) x + x * D (S n) x)))).
    + assert (derivable_pt_lim (fun t => (INR n + 1) * (P n t - t * P (S n) t)) x
               (0 * (P n x - x * P (S n) x) + (INR n + 1) * (D n x - (1 * P (S n) x + x * D (S n) x)))) as H.
      { apply (D_mult (fun _ => INR n + 1) (fun t => P n t - t * P (S n) t)); [apply D_const|].
        apply (D_minus (P n) (fun t => t * P (S n) t)); [apply legendre_derivative|].
        apply (D_mult (fun t => t) (P (S n))); [apply D_id|apply legendre_derivative]. }
      intros eps Heps. destruct (H eps Heps) as [delta Hd]. exists delta. intros h H1 H2.
      rewrite (proj1 (one_minus_square n (x + h))), (proj1 (one_minus_square n x)). apply Hd; assumption.
    + destruct (relations n x) as [H1 H2]. rewrite S_INR.
      replace (0 * (P n x - x * P (S n) x) + (INR n + 1) * (D n x - (1 * P (S n) x + x * D (S n) x)))
        with (- (INR n + 1) * ((x * D (S n) x - D n x) + P (S n) x)) by ring.
      rewrite H2. ring.
Qed.

(** continuity *)
Lemma P_continuity : forall n, continuity (P n).
Proof.
  intros n x. apply derivable_continuous_pt. exists (D n x). apply legendre_derivative.
Qed.
Lemma integral_of_derivative : forall F f a b, a <= b ->
  (forall x, derivable_pt_lim F x (f x)) -> continuity f -> integral_is f a b (F b - F a).
Proof.
  intros F f a b Hab HF Hf.
  assert (pd : derivable F) by (intro x; exists (f x); apply HF).
  assert (E : forall x, derive F pd x = f x).
  { intro x. unfold derive. destruct (pd x) as [l Hl] eqn:Ex. simpl. unfold derivable_pt_abs in Hl.
    eapply uniqueness_limite; [exact Hl|apply HF]. }
  assert (cd : continuity (derive F pd)).
  { intro x. intros eps Heps. destruct (Hf x eps Heps) as (alp & H1 & H2). exists alp. split; [exact H1|].
    intros y Hy. specialize (H2 y Hy). simpl in *. unfold R_dist in *. rewrite !E. exact H2. }
  assert (ex : Riemann_integrable f a b) by (apply continuity_implies_RiemannInt; [exact Hab|intros x _; apply Hf]).
  exists ex.
  assert (pr : Riemann_integrable (derive F pd) a b) by (apply continuity_implies_RiemannInt; [exact Hab|intros x _; apply cd]).
  pose proof (FTC_Riemann (mkC1 cd) pr) as H. simpl in H.
  rewrite <- H. apply (RiemannInt_P18 ex pr Hab). intros x _. symmetry. apply E.
Qed.
Lemma integral_unique : forall f a b u v, integral_is f a b u -> integral_is f a b v -> u = v.
Proof. intros f a b u v [p1 H1] [p2 H2]. subst. apply RiemannInt_P5. Qed.
Lemma integral_ext : forall f g a b v, a <= b -> (forall x, f x = g x) -> integral_is f a b v -> integral_is g a b v.
Proof.
  intros f g a b v Hab E [p H].
  assert (pg : Riemann_integrable g a b).
  { intro eps. destruct (p eps) as (phi & psi & Hp). exists phi, psi.
    destruct Hp as [H1 H2]. split; [|exact H2]. intros t Ht. rewrite <- E. apply H1, Ht. }
  exists pg. rewrite <- H. apply (RiemannInt_P18 pg p Hab). intros x _. symmetry. apply E.
Qed.
Lemma integral_linear : forall f g a b u v c, integral_is f a b u -> integral_is g a b v ->
  integral_is (fun x => f x + c * g x) a b (u + c * v).
Proof.
  intros f g a b u v c [p H1] [q H2]. exists (RiemannInt_P10 c p q). subst. apply RiemannInt_P13.
Qed.
Lemma integral_zero : forall a b, a <= b -> integral_is (fun _ => 0) a b 0.
Proof.
  intros a b Hab. pose proof (integral_of_derivative (fun _ => 0) (fun _ => 0) a b Hab (fun x => D_const 0 x)) as H.
  cbv beta in H. replace (0 - 0) with 0 in H by ring. apply H. intros x. apply continuity_const. intros ? ?; reflexivity.
Qed.

Lemma legendre_orthogonal : forall m n, m <> n -> integral_is (fun x => P m x * P n x) (-1) 1 0.
Proof.
  intros m n Hmn.
  assert (Hd : INR n * (INR n + 1) - INR m * (INR m + 1) <> 0).
  { assert (INR n <> INR m) by (intro E; apply Hmn; symmetry; apply INR_eq, E).
    replace (INR n * (INR n + 1) - INR m * (INR m + 1)) with ((INR n - INR m) * (INR n + INR m + 1)) by ring.
    apply Rmult_integral_contrapositive. split; [lra|]. pose proof (pos_INR n). pose proof (pos_INR m). lra. }
  set (c := INR n * (INR n + 1) - INR m * (INR m + 1)) in *.
  set (G := fun t => / c * (P n t * ((1 - t * t) * D m t) - P m t * ((1 - t * t) * D n t))).
  assert (H : integral_is (fun x => P m x * P n x) (-1) 1 (G 1 - G (-1))).
  { apply integral_of_derivative; [lra| |].
    - intro x.
      apply (D_eq G x (0 * (P n x * ((1 - x * x) * D m x) - P m x * ((1 - x * x) * D n x)) +
        / c * ((D n x * ((1 - x * x) * D m x) + P n x * (- (INR m * (INR m + 1) * P m x)))
               - (D m x * ((1 - x * x) * D n x) + P m x * (- (INR n * (INR n + 1) * P n x)))))).
      + apply (D_mult (fun _ => / c) (fun t => P n t * ((1 - t * t) * D m t) - P m t * ((1 - t * t) * D n t))); [apply D_const|].
        apply (D_minus (fun t => P n t * ((1 - t * t) * D m t)) (fun t => P m t * ((1 - t * t) * D n t))).
        * apply (D_mult (P n) (fun t => (1 - t * t) * D m t)); [apply legendre_derivative|apply legendre_equation].
        * apply (D_mult (P m) (fun t => (1 - t * t) * D n t)); [apply legendre_derivative|apply legendre_equation].
      + unfold c in *. field. exact Hd.
    - apply continuity_mult; apply P_continuity. }
  replace 0 with (G 1 - G (-1)); [exact H|].
  unfold G. field. exact Hd.
Qed.

Lemma legendre_norm : forall n, integral_is (fun x => P n x * P n x) (-1) 1 (2 / (2 * INR n + 1)).
Proof.
  intro n. induction n as [|n IH].
  - replace (2 / (2 * INR 0 + 1)) with ((fun x => x) 1 - (fun x => x) (-1)) by (simpl; field).
    apply integral_ext with (f := fun _ => 1); [lra|intro; simpl; ring|].
    apply (integral_of_derivative (fun x => x)); [lra|intro; apply D_id|intros x; apply continuity_const; intros ? ?; reflexivity].
  - destruct n as [|n].
    + replace (2 / (2 * INR 1 + 1)) with ((fun x => / 3 * x ^ 3) 1 - (fun x => / 3 * x ^ 3) (-1)) by (simpl; field).
      apply (integral_of_derivative (fun x => / 3 * x ^ 3)); [lra| |apply continuity_mult; apply P_continuity].
      intro x. simpl P. cbv beta. derive_with ltac:(simpl; field).
    + (* (n+2) P_{n+2}^2 = (2n+3) x P_{n+1} P_{n+2} - (n+1) P_n P_{n+2}, and
         x P_{n+2} = ((n+3) P_{n+3} + (n+2) P_{n+1}) / (2n+5) *)
      pose proof (pos_INR n) as Hn.
      assert (H1 : integral_is (fun x => P (S n) x * P (S (S (S n))) x) (-1) 1 0) by (apply legendre_orthogonal; lia).
      assert (H2 : integral_is (fun x => P n x * P (S (S n)) x) (-1) 1 0) by (apply legendre_orthogonal; lia).
      pose proof (integral_zero (-1) 1 ltac:(lra)) as H0.
      pose proof (integral_linear _ _ _ _ _ _ ((2 * INR n + 3) / (2 * INR n + 5)) H0 IH) as A1.
      pose proof (integral_linear _ _ _ _ _ _ ((2 * INR n + 3) / (INR n + 2) * ((INR n + 3) / (2 * INR n + 5))) A1 H1) as A2.
      pose proof (integral_linear _ _ _ _ _ _ (- ((INR n + 1) / (INR n + 2))) A2 H2) as A3.
      match type of A3 with integral_is _ _ _ ?v => replace v with (2 / (2 * INR (S (S n)) + 1)) in A3 end.
      2:{ rewrite !S_INR. field. repeat split; lra. }
      eapply integral_ext; [lra| |exact A3].
      intro x. cbv beta.
      pose proof (P_rec n x) as R1. pose proof (P_rec (S n) x) as R2. rewrite S_INR in R2.
      set (p3 := P (S (S (S n))) x) in *. set (p2 := P (S (S n)) x) in *. set (p1 := P (S n) x) in *. set (p0 := P n x) in *.
      set (m := INR n) in *.
      assert (E3 : (m + 3) * p3 = (2 * m + 5) * x * p2 - (m + 2) * p1) by lra.
      replace (p2 * p2) with (p2 * ((m + 2) * p2) / (m + 2)) by (field; lra). rewrite R1.
      replace ((2 * m + 3) / (m + 2) * ((m + 3) / (2 * m + 5)) * (p1 * p3))
        with ((2 * m + 3) / (m + 2) / (2 * m + 5) * p1 * ((m + 3) * p3)) by (field; lra).
      rewrite E3. field. lra.
Qed.

(** degrees *)
Lemma poly_value_app : forall c d x, poly_value (c ++ d) x = poly_value c x + x ^ length c * poly_value d x.
Proof. induction c as [|a c IH]; intros; simpl; [ring|rewrite IH; ring]. Qed.
Fixpoint padd (c d : list R) : list R :=
  match c, d with
  | [], _ => d
  | _, [] => c
  | a :: c', b :: d' => (a + b) :: padd c' d'
  end.
Lemma padd_value : forall c d x, poly_value (padd c d) x = poly_value c x + poly_value d x.
Proof. induction c as [|a c IH]; intros [|b d] x; simpl; try ring. rewrite IH. ring. Qed.
Lemma padd_length : forall c d, length (padd c d) = Nat.max (length c) (length d).
Proof. induction c as [|a c IH]; intros [|b d]; simpl; try reflexivity; try lia. rewrite IH. reflexivity. Qed.
Definition pscale (k : R) (c : list R) := map (Rmult k) c.
Lemma pscale_value : forall k c x, poly_value (pscale k c) x = k * poly_value c x.
Proof. induction c as [|a c IH]; intros x; simpl; [ring|]. unfold pscale in IH. rewrite IH. ring. Qed.
Lemma below_app : forall n f g lead, polynomial_below n g -> (forall x, f x = g x + lead * x ^ n) -> lead <> 0 ->
  polynomial_of_degree n f.
Proof.
  intros n f g lead (c & Hc & Hg) Hf Hl. exists c, lead. split; [exact Hc|]. split; [exact Hl|].
  intro x. rewrite poly_value_app, Hf, Hg, Hc. simpl. ring.
Qed.
Lemma legendre_degree : forall n, polynomial_of_degree n (P n).
Proof.
  intro n.
  assert (H : exists c lead, length c = n /\ lead > 0 /\ forall x, P n x = poly_value (c ++ [lead]) x).
  { induction n as [| |n (c0 & l0 & L0 & G0 & E0) (c1 & l1 & L1 & G1 & E1)] using pair_ind.
    - exists [], 1. split; [reflexivity|]. split; [lra|]. intro; simpl; ring.
    - exists [0], 1. split; [reflexivity|]. split; [lra|]. intro; simpl; ring.
    - set (a := (2 * INR (S (S n)) - 1) / INR (S (S n))). set (b := (INR (S (S n)) - 1) / INR (S (S n))).
      exists (padd (0 :: pscale a c1) (pscale (- b) (c0 ++ [l0]))), (a * l1).
      split.
      { rewrite padd_length. unfold pscale. cbn [length]. rewrite !map_length, app_length, L0, L1. cbn [length]. lia. }
      assert (Ha : a > 0).
      { unfold a. pose proof (INR_S_pos (S n)). apply Rdiv_lt_0_compat; [|lra]. rewrite S_INR. pose proof (pos_INR n). rewrite S_INR. lra. }
      split; [apply Rmult_lt_0_compat; lra|].
      intro x. rewrite P_SS, E0, E1. fold a b.
      rewrite (poly_value_app (padd _ _)), padd_value, padd_length, pscale_value. cbn [poly_value].
      rewrite pscale_value, (poly_value_app c0), (poly_value_app c1). cbn [poly_value].
      unfold pscale. cbn [length]. rewrite !map_length, app_length, L0, L1. cbn [length].
      replace (Nat.max (S (S n)) (n + 1)) with (S (S n)) by lia. cbn [pow]. ring. }
  destruct H as (c & l & H1 & H2 & H3). exists c, l. split; [exact H1|]. split; [lra|exact H3].
Qed.

(** every polynomial of degree below n is a combination of P_0 .. P_{n-1}; so P_n is
    orthogonal to all of them *)
Lemma integral_P_poly : forall n k f, (k <= n)%nat -> polynomial_below k f -> integral_is (fun x => P n x * f x) (-1) 1 0.
Proof.
  intros n k. induction k as [|k IH]; intros f Hk (c & Hc & Hf).
  - destruct c; [|discriminate]. eapply integral_ext; [lra| |apply integral_zero; lra].
    intro x. cbv beta. rewrite Hf. simpl. ring.
  - destruct (legendre_degree k) as (d & l & Hd & Hl & HP).
    assert (exists c' a, c = c' ++ [a] /\ length c' = k) as (c' & a & -> & Hc').
    { destruct (exists_last (l := c)) as (c' & a & E); [destruct c; discriminate|]. exists c', a. split; [exact E|].
      subst c. rewrite app_length in Hc. simpl in Hc. lia. }
    set (g := fun x => f x - a / l * P k x).
    assert (Hg : integral_is (fun x => P n x * g x) (-1) 1 0).
    { apply IH; [lia|]. exists (padd c' (pscale (- (a / l)) d)). split.
      - rewrite padd_length. unfold pscale. rewrite map_length. lia.
      - intro x. unfold g. rewrite Hf, HP, padd_value, pscale_value, !poly_value_app, Hc', Hd. simpl. field. exact Hl. }
    assert (Ho : integral_is (fun x => P n x * P k x) (-1) 1 0) by (apply legendre_orthogonal; lia).
    pose proof (integral_linear _ _ _ _ _ _ (a / l) Hg Ho) as H.
    replace (0 + a / l * 0) with 0 in H by ring.
    eapply integral_ext; [lra| |exact H]. intro x. unfold g. cbv beta. ring.
Qed.

(** Lobatto *)
Lemma integral_P : forall n x, -1 <= x ->
  integral_is (P (S n)) (-1) x (- ((1 - x * x) * D (S n) x) / ((INR n + 1) * (INR n + 2))).
Proof.
  intros n x Hx. pose proof (pos_INR n) as Hn.
  assert (Hc : (INR n + 1) * (INR n + 2) <> 0) by (apply Rmult_integral_contrapositive; split; lra).
  set (G := fun t => - / ((INR n + 1) * (INR n + 2)) * ((1 - t * t) * D (S n) t)).
  replace (- ((1 - x * x) * D (S n) x) / ((INR n + 1) * (INR n + 2))) with (G x - G (-1)) by (unfold G; field; lra).
  apply integral_of_derivative; [exact Hx| |apply P_continuity].
  intro t.
  apply (D_eq G t (0 * ((1 - t * t) * D (S n) t) + - / ((INR n + 1) * (INR n + 2)) * - (INR (S n) * (INR (S n) + 1) * P (S n) t))).
  - apply (D_mult (fun _ => - / ((INR n + 1) * (INR n + 2))) (fun t => (1 - t * t) * D (S n) t)); [apply D_const|apply legendre_equation].
  - rewrite S_INR. field. lra.
Qed.

Lemma lobatto_legendre : forall k x, (k <= 9)%nat -> k <> 5%nat ->
  LobattoPolynomial k x = - 4 * sqrt ((2 * INR k + 3) / 2) * D (S k) x / ((INR k + 1) * (INR k + 2)).
Proof.
  intros k x Hk H5.
  assert (E : forall a b, a = b -> sqrt (a / 2) = sqrt (b / 2)) by (intros; subst; reflexivity).
  do 10 (destruct k as [|k]; [try (exfalso; apply H5; reflexivity) ; cbn [LobattoPolynomial LegendrePolynomialDerivative LegendrePolynomial];
    match goal with |- context [sqrt ((2 * ?u + 3) / 2)] =>
      match goal with |- context [sqrt (?b / 2)] => replace (2 * u + 3) with b by (simpl; ring) end end;
    rewrite ?S_INR; cbn [INR]; field|]).
  lia.
Qed.
Lemma lobatto_derivative : forall k x d, LobattoPolynomialDerivative k x = Some d ->
  derivable_pt_lim (LobattoPolynomial k) x d.
Proof.
  intros k x d H.
  destruct k as [|[|[|[|k]]]]; try discriminate; injection H as <-; unfold LobattoPolynomial;
    derive_with ltac:(try lra; try (field; try lra)); try lra.
Qed.

Lemma lobatto_integral : forall k x v, (k <= 9)%nat -> k <> 5%nat -> -1 <= x <= 1 ->
  integral_is (P (k + 1)) (-1) x v ->
  (1 - x * x) / 4 * LobattoPolynomial k x = sqrt ((2 * INR k + 3) / 2) * v.
Proof.
  intros k x v Hk H5 Hx Hv. rewrite Nat.add_1_r in Hv.
  rewrite (integral_unique _ _ _ _ _ Hv (integral_P k x (proj1 Hx))), (lobatto_legendre k x Hk H5).
  pose proof (pos_INR k). field. lra.
Qed.
Lemma lobatto_shape : forall k, k <> 5%nat -> exists c, c <> 0 /\ forall x v, -1 <= x <= 1 ->
  integral_is (P (k + 1)) (-1) x v -> (1 - x * x) / 4 * LobattoPolynomial k x = c * v.
Proof.
  intros k H5. destruct (Compare_dec.le_lt_dec k 9) as [Hk|Hk].
  - exists (sqrt ((2 * INR k + 3) / 2)). split.
    + pose proof (pos_INR k). apply Rgt_not_eq. apply sqrt_lt_R0. lra.
    + intros. apply lobatto_integral; assumption.
  - pose proof (pos_INR k). exists (- ((INR k + 1) * (INR k + 2)) / 4). split.
    + assert ((INR k + 1) * (INR k + 2) <> 0) by (apply Rmult_integral_contrapositive; split; lra). lra.
    + intros x v Hx Hv. rewrite Nat.add_1_r in Hv.
      rewrite (integral_unique _ _ _ _ _ Hv (integral_P k x (proj1 Hx))).
      assert (E : LobattoPolynomial k x = D (S k) x).
      { do 10 (destruct k as [|k]; [lia|]). unfold LobattoPolynomial. rewrite Nat.add_1_r. reflexivity. }
      rewrite E. field. lra.
Qed.
Lemma lobatto_5 : forall c, c <> 0 ->
  ~ (forall x v, -1 <= x <= 1 -> integral_is (P 6) (-1) x v -> (1 - x * x) / 4 * LobattoPolynomial 5 x = c * v).
Proof.
  intros c Hc H.
  pose proof (integral_P 5 (1/2) ltac:(lra)) as I1. apply H in I1; [|lra].
  pose proof (integral_P 5 (1/4) ltac:(lra)) as I2. apply H in I2; [|lra].
  assert (Hs : sqrt (13 / 2) > 0) by (apply sqrt_lt_R0; lra).
  unfold LobattoPolynomial in I1, I2. cbn [LegendrePolynomialDerivative LegendrePolynomial INR] in I1, I2.
  set (s := sqrt (13 / 2)) in *. clearbody s. field_simplify in I1. field_simplify in I2. lra.
Qed.
Lemma lobatto_10_wrong :
  ~ (forall x v, -1 <= x <= 1 -> integral_is (P 11) (-1) x v ->
     (1 - x * x) / 4 * LobattoPolynomial 10 x = sqrt ((2 * INR 10 + 3) / 2) * v).
Proof.
  intro H. pose proof (integral_P 10 0 ltac:(lra)) as I. apply H in I; [|lra].
  unfold LobattoPolynomial in I. replace (10 + 1)%nat with 11%nat in I by reflexivity.
  assert (Hs : sqrt ((2 * INR 10 + 3) / 2) > 0) by (apply sqrt_lt_R0; simpl; lra).
  set (s := sqrt ((2 * INR 10 + 3) / 2)) in *. clearbody s.
  destruct (relations 10 0) as [R1 _]. 
  assert (E10 : P 10 0 = - (63 / 256)).
  { pose proof (P_rec 0 0) as E0. pose proof (P_rec 2 0) as E2. pose proof (P_rec 4 0) as E4.
    pose proof (P_rec 6 0) as E6. pose proof (P_rec 8 0) as E8. cbn [INR] in E0, E2, E4, E6, E8.
    change (P 0 0) with 1 in E0. lra. }
  assert (ED : D 11 0 = 11 * P 10 0) by (cbn [INR] in R1; lra).
  rewrite ED, E10 in I. cbn [INR] in I. field_simplify in I. lra.
Qed.

Lemma lobatto_derivative_all : forall k x,
  match LobattoPolynomialDerivative k x with
  | Some d => (k <= 3)%nat /\ derivable_pt_lim (LobattoPolynomial k) x d
  | None => (4 <= k)%nat
  end.
Proof.
  intros k x. destruct (LobattoPolynomialDerivative k x) as [d|] eqn:E.
  - split; [|apply lobatto_derivative, E].
    destruct k as [|[|[|[|k]]]]; try lia. discriminate.
  - destruct k as [|[|[|[|k]]]]; try discriminate. lia.
Qed.
