From Coq Require Import List Arith Bool ZArith Reals Lra Lia.
From Verif Require Import Legendre_model Legendre_spec Legendre_proofs Derivative RefGeometry_model RefGeometry_spec
  BasisFunctions_model BasisFunctions_spec BasisFunctions_proofs BasisSets_model CurlBasis_model CurlBasis_spec.
Import ListNotations.
Local Open Scope R_scope.

Lemma Some_inj : forall A (a b : A), Some a = Some b -> a = b.
Proof. intros A a b H. congruence. Qed.
Lemma triple_eq : forall a b c a' b' c' : R, a = a' -> b = b' -> c = c' -> (a, b, c) = (a', b', c').
Proof. intros. subst. reflexivity. Qed.

Definition has_grad (f : R -> R -> R -> R) (x y z : R) (g : vec) : Prop :=
  let '(g0, g1, g2) := g in
  derivable_pt_lim (fun s => f s y z) x g0 /\ derivable_pt_lim (fun s => f x s z) y g1 /\ derivable_pt_lim (fun s => f x y s) z g2.
Definition e0 (v : vec) := let '(a, _, _) := v in a.
Definition e1 (v : vec) := let '(_, a, _) := v in a.
Definition e2 (v : vec) := let '(_, _, a) := v in a.
Definition has_curl (F : R -> R -> R -> vec) (x y z : R) (c : vec) : Prop :=
  exists g0 g1 g2,
    has_grad (fun s t u => e0 (F s t u)) x y z g0 /\ has_grad (fun s t u => e1 (F s t u)) x y z g1 /\
    has_grad (fun s t u => e2 (F s t u)) x y z g2 /\
    c = (e1 g2 - e2 g1, e2 g0 - e0 g2, e0 g1 - e1 g0).

Lemma grad_ext : forall f f' x y z g, has_grad f x y z g -> (forall s t u, f s t u = f' s t u) -> has_grad f' x y z g.
Proof.
  intros f f' x y z [[g0 g1] g2] (H0 & H1 & H2) E.
  split; [|split]; (eapply derivable_pt_lim_ext; [|eassumption]); intros; apply E.
Qed.
Lemma grad_const : forall c x y z, has_grad (fun _ _ _ => c) x y z (0, 0, 0).
Proof. intros. split; [|split]; apply D_const. Qed.
Lemma grad_plus : forall f h x y z a b, has_grad f x y z a -> has_grad h x y z b ->
  has_grad (fun s t u => f s t u + h s t u) x y z (vadd a b).
Proof.
  intros f h x y z [[a0 a1] a2] [[b0 b1] b2] (A0 & A1 & A2) (B0 & B1 & B2).
  split; [|split].
  - exact (D_plus (fun s => f s y z) (fun s => h s y z) x _ _ A0 B0).
  - exact (D_plus (fun s => f x s z) (fun s => h x s z) y _ _ A1 B1).
  - exact (D_plus (fun s => f x y s) (fun s => h x y s) z _ _ A2 B2).
Qed.
Lemma grad_minus : forall f h x y z a b, has_grad f x y z a -> has_grad h x y z b ->
  has_grad (fun s t u => f s t u - h s t u) x y z (vsub a b).
Proof.
  intros f h x y z [[a0 a1] a2] [[b0 b1] b2] (A0 & A1 & A2) (B0 & B1 & B2).
  split; [|split].
  - exact (D_minus (fun s => f s y z) (fun s => h s y z) x _ _ A0 B0).
  - exact (D_minus (fun s => f x s z) (fun s => h x s z) y _ _ A1 B1).
  - exact (D_minus (fun s => f x y s) (fun s => h x y s) z _ _ A2 B2).
Qed.
Lemma grad_mult : forall f h x y z a b, has_grad f x y z a -> has_grad h x y z b ->
  has_grad (fun s t u => f s t u * h s t u) x y z (vadd (vmul a (h x y z)) (vmul b (f x y z))).
Proof.
  intros f h x y z [[a0 a1] a2] [[b0 b1] b2] (A0 & A1 & A2) (B0 & B1 & B2).
  split; [|split].
  - eapply D_eq; [exact (D_mult (fun s => f s y z) (fun s => h s y z) x _ _ A0 B0)|cbn; ring].
  - eapply D_eq; [exact (D_mult (fun s => f x s z) (fun s => h x s z) y _ _ A1 B1)|cbn; ring].
  - eapply D_eq; [exact (D_mult (fun s => f x y s) (fun s => h x y s) z _ _ A2 B2)|cbn; ring].
Qed.
Lemma grad_comp : forall q f x y z a d, has_grad f x y z a -> derivable_pt_lim q (f x y z) d ->
  has_grad (fun s t u => q (f s t u)) x y z (vmul a d).
Proof.
  intros q f x y z [[a0 a1] a2] d (A0 & A1 & A2) Q.
  split; [|split].
  - eapply D_eq; [exact (derivable_pt_lim_comp (fun s => f s y z) q x _ _ A0 Q)|cbn; ring].
  - eapply D_eq; [exact (derivable_pt_lim_comp (fun s => f x s z) q y _ _ A1 Q)|cbn; ring].
  - eapply D_eq; [exact (derivable_pt_lim_comp (fun s => f x y s) q z _ _ A2 Q)|cbn; ring].
Qed.
Lemma grad_pow : forall n f x y z a, has_grad f x y z a ->
  has_grad (fun s t u => f s t u ^ n) x y z (vmul a (INR n * f x y z ^ pred n)).
Proof. intros n f x y z a H. apply (grad_comp (fun v => v ^ n)); [exact H|apply derivable_pt_lim_pow]. Qed.

Lemma curl_scale : forall w f x y z g, has_grad f x y z g -> has_curl (fun s t u => vmul w (f s t u)) x y z (OuterProduct g w).
Proof.
  intros [[w0 w1] w2] f x y z g H.
  exists (vmul g w0), (vmul g w1), (vmul g w2).
  assert (forall c, has_grad (fun s t u => c * f s t u) x y z (vmul g c)) as S.
  { intros c. pose proof (grad_mult (fun _ _ _ => c) f x y z _ _ (grad_const c x y z) H) as S. destruct g as [[g0 g1] g2].
    cbn in S |- *. replace (g0 * c) with (0 * f x y z + g0 * c) by ring. replace (g1 * c) with (0 * f x y z + g1 * c) by ring.
    replace (g2 * c) with (0 * f x y z + g2 * c) by ring. exact S. }
  repeat (split; [apply S|]). destruct g as [[g0 g1] g2]. cbn. apply triple_eq; ring.
Qed.
Lemma curl_minus : forall F G x y z a b, has_curl F x y z a -> has_curl G x y z b ->
  has_curl (fun s t u => vsub (F s t u) (G s t u)) x y z (vsub a b).
Proof.
  intros F G x y z a b (f0 & f1 & f2 & F0 & F1 & F2 & ->) (g0 & g1 & g2 & G0 & G1 & G2 & ->).
  exists (vsub f0 g0), (vsub f1 g1), (vsub f2 g2). split; [|split; [|split]].
  - eapply grad_ext; [exact (grad_minus _ _ _ _ _ _ _ F0 G0)|]. intros s t u; cbv beta. destruct (F s t u) as [[? ?] ?], (G s t u) as [[? ?] ?]. reflexivity.
  - eapply grad_ext; [exact (grad_minus _ _ _ _ _ _ _ F1 G1)|]. intros s t u; cbv beta. destruct (F s t u) as [[? ?] ?], (G s t u) as [[? ?] ?]. reflexivity.
  - eapply grad_ext; [exact (grad_minus _ _ _ _ _ _ _ F2 G2)|]. intros s t u; cbv beta. destruct (F s t u) as [[? ?] ?], (G s t u) as [[? ?] ?]. reflexivity.
  - destruct f0 as [[? ?] ?], f1 as [[? ?] ?], f2 as [[? ?] ?], g0 as [[? ?] ?], g1 as [[? ?] ?], g2 as [[? ?] ?]. cbn. apply triple_eq; ring.
Qed.
Lemma curl_plus : forall F G x y z a b, has_curl F x y z a -> has_curl G x y z b ->
  has_curl (fun s t u => vadd (F s t u) (G s t u)) x y z (vadd a b).
Proof.
  intros F G x y z a b (f0 & f1 & f2 & F0 & F1 & F2 & ->) (g0 & g1 & g2 & G0 & G1 & G2 & ->).
  exists (vadd f0 g0), (vadd f1 g1), (vadd f2 g2). split; [|split; [|split]].
  - eapply grad_ext; [exact (grad_plus _ _ _ _ _ _ _ F0 G0)|]. intros s t u; cbv beta. destruct (F s t u) as [[? ?] ?], (G s t u) as [[? ?] ?]. reflexivity.
  - eapply grad_ext; [exact (grad_plus _ _ _ _ _ _ _ F1 G1)|]. intros s t u; cbv beta. destruct (F s t u) as [[? ?] ?], (G s t u) as [[? ?] ?]. reflexivity.
  - eapply grad_ext; [exact (grad_plus _ _ _ _ _ _ _ F2 G2)|]. intros s t u; cbv beta. destruct (F s t u) as [[? ?] ?], (G s t u) as [[? ?] ?]. reflexivity.
  - destruct f0 as [[? ?] ?], f1 as [[? ?] ?], f2 as [[? ?] ?], g0 as [[? ?] ?], g1 as [[? ?] ?], g2 as [[? ?] ?]. cbn. apply triple_eq; ring.
Qed.
Lemma curl_mult : forall F f x y z c g, has_curl F x y z c -> has_grad f x y z g ->
  has_curl (fun s t u => vmul (F s t u) (f s t u)) x y z (vadd (vmul c (f x y z)) (OuterProduct g (F x y z))).
Proof.
  intros F f x y z c g (f0 & f1 & f2 & F0 & F1 & F2 & ->) H.
  do 3 eexists. split; [|split; [|split]].
  - eapply grad_ext; [exact (grad_mult _ _ _ _ _ _ _ F0 H)|]. intros s t u; cbv beta. destruct (F s t u) as [[? ?] ?]. reflexivity.
  - eapply grad_ext; [exact (grad_mult _ _ _ _ _ _ _ F1 H)|]. intros s t u; cbv beta. destruct (F s t u) as [[? ?] ?]. reflexivity.
  - eapply grad_ext; [exact (grad_mult _ _ _ _ _ _ _ F2 H)|]. intros s t u; cbv beta. destruct (F s t u) as [[? ?] ?]. reflexivity.
  - destruct f0 as [[? ?] ?], f1 as [[? ?] ?], f2 as [[? ?] ?], g as [[? ?] ?], (F x y z) as [[? ?] ?]. cbn. apply triple_eq; ring.
Qed.
Lemma curl_const : forall w x y z, has_curl (fun _ _ _ => w) x y z (0, 0, 0).
Proof.
  intros [[w0 w1] w2] x y z. exists (0, 0, 0), (0, 0, 0), (0, 0, 0). repeat (split; [apply grad_const|]).
  cbn. apply triple_eq; ring.
Qed.

(** the barycentric coordinates and their gradients *)
Definition lam (n : nat) (x y z : R) : R := match n with O => 1 - x - y - z | S O => x | S (S O) => y | _ => z end.
Definition dlam (n : nat) : vec := match n with O => (-1, -1, -1) | S O => (1, 0, 0) | S (S O) => (0, 1, 0) | _ => (0, 0, 1) end.
Lemma bary_lam : forall n x y z, (n < 4)%nat -> bary x y z n = Some (lam n x y z).
Proof. intros [|[|[|[|n]]]] x y z H; try reflexivity. lia. Qed.
Lemma bary_inv : forall n x y z l, bary x y z n = Some l -> (n < 4)%nat /\ l = lam n x y z.
Proof.
  intros n x y z l H. assert (n < 4)%nat as Hn.
  { destruct n as [|[|[|[|n]]]]; try lia. exfalso. revert H. unfold bary. cbn. destruct n; discriminate. }
  split; [exact Hn|]. rewrite bary_lam in H by exact Hn. congruence.
Qed.
Lemma gradient_dlam : forall n, (n < 4)%nat -> gradient n = Some (dlam n).
Proof. intros [|[|[|[|n]]]] H; try reflexivity. lia. Qed.
Lemma gradient_inv : forall n g, gradient n = Some g -> (n < 4)%nat /\ g = dlam n.
Proof.
  intros n g H. assert (n < 4)%nat as Hn.
  { destruct n as [|[|[|[|n]]]]; try lia. exfalso. revert H. cbn. destruct n; discriminate. }
  split; [exact Hn|]. rewrite gradient_dlam in H by exact Hn. congruence.
Qed.
Lemma grad_lam : forall n x y z, has_grad (lam n) x y z (dlam n).
Proof.
  intros n x y z. destruct n as [|[|[|n]]]; (split; [|split]); cbn [lam];
    (eapply D_eq; [repeat derive_rule|lra]).
Qed.
Lemma D_legendre : forall n x, derivable_pt_lim (LegendrePolynomial n) x (LegendrePolynomialDerivative n x).
Proof. exact legendre_derivative. Qed.
Lemma grad_legendre : forall n f x y z a, has_grad f x y z a ->
  has_grad (fun s t u => LegendrePolynomial n (f s t u)) x y z (vmul a (LegendrePolynomialDerivative n (f x y z))).
Proof. intros n f x y z a H. apply (grad_comp (LegendrePolynomial n)); [exact H|apply D_legendre]. Qed.

(** from the model to the specification *)
Lemma curl_of_field : forall (F : R -> R -> R -> option vec) G x y z c, (forall s t u, F s t u = Some (G s t u)) ->
  has_curl G x y z c ->
  is_curl (fun p => match p with [a; b; d] => entries (F a b d) | _ => None end) [x; y; z] (let '(c0, c1, c2) := c in [c0; c1; c2]).
Proof.
  intros F G x y z c HF (g0 & g1 & g2 & H0 & H1 & H2 & ->).
  exists (fun k i => match k, i with
    | O, O => e0 g0 | O, S O => e1 g0 | O, _ => e2 g0 | S O, O => e0 g1 | S O, S O => e1 g1 | S O, _ => e2 g1
    | _, O => e0 g2 | _, S O => e1 g2 | _, _ => e2 g2 end).
  split; [|right; split; reflexivity].
  intros k i Hk Hi. cbn [length] in Hk, Hi.
  destruct g0 as [[g00 g01] g02], g1 as [[g10 g11] g12], g2 as [[g20 g21] g22].
  destruct H0 as (A0 & A1 & A2), H1 as (B0 & B1 & B2), H2 as (C0 & C1 & C2).
  destruct k as [|[|[|k]]]; [| | |lia]; (destruct i as [|[|[|i]]]; [| | |lia]);
    (eexists; split; [intros s; unfold component, with_coordinate; cbn [firstn skipn app]; rewrite HF;
       unfold entries, option_map|cbn [nth]; eassumption]);
    cbv beta; match goal with |- nth_error (let '(_, _) := ?v in _) _ = _ => destruct v as [[? ?] ?]; reflexivity end.
Qed.
Lemma is_curl_ext : forall F F' p c, is_curl F p c -> (forall q, length q = length p -> F q = F' q) -> is_curl F' p c.
Proof.
  intros F F' p c (D & H & Hc) E. exists D. split; [|exact Hc].
  intros k i Hk Hi. destruct (H k i Hk Hi) as (g & Hg & Hd). exists g. split; [|exact Hd].
  intros t. rewrite <- Hg. unfold component. rewrite E; [reflexivity|].
  unfold with_coordinate. rewrite app_length. cbn [length]. rewrite firstn_length, skipn_length. lia.
Qed.

(** the functions on the tetrahedron *)
Definition w_field (i j : nat) (s t u : R) : vec := vsub (vmul (dlam i) (lam j s t u)) (vmul (dlam j) (lam i s t u)).
Lemma whitney_field : forall i j s t u, (i < 4)%nat -> (j < 4)%nat -> whitney s t u i j = Some (w_field i j s t u).
Proof. intros. unfold whitney. rewrite !gradient_dlam, !bary_lam by assumption. reflexivity. Qed.
Lemma whitney_inv : forall i j s t u w, whitney s t u i j = Some w -> (i < 4)%nat /\ (j < 4)%nat.
Proof.
  intros i j s t u w H. unfold whitney in H. unbind H.
  match goal with A : gradient i = Some _, B : gradient j = Some _ |- _ => apply gradient_inv in A; apply gradient_inv in B end. tauto.
Qed.
Lemma curl_whitney : forall i j x y z, has_curl (w_field i j) x y z (vmul (OuterProduct (dlam j) (dlam i)) 2).
Proof.
  intros i j x y z.
  pose proof (curl_minus _ _ _ _ _ _ _ (curl_scale (dlam i) _ _ _ _ _ (grad_lam j x y z)) (curl_scale (dlam j) _ _ _ _ _ (grad_lam i x y z))) as H.
  replace (vmul (OuterProduct (dlam j) (dlam i)) 2) with (vsub (OuterProduct (dlam j) (dlam i)) (OuterProduct (dlam i) (dlam j)));
    [exact H|].
  destruct (dlam i) as [[? ?] ?], (dlam j) as [[? ?] ?]. cbn. apply triple_eq; ring.
Qed.
Ltac gradrule :=
  match goal with
  | |- has_grad (lam ?n) _ _ _ _ => apply (grad_lam n)
  | |- has_grad (fun s t u => lam ?n s t u) _ _ _ _ => apply (grad_lam n)
  | |- has_grad (fun s t u => ?c) _ _ _ _ => apply (grad_const c)
  | |- has_grad (fun s t u => @?f s t u - @?g s t u) _ _ _ _ => apply (grad_minus f g)
  | |- has_grad (fun s t u => @?f s t u * @?g s t u) _ _ _ _ => apply (grad_mult f g)
  | |- has_grad (fun s t u => @?f s t u ^ ?n) _ _ _ _ => apply (grad_pow n f)
  | |- has_grad (fun s t u => LegendrePolynomial ?n (@?f s t u)) _ _ _ _ => apply (grad_legendre n f)
  end.
Lemma has_curl_eq : forall F x y z c c', has_curl F x y z c -> c = c' -> has_curl F x y z c'.
Proof. intros. subst. assumption. Qed.
(** the product of a Whitney field with a function *)
Ltac abstract_grads :=
  repeat match goal with |- context [dlam ?n] => let a := fresh "a" in let b := fresh "b" in let c := fresh "c" in
    destruct (dlam n) as [[a b] c] end;
  repeat match goal with |- context [lam ?n ?x ?y ?z] => let l := fresh "l" in set (l := lam n x y z); clearbody l end.

Lemma EdgeNedelec_curl_ok : forall d1 d2 i j x y z,
  has_curl (fun s t u => vmul (w_field i j s t u) (lam i s t u ^ d1 * lam j s t u ^ d2)) x y z
    (vmul (OuterProduct (dlam j) (dlam i)) (INR (d1 + d2 + 2) * lam i x y z ^ d1 * lam j x y z ^ d2)).
Proof.
  intros. eapply has_curl_eq; [apply curl_mult; [apply curl_whitney|repeat gradrule]|].
  unfold w_field. rewrite !plus_INR. cbv beta. abstract_grads. cbn [vadd vmul vsub OuterProduct INR].
  destruct d1, d2; cbn [pred pow]; rewrite ?S_INR; apply triple_eq; cbn [INR]; ring.
Qed.
Ltac nedelec_ring :=
  unfold w_field; rewrite !plus_INR; cbv beta; abstract_grads; cbn [vadd vmul vsub OuterProduct INR].
Lemma Face1Nedelec_curl_ok : forall d1 d2 d3 a b c x y z,
  has_curl (fun s t u => vmul (w_field a b s t u) (lam a s t u ^ d1 * lam b s t u ^ d2 * lam c s t u ^ (d3 + 1))) x y z
    (vadd (vmul (OuterProduct (dlam b) (dlam a)) (INR (d1 + d2 + 2) * lam a x y z ^ d1 * lam b x y z ^ d2 * lam c x y z ^ (d3 + 1)))
       (vmul (OuterProduct (dlam c) (w_field a b x y z)) (INR (1 + d3) * lam a x y z ^ d1 * lam b x y z ^ d2 * lam c x y z ^ d3))).
Proof.
  intros. rewrite Nat.add_1_r. eapply has_curl_eq; [apply curl_mult; [apply curl_whitney|repeat gradrule]|].
  change (1 + d3)%nat with (S d3).
  nedelec_ring.
  destruct d1, d2; cbn [pred pow]; rewrite ?S_INR; apply triple_eq; cbn [INR]; ring.
Qed.
Lemma Face2Nedelec_curl_ok : forall d1 d2 d3 a b c x y z,
  has_curl (fun s t u => vmul (w_field b c s t u) (lam a s t u ^ (d1 + 1) * lam b s t u ^ d2 * lam c s t u ^ d3)) x y z
    (vadd (vmul (OuterProduct (dlam c) (dlam b)) (INR (d2 + d3 + 2) * lam a x y z ^ (d1 + 1) * lam b x y z ^ d2 * lam c x y z ^ d3))
       (vmul (OuterProduct (dlam a) (w_field b c x y z)) (INR (1 + d1) * lam a x y z ^ d1 * lam b x y z ^ d2 * lam c x y z ^ d3))).
Proof.
  intros. rewrite Nat.add_1_r. eapply has_curl_eq; [apply curl_mult; [apply curl_whitney|repeat gradrule]|].
  change (1 + d1)%nat with (S d1).
  nedelec_ring.
  destruct d2, d3; cbn [pred pow]; rewrite ?S_INR; apply triple_eq; cbn [INR]; ring.
Qed.
Lemma InteriorNedelec_curl_ok : forall dk dl di dj i j k l x y z (f : R -> R -> R -> R -> R),
  (forall a b c d, f a b c d = a ^ di * b ^ dj * c ^ (dk + 1) * d ^ (dl + 1)) ->
  has_curl (fun s t u => vmul (w_field i j s t u) (f (lam i s t u) (lam j s t u) (lam k s t u) (lam l s t u))) x y z
    (vadd (vmul (OuterProduct (dlam j) (dlam i)) (INR (di + dj + 2) * f (lam i x y z) (lam j x y z) (lam k x y z) (lam l x y z)))
       (vadd (vmul (OuterProduct (dlam k) (w_field i j x y z)) (INR (1 + dk) * lam i x y z ^ di * lam j x y z ^ dj * lam k x y z ^ dk * lam l x y z ^ (dl + 1)))
             (vmul (OuterProduct (dlam l) (w_field i j x y z)) (INR (1 + dl) * lam i x y z ^ di * lam j x y z ^ dj * lam k x y z ^ (dk + 1) * lam l x y z ^ dl)))).
Proof.
  intros dk dl di dj i j k l x y z f Hf. rewrite !Hf.
  eapply has_curl_eq;
    [apply curl_mult; [apply curl_whitney|
       eapply grad_ext; [|intros; symmetry; apply Hf]; rewrite !Nat.add_1_r; repeat gradrule]|].
  cbv beta. rewrite Hf. rewrite !Nat.add_1_r. change (1 + dk)%nat with (S dk). change (1 + dl)%nat with (S dl).
  nedelec_ring.
  destruct di, dj; cbn [pred pow]; rewrite ?S_INR; apply triple_eq; cbn [INR]; ring.
Qed.

(** the functions of Ainsworth and Coyle *)
Definition phi0 (o i : nat) (s t u : R) : vec := vsub (vmul (dlam o) (lam i s t u)) (vmul (dlam i) (lam o s t u)).
Definition phi1 (o i : nat) (s t u : R) : vec := vadd (vmul (dlam o) (lam i s t u)) (vmul (dlam i) (lam o s t u)).
Lemma curl_phi0 : forall o i x y z, has_curl (phi0 o i) x y z (vmul (OuterProduct (dlam i) (dlam o)) 2).
Proof. intros o i x y z. exact (curl_whitney o i x y z). Qed.
Lemma curl_phi1 : forall o i x y z, has_curl (phi1 o i) x y z (0, 0, 0).
Proof.
  intros o i x y z.
  pose proof (curl_plus _ _ _ _ _ _ _ (curl_scale (dlam o) _ _ _ _ _ (grad_lam i x y z)) (curl_scale (dlam i) _ _ _ _ _ (grad_lam o x y z))) as H.
  refine (has_curl_eq _ _ _ _ _ _ H _).
  destruct (dlam i) as [[? ?] ?], (dlam o) as [[? ?] ?]. cbn. apply triple_eq; ring.
Qed.
Definition edge_high (n o i : nat) (s t u : R) : vec :=
  vadd (vmul (phi0 o i s t u) (- INR (S n) / INR (S (S n)) * LegendrePolynomial n (lam i s t u - lam o s t u)))
       (vmul (phi1 o i s t u) (INR (2 * S (S n) - 1) / INR (S (S n)) * LegendrePolynomial (S n) (lam i s t u - lam o s t u))).
Lemma edge_high_curl : forall n o i x y z, has_curl (edge_high n o i) x y z
  (vsub (vadd (vmul (OuterProduct (dlam i) (dlam o)) (- INR (S n) / INR (S (S n)) * LegendrePolynomial n (lam i x y z - lam o x y z) * 2))
              (vmul (OuterProduct (vsub (dlam i) (dlam o)) (phi1 o i x y z))
                 (INR (2 * S (S n) - 1) / INR (S (S n)) * LegendrePolynomialDerivative (S n) (lam i x y z - lam o x y z))))
        (vmul (OuterProduct (vsub (dlam i) (dlam o)) (phi0 o i x y z))
                 (INR (S n) / INR (S (S n)) * LegendrePolynomialDerivative n (lam i x y z - lam o x y z)))).
Proof.
  intros n o i x y z. eapply has_curl_eq.
  - apply curl_plus; (apply curl_mult; [first [apply curl_phi0|apply curl_phi1]|repeat gradrule]).
  - cbv beta. generalize (LegendrePolynomial n (lam i x y z - lam o x y z)) (LegendrePolynomial (S n) (lam i x y z - lam o x y z))
      (LegendrePolynomialDerivative n (lam i x y z - lam o x y z)) (LegendrePolynomialDerivative (S n) (lam i x y z - lam o x y z)).
    intros P P' Q Q'. unfold Rdiv. set (c := INR (S n)). set (d := / INR (S (S n))). set (e := INR (2 * S (S n) - 1)).
    unfold phi0, phi1. abstract_grads. cbn [vadd vmul vsub OuterProduct]. apply triple_eq; ring.
Qed.
Lemma EdgeFace_curl_ok : forall n a b c x y z,
  has_curl (fun s t u => vmul (dlam c) (lam a s t u * lam b s t u * LegendrePolynomial n (lam b s t u - lam a s t u))) x y z
    (vadd (vmul (OuterProduct (dlam a) (dlam c))
             (lam b x y z * LegendrePolynomial n (lam b x y z - lam a x y z)
              - lam a x y z * lam b x y z * LegendrePolynomialDerivative n (lam b x y z - lam a x y z)))
          (vmul (OuterProduct (dlam b) (dlam c))
             (lam a x y z * LegendrePolynomial n (lam b x y z - lam a x y z)
              + lam a x y z * lam b x y z * LegendrePolynomialDerivative n (lam b x y z - lam a x y z)))).
Proof.
  intros. eapply has_curl_eq; [apply curl_scale; repeat gradrule|]. cbv beta.
  generalize (LegendrePolynomial n (lam b x y z - lam a x y z)) (LegendrePolynomialDerivative n (lam b x y z - lam a x y z)).
  intros P Q. abstract_grads. cbn [vadd vmul vsub OuterProduct]. apply triple_eq; ring.
Qed.
Definition bubble_field (w : vec) (d1 d2 a b c : nat) (s t u : R) : vec :=
  vmul w (lam a s t u * lam b s t u * lam c s t u * LegendrePolynomial d1 (lam b s t u - lam a s t u)
          * LegendrePolynomial d2 (lam c s t u - lam a s t u)).
Lemma bubble_field_ok : forall w d1 d2 a b c s t u, (a < 4)%nat -> (b < 4)%nat -> (c < 4)%nat ->
  bubble s t u w d1 d2 a b c = Some (bubble_field w d1 d2 a b c s t u).
Proof. intros. unfold bubble. rewrite !bary_lam by assumption. reflexivity. Qed.
Lemma bubble_curl_ok : forall w d1 d2 a b c x y z r, (a < 4)%nat -> (b < 4)%nat -> (c < 4)%nat ->
  bubble_curl x y z w d1 d2 a b c = Some r -> has_curl (bubble_field w d1 d2 a b c) x y z r.
Proof.
  intros w d1 d2 a b c x y z r Ha Hb Hc H. unfold bubble_curl in H. rewrite !bary_lam, !gradient_dlam in H by assumption.
  cbn [bind] in H. apply Some_inj in H. subst r.
  eapply has_curl_eq; [apply curl_scale; repeat gradrule|]. cbv beta.
  generalize (LegendrePolynomial d1 (lam b x y z - lam a x y z)) (LegendrePolynomialDerivative d1 (lam b x y z - lam a x y z))
    (LegendrePolynomial d2 (lam c x y z - lam a x y z)) (LegendrePolynomialDerivative d2 (lam c x y z - lam a x y z)).
  intros P Q P' Q'. abstract_grads. destruct w as [[w0 w1] w2]. cbn [vadd vmul vsub OuterProduct]. apply triple_eq; ring.
Qed.
Definition interior_field (w : vec) (d1 d2 d3 : nat) (s t u : R) : vec :=
  vmul w (lam 0 s t u * lam 1 s t u * lam 2 s t u * lam 3 s t u * LegendrePolynomial d1 (lam 1 s t u - lam 0 s t u)
          * LegendrePolynomial d2 (lam 2 s t u - lam 0 s t u) * LegendrePolynomial d3 (lam 3 s t u - lam 0 s t u)).
Lemma interior_curl_ok : forall w d1 d2 d3 k x y z r, direction_vector k = Some w ->
  InteriorAinsworthCoyle_curl x y z d1 d2 d3 k = Some r -> has_curl (interior_field w d1 d2 d3) x y z r.
Proof.
  intros w d1 d2 d3 k x y z r Hw H. unfold InteriorAinsworthCoyle_curl in H. rewrite !bary_lam, !gradient_dlam, Hw in H by lia.
  cbn [bind] in H. apply Some_inj in H. subst r.
  eapply has_curl_eq; [apply curl_scale; repeat gradrule|]. cbv beta.
  generalize (LegendrePolynomial d1 (lam 1 x y z - lam 0 x y z)) (LegendrePolynomialDerivative d1 (lam 1 x y z - lam 0 x y z))
    (LegendrePolynomial d2 (lam 2 x y z - lam 0 x y z)) (LegendrePolynomialDerivative d2 (lam 2 x y z - lam 0 x y z))
    (LegendrePolynomial d3 (lam 3 x y z - lam 0 x y z)) (LegendrePolynomialDerivative d3 (lam 3 x y z - lam 0 x y z)).
  intros P1 Q1 P2 Q2 P3 Q3. abstract_grads. destruct w as [[w0 w1] w2]. cbn [vadd vmul vsub OuterProduct]. apply triple_eq; ring.
Qed.

Lemma face_vertices_lt : forall d, let '(a, b, c) := face_vertices d in
  (a < 4 /\ b < 4 /\ c < 4 /\ a <> b /\ a <> c /\ b <> c /\ a <> d /\ b <> d /\ c <> d)%nat.
Proof. intros [|[|[|[|d]]]]; cbn; lia. Qed.
Lemma entries_inv : forall o c, entries o = Some c -> exists v, o = Some v /\ c = let '(a, b, d) := v in [a; b; d].
Proof. intros [[[a b] d]|] c H; [|discriminate]. cbn in H. exists (a, b, d). split; congruence. Qed.

Lemma curl_by_field : forall (E C : R -> R -> R -> option vec) G f,
  (forall s t u, curl_eval f [s; t; u] = entries (E s t u)) -> (forall s t u, evalCurl f [s; t; u] = entries (C s t u)) ->
  (forall s t u, E s t u = Some (G s t u)) ->
  (forall s t u r, C s t u = Some r -> has_curl G s t u r) ->
  forall x y z c, evalCurl f [x; y; z] = Some c -> is_curl (curl_eval f) [x; y; z] c.
Proof.
  intros E C G f HE HC HG H x y z c Hc. rewrite HC in Hc. apply entries_inv in Hc. destruct Hc as (v & Hv & ->).
  eapply is_curl_ext; [exact (curl_of_field E G x y z v HG (H _ _ _ _ Hv))|].
  intros q Hq. destruct q as [|a [|b [|e [|? ?]]]]; try discriminate. symmetry. apply HE.
Qed.

Lemma curl_3D : forall f x y z v c, curl_eval f [x; y; z] = Some v -> evalCurl f [x; y; z] = Some c ->
  is_curl (curl_eval f) [x; y; z] c.
Proof.
  intros f x y z v c Hv Hc. destruct f; try discriminate.
  - (* EdgeNedelec *)
    cbn [curl_eval] in Hv. apply entries_inv in Hv. destruct Hv as (w & Hw & _). unfold EdgeNedelec_eval in Hw. unbind Hw.
    apply whitney_inv in E. destruct E as [Hi Hj]. revert x y z Hc E0 E1. intros x y z Hc _ _. revert x y z c Hc.
    refine (curl_by_field (fun s t u => EdgeNedelec_eval s t u deg1 deg2 i j) (fun s t u => EdgeNedelec_curl s t u deg1 deg2 i j)
      (fun s t u => vmul (w_field i j s t u) (lam i s t u ^ deg1 * lam j s t u ^ deg2)) _ _ _ _ _); try reflexivity.
    + intros s t u. unfold EdgeNedelec_eval. rewrite whitney_field, !bary_lam by assumption. reflexivity.
    + intros s t u r Hr. unfold EdgeNedelec_curl in Hr. rewrite !bary_lam, !gradient_dlam in Hr by assumption.
      cbn [bind] in Hr. apply Some_inj in Hr. subst r. apply EdgeNedelec_curl_ok.
  - clear Hv. pose proof (face_vertices_lt d) as L. destruct (face_vertices d) as [[a b] e] eqn:Ef. destruct L as (La & Lb & Le & _). revert x y z c Hc.
    refine (curl_by_field (fun s t u => Face1Nedelec_eval s t u deg1 deg2 deg3 d) (fun s t u => Face1Nedelec_curl s t u deg1 deg2 deg3 d)
      (fun s t u => vmul (w_field a b s t u) (lam a s t u ^ deg1 * lam b s t u ^ deg2 * lam e s t u ^ (deg3 + 1))) _ _ _ _ _); try reflexivity.
    + intros s t u. unfold Face1Nedelec_eval. rewrite Ef. rewrite whitney_field, !bary_lam by assumption. reflexivity.
    + intros s t u r Hr. unfold Face1Nedelec_curl in Hr. rewrite Ef in Hr. rewrite !bary_lam, !gradient_dlam in Hr by assumption.
      cbn [bind] in Hr. apply Some_inj in Hr. subst r. apply Face1Nedelec_curl_ok.
  - clear Hv. pose proof (face_vertices_lt d) as L. destruct (face_vertices d) as [[a b] e] eqn:Ef. destruct L as (La & Lb & Le & _). revert x y z c Hc.
    refine (curl_by_field (fun s t u => Face2Nedelec_eval s t u deg1 deg2 deg3 d) (fun s t u => Face2Nedelec_curl s t u deg1 deg2 deg3 d)
      (fun s t u => vmul (w_field b e s t u) (lam a s t u ^ (deg1 + 1) * lam b s t u ^ deg2 * lam e s t u ^ deg3)) _ _ _ _ _); try reflexivity.
    + intros s t u. unfold Face2Nedelec_eval. rewrite Ef. rewrite whitney_field, !bary_lam by assumption. reflexivity.
    + intros s t u r Hr. unfold Face2Nedelec_curl in Hr. rewrite Ef in Hr. rewrite !bary_lam, !gradient_dlam in Hr by assumption.
      cbn [bind] in Hr. apply Some_inj in Hr. subst r. apply Face2Nedelec_curl_ok.
  - clear Hv. revert x y z c Hc.
    refine (curl_by_field (fun s t u => Interior1Nedelec_eval s t u deg1 deg2 deg3 deg4) (fun s t u => Interior1Nedelec_curl s t u deg1 deg2 deg3 deg4)
      (fun s t u => vmul (w_field 0 1 s t u) ((fun a b c d => a ^ deg1 * b ^ deg2 * c ^ (deg3 + 1) * d ^ (deg4 + 1)) (lam 0 s t u) (lam 1 s t u) (lam 2 s t u) (lam 3 s t u))) _ _ _ _ _); try reflexivity.
    intros s t u r Hr. unfold Interior1Nedelec_curl in Hr. rewrite !bary_lam, !gradient_dlam in Hr by lia.
    cbn [bind] in Hr. apply Some_inj in Hr. subst r.
    eapply has_curl_eq; [apply (InteriorNedelec_curl_ok deg3 deg4 deg1 deg2 0 1 2 3 s t u (fun a b c d => a ^ deg1 * b ^ deg2 * c ^ (deg3 + 1) * d ^ (deg4 + 1))); reflexivity|]. cbv beta.
    rewrite <- !Rmult_assoc. reflexivity.
  - clear Hv. revert x y z c Hc.
    refine (curl_by_field (fun s t u => Interior2Nedelec_eval s t u deg1 deg2 deg3 deg4) (fun s t u => Interior2Nedelec_curl s t u deg1 deg2 deg3 deg4)
      (fun s t u => vmul (w_field 1 2 s t u) ((fun b c a d => a ^ (deg1 + 1) * b ^ deg2 * c ^ deg3 * d ^ (deg4 + 1)) (lam 1 s t u) (lam 2 s t u) (lam 0 s t u) (lam 3 s t u))) _ _ _ _ _); try reflexivity.
    intros s t u r Hr. unfold Interior2Nedelec_curl in Hr. rewrite !bary_lam, !gradient_dlam in Hr by lia.
    cbn [bind] in Hr. apply Some_inj in Hr. subst r.
    eapply has_curl_eq; [apply (InteriorNedelec_curl_ok deg1 deg4 deg2 deg3 1 2 0 3 s t u (fun b c a d => a ^ (deg1 + 1) * b ^ deg2 * c ^ deg3 * d ^ (deg4 + 1))); intros; ring|]. cbv beta.
    unfold w_field. abstract_grads. cbn [vadd vmul vsub OuterProduct]. apply triple_eq; ring.
  - clear Hv. revert x y z c Hc.
    refine (curl_by_field (fun s t u => Interior3Nedelec_eval s t u deg1 deg2 deg3 deg4) (fun s t u => Interior3Nedelec_curl s t u deg1 deg2 deg3 deg4)
      (fun s t u => vmul (w_field 2 3 s t u) ((fun c d a b => a ^ (deg1 + 1) * b ^ (deg2 + 1) * c ^ deg3 * d ^ deg4) (lam 2 s t u) (lam 3 s t u) (lam 0 s t u) (lam 1 s t u))) _ _ _ _ _); try reflexivity.
    intros s t u r Hr. unfold Interior3Nedelec_curl in Hr. rewrite !bary_lam, !gradient_dlam in Hr by lia.
    cbn [bind] in Hr. apply Some_inj in Hr. subst r.
    eapply has_curl_eq; [apply (InteriorNedelec_curl_ok deg1 deg2 deg3 deg4 2 3 0 1 s t u (fun c d a b => a ^ (deg1 + 1) * b ^ (deg2 + 1) * c ^ deg3 * d ^ deg4)); intros; ring|]. cbv beta.
    unfold w_field. abstract_grads. cbn [vadd vmul vsub OuterProduct]. apply triple_eq; ring.
  - (* EdgeAinsworthCoyle *)
    cbn [curl_eval] in Hv. apply entries_inv in Hv. destruct Hv as (w & Hw & _). unfold EdgeAinsworthCoyle_eval in Hw. unbind Hw.
    apply gradient_inv in E, E0. destruct E as [Ho _], E0 as [Hi _]. clear E1 E2 Hw. revert x y z c Hc.
    refine (curl_by_field (fun s t u => EdgeAinsworthCoyle_eval s t u deg o i) (fun s t u => EdgeAinsworthCoyle_curl s t u deg o i)
      (match deg with O => phi0 o i | S O => phi1 o i | S (S n) => edge_high n o i end) _ _ _ _ _); try reflexivity.
    + intros s t u. unfold EdgeAinsworthCoyle_eval. rewrite !bary_lam, !gradient_dlam by assumption. cbn [bind].
      destruct deg as [|[|n]]; [reflexivity|reflexivity|]. f_equal.
      replace (S (S n) - 1)%nat with (S n) by lia. replace (S (S n) - 2)%nat with n by lia.
      unfold edge_high. f_equal. f_equal. unfold phi1.
      abstract_grads. cbn [vadd vmul vsub]. apply triple_eq; ring.
    + intros s t u r Hr. unfold EdgeAinsworthCoyle_curl in Hr. rewrite !bary_lam, !gradient_dlam in Hr by assumption. cbn [bind] in Hr.
      destruct deg as [|[|n]].
      * apply Some_inj in Hr. subst r. apply curl_phi0.
      * apply Some_inj in Hr. subst r. apply curl_phi1.
      * replace (S (S n) - 1)%nat with (S n) in Hr by lia. replace (S (S n) - 2)%nat with n in Hr by lia.
        apply Some_inj in Hr. subst r. eapply has_curl_eq; [apply edge_high_curl|].
        f_equal. f_equal. f_equal. unfold phi0. abstract_grads. cbn [vadd vmul vsub]. apply triple_eq; ring.
  - (* EdgeFace *)
    cbn [curl_eval] in Hv. apply entries_inv in Hv. destruct Hv as (w & Hw & _). unfold EdgeFaceAinsworthCoyle_eval in Hw.
    destruct (deg <? 2) eqn:Ed; [discriminate|]. destruct (edge_vertices opposing c0) as [a b] eqn:Ev. unbind Hw.
    apply gradient_inv in E. apply bary_inv in E0, E1. destruct E as [Hc0 _], E0 as [Ha _], E1 as [Hb _]. clear Hw. revert x y z c Hc.
    refine (curl_by_field (fun s t u => EdgeFaceAinsworthCoyle_eval s t u deg opposing c0) (fun s t u => EdgeFaceAinsworthCoyle_curl s t u deg opposing c0)
      (fun s t u => vmul (dlam c0) (lam a s t u * lam b s t u * LegendrePolynomial (deg - 2) (lam b s t u - lam a s t u))) _ _ _ _ _); try reflexivity.
    + intros s t u. unfold EdgeFaceAinsworthCoyle_eval. rewrite Ed, Ev, !bary_lam, !gradient_dlam by assumption. reflexivity.
    + intros s t u r Hr. unfold EdgeFaceAinsworthCoyle_curl in Hr. rewrite Ed, Ev, !bary_lam, !gradient_dlam in Hr by assumption.
      cbn [bind] in Hr. apply Some_inj in Hr. subst r. apply EdgeFace_curl_ok.
  - (* Face *)
    clear Hv. assert (exists a b e, directed_vertices opposing direction = (a, b, e) /\ (a < 4 /\ b < 4 /\ e < 4)%nat) as (a & b & e & Ef & La & Lb & Le).
    { unfold directed_vertices. pose proof (face_vertices_lt opposing) as L. destruct (face_vertices opposing) as [[a b] e]. destruct L as (La & Lb & Le & _).
      destruct (Nat.eqb direction 2); do 3 eexists; (split; [reflexivity|auto]). }
    revert x y z c Hc.
    refine (curl_by_field (fun s t u => FaceAinsworthCoyle_eval s t u deg1 deg2 opposing direction) (fun s t u => FaceAinsworthCoyle_curl s t u deg1 deg2 opposing direction)
      (bubble_field (face_direction a b) deg1 deg2 a b e) _ _ _ _ _); try reflexivity.
    + intros s t u. unfold FaceAinsworthCoyle_eval. rewrite Ef. apply bubble_field_ok; assumption.
    + intros s t u r Hr. unfold FaceAinsworthCoyle_curl in Hr. rewrite Ef in Hr. apply bubble_curl_ok; assumption.
  - cbn [curl_eval] in Hv. apply entries_inv in Hv. destruct Hv as (w & Hw & _). unfold FaceInteriorAinsworthCoyle_eval in Hw.
    pose proof (face_vertices_lt d) as L. destruct (face_vertices d) as [[a b] e] eqn:Ef. destruct L as (La & Lb & Le & _).
    apply bind_some in Hw. destruct Hw as (g & Eg & _). revert x y z c Hc.
    refine (curl_by_field (fun s t u => FaceInteriorAinsworthCoyle_eval s t u deg1 deg2 d) (fun s t u => FaceInteriorAinsworthCoyle_curl s t u deg1 deg2 d)
      (bubble_field g deg1 deg2 a b e) _ _ _ _ _); try reflexivity.
    + intros s t u. unfold FaceInteriorAinsworthCoyle_eval. rewrite Ef, Eg. apply bubble_field_ok; assumption.
    + intros s t u r Hr. unfold FaceInteriorAinsworthCoyle_curl in Hr. rewrite Ef, Eg in Hr. apply bubble_curl_ok; assumption.
  - cbn [curl_eval] in Hv. apply entries_inv in Hv. destruct Hv as (w & Hw & _). unfold InteriorAinsworthCoyle_eval in Hw.
    apply bind_some in Hw. destruct Hw as (g & Eg & _). revert x y z c Hc.
    refine (curl_by_field (fun s t u => InteriorAinsworthCoyle_eval s t u deg1 deg2 deg3 direction) (fun s t u => InteriorAinsworthCoyle_curl s t u deg1 deg2 deg3 direction)
      (interior_field g deg1 deg2 deg3) _ _ _ _ _); try reflexivity.
    + intros s t u. unfold InteriorAinsworthCoyle_eval. rewrite Eg. reflexivity.
    + intros s t u r Hr. exact (interior_curl_ok g deg1 deg2 deg3 direction s t u r Eg Hr).
Qed.

(** the functions on the triangle *)
Lemma entries2_inv : forall o c, entries2 o = Some c -> exists v, o = Some v /\ c = [fst v; snd v].
Proof. intros [[a b]|] c H; [|discriminate]. cbn in H. exists (a, b). split; [reflexivity|cbn; congruence]. Qed.
Lemma modulator_derivative_1 : forall m t v d, eval m [t] = Some v -> evalDeriv 0 m [t] = Some d ->
  exists g, (forall s, eval m [s] = Some (g s)) /\ derivable_pt_lim g t d /\ g t = v.
Proof.
  intros m t v d Hv Hd.
  destruct (derivatives m 0 [t] v d Hv Hd) as (g & Hg & D); [destruct m; try exact I; discriminate Hv|].
  exists g. unfold with_coordinate in Hg. cbn in Hg. split; [exact Hg|split; [exact D|]].
  specialize (Hg t). congruence.
Qed.
Lemma modulator_derivative_2 : forall m i x y v d, eval m [x; y] = Some v -> evalDeriv i m [x; y] = Some d ->
  is_partial_derivative (eval m) i [x; y] d.
Proof. intros m i x y v d Hv Hd. apply (derivatives m i _ v d Hv Hd). destruct m; try exact I; discriminate Hv. Qed.

Lemma curl_2D : forall f x y v c, curl_eval f [x; y] = Some v -> evalCurl f [x; y] = Some c -> is_curl (curl_eval f) [x; y] c.
Proof.
  intros f x y v c Hv Hc. destruct f; try discriminate; cbn [curl_eval evalCurl] in Hv, Hc;
    apply entries2_inv in Hv, Hc; destruct Hv as (w & Hw & _), Hc as (r & Hr & ->).
  - unfold EdgeNedelec2D_eval in Hw. unbind Hw. clear Hw. unfold EdgeNedelec2D_curl in Hr. unbind Hr.
    rewrite E in E0. apply Some_inj in E0. subst l0.
    destruct (modulator_derivative_1 modulator _ _ _ E E1) as (g & Hg & D & Hgt). clear E E1.
    assert (forall k s t, (k < 2)%nat -> component (curl_eval (EdgeNedelec2D side modulator)) k [s; t]
      = Some ((if Nat.eqb k 0 then fst (sideFunction side s t) else snd (sideFunction side s t)) * g (modulatorCoord side s t))) as HF.
    { intros k s t Hk. unfold component. cbn [curl_eval]. unfold EdgeNedelec2D_eval. rewrite Hg. cbn.
      destruct k as [|[|k]]; [reflexivity|reflexivity|lia]. }
    set (S0 := fun s t => fst (sideFunction side s t)) in *. set (S1 := fun s t => snd (sideFunction side s t)) in *.
    exists (fun k i => match side with
      | O => match k, i with O, O => (y - 1) * l1 | O, _ => l | _, O => - l - x * l1 | _, _ => 0 end
      | S O => match k, i with O, O => 0 | O, _ => l + y * l1 | _, O => - l | _, _ => - x * l1 end
      | _ => match k, i with O, O => 0 | O, _ => l - y * l1 | _, O => - l | _, _ => - (1 - x) * l1 end
      end).
    split; [|left; split; [reflexivity|]].
    + intros k i Hk Hi. cbn [length] in Hk, Hi.
      destruct k as [|[|k]]; [| |lia]; (destruct i as [|[|i]]; [| |lia]);
        (eexists; split; [intros s; unfold with_coordinate; cbn [firstn skipn app]; apply HF; lia|]); cbn [Nat.eqb nth];
        unfold S0, S1; destruct side as [|[|side]]; cbn [sideFunction modulatorCoord fst snd] in D, Hgt |- *;
        try (eapply D_eq; [repeat first [derive_rule | exact D]|rewrite ?Hgt; ring]).
      * eapply D_eq; [apply (D_mult (fun s => s) (fun s => g (1 - s))); [apply D_id|
          apply (derivable_pt_lim_comp (fun s => 1 - s) g y (-1) l1); [eapply D_eq; [repeat derive_rule|lra]|exact D]]|].
        cbv beta. rewrite Hgt. ring.
      * eapply D_eq; [apply (D_mult (fun _ => 1 - x) (fun s => g (1 - s))); [apply D_const|
          apply (derivable_pt_lim_comp (fun s => 1 - s) g y (-1) l1); [eapply D_eq; [repeat derive_rule|lra]|exact D]]|].
        cbv beta. rewrite Hgt. ring.
    + apply Some_inj in Hr. subst r. destruct side as [|[|side]]; cbn [sideFunction fst snd]; f_equal; ring.
  - unfold InteriorNedelec2D_eval in Hw. unbind Hw. clear Hw. unfold InteriorNedelec2D_curl in Hr.
    destruct (match type with O => (1 - 2 * x, x) | S _ => (y, 1 - 2 * y) end) as [fydx fxdy] eqn:Et.
    unbind Hr. rewrite E in E0. apply Some_inj in E0. subst l0.
    destruct (modulator_derivative_2 modulator 0 _ _ _ _ E E1) as (g0 & Hg0 & D0).
    destruct (modulator_derivative_2 modulator 1 _ _ _ _ E E2) as (g1 & Hg1 & D1).
    unfold with_coordinate in Hg0, Hg1. cbn in Hg0, Hg1, D0, D1.
    assert (g0 x = l) as V0 by (specialize (Hg0 x); congruence). assert (g1 y = l) as V1 by (specialize (Hg1 y); congruence).
    exists (fun k i => match type with
      | O => match k, i with O, O => y * l + y * x * l1 | O, _ => x * l + y * x * l2 | _, O => (1 - 2 * x) * l + (1 - x) * x * l1 | _, _ => (1 - x) * x * l2 end
      | _ => match k, i with O, O => (1 - y) * y * l1 | O, _ => (1 - 2 * y) * l + (1 - y) * y * l2 | _, O => y * l + x * y * l1 | _, _ => x * l + x * y * l2 end
      end).
    split; [|left; split; [reflexivity|]].
    + intros k i Hk Hi. cbn [length] in Hk, Hi.
      destruct k as [|[|k]]; [| |lia]; (destruct i as [|[|i]]; [| |lia]);
        (eexists; split; [intros s; unfold with_coordinate, component; cbn [firstn skipn app curl_eval]; unfold InteriorNedelec2D_eval;
           rewrite ?Hg0, ?Hg1; cbn; reflexivity|]); cbn [nth];
        destruct type as [|type]; cbn [typePart fst snd];
        (eapply D_eq; [repeat first [derive_rule | exact D0 | exact D1]|cbv beta; rewrite ?V0, ?V1; ring]).
    + apply Some_inj in Hr. subst r. destruct type as [|type]; injection Et as <- <-; cbn [typePart fst snd]; f_equal; ring.
Qed.

Theorem curls : forall f p v c, curl_eval f p = Some v -> evalCurl f p = Some c -> is_curl (curl_eval f) p c.
Proof.
  intros f p v c Hv Hc. destruct p as [|x [|y [|z [|? ?]]]].
  - destruct f; discriminate.
  - destruct f; discriminate.
  - exact (curl_2D f x y v c Hv Hc).
  - exact (curl_3D f x y z v c Hv Hc).
  - destruct f; discriminate.
Qed.
