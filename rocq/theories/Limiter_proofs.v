(** Proofs about the limiters: quadrature, projection, the height limiters. *)
From Coq Require Import List Arith Reals Lra Lia Bool.
From Verif Require Import Quadrature_spec QuadIntegral_proofs Limiter_model Limiter_spec.
Import ListNotations.
Local Open Scope R_scope.

Lemma ltb_true : forall x y, ltb x y = true <-> x < y.
Proof. intros x y. unfold ltb. destruct (Rlt_dec x y); split; congruence || tauto. Qed.
Lemma ltb_false : forall x y, ltb x y = false <-> y <= x.
Proof. intros x y. unfold ltb. destruct (Rlt_dec x y); split; intros; try lra; congruence. Qed.

(** ** quadrature *)
Definition wsum (l : list (R * R)) (f : R -> R) : R := rsum (map (fun q => fst q * f (snd q)) l).

Lemma wsum_lin : forall l f g a b, wsum l (fun x => a * f x + b * g x) = a * wsum l f + b * wsum l g.
Proof. intros l f g a b. unfold wsum. induction l as [|q l IH]; simpl; [ring|]. rewrite IH. ring. Qed.
Lemma wsum_ext : forall l f g, (forall q, In q l -> f (snd q) = g (snd q)) -> wsum l f = wsum l g.
Proof.
  intros l f g H. unfold wsum. induction l as [|q l IH]; simpl; [reflexivity|].
  rewrite IH, (H q) by (intros; try apply H; simpl; auto). reflexivity.
Qed.
Lemma wsum_zero : forall l, wsum l (fun _ => 0) = 0.
Proof. intro l. unfold wsum. induction l as [|q l IH]; simpl; [reflexivity|]. rewrite IH. ring. Qed.

Lemma integrate_wsum : forall e f, integrate e f = Rabs (jacobian e) * wsum (quadratureRule e) f.
Proof.
  intros e f. unfold integrate, wsum. induction (quadratureRule e) as [|q l IH]; simpl; [ring|]. rewrite IH. ring.
Qed.
Lemma jacobian_abs : forall e, Rabs (jacobian e) = Rabs (node1 e - node0 e) / 2.
Proof. intro e. unfold jacobian. unfold Rdiv. rewrite Rabs_mult, (Rabs_pos_eq (/ 2)) by lra. reflexivity. Qed.
Lemma jacobian_pos : forall e, node0 e <> node1 e -> 0 < Rabs (node1 e - node0 e).
Proof. intros e H. apply Rabs_pos_lt. lra. Qed.

Lemma averageOf_wsum : forall e cs, node0 e <> node1 e -> averageOf e cs = wsum (quadratureRule e) (expand (basisFunctions e) cs) / 2.
Proof.
  intros e cs H. unfold averageOf. rewrite integrate_wsum, jacobian_abs. assert (P := jacobian_pos e H). field. lra.
Qed.

Lemma expand_newton : forall rule bs cs,
  Forall (fun b => newton b (-1) 1 (rsum (map (fun q => fst q * b (snd q)) rule))) bs ->
  newton (expand bs cs) (-1) 1 (wsum rule (expand bs cs)).
Proof.
  intros rule bs cs H. revert cs. induction H as [|b bs Hb H IH]; intros cs.
  - simpl. rewrite wsum_zero. exists (fun _ => 0). split; [|ring]. intros. apply derivable_pt_lim_const.
  - destruct cs as [|c cs].
    + simpl. rewrite wsum_zero. exists (fun _ => 0). split; [|ring]. intros. apply derivable_pt_lim_const.
    + eapply newton_ext; [apply (newton_lin b (expand bs cs) (-1) 1 _ _ c 1 Hb (IH cs))| |].
      * intros x _. simpl. ring.
      * fold (wsum rule b). rewrite <- wsum_lin. apply wsum_ext. intros q _. simpl. ring.
Qed.

Lemma average_mean : forall e cs, regular e -> mean (expand (basisFunctions e) cs) (averageOf e cs).
Proof.
  intros e cs [N [_ [X _]]]. unfold mean. rewrite averageOf_wsum by assumption.
  replace (2 * (wsum (quadratureRule e) (expand (basisFunctions e) cs) / 2)) with (wsum (quadratureRule e) (expand (basisFunctions e) cs)) by field.
  apply expand_newton. assumption.
Qed.
Lemma mean_unique : forall f m m', mean f m -> mean f m' -> m = m'.
Proof. intros f m m' A B. unfold mean in *. assert (2 * m = 2 * m') by (eapply newton_unique; eauto; lra). lra. Qed.
Lemma mean_ext : forall f g m, (forall x, f x = g x) -> mean f m -> mean g m.
Proof. intros f g m H M. unfold mean in *. eapply newton_ext; eauto. Qed.

Lemma spanned_wsum : forall e f, regular e -> spanned e f -> newton f (-1) 1 (wsum (quadratureRule e) f).
Proof.
  intros e f [_ [_ [X _]]] [cs [L E]].
  eapply newton_ext; [apply (expand_newton _ _ cs X)| |]; [intros; apply E|apply wsum_ext; intros; apply E].
Qed.
Lemma wsum_one : forall e, regular e -> wsum (quadratureRule e) (fun _ => 1) = 2.
Proof.
  intros e H. apply (newton_unique (fun _ => 1) (-1) 1); [lra|apply spanned_wsum; [assumption|apply H]|].
  exists (fun x => x). split; [|ring]. intros. apply derivable_pt_lim_id.
Qed.
Lemma wsum_id : forall e, regular e -> wsum (quadratureRule e) (fun x => x) = 0.
Proof.
  intros e H. apply (newton_unique (fun x => x) (-1) 1); [lra|apply spanned_wsum; [assumption|apply H]|].
  exists (fun x => x * x / 2). split; [|field]. intros x _.
  replace x with ((1 * x + x * 1) / 2) at 2 by field.
  apply (derivable_pt_lim_scal_right (fun x => x * x) x (1 * x + x * 1) (/ 2)).
  apply (derivable_pt_lim_mult (fun x => x) (fun x => x)); apply derivable_pt_lim_id.
Qed.
Lemma wsum_affine : forall e a b, regular e -> wsum (quadratureRule e) (fun x => a + b * x) = 2 * a.
Proof.
  intros e a b H. rewrite (wsum_ext _ _ (fun x => a * 1 + b * x)) by (intros; ring).
  rewrite (wsum_lin _ (fun _ => 1) (fun x => x)), wsum_one, wsum_id by assumption. ring.
Qed.

(** ** projection *)
Lemma dot_expand : forall e bs bi cs,
  dot (map (fun bj => integrate e (fun x => bj x * bi x)) bs) cs = integrate e (fun x => expand bs cs x * bi x).
Proof.
  intros e bs bi. induction bs as [|b bs IH]; intros cs.
  - simpl. rewrite integrate_wsum, (wsum_ext _ _ (fun _ => 0)), wsum_zero by (intros; simpl; ring). ring.
  - destruct cs as [|c cs]; simpl.
    + rewrite integrate_wsum, (wsum_ext _ _ (fun _ => 0)), wsum_zero by (intros; simpl; ring). ring.
    + rewrite IH, !integrate_wsum.
      rewrite (wsum_ext _ (fun x => (b x * c + expand bs cs x) * bi x) (fun x => c * (b x * bi x) + 1 * (expand bs cs x * bi x))) by (intros; ring).
      rewrite (wsum_lin _ (fun x => b x * bi x) (fun x => expand bs cs x * bi x)). ring.
Qed.

Lemma projection_length : forall solve e f, solves solve e -> length (projectOnBasisFuns solve e f) = length (basisFunctions e).
Proof. intros solve e f S. apply S. apply map_length. Qed.

Lemma projection_basis : forall solve e f bi, regular e -> solves solve e -> In bi (basisFunctions e) ->
  wsum (quadratureRule e) (fun x => expand (basisFunctions e) (projectOnBasisFuns solve e f) x * bi x) = wsum (quadratureRule e) (fun x => f x * bi x).
Proof.
  intros solve e f bi R S I. destruct (S (map (fun bi => integrate e (fun x => f x * bi x)) (basisFunctions e)) (map_length _ _)) as [_ E].
  unfold massMatrix in E at 2. rewrite map_map in E. assert (E' := ext_in_map E bi I). cbv beta in E'.
  rewrite dot_expand, !integrate_wsum in E'. fold (projectOnBasisFuns solve e f) in E'.
  assert (P : 0 < Rabs (jacobian e)) by (rewrite jacobian_abs; assert (X := jacobian_pos e (proj1 R)); lra).
  apply Rmult_eq_reg_l in E'; [exact E'|lra].
Qed.

Lemma projection_span : forall solve e f cs, regular e -> solves solve e ->
  wsum (quadratureRule e) (fun x => expand (basisFunctions e) (projectOnBasisFuns solve e f) x * expand (basisFunctions e) cs x) =
  wsum (quadratureRule e) (fun x => f x * expand (basisFunctions e) cs x).
Proof.
  intros solve e f cs R S. assert (H := fun bi => projection_basis solve e f bi R S). revert cs.
  set (p := expand (basisFunctions e) (projectOnBasisFuns solve e f)) in *. clearbody p.
  induction (basisFunctions e) as [|b bs IH]; intros cs.
  - simpl. apply wsum_ext. intros; ring.
  - destruct cs as [|c cs]; [simpl; apply wsum_ext; intros; ring|]. simpl.
    rewrite (wsum_ext _ (fun x => p x * (b x * c + expand bs cs x)) (fun x => c * (p x * b x) + 1 * (p x * expand bs cs x))) by (intros; ring).
    rewrite (wsum_ext _ (fun x => f x * (b x * c + expand bs cs x)) (fun x => c * (f x * b x) + 1 * (f x * expand bs cs x))) by (intros; ring).
    rewrite (wsum_lin _ (fun x => p x * b x) (fun x => p x * expand bs cs x)), (wsum_lin _ (fun x => f x * b x) (fun x => f x * expand bs cs x)).
    rewrite H by (left; reflexivity). rewrite IH by (intros; apply H; right; assumption). reflexivity.
Qed.

Lemma projection_average : forall solve e f, regular e -> solves solve e ->
  averageOf e (projectOnBasisFuns solve e f) = wsum (quadratureRule e) f / 2.
Proof.
  intros solve e f R S. destruct (proj1 (proj2 (proj2 (proj2 R)))) as [ones [L E]].
  assert (H := projection_span solve e f ones R S). rewrite averageOf_wsum by apply R.
  rewrite (wsum_ext _ _ (expand (basisFunctions e) (projectOnBasisFuns solve e f))) in H by (intros; rewrite E; ring).
  rewrite H. f_equal. apply wsum_ext. intros. rewrite E. ring.
Qed.

Lemma wsum_square : forall l f, Forall (fun q => 0 < fst q) l -> wsum l (fun x => f x * f x) = 0 -> forall q, In q l -> f (snd q) = 0.
Proof.
  intros l f H E. assert (P : 0 <= wsum l (fun x => f x * f x)).
  { clear E. induction H as [|q l Hq H IH]; unfold wsum in *; simpl; [lra|]. assert (0 <= fst q * (f (snd q) * f (snd q))); [|lra].
    apply Rmult_le_pos; [lra|apply Rle_0_sqr]. }
  induction H as [|q l Hq H IH]; [intros q []|].
  assert (P' : 0 <= wsum l (fun x => f x * f x)).
  { clear - H. induction H as [|q l Hq H IH]; unfold wsum in *; simpl; [lra|]. assert (0 <= fst q * (f (snd q) * f (snd q))); [|lra].
    apply Rmult_le_pos; [lra|apply Rle_0_sqr]. }
  unfold wsum in E, P, P'. simpl in E, P. assert (Q : 0 <= fst q * (f (snd q) * f (snd q))) by (apply Rmult_le_pos; [lra|apply Rle_0_sqr]).
  intros q' [<-|I].
  - assert (Z : fst q * (f (snd q) * f (snd q)) = 0) by lra. apply Rmult_integral in Z. destruct Z as [Z|Z]; [lra|]. apply Rsqr_0_uniq. exact Z.
  - apply IH; auto. unfold wsum. lra.
Qed.

Lemma expand_sub : forall bs cs ds x, length cs = length bs -> length ds = length bs ->
  expand bs (map (fun t => fst t - snd t) (combine cs ds)) x = expand bs cs x - expand bs ds x.
Proof.
  induction bs as [|b bs IH]; intros [|c cs] [|d ds] x L M; simpl in *; try discriminate; [ring|].
  rewrite IH by lia. ring.
Qed.

Lemma projection_exact : forall solve e f, regular e -> determined e -> solves solve e -> spanned e f ->
  forall x, expand (basisFunctions e) (projectOnBasisFuns solve e f) x = f x.
Proof.
  intros solve e f R [W D] S [fs [L E]] x. set (p := projectOnBasisFuns solve e f).
  assert (Lp : length p = length (basisFunctions e)) by (apply projection_length; assumption).
  set (ds := map (fun t => fst t - snd t) (combine p fs)).
  assert (X : forall x, expand (basisFunctions e) ds x = expand (basisFunctions e) p x - f x).
  { intro y. unfold ds. rewrite expand_sub, E by assumption. reflexivity. }
  assert (Z := projection_span solve e f ds R S). fold p in Z.
  assert (Q : wsum (quadratureRule e) (fun x => (expand (basisFunctions e) p x - f x) * (expand (basisFunctions e) p x - f x)) = 0).
  { rewrite (wsum_ext _ _ (fun x => 1 * (expand (basisFunctions e) p x * expand (basisFunctions e) ds x) + -1 * (f x * expand (basisFunctions e) ds x)))
      by (intros; rewrite X; ring).
    rewrite (wsum_lin _ (fun x => expand (basisFunctions e) p x * expand (basisFunctions e) ds x) (fun x => f x * expand (basisFunctions e) ds x)), Z. ring. }
  assert (V := wsum_square _ (fun x => expand (basisFunctions e) p x - f x) W Q).
  assert (Y : expand (basisFunctions e) ds x = 0).
  { apply D.
    - unfold ds. rewrite map_length, combine_length. lia.
    - intros q I. rewrite X. apply V. assumption. }
  rewrite X in Y. lra.
Qed.

Lemma spanned_affine : forall e a b, regular e -> spanned e (fun x => a + b * x).
Proof.
  intros e a b [_ [_ [_ [[us [U1 U2]] [xs [X1 X2]]]]]].
  exists (map (fun t => a * fst t + b * snd t) (combine us xs)). split; [rewrite map_length, combine_length; lia|].
  intro x. replace (a + b * x) with (a * expand (basisFunctions e) us x + b * expand (basisFunctions e) xs x) by (rewrite U2, X2; ring).
  clear U2 X2. revert us xs U1 X1. induction (basisFunctions e) as [|f bs IH]; intros [|u us] [|v xs] U1 X1; simpl in *; try discriminate; [ring|].
  rewrite IH by lia. ring.
Qed.
Lemma spanned_const : forall e a, regular e -> spanned e (fun _ => a).
Proof.
  intros e a H. destruct (spanned_affine e a 0 H) as [cs [L E]]. exists cs. split; [assumption|]. intro x. rewrite E. ring.
Qed.
Lemma spanned_squeeze : forall e cs a b, regular e -> length cs = length (basisFunctions e) ->
  spanned e (fun x => a + b * (expand (basisFunctions e) cs x - a)).
Proof.
  intros e cs a b H L. destruct (spanned_const e (a - b * a) H) as [us [U1 U2]].
  exists (map (fun t => fst t + b * snd t) (combine us cs)). split; [rewrite map_length, combine_length; lia|].
  intro x. replace (a + b * (expand (basisFunctions e) cs x - a)) with ((a - b * a) + b * expand (basisFunctions e) cs x) by ring. rewrite <- (U2 x).
  clear U2 H. revert us cs U1 L. induction (basisFunctions e) as [|f bs IH]; intros [|u us] [|v xs] U1 L; simpl in *; try discriminate; [ring|].
  rewrite IH by lia. ring.
Qed.

(** ** storing coefficients *)
Lemma replace_nth : forall A (l l' : list A) i a j, replace l i a = Some l' -> nth_error l' j = if Nat.eqb j i then Some a else nth_error l j.
Proof.
  induction l as [|x l IH]; intros l' i a j H; simpl in H; [discriminate|]. destruct i as [|i].
  - inversion H; subst. destruct j; reflexivity.
  - destruct (replace l i a) as [l''|] eqn:E; simpl in H; [|discriminate]. inversion H; subst. destruct j; simpl; [reflexivity|]. apply IH. assumption.
Qed.
Lemma replace_length : forall A (l l' : list A) i a, replace l i a = Some l' -> length l' = length l.
Proof.
  induction l as [|x l IH]; intros l' i a H; simpl in H; [discriminate|]. destruct i as [|i].
  - inversion H; reflexivity.
  - destruct (replace l i a) eqn:E; simpl in H; [|discriminate]. inversion H; simpl. f_equal. eauto.
Qed.
Lemma replace_some : forall A (l : list A) i a, (i < length l)%nat -> exists l', replace l i a = Some l'.
Proof.
  induction l as [|x l IH]; intros i a H; simpl in H; [lia|]. destruct i as [|i]; simpl; [eauto|].
  destruct (IH i a ltac:(lia)) as [l' ->]. simpl. eauto.
Qed.
Lemma replace_Forall : forall A (P : A -> Prop) l l' i a, Forall P l -> P a -> replace l i a = Some l' -> Forall P l'.
Proof.
  induction l as [|x l IH]; intros l' i a H Ha E; simpl in E; [discriminate|]. inversion H; subst. destruct i as [|i].
  - inversion E; subst. constructor; assumption.
  - destruct (replace l i a) eqn:E'; simpl in E; [|discriminate]. inversion E; subst. constructor; eauto.
Qed.

Lemma set_shape : forall e var cs e', setCoefficients e var cs = Some e' -> same_shape e e'.
Proof. unfold setCoefficients. intros e var cs e' H. destruct (replace _ _ _); simpl in H; [|discriminate]. inversion H; subst. repeat split. Qed.
Lemma set_nth : forall e var cs e' v, setCoefficients e var cs = Some e' ->
  nth_error (coefficients e') v = if Nat.eqb v var then Some cs else nth_error (coefficients e) v.
Proof.
  unfold setCoefficients. intros e var cs e' v H. destruct (replace _ _ _) eqn:E; simpl in H; [|discriminate]. inversion H; subst. simpl. eapply replace_nth; eauto.
Qed.
Lemma same_refl : forall e, same_shape e e.
Proof. repeat split. Qed.
Lemma same_trans : forall a b c, same_shape a b -> same_shape b c -> same_shape a c.
Proof. unfold same_shape. intuition congruence. Qed.

Lemma same_averageOf : forall e e' cs, same_shape e e' -> averageOf e' cs = averageOf e cs.
Proof. intros e e' cs [_ [B [Q [N M]]]]. unfold averageOf, integrate, jacobian. rewrite B, Q, N, M. reflexivity. Qed.
Lemma same_spanned : forall e e' f, same_shape e e' -> spanned e f -> spanned e' f.
Proof. intros e e' f [_ [B _]] H. unfold spanned in *. rewrite B. exact H. Qed.
Lemma same_regular : forall e e', same_shape e e' -> Forall (fun cs => length cs = length (basisFunctions e)) (coefficients e') -> regular e -> regular e'.
Proof.
  intros e e' S F R. assert (S' := S). destruct S' as [_ [B [Q [N M]]]]. destruct R as [R1 [_ [R2 [R3 R4]]]].
  unfold regular. rewrite B, Q, N, M. repeat split; try assumption; eapply same_spanned; eauto.
Qed.
Lemma same_determined : forall e e', same_shape e e' -> determined e -> determined e'.
Proof. intros e e' [_ [B [Q _]]] H. unfold determined in *. rewrite B, Q. exact H. Qed.
Lemma same_mass : forall e e', same_shape e e' -> massMatrix e' = massMatrix e.
Proof. intros e e' [_ [B [Q [N M]]]]. unfold massMatrix, integrate, jacobian. rewrite B, Q, N, M. reflexivity. Qed.
Lemma same_solves : forall solve e e', same_shape e e' -> solves solve e -> solves solve e'.
Proof. intros solve e e' S H. unfold solves in *. rewrite (same_mass e e' S). destruct S as [_ [-> _]]. exact H. Qed.
Lemma same_project : forall solve e e' f, same_shape e e' -> projectOnBasisFuns solve e' f = projectOnBasisFuns solve e f.
Proof.
  intros solve e e' f S. unfold projectOnBasisFuns. rewrite (same_mass e e' S). destruct S as [_ [B [Q [N M]]]]. unfold integrate, jacobian. rewrite B, Q, N, M. reflexivity.
Qed.
Lemma set_regular : forall e var cs e', regular e -> length cs = length (basisFunctions e) -> setCoefficients e var cs = Some e' -> regular e'.
Proof.
  intros e var cs e' R L H. eapply same_regular; [eapply set_shape; eauto| |exact R].
  unfold setCoefficients in H. destruct (replace _ _ _) eqn:E; simpl in H; [|discriminate]. inversion H; subst. simpl.
  eapply replace_Forall; [apply R| |exact E]. assumption.
Qed.

Lemma set_keeps : forall e var cs e' v, v <> var -> setCoefficients e var cs = Some e' -> nth_error (coefficients e') v = nth_error (coefficients e) v.
Proof. intros e var cs e' v N H. rewrite (set_nth _ _ _ _ v H). apply Nat.eqb_neq in N. rewrite N. reflexivity. Qed.

(** means in terms of averages *)
Lemma keeps_by_average : forall e e' var, regular e -> same_shape e e' ->
  (forall cs cs', nth_error (coefficients e) var = Some cs -> nth_error (coefficients e') var = Some cs' -> averageOf e cs' = averageOf e cs) ->
  keeps_mean e e' var.
Proof.
  intros e e' var R S H f f' m [cs [C ->]] [cs' [C' ->]] M.
  rewrite (mean_unique _ _ _ M (average_mean e cs R)), <- (H cs cs' C C').
  destruct (proj2 S) as [-> _]. apply average_mean. assumption.
Qed.
Lemma keeps_same_coefficients : forall e e' var, regular e -> same_shape e e' -> nth_error (coefficients e') var = nth_error (coefficients e) var -> keeps_mean e e' var.
Proof. intros e e' var R S H. apply keeps_by_average; try assumption. intros cs cs' A B. congruence. Qed.
Lemma keeps_refl : forall e var, regular e -> keeps_mean e e var.
Proof. intros. apply keeps_same_coefficients; auto. apply same_refl. Qed.
Lemma averageOf_project : forall solve e f cs, regular e -> solves solve e ->
  wsum (quadratureRule e) f = wsum (quadratureRule e) (expand (basisFunctions e) cs) -> averageOf e (projectOnBasisFuns solve e f) = averageOf e cs.
Proof. intros solve e f cs R S H. rewrite projection_average by assumption. rewrite averageOf_wsum by apply R. rewrite H. reflexivity. Qed.
Lemma averageOf_project_affine : forall solve e a b, regular e -> solves solve e -> averageOf e (projectOnBasisFuns solve e (fun x => a + b * x)) = a.
Proof. intros. rewrite projection_average, wsum_affine by assumption. field. Qed.
Lemma averageOf_project_const : forall solve e a, regular e -> solves solve e -> averageOf e (projectOnBasisFuns solve e (fun _ => a)) = a.
Proof.
  intros. rewrite projection_average, (wsum_ext _ _ (fun x => a + 0 * x)), wsum_affine by (intros; try assumption; ring). field.
Qed.

(** the averages that the limiters compute *)
Lemma compute_nth : forall e a var v, computeAverageOfSolution e = Some a -> nth_error a var = Some v ->
  exists cs, nth_error (coefficients e) var = Some cs /\ v = averageOf e cs.
Proof.
  unfold computeAverageOfSolution. intros e a var v H N. destruct (nth_error (map _ _) 0); simpl in H; [|discriminate].
  destruct (ltb _ _); [|discriminate]. inversion H; subst. rewrite nth_error_map in N.
  destruct (nth_error (coefficients e) var) as [cs|]; [|discriminate]. inversion N. eauto.
Qed.

(** the minimum over the checked points *)
Lemma fold_min : forall (h : R -> R) l m, let r := fold_left (fun minimum x => Rmin minimum (h x)) l m in
  r <= m /\ (forall x, In x l -> r <= h x) /\ (r = m \/ exists x, In x l /\ r = h x).
Proof.
  intros h. induction l as [|y l IH]; intros m; simpl; [repeat split; auto; [lra|tauto]|].
  destruct (IH (Rmin m (h y))) as [A [B C]]. repeat split.
  - eapply Rle_trans; [exact A|apply Rmin_l].
  - intros x [->|I]; auto. eapply Rle_trans; [exact A|apply Rmin_r].
  - destruct C as [C|[x [I C]]]; [|right; exists x; split; [right; exact I|exact C]]. rewrite C. destruct (Rle_dec m (h y)) as [L|L].
    + left. apply Rmin_left. exact L.
    + right. exists y. split; [left; reflexivity|]. apply Rmin_right. lra.
Qed.
Lemma minimum_ok : forall e m hs, getMinimumHeight e = Some m -> nth_error (coefficients e) 0 = Some hs ->
  (forall x, In x (checkedPoints e) -> m <= expand (basisFunctions e) hs x) /\ exists x, In x (checkedPoints e) /\ m = expand (basisFunctions e) hs x.
Proof.
  unfold getMinimumHeight. intros e m hs H N. rewrite N in H. cbn [bind] in H.
  assert (M : m = fold_left (fun minimum x => Rmin minimum (expand (basisFunctions e) hs x)) (pRefR :: map snd (quadratureRule e)) (expand (basisFunctions e) hs pRefL)) by congruence.
  destruct (fold_min (expand (basisFunctions e) hs) (pRefR :: map snd (quadratureRule e)) (expand (basisFunctions e) hs pRefL)) as [A [B C]].
  rewrite <- M in A, B, C. unfold checkedPoints. cbn [app].
  split; [intros x [<-|I]; auto|]. destruct C as [C|[x [I C]]]; [exists pRefL; simpl; auto|exists x; simpl in *; tauto].
Qed.
