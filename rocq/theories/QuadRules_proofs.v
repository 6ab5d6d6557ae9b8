(** The registered rules: points, accuracy, selection. *)
From Coq Require Import List Arith NArith ZArith Reals Lra Lia Bool Sorted.
From Verif Require Import RefGeometry_model Quadrature_model Quadrature_spec QuadIntegral_proofs QuadInterval_proofs Quadrature_proofs.
Import ListNotations.
Local Open Scope R_scope.

(** ** the points are in the reference element *)
Definition lowI (i : itv) (c : Z) : bool := (c * scale <=? fst i)%Z.
Definition highI (i : itv) (c : Z) : bool := (snd i <=? c * scale)%Z.
Definition internalI (s : shape) (p : list itv) : bool :=
  match s, p with
  | Point, [] => true
  | Line, [x] => lowI x (-1) && highI x 1
  | Square, [x; y] => lowI x (-1) && highI x 1 && lowI y (-1) && highI y 1
  | Cube, [x; y; z] => lowI x (-1) && highI x 1 && lowI y (-1) && highI y 1 && lowI z (-1) && highI z 1
  | Hypercube, [x; y; z; t] =>
      lowI x (-1) && highI x 1 && lowI y (-1) && highI y 1 && lowI z (-1) && highI z 1 && lowI t (-1) && highI t 1
  | Triangle, [x; y] => lowI x 0 && highI x 1 && lowI y 0 && highI (addI x y) 1
  | Tetrahedron, [x; y; z] => lowI x 0 && highI x 1 && lowI y 0 && highI (addI x y) 1 && lowI z 0 && highI (addI (addI x y) z) 1
  | Pyramid, [x; y; z] => lowI z 0 && highI z 1 && highI (addI x z) 1 && highI (addI (negI x) z) 1 && highI (addI y z) 1 && highI (addI (negI y) z) 1
  | TriangularPrism, [x; y; z] => lowI z (-1) && highI z 1 && lowI x 0 && highI x 1 && lowI y 0 && highI (addI x y) 1
  | _, _ => false
  end.

Lemma lowI_ok : forall i c x, inside i x -> lowI i c = true -> IZR c <= x.
Proof.
  intros i c x [H _] E. unfold lowI in E. apply Z.leb_le, IZR_le in E. rewrite mult_IZR in E. assert (S := scale_pos).
  apply Rmult_le_reg_r with (IZR scale); lra.
Qed.
Lemma highI_ok : forall i c x, inside i x -> highI i c = true -> x <= IZR c.
Proof.
  intros i c x [_ H] E. unfold highI in E. apply Z.leb_le, IZR_le in E. rewrite mult_IZR in E. assert (S := scale_pos).
  apply Rmult_le_reg_r with (IZR scale); lra.
Qed.
Lemma leb_true : forall x y, x <= y -> RefGeometry_model.leb x y = true.
Proof. intros x y H. unfold RefGeometry_model.leb. destruct (Rle_dec x y); [reflexivity|contradiction]. Qed.

Lemma internalI_ok : forall s l p, Forall2 inside l p -> internalI s l = true -> isInternalPoint s p = Some true.
Proof.
  intros s l p H E. destruct s; cbn [internalI] in E;
    repeat match type of E with context [match ?l with [] => _ | _ :: _ => _ end] => destruct l; try discriminate E end;
    repeat match goal with H : Forall2 inside (_ :: _) _ |- _ => inversion H; clear H; subst | H : Forall2 inside [] _ |- _ => inversion H; clear H; subst end;
    repeat (apply andb_true_iff in E; let E' := fresh "E" in destruct E as [E E']);
    repeat match goal with
    | E : lowI ?i ?c = true, X : inside ?i ?x |- _ => apply (lowI_ok i c x X) in E
    | E : highI ?i ?c = true, X : inside ?i ?x |- _ => apply (highI_ok i c x X) in E
    | E : highI (addI (addI ?i ?j) ?k) ?c = true, X : inside ?i ?x, Y : inside ?j ?y, Z : inside ?k ?z |- _ =>
        apply (highI_ok _ c _ (addI_ok _ _ _ _ (addI_ok _ _ _ _ X Y) Z)) in E
    | E : highI (addI (negI ?i) ?j) ?c = true, X : inside ?i ?x, Y : inside ?j ?y |- _ => apply (highI_ok _ c _ (addI_ok _ _ _ _ (negI_ok _ _ X) Y)) in E
    | E : highI (addI ?i ?j) ?c = true, X : inside ?i ?x, Y : inside ?j ?y |- _ => apply (highI_ok _ c _ (addI_ok _ _ _ _ X Y)) in E
    end; cbn [isInternalPoint]; rewrite ?leb_true by first [lra | apply Rabs_le; lra]; reflexivity.
Qed.

Definition internal_entries (s : shape) (l : list (num * list num)) : bool :=
  forallb (fun e => match coordsI (snd e) with Some p => internalI s p | None => false end) l.

Lemma internal_entries_ok : forall r i p, internal_entries (forReferenceGeometry r) (entries r) = true -> getPoint r i = Some p ->
  isInternalPoint (forReferenceGeometry r) p = Some true.
Proof.
  intros r i p H G. unfold getPoint in G. destruct (i <? getNumberOfPoints r)%nat; [|discriminate].
  destruct (nth_error (entries r) i) as [e|] eqn:N; [|discriminate]. inversion G; subst.
  unfold internal_entries in H. rewrite forallb_forall in H. specialize (H e (nth_error_In _ _ N)). cbv beta in H.
  destruct (coordsI (snd e)) as [l|] eqn:C; [|discriminate].
  eapply internalI_ok; [apply coordsI_ok; exact C|exact H].
Qed.

(** ** a single moment *)
Fixpoint timesnI (a : nat) (st : state) : state := match a with O => st | S a' => timesnI a' (timesI st) end.
Fixpoint momI (e : list nat) (st : state) : itv :=
  match e with [] => sumI st | a :: e' => momI e' (dropI (timesnI a st)) end.

Lemma momI_ok : forall e st r, Forall2 holds st r -> Forall (fun t => length (snd t) = length e) r -> inside (momI e st) (sumR r e).
Proof.
  induction e as [|a e IH]; intros st r H L.
  - apply sumI_ok. assumption.
  - cbn [momI]. revert st r H L. induction a as [|a IHa]; intros st r H L.
    + rewrite sumR_zero by (eapply full_nonempty; exact L). apply IH; [apply dropI_ok; exact H|apply full_drop; exact L].
    + rewrite sumR_succ by (eapply full_nonempty; exact L). cbn [timesnI]. apply IHa; [apply timesI_ok; exact H|apply full_times; exact L].
Qed.

(** |x - f| > 1/T *)
Definition farI (T : Z) (i : itv) (f : frac) : bool :=
  ((snd f * scale <? (fst i * snd f - fst f * scale) * T) || (snd f * scale <? (fst f * scale - snd i * snd f) * T))%Z.

Lemma farI_ok : forall T i f x, (0 < T)%Z -> (0 < snd f)%Z -> inside i x -> farI T i f = true -> / IZR T < Rabs (x - fval f).
Proof.
  intros T [a b] [n d] x HT Hd [L H] C. unfold farI in C; cbn [fst snd] in *.
  assert (S := scale_pos). assert (D : 0 < IZR d) by (apply IZR_lt; assumption). assert (T0 : 0 < IZR T) by (apply IZR_lt; assumption).
  unfold fval; cbn [fst snd].
  assert (P : 0 < IZR T * IZR d * IZR scale) by (apply Rmult_lt_0_compat; [apply Rmult_lt_0_compat|]; assumption).
  assert (Q : 0 <= IZR d * IZR T) by (apply Rlt_le, Rmult_lt_0_compat; assumption).
  assert (B1 : x * IZR scale * (IZR d * IZR T) <= IZR b * (IZR d * IZR T)) by (apply Rmult_le_compat_r; assumption).
  assert (B2 : IZR a * (IZR d * IZR T) <= x * IZR scale * (IZR d * IZR T)) by (apply Rmult_le_compat_r; assumption).
  apply Rmult_lt_reg_r with (IZR T * IZR d * IZR scale); [assumption|].
  replace (/ IZR T * (IZR T * IZR d * IZR scale)) with (IZR d * IZR scale) by (field; lra).
  assert (W : (x - IZR n / IZR d) * (IZR T * IZR d * IZR scale) = x * IZR scale * (IZR d * IZR T) - IZR n * IZR scale * IZR T) by (field; lra).
  apply orb_true_iff in C. destruct C as [C|C]; apply Z.ltb_lt, IZR_lt in C; rewrite !mult_IZR, minus_IZR, !mult_IZR in C.
  - apply Rlt_le_trans with ((x - IZR n / IZR d) * (IZR T * IZR d * IZR scale)); [rewrite W; lra|].
    apply Rmult_le_compat_r; [lra|]. apply Rle_abs.
  - apply Rlt_le_trans with (- (x - IZR n / IZR d) * (IZR T * IZR d * IZR scale)); [rewrite Ropp_mult_distr_l_reverse, W; lra|].
    apply Rmult_le_compat_r; [lra|]. rewrite <- Rabs_Ropp. apply Rle_abs.
Qed.

Definition far_moment (T : Z) (s : shape) (e : list nat) (l : list (num * list num)) : bool :=
  fullb (length e) l && match startI l with Some st => farI T (momI e st) (integralF s e) | None => false end.
Lemma far_moment_ok : forall T s e l, (0 < T)%Z -> far_moment T s e l = true -> / IZR T < Rabs (esum l (monomial e) - monomial_integral s e).
Proof.
  intros T s e l HT H. apply andb_true_iff in H. destruct H as [F H]. destruct (startI l) as [st|] eqn:E; [|discriminate].
  destruct (integralF_ok s e) as [<- P]. eapply farI_ok; eauto. rewrite <- sumR_start.
  apply momI_ok; [apply startI_ok; exact E|apply fullb_ok; exact F].
Qed.

(** ** the rule for a point *)
Lemma integrates_point : forall k, integrates Cn0_inf_1 k.
Proof.
  intro k. apply integrates_from; [reflexivity|]. intros e [L _]. destruct e; [|discriminate]. simpl.
  replace (1 / 1 * 1 + 0 - 1) with 0 by field. rewrite Rabs_R0. apply Rlt_le, Rinv_0_lt_compat. lra.
Qed.

Lemma integrates_T : forall r k, forReferenceGeometry r = Tetrahedron -> getNumberOfPoints r = length (entries r) ->
  checkT k (entries r) = true -> integrates r (N.of_nat k).
Proof. intros r k S E C. apply integrates_from; [assumption|]. rewrite S. apply checkT_ok. assumption. Qed.
Lemma integrates_2 : forall r k l, forReferenceGeometry r = Square -> entries r = product2 l -> getNumberOfPoints r = length (entries r) ->
  check2I k l = true -> integrates r (N.of_nat k).
Proof. intros r k l S L E C. apply integrates_from; [assumption|]. rewrite S, L. apply check2I_ok. assumption. Qed.
Lemma integrates_3 : forall r k l, forReferenceGeometry r = Cube -> entries r = product3 l -> getNumberOfPoints r = length (entries r) ->
  check3I k l = true -> integrates r (N.of_nat k).
Proof. intros r k l S L E C. apply integrates_from; [assumption|]. rewrite S, L. apply check3I_ok. assumption. Qed.

(** ** selection of a rule *)
Definition le_order (a b : rule) : Prop := (order a <= order b)%N.

Lemma insert_in : forall r l x, In x (insert_rule r l) <-> x = r \/ In x l.
Proof.
  intros r l x. induction l as [|y l IH]; simpl; [intuition|].
  destruct (order y <? order r)%N; simpl; [rewrite IH|]; intuition.
Qed.
Lemma insert_sorted : forall r l, StronglySorted le_order l -> StronglySorted le_order (insert_rule r l).
Proof.
  intros r l H. induction H as [|y l H IH F]; simpl; [repeat constructor|].
  destruct (N.ltb_spec (order y) (order r)).
  - constructor; [assumption|]. apply Forall_forall. intros x I. apply insert_in in I. destruct I as [->|I].
    + unfold le_order. lia.
    + rewrite Forall_forall in F. auto.
  - constructor; [constructor; assumption|]. constructor; [assumption|].
    eapply Forall_impl; [|exact F]. intros x. unfold le_order. lia.
Qed.
Lemma fold_add : forall l m s, StronglySorted le_order (m s) ->
  StronglySorted le_order (fold_left addRule l m s) /\
  (forall r, In r (fold_left addRule l m s) <-> In r (m s) \/ (In r l /\ forReferenceGeometry r = s)).
Proof.
  induction l as [|x l IH]; intros m s H.
  - simpl. split; [assumption|]. intuition.
  - simpl. destruct (IH (addRule m x) s) as [A B].
    + unfold addRule. destruct (shape_eq_dec s (forReferenceGeometry x)); [apply insert_sorted|]; assumption.
    + split; [assumption|]. intro r. rewrite B. unfold addRule.
      destruct (shape_eq_dec s (forReferenceGeometry x)) as [->|N].
      * rewrite insert_in. intuition (subst; auto).
      * split; [intuition|]. intros [?|[[->|?] ?]]; auto. congruence.
Qed.

Lemma rules_sorted : forall s, StronglySorted le_order (listOfRules_ s).
Proof. intro s. apply (fold_add registered (fun _ => []) s). constructor. Qed.
Lemma rules_in : forall s r, In r (listOfRules_ s) <-> In r registered /\ forReferenceGeometry r = s.
Proof. intros s r. destruct (fold_add registered (fun _ => []) s ltac:(constructor)) as [_ B]. unfold listOfRules_. rewrite B. simpl. intuition. Qed.

Lemma find_first : forall (p : rule -> bool) l r, StronglySorted le_order l -> find p l = Some r ->
  In r l /\ p r = true /\ (forall x, In x l -> p x = true -> (order r <= order x)%N).
Proof.
  intros p l r H. induction H as [|y l H IH F]; simpl; [discriminate|].
  destruct (p y) eqn:P; intros E.
  - inversion E; subst. repeat split; auto. intros x [->|I] _; [lia|]. rewrite Forall_forall in F. apply F. assumption.
  - destruct (IH E) as [A [B C]]. repeat split; auto. intros x [->|I] X; [congruence|auto].
Qed.
