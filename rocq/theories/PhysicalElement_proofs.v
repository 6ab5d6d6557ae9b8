From Coq Require Import List Arith Bool Lia.
From Verif Require Import Loop_model Matrix_model ElementData_model PhysicalElement_model PhysicalElement_spec.
From Verif Require Loop_proofs.
Import ListNotations.

(** simulation of loops *)
Definition osim {S T} (R : S -> T -> Prop) (x : option S) (y : option T) : Prop :=
  match x, y with Some a, Some b => R a b | None, None => True | _, _ => False end.

Lemma for_sim {S T} : forall n start (R : nat -> S -> T -> Prop) body body' a b,
  (forall i a b, start <= i < start + n -> R i a b -> osim (R (Datatypes.S i)) (body i a) (body' i b)) ->
  R start a b -> osim (R (start + n)) (for_from start n body a) (for_from start n body' b).
Proof.
  induction n as [|n IH]; intros start R body body' a b H H0; cbn.
  - now rewrite Nat.add_0_r.
  - pose proof (H start a b ltac:(lia) H0) as H1. unfold osim in H1.
    destruct (body start a) as [a'|], (body' start b) as [b'|]; try contradiction; [|exact I].
    replace (start + Datatypes.S n) with (Datatypes.S start + n) by lia.
    apply IH; [|exact H1]. intros i x y L. apply H. lia.
Qed.

Lemma osim_bind {S T S' T'} : forall (R : S -> T -> Prop) (R' : S' -> T' -> Prop) x y f g,
  osim R x y -> (forall a b, x = Some a -> y = Some b -> R a b -> osim R' (f a) (g b)) -> osim R' (bind x f) (bind y g).
Proof. intros R R' [a|] [b|] f g H K; cbn in *; auto; contradiction. Qed.

Lemma osim_same {S} : forall (x : option S), osim eq x x.
Proof. intros [x|]; cbn; auto. Qed.

(** simulation of which one direction may need a hypothesis *)
Definition sim {S T} (both : Prop) (R : S -> T -> Prop) (x : option S) (y : option T) : Prop :=
  (forall a, x = Some a -> exists b, y = Some b /\ R a b) /\ (both -> forall b, y = Some b -> exists a, x = Some a /\ R a b).
Lemma osim_sim {S T} : forall both (R : S -> T -> Prop) x y, osim R x y -> sim both R x y.
Proof.
  intros both R [a|] [b|] H; cbn in H; try contradiction; split; try intros _; intros z Hz; try discriminate; injection Hz as <-; eauto.
Qed.
Lemma sim_bind {S T S' T'} : forall both (R : S -> T -> Prop) (R' : S' -> T' -> Prop) x y f g,
  sim both R x y -> (forall a b, x = Some a -> y = Some b -> R a b -> sim both R' (f a) (g b)) -> sim both R' (bind x f) (bind y g).
Proof.
  intros both R R' x y f g (H1 & H2) K. split.
  - intros z Hz. destruct x as [a|]; [|discriminate]. destruct (H1 a eq_refl) as (b & -> & Rab). cbn in Hz |- *. now apply (K a b).
  - intros B z Hz. destruct y as [b|]; [|discriminate]. destruct (H2 B b eq_refl) as (a & -> & Rab). cbn in Hz |- *. now apply (K a b).
Qed.
Lemma sim_for {S T} : forall both n start (R : nat -> S -> T -> Prop) body body' a b,
  (forall i a b, start <= i < start + n -> R i a b -> sim both (R (Datatypes.S i)) (body i a) (body' i b)) ->
  R start a b -> sim both (R (start + n)) (for_from start n body a) (for_from start n body' b).
Proof.
  intros both. induction n as [|n IH]; intros start R body body' a b H H0.
  - cbn. rewrite Nat.add_0_r. apply osim_sim. exact H0.
  - replace (start + Datatypes.S n) with (Datatypes.S start + n) by lia.
    change (sim both (R (Datatypes.S start + n)) (bind (body start a) (for_from (Datatypes.S start) n body)) (bind (body' start b) (for_from (Datatypes.S start) n body'))).
    eapply sim_bind; [apply H; [lia|exact H0]|]. intros x y _ _ Rxy. apply IH; [|exact Rxy]. intros i u v L. apply H. lia.
Qed.
Lemma sim_weaken {S T} : forall both (R R' : S -> T -> Prop) x y, (forall a b, R a b -> R' a b) -> sim both R x y -> sim both R' x y.
Proof.
  intros both R R' x y K (H1 & H2). split.
  - intros a Ha. destruct (H1 a Ha) as (b & ? & ?). eauto.
  - intros B b Hb. destruct (H2 B b Hb) as (a & ? & ?). eauto.
Qed.
Lemma sim_same {S} : forall both (x : option S), sim both eq x x.
Proof. intros. apply osim_sim, osim_same. Qed.

Lemma for_from_last {S} : forall n start body (s : S),
  for_from start (Datatypes.S n) body s = bind (for_from start n body s) (body (start + n)).
Proof.
  induction n as [|n IH]; intros start body s.
  - cbn. rewrite Nat.add_0_r. destruct (body start s); reflexivity.
  - cbn [for_from] in IH |- *. destruct (body start s) as [s'|]; [|reflexivity].
    rewrite IH. replace (start + Datatypes.S n) with (Datatypes.S start + n) by lia. reflexivity.
Qed.
Lemma for_last {S} : forall n body (s : S), for_loop (Datatypes.S n) body s = bind (for_loop n body s) (body n).
Proof. intros. unfold for_loop. rewrite for_from_last. reflexivity. Qed.
Lemma collect_last {Y} : forall n (f : nat -> option Y), collect (S n) f = bind (collect n f) (fun l => bind (f n) (fun y => Some (l ++ [y]))).
Proof. intros. unfold collect. rewrite for_last. destruct (for_loop n _ []); [|reflexivity]. cbn. destruct (f n); reflexivity. Qed.
Lemma collect_iff {Y} : forall n (f : nat -> option Y) l,
  collect n f = Some l <-> length l = n /\ forall i y, nth_error l i = Some y -> f i = Some y.
Proof.
  induction n as [|n IH]; intros f l.
  - cbn. split.
    + intro H. injection H as <-. split; [reflexivity|]. intros [|i] y H; discriminate.
    + intros (H & _). destruct l; [reflexivity|discriminate].
  - rewrite collect_last. split.
    + intro H. destruct (collect n f) as [l0|] eqn:E; [|discriminate]. cbn in H. destruct (f n) as [y0|] eqn:F; [|discriminate].
      cbn in H. injection H as <-. destruct (proj1 (IH f l0) E) as (L & N). rewrite app_length. cbn. split; [lia|].
      intros i y Hi. destruct (Nat.lt_ge_cases i n) as [Hl|Hl].
      * rewrite nth_error_app1 in Hi by lia. now apply N.
      * rewrite nth_error_app2 in Hi by lia. rewrite L in Hi. destruct (i - n) as [|d] eqn:Ed; [|destruct d; discriminate].
        cbn in Hi. injection Hi as <-. replace i with n by lia. exact F.
    + intros (L & N). destruct (exists_last (l := l)) as (l0 & y0 & ->); [intros ->; discriminate|].
      rewrite app_length in L. cbn in L. assert (L0 : length l0 = n) by lia.
      rewrite (proj2 (IH f l0)).
      * cbn. rewrite (N n y0); [reflexivity|]. rewrite nth_error_app2 by lia. rewrite L0, Nat.sub_diag. reflexivity.
      * split; [exact L0|]. intros i y Hi. apply N. rewrite nth_error_app1; [exact Hi|]. apply nth_error_Some. congruence.
Qed.
Lemma collect_ext {Y} : forall n (f g : nat -> option Y), (forall i, i < n -> f i = g i) -> collect n f = collect n g.
Proof. induction n as [|n IH]; intros f g H; [reflexivity|]. rewrite !collect_last, (IH f g), (H n); auto. Qed.

Lemma write_nth {Y} : forall (l : list Y) i y l', write l i y = Some l' ->
  length l' = length l /\ i < length l /\ nth_error l' i = Some y /\ forall j, j <> i -> nth_error l' j = nth_error l j.
Proof.
  induction l as [|x l IH]; intros [|i] y l' H; cbn in H; try discriminate.
  - injection H as <-. cbn. repeat split; [lia|]. intros [|j] N; [lia|reflexivity].
  - destruct (write l i y) as [r|] eqn:E; [|discriminate]. injection H as <-.
    destruct (IH _ _ _ E) as (L & B & N & O). cbn. repeat split; [lia|lia|assumption|].
    intros [|j] Hj; cbn; [reflexivity|]. apply O. lia.
Qed.
Lemma write_ok {Y} : forall (l : list Y) i y, i < length l -> exists l', write l i y = Some l'.
Proof.
  induction l as [|x l IH]; intros [|i] y H; cbn in *; try lia; [now eexists|].
  destruct (IH i y ltac:(lia)) as (l' & ->). now eexists.
Qed.
Lemma write_firstn {Y} : forall (l : list Y) i y l', write l i y = Some l' -> firstn (S i) l' = firstn i l ++ [y].
Proof.
  induction l as [|x l IH]; intros [|i] y l' H; cbn [write] in H; try discriminate.
  - injection H as <-. reflexivity.
  - destruct (write l i y) as [r|] eqn:E; [|discriminate]. injection H as <-.
    change (firstn (S (S i)) (x :: r)) with (x :: firstn (S i) r). rewrite (IH _ _ _ E). reflexivity.
Qed.
Lemma nth_repeat {Y} : forall (y : Y) n i, i < n -> nth_error (repeat y n) i = Some y.
Proof. induction n as [|n IH]; intros [|i] H; cbn; try lia; auto. apply IH. lia. Qed.
Lemma nth_repeat_inv {Y} : forall (y : Y) n i z, nth_error (repeat y n) i = Some z -> z = y.
Proof. intros y n i z H. apply nth_error_In in H. now apply repeat_spec in H. Qed.
Lemma vresize_length {Y} : forall (l : list Y) n x, length (vresize l n x) = n.
Proof. intros. unfold vresize. rewrite app_length, firstn_length, repeat_length. lia. Qed.
Lemma vresize_in {Y} : forall (l : list Y) n x y, In y (vresize l n x) -> In y l \/ y = x.
Proof.
  intros l n x y H. unfold vresize in H. apply in_app_or in H. destruct H as [H|H].
  - left. rewrite <- (firstn_skipn n l). apply in_or_app. now left.
  - right. now apply repeat_spec in H.
Qed.

Lemma kind_eqb_eq : forall k l, kind_eqb k l = true <-> k = l.
Proof. intros [] []; cbn; split; congruence. Qed.
Lemma kind_dec : forall k l : kind, k = l \/ k <> l.
Proof. intros [] []; ((left; reflexivity) || (right; discriminate)). Qed.
Lemma at_kind_same {Y} : forall (f : kind -> Y) k y, at_kind f k y k = y.
Proof. intros. unfold at_kind. now destruct k. Qed.
Lemma at_kind_other {Y} : forall (f : kind -> Y) k y l, l <> k -> at_kind f k y l = f l.
Proof. intros. unfold at_kind. destruct (kind_eqb l k) eqn:E; auto. apply kind_eqb_eq in E. contradiction. Qed.

Lemma asks_dec : forall g : getter, asks g \/ g = GetResultMatrix \/ g = GetResultVector.
Proof. intros []; cbn; auto. Qed.

Section Proofs.
Context {A V P X J D Q M : Type}.
Variable zero : A.
Variable mul : A -> A -> A.
Variable vzero : V.
Variable vadd : V -> V -> V.
Variable vscale : A -> V -> V.
Variable transposed inverse : J -> J.
Variable determinant : J -> D.
Variable absolute : D -> D.
Variable getPoint : Q -> nat -> option P.
Variable mapPoint : M -> P -> P.
Notation element := (@element A V P X J Q M).
Notation state := (@state A V P X J D Q M).
Notation settings := (@settings V P J D Q M).
Notation memory := (@memory A V P X J Q M).
Notation point_of := (point_of getPoint mapPoint).
Notation getJ := (getJacobian).
Notation getTJ := (getTransposeJacobian transposed).
Notation getITJ := (getInverseTransposeJacobian transposed inverse).
Notation getDet := (getJacobianDet determinant).
Notation getAbsDet := (getJacobianAbsDet determinant absolute).
Notation perform := (perform transposed determinant).
Notation lookup := (lookup transposed determinant).
Notation fill := (fill transposed determinant).
Notation basisFunction := (basisFunction transposed determinant).
Notation basisFunctionOf := (basisFunctionOf transposed determinant).
Notation sum_up := (sum_up vzero vadd vscale transposed determinant).

(** everything but the geometry, the functions and the solutions *)
Definition core (s : state) :=
  (theElement_ s, pointReference_ s, quadratureRule_ s, faceToElementMap_ s, quadraturePointIndex_ s,
   hasQuadratureRule s, doesMap s, transform_ s, (resultMatrix s, hasElementMatrix s, resultVector s, hasElementVector s)).
Definition solutions (s : state) := (solution s, hasSolution s, solutionDeriv s, hasSolutionDeriv s).
Definition functions (s : state) := (values s, hasFunction s).

Lemma core_ready : forall m s s', core s = core s' -> ready m s = ready m s'.
Proof.
  intros m s s' H. unfold core in H.
  assert (E1 : theElement_ s = theElement_ s') by congruence. assert (E2 : pointReference_ s = pointReference_ s') by congruence.
  unfold ready. now rewrite E1, E2.
Qed.
Lemma core_current : forall s s', core s = core s' -> current s = current s'.
Proof.
  intros s s' H. unfold core in H. unfold current.
  assert (E1 : hasQuadratureRule s = hasQuadratureRule s') by congruence. assert (E2 : quadratureRule_ s = quadratureRule_ s') by congruence.
  assert (E3 : doesMap s = doesMap s') by congruence. assert (E4 : faceToElementMap_ s = faceToElementMap_ s') by congruence.
  assert (E5 : quadraturePointIndex_ s = quadraturePointIndex_ s') by congruence. assert (E6 : pointReference_ s = pointReference_ s') by congruence.
  now rewrite E1, E2, E3, E4, E5, E6.
Qed.

(** cached geometry is right *)
Record geo (e : element) (s : state) : Prop := {
  geo_j : hasJacobian s = true -> exists p, pointReference_ s = Some p /\ jacobian s = Some (calcJacobian e p);
  geo_t : hasTransposeJacobian s = true ->
    exists p, pointReference_ s = Some p /\ transposeJacobian s = Some (transposed (calcJacobian e p));
  geo_i : hasInverseTransposeJacobian s = true ->
    exists p, pointReference_ s = Some p /\ inverseTransposeJacobian s = Some (inverse (transposed (calcJacobian e p)));
  geo_d : hasJacobianDet s = true ->
    exists p, pointReference_ s = Some p /\ jacobianDet s = Some (determinant (calcJacobian e p));
  geo_a : hasJacobianAbsDet s = true ->
    exists p, pointReference_ s = Some p /\ jacobianAbsDet s = Some (absolute (determinant (calcJacobian e p)));
  geo_x : hasPointPhysical s = true ->
    exists p, pointReference_ s = Some p /\ pointPhysical s = Some (referenceToPhysical e p) }.

(** a geometry getter: right answer, nothing but geometry changed *)
Definition geometric {Y} (m : memory) (e : element) (p : P) (s : state) (r : option (state * Y)) (y : Y) : Prop :=
  exists s', r = Some (s', y) /\ geo e s' /\ core s' = core s /\ functions s' = functions s /\ solutions s' = solutions s.

Lemma ready_inv : forall m (s : state) e p, ready m s = Some (e, p) -> pointReference_ s = Some p.
Proof.
  intros m s e p H. unfold ready in H. destruct (theElement_ s) as [a|]; [|discriminate]. cbn in H.
  destruct (m a); [|discriminate]. cbn in H. destruct (pointReference_ s); [|discriminate]. now injection H as <- <-.
Qed.

Ltac use_cache H R :=
  let p' := fresh in let E := fresh in let C := fresh in
  destruct H as (p' & E & C); [assumption|]; rewrite R in E; injection E as <-; rewrite C.
Ltac geo_done :=
  split; [split; cbn; intros; try (eexists; split; [eassumption|]); try reflexivity; auto|repeat split; try reflexivity].

Lemma jacobian_right : forall m s e p, ready m s = Some (e, p) -> geo e s -> geometric m e p s (getJ m s) (calcJacobian e p).
Proof.
  intros m s e p R G. pose proof (ready_inv _ _ _ _ R) as R'. unfold geometric, getJacobian. rewrite R. cbn [bind fst snd].
  destruct (hasJacobian s) eqn:E.
  - destruct (geo_j _ _ G E) as (p' & E' & ->). rewrite R' in E'. injection E' as <-. exists s. repeat split; auto; apply G.
  - eexists. split; [reflexivity|]. split; [|repeat split]. destruct G. split; cbn; auto. intros _. now exists p.
Qed.

Lemma transpose_right : forall m s e p, ready m s = Some (e, p) -> geo e s ->
  geometric m e p s (getTJ m s) (transposed (calcJacobian e p)).
Proof.
  intros m s e p R G. pose proof (ready_inv _ _ _ _ R) as R'. unfold geometric, getTransposeJacobian. rewrite R. cbn [bind fst snd].
  destruct (hasTransposeJacobian s) eqn:E.
  - destruct (geo_t _ _ G E) as (p' & E' & ->). rewrite R' in E'. injection E' as <-. exists s. repeat split; auto; apply G.
  - destruct (jacobian_right m s e p R G) as (s1 & -> & G1 & C & F & S). cbn [bind fst snd].
    eexists. split; [reflexivity|].
    assert (R1 : pointReference_ s1 = Some p) by (unfold core in C; injection C; intros; congruence).
    split; [|repeat split; cbn; [exact C|exact F|exact S]]. destruct G1. split; cbn; auto. intros _. now exists p.
Qed.

Lemma inverse_right : forall m s e p, ready m s = Some (e, p) -> geo e s ->
  geometric m e p s (getITJ m s) (inverse (transposed (calcJacobian e p))).
Proof.
  intros m s e p R G. pose proof (ready_inv _ _ _ _ R) as R'. unfold geometric, getInverseTransposeJacobian. rewrite R. cbn [bind fst snd].
  destruct (hasInverseTransposeJacobian s) eqn:E.
  - destruct (geo_i _ _ G E) as (p' & E' & ->). rewrite R' in E'. injection E' as <-. exists s. repeat split; auto; apply G.
  - destruct (transpose_right m s e p R G) as (s1 & -> & G1 & C & F & S). cbn [bind fst snd].
    eexists. split; [reflexivity|].
    assert (R1 : pointReference_ s1 = Some p) by (unfold core in C; injection C; intros; congruence).
    split; [|repeat split; cbn; [exact C|exact F|exact S]]. destruct G1. split; cbn; auto. intros _. now exists p.
Qed.

Lemma det_right : forall m s e p, ready m s = Some (e, p) -> geo e s ->
  geometric m e p s (getDet m s) (determinant (calcJacobian e p)).
Proof.
  intros m s e p R G. pose proof (ready_inv _ _ _ _ R) as R'. unfold geometric, getJacobianDet. rewrite R. cbn [bind fst snd].
  destruct (hasJacobianDet s) eqn:E.
  - destruct (geo_d _ _ G E) as (p' & E' & ->). rewrite R' in E'. injection E' as <-. exists s. repeat split; auto; apply G.
  - destruct (jacobian_right m s e p R G) as (s1 & -> & G1 & C & F & S). cbn [bind fst snd].
    eexists. split; [reflexivity|].
    assert (R1 : pointReference_ s1 = Some p) by (unfold core in C; injection C; intros; congruence).
    split; [|repeat split; cbn; [exact C|exact F|exact S]]. destruct G1. split; cbn; auto. intros _. now exists p.
Qed.

Lemma abs_right : forall m s e p, ready m s = Some (e, p) -> geo e s ->
  geometric m e p s (getAbsDet m s) (absolute (determinant (calcJacobian e p))).
Proof.
  intros m s e p R G. pose proof (ready_inv _ _ _ _ R) as R'. unfold geometric, getJacobianAbsDet. rewrite R. cbn [bind fst snd].
  destruct (hasJacobianAbsDet s) eqn:E.
  - destruct (geo_a _ _ G E) as (p' & E' & ->). rewrite R' in E'. injection E' as <-. exists s. repeat split; auto; apply G.
  - destruct (det_right m s e p R G) as (s1 & -> & G1 & C & F & S). cbn [bind fst snd].
    eexists. split; [reflexivity|].
    assert (R1 : pointReference_ s1 = Some p) by (unfold core in C; injection C; intros; congruence).
    split; [|repeat split; cbn; [exact C|exact F|exact S]]. destruct G1. split; cbn; auto. intros _. now exists p.
Qed.

Lemma physical_right : forall m s e p, ready m s = Some (e, p) -> geo e s ->
  geometric m e p s (getPointPhysical m s) (referenceToPhysical e p).
Proof.
  intros m s e p R G. pose proof (ready_inv _ _ _ _ R) as R'. unfold geometric, getPointPhysical. rewrite R. cbn [bind fst snd].
  destruct (hasPointPhysical s) eqn:E.
  - destruct (geo_x _ _ G E) as (p' & E' & ->). rewrite R' in E'. injection E' as <-. exists s. repeat split; auto; apply G.
  - eexists. split; [reflexivity|]. split; [|repeat split]. destruct G. split; cbn; auto. intros _. now exists p.
Qed.

(** transformations *)
Fixpoint solve (j : J) (r : @request V J D) : option V :=
  match r with
  | Answer v => Some v
  | Error => None
  | AskJacobian f => solve j (f j)
  | AskTranspose f => solve j (f (transposed j))
  | AskDet f => solve j (f (determinant j))
  end.
Lemma solve_solves : forall j r v, solve j r = Some v <-> solves transposed determinant j r v.
Proof.
  intros j r v. split.
  - revert v. induction r; intros v0 H'; cbn in H'; try discriminate; try (constructor; auto; fail).
    injection H' as <-. constructor.
  - intro H. induction H; cbn; auto.
Qed.

Definition same_rest (s s' : state) : Prop := core s' = core s /\ functions s' = functions s /\ solutions s' = solutions s.

Lemma perform_right : forall m e p r s, ready m s = Some (e, p) -> geo e s ->
  osim (fun q v => snd q = v /\ geo e (fst q) /\ same_rest s (fst q)) (perform m r s) (solve (calcJacobian e p) r).
Proof.
  intros m e p. induction r as [v| |f IH|f IH|f IH]; intros s R G; cbn [PhysicalElement_model.perform solve].
  - cbn. repeat split; apply G.
  - exact I.
  - destruct (jacobian_right m s e p R G) as (s1 & -> & G1 & C & F & S). cbn [bind fst snd].
    pose proof (IH (calcJacobian e p) s1) as K. rewrite (core_ready m _ _ C) in K. specialize (K R G1).
    destruct (perform m _ s1) as [[s2 y]|], (solve _ _) as [y'|]; cbn in *; auto.
    destruct K as (-> & G2 & C2 & F2 & S2). repeat split; try apply G2; congruence.
  - destruct (transpose_right m s e p R G) as (s1 & -> & G1 & C & F & S). cbn [bind fst snd].
    pose proof (IH (transposed (calcJacobian e p)) s1) as K. rewrite (core_ready m _ _ C) in K. specialize (K R G1).
    destruct (perform m _ s1) as [[s2 y]|], (solve _ _) as [y'|]; cbn in *; auto.
    destruct K as (-> & G2 & C2 & F2 & S2). repeat split; try apply G2; congruence.
  - destruct (det_right m s e p R G) as (s1 & -> & G1 & C & F & S). cbn [bind fst snd].
    pose proof (IH (determinant (calcJacobian e p)) s1) as K. rewrite (core_ready m _ _ C) in K. specialize (K R G1).
    destruct (perform m _ s1) as [[s2 y]|], (solve _ _) as [y'|]; cbn in *; auto.
    destruct K as (-> & G2 & C2 & F2 & S2). repeat split; try apply G2; congruence.
Qed.

(** the settings *)
Definition join {Y} (o : option (option Y)) : option Y := bind o (fun x => x).
Record frame (c : settings) (s : state) : Prop := {
  fr_element : theElement_ s = on c;
  fr_transform : forall u, join (nth_error (transform_ s) u) = transforms c u;
  fr_place : match where_ c with
             | None => pointReference_ s = None /\ hasQuadratureRule s = false
             | Some w => pointReference_ s = point_of w /\ point_of w <> None /\ current s = Some w /\
                         hasQuadratureRule s = (match w with Point _ => false | _ => true end)
             end }.

Lemma frame_core : forall c s s', core s' = core s -> frame c s -> frame c s'.
Proof.
  intros c s s' H F. pose proof (core_current _ _ H) as C. unfold core in H. injection H; intros. destruct F as [F1 F2 F3]. split.
  - congruence.
  - intro u. rewrite <- F2. congruence.
  - rewrite C. destruct (where_ c); [|split; destruct F3; congruence]. destruct F3 as (? & ? & ? & ?). repeat split; congruence.
Qed.

Definition value_of (c : settings) (e : element) (p : P) (w : place) (k : kind) (u j : nat) : option V :=
  v <- evaluate e k u j w; t <- transforms c u; solve (calcJacobian e p) (t k v).
Definition values_of (c : settings) (e : element) (p : P) (w : place) (k : kind) (u : nat) : option (list V) :=
  n <- nth_error (nb (edata e)) u; collect n (value_of c e p w k u).

(** cached functions are right, except possibly those of kind [k0] and unknown [u0] *)
Record funs (c : settings) (e : element) (s : state) : Prop := {
  fun_length : forall k, length (hasFunction s k) = unknowns e;
  fun_rows : forall k u n, nth_error (nb (edata e)) u = Some n -> exists row, nth_error (values s k) u = Some row /\ length row = n;
  fun_right : forall k u, nth_error (hasFunction s k) u = Some true ->
    exists p w vs, pointReference_ s = Some p /\ where_ c = Some w /\ values_of c e p w k u = Some vs /\ nth_error (values s k) u = Some vs }.

Lemma fill_right : forall m c e p w k u n s,
  ready m s = Some (e, p) -> geo e s -> frame c s -> where_ c = Some w ->
  nth_error (nb (edata e)) u = Some n -> (exists row, nth_error (values s k) u = Some row /\ length row = n) ->
  osim (fun s' vs => geo e s' /\ core s' = core s /\ solutions s' = solutions s /\ hasFunction s' = hasFunction s /\
          (forall k' u', (k', u') <> (k, u) -> nth_error (values s' k') u' = nth_error (values s k') u') /\
          nth_error (values s' k) u = Some vs)
       (fill m e k u n s) (values_of c e p w k u).
Proof.
  intros m c e p w k u n s R G F W N (row0 & Hrow0 & Lrow0). unfold PhysicalElement_model.fill, for_loop, values_of. rewrite N. cbn [bind].
  unfold collect, for_loop.
  set (inv := fun (i : nat) (s' : state) (acc : list V) =>
     geo e s' /\ core s' = core s /\ solutions s' = solutions s /\ hasFunction s' = hasFunction s /\
     (forall k' u', (k', u') <> (k, u) -> nth_error (values s' k') u' = nth_error (values s k') u') /\
     exists row, nth_error (values s' k) u = Some row /\ length row = n /\ firstn i row = acc).
  assert (L : osim (inv (0 + n))
     (for_from 0 n (fun j s =>
        w <- current s; v <- evaluate e k u j w; t <- nth_error (transform_ s) u; t <- t; q <- perform m (t k v) s;
        let s := fst q in l <- set2 (values s k) u j (snd q); Some (with_values s (at_kind (values s) k l) (hasFunction s))) s)
     (for_from 0 n (fun i acc => match value_of c e p w k u i with None => None | Some x => Some (acc ++ [x]) end) [])).
  { apply for_sim.
    - intros j s1 acc Hj (G1 & C1 & S1 & H1 & O1 & row & Hrow & Lrow & Frow). cbn in Hj.
      assert (R1 : ready m s1 = Some (e, p)) by (rewrite (core_ready m _ _ C1); exact R).
      pose proof (frame_core _ _ _ C1 F) as F1. destruct F1 as [_ FT FP]. rewrite W in FP. destruct FP as (_ & _ & -> & _).
      cbn [bind]. unfold value_of. rewrite <- FT. destruct (evaluate e k u j w) as [v|]; cbn [bind osim]; [|exact I].
      destruct (nth_error (transform_ s1) u) as [[t|]|]; cbn [bind join osim]; try exact I.
      pose proof (perform_right m e p (t k v) s1 R1 G1) as K.
      destruct (perform m (t k v) s1) as [[s2 y]|], (solve _ (t k v)) as [y'|]; cbn [osim fst snd bind] in K |- *; try contradiction; [|exact I].
      destruct K as (-> & G2 & C2 & F2 & S2). unfold functions in F2. injection F2 as V2 H2.
      rewrite V2. unfold set2. rewrite Hrow. cbn [bind].
      destruct (write_ok row j y' ltac:(lia)) as (row' & Wr). rewrite Wr. cbn [bind].
      destruct (write_ok (values s1 k) u row') as (l' & Wl); [apply nth_error_Some; congruence|]. rewrite Wl. cbn [bind osim].
      destruct (write_nth _ _ _ _ Wr) as (L' & _ & _ & _). destruct (write_nth _ _ _ _ Wl) as (_ & _ & Nl & Ol).
      unfold inv, with_values. split; [|split; [|split; [|split; [|split]]]].
      + destruct G2. split; cbn; auto.
      + cbn. unfold core in *. cbn. congruence.
      + cbn. unfold solutions in *. cbn. congruence.
      + cbn. congruence.
      + cbn [values]. intros k' u' Ne. destruct (kind_dec k' k) as [->|Nk].
        * rewrite at_kind_same, Ol by congruence. apply O1. exact Ne.
        * rewrite at_kind_other by assumption. apply O1. exact Ne.
      + cbn [values]. exists row'. rewrite at_kind_same. repeat split; [exact Nl|congruence|].
        rewrite (write_firstn _ _ _ _ Wr). now rewrite Frow.
    - unfold inv. split; [exact G|]. repeat split. exists row0. repeat split; assumption. }
  destruct (for_from 0 n _ s) as [s'|], (for_from 0 n _ []) as [vs|]; cbn in L |- *; try contradiction; [|exact I].
  destruct L as (G' & C' & S' & H' & O' & row & Hrow & Lrow & Frow). repeat split; auto; try apply G'.
  rewrite Hrow. f_equal. rewrite <- Frow. symmetry. apply firstn_all2. lia.
Qed.

(** the two overloads *)
Definition right_function c e p w k u i : option V := vs <- values_of c e p w k u; nth_error vs i.

Lemma values_of_length : forall c e p w k u vs, values_of c e p w k u = Some vs -> u < unknowns e.
Proof.
  intros c e p w k u vs H. unfold values_of in H. destruct (nth_error (nb (edata e)) u) eqn:E; [|discriminate].
  unfold unknowns. apply nth_error_Some. congruence.
Qed.

Lemma lookup_right : forall m c e p w k u i n s,
  ready m s = Some (e, p) -> geo e s -> frame c s -> where_ c = Some w -> funs c e s ->
  nth_error (nb (edata e)) u = Some n ->
  osim (fun q v => snd q = v /\ geo e (fst q) /\ core (fst q) = core s /\ solutions (fst q) = solutions s /\ funs c e (fst q))
       (lookup m e k i u (Some n) s) (right_function c e p w k u i).
Proof.
  intros m c e p w k u i n s R G F W U N. unfold PhysicalElement_model.lookup, right_function.
  assert (Hu : u < unknowns e) by (unfold unknowns; apply nth_error_Some; congruence).
  assert (Rp := ready_inv _ _ _ _ R).
  destruct (nth_error (hasFunction s k) u) as [[|]|] eqn:H.
  - cbn [bind]. destruct (fun_right _ _ _ U k u H) as (p' & w' & vs & Ep & Ew & Ev & El).
    rewrite Rp in Ep. injection Ep as <-. rewrite W in Ew. injection Ew as <-. rewrite Ev. unfold get2. rewrite El. cbn [bind].
    destruct (nth_error vs i) as [v|]; cbn [bind osim]; [|exact I]. cbn [fst snd].
    split; [reflexivity|]. split; [exact G|]. split; [reflexivity|]. split; [reflexivity|exact U].
  - cbn [bind]. destruct (write_ok (hasFunction s k) u true) as (h & Wh); [rewrite (fun_length _ _ _ U); exact Hu|]. rewrite Wh. cbn [bind].
    set (s0 := with_values s (values s) (at_kind (hasFunction s) k h)).
    assert (C0 : core s0 = core s) by reflexivity.
    assert (G0 : geo e s0) by (destruct G; split; cbn; auto).
    assert (R0 : ready m s0 = Some (e, p)) by (rewrite (core_ready m _ _ C0); exact R).
    pose proof (fill_right m c e p w k u n s0 R0 G0 (frame_core _ _ _ C0 F) W N (fun_rows _ _ _ U k u n N)) as K.
    destruct (fill m e k u n s0) as [s1|] eqn:Ef, (values_of c e p w k u) as [vs|] eqn:Ev; cbn [osim bind] in K |- *; try contradiction; [|exact I].
    destruct K as (G1 & C1 & S1 & H1 & O1 & V1). unfold get2. rewrite V1. cbn [bind].
    destruct (nth_error vs i) as [v|]; cbn [bind osim]; [|exact I]. cbn [fst snd].
    split; [reflexivity|]. split; [exact G1|]. split; [congruence|]. split; [exact S1|].
    destruct (write_nth _ _ _ _ Wh) as (Lh & _ & Nh & Oh).
    assert (P1 : pointReference_ s1 = pointReference_ s) by (unfold core in C1; injection C1; intros; assumption).
    split.
    + intro k'. rewrite H1. cbn. destruct (kind_dec k' k) as [->|Nk].
      * rewrite at_kind_same, Lh. apply (fun_length _ _ _ U).
      * rewrite at_kind_other by assumption. apply (fun_length _ _ _ U).
    + intros k' u' n' N'. destruct (kind_dec k' k) as [->|Nk].
      * destruct (Nat.eq_dec u' u) as [->|Nu].
        -- exists vs. split; [exact V1|]. unfold values_of in Ev. rewrite N in Ev. cbn in Ev. rewrite N in N'. injection N' as <-.
           clear - Ev. unfold collect, for_loop in Ev.
           assert (Z : forall m i (acc l : list V), for_from i m (fun i acc => match value_of c e p w k u i with None => None | Some x => Some (acc ++ [x]) end) acc = Some l -> length l = length acc + m).
           { induction m as [|m IH]; intros i acc l H; cbn in H; [injection H as <-; lia|].
             destruct (value_of _ _ _ _ _ _ i); [|discriminate]. apply IH in H. rewrite app_length in H. cbn in H. lia. }
           apply Z in Ev. exact Ev.
        -- rewrite O1 by congruence. apply (fun_rows _ _ _ U). exact N'.
      * rewrite O1 by congruence. apply (fun_rows _ _ _ U). exact N'.
    + intros k' u' H'. rewrite H1 in H'. cbn in H'. rewrite P1. destruct (kind_dec k' k) as [->|Nk].
      * rewrite at_kind_same in H'. destruct (Nat.eq_dec u' u) as [->|Nu].
        -- exists p, w, vs. repeat split; auto.
        -- rewrite Oh in H' by assumption. rewrite O1 by congruence. apply (fun_right _ _ _ U). exact H'.
      * rewrite at_kind_other in H' by assumption. rewrite O1 by congruence. apply (fun_right _ _ _ U). exact H'.
  - exfalso. apply nth_error_None in H. rewrite (fun_length _ _ _ U) in H. lia.
Qed.

(** the numbers of functions *)
Lemma shared_first : forall (e : element) n, sharedNumber e = Some n -> nth_error (nb (edata e)) 0 = Some n.
Proof.
  intros e n H. unfold sharedNumber in H. destruct (nb (edata e)) as [|n0 l]; [discriminate|].
  destruct (forallb (Nat.eqb n0) (n0 :: l)); [|discriminate]. injection H as <-. reflexivity.
Qed.
Definition counts_equal (e : element) : Prop := forall n n', In n (nb (edata e)) -> In n' (nb (edata e)) -> n = n'.
Lemma shared_equal : forall (e : element) n, counts_equal e -> nth_error (nb (edata e)) 0 = Some n -> sharedNumber e = Some n.
Proof.
  intros e n C H. unfold sharedNumber. unfold counts_equal in C. destruct (nb (edata e)) as [|n0 l]; [discriminate|].
  injection H as ->. replace (forallb (Nat.eqb n) (n :: l)) with true; [reflexivity|]. symmetry. apply forallb_forall.
  intros x Hx. apply Nat.eqb_eq. apply C; [now left|exact Hx].
Qed.

Definition keeps c e (s : state) (s' : state) : Prop := geo e s' /\ core s' = core s /\ solutions s' = solutions s /\ funs c e s'.

Lemma shared_right : forall m c e p w k i s,
  ready m s = Some (e, p) -> geo e s -> frame c s -> where_ c = Some w -> funs c e s ->
  sim (counts_equal e) (fun q v => snd q = v /\ keeps c e s (fst q)) (basisFunction m k i s) (right_function c e p w k 0 i).
Proof.
  intros m c e p w k i s R G F W U. unfold PhysicalElement_model.basisFunction. rewrite R. cbn [bind fst].
  destruct (sharedNumber e) as [n|] eqn:E.
  - pose proof (shared_first _ _ E) as N. apply osim_sim.
    exact (lookup_right m c e p w k 0 i n s R G F W U N).
  - split.
    + intros [s' v] H. unfold PhysicalElement_model.lookup in H.
      destruct (nth_error (hasFunction s k) 0) as [[|]|] eqn:Hh; cbn [bind] in H; [|destruct (write _ 0 true); discriminate|discriminate].
      destruct (fun_right _ _ _ U k 0 Hh) as (p' & w' & vs & Ep & Ew & Ev & El).
      rewrite (ready_inv _ _ _ _ R) in Ep. injection Ep as <-. rewrite W in Ew. injection Ew as <-.
      unfold get2 in H. rewrite El in H. cbn [bind] in H. unfold right_function. rewrite Ev. cbn [bind].
      destruct (nth_error vs i) as [y|]; [|discriminate]. cbn in H. injection H as <- <-. exists y. split; [reflexivity|].
      split; [reflexivity|]. split; [exact G|]. split; [reflexivity|]. split; [reflexivity|exact U].
    + intros C v Hv. exfalso. unfold right_function in Hv. destruct (values_of c e p w k 0) as [vs|] eqn:Ev; [|discriminate].
      pose proof (values_of_length _ _ _ _ _ _ _ Ev) as L. unfold unknowns in L. apply nth_error_Some in L.
      destruct (nth_error (nb (edata e)) 0) as [n|] eqn:N; [|contradiction]. rewrite (shared_equal _ _ C N) in E. discriminate.
Qed.

Lemma of_right : forall m c e p w k i u s,
  ready m s = Some (e, p) -> geo e s -> frame c s -> where_ c = Some w -> funs c e s ->
  sim True (fun q v => snd q = v /\ keeps c e s (fst q)) (basisFunctionOf m k i u s) (right_function c e p w k u i).
Proof.
  intros m c e p w k i u s R G F W U. apply osim_sim. unfold PhysicalElement_model.basisFunctionOf. rewrite R. cbn [bind fst].
  destruct (u <? unknowns e) eqn:L.
  - apply Nat.ltb_lt in L. unfold unknowns in L. destruct (nth_error (nb (edata e)) u) as [n|] eqn:N; [|apply nth_error_None in N; lia].
    exact (lookup_right m c e p w k u i n s R G F W U N).
  - destruct (right_function c e p w k u i) as [v|] eqn:E; [|exact I]. unfold right_function in E.
    destruct (values_of c e p w k u) as [vs|] eqn:Ev; [|discriminate]. apply values_of_length in Ev.
    apply Nat.ltb_ge in L. lia.
Qed.

(** the loop of getSolution without caches *)
Definition sum_of (c : settings) (e : element) (p : P) (w : place) (k : kind) : option (list V) :=
  coefficients <- nth_error (ti (edata e)) 0;
  for_loop (unknowns e) (fun iV l =>
    n <- nth_error (nb (edata e)) iV;
    for_loop n (fun iB l =>
      iVB <- convertToSingleIndex (edata e) iB iV;
      cf <- nth_error coefficients iVB;
      v <- right_function c e p w k 0 iB;
      x <- nth_error l iV;
      write l iV (vadd x (vscale cf v))) l) (repeat vzero (unknowns e)).

Lemma keeps_trans : forall c e s1 s2 s3, keeps c e s1 s2 -> keeps c e s2 s3 -> keeps c e s1 s3.
Proof. intros c e s1 s2 s3 (?&?&?&?) (?&?&?&?). split; [assumption|]. split; [congruence|]. split; [congruence|assumption]. Qed.

Lemma sum_right : forall m c e p w k s,
  ready m s = Some (e, p) -> geo e s -> frame c s -> where_ c = Some w -> funs c e s ->
  sim (counts_equal e) (fun q l => snd q = l /\ keeps c e s (fst q)) (sum_up m e k s) (sum_of c e p w k).
Proof.
  intros m c e p w k s R G F W U. unfold PhysicalElement_model.sum_up, sum_of.
  eapply sim_bind; [apply sim_same|]. intros cs cs' _ _ <-. unfold for_loop.
  apply sim_for with (R := fun _ q l => snd q = l /\ keeps c e s (fst q)).
  - intros iV q l _ I0. eapply sim_bind; [apply sim_same|]. intros n n' _ _ <-.
    apply sim_for with (R := fun _ q l => snd q = l /\ keeps c e s (fst q)); [|exact I0].
    intros iB q1 l1 _ (<- & K). pose proof K as (G1 & C1 & S1 & U1).
    assert (R1 : ready m (fst q1) = Some (e, p)) by (rewrite (core_ready m _ _ C1); exact R).
    eapply sim_bind; [apply sim_same|]. intros iVB iVB' _ _ <-.
    eapply sim_bind; [apply sim_same|]. intros cf cf' _ _ <-.
    eapply sim_bind; [apply (shared_right m c e p w k iB (fst q1) R1 G1 (frame_core _ _ _ C1 F) W U1)|].
    intros r v _ _ (<- & K2).
    eapply sim_bind; [apply sim_same|]. intros x x' _ _ <-.
    apply osim_sim. destruct (write (snd q1) iV _) as [l2|]; cbn; [|exact I]. split; [reflexivity|]. now apply (keeps_trans c e s (fst q1)).
  - cbn. split; [reflexivity|]. split; [exact G|]. split; [reflexivity|]. split; [reflexivity|exact U].
Qed.

(** functions and solutions in the words of the specification *)
Lemma value_of_spec : forall c e p w k u i y,
  value_of c e p w k u i = Some y <-> function_value transposed determinant c e p w k u i y.
Proof.
  intros c e p w k u i y. unfold value_of, function_value. split.
  - intro H. destruct (evaluate e k u i w) as [v|]; [|discriminate]. cbn in H. destruct (transforms c u) as [t|]; [|discriminate].
    cbn in H. exists v, t. repeat split. now apply solve_solves.
  - intros (v & t & -> & -> & H). cbn. now apply solve_solves.
Qed.
Lemma values_of_spec : forall c e p w k u vs,
  values_of c e p w k u = Some vs <-> function_values transposed determinant c e p w k u vs.
Proof.
  intros c e p w k u vs. unfold values_of, function_values. split.
  - intro H. destruct (nth_error (nb (edata e)) u) as [n|]; [|discriminate]. cbn in H. apply collect_iff in H. destruct H as (<- & H).
    split; [reflexivity|]. intros i y Hy. apply value_of_spec. auto.
  - intros (-> & H). cbn. apply collect_iff. split; [reflexivity|]. intros i y Hy. apply value_of_spec. auto.
Qed.
Lemma right_function_spec : forall c e p w k u i y,
  right_function c e p w k u i = Some y <-> exists l, function_values transposed determinant c e p w k u l /\ nth_error l i = Some y.
Proof.
  intros c e p w k u i y. unfold right_function. split.
  - intro H. destruct (values_of c e p w k u) as [vs|] eqn:E; [|discriminate]. exists vs. split; [now apply values_of_spec|exact H].
  - intros (l & H & N). apply values_of_spec in H. rewrite H. exact N.
Qed.

(** one unknown of the loop *)
Definition part (c : settings) (e : element) (p : P) (w : place) (k : kind) (cs : list A) (iV n : nat) (x : V) : option V :=
  for_loop n (fun iB x =>
    iVB <- convertToSingleIndex (edata e) iB iV;
    cf <- nth_error cs iVB;
    v <- right_function c e p w k 0 iB;
    Some (vadd x (vscale cf v))) x.

Lemma inner_loop : forall c e p w k cs iV n l x, nth_error l iV = Some x ->
  for_loop n (fun iB l =>
      iVB <- convertToSingleIndex (edata e) iB iV;
      cf <- nth_error cs iVB;
      v <- right_function c e p w k 0 iB;
      x <- nth_error l iV;
      write l iV (vadd x (vscale cf v))) l = bind (part c e p w k cs iV n x) (write l iV).
Proof.
  intros c e p w k cs iV. induction n as [|n IH]; intros l x H.
  - cbn. assert (L : iV < length l) by (apply nth_error_Some; congruence). clear - H L. symmetry. revert iV H L.
    induction l as [|y l IH]; intros [|i] H L; cbn in *; try lia; [now injection H as ->|]. rewrite (IH i H); [reflexivity|lia].
  - rewrite for_last, (IH l x H). unfold part. rewrite for_last. fold (part c e p w k cs iV n x).
    destruct (part c e p w k cs iV n x) as [y|]; [|reflexivity]. cbn [bind].
    assert (L : iV < length l) by (apply nth_error_Some; congruence).
    destruct (write_ok l iV y L) as (l' & E). rewrite E. cbn [bind].
    destruct (write_nth _ _ _ _ E) as (_ & _ & N & _).
    destruct (convertToSingleIndex (edata e) n iV) as [iVB|]; [|reflexivity]. cbn [bind].
    destruct (nth_error cs iVB) as [cf|]; [|reflexivity]. cbn [bind].
    destruct (right_function c e p w k 0 n) as [v|]; [|reflexivity]. cbn [bind]. rewrite N. cbn [bind].
    clear - E. revert iV l' E. generalize (vadd y (vscale cf v)). intros z. induction l as [|a l IH]; intros [|i] l' E; cbn in *; try discriminate.
    + injection E as <-. reflexivity.
    + destruct (write l i y) as [r|] eqn:E2; [|discriminate]. injection E as <-. cbn. now rewrite (IH _ _ E2).
Qed.

Lemma write_middle {Y} : forall (l1 l2 : list Y) x y, write (l1 ++ x :: l2) (length l1) y = Some (l1 ++ y :: l2).
Proof. induction l1 as [|a l1 IH]; intros; cbn; [reflexivity|]. now rewrite IH. Qed.

Lemma sum_of_collect : forall c e p w k,
  sum_of c e p w k = (cs <- nth_error (ti (edata e)) 0;
    collect (unknowns e) (fun iV => n <- nth_error (nb (edata e)) iV; part c e p w k cs iV n vzero)).
Proof.
  intros c e p w k. unfold sum_of. destruct (nth_error (ti (edata e)) 0) as [cs|]; [|reflexivity]. cbn [bind].
  set (N := unknowns e).
  assert (K : osim (fun l acc => l = acc ++ repeat vzero (N - N) /\ length acc = N)
    (for_from 0 N (fun iV l => n <- nth_error (nb (edata e)) iV;
       for_loop n (fun iB l => iVB <- convertToSingleIndex (edata e) iB iV; cf <- nth_error cs iVB;
         v <- right_function c e p w k 0 iB; x <- nth_error l iV; write l iV (vadd x (vscale cf v))) l) (repeat vzero N))
    (for_from 0 N (fun i acc => match (n <- nth_error (nb (edata e)) i; part c e p w k cs i n vzero) with None => None | Some x => Some (acc ++ [x]) end) [])).
  { apply (for_sim N 0 (fun i l acc => l = acc ++ repeat vzero (N - i) /\ length acc = i)).
    - intros i l acc Li (-> & La). destruct (nth_error (nb (edata e)) i) as [n|]; [|exact I]. cbn [bind].
      replace (N - i) with (Datatypes.S (N - Datatypes.S i)) by lia. cbn [repeat].
      rewrite (inner_loop c e p w k cs i n _ vzero) by (rewrite nth_error_app2, La, Nat.sub_diag by lia; reflexivity).
      destruct (part c e p w k cs i n vzero) as [y|]; [|exact I]. cbn [bind]. rewrite <- La. rewrite write_middle. cbn [osim].
      rewrite La. split; [now rewrite <- app_assoc|]. rewrite app_length. cbn. lia.
    - rewrite Nat.sub_0_r. split; reflexivity. }
  unfold collect, for_loop. fold N. destruct (for_from 0 N _ (repeat vzero N)) as [l|], (for_from 0 N _ []) as [acc|]; cbn in K; try contradiction; [|reflexivity].
  destruct K as (-> & _). rewrite Nat.sub_diag. cbn. now rewrite app_nil_r.
Qed.

Lemma index_offset : forall (E : @ElementData A) i u n, nth_error (nb E) u = Some n -> i < n ->
  convertToSingleIndex E i u = Some (list_sum (firstn u (nb E)) + i).
Proof.
  intros E i u n H L. unfold convertToSingleIndex, getNumberOfBasisFunctions. rewrite H. apply Nat.ltb_lt in L. rewrite L.
  assert (K : forall u, u <= length (nb E) -> for_loop u (fun i offset => option_map (Nat.add offset) (nth_error (nb E) i)) 0 = Some (list_sum (firstn u (nb E)))).
  { clear. induction u as [|u IH]; intro L; [reflexivity|]. rewrite for_last, IH by lia. cbn [bind].
    destruct (nth_error (nb E) u) as [n|] eqn:N; [|apply nth_error_None in N; lia]. cbn [option_map]. f_equal.
    assert (Hf : forall (l : list nat) u n, nth_error l u = Some n -> firstn (S u) l = firstn u l ++ [n]).
    { clear. induction l as [|a l IH]; intros [|u] n H; cbn in *; try discriminate; [now injection H as ->|]. f_equal. now apply IH. }
    rewrite (Hf _ _ _ N), list_sum_app. cbn. lia. }
  rewrite K; [reflexivity|]. assert (u < length (nb E)) by (apply nth_error_Some; congruence). lia.
Qed.

Lemma combination_last : forall cs vs c v, length cs = length vs ->
  combination vzero vadd vscale (cs ++ [c]) (vs ++ [v]) = vadd (combination vzero vadd vscale cs vs) (vscale c v).
Proof.
  intros cs vs c v L. unfold combination. assert (E : combine (cs ++ [c]) (vs ++ [v]) = combine cs vs ++ [(c, v)]).
  { revert vs L. induction cs as [|a cs IH]; intros [|b vs] L; cbn in *; try discriminate; [reflexivity|]. f_equal. apply IH. lia. }
  rewrite E, fold_left_app. reflexivity.
Qed.

Lemma part_collect : forall c e p w k all iV n m, nth_error (nb (edata e)) iV = Some n -> m <= n ->
  part c e p w k all iV m vzero =
  (cs <- collect m (fun i => nth_error all (list_sum (firstn iV (nb (edata e))) + i));
   vs <- collect m (fun i => right_function c e p w k 0 i); Some (combination vzero vadd vscale cs vs)).
Proof.
  intros c e p w k all iV n. induction m as [|m IH]; intros N L.
  - reflexivity.
  - unfold part. rewrite for_last. fold (part c e p w k all iV m vzero). rewrite IH by (assumption || lia). rewrite !collect_last.
    rewrite (index_offset (edata e) m iV n N) by lia.
    destruct (collect m (fun i => nth_error all _)) as [cs|] eqn:Ec; [|reflexivity]. cbn [bind].
    destruct (collect m (fun i => right_function c e p w k 0 i)) as [vs|] eqn:Ev; cbn [bind].
    + destruct (nth_error all _) as [a|]; [|reflexivity]. cbn [bind].
      destruct (right_function c e p w k 0 m) as [v|]; [|reflexivity]. cbn [bind].
      rewrite combination_last; [reflexivity|]. apply collect_iff in Ec. apply collect_iff in Ev. destruct Ec, Ev. congruence.
    + destruct (nth_error all _); reflexivity.
Qed.

Lemma right_functions : forall c e p w k u n l, nth_error (nb (edata e)) u = Some n ->
  collect n (fun i => right_function c e p w k u i) = Some l <-> (0 = n /\ l = [] \/ 0 < n /\ values_of c e p w k u = Some l).
Proof.
  intros c e p w k u n l N. rewrite collect_iff. unfold right_function. split.
  - intros (L & H). destruct l as [|y l]; [left; cbn in L; auto|right]. cbn in L. split; [lia|].
    pose proof (H 0 y eq_refl) as H0. destruct (values_of c e p w k u) as [vs|] eqn:E; [|discriminate]. cbn in *.
    unfold values_of in E. rewrite N in E. cbn in E. apply collect_iff in E. destruct E as (Lv & _). f_equal.
    apply Loop_proofs.nth_error_ext_le; [cbn; lia|]. intros i Hi. destruct (nth_error (y :: l) i) as [z|] eqn:Z.
    + now apply H.
    + apply nth_error_None in Z. cbn in Z. lia.
  - intros [(<- & ->)|(L & E)].
    + split; [reflexivity|]. intros [|i] y H; discriminate.
    + rewrite E. cbn. unfold values_of in E. rewrite N in E. cbn in E. apply collect_iff in E. destruct E as (Lv & _). auto.
Qed.

Lemma sum_of_spec : forall c e p w k l, interchangeable c e k ->
  sum_of c e p w k = Some l <-> solution_value vzero vadd vscale transposed determinant c e p w k l.
Proof.
  intros c e p w k l I. rewrite sum_of_collect. unfold solution_value.
  assert (Sv : forall u, u < unknowns e -> values_of c e p w k 0 = values_of c e p w k u).
  { intros u Hu. destruct (I u Hu) as (E1 & E2 & E3). unfold values_of. rewrite <- E1.
    destruct (nth_error (nb (edata e)) u) as [n|]; [|reflexivity]. cbn. apply collect_ext. intros i _. unfold value_of. now rewrite E3, E2. }
  destruct (nth_error (ti (edata e)) 0) as [all|] eqn:Ea; cbn [bind]; [|split; [discriminate|intros (_ & H & _); contradiction]].
  assert (K : forall u y, u < unknowns e ->
    (n <- nth_error (nb (edata e)) u; part c e p w k all u n vzero) = Some y <->
    exists cs vs, coefficients_of e u cs /\ function_values transposed determinant c e p w k u vs /\ y = combination vzero vadd vscale cs vs).
  { intros u y Hu. assert (Hu' := Hu). unfold unknowns in Hu'. apply nth_error_Some in Hu'.
    destruct (nth_error (nb (edata e)) u) as [n|] eqn:N; [|contradiction]. cbn [bind].
    rewrite (part_collect c e p w k all u n n N (Nat.le_refl _)).
    assert (N0 : nth_error (nb (edata e)) 0 = Some n) by (destruct (I u Hu) as (<- & _); exact N).
    split.
    - intro H. destruct (collect n (fun i => nth_error all _)) as [cs|] eqn:Ec; [|discriminate]. cbn [bind] in H.
      destruct (collect n (fun i => right_function c e p w k 0 i)) as [vs|] eqn:Ev; [|discriminate]. cbn [bind] in H. injection H as <-.
      exists cs, vs. apply collect_iff in Ec. destruct Ec as (Lc & Hc). repeat split.
      + exists n, all. repeat split; [exact N|exact Ea|exact Lc|]. intros i Hi.
        destruct (nth_error cs i) as [a|] eqn:Ei; [|apply nth_error_None in Ei; lia]. symmetry. now apply Hc.
      + apply (right_functions c e p w k 0 n vs N0) in Ev. rewrite N. destruct Ev as [(<- & ->)|(_ & Ev)]; [reflexivity|].
        unfold values_of in Ev. rewrite N0 in Ev. cbn in Ev. apply collect_iff in Ev. now destruct Ev as (-> & _).
      + apply (right_functions c e p w k 0 n vs N0) in Ev. destruct Ev as [(<- & ->)|(_ & Ev)].
        * intros [|i] z Hz; discriminate.
        * rewrite (Sv u Hu) in Ev. apply values_of_spec in Ev. apply Ev.
    - intros (cs & vs & (n' & all' & N' & Ea' & Lc & Hc) & Hv & ->). rewrite N in N'. injection N' as <-. rewrite Ea in Ea'. injection Ea' as <-.
      rewrite (proj2 (collect_iff n (fun i => nth_error all _) cs)).
      + cbn [bind]. assert (Ev : values_of c e p w k u = Some vs) by (apply values_of_spec; exact Hv).
        rewrite (proj2 (right_functions c e p w k 0 n vs N0)); [reflexivity|].
        destruct n as [|n]; [left|right; split; [lia|rewrite (Sv u Hu); exact Ev]]. split; [reflexivity|].
        destruct Hv as (Lv & _). rewrite N in Lv. injection Lv as Lv. destruct vs; [reflexivity|discriminate].
      + split; [exact Lc|]. intros i y Hy. rewrite <- Hy. symmetry. apply Hc. rewrite <- Lc. apply nth_error_Some. congruence. }
  rewrite collect_iff. split.
  - intros (L & H). split; [exact L|]. split; [discriminate|]. intros u y Hy. apply K; [|now apply H].
    rewrite <- L. apply nth_error_Some. congruence.
  - intros (L & _ & H). split; [exact L|]. intros u y Hy. apply K; [rewrite <- L; apply nth_error_Some; congruence|]. now apply H.
Qed.

Notation get := (get vzero vadd vscale transposed inverse determinant absolute).
Notation set := (set zero mul vzero getPoint mapPoint).
Notation step := (step zero mul vzero vadd vscale transposed inverse determinant absolute getPoint mapPoint).
Notation run := (run zero mul vzero vadd vscale transposed inverse determinant absolute getPoint mapPoint).

(** what the getters answer, as a function of the settings *)
Definition denote (m : memory) (c : settings) (g : @getter) : option (@answer A V P X J D) :=
  match g with
  | GetPointReference => w <- where_ c; p <- point_of w; Some (APoint p)
  | _ =>
    b <- on c; e <- m b; w <- where_ c; p <- point_of w;
    let j := calcJacobian e p in
    match g with
    | BasisFunction k i => option_map AValue (right_function c e p w k 0 i)
    | BasisFunctionOf k i u => option_map AValue (right_function c e p w k u i)
    | GetSolution => option_map ASolution (sum_of c e p w Value)
    | GetSolutionDeriv => option_map ASolution (sum_of c e p w Deriv)
    | GetPointPhysical => Some (APhysical (referenceToPhysical e p))
    | GetJacobian => Some (AJacobian j)
    | GetTransposeJacobian => Some (AJacobian (transposed j))
    | GetInverseTransposeJacobian => Some (AJacobian (inverse (transposed j)))
    | GetJacobianDet => Some (ADet (determinant j))
    | GetJacobianAbsDet => Some (ADet (absolute (determinant j)))
    | _ => None
    end
  end.

Lemma denote_spec : forall m c g a, asks_no_solution g ->
  denote m c g = Some a <-> answers vzero vadd vscale transposed inverse determinant absolute getPoint mapPoint m c g a.
Proof.
  intros m c g a H. unfold denote, answers.
  destruct g; cbn in H; try contradiction;
  try (split;
    [intro E; destruct (on c) as [b|] eqn:Eb; [|discriminate]; cbn [bind] in E; destruct (m b) as [e|] eqn:Ee; [|discriminate]; cbn [bind] in E;
     destruct (where_ c) as [w|] eqn:Ew; [|discriminate]; cbn [bind] in E; destruct (point_of w) as [p|] eqn:Ep; [|discriminate]; cbn [bind] in E;
     exists b, e, w, p; repeat (split; [first [reflexivity|assumption]|]); try (now injection E as <-)
    |intros (b & e & w & p & -> & Ee & -> & Ep & E); cbn [bind]; rewrite Ee; cbn [bind]; rewrite Ep; cbn [bind]; try (now rewrite E)]).
  - destruct (right_function c e p w k 0 i) as [y|] eqn:Er; [|discriminate]. injection E as <-. apply right_function_spec in Er.
    destruct Er as (l & Hl & Hi). exists l, y. repeat split; try assumption; apply Hl.
  - destruct E as (l & y & Hl & Hi & ->). rewrite (proj2 (right_function_spec c e p w k 0 i y)); [reflexivity|]. exists l. split; assumption.
  - destruct (right_function c e p w k u i) as [y|] eqn:Er; [|discriminate]. injection E as <-. apply right_function_spec in Er.
    destruct Er as (l & Hl & Hi). exists l, y. repeat split; try assumption; apply Hl.
  - destruct E as (l & y & Hl & Hi & ->). rewrite (proj2 (right_function_spec c e p w k u i y)); [reflexivity|]. exists l. split; assumption.
  - split.
    + intro E. destruct (where_ c) as [w|]; [|discriminate]. cbn [bind] in E. destruct (point_of w) as [p|] eqn:Ep; [|discriminate]. cbn in E.
      injection E as <-. exists w, p. repeat split. exact Ep.
    + intros (w & p & -> & Ep & ->). cbn [bind]. rewrite Ep. reflexivity.
Qed.

Lemma denote_solution : forall m c (d : bool) a,
  (forall b e, on c = Some b -> m b = Some e -> interchangeable c e (if d then Deriv else Value)) ->
  denote m c (if d then GetSolutionDeriv else GetSolution) = Some a <->
  answers vzero vadd vscale transposed inverse determinant absolute getPoint mapPoint m c (if d then GetSolutionDeriv else GetSolution) a.
Proof.
  intros m c d a H. unfold denote, answers. destruct (on c) as [b|]; cbn [bind].
  2:{ destruct d; (split; [discriminate|]); intros (? & ? & ? & ? & E & _); discriminate. }
  destruct (m b) as [e|] eqn:Em; cbn [bind].
  2:{ destruct d; (split; [discriminate|]); intros (b' & ? & ? & ? & E & E' & _); injection E as <-; congruence. }
  specialize (H b e eq_refl Em).
  destruct (where_ c) as [w|]; cbn [bind].
  2:{ destruct d; (split; [discriminate|]); intros (? & ? & ? & ? & _ & _ & E & _); discriminate. }
  destruct (point_of w) as [p|] eqn:Ep; cbn [bind].
  2:{ destruct d; (split; [discriminate|]); intros (? & ? & w' & ? & _ & _ & E & E' & _); injection E as <-; congruence. }
  assert (K : forall k, (if d then Deriv else Value) = k ->
    option_map ASolution (sum_of c e p w k) = Some a <-> exists l, solution_value vzero vadd vscale transposed determinant c e p w k l /\ a = ASolution l).
  { intros k <-. split.
    - intro E. destruct (sum_of c e p w _) as [l|] eqn:Es; [|discriminate]. injection E as <-. exists l. split; [|reflexivity].
      apply (sum_of_spec c e p w _ l H). exact Es.
    - intros (l & Hl & ->). apply (sum_of_spec c e p w _ l H) in Hl. rewrite Hl. reflexivity. }
  destruct d; (etransitivity; [apply K; reflexivity|]); split.
  all: try (intros (l & Hl & ->); exists b, e, w, p; repeat (split; [first [reflexivity|assumption]|]); exists l; split; [exact Hl|reflexivity]).
  all: intros (b' & e' & w' & p' & E1 & E2 & E3 & E4 & l & Hl & ->); injection E1 as <-; injection E3 as <-;
       rewrite Em in E2; injection E2 as <-; rewrite Ep in E4; injection E4 as <-; exists l; split; [exact Hl|reflexivity].
Qed.

(** the invariant *)
Record sols (c : settings) (e : element) (s : state) : Prop := {
  sol_v : hasSolution s = true -> exists p w, pointReference_ s = Some p /\ where_ c = Some w /\ sum_of c e p w Value = Some (solution s);
  sol_d : hasSolutionDeriv s = true -> exists p w, pointReference_ s = Some p /\ where_ c = Some w /\ sum_of c e p w Deriv = Some (solutionDeriv s) }.
Record results (s : state) : Prop := {
  res_m : hasElementMatrix s = true -> Forall (eq zero) (data (resultMatrix s));
  res_v : hasElementVector s = true -> Forall (eq zero) (resultVector s) }.
Record sizes (e : element) (s : state) : Prop := {
  siz_r : nrows (resultMatrix s) = total (edata e);
  siz_c : ncols (resultMatrix s) = total (edata e);
  siz_d : length (data (resultMatrix s)) = total (edata e) * total (edata e);
  siz_v : length (resultVector s) = total (edata e) }.
Definition settled (m : memory) (c : settings) (s : state) : Prop :=
  exists a e, on c = Some a /\ m a = Some e /\ geo e s /\ funs c e s /\ sols c e s /\ sizes e s.
Definition inv (m : memory) (c : settings) (s : state) : Prop :=
  frame c s /\ (unchanged c = true -> settled m c s).

Lemma sols_same : forall c e s s', core s' = core s -> solutions s' = solutions s -> sols c e s -> sols c e s'.
Proof.
  intros c e s s' C S [H1 H2]. unfold core in C. unfold solutions in S.
  assert (E0 : pointReference_ s' = pointReference_ s) by congruence. assert (E1 : hasSolution s' = hasSolution s) by congruence.
  assert (E2 : solution s' = solution s) by congruence. assert (E3 : hasSolutionDeriv s' = hasSolutionDeriv s) by congruence.
  assert (E4 : solutionDeriv s' = solutionDeriv s) by congruence. split; rewrite E0; [rewrite E1, E2|rewrite E3, E4]; assumption.
Qed.
Lemma sizes_core : forall e s s', core s' = core s -> sizes e s -> sizes e s'.
Proof.
  intros e s s' C [H1 H2 H3 H4]. unfold core in C.
  assert (E : resultMatrix s' = resultMatrix s) by congruence. assert (E2 : resultVector s' = resultVector s) by congruence.
  split; rewrite ?E, ?E2; assumption.
Qed.
Lemma results_core : forall s s', core s' = core s -> results s -> results s'.
Proof.
  intros s s' C [H1 H2]. unfold core in C.
  assert (E : resultMatrix s' = resultMatrix s) by congruence. assert (E2 : resultVector s' = resultVector s) by congruence.
  assert (E3 : hasElementMatrix s' = hasElementMatrix s) by congruence. assert (E4 : hasElementVector s' = hasElementVector s) by congruence.
  split; rewrite ?E, ?E2, ?E3, ?E4; assumption.
Qed.
Lemma funs_same : forall c e s s', core s' = core s -> functions s' = functions s -> funs c e s -> funs c e s'.
Proof.
  intros c e s s' C F [H1 H2 H3]. unfold core in C. unfold functions in F.
  assert (E0 : pointReference_ s' = pointReference_ s) by congruence. assert (E1 : values s' = values s) by congruence.
  assert (E2 : hasFunction s' = hasFunction s) by congruence. split; rewrite ?E0, ?E1, ?E2; assumption.
Qed.
Lemma geo_solution : forall e (s s' : state), geo e s ->
  (pointReference_ s', hasJacobian s', jacobian s', hasTransposeJacobian s', transposeJacobian s') =
  (pointReference_ s, hasJacobian s, jacobian s, hasTransposeJacobian s, transposeJacobian s) ->
  (hasInverseTransposeJacobian s', inverseTransposeJacobian s', hasJacobianDet s', jacobianDet s', hasJacobianAbsDet s', jacobianAbsDet s', hasPointPhysical s', pointPhysical s') =
  (hasInverseTransposeJacobian s, inverseTransposeJacobian s, hasJacobianDet s, jacobianDet s, hasJacobianAbsDet s, jacobianAbsDet s, hasPointPhysical s, pointPhysical s) ->
  geo e s'.
Proof.
  intros e s s' [H1 H2 H3 H4 H5 H6] E F. injection E as E1 E2 E3 E4 E5. injection F as F1 F2 F3 F4 F5 F6 F7 F8.
  split; rewrite ?E1, ?E2, ?E3, ?E4, ?E5, ?F1, ?F2, ?F3, ?F4, ?F5, ?F6, ?F7, ?F8; assumption.
Qed.

(** no getter changes anything but caches *)
Lemma answered_inv : forall Y (f : Y -> @answer A V P X J D) (o : option (state * Y)) s' a,
  answered f o = Some (s', a) -> exists y, o = Some (s', y) /\ a = f y.
Proof. intros Y f [[s y]|] s' a H; cbn in H; [|discriminate]. injection H as <- <-. now exists y. Qed.

Ltac inv_bind H := match type of H with bind ?o _ = Some _ => let E := fresh "E" in destruct o eqn:E; [cbn [bind] in H|discriminate H] end.

Lemma jacobian_core : forall m s s' j, getJ m s = Some (s', j) -> core s' = core s.
Proof.
  intros m s s' j H. unfold getJacobian in H. inv_bind H. destruct (hasJacobian s).
  - inv_bind H. injection H as <- <-. reflexivity.
  - injection H as <- <-. reflexivity.
Qed.
Lemma transpose_core : forall m s s' j, getTJ m s = Some (s', j) -> core s' = core s.
Proof.
  intros m s s' j H. unfold getTransposeJacobian in H. inv_bind H. destruct (hasTransposeJacobian s).
  - inv_bind H. injection H as <- <-. reflexivity.
  - destruct (getJ m s) as [[s1 j1]|] eqn:EQ; [|discriminate]. cbn [bind fst snd] in H. injection H as <- <-. apply jacobian_core in EQ. exact EQ.
Qed.
Lemma inverse_core : forall m s s' j, getITJ m s = Some (s', j) -> core s' = core s.
Proof.
  intros m s s' j H. unfold getInverseTransposeJacobian in H. inv_bind H. destruct (hasInverseTransposeJacobian s).
  - inv_bind H. injection H as <- <-. reflexivity.
  - destruct (getTJ m s) as [[s1 j1]|] eqn:EQ; [|discriminate]. cbn [bind fst snd] in H. injection H as <- <-. apply transpose_core in EQ. exact EQ.
Qed.
Lemma det_core : forall m s s' j, getDet m s = Some (s', j) -> core s' = core s.
Proof.
  intros m s s' j H. unfold getJacobianDet in H. inv_bind H. destruct (hasJacobianDet s).
  - inv_bind H. injection H as <- <-. reflexivity.
  - destruct (getJ m s) as [[s1 j1]|] eqn:EQ; [|discriminate]. cbn [bind fst snd] in H. injection H as <- <-. apply jacobian_core in EQ. exact EQ.
Qed.
Lemma abs_core : forall m s s' j, getAbsDet m s = Some (s', j) -> core s' = core s.
Proof.
  intros m s s' j H. unfold getJacobianAbsDet in H. inv_bind H. destruct (hasJacobianAbsDet s).
  - inv_bind H. injection H as <- <-. reflexivity.
  - destruct (getDet m s) as [[s1 j1]|] eqn:EQ; [|discriminate]. cbn [bind fst snd] in H. injection H as <- <-. apply det_core in EQ. exact EQ.
Qed.
Lemma physical_core : forall m (s s' : state) j, getPointPhysical m s = Some (s', j) -> core s' = core s.
Proof.
  intros m s s' j H. unfold getPointPhysical in H. inv_bind H. destruct (hasPointPhysical s).
  - inv_bind H. injection H as <- <-. reflexivity.
  - injection H as <- <-. reflexivity.
Qed.
Lemma perform_core : forall m r s s' v, perform m r s = Some (s', v) -> core s' = core s.
Proof.
  intros m. induction r as [v| |f IH|f IH|f IH]; intros s s' v0 H; cbn [PhysicalElement_model.perform] in H.
  - injection H as <- <-. reflexivity.
  - discriminate.
  - destruct (getJ m s) as [[s1 j1]|] eqn:E; [|discriminate]. cbn [bind fst snd] in H. apply IH in H. apply jacobian_core in E. congruence.
  - destruct (getTJ m s) as [[s1 j1]|] eqn:E; [|discriminate]. cbn [bind fst snd] in H. apply IH in H. apply transpose_core in E. congruence.
  - destruct (getDet m s) as [[s1 j1]|] eqn:E; [|discriminate]. cbn [bind fst snd] in H. apply IH in H. apply det_core in E. congruence.
Qed.
Lemma for_keeps {S} : forall (R : S -> Prop) body n start s s',
  (forall i s s', R s -> body i s = Some s' -> R s') -> R s -> for_from start n body s = Some s' -> R s'.
Proof.
  intros R body. induction n as [|n IH]; intros start s s' H Rs E; cbn in E; [now injection E as <-|].
  destruct (body start s) as [s1|] eqn:B; [|discriminate]. apply (IH (Datatypes.S start) s1 s' H); [|exact E]. exact (H _ _ _ Rs B).
Qed.
Lemma fill_core : forall m e k u n s s', fill m e k u n s = Some s' -> core s' = core s.
Proof.
  intros m e k u n s s' H. unfold PhysicalElement_model.fill, for_loop in H.
  refine (for_keeps (fun s1 => core s1 = core s) _ _ _ _ _ _ eq_refl H).
  intros i s1 s2 C B. inv_bind B. inv_bind B. inv_bind B. inv_bind B.
  destruct (perform m _ s1) as [[s3 y3]|] eqn:EP; [|discriminate]. cbn [bind fst snd] in B. inv_bind B. injection B as <-.
  apply perform_core in EP. rewrite <- C, <- EP. reflexivity.
Qed.
Lemma lookup_core : forall m e k i u n s s' v, lookup m e k i u n s = Some (s', v) -> core s' = core s.
Proof.
  intros m e k i u n s s' v H. unfold PhysicalElement_model.lookup in H.
  destruct (nth_error (hasFunction s k) u) as [[|]|]; [| |discriminate]; cbn [bind] in H.
  - inv_bind H. injection H as <- <-. reflexivity.
  - inv_bind H. inv_bind H. inv_bind H. inv_bind H. injection H as <- <-.
    match goal with E : fill _ _ _ _ _ _ = Some _ |- _ => apply fill_core in E; rewrite E end. reflexivity.
Qed.
Lemma shared_core : forall m k i s s' v, basisFunction m k i s = Some (s', v) -> core s' = core s.
Proof. intros m k i s s' v H. unfold PhysicalElement_model.basisFunction in H. inv_bind H. now apply lookup_core in H. Qed.
Lemma of_core : forall m k i u s s' v, basisFunctionOf m k i u s = Some (s', v) -> core s' = core s.
Proof.
  intros m k i u s s' v H. unfold PhysicalElement_model.basisFunctionOf in H. inv_bind H.
  destruct (u <? _); [|discriminate]. now apply lookup_core in H.
Qed.
Lemma sum_core : forall m e k s s' v, sum_up m e k s = Some (s', v) -> core s' = core s.
Proof.
  intros m e k s s' v H. unfold PhysicalElement_model.sum_up in H. inv_bind H. unfold for_loop in H.
  refine (for_keeps (fun q => core (fst q) = core s) _ _ _ (s, repeat vzero (unknowns e)) (s', v) _ eq_refl H).
  intros i q q' C B. inv_bind B.
  refine (for_keeps (fun q => core (fst q) = core s) _ _ _ _ _ _ C B).
  clear. intros j q q' C B. inv_bind B. inv_bind B. destruct (basisFunction m k j (fst q)) as [[s1 v1]|] eqn:EQ; [|discriminate].
  cbn [bind fst snd] in B. inv_bind B. inv_bind B. injection B as <-. cbn. apply shared_core in EQ. congruence.
Qed.
Lemma get_core : forall m g s s' a, asks g -> get m g s = Some (s', a) -> core s' = core s.
Proof.
  intros m g s s' a K H. destruct g; cbn in K; try contradiction; cbn [PhysicalElement_model.get] in H;
    apply answered_inv in H; destruct H as (y & H & _).
  - now apply shared_core in H.
  - now apply of_core in H.
  - unfold getSolution in H. inv_bind H. destruct (hasSolution s); [injection H as <- <-; reflexivity|].
    destruct (sum_up m _ Value s) as [[s1 l1]|] eqn:EQ; [|discriminate]. cbn [bind fst snd] in H. injection H as <- <-. apply sum_core in EQ. exact EQ.
  - unfold getSolutionDeriv in H. inv_bind H. destruct (hasSolutionDeriv s); [injection H as <- <-; reflexivity|].
    destruct (sum_up m _ Deriv s) as [[s1 l1]|] eqn:EQ; [|discriminate]. cbn [bind fst snd] in H. injection H as <- <-. apply sum_core in EQ. exact EQ.
  - unfold getPointReference in H. destruct (pointReference_ s); [|discriminate]. injection H as <- <-. reflexivity.
  - now apply physical_core in H.
  - now apply jacobian_core in H.
  - now apply transpose_core in H.
  - now apply inverse_core in H.
  - now apply det_core in H.
  - now apply abs_core in H.
Qed.

Lemma settled_keeps : forall m c e s s' a, on c = Some a -> m a = Some e -> keeps c e s s' -> sols c e s -> sizes e s -> settled m c s'.
Proof.
  intros m c e s s' a E1 E2 (G & C & S & U) L Z. exists a, e. repeat (split; [assumption|]).
  split; [exact (sols_same _ _ _ _ C S L)|exact (sizes_core _ _ _ C Z)].
Qed.

Lemma sim_map {S T S' T'} : forall both (R : S -> T -> Prop) (R' : S' -> T' -> Prop) x y f g,
  sim both R x y -> (forall a b, R a b -> R' (f a) (g b)) -> sim both R' (option_map f x) (option_map g y).
Proof.
  intros both R R' x y f g (H1 & H2) K. split.
  - intros z Hz. destruct x as [a|]; [|discriminate]. injection Hz as <-. destruct (H1 a eq_refl) as (b & -> & Rab). exists (g b). split; [reflexivity|auto].
  - intros B z Hz. destruct y as [b|]; [|discriminate]. injection Hz as <-. destruct (H2 B b eq_refl) as (a & -> & Rab). exists (f a). split; [reflexivity|auto].
Qed.
Lemma sim_none {S T} : forall both (R : S -> T -> Prop), sim both R None None.
Proof. intros. apply osim_sim. exact I. Qed.
Lemma sim_some {S T} : forall both (R : S -> T -> Prop) a b, R a b -> sim both R (Some a) (Some b).
Proof. intros. apply osim_sim. exact H. Qed.
Lemma sim_imp {S T} : forall (b b' : Prop) (R : S -> T -> Prop) x y, (b' -> b) -> sim b R x y -> sim b' R x y.
Proof. intros b b' R x y K (H1 & H2). split; auto. Qed.

Lemma get_right : forall m c g s, frame c s -> settled m c s -> asks g ->
  sim (legal m c g) (fun q a => snd q = a /\ settled m c (fst q)) (get m g s) (denote m c g).
Proof.
  intros m c g s F (a & e & Ea & Ee & G & U & L & Z) K.
  assert (N : where_ c = None -> ready m s = None).
  { intro W. destruct F as [F1 _ FP]. rewrite W in FP. destruct FP as (P0 & _). unfold ready. rewrite F1, Ea, P0. cbn. now rewrite Ee. }
  assert (Y : forall w, where_ c = Some w -> exists p, point_of w = Some p /\ pointReference_ s = Some p /\ ready m s = Some (e, p)).
  { intros w W. destruct F as [F1 _ FP]. rewrite W in FP. destruct FP as (P0 & P1 & _). destruct (point_of w) as [p|]; [|contradiction].
    exists p. repeat split; [exact P0|]. unfold ready. rewrite F1, Ea, P0. cbn. now rewrite Ee. }
  assert (Geo : forall Y' (f : Y' -> @answer A V P X J D) r y p, geometric m e p s r y ->
     sim (legal m c g) (fun q a => snd q = a /\ settled m c (fst q)) (answered f r) (Some (f y))).
  { intros Y' f r y p (s' & -> & G' & C' & F' & S'). apply sim_some. cbn. split; [reflexivity|]. apply (settled_keeps m c e s s' a); auto.
    split; [exact G'|]. split; [exact C'|]. split; [exact S'|exact (funs_same _ _ _ _ C' F' U)]. }
  destruct (where_ c) as [w|] eqn:W.
  2:{ specialize (N eq_refl). destruct g; cbn [PhysicalElement_model.get denote asks] in *; try contradiction; rewrite ?W, ?Ea; cbn [bind]; rewrite ?Ee; cbn [bind];
      unfold PhysicalElement_model.basisFunction, PhysicalElement_model.basisFunctionOf, getSolution, getSolutionDeriv, getPointPhysical, getJacobian,
        getTransposeJacobian, getInverseTransposeJacobian, getJacobianDet, getJacobianAbsDet; rewrite ?N; try apply sim_none.
      destruct F as [_ _ FP]. rewrite W in FP. destruct FP as (P0 & _). unfold getPointReference. rewrite P0. apply sim_none. }
  destruct (Y w eq_refl) as (p & Ep & P0 & R).
  assert (Sums : forall k (both : Prop), (both -> counts_equal e) ->
    sim both (fun q l => snd q = l /\ keeps c e s (fst q)) (sum_up m e k s) (sum_of c e p w k)).
  { intros k both B. eapply sim_imp; [exact B|]. now apply sum_right. }
  assert (B0 : equal_counts m c -> counts_equal e) by (intros B n n' Hn Hn'; apply (B a e n n'); assumption).
  destruct g; cbn [asks] in K; try contradiction; cbn [PhysicalElement_model.get denote]; rewrite ?Ea, ?W; cbn [bind]; rewrite ?Ee; cbn [bind]; rewrite ?Ep; cbn [bind].
  - eapply sim_map; [eapply sim_imp; [exact B0|apply (shared_right m c e p w k i s R G F W U)]|].
    intros q b (<- & Kp). cbn. split; [reflexivity|]. now apply (settled_keeps m c e s (fst q) a).
  - eapply sim_map; [eapply sim_imp; [|apply (of_right m c e p w k i u s R G F W U)]; auto|].
    intros q b (<- & Kp). cbn. split; [reflexivity|]. now apply (settled_keeps m c e s (fst q) a).
  - unfold getSolution. rewrite R. cbn [bind fst]. destruct (hasSolution s) eqn:H.
    + destruct (sol_v _ _ _ L H) as (p' & w' & P1 & W1 & E). rewrite P0 in P1. injection P1 as <-. rewrite W in W1. injection W1 as <-.
      rewrite E. cbn. apply sim_some. cbn. split; [reflexivity|]. exists a, e. repeat (split; [assumption|]). assumption.
    + unfold answered. specialize (Sums Value (legal m c GetSolution) B0).
      destruct Sums as (S1 & S2). split.
      * intros z Hz. destruct (sum_up m e Value s) as [[s1 l1]|]; [|discriminate]. destruct (S1 _ eq_refl) as (l & El & <- & (G1 & C1 & So1 & U1)).
        rewrite El. cbn in Hz. injection Hz as <-. cbn. exists (ASolution l1). split; [reflexivity|]. split; [reflexivity|].
        assert (C1' := C1). unfold core in C1'. cbn in C1'. assert (P1 : pointReference_ s1 = pointReference_ s) by congruence.
        exists a, e. split; [assumption|]. split; [assumption|]. split; [|split; [|split]].
        -- eapply geo_solution; [exact G1|reflexivity|reflexivity].
        -- destruct U1. split; assumption.
        -- assert (L1 := sols_same _ _ _ _ C1 So1 L). destruct L1 as [L1 L2]. split; cbn.
           ++ intros _. exists p, w. rewrite P1. repeat split; assumption.
           ++ exact L2.
        -- destruct (sizes_core e s s1 C1 Z). split; cbn; assumption.
      * intros B z Hz. destruct (sum_of c e p w Value) as [l|] eqn:Es; [|discriminate]. destruct (S2 B _ eq_refl) as ([s1 l1] & El & Hl & (G1 & C1 & So1 & U1)).
        cbn in Hl. subst l1. rewrite El. cbn in Hz. injection Hz as <-. cbn. eexists. split; [reflexivity|]. split; [reflexivity|].
        assert (C1' := C1). unfold core in C1'. cbn in C1'. assert (P1 : pointReference_ s1 = pointReference_ s) by congruence.
        exists a, e. split; [assumption|]. split; [assumption|]. split; [|split; [|split]].
        -- eapply geo_solution; [exact G1|reflexivity|reflexivity].
        -- destruct U1. split; assumption.
        -- assert (L1 := sols_same _ _ _ _ C1 So1 L). destruct L1 as [L1 L2]. split; cbn.
           ++ intros _. exists p, w. rewrite P1. repeat split; assumption.
           ++ exact L2.
        -- destruct (sizes_core e s s1 C1 Z). split; cbn; assumption.
  - unfold getSolutionDeriv. rewrite R. cbn [bind fst]. destruct (hasSolutionDeriv s) eqn:H.
    + destruct (sol_d _ _ _ L H) as (p' & w' & P1 & W1 & E). rewrite P0 in P1. injection P1 as <-. rewrite W in W1. injection W1 as <-.
      rewrite E. cbn. apply sim_some. cbn. split; [reflexivity|]. exists a, e. repeat (split; [assumption|]). assumption.
    + unfold answered. specialize (Sums Deriv (legal m c GetSolutionDeriv) B0).
      destruct Sums as (S1 & S2). split.
      * intros z Hz. destruct (sum_up m e Deriv s) as [[s1 l1]|]; [|discriminate]. destruct (S1 _ eq_refl) as (l & El & <- & (G1 & C1 & So1 & U1)).
        rewrite El. cbn in Hz. injection Hz as <-. cbn. exists (ASolution l1). split; [reflexivity|]. split; [reflexivity|].
        assert (C1' := C1). unfold core in C1'. cbn in C1'. assert (P1 : pointReference_ s1 = pointReference_ s) by congruence.
        exists a, e. split; [assumption|]. split; [assumption|]. split; [|split; [|split]].
        -- eapply geo_solution; [exact G1|reflexivity|reflexivity].
        -- destruct U1. split; assumption.
        -- assert (L1 := sols_same _ _ _ _ C1 So1 L). destruct L1 as [L1 L2]. split; cbn.
           ++ exact L1.
           ++ intros _. exists p, w. rewrite P1. repeat split; assumption.
        -- destruct (sizes_core e s s1 C1 Z). split; cbn; assumption.
      * intros B z Hz. destruct (sum_of c e p w Deriv) as [l|] eqn:Es; [|discriminate]. destruct (S2 B _ eq_refl) as ([s1 l1] & El & Hl & (G1 & C1 & So1 & U1)).
        cbn in Hl. subst l1. rewrite El. cbn in Hz. injection Hz as <-. cbn. eexists. split; [reflexivity|]. split; [reflexivity|].
        assert (C1' := C1). unfold core in C1'. cbn in C1'. assert (P1 : pointReference_ s1 = pointReference_ s) by congruence.
        exists a, e. split; [assumption|]. split; [assumption|]. split; [|split; [|split]].
        -- eapply geo_solution; [exact G1|reflexivity|reflexivity].
        -- destruct U1. split; assumption.
        -- assert (L1 := sols_same _ _ _ _ C1 So1 L). destruct L1 as [L1 L2]. split; cbn.
           ++ exact L1.
           ++ intros _. exists p, w. rewrite P1. repeat split; try assumption.
        -- destruct (sizes_core e s s1 C1 Z). split; cbn; assumption.
  - unfold getPointReference. rewrite P0. apply sim_some. cbn. split; [reflexivity|]. exists a, e. repeat (split; [assumption|]). assumption.
  - apply (Geo _ APhysical _ _ p). now apply physical_right.
  - apply (Geo _ AJacobian _ _ p). now apply jacobian_right.
  - apply (Geo _ AJacobian _ _ p). now apply transpose_right.
  - apply (Geo _ AJacobian _ _ p). now apply inverse_right.
  - apply (Geo _ ADet _ _ p). now apply det_right.
  - apply (Geo _ ADet _ _ p). now apply abs_right.
Qed.

(** the setters *)
Lemma at_all : forall (h : kind -> list bool) (r : kind -> list bool) k,
  at_kind (at_kind (at_kind (at_kind (at_kind h Value (r Value)) VectorValue (r VectorValue)) Deriv (r Deriv)) Curl (r Curl)) Div (r Div) k = r k.
Proof. intros h r []; reflexivity. Qed.

Record no_functions (e : element) (s : state) : Prop := {
  nof_length : forall k, length (hasFunction s k) = unknowns e;
  nof_false : forall k u, nth_error (hasFunction s k) u <> Some true;
  nof_rows : forall k u n, nth_error (nb (edata e)) u = Some n -> exists row, nth_error (values s k) u = Some row /\ length row = n }.
Lemma no_functions_funs : forall c e s, no_functions e s -> funs c e s.
Proof. intros c e s [H1 H2 H3]. split; auto. intros k u H. now apply H2 in H. Qed.
Lemma no_sols : forall c e s, hasSolution s = false -> hasSolutionDeriv s = false -> sols c e s.
Proof. intros c e s H1 H2. split; congruence. Qed.
Lemma no_geo : forall e s, hasJacobian s = false -> hasTransposeJacobian s = false -> hasInverseTransposeJacobian s = false ->
  hasJacobianDet s = false -> hasJacobianAbsDet s = false -> hasPointPhysical s = false -> geo e s.
Proof. intros. split; congruence. Qed.

Lemma sizes_zero : forall e s, sizes e s -> sizes e (zero_results zero mul s).
Proof.
  intros e s [H1 H2 H3 H4]. unfold zero_results, with_results. split; cbn.
  - destruct (hasElementMatrix s); assumption.
  - destruct (hasElementMatrix s); assumption.
  - destruct (hasElementMatrix s); cbn; rewrite ?map_length; assumption.
  - destruct (hasElementVector s); rewrite ?map_length; assumption.
Qed.

Lemma point_frame : forall m p (s s' : state), setPointReference zero mul m p s = Some s' ->
  theElement_ s' = theElement_ s /\ pointReference_ s' = Some p /\ quadratureRule_ s' = quadratureRule_ s /\
  faceToElementMap_ s' = faceToElementMap_ s /\ quadraturePointIndex_ s' = quadraturePointIndex_ s /\ hasQuadratureRule s' = false /\
  doesMap s' = doesMap s /\ transform_ s' = transform_ s.
Proof.
  intros m p s s' H. unfold setPointReference in H. destruct (theElement_ s) as [a|] eqn:Ea; [|discriminate]. cbn [bind] in H.
  destruct (m a) as [e|]; [|discriminate]. cbn [bind] in H. injection H as <-. cbn. auto 10.
Qed.

Lemma point_settled : forall m a e c' p s s', theElement_ s = Some a -> m a = Some e -> on c' = Some a ->
  (forall k u n, nth_error (nb (edata e)) u = Some n -> exists row, nth_error (values s k) u = Some row /\ length row = n) ->
  sizes e s ->
  setPointReference zero mul m p s = Some s' -> settled m c' s'.
Proof.
  intros m a e c' p s s' Ea Ee E' Rows Z H. unfold setPointReference in H. rewrite Ea in H. cbn [bind] in H. rewrite Ee in H. cbn [bind] in H.
  injection H as <-. exists a, e. repeat (split; [assumption|]).
  split; [apply no_geo; reflexivity|]. split; [|split; [apply no_sols; reflexivity|]].
  - apply no_functions_funs. split; cbn.
    + intro k. rewrite (at_all _ (fun _ => repeat false (unknowns e))). apply repeat_length.
    + intros k u H. rewrite (at_all _ (fun _ => repeat false (unknowns e))) in H. now apply nth_repeat_inv in H.
    + exact Rows.
  - apply sizes_zero. destruct Z. split; assumption.
Qed.

Lemma with_rule_settled : forall m c s q mm i h d, settled m c s -> settled m c (with_rule s q mm i h d).
Proof.
  intros m c s q mm i h d (a & e & Ea & Ee & G & U & L & Z). exists a, e. repeat (split; [assumption|]).
  split; [eapply geo_solution; [exact G|reflexivity|reflexivity]|]. split; [destruct U; split; assumption|].
  split; [destruct L; split; assumption|destruct Z; split; assumption].
Qed.

Lemma index_right : forall m i s s' (c : settings) w',
  setQuadraturePointIndex zero mul getPoint mapPoint m i s = Some s' ->
  theElement_ s = on c -> (forall u, join (nth_error (transform_ s) u) = transforms c u) ->
  (forall q, quadratureRule_ s = Some q -> doesMap s = false -> w' = Rule q i) ->
  (forall q mm, quadratureRule_ s = Some q -> doesMap s = true -> faceToElementMap_ s = Some mm -> w' = FaceRule q i mm) ->
  let c' := Settings (on c) (Some w') (transforms c) (unchanged c) in
  frame c' s' /\
  forall a e, on c = Some a -> m a = Some e ->
  (forall k u n, nth_error (nb (edata e)) u = Some n -> exists row, nth_error (values s k) u = Some row /\ length row = n) ->
  sizes e s -> settled m c' s'.
Proof.
  intros m i s s' c w' H F1 F2 W1 W2 c'. unfold setQuadraturePointIndex in H. destruct (hasQuadratureRule s) eqn:Hq; [|discriminate].
  cbn [with_rule quadratureRule_ doesMap faceToElementMap_] in H.
  destruct (quadratureRule_ s) as [q|] eqn:Eq; [|discriminate]. cbn [bind] in H.
  destruct (getPoint q i) as [p|] eqn:Ep; [|discriminate]. cbn [bind] in H.
  set (s0 := with_rule s (Some q) (faceToElementMap_ s) i true (doesMap s)) in *.
  assert (K : forall p', point_of w' = Some p' -> forall s1, setPointReference zero mul m p' s0 = Some s1 ->
    Some (with_rule s1 (quadratureRule_ s1) (faceToElementMap_ s1) (quadraturePointIndex_ s1) true (doesMap s1)) = Some s' ->
    (if doesMap s then exists mm, faceToElementMap_ s = Some mm /\ w' = FaceRule q i mm else w' = Rule q i) ->
    frame c' s' /\
    forall a e, on c = Some a -> m a = Some e ->
    (forall k u n, nth_error (nb (edata e)) u = Some n -> exists row, nth_error (values s k) u = Some row /\ length row = n) ->
    sizes e s -> settled m c' s').
  { intros p' Ep' s1 E1 E2 Hw. injection E2 as <-. pose proof (point_frame _ _ _ _ E1) as (K1 & K2 & K3 & K4 & K5 & K6 & K7 & K8). cbn in K1, K3, K4, K5, K7, K8.
    split.
    - split; cbn.
      + congruence.
      + intro u. rewrite K8. apply F2.
      + rewrite Ep'. split; [exact K2|]. split; [discriminate|]. unfold current. cbn. rewrite K3, K7, K4, K5. cbn. destruct (doesMap s).
        * destruct Hw as (mm & -> & ->). split; reflexivity.
        * rewrite Hw. split; reflexivity.
    - intros a e Ea Ee Rows Z. apply with_rule_settled. apply (point_settled m a e c' p' s0 s1); cbn; auto; try congruence.
      destruct Z. split; assumption. }
  destruct (doesMap s) eqn:Hd.
  - destruct (faceToElementMap_ s) as [mm|] eqn:Em; [|discriminate]. cbn [bind] in H.
    assert (w' = FaceRule q i mm) as Hw by (apply W2; auto).
    destruct (setPointReference zero mul m (mapPoint mm p) s0) as [s1|] eqn:E1; [|discriminate]. cbn [bind] in H.
    eapply K; [|exact E1|exact H|exists mm; split; [reflexivity|exact Hw]]. rewrite Hw. cbn. now rewrite Ep.
  - assert (w' = Rule q i) as Hw by (apply W1; auto).
    destruct (setPointReference zero mul m p s0) as [s1|] eqn:E1; [|discriminate]. cbn [bind] in H.
    eapply K; [|exact E1|exact H|exact Hw]. rewrite Hw. exact Ep.
Qed.

Lemma vresize_nth {Y} : forall (l : list Y) n x i, i < n -> exists y, nth_error (vresize l n x) i = Some y.
Proof.
  intros l n x i H. destruct (nth_error (vresize l n x) i) as [y|] eqn:E; [now exists y|].
  apply nth_error_None in E. rewrite vresize_length in E. lia.
Qed.
Lemma nth_combine {Y Z} : forall (l : list Y) (l' : list Z) i y z, nth_error l i = Some y -> nth_error l' i = Some z ->
  nth_error (combine l l') i = Some (y, z).
Proof. induction l as [|a l IH]; intros [|b l'] [|i] y z H H'; cbn in *; try discriminate; [congruence|]. now apply IH. Qed.

Lemma set_right : forall m o c s s', inv m c s -> set m o s = Some s' -> inv m (follow c (Set_ o : @event A V P X J D Q M)) s'.
Proof.
  intros m o c s s' (F & S) H. destruct o as [p|a|t u|q|q mm|i]; cbn [PhysicalElement_model.set follow] in *.
  - pose proof (point_frame _ _ _ _ H) as (K1 & K2 & K3 & K4 & K5 & K6 & K7 & K8). split.
    + destruct F as [F1 F2 _]. split; cbn; [congruence|intro u; rewrite K8; apply F2|].
      split; [exact K2|]. split; [discriminate|]. split; [|exact K6]. unfold current. now rewrite K6, K2.
    + cbn. intro Hu. destruct (S Hu) as (a & e & Ea & Ee & G & U & L & Z).
      apply (point_settled m a e _ p s s'); cbn; auto; [destruct F; congruence|apply (fun_rows _ _ _ U)].
  - unfold setElement in H. destruct (m a) as [e|] eqn:Ee; [|discriminate]. cbn [bind] in H. injection H as <-. split.
    + destruct F as [F1 F2 FP]. split; cbn; [reflexivity|exact F2|]. exact FP.
    + intros _. exists a, e. split; [reflexivity|]. split; [exact Ee|]. split; [apply no_geo; reflexivity|].
      split; [|split; [apply no_sols; reflexivity|]].
      * apply no_functions_funs. split; cbn.
        -- intro k. rewrite (at_all _ (fun _ => repeat false (unknowns e))). apply repeat_length.
        -- intros k u H. rewrite (at_all _ (fun _ => repeat false (unknowns e))) in H. now apply nth_repeat_inv in H.
        -- intros k u n Hn. assert (Lu : u < unknowns e) by (unfold unknowns; apply nth_error_Some; congruence).
           assert (K : forall l : list (list V), exists row, nth_error (resize_values vzero e l) u = Some row /\ length row = n).
           { intro l. destruct (vresize_nth l (unknowns e) [] u Lu) as (r & Hr). exists (vresize r n vzero). split; [|apply vresize_length].
             unfold resize_values. rewrite (map_nth_error (fun rn => vresize (fst rn) (snd rn) vzero) u _ (nth_combine _ _ _ _ _ Hr Hn)). reflexivity. }
           destruct k; cbn; apply K.
      * apply sizes_zero. split; cbn; [reflexivity|reflexivity|apply vresize_length|apply vresize_length].
  - unfold setTransformation in H.
    destruct (if length (transform_ s) <=? u then _ else _) as [l|] eqn:El in H; [|discriminate]. cbn [bind] in H. injection H as <-.
    split.
    + destruct F as [F1 F2 FP]. split; cbn; [exact F1| |exact FP].
      intro v. assert (K : write (vresize (transform_ s) (Datatypes.S u) None) u (Some t) = Some l /\ length (transform_ s) <= u \/ write (transform_ s) u (Some t) = Some l).
      { destruct (length (transform_ s) <=? u) eqn:Le; [|right; exact El]. destruct (theElement_ s); [discriminate|]. left. apply Nat.leb_le in Le. split; assumption. }
      destruct (Nat.eqb_spec v u) as [->|Nv].
      * assert (Hn : nth_error l u = Some (Some t)) by (destruct K as [(K & _)|K]; destruct (write_nth _ _ _ _ K) as (_ & _ & Hn & _); exact Hn). now rewrite Hn.
      * rewrite <- F2. destruct K as [(K & Le)|K]; destruct (write_nth _ _ _ _ K) as (_ & _ & _ & O); rewrite (O v Nv); [|reflexivity].
        unfold vresize. rewrite firstn_all2 by lia. destruct (Nat.lt_ge_cases v (length (transform_ s))) as [Hl|Hl].
        -- now rewrite nth_error_app1.
        -- rewrite nth_error_app2 by assumption. rewrite (proj2 (nth_error_None (transform_ s) v)) by assumption.
           destruct (nth_error (repeat None _) _) as [z|] eqn:Ez; [|reflexivity]. apply nth_repeat_inv in Ez. now rewrite Ez.
    + cbn. intro Hu. destruct (S Hu) as (a & e & Ea & Ee & G & U & L & Z). exists a, e. split; [exact Ea|]. split; [exact Ee|].
      split; [eapply geo_solution; [exact G|reflexivity|reflexivity]|]. split; [|split; [apply no_sols; reflexivity|]].
      * apply no_functions_funs. split; cbn.
        -- intro k. destruct k; cbn; rewrite repeat_length; apply (fun_length _ _ _ U).
        -- intros k u' H. destruct k; cbn in H; now apply nth_repeat_inv in H.
        -- apply (fun_rows _ _ _ U).
      * apply sizes_zero. destruct Z. split; assumption.
  - destruct F as [F1 F2 FP].
    destruct (index_right m 0 _ s' c (Rule q 0) H F1 F2) as (K1 & K2).
    + intros q' E _. cbn in E. congruence.
    + intros q' mm _ E. discriminate.
    + split; [exact K1|]. cbn. intro Hu. destruct (S Hu) as (a & e & Ea & Ee & G & U & L & Z). apply (K2 a e Ea Ee).
      * apply (fun_rows _ _ _ U).
      * destruct Z. split; assumption.
  - destruct F as [F1 F2 FP].
    destruct (index_right m 0 _ s' c (FaceRule q 0 mm) H F1 F2) as (K1 & K2).
    + intros q' _ E. discriminate.
    + intros q' mm' E _ E'. cbn in E, E'. congruence.
    + split; [exact K1|]. cbn. intro Hu. destruct (S Hu) as (a & e & Ea & Ee & G & U & L & Z). apply (K2 a e Ea Ee).
      * apply (fun_rows _ _ _ U).
      * destruct Z. split; assumption.
  - destruct F as [F1 F2 FP].
    assert (Hq : hasQuadratureRule s = true) by (unfold setQuadraturePointIndex in H; destruct (hasQuadratureRule s); [reflexivity|discriminate]).
    assert (exists w', (match where_ c with Some (Rule q _) => Some (Rule q i) | Some (FaceRule q _ m) => Some (FaceRule q i m) | w => w end) = Some w' /\
      (forall q, quadratureRule_ s = Some q -> doesMap s = false -> w' = Rule q i) /\
      (forall q mm, quadratureRule_ s = Some q -> doesMap s = true -> faceToElementMap_ s = Some mm -> w' = FaceRule q i mm)) as (w' & -> & W1 & W2).
    { destruct (where_ c) as [[p|q j|q j mm]|].
      - destruct FP as (_ & _ & _ & E). congruence.
      - destruct FP as (_ & _ & Ec & _). unfold current in Ec. rewrite Hq in Ec. destruct (quadratureRule_ s) as [q0|]; [|discriminate]. cbn in Ec.
        destruct (doesMap s); [destruct (faceToElementMap_ s); discriminate|]. injection Ec as -> _. exists (Rule q i). repeat split; congruence.
      - destruct FP as (_ & _ & Ec & _). unfold current in Ec. rewrite Hq in Ec. destruct (quadratureRule_ s) as [q0|]; [|discriminate]. cbn in Ec.
        destruct (doesMap s); [|discriminate]. destruct (faceToElementMap_ s); [|discriminate]. cbn in Ec. injection Ec as -> _ ->. exists (FaceRule q i mm). repeat split; congruence.
      - destruct FP as (_ & E). congruence. }
    destruct (index_right m i s s' c w' H F1 F2 W1 W2) as (K1 & K2). split; [exact K1|]. cbn. intro Hu.
    destruct (S Hu) as (a & e & Ea & Ee & G & U & L & Z). apply (K2 a e Ea Ee); [apply (fun_rows _ _ _ U)|exact Z].
Qed.

(** histories *)
Lemma with_results_frame : forall c s a b d e, frame c s -> frame c (with_results s a b d e).
Proof. intros c s a b d e [F1 F2 F3]. split; assumption. Qed.
Lemma with_results_settled : forall m c s M' b v d, settled m c s ->
  (nrows M' = nrows (resultMatrix s) /\ ncols M' = ncols (resultMatrix s) /\ length (data M') = length (data (resultMatrix s))) ->
  length v = length (resultVector s) -> settled m c (with_results s M' b v d).
Proof.
  intros m c s M' b v d (a & e & Ea & Ee & G & U & L & Z) (E1 & E2 & E3) E4. exists a, e. repeat (split; [assumption|]).
  split; [eapply geo_solution; [exact G|reflexivity|reflexivity]|]. split; [destruct U; split; assumption|].
  split; [destruct L; split; assumption|]. destruct Z. split; cbn; congruence.
Qed.

Lemma step_right : forall o c w w', inv (fst w) c (snd w) -> step o w = Some w' -> inv (fst w') (follow c o) (snd w').
Proof.
  intros o c [m s] w' (F & S) H. cbn [fst snd] in *. destruct o as [o|g|M'|v|a e]; cbn [PhysicalElement_model.step fst snd] in H.
  - destruct (set m o s) as [s1|] eqn:E; [|discriminate]. cbn in H. injection H as <-. cbn [fst snd].
    apply (set_right m o c s s1); [split; assumption|exact E].
  - destruct (get m g s) as [[s1 a1]|] eqn:E; [|discriminate]. cbn in H. injection H as <-. cbn [fst snd follow].
    destruct (asks_dec g) as [K|[->| ->]].
    + split.
      * apply (frame_core c s s1); [exact (get_core m g s s1 a1 K E)|exact F].
      * intro Hu. destruct (get_right m c g s F (S Hu) K) as (R1 & _). destruct (R1 _ E) as (b & _ & _ & R). exact R.
    + cbn in E. unfold getResultMatrix in E. destruct (ready m s); [|discriminate]. cbn in E. destruct (hasElementMatrix s); [|discriminate].
      injection E as <- _. split; [now apply with_results_frame|]. intro Hu. apply with_results_settled; auto.
    + cbn in E. unfold getResultVector in E. destruct (ready m s); [|discriminate]. cbn in E. destruct (hasElementVector s); [|discriminate].
      injection E as <- _. split; [now apply with_results_frame|]. intro Hu. apply with_results_settled; auto.
  - unfold fillMatrix in H. destruct (hasElementMatrix s); [discriminate|].
    destruct ((nrows M' =? _) && (ncols M' =? _) && (length (data M') =? _)) eqn:Eq; [|discriminate]. cbn in H. injection H as <-. cbn [fst snd follow].
    apply andb_true_iff in Eq. destruct Eq as (Eq & E3). apply andb_true_iff in Eq. destruct Eq as (E1 & E2).
    apply Nat.eqb_eq in E1. apply Nat.eqb_eq in E2. apply Nat.eqb_eq in E3.
    split; [now apply with_results_frame|]. intro Hu. apply with_results_settled; auto.
  - unfold fillVector in H. destruct (hasElementVector s); [discriminate|]. destruct (length v =? _) eqn:E1; [|discriminate].
    apply Nat.eqb_eq in E1. cbn in H. injection H as <-. split; [now apply with_results_frame|]. intro Hu. apply with_results_settled; auto.
  - injection H as <-. cbn [fst snd follow]. split.
    + destruct F as [F1 F2 F3]. split; assumption.
    + cbn. intro Hu. assert (Hu' : unchanged c = true /\ forall b, on c = Some b -> b <> a).
      { destruct (on c) as [b|].
        - destruct (b =? a) eqn:Eb; [discriminate|]. apply Nat.eqb_neq in Eb. split; [exact Hu|]. intros b' E. congruence.
        - split; [exact Hu|]. discriminate. }
      destruct Hu' as (Hu' & N). destruct (S Hu') as (b & e' & Ea & Ee & G & U & L & Z). exists b, e'. split; [exact Ea|].
      split; [unfold change; destruct (Nat.eqb_spec b a); [now apply N in Ea|exact Ee]|]. split; [exact G|].
      split; [destruct U; split; assumption|]. split; [destruct L; split; assumption|exact Z].
Qed.

Lemma run_right : forall l c w w', inv (fst w) c (snd w) -> run l w = Some w' -> inv (fst w') (fold_left follow l c) (snd w').
Proof.
  induction l as [|o l IH]; intros c w w' H E; cbn in E.
  - injection E as <-. exact H.
  - destruct (step o w) as [w1|] eqn:E1; [|discriminate]. cbn in E. cbn [fold_left]. eapply IH; [|exact E]. now apply (step_right o c w w1).
Qed.

Lemma new_right : forall m h1, inv m (initially h1) (newPhysicalElement h1).
Proof.
  intros m h1. split; [|discriminate]. split; cbn; [reflexivity| |split; reflexivity]. intros [|[|u]]; reflexivity.
Qed.

Lemma history_right : forall h1 m0 l m s g, run l (m0, newPhysicalElement h1) = Some (m, s) ->
  unchanged (settings_after h1 l) = true -> asks g ->
  sim (legal m (settings_after h1 l) g) (fun q a => snd q = a) (get m g s) (denote m (settings_after h1 l) g).
Proof.
  intros h1 m0 l m s g H Hu K. pose proof (run_right l (initially h1) (m0, newPhysicalElement h1) (m, s) (new_right m0 h1) H) as (F & S). cbn [fst snd] in *.
  eapply sim_weaken; [|apply (get_right m _ g s F (S Hu) K)]. now intros a b (? & _).
Qed.

Lemma sim_equal {S T} : forall both (x : option (S * T)) y, sim both (fun q a => snd q = a) x y ->
  (forall a, (exists s, x = Some (s, a)) -> y = Some a) /\ (both -> forall a, y = Some a -> exists s, x = Some (s, a)).
Proof.
  intros both x y (H1 & H2). split.
  - intros a (s & ->). destruct (H1 _ eq_refl) as (b & -> & <-). reflexivity.
  - intros B a ->. destruct (H2 B a eq_refl) as ([s a'] & -> & E). cbn in E. subst. now exists s.
Qed.

Theorem answers_right : forall h1 (m0 : memory) l (m : memory) s g a, run l (m0, newPhysicalElement h1) = Some (m, s) ->
  unchanged (settings_after h1 l) = true -> asks_no_solution g ->
  ((exists s', get m g s = Some (s', a)) ->
   answers vzero vadd vscale transposed inverse determinant absolute getPoint mapPoint m (settings_after h1 l) g a) /\
  (legal m (settings_after h1 l) g ->
   answers vzero vadd vscale transposed inverse determinant absolute getPoint mapPoint m (settings_after h1 l) g a ->
   exists s', get m g s = Some (s', a)).
Proof.
  intros h1 m0 l m s g a H Hu K. assert (K' : asks g) by (destruct g; cbn in *; auto).
  destruct (sim_equal _ _ _ (history_right h1 m0 l m s g H Hu K')) as (H1 & H2). split.
  - intro E. apply denote_spec; [exact K|]. now apply H1.
  - intros L A0. apply (H2 L). apply denote_spec; assumption.
Qed.

Theorem solutions_right : forall h1 (m0 : memory) l (m : memory) s (d : bool) a, run l (m0, newPhysicalElement h1) = Some (m, s) ->
  let c := settings_after h1 l in
  let g := if d then GetSolutionDeriv else GetSolution in
  unchanged c = true ->
  (forall b e, on c = Some b -> m b = Some e -> interchangeable c e (if d then Deriv else Value)) ->
  (exists s', get m g s = Some (s', a)) <->
  answers vzero vadd vscale transposed inverse determinant absolute getPoint mapPoint m c g a.
Proof.
  intros h1 m0 l m s d a H c g Hu I. assert (K : asks g) by (unfold g; destruct d; exact Logic.I).
  destruct (sim_equal _ _ _ (history_right h1 m0 l m s g H Hu K)) as (H1 & H2). split.
  - intro E. apply (denote_solution m c d a I). now apply H1.
  - intro A0. apply H2; [|apply (denote_solution m c d a I); exact A0].
    assert (Q0 : equal_counts m c).
    { intros b e n n' Eb Ee Hn Hn'. specialize (I b e Eb Ee). apply In_nth_error in Hn. apply In_nth_error in Hn'.
      destruct Hn as (u & Hn). destruct Hn' as (u' & Hn').
      assert (Lu : u < unknowns e) by (unfold unknowns; apply nth_error_Some; congruence).
      assert (Lu' : u' < unknowns e) by (unfold unknowns; apply nth_error_Some; congruence).
      destruct (I u Lu) as (E1 & _). destruct (I u' Lu') as (E2 & _). congruence. }
    unfold g. destruct d; exact Q0.
Qed.

(** the same settings give the same answers *)
Lemma right_function_same : forall c c' e p w k u i, (forall u, transforms c u = transforms c' u) ->
  right_function c e p w k u i = right_function c' e p w k u i.
Proof.
  intros c c' e p w k u i H. unfold right_function, values_of. destruct (nth_error (nb (edata e)) u) as [n|]; [|reflexivity]. cbn.
  rewrite (collect_ext n (value_of c e p w k u) (value_of c' e p w k u)); [reflexivity|]. intros j _. unfold value_of. now rewrite H.
Qed.
Lemma part_same : forall c c' e p w k cs iV n x, (forall u, transforms c u = transforms c' u) ->
  part c e p w k cs iV n x = part c' e p w k cs iV n x.
Proof.
  intros c c' e p w k cs iV n x H. unfold part. induction n as [|n IH]; [reflexivity|]. rewrite !for_last, IH.
  clear IH. destruct (for_loop n _ x); [|reflexivity]. cbn. now rewrite (right_function_same c c' e p w k 0 n H).
Qed.
Lemma sum_of_same : forall c c' e p w k, (forall u, transforms c u = transforms c' u) -> sum_of c e p w k = sum_of c' e p w k.
Proof.
  intros c c' e p w k H. rewrite !sum_of_collect. destruct (nth_error (ti (edata e)) 0); [|reflexivity]. cbn. apply collect_ext.
  intros i _. destruct (nth_error (nb (edata e)) i); [|reflexivity]. cbn. now apply part_same.
Qed.
Lemma denote_same : forall (m m' : memory) (c c' : settings) g, on c = on c' -> where_ c = where_ c' -> (forall u, transforms c u = transforms c' u) ->
  (forall b, on c = Some b -> m b = m' b) -> denote m c g = denote m' c' g.
Proof.
  intros m m' c c' g E1 E2 E3 E4. unfold denote. rewrite <- E1, <- E2. destruct (on c) as [b|]; [|reflexivity]. cbn. rewrite <- (E4 b eq_refl).
  destruct g; try reflexivity; destruct (m b) as [e|]; try reflexivity; destruct (where_ c) as [w|]; try reflexivity; cbn;
    destruct (point_of w) as [p|]; try reflexivity; cbn; rewrite ?(right_function_same c c'), ?(sum_of_same c c') by assumption; reflexivity.
Qed.

Theorem history_independent : forall h1 (m1 m2 : memory) l1 l2 (m1' m2' : memory) s1 s2 g,
  run l1 (m1, newPhysicalElement h1) = Some (m1', s1) -> run l2 (m2, newPhysicalElement h1) = Some (m2', s2) ->
  let c1 := settings_after h1 l1 in let c2 := settings_after h1 l2 in
  unchanged c1 = true -> unchanged c2 = true ->
  on c1 = on c2 -> where_ c1 = where_ c2 -> (forall u, transforms c1 u = transforms c2 u) ->
  (forall b, on c1 = Some b -> m1' b = m2' b) -> asks g ->
  (forall a1 a2 s1' s2', get m1' g s1 = Some (s1', a1) -> get m2' g s2 = Some (s2', a2) -> a1 = a2) /\
  (legal m1' c1 g -> forall a, (exists s', get m1' g s1 = Some (s', a)) <-> (exists s', get m2' g s2 = Some (s', a))).
Proof.
  intros h1 m1 m2 l1 l2 m1' m2' s1 s2 g H1 H2 c1 c2 U1 U2 E1 E2 E3 E4 K.
  pose proof (denote_same m1' m2' c1 c2 g E1 E2 E3 E4) as Ed.
  destruct (sim_equal _ _ _ (history_right h1 m1 l1 m1' s1 g H1 U1 K)) as (A1 & A2).
  destruct (sim_equal _ _ _ (history_right h1 m2 l2 m2' s2 g H2 U2 K)) as (B1 & B2).
  fold c1 in A1, A2. fold c2 in B1, B2. rewrite Ed in A1, A2. split.
  - intros a1 a2 s1' s2' G1 G2. specialize (A1 a1 (ex_intro _ _ G1)). specialize (B1 a2 (ex_intro _ _ G2)). congruence.
  - intros L a. assert (L2 : legal m2' c2 g).
    { assert (Q0 : equal_counts m1' c1 -> equal_counts m2' c2).
      { intros Q0 b e n n' Eb Ee. apply (Q0 b e n n'); [now rewrite E1|]. rewrite E4; [exact Ee|]. now rewrite E1. }
      destruct g; cbn in *; auto. }
    split; intro E; [apply (B2 L2), A1|apply (A2 L), B1]; exact E.
Qed.

(** the result matrix and vector *)
Section Results.
Hypothesis mul_zero : forall x, mul x zero = zero.

Lemma zero_results_right : forall s, results s -> results (zero_results zero mul s).
Proof.
  intros s [R1 R2]. unfold zero_results, with_results. split; cbn; intros _.
  - destruct (hasElementMatrix s); [now apply R1|]. cbn. apply Forall_forall. intros x Hx. apply in_map_iff in Hx. destruct Hx as (y & <- & _). now rewrite mul_zero.
  - destruct (hasElementVector s); [now apply R2|]. apply Forall_forall. intros x Hx. apply in_map_iff in Hx. destruct Hx as (y & <- & _). now rewrite mul_zero.
Qed.
Lemma vresize_zero : forall n v, Forall (eq zero) v -> Forall (eq zero) (vresize v n zero).
Proof.
  intros n v H. apply Forall_forall. intros x Hx. apply vresize_in in Hx. destruct Hx as [Hx|Hx]; [|auto].
  rewrite Forall_forall in H. now apply H.
Qed.
Lemma point_results : forall m p s s', results s -> setPointReference zero mul m p s = Some s' -> results s'.
Proof.
  intros m p s s' R H. unfold setPointReference in H. inv_bind H. inv_bind H. injection H as <-. apply zero_results_right. destruct R. split; assumption.
Qed.
Lemma index_results : forall m i s s', results s -> setQuadraturePointIndex zero mul getPoint mapPoint m i s = Some s' -> results s'.
Proof.
  intros m i s s' R H. unfold setQuadraturePointIndex in H. destruct (hasQuadratureRule s); [|discriminate]. inv_bind H. inv_bind H.
  inv_bind H. injection H as <-.
  assert (K : results s0).
  { match goal with E : (if doesMap ?z then _ else _) = Some _ |- _ => destruct (doesMap z); [inv_bind E|] end;
    (eapply point_results; [|eassumption]); destruct R; split; assumption. }
  destruct K. split; assumption.
Qed.
Lemma step_results : forall o w w', results (snd w) -> step o w = Some w' -> results (snd w').
Proof.
  intros o [m s] w' R H. cbn [fst snd] in *. destruct o as [o|g|M'|v|a e]; cbn [PhysicalElement_model.step fst snd] in H.
  - destruct (set m o s) as [s1|] eqn:E; [|discriminate]. cbn in H. injection H as <-. cbn [fst snd].
    destruct o as [p|a|t u|q|q mm|i]; cbn [PhysicalElement_model.set] in E.
    + now apply (point_results m p s s1).
    + unfold setElement in E. inv_bind E. injection E as <-. apply zero_results_right. destruct R as [R1 R2]. split; cbn; intro H.
      * apply vresize_zero. auto.
      * apply vresize_zero. auto.
    + unfold setTransformation in E. inv_bind E. injection E as <-. apply zero_results_right. destruct R. split; assumption.
    + eapply index_results; [|exact E]. destruct R. split; assumption.
    + eapply index_results; [|exact E]. destruct R. split; assumption.
    + eapply index_results; [|exact E]. assumption.
  - destruct (get m g s) as [[s1 a1]|] eqn:E; [|discriminate]. cbn in H. injection H as <-. cbn [fst snd follow].
    destruct (asks_dec g) as [K|[->| ->]].
    + apply (results_core s s1); [exact (get_core m g s s1 a1 K E)|exact R].
    + cbn in E. unfold getResultMatrix in E. destruct (ready m s); [|discriminate]. cbn in E. destruct (hasElementMatrix s); [|discriminate].
      injection E as <- _. destruct R as [R1 R2]. split; cbn; [discriminate|exact R2].
    + cbn in E. unfold getResultVector in E. destruct (ready m s); [|discriminate]. cbn in E. destruct (hasElementVector s); [|discriminate].
      injection E as <- _. destruct R as [R1 R2]. split; cbn; [exact R1|discriminate].
  - unfold fillMatrix in H. destruct (hasElementMatrix s); [discriminate|]. destruct (_ && _ && _); [|discriminate]. cbn in H. injection H as <-.
    destruct R as [R1 R2]. split; cbn; [discriminate|exact R2].
  - unfold fillVector in H. destruct (hasElementVector s); [discriminate|]. destruct (length v =? _); [|discriminate]. cbn in H. injection H as <-.
    destruct R as [R1 R2]. split; cbn; [exact R1|discriminate].
  - injection H as <-. exact R.
Qed.
Lemma run_results : forall l w w', results (snd w) -> run l w = Some w' -> results (snd w').
Proof.
  induction l as [|o l IH]; intros w w' R E; cbn in E; [now injection E as <-|].
  destruct (step o w) as [w1|] eqn:E1; [|discriminate]. cbn in E. apply (IH w1); [|exact E]. now apply (step_results o w).
Qed.

Lemma total_sum : forall E : @ElementData A, total E = list_sum (nb E).
Proof.
  intro E. unfold total. assert (K : forall l k, fold_left (fun number index => number + index) l k = k + list_sum l).
  { induction l as [|n l IH]; intro k; cbn; [lia|]. rewrite IH. unfold list_sum. lia. }
  now rewrite K.
Qed.

Theorem matrix_right : forall h1 (m0 : memory) l (m : memory) s s' r, run l (m0, newPhysicalElement h1) = Some (m, s) ->
  get m GetResultMatrix s = Some (s', AMatrix r) ->
  (forall x, In x (data r) -> x = zero) /\
  forall b e, unchanged (settings_after h1 l) = true -> on (settings_after h1 l) = Some b -> m b = Some e ->
  let n := list_sum (nb (edata e)) in nrows r = n /\ ncols r = n /\ length (data r) = n * n.
Proof.
  intros h1 m0 l m s s' r H G.
  assert (R : results s) by (apply (run_results l (m0, newPhysicalElement h1) (m, s)); [split; discriminate|exact H]).
  pose proof (run_right l (initially h1) (m0, newPhysicalElement h1) (m, s) (new_right m0 h1) H) as (F & S). cbn [fst snd] in *.
  cbn in G. unfold getResultMatrix in G. destruct (ready m s); [|discriminate]. cbn in G. destruct (hasElementMatrix s) eqn:Hm; [|discriminate].
  injection G as _ <-. split.
  - intros x Hx. pose proof (res_m _ R Hm) as Z. rewrite Forall_forall in Z. symmetry. now apply Z.
  - intros b e Hu Eb Ee. destruct (S Hu) as (b' & e' & Eb' & Ee' & _ & _ & _ & Z).
    unfold settings_after in Eb. rewrite Eb in Eb'. injection Eb' as <-. rewrite Ee in Ee'. injection Ee' as <-.
    destruct Z as [Z1 Z2 Z3 _]. rewrite total_sum in Z1, Z2, Z3. auto.
Qed.
Theorem vector_right : forall h1 (m0 : memory) l (m : memory) s s' r, run l (m0, newPhysicalElement h1) = Some (m, s) ->
  get m GetResultVector s = Some (s', AVector r) ->
  (forall x, In x r -> x = zero) /\
  forall b e, unchanged (settings_after h1 l) = true -> on (settings_after h1 l) = Some b -> m b = Some e ->
  length r = list_sum (nb (edata e)).
Proof.
  intros h1 m0 l m s s' r H G.
  assert (R : results s) by (apply (run_results l (m0, newPhysicalElement h1) (m, s)); [split; discriminate|exact H]).
  pose proof (run_right l (initially h1) (m0, newPhysicalElement h1) (m, s) (new_right m0 h1) H) as (F & S). cbn [fst snd] in *.
  cbn in G. unfold getResultVector in G. destruct (ready m s); [|discriminate]. cbn in G. destruct (hasElementVector s) eqn:Hm; [|discriminate].
  injection G as _ <-. split.
  - intros x Hx. pose proof (res_v _ R Hm) as Z. rewrite Forall_forall in Z. symmetry. now apply Z.
  - intros b e Hu Eb Ee. destruct (S Hu) as (b' & e' & Eb' & Ee' & _ & _ & _ & Z).
    unfold settings_after in Eb. rewrite Eb in Eb'. injection Eb' as <-. rewrite Ee in Ee'. injection Ee' as <-.
    destruct Z as [_ _ _ Z4]. rewrite total_sum in Z4. auto.
Qed.
End Results.
End Proofs.
