From Coq Require Import List Arith Bool QArith Qcanon Lia.
From Verif Require Import Tableau_model Tableau_spec.
Import ListNotations.
Local Open Scope nat_scope.

(** ** Enumeration of rooted trees by number of nodes *)
Fixpoint forests (fuel n : nat) : list (list tree) :=
  match fuel with
  | 0 => []
  | S fuel =>
      match n with
      | 0 => [[]]
      | S m =>
          flat_map (fun k => flat_map (fun f => map (fun r => Node f :: r) (forests fuel (m - k)))
                                      (forests fuel k)) (seq 0 (S m))
      end
  end.
Definition trees_upto (p : nat) : list tree :=
  flat_map (fun n => map Node (forests (S n) n)) (seq 0 p).

Lemma nodes_node : forall l, nodes (Node l) = S (list_sum (map nodes l)).
Proof. reflexivity. Qed.

Lemma forests_complete : forall fuel l,
  list_sum (map nodes l) < fuel -> In l (forests fuel (list_sum (map nodes l))).
Proof.
  induction fuel as [|fuel IH]; intros l H; [lia|].
  destruct l as [|[f] r].
  - cbn. auto.
  - cbn [map list_sum fold_right] in *. rewrite nodes_node in *.
    change (fold_right Nat.add 0 (map nodes r)) with (list_sum (map nodes r)) in *.
    cbn [forests Nat.add]. apply in_flat_map. exists (list_sum (map nodes f)). split.
    + apply in_seq. lia.
    + apply in_flat_map. exists f. split; [apply IH; lia|].
      apply in_map_iff. exists r. split; [reflexivity|].
      replace (list_sum (map nodes f) + list_sum (map nodes r) - list_sum (map nodes f))
        with (list_sum (map nodes r)) by lia.
      apply IH. lia.
Qed.

Lemma trees_upto_complete : forall p t, nodes t <= p -> In t (trees_upto p).
Proof.
  intros p [l] H. rewrite nodes_node in H. apply in_flat_map.
  exists (list_sum (map nodes l)). split; [apply in_seq; lia|].
  apply in_map. apply forests_complete. lia.
Qed.

Definition order_check (s : nat) (a : nat -> nat -> Qc) (b : nat -> Qc) (p : nat) : bool :=
  forallb (fun t => Qeq_bool (weight s a b t * of_nat (density t))%Qc 1%Qc) (trees_upto p).

Lemma order_check_ok : forall s a b p, order_check s a b p = true -> has_order s a b p.
Proof.
  intros s a b p H t Ht. unfold order_check in H. rewrite forallb_forall in H.
  specialize (H t (trees_upto_complete p t Ht)). apply Qc_is_canon. apply Qeq_bool_iff. exact H.
Qed.

(** ** Reading the tables *)
Definition ca (T : Tableau Qc) (i j : nat) : Qc :=
  match getA T i j with Some x => x | None => 0%Qc end.
Definition cb (T : Tableau Qc) (i : nat) : Qc := match getB T i with Some x => x | None => 0%Qc end.
Definition cc (T : Tableau Qc) (i : nat) : Qc := match getC T i with Some x => x | None => 0%Qc end.
Definition ce (T : Tableau Qc) (i : nat) : Qc := match getErrorCoefficient T i with Some x => x | None => 0%Qc end.

Definition is_some {A} (o : option A) : bool := match o with Some _ => true | None => false end.
Definition table_check (T : Tableau Qc) : bool :=
  forallb (fun i => is_some (getB T i) && is_some (getC T i) && forallb (fun j => is_some (getA T i j)) (seq 0 i))
          (seq 0 (numberOfStages T)).

Lemma coefficients_unique : forall T a b c, coefficients T a b c ->
  (forall i j, i < numberOfStages T -> j < numberOfStages T -> a i j = ca T i j) /\
  (forall i, i < numberOfStages T -> b i = cb T i) /\ (forall i, i < numberOfStages T -> c i = cc T i).
Proof.
  intros T a b c (Ha & Hz & Hb & Hc). repeat split.
  - intros i j Hi Hj. unfold ca. rewrite Ha. apply Nat.ltb_lt in Hi. rewrite Hi. cbn [andb].
    destruct (Nat.ltb_spec j i); [reflexivity|]. apply Hz. lia.
  - intros i Hi. unfold cb. rewrite Hb. apply Nat.ltb_lt in Hi. rewrite Hi. reflexivity.
  - intros i Hi. unfold cc. rewrite Hc. apply Nat.ltb_lt in Hi. rewrite Hi. reflexivity.
Qed.

Lemma table_check_ok : forall T, table_check T = true -> coefficients T (ca T) (cb T) (cc T).
Proof.
  intros T H. unfold table_check in H. rewrite forallb_forall in H.
  assert (Hi : forall i, i < numberOfStages T ->
    (exists x, getB T i = Some x) /\ (exists x, getC T i = Some x) /\
    (forall j, j < i -> exists x, getA T i j = Some x)).
  { intros i Hi. specialize (H i ltac:(apply in_seq; lia)).
    apply andb_prop in H as [H H3]. apply andb_prop in H as [H1 H2].
    rewrite forallb_forall in H3. repeat split.
    - destruct (getB T i); [eauto|discriminate].
    - destruct (getC T i); [eauto|discriminate].
    - intros j Hj. specialize (H3 j ltac:(apply in_seq; lia)).
      destruct (getA T i j); [eauto|discriminate]. }
  unfold coefficients. repeat split.
  - intros i j. destruct (Nat.ltb_spec i (numberOfStages T)) as [L|L]; cbn [andb].
    + destruct (Nat.ltb_spec j i) as [L'|L'].
      * destruct (Hi i L) as (_ & _ & Hx). destruct (Hx j L') as [x Hx']. unfold ca. rewrite Hx'. reflexivity.
      * unfold getA. destruct (Nat.ltb_spec j i); [lia|]. rewrite andb_false_r. reflexivity.
    + unfold getA. destruct (Nat.ltb_spec i (numberOfStages T)); [lia|]. reflexivity.
  - intros i j L. unfold ca, getA. destruct (Nat.ltb_spec j i); [lia|]. rewrite andb_false_r. reflexivity.
  - intros i. destruct (Nat.ltb_spec i (numberOfStages T)) as [L|L].
    + destruct (Hi i L) as ([x Hx] & _). unfold cb. rewrite Hx. reflexivity.
    + unfold getB. destruct (Nat.ltb_spec i (numberOfStages T)); [lia|]. reflexivity.
  - intros i. destruct (Nat.ltb_spec i (numberOfStages T)) as [L|L].
    + destruct (Hi i L) as (_ & [x Hx] & _). unfold cc. rewrite Hx. reflexivity.
    + unfold getC. destruct (Nat.ltb_spec i (numberOfStages T)); [lia|]. reflexivity.
Qed.

(** weights only depend on the coefficients inside the table *)
Fixpoint weight_at_ext s a a' (Ha : forall i j, i < s -> j < s -> a i j = a' i j) i (Hi : i < s) (t : tree) {struct t} :
  weight_at s a i t = weight_at s a' i t.
Proof.
  destruct t as [l]. cbn [weight_at]. f_equal.
  induction l as [|u l IH]; [reflexivity|]. cbn [map]. f_equal; [|exact IH].
  f_equal. apply map_ext_in. intros j Hj. apply in_seq in Hj.
  rewrite (weight_at_ext s a a' Ha j ltac:(lia) u). f_equal. apply Ha; lia.
Qed.

Lemma has_order_ext : forall s a a' b b' p,
  (forall i j, i < s -> j < s -> a i j = a' i j) -> (forall i, i < s -> b i = b' i) ->
  has_order s a b p -> has_order s a' b' p.
Proof.
  intros s a a' b b' p Ha Hb H t Ht. rewrite <- (H t Ht). f_equal. unfold weight. f_equal.
  apply map_ext_in. intros i Hi. apply in_seq in Hi.
  rewrite <- (Hb i ltac:(lia)). f_equal. symmetry. apply weight_at_ext; [exact Ha|lia].
Qed.

Lemma rules_complete : forall T, In T vecOfIntegrators_ -> coefficients T (ca T) (cb T) (cc T).
Proof.
  intros T H. apply table_check_ok. revert T H.
  change (forall T, In T vecOfIntegrators_ -> table_check T = true).
  apply forallb_forall. vm_compute. reflexivity.
Qed.

Lemma rules_order : forall T, In T vecOfIntegrators_ -> has_order (numberOfStages T) (ca T) (cb T) (order T).
Proof.
  intros T H. apply order_check_ok. revert T H.
  apply (proj1 (forallb_forall (fun T => order_check (numberOfStages T) (ca T) (cb T) (order T)) _)).
  vm_compute. reflexivity.
Qed.

Lemma rules_order_spec : forall T a b c, In T vecOfIntegrators_ -> coefficients T a b c ->
  has_order (numberOfStages T) a b (order T).
Proof.
  intros T a b c H HC. destruct (coefficients_unique T a b c HC) as (Ha & Hb & _).
  apply (has_order_ext _ (ca T) a (cb T) b).
  - intros. symmetry. apply Ha; assumption.
  - intros. symmetry. apply Hb; assumption.
  - apply rules_order. exact H.
Qed.

(** not one order more than claimed *)
Lemma rules_order_sharp : forall T a b c, In T vecOfIntegrators_ -> coefficients T a b c ->
  ~ has_order (numberOfStages T) a b (S (order T)).
Proof.
  intros T a b c H HC HO. destruct (coefficients_unique T a b c HC) as (Ha & Hb & _).
  apply (has_order_ext _ a (ca T) b (cb T)) in HO; [|exact Ha|exact Hb].
  assert (K : forall T, In T vecOfIntegrators_ ->
     existsb (fun t => (nodes t <=? S (order T)) &&
                negb (Qeq_bool (weight (numberOfStages T) (ca T) (cb T) t * of_nat (density t))%Qc 1%Qc))
             [Node [Node []]; Node [Node [Node []]]; Node [Node [Node [Node []]]];
              Node [Node [Node [Node [Node []]]]];
              Node [Node [Node [Node [Node [Node []]]]]]] = true).
  { apply (proj1 (forallb_forall (fun T => existsb _ _) _)). vm_compute. reflexivity. }
  specialize (K T H). apply existsb_exists in K as [t [_ K]].
  apply andb_prop in K as [K1 K2]. apply Nat.leb_le in K1.
  rewrite (HO t K1) in K2. vm_compute in K2. discriminate.
Qed.

(** embedded error estimate *)
Lemma rules_error : forall T a b c, In T vecOfIntegrators_ -> coefficients T a b c ->
  error_ T <> None ->
  exists e, (forall i, i < numberOfStages T -> getErrorCoefficient T i = Some (e i)) /\
    has_order (numberOfStages T) a (fun i => (b i - e i)%Qc) (order T - 1) /\
    ~ has_order (numberOfStages T) a (fun i => (b i - e i)%Qc) (order T).
Proof.
  intros T a b c H HC HE. destruct (coefficients_unique T a b c HC) as (Ha & Hb & _).
  assert (K : forall T, In T vecOfIntegrators_ ->
    negb (is_some (error_ T)) ||
    (forallb (fun i => is_some (getErrorCoefficient T i)) (seq 0 (numberOfStages T)) &&
     order_check (numberOfStages T) (ca T) (fun i => (cb T i - ce T i)%Qc) (order T - 1) &&
     existsb (fun t => (nodes t <=? order T) &&
                negb (Qeq_bool (weight (numberOfStages T) (ca T) (fun i => (cb T i - ce T i)%Qc) t * of_nat (density t))%Qc 1%Qc))
             (trees_upto (order T))) = true).
  { apply (proj1 (forallb_forall (fun T => negb _ || _) _)). vm_compute. reflexivity. }
  specialize (K T H). destruct (error_ T) eqn:EE; [|congruence]. cbn [is_some negb orb] in K.
  apply andb_prop in K as [K K3]. apply andb_prop in K as [K1 K2]. exists (ce T). repeat split.
  - intros i Hi. rewrite forallb_forall in K1. specialize (K1 i ltac:(apply in_seq; lia)).
    unfold ce. destruct (getErrorCoefficient T i); [reflexivity|discriminate].
  - apply (has_order_ext _ (ca T) a (fun i => (cb T i - ce T i)%Qc)).
    + intros. symmetry. apply Ha; assumption.
    + intros. rewrite Hb by assumption. reflexivity.
    + apply order_check_ok. exact K2.
  - intros HO.
    apply (has_order_ext _ a (ca T) _ (fun i => (cb T i - ce T i)%Qc)) in HO;
      [|exact Ha|intros; rewrite Hb by assumption; reflexivity].
    apply existsb_exists in K3 as [t [_ K3]].
    apply andb_prop in K3 as [K3 K4]. apply Nat.leb_le in K3.
    rewrite (HO t K3) in K4. vm_compute in K4. discriminate.
Qed.

(** stage times *)
Definition row_sums (s : nat) (a : nat -> nat -> Qc) (c : nat -> Qc) : Prop :=
  forall i, i < s -> c i = sum (map (a i) (seq 0 s)).

Lemma rules_times : forall T a b c,
  In T [ForwardEuler; MidPoint; RK4_4; DormandPrince] -> coefficients T a b c ->
  forall i, i < numberOfStages T -> c i = sum (map (a i) (seq 0 (numberOfStages T))).
Proof.
  intros T a b c H HC i Hi. destruct (coefficients_unique T a b c HC) as (Ha & _ & Hc).
  assert (K : forall T, In T [ForwardEuler; MidPoint; RK4_4; DormandPrince] ->
    forallb (fun i => Qeq_bool (cc T i) (sum (map (ca T i) (seq 0 (numberOfStages T))))) (seq 0 (numberOfStages T)) = true).
  { apply (proj1 (forallb_forall (fun T => forallb _ _) _)). vm_compute. reflexivity. }
  specialize (K T H). rewrite forallb_forall in K. specialize (K i ltac:(apply in_seq; lia)).
  rewrite Hc by assumption. apply Qeq_bool_iff in K. apply Qc_is_canon in K. rewrite K.
  f_equal. apply map_ext_in. intros j Hj. apply in_seq in Hj. symmetry. apply Ha; lia.
Qed.

Lemma rules_times_refuted : forall T a b c,
  In T [RK2TVD; RK3TVD; BogackiShampine] -> coefficients T a b c ->
  sum (map (fun i => (b i * c i)%Qc) (seq 0 (numberOfStages T))) <> Q2Qc (1 # 2).
Proof.
  intros T a b c H HC E. destruct (coefficients_unique T a b c HC) as (_ & Hb & Hc).
  assert (K : forall T, In T [RK2TVD; RK3TVD; BogackiShampine] ->
    negb (Qeq_bool (sum (map (fun i => (cb T i * cc T i)%Qc) (seq 0 (numberOfStages T)))) (Q2Qc (1 # 2))) = true).
  { apply (proj1 (forallb_forall (fun T => negb _) _)). vm_compute. reflexivity. }
  specialize (K T H).
  assert (E' : sum (map (fun i => (cb T i * cc T i)%Qc) (seq 0 (numberOfStages T))) = Q2Qc (1 # 2)).
  { rewrite <- E. f_equal. apply map_ext_in. intros i Hi. apply in_seq in Hi.
    rewrite Hb, Hc by lia. reflexivity. }
  rewrite E' in K. vm_compute in K. discriminate.
Qed.

(** ** getRule *)
Section GetRule.
Context {A : Type}.
Variable rules : list (Tableau A).

Lemma getRule_sound : forall o s v r, getRule rules o s v = Some r ->
  In r rules /\ order r = o /\ numberOfStages r = s /\
  (totalVariationDiminishing r = v \/
   forall r', In r' rules -> order r' = o -> numberOfStages r' = s -> totalVariationDiminishing r' <> v).
Proof.
  intros o s v r H. unfold getRule in H.
  match type of H with match find ?f ?l with _ => _ end = _ => destruct (find f l) as [r0|] eqn:E end.
  - injection H as ->. apply find_some in E as [I E].
    apply andb_prop in E as [E E3]. apply andb_prop in E as [E1 E2].
    apply Nat.eqb_eq in E1, E2. apply eqb_prop in E3. auto.
  - apply find_some in H as [I H]. apply andb_prop in H as [H H3]. apply andb_prop in H as [H1 H2].
    apply Nat.eqb_eq in H1, H2. repeat split; auto. right. intros r' I' O' S' V'.
    pose proof (find_none _ _ E r' I') as N. cbn in N.
    rewrite (proj2 (Nat.eqb_eq _ _) O'), (proj2 (Nat.eqb_eq _ _) S'), V', eqb_reflx in N. discriminate.
Qed.

Lemma getRule_fails : forall o s v, getRule rules o s v = None <->
  forall r, In r rules -> order r = o -> numberOfStages r = s -> False.
Proof.
  intros o s v. unfold getRule. split.
  - intros H r I O S'.
    match type of H with match find ?f ?l with _ => _ end = _ => destruct (find f l) as [r0|] eqn:E end; [discriminate|].
    pose proof (find_none _ _ E r I) as N. pose proof (find_none _ _ H r I) as N'. cbn in N, N'.
    rewrite (proj2 (Nat.eqb_eq _ _) O), (proj2 (Nat.eqb_eq _ _) S') in N, N'. cbn in N, N'.
    rewrite N in N'. discriminate.
  - intros H.
    match goal with |- match find ?f ?l with _ => _ end = _ => destruct (find f l) as [r0|] eqn:E end.
    + apply find_some in E as [I E]. apply andb_prop in E as [E E3]. apply andb_prop in E as [E1 E2].
      apply Nat.eqb_eq in E1, E2. destruct (H r0 I E1 E2).
    + match goal with |- find ?f ?l = _ => destruct (find f l) as [r0|] eqn:E' end; [|reflexivity].
      apply find_some in E' as [I E']. apply andb_prop in E' as [E' E3]. apply andb_prop in E' as [E1 E2].
      apply Nat.eqb_eq in E1, E2. destruct (H r0 I E1 E2).
Qed.
End GetRule.

(** among the registered integrators, the triple identifies the rule *)
Lemma rules_distinct : forall T T', In T vecOfIntegrators_ -> In T' vecOfIntegrators_ ->
  order T = order T' -> numberOfStages T = numberOfStages T' ->
  totalVariationDiminishing T = totalVariationDiminishing T' -> T = T'.
Proof.
  intros T T' H H'. cbn [vecOfIntegrators_ In] in H, H'.
  repeat (destruct H as [<-|H]; [|]); try contradiction;
  repeat (destruct H' as [<-|H']; [|]); try contradiction; cbn; intros; try discriminate; reflexivity.
Qed.

Lemma getRule_self : forall T, In T vecOfIntegrators_ ->
  getRule vecOfIntegrators_ (order T) (numberOfStages T) (totalVariationDiminishing T) = Some T.
Proof.
  intros T H. destruct (getRule vecOfIntegrators_ (order T) (numberOfStages T) (totalVariationDiminishing T)) as [r|] eqn:E.
  - apply getRule_sound in E as (I & O & S' & [V|V]).
    + f_equal. apply rules_distinct; auto.
    + destruct (V T H eq_refl eq_refl eq_refl).
  - apply getRule_fails with (r := T) in E; auto. contradiction.
Qed.

(** ** The TVD rules are convex combinations of Euler steps *)
Section Tvd.
Local Open Scope Qc_scope.
Context {X : Type}.
Variables (N : (X -> Qc) -> Qc) (f : Qc -> (X -> Qc) -> X -> Qc) (dt : Qc).
Hypothesis Cv : convex N.
Hypothesis Eu : euler_decreases N f dt.

Lemma Qc_le_sub : forall x y, x - y <= 0 -> x <= y.
Proof.
  intros x y H. apply (Qcplus_le_compat (x - y) 0 y y) in H; [|apply Qcle_refl].
  replace (x - y + y) with x in H by ring. replace (0 + y) with y in H by ring. exact H.
Qed.

(** th*u + (1-th)*(v + dt f v) does not exceed B when u and v do not *)
Lemma shu_osher : forall th t u v w B, 0 <= th -> th <= 1 -> N u <= B -> N v <= B ->
  (forall x, w x = th * u x + (1 - th) * (v x + dt * f t v x)) -> N w <= B.
Proof.
  intros th t u v w B H0 H1 Hu Hv Hw.
  rewrite (proj1 Cv w (fun x => th * u x + (1 - th) * (v x + dt * f t v x)) Hw).
  eapply Qcle_trans; [apply (proj2 Cv th u (fun x => v x + dt * f t v x) H0 H1)|].
  assert (H1' : 0 <= 1 - th).
  { apply Qcle_minus_iff in H1. unfold Qcminus. exact H1. }
  pose proof (Qcle_trans _ _ _ (proj2 Eu t v) Hv) as Hv'.
  replace B with (B * th + B * (1 - th)) by ring.
  apply Qcplus_le_compat.
  - rewrite (Qcmult_comm th). apply Qcmult_le_compat_r; assumption.
  - rewrite (Qcmult_comm (1 - th)). apply Qcmult_le_compat_r; assumption.
Qed.

Local Notation K2 := (1 + 1).
Local Notation K3 := (1 + 1 + 1).
Ltac frac := apply Qc_is_canon; vm_compute; reflexivity.
Lemma q12_2 : Q2Qc (1 # 2) = 1 / K2. Proof. frac. Qed.
Lemma q12_3 : Q2Qc (1 # 3) = 1 / K3. Proof. frac. Qed.
Lemma q12_4 : Q2Qc (1 # 4) = 1 / (K2 * K2). Proof. frac. Qed.
Lemma q12_6 : Q2Qc (1 # 6) = 1 / (K2 * K3). Proof. frac. Qed.
Lemma q12_34 : Q2Qc (3 # 4) = K3 / (K2 * K2). Proof. frac. Qed.
Lemma q12_23 : Q2Qc (2 # 3) = K2 / K3. Proof. frac. Qed.
Ltac byfield := field; repeat split; vm_compute; discriminate.

Lemma tvd_rules : forall T a b c t u k u',
  In T vecOfIntegrators_ -> totalVariationDiminishing T = true -> coefficients T a b c ->
  rk_equations (numberOfStages T) a b c f t dt u k u' -> N u' <= N u.
Proof.
  intros T a b c t u k u' H V HC [Hk Hu'].
  destruct (coefficients_unique T a b c HC) as (Ha & Hb & _). clear HC.
  pose proof (proj1 Eu) as Fx.
  cbn [vecOfIntegrators_ In] in H.
  repeat (destruct H as [<-|H]; [try discriminate V|]); try contradiction.
  - (* forward Euler *)
    cbn [numberOfStages ForwardEuler] in *.
    apply (shu_osher 0 (t + c 0%nat * dt) u u u'); try (apply Qcle_refl); [discriminate|].
    intros x. rewrite Hu'. cbn [seq map sum fold_right]. rewrite (Hb 0%nat), (Hk 0%nat x) by lia.
    rewrite (Fx _ (fun y => u y + dt * sum (map (fun j => a 0%nat j * k j y) (seq 0 0))) u)
      by (intro; cbn; ring).
    change (cb ForwardEuler 0) with 1. ring.
  - (* RK2TVD *)
    cbn [numberOfStages RK2TVD] in *.
    set (u1 := fun x => u x + dt * k 0%nat x).
    assert (N1 : N u1 <= N u).
    { apply (shu_osher 0 (t + c 0%nat * dt) u u u1); try (apply Qcle_refl); [discriminate|].
      intros x. unfold u1. rewrite (Hk 0%nat x) by lia.
      rewrite (Fx _ (fun y => u y + dt * sum (map (fun j => a 0%nat j * k j y) (seq 0 0))) u)
        by (intro; cbn; ring). ring. }
    apply (shu_osher (Q2Qc (1 # 2)) (t + c 1%nat * dt) u u1 u'); try assumption; try (apply Qcle_refl); try discriminate.
    intros x. rewrite Hu'. cbn [seq map sum fold_right]. rewrite (Hb 0%nat), (Hb 1%nat), (Hk 1%nat x) by lia.
    rewrite (Fx _ (fun y => u y + dt * sum (map (fun j => a 1%nat j * k j y) (seq 0 1))) u1).
    2:{ intro y. unfold u1. cbn [seq map sum fold_right]. rewrite (Ha 1%nat 0%nat) by lia.
        change (ca RK2TVD 1 0) with 1. ring. }
    change (cb RK2TVD 0) with (Q2Qc (1 # 2)). change (cb RK2TVD 1) with (Q2Qc (1 # 2)).
    unfold u1 at 2. rewrite q12_2. set (g := f _ _ _). clearbody g. set (k0 := k 0%nat x). clearbody k0.
    byfield.
  - (* RK3TVD *)
    cbn [numberOfStages RK3TVD] in *.
    set (u1 := fun x => u x + dt * k 0%nat x).
    set (u2 := fun x => u x + dt * (Q2Qc (1 # 4) * k 0%nat x + Q2Qc (1 # 4) * k 1%nat x)).
    assert (N1 : N u1 <= N u).
    { apply (shu_osher 0 (t + c 0%nat * dt) u u u1); try (apply Qcle_refl); [discriminate|].
      intros x. unfold u1. rewrite (Hk 0%nat x) by lia.
      rewrite (Fx _ (fun y => u y + dt * sum (map (fun j => a 0%nat j * k j y) (seq 0 0))) u)
        by (intro; cbn; ring). ring. }
    assert (N2 : N u2 <= N u).
    { apply (shu_osher (Q2Qc (3 # 4)) (t + c 1%nat * dt) u u1 u2); try assumption; try (apply Qcle_refl); try discriminate.
      intros x. unfold u2. rewrite (Hk 1%nat x) by lia.
      rewrite (Fx _ (fun y => u y + dt * sum (map (fun j => a 1%nat j * k j y) (seq 0 1))) u1).
      2:{ intro y. unfold u1. cbn [seq map sum fold_right]. rewrite (Ha 1%nat 0%nat) by lia.
          change (ca RK3TVD 1 0) with 1. ring. }
      unfold u1 at 2. rewrite q12_4, q12_34. set (g := f _ _ _). clearbody g. set (k0 := k 0%nat x). clearbody k0.
      byfield. }
    apply (shu_osher (Q2Qc (1 # 3)) (t + c 2%nat * dt) u u2 u'); try assumption; try (apply Qcle_refl); try discriminate.
    intros x. rewrite Hu'. cbn [seq map sum fold_right].
    rewrite (Hb 0%nat), (Hb 1%nat), (Hb 2%nat), (Hk 2%nat x) by lia.
    rewrite (Fx _ (fun y => u y + dt * sum (map (fun j => a 2%nat j * k j y) (seq 0 2))) u2).
    2:{ intro y. unfold u2. cbn [seq map sum fold_right].
        rewrite (Ha 2%nat 0%nat), (Ha 2%nat 1%nat) by lia.
        change (ca RK3TVD 2 0) with (Q2Qc (1 # 4)). change (ca RK3TVD 2 1) with (Q2Qc (1 # 4)). ring. }
    change (cb RK3TVD 0) with (Q2Qc (1 # 6)). change (cb RK3TVD 1) with (Q2Qc (1 # 6)).
    change (cb RK3TVD 2) with (Q2Qc (2 # 3)).
    unfold u2 at 2. rewrite q12_3, q12_4, q12_6, q12_23.
    set (g := f _ _ _). clearbody g. set (k0 := k 0%nat x). clearbody k0. set (k1 := k 1%nat x). clearbody k1.
    byfield.
Qed.
End Tvd.
