From Coq Require Import List Arith Bool Lia Permutation Sorted.
From Verif Require Import StdMap_model.
Import ListNotations.

(** What the C++ standard requires of a comparison, plus: equivalent keys are equal. *)
Record strict_total {K} (ltb : K -> K -> bool) : Prop := {
  st_irrefl : forall x, ltb x x = false;
  st_trans : forall x y z, ltb x y = true -> ltb y z = true -> ltb x z = true;
  st_total : forall x y, ltb x y = false -> ltb y x = false -> x = y
}.
Lemma nat_strict_total : strict_total Nat.ltb.
Proof.
  constructor.
  - intros x. apply Nat.ltb_irrefl.
  - intros x y z H1 H2. apply Nat.ltb_lt in H1, H2. apply Nat.ltb_lt. lia.
  - intros x y H1 H2. apply Nat.ltb_ge in H1, H2. lia.
Qed.

Section Map.
Context {K V : Type} (ltb : K -> K -> bool) (ST : strict_total ltb).
Implicit Types m : list (K * V).
Let lt x y := ltb x y = true.

Lemma ltb_asym x y : ltb x y = true -> ltb y x = false.
Proof.
  intros H. destruct (ltb y x) eqn:E; [|reflexivity]. pose proof (st_trans _ ST _ _ _ H E) as F.
  rewrite (st_irrefl _ ST) in F. discriminate.
Qed.

Lemma mfind_mput k v m k' : mfind ltb k' (mput ltb k v m) =
  if negb (ltb k k') && negb (ltb k' k) then Some v else mfind ltb k' m.
Proof.
  induction m as [|(a, b) m IH]; cbn.
  - destruct (ltb k' k), (ltb k k'); reflexivity.
  - destruct (ltb k a) eqn:E1; cbn [mfind].
    + destruct (ltb k' k), (ltb k k'); reflexivity.
    + destruct (ltb a k) eqn:E2; cbn [mfind].
      * destruct (ltb k' a) eqn:E3; [exact IH|]. destruct (ltb a k') eqn:E4; [exact IH|].
        assert (k' = a) by (apply (st_total _ ST); assumption). subst.
        rewrite E1, E2. reflexivity.
      * assert (k = a) by (apply (st_total _ ST); assumption). subst.
        destruct (ltb k' a), (ltb a k'); reflexivity.
Qed.
Lemma mfind_put_same k v m : mfind ltb k (mput ltb k v m) = Some v.
Proof. rewrite mfind_mput, (st_irrefl _ ST). reflexivity. Qed.
Lemma mfind_put_other k v m k' : k <> k' -> mfind ltb k' (mput ltb k v m) = mfind ltb k' m.
Proof.
  intros H. rewrite mfind_mput. destruct (ltb k k') eqn:E1, (ltb k' k) eqn:E2; try reflexivity.
  exfalso. apply H, (st_total _ ST); assumption.
Qed.

Lemma in_keys k m : In k (map fst m) <-> mfind ltb k m <> None.
Proof.
  induction m as [|(a, b) m IH]; cbn; [intuition congruence|].
  destruct (ltb k a) eqn:E1.
  - rewrite <- IH. split; [|tauto]. intros [<-|H]; [rewrite (st_irrefl _ ST) in E1; discriminate|exact H].
  - destruct (ltb a k) eqn:E2.
    + rewrite <- IH. split; [|tauto]. intros [<-|H]; [rewrite (st_irrefl _ ST) in E2; discriminate|exact H].
    + split; [congruence|]. intros _. left. symmetry. apply (st_total _ ST); assumption.
Qed.

Definition ksorted m := StronglySorted lt (map fst m).
Lemma mput_keys_in k v m x : In x (map fst (mput ltb k v m)) <-> x = k \/ In x (map fst m).
Proof.
  rewrite !in_keys, mfind_mput. destruct (ltb k x) eqn:E1, (ltb x k) eqn:E2; cbn; try (split; [tauto|]; intros [->|H]; [|exact H]; rewrite (st_irrefl _ ST) in *; discriminate).
  assert (k = x) by (apply (st_total _ ST); assumption). subst. intuition congruence.
Qed.
Lemma mput_sorted k v m : ksorted m -> ksorted (mput ltb k v m).
Proof.
  unfold ksorted. induction m as [|(a, b) m IH]; cbn; intros H.
  - constructor; [constructor|constructor].
  - destruct (ltb k a) eqn:E1; cbn [map fst].
    + constructor; [exact H|]. constructor; [exact E1|]. inversion H; subst.
      eapply Forall_impl; [|eassumption]. intros x Hx. eapply (st_trans _ ST); eassumption.
    + destruct (ltb a k) eqn:E2; cbn [map fst].
      * inversion H; subst. constructor; [apply IH; assumption|]. apply Forall_forall. intros x Hx.
        apply mput_keys_in in Hx as [->|Hx]; [exact E2|]. rewrite Forall_forall in H3. apply H3, Hx.
      * exact H.
Qed.
Lemma mput_keys_same k v m : mfind ltb k m <> None -> ksorted m -> map fst (mput ltb k v m) = map fst m.
Proof.
  unfold ksorted. induction m as [|(a, b) m IH]; cbn; intros Hf H; [congruence|].
  inversion H; subst.
  destruct (ltb k a) eqn:E1.
  - exfalso. apply in_keys in Hf. rewrite Forall_forall in H3. specialize (H3 _ Hf).
    apply ltb_asym in E1. unfold lt in H3. congruence.
  - destruct (ltb a k) eqn:E2; cbn [map fst]; [|reflexivity].
    rewrite IH by assumption. reflexivity.
Qed.
Lemma ksorted_nodup m : ksorted m -> NoDup (map fst m).
Proof.
  unfold ksorted. induction (map fst m) as [|k l IH]; intros H; [constructor|]. inversion H; subst.
  constructor; [|apply IH; assumption]. intros Hin. rewrite Forall_forall in H3. specialize (H3 _ Hin).
  unfold lt in H3. rewrite (st_irrefl _ ST) in H3. discriminate.
Qed.
Lemma mfind_in k v m : ksorted m -> (mfind ltb k m = Some v <-> In (k, v) m).
Proof.
  unfold ksorted. induction m as [|(a, b) m IH]; cbn; intros H; [intuition congruence|].
  inversion H; subst. specialize (IH H2). rewrite Forall_forall in H3. unfold lt in H3.
  destruct (ltb k a) eqn:E1.
  - rewrite IH. split; [tauto|]. intros [E|Hin]; [|exact Hin]. inversion E; subst. rewrite (st_irrefl _ ST) in E1. discriminate.
  - destruct (ltb a k) eqn:E2.
    + rewrite IH. split; [tauto|]. intros [E|Hin]; [|exact Hin]. inversion E; subst. rewrite (st_irrefl _ ST) in E2. discriminate.
    + assert (k = a) by (apply (st_total _ ST); assumption). subst. split; [intros E; inversion E; auto|].
      intros [E|Hin]; [congruence|]. apply (in_map fst) in Hin. specialize (H3 _ Hin). cbn in H3.
      rewrite (st_irrefl _ ST) in H3. discriminate.
Qed.
Lemma mfind_erase k m k' : ksorted m -> mfind ltb k' (merase ltb k m) =
  if negb (ltb k k') && negb (ltb k' k) then None else mfind ltb k' m.
Proof.
  unfold ksorted. induction m as [|(a, b) m IH]; intros H; cbn.
  - destruct (negb (ltb k k') && negb (ltb k' k)); reflexivity.
  - inversion H; subst. specialize (IH H2).
    destruct (ltb k a) eqn:E1; cbn [mfind].
    + destruct (ltb k' k) eqn:E3, (ltb k k') eqn:E4; cbn; try reflexivity.
      assert (k = k') by (apply (st_total _ ST); assumption). subst k'.
      rewrite E1. destruct (mfind ltb k m) eqn:F; [|reflexivity]. exfalso.
      assert (In k (map fst m)) by (apply in_keys; congruence). rewrite Forall_forall in H3. specialize (H3 _ H0).
      unfold lt in H3. rewrite (ltb_asym _ _ E1) in H3. discriminate.
    + destruct (ltb a k) eqn:E2; cbn [mfind].
      * destruct (ltb k' a) eqn:E3; [exact IH|]. destruct (ltb a k') eqn:E4; [exact IH|].
        assert (k' = a) by (apply (st_total _ ST); assumption). subst. rewrite E1, E2. reflexivity.
      * assert (k = a) by (apply (st_total _ ST); assumption). subst.
        destruct (ltb a k') eqn:E3, (ltb k' a) eqn:E4; cbn; try reflexivity.
        assert (a = k') by (apply (st_total _ ST); assumption). subst.
        destruct (mfind ltb k' m) eqn:F; [|reflexivity]. exfalso.
        assert (In k' (map fst m)) by (apply in_keys; congruence). rewrite Forall_forall in H3. specialize (H3 _ H0).
        unfold lt in H3. rewrite (st_irrefl _ ST) in H3. discriminate.
Qed.
End Map.

Section Set_.
Context {K : Type} (ltb : K -> K -> bool) (ST : strict_total ltb).
Let lt x y := ltb x y = true.
Definition ssorted (s : list K) := StronglySorted lt s.
Lemma sinsert_in k s x : In x (sinsert ltb k s) <-> x = k \/ In x s.
Proof.
  induction s as [|a s IH]; cbn; [intuition|].
  destruct (ltb k a) eqn:E1; cbn; [intuition|]. destruct (ltb a k) eqn:E2; cbn.
  - rewrite IH. intuition.
  - assert (k = a) by (apply (st_total _ ST); assumption). subst. intuition.
Qed.
Lemma sinsert_sorted k s : ssorted s -> ssorted (sinsert ltb k s).
Proof.
  unfold ssorted. induction s as [|a s IH]; cbn; intros H; [repeat constructor|].
  inversion H; subst.
  destruct (ltb k a) eqn:E1.
  - constructor; [exact H|]. constructor; [exact E1|]. eapply Forall_impl; [|eassumption].
    intros x Hx. eapply (st_trans _ ST); eassumption.
  - destruct (ltb a k) eqn:E2; [|exact H]. constructor; [apply IH; assumption|].
    apply Forall_forall. intros x Hx. apply sinsert_in in Hx as [->|Hx]; [exact E2|]. rewrite Forall_forall in H3. apply H3, Hx.
Qed.
Lemma ssorted_nodup s : ssorted s -> NoDup s.
Proof.
  unfold ssorted. induction s as [|k l IH]; intros H; [constructor|]. inversion H; subst.
  constructor; [|apply IH; assumption]. intros Hin. rewrite Forall_forall in H3. specialize (H3 _ Hin).
  unfold lt in H3. rewrite (st_irrefl _ ST) in H3. discriminate.
Qed.
Lemma ssorted_ext s t : ssorted s -> ssorted t -> (forall x, In x s <-> In x t) -> s = t.
Proof.
  unfold ssorted. revert t; induction s as [|a s IH]; intros t Hs Ht H.
  - destruct t as [|b t]; [reflexivity|]. exfalso. apply (proj2 (H b)). left. reflexivity.
  - destruct t as [|b t]; [exfalso; apply (proj1 (H a)); left; reflexivity|].
    inversion Hs; inversion Ht; subst. rewrite Forall_forall in H3, H7. unfold lt in *.
    assert (a = b).
    { destruct (proj1 (H a) (or_introl eq_refl)) as [->|Ha]; [reflexivity|].
      destruct (proj2 (H b) (or_introl eq_refl)) as [->|Hb]; [reflexivity|].
      pose proof (H7 _ Ha) as F. pose proof (H3 _ Hb) as F'.
      rewrite (ltb_asym _ ST _ _ F) in F'. discriminate. }
    subst b. f_equal. apply IH; [assumption|assumption|]. intros x. split; intros Hx.
    + destruct (proj1 (H x) (or_intror Hx)) as [->|]; [|assumption]. specialize (H3 _ Hx). rewrite (st_irrefl _ ST) in H3. discriminate.
    + destruct (proj2 (H x) (or_intror Hx)) as [->|]; [|assumption]. specialize (H7 _ Hx). rewrite (st_irrefl _ ST) in H7. discriminate.
Qed.

Lemma lex_strict_total : strict_total (lex_ltb ltb).
Proof.
  constructor.
  - induction x as [|a x IH]; cbn; [reflexivity|]. rewrite (st_irrefl _ ST). exact IH.
  - induction x as [|a x IH]; intros y z H1 H2.
    + destruct y as [|b y]; [discriminate|]. destruct z as [|c z]; [cbn in H2; discriminate|reflexivity].
    + destruct y as [|b y]; [discriminate|]. destruct z as [|c z]; [discriminate|]. cbn in *.
      destruct (ltb a b) eqn:E1.
      * destruct (ltb b c) eqn:E2; [rewrite (st_trans _ ST _ _ _ E1 E2); reflexivity|].
        destruct (ltb c b) eqn:E3; [discriminate|]. assert (b = c) by (apply (st_total _ ST); assumption). subst. rewrite E1. reflexivity.
      * destruct (ltb b a) eqn:E1'; [discriminate|]. assert (a = b) by (apply (st_total _ ST); assumption). subst.
        destruct (ltb b c); [reflexivity|]. destruct (ltb c b); [discriminate|]. eapply IH; eassumption.
  - induction x as [|a x IH]; intros y H1 H2.
    + destruct y; [reflexivity|discriminate].
    + destruct y as [|b y]; [discriminate|]. cbn in *.
      destruct (ltb a b) eqn:E1; [discriminate|]. destruct (ltb b a) eqn:E2; [discriminate|].
      f_equal; [apply (st_total _ ST); assumption|apply IH; assumption].
Qed.
End Set_.
