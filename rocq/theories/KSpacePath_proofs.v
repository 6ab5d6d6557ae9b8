From Coq Require Import List Arith Reals Lia Lra Bool.
From Verif Require Import KSpacePath_model KSpacePath_spec.
Import ListNotations.

Lemma triple (x y z u v w : R) : x = u -> y = v -> z = w -> (x, y, z) = (u, v, w).
Proof. now intros -> -> ->. Qed.
Lemma total_value p : points p <> [] -> totalNumberOfSteps p = Value (1 + (length (points p) - 1) * steps p).
Proof. unfold totalNumberOfSteps. destruct (points p); congruence. Qed.
Lemma at_some A (l : list A) i x : nth_error l i = Some x -> at_ l i = Value x.
Proof. unfold at_. now intros ->. Qed.
Lemma at_none A (l : list A) i : length l <= i -> at_ l i = Undefined.
Proof. intros H. unfold at_. apply nth_error_None in H. now rewrite H. Qed.
Lemma some_lt A (l : list A) i x : nth_error l i = Some x -> i < length l.
Proof. intros H. apply nth_error_Some. congruence. Qed.
Lemma lt_some A (l : list A) i : i < length l -> exists x, nth_error l i = Some x.
Proof. intros H. destruct (nth_error l i) eqn:E; [eauto|]. apply nth_error_None in E. lia. Qed.

Lemma between_0 a b n : between a b (INR 0 / INR n) = a.
Proof. destruct a as [[x y] z], b as [[u v] w]. unfold between. cbn [INR]. unfold Rdiv. rewrite !Rmult_0_l, !Rplus_0_r. rewrite ?Rmult_0_l, ?Rplus_0_r. reflexivity. Qed.
Lemma between_1 a b n : 0 < n -> between a b (INR n / INR n) = b.
Proof.
  intros H. destruct a as [[x y] z], b as [[u v] w]. unfold between. unfold Rdiv. rewrite Rinv_r by (apply not_0_INR; lia). apply triple; ring.
Qed.

(** the walk after [j * n + s] steps *)
Lemma k_corner c p j x : 0 < steps p -> nth_error (points p) j = Some x -> k c p (j * steps p) = Value x.
Proof.
  intros Hs Hx. pose proof (some_lt _ _ _ _ Hx) as L. unfold k. rewrite total_value by (intros E; rewrite E in L; cbn in L; lia). cbn [bind].
  assert (E : (j * steps p <=? 1 + (length (points p) - 1) * steps p) = true) by (apply Nat.leb_le; nia). rewrite E, andb_false_r.
  destruct (Nat.eqb_spec (steps p) 0); [lia|]. rewrite Nat.mod_mul, Nat.div_mul by lia. cbn [Nat.eqb]. now apply at_some.
Qed.
Lemma k_line c p j s a b : 0 < s < steps p -> nth_error (points p) j = Some a -> nth_error (points p) (S j) = Some b ->
  k c p (j * steps p + s) = Value (between a b (INR s / INR (steps p))).
Proof.
  intros Hs Ha Hb. pose proof (some_lt _ _ _ _ Hb) as L. unfold k. rewrite total_value by (intros E; rewrite E in L; cbn in L; lia). cbn [bind].
  assert (E : (j * steps p + s <=? 1 + (length (points p) - 1) * steps p) = true) by (apply Nat.leb_le; nia). rewrite E, andb_false_r.
  destruct (Nat.eqb_spec (steps p) 0); [lia|].
  assert (M : (j * steps p + s) mod steps p = s) by (rewrite Nat.add_comm, Nat.mod_add by lia; apply Nat.mod_small; lia).
  assert (D : (j * steps p + s) / steps p = j) by (rewrite Nat.add_comm, Nat.div_add by lia; rewrite Nat.div_small by lia; lia).
  rewrite M, D. destruct (Nat.eqb_spec s 0); [lia|]. replace (j + 1) with (S j) by lia. rewrite (at_some _ _ _ _ Hb), (at_some _ _ _ _ Ha). cbn [bind].
  f_equal. destruct a as [[x y] z], b as [[u v] w]. unfold between, add, scale. apply triple; unfold Rdiv; ring.
Qed.
Lemma k_any c p j s a b : 0 < steps p -> s <= steps p -> nth_error (points p) j = Some a -> nth_error (points p) (S j) = Some b ->
  k c p (j * steps p + s) = Value (between a b (INR s / INR (steps p))).
Proof.
  intros Hp Hs Ha Hb. destruct (Nat.eq_dec s 0) as [->|N].
  - rewrite between_0, Nat.add_0_r. now apply k_corner.
  - destruct (Nat.eq_dec s (steps p)) as [->|N'].
    + rewrite between_1 by lia. replace (j * steps p + steps p) with (S j * steps p) by lia. now apply k_corner.
    + apply k_line; [lia|assumption|assumption].
Qed.
Lemma after_k c p i x : 0 < steps p -> after (points p) (steps p) i x -> k c p i = Value x.
Proof. intros H [j y Hj|j s a b Ha Hb Hs]; [now apply k_corner|now apply k_any]. Qed.

(** every step is on a line *)
Lemma split_index l n i : 0 < n -> 0 < i -> i < 1 + (l - 1) * n -> exists j s, i = j * n + S s /\ s < n /\ S j < l.
Proof.
  intros Hn Hi H. exists ((i - 1) / n), ((i - 1) mod n). pose proof (Nat.div_mod (i - 1) n ltac:(lia)) as E. pose proof (Nat.mod_upper_bound (i - 1) n ltac:(lia)) as U.
  repeat split; [nia|exact U|]. assert ((i - 1) / n < l - 1) by (apply Nat.div_lt_upper_bound; nia). lia.
Qed.
Lemma after_exists ps n i : ps <> [] -> 0 < n -> i < 1 + (length ps - 1) * n -> exists x, after ps n i x.
Proof.
  intros Hp Hn Hi. assert (L : 0 < length ps) by (destruct ps; [congruence|cbn; lia]). destruct (Nat.eq_dec i 0) as [->|N].
  - destruct (lt_some _ _ _ L) as [x Hx]. exists x. apply (at_corner ps n 0 x Hx).
  - destruct (split_index (length ps) n i Hn ltac:(lia) Hi) as [j [s [-> [Hs Hj]]]].
    destruct (lt_some _ ps j ltac:(lia)) as [a Ha]. destruct (lt_some _ ps (S j) Hj) as [b Hb]. eexists. now apply (on_line ps n j (S s) a b Ha Hb).
Qed.

Lemma dk_line c p j s a b : s < steps p -> nth_error (points p) j = Some a -> nth_error (points p) (S j) = Some b ->
  dk c p (j * steps p + S s) = Value (over (sub b a) (INR (steps p))).
Proof.
  intros Hs Ha Hb. pose proof (some_lt _ _ _ _ Hb) as L. unfold dk. rewrite total_value by (intros E; rewrite E in L; cbn in L; lia). cbn [bind].
  assert (E : (j * steps p + S s <=? 1 + (length (points p) - 1) * steps p) = true) by (apply Nat.leb_le; nia). rewrite E, andb_false_r.
  destruct (Nat.eqb_spec (j * steps p + S s) 0); [lia|]. destruct (Nat.eqb_spec (steps p) 0); [lia|].
  replace (j * steps p + S s - 1) with (s + j * steps p) by lia. rewrite Nat.div_add, Nat.div_small by lia. cbn [Nat.add]. replace (j + 1) with (S j) by lia.
  rewrite (at_some _ _ _ _ Hb), (at_some _ _ _ _ Ha). reflexivity.
Qed.
Lemma dk_0 c p : points p <> [] -> 0 < steps p -> dk c p 0 = k c p 0.
Proof.
  intros Hp Hs. destruct (points p) as [|x l] eqn:E; [congruence|]. assert (H0 : nth_error (points p) 0 = Some x) by now rewrite E.
  rewrite (k_corner c p 0 x Hs H0 : k c p 0 = _). unfold dk. rewrite total_value by (rewrite E; congruence). cbn [bind]. cbn [Nat.leb Nat.eqb]. rewrite andb_false_r. now apply at_some.
Qed.
Lemma step_between n a b s : 0 < n -> sub (between a b (INR (S s) / INR n)) (between a b (INR s / INR n)) = over (sub b a) (INR n).
Proof.
  intros H. destruct a as [[x y] z], b as [[u v] w]. unfold sub, between, over. rewrite S_INR. assert (INR n <> 0)%R by (apply not_0_INR; lia).
  apply triple; field; assumption.
Qed.
