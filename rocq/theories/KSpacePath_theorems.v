(** C72: the walk through k-space. *)
From Coq Require Import List Arith Reals Lia Lra Bool.
From Verif Require Import KSpacePath_model KSpacePath_spec KSpacePath_proofs.
Import ListNotations.

(** The walk has one point, and [n] more for each line between two corners.  Each of them is defined, and is the point
    where one is after that number of equal steps along the lines; in particular the walk comes to every corner. *)
Theorem C72_walk : forall asserts corners n, corners <> [] -> 0 < n ->
  let p := Path corners n in
  totalNumberOfSteps p = Value (1 + (length corners - 1) * n) /\
  (forall i, i < 1 + (length corners - 1) * n -> exists x, k asserts p i = Value x /\ after corners n i x) /\
  (forall i x, after corners n i x -> k asserts p i = Value x) /\
  (forall j x, nth_error corners j = Some x -> k asserts p (j * n) = Value x).
Proof.
  intros c ps n Hp Hn p. split; [now apply total_value|]. split; [|split].
  - intros i Hi. destruct (after_exists ps n i Hp Hn Hi) as [x Hx]. exists x. split; [|exact Hx]. now apply (after_k c p).
  - intros i x Hx. now apply (after_k c p).
  - intros j x Hx. now apply (k_corner c p).
Qed.
Print Assumptions C72_walk.

(** Each step is the difference of two points that follow each other, and the first is the first point; so the steps add
    up to the point where one is. *)
Theorem C72_steps : forall asserts corners n, corners <> [] -> 0 < n ->
  let p := Path corners n in
  dk asserts p 0 = k asserts p 0 /\
  (forall i, S i < 1 + (length corners - 1) * n -> exists x y, k asserts p i = Value x /\ k asserts p (S i) = Value y /\ dk asserts p (S i) = Value (sub y x)) /\
  (forall f i, (forall j, j <= i -> dk asserts p j = Value (f j)) -> i < 1 + (length corners - 1) * n -> k asserts p i = Value (total f (S i))).
Proof.
  intros c ps n Hp Hn p.
  assert (A : forall i, S i < 1 + (length ps - 1) * n -> exists x y, k c p i = Value x /\ k c p (S i) = Value y /\ dk c p (S i) = Value (sub y x)).
  { intros i Hi. destruct (split_index (length ps) n (S i) Hn ltac:(lia) Hi) as [j [s [E [Hs Hj]]]].
    destruct (lt_some _ ps j ltac:(lia)) as [a Ha]. destruct (lt_some _ ps (S j) Hj) as [b Hb].
    assert (E' : i = j * n + s) by lia. rewrite E, E'.
    exists (between a b (INR s / INR n)), (between a b (INR (S s) / INR n)). split; [apply (k_any c p); auto; cbn; lia|]. split; [apply (k_any c p); auto|].
    rewrite step_between by assumption. now apply (dk_line c p). }
  split; [now apply dk_0|]. split; [exact A|].
  intros f i F Hi. induction i as [|i IH].
  - specialize (F 0 (le_n 0)). rewrite dk_0 in F by assumption. rewrite F. cbn [total]. f_equal. destruct (f 0) as [[x y] z]. unfold add, origin. now rewrite !Rplus_0_l.
  - destruct (A i Hi) as [x [y [Hx [Hy Hd]]]]. rewrite Hy. rewrite (F (S i) (le_n _)) in Hd. injection Hd as Hd.
    assert (IH' := IH (fun j H => F j (le_S _ _ H)) ltac:(lia)). rewrite Hx in IH'.
    assert (Q : x = total f (S i)) by congruence.
    change (total f (S (S i))) with (add (total f (S i)) (f (S i))). rewrite <- Q, Hd. f_equal.
    destruct x as [[x1 x2] x3], y as [[y1 y2] y3]. unfold add, sub. apply triple; ring.
Qed.
Print Assumptions C72_steps.

(** The driver of a computation gets all points of the walk, in their order, each once, and stops. *)
Theorem C72_driver : forall asserts corners n fuel, corners <> [] -> 0 < n -> 1 + (length corners - 1) * n <= fuel ->
  exists l, visit fuel asserts (Path corners n) 0 = Value l /\ length l = 1 + (length corners - 1) * n /\
    forall i x, nth_error l i = Some x -> after corners n i x.
Proof.
  intros c ps n fuel Hp Hn Hf. set (t := 1 + (length ps - 1) * n) in *.
  assert (G : forall m cur fuel, t - cur = m -> m <= fuel -> exists l, visit fuel c (Path ps n) cur = Value l /\ length l = m /\
    forall i x, nth_error l i = Some x -> after ps n (cur + i) x).
  { induction m as [|m IH]; intros cur f E F.
    - exists []. repeat split.
      + destruct f; cbn [visit]; rewrite total_value by exact Hp; cbn [bind points steps]; fold t; destruct (Nat.leb_spec t cur); try reflexivity; lia.
      + intros [|i] x; discriminate.
    - destruct f as [|f]; [lia|]. destruct (IH (S cur) f ltac:(lia) ltac:(lia)) as [l [V [L A]]].
      destruct (after_exists ps n cur Hp Hn ltac:(fold t; lia)) as [x Hx].
      exists (x :: l). repeat split.
      + cbn [visit]. rewrite total_value by exact Hp. cbn [bind points steps]. fold t. destruct (Nat.leb_spec t cur); [lia|].
        rewrite (after_k c (Path ps n) cur x Hn Hx). cbn [bind]. now rewrite V.
      + cbn. now rewrite L.
      + intros [|i] y H'.
        * injection H' as <-. now rewrite Nat.add_0_r.
        * replace (cur + S i) with (S cur + i) by lia. now apply A. }
  destruct (G t 0 fuel ltac:(lia) Hf) as [l H]. exists l. exact H.
Qed.
Print Assumptions C72_driver.

(** When the walk does not report a change of the step, the step is the same as before.  It reports a change exactly at
    the first step of each line. *)
Theorem C72_change_partial : forall asserts corners n i, corners <> [] -> 0 < n -> 0 < i < 1 + (length corners - 1) * n ->
  let p := Path corners n in
  (dkDidChange p i = Value false -> exists d, dk asserts p (i - 1) = Value d /\ dk asserts p i = Value d) /\
  (dkDidChange p i = Value true <-> exists j, i = j * n + 1) /\
  (dkDidChange p i = Value true \/ dkDidChange p i = Value false).
Proof.
  intros c ps n i Hp Hn Hi p. destruct (split_index (length ps) n i Hn ltac:(lia) ltac:(lia)) as [j [s [E [Hs Hj]]]].
  assert (D : dkDidChange p i = Value (s =? 0)).
  { unfold dkDidChange. rewrite total_value by exact Hp. cbn [bind points steps p]. destruct (Nat.ltb_spec i (1 + (length ps - 1) * n)); [|lia]. cbn [negb].
    destruct (Nat.eqb_spec i 0); [lia|]. destruct (Nat.eqb_spec n 0); [lia|]. rewrite E. replace (j * n + S s - 1) with (s + j * n) by lia.
    rewrite Nat.mod_add, Nat.mod_small by lia. reflexivity. }
  rewrite D. split; [|split].
  - intros H. destruct (Nat.eqb_spec s 0) as [|N]; [discriminate|]. destruct s as [|s]; [lia|].
    destruct (lt_some _ ps j ltac:(lia)) as [a Ha]. destruct (lt_some _ ps (S j) Hj) as [b Hb].
    exists (over (sub b a) (INR n)). rewrite E. replace (j * n + S (S s) - 1) with (j * n + S s) by lia.
    split; apply (dk_line c p); cbn; auto; lia.
  - split.
    + intros H. destruct (Nat.eqb_spec s 0) as [->|N]; [|discriminate]. exists j. exact E.
    + intros [j' E']. rewrite E in E'. assert (s = 0) by (assert (j' = j) by nia; nia). now subst s.
  - destruct (s =? 0); auto.
Qed.
Print Assumptions C72_change_partial.

(** The walk around the cube: corner [j] has pi in its first [j] coordinates and 0 in the others; if it goes back, it ends
    where it began. *)
Theorem C72_cube : forall (three : bool) n (back : bool), let d := if three then 3 else 2 in
  length (points (cubePath three n back)) = d + (if back then 2 else 1) /\ steps (cubePath three n back) = n /\
  (forall j, j <= d -> nth_error (points (cubePath three n back)) j =
     Some (if 1 <=? j then PI else 0%R, if 2 <=? j then PI else 0%R, if 3 <=? j then PI else 0%R)) /\
  (back = true -> nth_error (points (cubePath three n back)) (S d) = Some origin).
Proof.
  intros three n back d. destruct three, back; cbn; (split; [reflexivity|]); (split; [reflexivity|]); (split; [|try reflexivity; discriminate]);
    intros [|[|[|[|j]]]] H; try reflexivity; cbn in H; lia.
Qed.
Print Assumptions C72_cube.

Definition bent := Path [origin; (4, 0, 0); (4, 2, 0)]%R 2.
Example C72_walk_nonvacuous : points bent <> [] /\ 0 < steps bent /\ after (points bent) 2 3 (between (4, 0, 0) (4, 2, 0) (INR 1 / INR 2))%R.
Proof. split; [discriminate|]. split; [cbn; lia|]. exact (on_line (points bent) 2 1 1 _ _ eq_refl eq_refl (le_S _ _ (le_n 1))). Qed.
Example C72_change_nonvacuous : 0 < 2 < 1 + (length (points bent) - 1) * steps bent /\ dkDidChange bent 2 = Value false /\ dkDidChange bent 3 = Value true.
Proof. cbn. repeat split; lia. Qed.

(** Refuted: a change is reported only when there is one.  A corner on a straight line is taken for a change. *)
Theorem C72_change_refuted : forall asserts a d n, 0 < n -> let p := Path [a; add a d; add (add a d) d] n in
  dkDidChange p (n + 1) = Value true /\ exists x, dk asserts p n = Value x /\ dk asserts p (n + 1) = Value x.
Proof.
  intros c a d n Hn p.
  destruct (C72_change_partial c [a; add a d; add (add a d) d] n (n + 1) ltac:(discriminate) Hn ltac:(cbn; lia)) as [_ [H _]].
  split; [apply H; exists 1; lia|]. exists (over d (INR n)).
  assert (H1 := dk_line c p 0 (n - 1) a (add a d) ltac:(cbn; lia) eq_refl eq_refl). assert (H2 := dk_line c p 1 0 (add a d) (add (add a d) d) Hn eq_refl eq_refl).
  cbn [steps p] in H1, H2. replace (0 * n + S (n - 1)) with n in H1 by lia. replace (1 * n + 1) with (n + 1) in H2 by lia. rewrite H1, H2.
  destruct a as [[x y] z], d as [[u v] w]. unfold add, sub, over. split; f_equal; apply triple; unfold Rdiv; ring.
Qed.
Print Assumptions C72_change_refuted.

(** Refuted: points beyond the end of the walk are refused.  The assertion lets the first of them pass, and a corner
    that does not exist is read. *)
Theorem C72_end_refuted : forall asserts corners n, corners <> [] -> 0 < n ->
  let p := Path corners n in exists t, totalNumberOfSteps p = Value t /\ k asserts p t = Undefined /\ dk asserts p t = Undefined.
Proof.
  intros c ps n Hp Hn p. exists (1 + (length ps - 1) * n). assert (T : totalNumberOfSteps p = _) by (apply total_value; exact Hp). cbn [p points steps] in T.
  assert (L : 0 < length ps) by (destruct ps; [congruence|cbn; lia]).
  split; [exact T|]. split.
  - unfold k. rewrite T. cbn [bind]. rewrite Nat.leb_refl, andb_false_r. cbn [p steps points]. destruct (Nat.eqb_spec n 0); [lia|].
    destruct (Nat.eq_dec n 1) as [->|N].
    + rewrite Nat.mod_1_r, Nat.div_1_r. cbn [Nat.eqb]. apply at_none. lia.
    + rewrite Nat.mod_add, Nat.div_add, Nat.mod_small, (Nat.div_small 1 n) by lia. cbn [Nat.eqb]. rewrite (at_none _ ps (0 + (length ps - 1) + 1)) by lia. reflexivity.
  - unfold dk. rewrite T. cbn [bind]. rewrite Nat.leb_refl, andb_false_r. cbn [p steps points].
    assert (Q : (1 + (length ps - 1) * n - 1) / n = length ps - 1) by (rewrite Nat.add_comm, Nat.add_sub, Nat.div_mul by lia; reflexivity). rewrite Q.
    destruct (Nat.eqb_spec (1 + (length ps - 1) * n) 0); [discriminate|]. destruct (Nat.eqb_spec n 0); [lia|].
    rewrite (at_none _ ps (length ps - 1 + 1)) by lia. reflexivity.
Qed.
Print Assumptions C72_end_refuted.

(** Refuted: a path of no steps, which the text 0@... asks for, has one point.  It has none: the division by the number
    of steps is undefined. *)
Theorem C72_no_steps_refuted : forall asserts corners, corners <> [] ->
  totalNumberOfSteps (Path corners 0) = Value 1 /\ k asserts (Path corners 0) 0 = Undefined.
Proof.
  intros c ps Hp. assert (T : totalNumberOfSteps (Path ps 0) = _) by (apply total_value; exact Hp). cbn [points steps] in T. rewrite Nat.mul_0_r in T.
  split; [exact T|]. unfold k. rewrite T. cbn. now rewrite andb_false_r.
Qed.
Print Assumptions C72_no_steps_refuted.

(** Refuted: the path of a single step goes from the origin to the given point.  It has only that point. *)
Theorem C72_single_refuted : forall asserts x, totalNumberOfSteps (singleStepPath x) = Value 1 /\ k asserts (singleStepPath x) 0 = Value x.
Proof. intros c x. split; [reflexivity|]. exact (k_corner c (singleStepPath x) 0 x Nat.lt_0_1 eq_refl). Qed.
Print Assumptions C72_single_refuted.
