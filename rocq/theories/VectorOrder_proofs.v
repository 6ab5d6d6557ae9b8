From Coq Require Import List Bool Arith Lia.
From Verif Require Import VectorOrder_model VectorOrder_spec.
Import ListNotations.

Definition ordered {E} (P : E -> Prop) (neE lessE : E -> E -> bool) : Prop :=
  (forall a b, P a -> P b -> (neE a b = false <-> a = b)) /\ strict_total P (fun a b => lessE a b = true).

(** lexicographic order *)
Definition sized {E} (P : E -> Prop) (n : nat) (l : list E) : Prop := length l = n /\ Forall P l.
Lemma lex_ordered {E} (P : E -> Prop) (neE lessE : E -> E -> bool) : ordered P neE lessE -> forall n,
  (forall l r, sized P n l -> sized P n r -> (equal neE l r = true <-> l = r)) /\ strict_total (sized P n) (fun l r => smaller neE lessE l r = true).
Proof.
  intros [Ne [I [T C]]]. induction n as [|n [IHe [IHi [IHt IHc]]]].
  - assert (Z : forall l : list E, sized P 0 l -> l = []) by (intros [|? ?] [L _]; [reflexivity|discriminate]).
    split; [|split; [|split]]; intros.
    + rewrite (Z l), (Z r) by assumption. cbn. tauto.
    + rewrite (Z x) by assumption. cbn. discriminate.
    + rewrite (Z x), (Z y) in * by assumption. discriminate.
    + rewrite (Z x), (Z y) in * by assumption. tauto.
  - assert (S1 : forall l, sized P (S n) l -> exists a m, l = a :: m /\ P a /\ sized P n m).
    { intros [|a m] [L F]; [discriminate|]. inversion_clear F. exists a, m. repeat split; auto. }
    split; [|split; [|split]].
    + intros l r Hl Hr. destruct (S1 l Hl) as [a [l' [-> [Pa Sl]]]]. destruct (S1 r Hr) as [b [r' [-> [Pb Sr]]]]. cbn [equal].
      destruct (neE a b) eqn:X.
      * split; [discriminate|]. intros H. injection H as -> _. assert (neE b b = false) by now apply Ne. congruence.
      * apply Ne in X; try assumption. subst b. rewrite (IHe l' r' Sl Sr). split; [congruence|intros H; now injection H].
    + intros l Hl. destruct (S1 l Hl) as [a [l' [-> [Pa Sl]]]]. cbn [smaller]. replace (neE a a) with false by (symmetry; now apply Ne). now apply IHi.
    + intros l m r Hl Hm Hr. destruct (S1 l Hl) as [a [l' [-> [Pa Sl]]]]. destruct (S1 m Hm) as [b [m' [-> [Pb Sm]]]]. destruct (S1 r Hr) as [d [r' [-> [Pd Sr]]]]. cbn [smaller].
      destruct (neE a b) eqn:X, (neE b d) eqn:Y; intros H1 H2.
      * assert (Ht : lessE a d = true) by (apply (T a b d); assumption).
        destruct (neE a d) eqn:Z; [exact Ht|]. apply Ne in Z; try assumption. subst d. exfalso. now apply (I a).
      * apply Ne in Y; try assumption. subst d. rewrite X. exact H1.
      * apply Ne in X; try assumption. subst b. rewrite Y. exact H2.
      * apply Ne in X; try assumption. apply Ne in Y; try assumption. subst b d. replace (neE a a) with false by (symmetry; now apply Ne). now apply (IHt l' m' r').
    + intros l r Hl Hr N. destruct (S1 l Hl) as [a [l' [-> [Pa Sl]]]]. destruct (S1 r Hr) as [b [r' [-> [Pb Sr]]]]. cbn [smaller].
      destruct (neE a b) eqn:X.
      * assert (Nab : a <> b) by (intros ->; assert (neE b b = false) by (now apply Ne); congruence).
        assert (neE b a = true) by (destruct (neE b a) eqn:Z; [reflexivity|]; apply Ne in Z; try assumption; congruence). rewrite H. now apply C.
      * apply Ne in X; try assumption. subst b. replace (neE a a) with false by (symmetry; now apply Ne). apply IHc; try assumption. congruence.
Qed.

Section Doubles.
Context {D : Type} (ltb eqb : D -> D -> bool).
Context (Eq : forall a b, eqb a b = true <-> a = b) (Lt : strict_total (fun _ : D => True) (fun a b => ltb a b = true)).
Definition number (a : option D) : Prop := a <> None.
Definition numberC (a : option D * option D) : Prop := number (fst a) /\ number (snd a).

Lemma doubles_ordered : ordered number (ne eqb) (lt ltb).
Proof using Eq Lt.
  destruct Lt as [I [T C]]. split.
  - intros [a|] [b|] Pa Pb; try (now destruct Pa); try (now destruct Pb). cbn. rewrite negb_false_iff, Eq. split; congruence.
  - split; [|split].
    + intros [a|] Pa; [|now destruct Pa]. cbn. now apply I.
    + intros [a|] [b|] [d|] Pa Pb Pd; cbn; try discriminate. now apply T.
    + intros [a|] [b|] Pa Pb N; try (now destruct Pa); try (now destruct Pb). cbn. apply C; auto. congruence.
Qed.
Lemma complex_ordered : ordered numberC (neC eqb) (lessC ltb eqb).
Proof using Eq Lt.
  destruct doubles_ordered as [Ne [I [T C]]]. split.
  - intros [a a'] [b b'] [Pa Pa'] [Pb Pb']. unfold neC. cbn [fst snd] in *. rewrite orb_false_iff, !Ne by assumption. split; [intros [-> ->]; reflexivity|intros H; injection H; auto].
  - unfold lessC. split; [|split].
    + intros [a a'] [Pa Pa']. cbn [fst snd] in *. replace (ne eqb a a) with false by (symmetry; now apply Ne). now apply I.
    + intros [a a'] [b b'] [d d'] [Pa Pa'] [Pb Pb'] [Pd Pd']. cbn [fst snd] in *. destruct (ne eqb a b) eqn:X, (ne eqb b d) eqn:Y; intros H1 H2.
      * assert (Ht : lt ltb a d = true) by (apply (T a b d); assumption). destruct (ne eqb a d) eqn:Z; [exact Ht|]. apply Ne in Z; try assumption. subst d. exfalso. now apply (I a).
      * apply Ne in Y; try assumption. subst d. rewrite X. exact H1.
      * apply Ne in X; try assumption. subst b. rewrite Y. exact H2.
      * apply Ne in X; try assumption. apply Ne in Y; try assumption. subst b d. replace (ne eqb a a) with false by (symmetry; now apply Ne). now apply (T a' b' d').
    + intros [a a'] [b b'] [Pa Pa'] [Pb Pb'] N. cbn [fst snd] in *. destruct (ne eqb a b) eqn:X.
      * assert (Nab : a <> b) by (intros ->; assert (ne eqb b b = false) by (now apply Ne); congruence).
        assert (Z : ne eqb b a = true) by (destruct (ne eqb b a) eqn:Z; [reflexivity|]; apply Ne in Z; try assumption; congruence). rewrite Z. now apply C.
      * apply Ne in X; try assumption. subst b. replace (ne eqb a a) with false by (symmetry; now apply Ne). apply C; try assumption. congruence.
Qed.

(** the loop of MiddleSizeVector *)
Lemma decide_smaller l r n : sized number n l -> sized number n r ->
  decide ltb l r = if equal (ne eqb) l r then None else Some (smaller (ne eqb) (lt ltb) l r).
Proof using Eq Lt.
  destruct doubles_ordered as [Ne [I [T C]]]. intros [L F]. revert n L r. induction F as [|a l Pa F IH]; intros n L r [Lr Fr].
  - destruct r; reflexivity.
  - destruct r as [|b r]; [cbn in *; lia|]. inversion_clear Fr as [|? ? Pb Fr']. cbn [length] in L, Lr. cbn [decide equal smaller].
    destruct (ne eqb a b) eqn:X.
    + assert (N : a <> b) by (intros ->; assert (ne eqb b b = false) by (now apply Ne); congruence).
      destruct (lt ltb a b) eqn:Y; [reflexivity|]. destruct (C a b Pa Pb N) as [Z|Z]; [congruence|]. now rewrite Z.
    + apply Ne in X; try assumption. subst b. destruct (lt ltb a a) eqn:Y; [exfalso; now apply (I a)|].
      apply (IH (length l)); [reflexivity|]. split; [lia|exact Fr'].
Qed.
Lemma middle_small l r n : sized number n l -> sized number n r -> middleLess ltb l r = smallLess ltb eqb l r.
Proof using Eq Lt.
  intros Sl Sr. unfold middleLess, smallLess. rewrite (decide_smaller l r n Sl Sr). destruct (equal (ne eqb) l r) eqn:X; [|reflexivity].
  destruct (lex_ordered _ _ _ doubles_ordered n) as [Q [I _]]. apply Q in X; try assumption. subst r. specialize (I l Sl). unfold less. destruct (smaller _ _ _ _); congruence.
Qed.
Lemma middle_complex n : strict_total (sized numberC n) (fun l r => middleLessC ltb l r = true).
Proof using Eq Lt.
  destruct (lex_ordered _ _ _ doubles_ordered n) as [Q [I [T C]]].
  assert (Pr : forall l, sized numberC n l -> sized number n (map fst l) /\ sized number n (map snd l)).
  { intros l [L F]. split; (split; [now rewrite map_length|]); apply Forall_map; eapply Forall_impl; try exact F; intros a [H1 H2]; assumption. }
  assert (Same : forall l r : list (option D * option D), map fst l = map fst r -> map snd l = map snd r -> l = r).
  { induction l as [|[a a'] l IH]; intros [|[b b'] r]; cbn; try discriminate; [reflexivity|]. intros H1 H2. injection H1 as -> H1. injection H2 as -> H2. f_equal. now apply IH. }
  assert (V : forall l r, sized numberC n l -> sized numberC n r -> middleLessC ltb l r =
    if equal (ne eqb) (map fst l) (map fst r) then smaller (ne eqb) (lt ltb) (map snd l) (map snd r) else smaller (ne eqb) (lt ltb) (map fst l) (map fst r)).
  { intros l r Sl Sr. destruct (Pr l Sl) as [L1 L2], (Pr r Sr) as [R1 R2]. unfold middleLessC. rewrite (decide_smaller _ _ n L1 R1). destruct (equal (ne eqb) (map fst l) (map fst r)); [|reflexivity].
    rewrite (decide_smaller _ _ n L2 R2). destruct (equal (ne eqb) (map snd l) (map snd r)) eqn:X; [|reflexivity]. apply Q in X; try assumption. rewrite X.
    specialize (I _ R2). destruct (smaller _ _ _ _); congruence. }
  split; [|split].
  - intros l Sl. destruct (Pr l Sl) as [L1 L2]. rewrite V by assumption. replace (equal (ne eqb) (map fst l) (map fst l)) with true by (symmetry; now apply Q). now apply I.
  - intros l m r Sl Sm Sr. destruct (Pr l Sl) as [L1 L2], (Pr m Sm) as [M1 M2], (Pr r Sr) as [R1 R2]. rewrite !V by assumption.
    destruct (equal (ne eqb) (map fst l) (map fst m)) eqn:X, (equal (ne eqb) (map fst m) (map fst r)) eqn:Y; intros H1 H2.
    + apply Q in X; try assumption. apply Q in Y; try assumption. rewrite X, Y. replace (equal _ (map fst r) (map fst r)) with true by (symmetry; now apply Q). now apply (T _ (map snd m)).
    + apply Q in X; try assumption. rewrite X, Y. exact H2.
    + apply Q in Y; try assumption. rewrite <- Y, X. exact H1.
    + assert (Z : smaller (ne eqb) (lt ltb) (map fst l) (map fst r) = true) by now apply (T _ (map fst m)).
      destruct (equal (ne eqb) (map fst l) (map fst r)) eqn:W; [|exact Z]. apply Q in W; try assumption. rewrite W in Z. exfalso. now apply (I _ R1).
  - intros l r Sl Sr N. destruct (Pr l Sl) as [L1 L2], (Pr r Sr) as [R1 R2]. rewrite !V by assumption.
    destruct (equal (ne eqb) (map fst l) (map fst r)) eqn:X.
    + apply Q in X; try assumption. rewrite X. replace (equal (ne eqb) (map fst r) (map fst r)) with true by (symmetry; now apply Q).
      apply C; try assumption. intros H. apply N. now apply Same.
    + assert (W : map fst l <> map fst r) by (intros H; apply Q in H; congruence).
      replace (equal (ne eqb) (map fst r) (map fst l)) with false; [now apply C|]. symmetry. destruct (equal (ne eqb) (map fst r) (map fst l)) eqn:Z; [|reflexivity]. apply Q in Z; try assumption. congruence.
Qed.
End Doubles.
