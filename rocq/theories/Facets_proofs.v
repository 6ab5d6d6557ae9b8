From Coq Require Import String List Arith Bool Lia Sorted.
From Verif Require Import Facets_model Facets_spec.
Import ListNotations.

Lemma same_pair p q : samePair p q = true <-> p = q.
Proof.
  destruct p as [a x], q as [b y]. unfold samePair. cbn. rewrite andb_true_iff, Nat.eqb_eq. destruct x as [x|], y as [y|]; [rewrite Nat.eqb_eq| | |]; split.
  all: try (intros [-> ->]; reflexivity). all: try (intros [_ H]; discriminate). all: try (intros [-> _]; reflexivity). all: intros H; injection H; intros; subst; auto; try discriminate.
Qed.
Lemma lookup_push {A} p q (x : A) m : lookup p (push q x m) = if samePair p q then lookup p m ++ [x] else lookup p m.
Proof.
  unfold lookup. induction m as [|[k l] r IH]; cbn [push find fst].
  - destruct (samePair p q); reflexivity.
  - destruct (samePair q k) eqn:E.
    + apply same_pair in E. subst k. cbn [find fst]. destruct (samePair p q); reflexivity.
    + cbn [find fst]. destruct (samePair p k) eqn:F; [|exact IH]. apply same_pair in F. subst k. destruct (samePair p q) eqn:G; [|reflexivity].
      apply same_pair in G. subst q. assert (samePair p p = true) by now apply same_pair. congruence.
Qed.
Lemma keys_push {A} p q (x : A) m : In p (map fst (push q x m)) <-> p = q \/ In p (map fst m).
Proof.
  induction m as [|[k l] r IH]; cbn [push map fst In]; [intuition auto|]. destruct (samePair q k) eqn:E; cbn [map fst In].
  - apply same_pair in E. subst k. intuition auto.
  - rewrite IH. intuition auto.
Qed.
(** what a face puts in a facet *)
Definition part (p : pair) (f : face) : list (face * side) :=
  match select f with Some s => if samePair p (getZoneIndexPair f) then [(f, s)] else [] | None => [] end.
Lemma facets_lookup p faces : lookup p (facets faces) = flat_map (part p) faces.
Proof.
  unfold facets. assert (G : forall m, lookup p (fold_left (fun m f => match select f with Some s => push (getZoneIndexPair f) (f, s) m | None => m end) faces m) = lookup p m ++ flat_map (part p) faces).
  { induction faces as [|f r IH]; intros m; cbn [fold_left flat_map]; [now rewrite app_nil_r|]. rewrite IH. unfold part at 2. destruct (select f) as [s|]; [|reflexivity].
    rewrite lookup_push. destruct (samePair p (getZoneIndexPair f)); [now rewrite <- app_assoc|reflexivity]. }
  apply (G []).
Qed.
Lemma facets_keys p faces : In p (map fst (facets faces)) <-> exists f, In f faces /\ select f <> None /\ getZoneIndexPair f = p.
Proof.
  unfold facets. assert (G : forall m, In p (map fst (fold_left (fun m f => match select f with Some s => push (getZoneIndexPair f) (f, s) m | None => m end) faces m)) <->
    In p (map fst m) \/ exists f, In f faces /\ select f <> None /\ getZoneIndexPair f = p).
  { induction faces as [|f r IH]; intros m; cbn [fold_left]; [split; [auto|intros [H|[f [[] _]]]; exact H]|]. rewrite IH. destruct (select f) as [s|] eqn:E.
    - rewrite keys_push. split.
      + intros [[->|H]|[g [I H]]]; [right; exists f; split; [now left|split; [congruence|reflexivity]]|auto|right; exists g; split; [now right|exact H]].
      + intros [H|[g [[<-|I] [S H]]]]; [auto|auto|right; exists g; auto].
    - split.
      + intros [H|[g [I H]]]; [auto|right; exists g; split; [now right|exact H]].
      + intros [H|[g [[<-|I] [S H]]]]; [auto|congruence|right; exists g; auto]. }
  rewrite G. cbn. split; [intros [[]|H]; exact H|auto].
Qed.
Lemma selected f s p : (select f = Some s /\ getZoneIndexPair f = p) <-> (ownedFace f = true /\ goes f s (fst p) (snd p) /\ outward p).
Proof.
  unfold select, getZoneIndexPair, outward. destruct f as [o l r]. cbn [fst snd ownedFace leftZone rightZone negb]. destruct o; cbn [fst snd ownedFace leftZone rightZone negb]; [|split; [intros [H _]; discriminate|intros [H _]; discriminate]]. destruct r as [r|].
  - destruct (Nat.eqb_spec l r) as [->|N].
    + split; [intros [H _]; discriminate|]. intros [_ [G O]]. destruct p as [a b]. cbn [fst snd ownedFace leftZone rightZone negb] in *. inversion G as [E1 E2 E3|r' E E1 E2 E3]; cbn [fst snd ownedFace leftZone rightZone negb] in *; subst; [lia|injection E as <-; lia].
    + split.
      * intros [H <-]. injection H as <-. split; [reflexivity|]. destruct (Nat.ltb_spec r l), (Nat.ltb_spec l r); try lia; cbn [fst snd ownedFace leftZone rightZone negb]; split; try lia.
        -- now apply (from_right (Face true l (Some r))).
        -- apply (from_left (Face true l (Some r))).
      * intros [_ [G O]]. destruct p as [a b]. cbn [fst snd] in *.
        destruct (Nat.ltb_spec l r), (Nat.ltb_spec r l); try lia; inversion G as [E1 E2 E3|r' E E1 E2 E3]; cbn [leftZone rightZone] in *; try injection E as E; subst; cbn [leftZone rightZone] in *; try lia; auto.
  - split.
    + intros [H <-]. injection H as <-. cbn [fst snd ownedFace leftZone rightZone negb]. split; [reflexivity|]. split; [apply (from_left (Face true l None))|exact I].
    + intros [_ [G O]]. destruct p as [a b]. cbn [fst snd ownedFace leftZone rightZone negb] in *. inversion G as [E1 E2 E3|r' E E1 E2 E3]; cbn [fst snd ownedFace leftZone rightZone negb] in *; subst; [auto|discriminate].
Qed.
Lemma part_in p f g s : In (g, s) (part p f) <-> g = f /\ ownedFace f = true /\ goes f s (fst p) (snd p) /\ outward p.
Proof.
  rewrite <- selected. unfold part. destruct (select f) as [s'|] eqn:E; [|split; [intros []|intros [_ [H _]]; discriminate]].
  destruct (samePair p (getZoneIndexPair f)) eqn:F.
  - apply same_pair in F. cbn. split; [intros [H|[]]; injection H as <- <-; auto|intros [-> [H _]]; left; congruence].
  - split; [intros []|]. intros [_ [_ H]]. symmetry in H. apply same_pair in H. congruence.
Qed.
Lemma part_short p f : length (part p f) <= 1.
Proof. unfold part. destruct (select f); [|cbn; lia]. destruct (samePair p _); cbn; lia. Qed.
Lemma parts_once p faces : NoDup faces -> NoDup (map fst (flat_map (part p) faces)).
Proof.
  induction 1 as [|f r N D IH]; cbn [flat_map]; [constructor|]. rewrite map_app. pose proof (part_short p f) as L. destruct (part p f) as [|[g s] [|y t]] eqn:E; cbn in *; [exact IH|constructor; [|exact IH]|lia].
  assert (g = f) by (apply (part_in p f g s); rewrite E; now left). subst g.
  rewrite in_map_iff. intros [[g s'] [Hg I]]. cbn in Hg. subst g. apply in_flat_map in I. destruct I as [f' [I' H]]. apply part_in in H. destruct H as [-> _]. contradiction.
Qed.

(** the order *)
Lemma set_nth l : forall i x p, i < length l -> nth p (set i x l) 0 = if p =? i then x else nth p l 0.
Proof. induction l as [|y r IH]; intros [|i] x [|p] H; cbn in *; try lia; try reflexivity. apply IH. lia. Qed.
Lemma set_length l : forall i x, length (set i x l) = length l.
Proof. induction l as [|y r IH]; intros [|i] x; cbn; auto. Qed.
Lemma nth_zeros n p : nth p (repeat 0 n) 0 = 0.
Proof. revert p. induction n as [|n IH]; intros [|p]; cbn; auto. Qed.
Lemma present_nth {A} N (m : list (pair * A)) : (forall p, In p (map fst m) -> linear N p < N * (N + 1)) ->
  length (present N m) = N * (N + 1) /\ forall i, nth i (present N m) 0 <> 0 <-> exists p, In p (map fst m) /\ linear N p = i.
Proof.
  intros B. unfold present. assert (G : forall l, length l = N * (N + 1) -> length (fold_left (fun l (e : pair * A) => set (linear N (fst e)) 1 l) m l) = N * (N + 1) /\
    forall i, nth i (fold_left (fun l (e : pair * A) => set (linear N (fst e)) 1 l) m l) 0 <> 0 <-> nth i l 0 <> 0 \/ exists p, In p (map fst m) /\ linear N p = i).
  { induction m as [|[k a] r IH]; intros l L; cbn [fold_left fst].
    - split; [exact L|]. intros i. split; [auto|intros [H|[p [[] _]]]; exact H].
    - destruct (IH (fun p I => B p (or_intror I)) (set (linear N k) 1 l)) as [L1 N1]; [now rewrite set_length|]. split; [exact L1|]. intros i. rewrite N1.
      specialize (B k (or_introl eq_refl)). rewrite set_nth by lia. cbn [map fst In]. destruct (Nat.eqb_spec i (linear N k)) as [->|Ne]; split.
      + intros _. right. exists k. auto.
      + intros _. left. lia.
      + intros [H|[p [I E]]]; [auto|right; exists p; auto].
      + intros [H|[p [[<-|I] E]]]; [auto|congruence|right; exists p; auto]. }
  destruct (G (repeat 0 (N * (N + 1))) (repeat_length _ _)) as [L1 N1]. split; [exact L1|]. intros i. rewrite N1, nth_zeros. split; [intros [H|H]; [congruence|exact H]|auto].
Qed.
Lemma larger_nth a : forall b, length a = length b -> length (larger a b) = length a /\ forall i, nth i (larger a b) 0 = Nat.max (nth i a 0) (nth i b 0).
Proof.
  unfold larger. induction a as [|x a IH]; intros [|y b] L; try discriminate; [split; [reflexivity|]; intros [|i]; reflexivity|]. cbn in L. destruct (IH b ltac:(lia)) as [L1 N1].
  split; [cbn [combine map length]; now rewrite L1|]. intros [|i]; [reflexivity|]. apply N1.
Qed.
Lemma reduce_nth N ls : Forall (fun l => length l = N * (N + 1)) ls -> length (Allreduce N ls) = N * (N + 1) /\ forall i, nth i (Allreduce N ls) 0 <> 0 <-> exists l, In l ls /\ nth i l 0 <> 0.
Proof.
  intros F. unfold Allreduce. assert (G : forall a, length a = N * (N + 1) -> length (fold_left larger ls a) = N * (N + 1) /\ forall i, nth i (fold_left larger ls a) 0 <> 0 <-> nth i a 0 <> 0 \/ exists l, In l ls /\ nth i l 0 <> 0).
  { induction F as [|l ls Hl F IH]; intros a L; cbn [fold_left]; [split; [exact L|]; intros i; split; [auto|intros [H|[l [[] _]]]; exact H]|].
    destruct (larger_nth a l ltac:(lia)) as [L1 N1]. destruct (IH (larger a l) ltac:(lia)) as [L2 N2]. split; [exact L2|]. intros i. rewrite N2, N1. split.
    - intros [H|[l' [I H]]]; [|right; exists l'; split; [now right|exact H]]. destruct (Nat.eq_dec (nth i a 0) 0); [right; exists l; split; [now left|lia]|auto].
    - intros [H|[l' [[<-|I] H]]]; [left; lia|left; lia|right; eauto]. }
  destruct (G (repeat 0 (N * (N + 1))) (repeat_length _ _)) as [L1 N1]. split; [exact L1|]. intros i. rewrite N1, nth_zeros. split; [intros [H|H]; [congruence|exact H]|auto].
Qed.
Definition decode (N i : nat) : pair := (i / (N + 1), match i mod (N + 1) with 0 => None | S j => Some j end).
Lemma decode_linear N p : (forall j, snd p = Some j -> j < N) -> decode N (linear N p) = p.
Proof.
  intros H. destruct p as [a b]. unfold decode, linear. cbn [fst snd] in *. set (c := match b with None => 0 | Some j => S j end). assert (c < N + 1) by (unfold c; destruct b as [j|]; [specialize (H j eq_refl)|]; lia).
  rewrite Nat.div_add_l, Nat.div_small by lia. rewrite (Nat.add_comm _ c), Nat.mod_add, Nat.mod_small by lia. rewrite Nat.add_0_r. unfold c. now destruct b.
Qed.
Lemma decode_earlier N i j : i < j -> earlier (decode N i) (decode N j).
Proof.
  intros H. unfold earlier, decode. cbn [fst snd]. pose proof (Nat.div_mod i (N + 1) ltac:(lia)) as Di. pose proof (Nat.div_mod j (N + 1) ltac:(lia)) as Dj.
  pose proof (Nat.div_le_mono i j (N + 1) ltac:(lia) ltac:(lia)) as M. destruct (Nat.eq_dec (i / (N + 1)) (j / (N + 1))) as [E|]; [right|left; lia]. split; [exact E|]. rewrite E in Di.
  assert (i mod (N + 1) < j mod (N + 1)) by lia. destruct (i mod (N + 1)), (j mod (N + 1)); try lia; exact I.
Qed.
Lemma pairs_in N l : forall i p, In p (pairs N i l) <-> exists k, nth k l 0 <> 0 /\ p = decode N (i + k).
Proof.
  induction l as [|x r IH]; intros i p; cbn [pairs].
  - split; [intros []|]. intros [[|k] [H _]]; cbn in H; lia.
  - assert (Q : (exists k, nth k (x :: r) 0 <> 0 /\ p = decode N (i + k)) <-> (x <> 0 /\ p = decode N i) \/ exists k, nth k r 0 <> 0 /\ p = decode N (S i + k)).
    { split.
      - intros [[|k] [H ->]]; [left; rewrite Nat.add_0_r; auto|right; exists k; split; [exact H|f_equal; lia]].
      - intros [[H ->]|[k [H ->]]]; [exists 0; rewrite Nat.add_0_r; auto|exists (S k); split; [exact H|f_equal; lia]]. }
    rewrite Q. destruct (Nat.eqb_spec x 0) as [->|Nx]; [rewrite IH; split; [auto|intros [[H _]|H]; [congruence|exact H]]|]. cbn [In]. rewrite IH. fold (decode N i). split; (intros [H|H]; [left|now right]); [auto|now destruct H].
Qed.
Lemma pairs_sorted N l : forall i, StronglySorted earlier (pairs N i l).
Proof.
  induction l as [|x r IH]; intros i; cbn [pairs]; [constructor|]. destruct (x =? 0); [apply IH|]. constructor; [apply IH|]. apply Forall_forall. intros p H. apply pairs_in in H. destruct H as [k [_ ->]].
  apply decode_earlier. lia.
Qed.
Lemma pair_within N f : within N f -> linear N (getZoneIndexPair f) < N * (N + 1) /\ forall j, snd (getZoneIndexPair f) = Some j -> j < N.
Proof.
  intros [L R]. unfold getZoneIndexPair, linear. destruct (rightZone f) as [r|]; [specialize (R r eq_refl); destruct (r <? leftZone f)|]; cbn [fst snd]; (split; [nia|]); intros j H; try discriminate; injection H as <-; assumption.
Qed.
Lemma order_in N ps : (forall fs f, In fs ps -> In f fs -> within N f) -> forall p, In p (faceIndexOrdering N ps) <-> exists fs, In fs ps /\ In p (map fst (facets fs)).
Proof.
  intros W p. unfold faceIndexOrdering. rewrite pairs_in.
  assert (B : forall fs, In fs ps -> length (present N (facets fs)) = N * (N + 1) /\ forall i, nth i (present N (facets fs)) 0 <> 0 <-> exists p, In p (map fst (facets fs)) /\ linear N p = i).
  { intros fs I. apply present_nth. intros q Hq. apply facets_keys in Hq. destruct Hq as [f [If [_ <-]]]. apply pair_within. eauto. }
  destruct (reduce_nth N (map (fun faces => present N (facets faces)) ps)) as [_ R].
  { apply Forall_forall. intros l Hl. apply in_map_iff in Hl. destruct Hl as [fs [<- I]]. now apply B. }
  assert (Dk : forall fs q, In fs ps -> In q (map fst (facets fs)) -> decode N (linear N q) = q).
  { intros fs q I Hq. apply decode_linear. apply facets_keys in Hq. destruct Hq as [f [If [_ <-]]]. apply pair_within. eauto. }
  split.
  - intros [k [H ->]]. apply R in H. destruct H as [l [Hl H]]. apply in_map_iff in Hl. destruct Hl as [fs [<- I]]. apply (B fs I) in H. destruct H as [q [Hq <-]]. cbn [Nat.add]. rewrite (Dk fs q I Hq). eauto.
  - intros [fs [I Hp]]. exists (linear N p). split; [|symmetry; now apply (Dk fs)]. apply R. exists (present N (facets fs)). split; [now apply (in_map (fun faces => present N (facets faces)))|]. apply (B fs I). eauto.
Qed.
Lemma earlier_irrefl p : ~ earlier p p.
Proof. intros [H|[_ H]]; [lia|]. destruct (snd p); [lia|exact H]. Qed.
Lemma earlier_trans p q r : earlier p q -> earlier q r -> earlier p r.
Proof.
  intros [H|[E H]] [H'|[E' H']]; [left; lia|left; lia|left; lia|right]. split; [congruence|]. destruct (snd p), (snd q), (snd r); try contradiction; try exact I; lia.
Qed.
Lemma sorted_unique l : forall l', StronglySorted earlier l -> StronglySorted earlier l' -> (forall p, In p l <-> In p l') -> l = l'.
Proof.
  induction l as [|x l IH]; intros [|y l'] S S' E; [reflexivity|destruct (proj2 (E y)); now left|destruct (proj1 (E x)); now left|].
  apply StronglySorted_inv in S. apply StronglySorted_inv in S'. destruct S as [S F], S' as [S' F']. rewrite Forall_forall in F, F'.
  assert (x = y).
  { destruct (proj1 (E x) (or_introl eq_refl)) as [->|I]; [reflexivity|]. destruct (proj2 (E y) (or_introl eq_refl)) as [->|I']; [reflexivity|].
    destruct (earlier_irrefl x). apply (earlier_trans x y x); auto. }
  subst y. f_equal. apply IH; auto. intros p. split; intros I.
  - destruct (proj1 (E p) (or_intror I)) as [<-|J]; [destruct (earlier_irrefl x); auto|exact J].
  - destruct (proj2 (E p) (or_intror I)) as [<-|J]; [destruct (earlier_irrefl x); auto|exact J].
Qed.
