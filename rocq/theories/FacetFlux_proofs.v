From Coq Require Import List Arith Bool Reals Lia Lra Sorted.
From Verif Require Import Facets_model Facets_spec Facets_proofs FacetFlux_model.
Import ListNotations.

Lemma put_nth l : forall i x p, i < length l -> nth p (put i x l) 0%R = if p =? i then x else nth p l 0%R.
Proof. induction l as [|y r IH]; intros [|i] x [|p] H; cbn in *; try lia; try reflexivity. apply IH. lia. Qed.
Lemma put_length l : forall i x, length (put i x l) = length l.
Proof. induction l as [|y r IH]; intros [|i] x; cbn; auto. Qed.
Lemma position_some p order k : position p order = Some k -> nth_error order k = Some p.
Proof.
  revert k. induction order as [|q r IH]; intros k; cbn; [discriminate|]. destruct (samePair p q) eqn:E.
  - apply same_pair in E. intros H. injection H as <-. now subst.
  - destruct (position p r); [|discriminate]. intros H. injection H as <-. now apply IH.
Qed.
Lemma position_in p order : In p order -> exists k, position p order = Some k.
Proof.
  induction order as [|q r IH]; [intros []|]. intros I. cbn. destruct (samePair p q) eqn:E; [eauto|]. destruct I as [->|I]; [assert (samePair p p = true) by (now apply same_pair); congruence|].
  destruct (IH I) as [k ->]. cbn. eauto.
Qed.
Lemma facets_nodup faces : NoDup (map fst (facets faces)).
Proof.
  unfold facets. assert (G : forall m, NoDup (map fst m) -> NoDup (map fst (fold_left (fun m f => match select f with Some s => push (getZoneIndexPair f) (f, s) m | None => m end) faces m))).
  { induction faces as [|f r IH]; intros m D; cbn [fold_left]; [exact D|]. apply IH. destruct (select f) as [s|]; [|exact D]. clear IH. generalize (f, s). intros x. induction m as [|[k l] t IHm]; cbn; [repeat constructor; intros []|].
    apply NoDup_cons_iff in D. destruct D as [N D]. destruct (samePair (getZoneIndexPair f) k) eqn:E; cbn; constructor; auto.
    intros I. apply keys_push in I. destruct I as [->|I]; [|contradiction]. assert (samePair (getZoneIndexPair f) (getZoneIndexPair f) = true) by now apply same_pair. congruence. }
  apply G. constructor.
Qed.
Section Fluxes.
Context (flux : face -> side -> nat -> R).
Definition through (c : nat) (l : list (face * side)) : R := total (map (fun f => flux (fst f) (snd f) c) l).
Lemma loop_total c l : fold_left (fun s f => (s + flux (fst f) (snd f) c)%R) l 0%R = through c l.
Proof using.
  unfold through, total. assert (G : forall a, fold_left (fun s f => (s + flux (fst f) (snd f) c)%R) l a = (a + fold_right Rplus 0 (map (fun f => flux (fst f) (snd f) c) l))%R).
  { induction l as [|f l IH]; intros a; cbn; [lra|]. rewrite IH. lra. }
  rewrite G. lra.
Qed.
Lemma putFlux_nth k fs l : 4 * k + 4 <= length l -> length (putFlux flux k fs l) = length l /\
  forall j c, c < 4 -> nth (4 * j + c) (putFlux flux k fs l) 0%R = if j =? k then through c fs else nth (4 * j + c) l 0%R.
Proof using.
  intros L. unfold putFlux. cbn [seq fold_left]. rewrite !loop_total. split; [now rewrite !put_length|]. intros j c Hc. rewrite !put_nth by (rewrite ?put_length; lia).
  destruct (Nat.eqb_spec j k) as [->|N].
  - destruct c as [|[|[|[|c]]]]; [..|lia]; repeat (match goal with |- context [?a =? ?b] => destruct (Nat.eqb_spec a b); try lia end); reflexivity.
  - repeat (match goal with |- context [?a =? ?b] => destruct (Nat.eqb_spec a b); try lia end). reflexivity.
Qed.
Lemma flat_nth order m : NoDup (map fst m) -> (forall p, In p (map fst m) -> In p order) -> NoDup order -> forall l, length l = 4 * length order ->
  exists r, flatFluxes flux order m l = Some r /\ length r = length l /\
    forall k p c, nth_error order k = Some p -> c < 4 -> nth (4 * k + c) r 0%R = match find (fun e => samePair p (fst e)) m with Some e => through c (snd e) | None => nth (4 * k + c) l 0%R end.
Proof using.
  intros D I O. induction m as [|[q fs] m IH]; intros l L; cbn [flatFluxes].
  - exists l. repeat split.
  - apply NoDup_cons_iff in D. destruct D as [N D]. destruct (position_in q order (I q (or_introl eq_refl))) as [k' E]. rewrite E. apply position_some in E.
    assert (B : k' < length order) by (apply nth_error_Some; congruence). destruct (putFlux_nth k' fs l ltac:(lia)) as [L1 N1].
    destruct (IH D (fun p J => I p (or_intror J)) (putFlux flux k' fs l) ltac:(lia)) as [r [R1 [R2 R3]]]. exists r. split; [exact R1|]. split; [lia|].
    intros k p c Hk Hc. rewrite (R3 k p c Hk Hc). cbn [find fst]. destruct (samePair p q) eqn:S.
    + apply same_pair in S. subst q. assert (k = k') by (apply (proj1 (NoDup_nth_error order) O); [apply nth_error_Some; congruence|congruence]). subst k'.
      destruct (find (fun e => samePair p (fst e)) m) as [e|] eqn:F.
      * apply find_some in F. destruct F as [F1 F2]. apply same_pair in F2. destruct N. cbn [fst]. rewrite F2. exact (in_map fst m e F1).
      * rewrite N1, Nat.eqb_refl by exact Hc. reflexivity.
    + destruct (find (fun e => samePair p (fst e)) m); [reflexivity|]. rewrite N1 by exact Hc. destruct (Nat.eqb_spec k k') as [->|]; [|reflexivity].
      assert (p = q) by congruence. apply same_pair in H. congruence.
Qed.
Lemma plus_nth a : forall b i, length a = length b -> length (plus a b) = length a /\ nth i (plus a b) 0%R = (nth i a 0 + nth i b 0)%R.
Proof using.
  unfold plus. induction a as [|x a IH]; intros [|y b] i L; try discriminate; [split; [reflexivity|]; destruct i; cbn; lra|]. cbn in L. destruct (IH b (pred i) ltac:(lia)) as [L1 N1].
  split; [cbn [combine map length]; now rewrite L1|]. destruct i as [|i]; [reflexivity|]. exact N1.
Qed.
Lemma zeros_nth n i : nth i (repeat 0%R n) 0%R = 0%R.
Proof using. revert i. induction n as [|n IH]; intros [|i]; cbn; auto. Qed.
Lemma reduce_flat order ps : NoDup order -> (forall fs p, In fs ps -> In p (map fst (facets fs)) -> In p order) ->
  exists r, reduce (4 * length order) (map (fun faces => flatFluxes flux order (facets faces) (repeat 0%R (4 * length order))) ps) = Some r /\ length r = 4 * length order /\
    forall k p c, nth_error order k = Some p -> c < 4 -> nth (4 * k + c) r 0%R = total (map (fun faces => through c (lookup p (facets faces))) ps).
Proof using.
  intros O. induction ps as [|fs ps IH]; intros I; cbn [map reduce].
  - exists (repeat 0%R (4 * length order)). split; [reflexivity|]. split; [apply repeat_length|]. intros. rewrite zeros_nth. reflexivity.
  - destruct (flat_nth order (facets fs) (facets_nodup fs) (fun p J => I fs p (or_introl eq_refl) J) O (repeat 0%R (4 * length order)) (repeat_length _ _)) as [a [A1 [A2 A3]]]. rewrite repeat_length in A2.
    destruct (IH (fun gs p J => I gs p (or_intror J))) as [b [B1 [B2 B3]]]. rewrite A1, B1. exists (plus a b). split; [reflexivity|].
    split; [now rewrite (proj1 (plus_nth a b 0 ltac:(lia)))|]. intros k p c Hk Hc. rewrite (proj2 (plus_nth a b _ ltac:(lia))), (A3 k p c Hk Hc), (B3 k p c Hk Hc), zeros_nth.
    unfold total. cbn [fold_right]. f_equal. unfold lookup. destruct (find _ (facets fs)); reflexivity.
Qed.
Lemma sorted_nodup l : StronglySorted earlier l -> NoDup l.
Proof using. induction 1 as [|x l S IH F]; constructor; auto. intros I. rewrite Forall_forall in F. exact (earlier_irrefl x (F x I)). Qed.
Lemma fluxes_right N ps : (forall fs f, In fs ps -> In f fs -> within N f) ->
  exists r, computeFluxes flux N ps = Some r /\ length r = length (faceIndexOrdering N ps) /\
    forall k p, nth_error (faceIndexOrdering N ps) k = Some p -> nth_error r k = Some (map (fun c => total (map (fun faces => through c (lookup p (facets faces))) ps)) [0; 1; 2; 3]).
Proof using.
  intros W. unfold computeFluxes. destruct (reduce_flat (faceIndexOrdering N ps) ps) as [r [-> [L H]]].
  - apply sorted_nodup, pairs_sorted.
  - intros fs p I J. apply (order_in N ps W). eauto.
  - eexists. split; [reflexivity|]. split; [now rewrite map_length, seq_length|]. intros k p Hk. assert (B : k < length (faceIndexOrdering N ps)) by (apply nth_error_Some; congruence).
    rewrite nth_error_map. rewrite (nth_error_nth' (seq 0 _) 0) by now rewrite seq_length. rewrite seq_nth by exact B. cbn [option_map Nat.add]. f_equal. cbn [seq map].
    rewrite !(H k p) by (auto; lia). reflexivity.
Qed.
End Fluxes.
