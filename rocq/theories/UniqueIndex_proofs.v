From Coq Require Import List NArith Arith Lia FinFun.
From Verif Require Import UniqueIndex_model UniqueIndex_spec.
Import ListNotations.
Open Scope N_scope.

Definition counter (k : kind) (s : counters) : N :=
  match k with Element => elementIndex s | Face => faceIndex s
             | Edge => edgeIndex s | Node => nodeIndex s end.

Lemma get_counter k s : fst (getIndex k s) = counter k s.
Proof. destruct k; reflexivity. Qed.
Lemma get_same k s : counter k (snd (getIndex k s)) = incr (counter k s).
Proof. destruct k; reflexivity. Qed.
Lemma get_other k k' s : kind_eqb k k' = false -> counter k' (snd (getIndex k s)) = counter k' s.
Proof. destruct k, k'; simpl; congruence || reflexivity. Qed.
Lemma kind_eqb_eq a b : kind_eqb a b = true -> a = b.
Proof. destruct a, b; simpl; congruence. Qed.

Lemma handed_out_from k : forall h s,
  counter k s + N.of_nat (requests k h) <= 2 ^ 64 ->
  handed_out k (calls s h) =
  map (fun i => counter k s + N.of_nat i) (seq 0 (requests k h)).
Proof.
  induction h as [|x h IH]; intros s Hb; [reflexivity|].
  cbn [calls]. destruct (getIndex x s) as [n s'] eqn:E.
  unfold handed_out in *. unfold requests in *. cbn [filter fst] in *.
  destruct (kind_eqb x k) eqn:Ek.
  - apply kind_eqb_eq in Ek; subst x. cbn [map snd length seq].
    pose proof (get_counter k s) as Hc. pose proof (get_same k s) as Hs. rewrite E in Hc, Hs.
    cbn [fst snd] in *. subst n. f_equal; [cbn [N.of_nat]; lia|].
    cbn [length] in Hb. rewrite <- seq_shift, map_map.
    specialize (IH s'). destruct (length (filter _ h)) as [|m'] eqn:Em.
    + rewrite IH; [reflexivity|].
      rewrite Hs. unfold incr. pose proof (N.mod_upper_bound (counter k s + 1) (2^64)). lia.
    + assert (Hi : counter k s' = counter k s + 1).
      { rewrite Hs. unfold incr. apply N.mod_small. lia. }
      rewrite IH; rewrite Hi; [|lia].
      apply map_ext. intros i. lia.
  - pose proof (get_other x k s Ek) as Ho. rewrite E in Ho. cbn [snd] in Ho.
    rewrite IH; rewrite Ho; [reflexivity|exact Hb].
Qed.

Lemma unique_index h k :
  N.of_nat (requests k h) <= 2 ^ 64 ->
  handed_out k (calls initial h) = first_numbers (requests k h).
Proof.
  intros H. rewrite handed_out_from.
  - unfold first_numbers. apply map_ext. intros i. destruct k; reflexivity.
  - destruct k; exact H.
Qed.

Lemma unique_index_nodup h k :
  N.of_nat (requests k h) <= 2 ^ 64 -> NoDup (handed_out k (calls initial h)).
Proof.
  intros H. rewrite unique_index by exact H. unfold first_numbers.
  apply Injective_map_NoDup; [|apply seq_NoDup].
  intros a b. lia.
Qed.
