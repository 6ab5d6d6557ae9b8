From Coq Require Import List Arith Permutation Lia.
From Verif Require Import Std_model.
Import ListNotations.

Lemma insert_in x y l : In y (insert x l) <-> y = x \/ In y l.
Proof.
  induction l as [|z l IH]; simpl; [intuition|].
  destruct (x <=? z); simpl; [intuition|]. rewrite IH. intuition.
Qed.
Lemma sort_in y l : In y (sort l) <-> In y l.
Proof. induction l; simpl; [tauto|]. rewrite insert_in, IHl. intuition. Qed.
Lemma insert_length x l : length (insert x l) = S (length l).
Proof. induction l; simpl; auto. destruct (x <=? a); simpl; auto. Qed.
Lemma sort_length l : length (sort l) = length l.
Proof. induction l; simpl; auto. rewrite insert_length, IHl. reflexivity. Qed.

Fixpoint sorted_from (p : nat) (l : list nat) : Prop :=
  match l with [] => True | x :: r => p <= x /\ sorted_from x r end.
Lemma sorted_from_le p q l : p <= q -> sorted_from q l -> sorted_from p l.
Proof. destruct l; simpl; intuition lia. Qed.
Lemma insert_sorted p x l : p <= x -> sorted_from p l -> sorted_from p (insert x l).
Proof.
  revert p; induction l as [|y l IH]; intros p Hp H; simpl in *; [auto|].
  destruct (x <=? y) eqn:E.
  - apply Nat.leb_le in E. simpl. tauto.
  - apply Nat.leb_gt in E. simpl. split; [tauto|]. apply IH; [lia|tauto].
Qed.
Lemma sort_sorted l : sorted_from 0 (sort l).
Proof. induction l; simpl; auto. apply insert_sorted; [lia|auto]. Qed.


Lemma sort_perm l : Permutation (sort l) l.
Proof.
  induction l as [|x l IH]; simpl; auto.
  transitivity (x :: sort l); [|constructor; exact IH].
  clear. induction (sort l) as [|y m IH]; simpl; auto.
  destruct (x <=? y); auto. rewrite IH. constructor.
Qed.

Lemma sorted_from_in p l x : sorted_from p l -> In x l -> p <= x.
Proof.
  revert p; induction l; simpl; intros p H Hz; [tauto|].
  destruct Hz as [<-|Hz]; [tauto|]. destruct H as [Ha Hb]. specialize (IHl _ Hb Hz). lia.
Qed.

Lemma sorted_unique : forall l1 l2 p,
  sorted_from p l1 -> sorted_from p l2 -> Permutation l1 l2 -> l1 = l2.
Proof.
  induction l1 as [|x l1 IH]; intros l2 p H1 H2 HP.
  - apply Permutation_nil in HP. auto.
  - destruct l2 as [|y l2]; [apply Permutation_sym, Permutation_nil in HP; discriminate|].
    simpl in *.
    assert (x = y).
    { assert (In x (y :: l2)) by (eapply Permutation_in; [exact HP|left; reflexivity]).
      assert (In y (x :: l1)) by (eapply Permutation_in; [apply Permutation_sym; exact HP|left; reflexivity]).
      destruct H as [->|H]; [reflexivity|]. destruct H0 as [->|H0]; [reflexivity|].
      pose proof (sorted_from_in _ _ _ (proj2 H2) H). pose proof (sorted_from_in _ _ _ (proj2 H1) H0). lia. }
    subst y. f_equal. apply Permutation_cons_inv in HP. eapply IH; [apply H1|apply H2|exact HP].
Qed.

Lemma seq_sorted n : forall m, sorted_from m (seq m n).
Proof.
  induction n; simpl; auto.
  intros m. split; [lia|]. eapply sorted_from_le; [|apply IHn]. lia.
Qed.
