From Coq Require Import List Arith Bool Reals Lia Lra.
From Verif Require Import Hermitian_model Hermitian_spec.
Import ListNotations.

Lemma at_entry a i j : complete a -> i < numberOfRows a -> j < numberOfColumns a -> exists x y, at_ a i j = Some (Some x, Some y) /\ entry a i j x y.
Proof.
  intros [L C] Hi Hj. unfold at_, entry. replace (numberOfRows a * j + i) with (i + j * numberOfRows a) by nia.
  destruct (nth_error (data a) (i + j * numberOfRows a)) as [c|] eqn:E; [|apply nth_error_None in E; nia].
  destruct (C c (nth_error_In _ _ E)) as [x [y ->]]. exists x, y. auto.
Qed.
Lemma entry_unique a i j x y x' y' : entry a i j x y -> entry a i j x' y' -> x = x' /\ y = y'.
Proof. intros [_ [_ E]] [_ [_ E']]. rewrite E in E'. injection E' as <- <-. auto. Qed.

(** the test of one pair *)
Definition near (a : matrix) (tol : R) (i j : nat) : Prop :=
  forall x y u v, entry a i j x y -> entry a j i u v -> ((x - u) ^ 2 + (y - - v) ^ 2 <= tol * tol)%R.
Lemma near_swap a tol i j : near a tol i j -> near a tol j i.
Proof. intros H x y u v E F. specialize (H u v x y F E). lra. Qed.
Lemma near_sqrt d tol : (0 <= d)%R -> (sqrt d <= Rabs tol <-> d <= tol * tol)%R.
Proof.
  intros D. rewrite <- (sqrt_Rsqr_abs tol). unfold Rsqr. split; intros H.
  - apply sqrt_le_0; [exact D|apply Rle_0_sqr|exact H].
  - now apply sqrt_le_1_alt.
Qed.
Lemma row_spec a tol i js : complete a -> numberOfRows a = numberOfColumns a -> i < numberOfRows a -> Forall (fun j => j < numberOfRows a) js ->
  exists b, row a (Some tol) i js = Some b /\ (b = true <-> Forall (near a tol i) js).
Proof.
  intros C S Hi. induction 1 as [|j js Hj F IH]; cbn [row].
  - exists true. split; [reflexivity|]. split; [constructor|reflexivity].
  - destruct (at_entry a i j C Hi ltac:(lia)) as [x [y [E1 E1']]]. destruct (at_entry a j i C Hj ltac:(lia)) as [u [v [E2 E2']]]. rewrite E1, E2. cbn [conj sub norm fst snd option_map lift gt].
    destruct IH as [b [Eb Hb]].
    assert (Q : ((x - u) * (x - u) + (- y - v) * (- y - v) = (x - u) ^ 2 + (y - - v) ^ 2)%R) by ring. rewrite Q.
    destruct (Rlt_dec (tol * tol) ((x - u) ^ 2 + (y - - v) ^ 2)) as [G|G].
    + exists false. split; [reflexivity|]. split; [discriminate|]. intros H. apply Forall_inv in H. specialize (H x y u v E1' E2'). lra.
    + exists b. split; [exact Eb|]. rewrite Hb. split; [|apply Forall_inv_tail]. intros H. constructor; [|exact H].
      intros x' y' u' v' F1 F2. destruct (entry_unique _ _ _ _ _ _ _ E1' F1) as [<- <-]. destruct (entry_unique _ _ _ _ _ _ _ E2' F2) as [<- <-]. lra.
Qed.
Lemma rows_spec a tol is_ : complete a -> numberOfRows a = numberOfColumns a -> Forall (fun i => i < numberOfRows a) is_ ->
  exists b, rows a (Some tol) is_ = Some b /\ (b = true <-> forall i j, In i is_ -> i <= j < numberOfRows a -> near a tol i j).
Proof.
  intros C S. induction 1 as [|i is_ Hi F IH]; cbn [rows].
  - exists true. split; [reflexivity|]. split; [intros _ i j []|reflexivity].
  - destruct (row_spec a tol i (seq i (numberOfColumns a - i)) C S Hi) as [b [Eb Hb]].
    { apply Forall_forall. intros j Hj. apply in_seq in Hj. lia. }
    rewrite Eb. rewrite Forall_forall in Hb. destruct b.
    + destruct IH as [b' [Eb' Hb']]. exists b'. split; [exact Eb'|]. rewrite Hb'. split.
      * intros H i' j [<-|I] Hj; [|now apply H]. apply Hb; [reflexivity|]. apply in_seq. lia.
      * intros H i' j I Hj. apply H; [now right|exact Hj].
    + exists false. split; [reflexivity|]. split; [discriminate|]. intros H. apply Hb. intros j Hj. apply in_seq in Hj. apply H; [now left|lia].
Qed.
Lemma test_spec a tol : complete a -> exists b, isHermitian a (Some tol) = Some b /\ (b = true <-> hermitian_up_to a (Rabs tol)).
Proof.
  intros C. unfold isHermitian. destruct (Nat.eqb_spec (numberOfRows a) (numberOfColumns a)) as [S|S]; cbn [negb].
  - destruct (rows_spec a tol (seq 0 (numberOfRows a)) C S) as [b [Eb Hb]]; [apply Forall_forall; intros i Hi; apply in_seq in Hi; lia|].
    exists b. split; [exact Eb|]. rewrite Hb. split.
    + intros H. split; [exact S|]. intros i j x y u v E F. apply near_sqrt; [apply Rplus_le_le_0_compat; apply pow2_ge_0|]. pose proof E as [Hi [Hj _]].
      destruct (le_lt_dec i j).
      * apply (H i j); [apply in_seq; lia|lia|exact E|exact F].
      * apply (near_swap a tol j i); [apply H; [apply in_seq; lia|lia]|exact E|exact F].
    + intros [_ H] i j Hi Hj x y u v E F. apply near_sqrt; [apply Rplus_le_le_0_compat; apply pow2_ge_0|]. now apply (H i j).
  - exists false. split; [reflexivity|]. split; [discriminate|]. intros [S' _]. contradiction.
Qed.

Lemma nan_row tol a i js : (forall c, In c (data a) -> c = (None, None)) -> length (data a) = numberOfRows a * numberOfColumns a -> numberOfRows a = numberOfColumns a ->
  i < numberOfRows a -> Forall (fun j => j < numberOfRows a) js -> row a tol i js = Some true.
Proof.
  intros C L S Hi. induction 1 as [|j js Hj F IH]; cbn [row]; [reflexivity|].
  assert (A : forall n m, n < numberOfRows a -> m < numberOfRows a -> at_ a n m = Some (None, None)).
  { intros n m Hn Hm. unfold at_. destruct (nth_error (data a) (n + m * numberOfRows a)) as [c|] eqn:E; [f_equal; apply C; eapply nth_error_In; eassumption|apply nth_error_None in E; nia]. }
  rewrite !A by assumption. cbn. exact IH.
Qed.
Lemma nan_test tol a : (forall c, In c (data a) -> c = (None, None)) -> length (data a) = numberOfRows a * numberOfColumns a -> numberOfRows a = numberOfColumns a ->
  isHermitian a tol = Some true.
Proof.
  intros C L S. unfold isHermitian. rewrite <- S, Nat.eqb_refl. cbn [negb].
  assert (G : forall is_, Forall (fun i => i < numberOfRows a) is_ -> rows a tol is_ = Some true).
  { induction 1 as [|i r Hi F IH]; cbn [rows]; [reflexivity|]. rewrite nan_row; auto. apply Forall_forall. intros j Hj. apply in_seq in Hj. lia. }
  apply G, Forall_forall. intros i Hi. apply in_seq in Hi. lia.
Qed.
