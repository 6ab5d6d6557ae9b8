(** Theorems for C76: the test whether a matrix is Hermitian. *)
From Coq Require Import List Arith Bool Reals Lia Lra.
From Verif Require Import Hermitian_model Hermitian_spec Hermitian_proofs.
Import ListNotations.

(** C76: without NaN the test never reads out of range, and it says yes exactly if the matrix is square and every entry is
    within the absolute value of the tolerance of the conjugate of the opposite entry, also below and on the diagonal. *)
Theorem C76_test : forall (a : matrix) (tol : R), complete a ->
  exists b, isHermitian a (Some tol) = Some b /\ (b = true <-> hermitian_up_to a (Rabs tol)).
Proof. exact test_spec. Qed.
Print Assumptions C76_test.

(** C76: with tolerance 0 these are the Hermitian matrices. *)
Theorem C76_exact : forall (a : matrix), complete a ->
  (isHermitian a (Some 0%R) = Some true <->
   numberOfRows a = numberOfColumns a /\ forall i j x y, entry a i j x y -> entry a j i x (- y)).
Proof.
  intros a C. destruct (test_spec a 0 C) as [b [-> H]]. rewrite Rabs_R0 in H. split.
  - intros E. injection E as ->. destruct (proj1 H eq_refl) as [S N]. split; [exact S|]. intros i j x y E.
    pose proof E as [Hi [Hj _]]. destruct (at_entry a j i C ltac:(lia) ltac:(lia)) as [u [v [_ F]]]. pose proof (N i j x y u v E F) as D.
    assert (Z : ((x - u) ^ 2 + (y - - v) ^ 2 <= 0)%R).
    { rewrite <- Rabs_R0 in D. apply near_sqrt in D; [lra|apply Rplus_le_le_0_compat; apply pow2_ge_0]. }
    pose proof (pow2_ge_0 (x - u)) as P1. pose proof (pow2_ge_0 (y - - v)) as P2.
    assert (x - u = 0)%R by (apply Rsqr_0_uniq; unfold Rsqr; lra). assert (y - - v = 0)%R by (apply Rsqr_0_uniq; unfold Rsqr; lra).
    replace x with u by lra. replace (- y)%R with v by lra. exact F.
  - intros [S N]. f_equal. apply H. split; [exact S|]. intros i j x y u v E F. destruct (entry_unique a j i u v x (- y) F (N i j x y E)) as [-> ->].
    replace ((x - x) ^ 2 + (y - - - y) ^ 2)%R with 0%R by ring. rewrite sqrt_0. lra.
Qed.
Print Assumptions C76_exact.

Example C76_nonvacuous :
  complete (Matrix [(Some 1, Some 0); (Some 2, Some 3); (Some 2, Some (-3)); (Some 5, Some 0)]%R 2 2) /\
  isHermitian (Matrix [(Some 1, Some 0); (Some 2, Some 3); (Some 2, Some (-3)); (Some 5, Some 0)]%R 2 2) (Some 0%R) = Some true /\
  isHermitian (Matrix [(Some 1, Some 0); (Some 2, Some 3); (Some 2, Some 3); (Some 5, Some 0)]%R 2 2) (Some 1%R) = Some false.
Proof.
  split; [split; [reflexivity|]; intros c Hc; cbn in Hc; repeat destruct Hc as [<-|Hc]; try contradiction; eauto|].
  unfold isHermitian, rows, row, at_. cbn -[gt]. unfold norm, sub, conj. cbn. split; repeat (destruct Rlt_dec; try lra); reflexivity.
Qed.

(** C76: a matrix of NaN is not Hermitian for any tolerance, but the test says yes. *)
Theorem C76_nan_refuted : forall (n : nat) (tol : num), isHermitian (Matrix (repeat (None, None) (n * n)) n n) tol = Some true.
Proof. intros n tol. apply nan_test; cbn; [intros c; apply repeat_spec|apply repeat_length|reflexivity]. Qed.
Print Assumptions C76_nan_refuted.
