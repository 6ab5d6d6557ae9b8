(** Theorems for C77: the text of a path through k-space. *)
From Coq Require Import String Ascii List Arith Bool ZArith Lia.
From Verif Require Import CommandLine_model CommandLine_spec CommandLine_proofs CommandLineEnd_proofs CommandLine_theorems PathText_model PathText_spec PathText_proofs.
Import ListNotations.

(** C77: the reader accepts a text exactly if it is a list of points, perhaps after a number of steps that ends in front of the
    first @ in the text; it gives the points of that list, and the number as an int, which is -1 without an @. *)
Theorem C77_path : forall (D : Type) (stod : word -> option (D * nat)) (stoul : word -> option (Z * nat)) (DIM : nat),
  (forall w d n, stod w = Some (d, n) -> 0 < n <= length w) -> 0 < DIM ->
  forall w ps n, parsePath stod stoul DIM w = Good (ps, n) <->
  (~ In "@"%char w /\ n = (-1)%Z /\ path_text stod DIM ps w) \/
  (exists t u v, w = t ++ "@"%char :: u /\ ~ In "@"%char t /\ stoul w = Some (v, length t) /\ as_int v n /\ path_text stod DIM ps u).
Proof.
  intros D stod stoul DIM SL P w ps n. unfold parsePath. destruct (find_first_of "@" w) as [k|] eqn:E.
  - apply find_some in E. destruct E as [t [u [Ew [Nt ->]]]]. assert (I : In "@"%char w) by (rewrite Ew; apply in_or_app; right; now left).
    assert (R : forall ps, readPoints stod (S (length w)) DIM w (S (length t)) = Good ps <-> path_text stod DIM ps u).
    { intros qs. rewrite <- (readPoints_text stod SL DIM P (S (length w)) (t ++ ["@"%char]) u qs) by (rewrite Ew, app_length; cbn; lia).
      rewrite app_length. cbn [length]. rewrite <- app_assoc. cbn [app]. rewrite <- Ew. now replace (length t + 1) with (S (length t)) by lia. }
    split.
    + destruct (stoul w) as [[v len]|] eqn:Es; [|discriminate]. destruct (Nat.eqb_spec len (length t)) as [->|]; [|discriminate]. cbn [bind fst snd].
      destruct (readPoints stod _ DIM w _) as [qs| |] eqn:Er; try discriminate. cbn [bind]. intros Q. injection Q as <- <-. right. exists t, u, v. split; [exact Ew|]. split; [exact Nt|]. split; [reflexivity|]. split; [now apply toInt_as|now apply R].
    + intros [[N _]|[t' [u' [v [Ew' [Nt' [Es [A T]]]]]]]]; [contradiction|].
      assert (F : find_first_of "@" w = Some (length t')) by (apply find_some; eauto). assert (F' : find_first_of "@" w = Some (length t)) by (apply find_some; eauto).
      assert (Lt : length t' = length t) by congruence. rewrite Es, Lt, Nat.eqb_refl. cbn [bind fst snd].
      assert (u' = u). { rewrite Ew in Ew'. clear - Ew' Lt. revert t' Ew' Lt. induction t as [|x t IH]; intros [|y t'] E L; try discriminate; [now injection E|]. injection E as _ E. injection L as L. eauto. }
      subst u'. rewrite (proj2 (R ps) T). cbn [bind]. apply toInt_as in A. now rewrite A.
  - apply find_none in E. cbn [bind fst snd]. pose proof (readPoints_text stod SL DIM P (S (length w)) [] w) as R. cbn [app length] in R. split.
    + destruct (readPoints stod _ DIM w 0) as [qs| |] eqn:Er; try discriminate. cbn [bind]. intros Q. injection Q as <- <-. left. repeat split; auto. apply R; [lia|reflexivity].
    + intros [[_ [-> T]]|[t [u [v [-> _]]]]]; [|destruct E; apply in_or_app; right; now left]. rewrite (proj2 (R ps ltac:(lia)) T). reflexivity.
Qed.
Print Assumptions C77_path.

(** ** Examples, with numbers of digits *)
Definition digitsOf (w : word) : option (Z * nat) := let r := readDigits 0 w in if length (snd r) <? length w then Some (fst r, length w - length (snd r)) else None.
Lemma digits_rest w : forall a, length (snd (readDigits a w)) <= length w.
Proof. induction w as [|c w IH]; intros a; cbn [readDigits]; [cbn; lia|]. destruct (digitOf c) as [d|]; [specialize (IH (10 * a + d)%Z); cbn [length]; lia|cbn; lia]. Qed.
Lemma digits_length w d n : digitsOf w = Some (d, n) -> 0 < n <= length w.
Proof. unfold digitsOf. pose proof (digits_rest w 0). destruct (Nat.ltb_spec (length (snd (readDigits 0 w))) (length w)); [|discriminate]. intros E. injection E as _ <-. lia. Qed.
Example C77_path_nonvacuous :
  (forall w d n, digitsOf w = Some (d, n) -> 0 < n <= length w) /\
  parsePath digitsOf digitsOf 2 (word_of "20@1,2 : 3,4 5,6:") = Good ([[1; 2]; [3; 4]; [5; 6]]%Z, 20%Z) /\
  parsePath digitsOf digitsOf 1 (word_of "1:2") = Good ([[1]; [2]]%Z, (-1)%Z) /\
  parsePath digitsOf digitsOf 2 (word_of "20@1,2:3") = Stopped /\ parsePath digitsOf digitsOf 1 (word_of "20 @1") = Stopped.
Proof. split; [exact digits_length|]. repeat split. Qed.

(** C77: the number of steps is not checked to be an int: 4294967295 steps are the same as no number of steps, and larger
    numbers are reduced in the same way. *)
Theorem C77_steps_refuted : forall (D : Type) (stod : word -> option (D * nat)) (stoul : word -> option (Z * nat)) (DIM : nat),
  (forall w d n, stod w = Some (d, n) -> 0 < n <= length w) -> 0 < DIM ->
  forall t u ps, ~ In "@"%char t -> stoul (t ++ "@"%char :: u) = Some (2 ^ 32 - 1, length t)%Z -> path_text stod DIM ps u ->
  parsePath stod stoul DIM (t ++ "@"%char :: u) = Good (ps, (-1)%Z).
Proof.
  intros D stod stoul DIM SL P t u ps N E T. apply (C77_path D stod stoul DIM SL P). right. exists t, u, (2 ^ 32 - 1)%Z. split; [reflexivity|]. split; [exact N|]. split; [exact E|]. split; [|exact T]. split; [lia|]. exists 1%Z. lia.
Qed.
Print Assumptions C77_steps_refuted.
Example C77_steps_nonvacuous : parsePath digitsOf digitsOf 1 (word_of "4294967295@1:2") = Good ([[1]; [2]]%Z, (-1)%Z).
Proof. reflexivity. Qed.
