From Coq Require Import String Ascii List Arith Bool ZArith Lia.
From Verif Require Import CommandLine_model CommandLine_spec CommandLine_proofs CommandLineEnd_proofs CommandLine_theorems PathText_model PathText_spec.
Import ListNotations.

Lemma find_none c s : find_first_of c s = None <-> ~ In c s.
Proof.
  induction s as [|d r IH]; cbn; [tauto|]. destruct (Ascii.eqb_spec d c) as [->|N]; [split; [discriminate|tauto]|].
  destruct (find_first_of c r); cbn; split; intros H; try discriminate; try tauto.
  - exfalso. assert (Some n = None) by (apply IH; tauto). discriminate.
Qed.
Lemma find_some c s n : find_first_of c s = Some n <-> exists t u, s = t ++ c :: u /\ ~ In c t /\ n = length t.
Proof.
  revert n. induction s as [|d r IH]; intros n; cbn.
  - split; [discriminate|]. intros [t [u [H _]]]. destruct t; discriminate.
  - destruct (Ascii.eqb_spec d c) as [->|N].
    + split; [intros H; injection H as <-; now exists [], r|]. intros [t [u [H [Nt ->]]]]. destruct t as [|x t]; [reflexivity|]. injection H as <- _. destruct Nt. now left.
    + split.
      * destruct (find_first_of c r) as [m|]; [|discriminate]. cbn. intros H. injection H as <-. destruct (proj1 (IH m) eq_refl) as [t [u [-> [Nt ->]]]].
        exists (d :: t), u. repeat split. intros [E|I]; auto.
      * intros [t [u [H [Nt ->]]]]. destruct t as [|x t]; [injection H as ->; congruence|]. injection H as -> ->. cbn in Nt.
        assert (E : find_first_of c (t ++ c :: u) = Some (length t)) by (apply IH; exists t, u; repeat split; tauto). rewrite E. reflexivity.
Qed.
Lemma is_separator c : isSpace c || Ascii.eqb c ":" = true <-> separator c.
Proof. unfold separator. rewrite orb_true_iff, isSpace_iff. now destruct (Ascii.eqb_spec c ":") as [->|N]; split; intros [H|H]; auto; discriminate. Qed.
Lemma skipped_split s : exists a b, s = a ++ b /\ skipped s = length a /\ Forall separator a /\ forall c r, b = c :: r -> ~ separator c.
Proof.
  induction s as [|c r [a [b [-> [L [F H]]]]]]; cbn [skipped].
  - exists [], []. repeat split; [constructor|discriminate].
  - destruct (isSpace c || Ascii.eqb c ":") eqn:E.
    + exists (c :: a), b. cbn. rewrite L. repeat split; auto. constructor; [now apply is_separator|exact F].
    + exists [], (c :: a ++ b). repeat split; [constructor|]. intros c' r' H'. injection H' as <- _. intros S. apply is_separator in S. congruence.
Qed.
Lemma skipped_all a b : Forall separator a -> (forall c r, b = c :: r -> ~ separator c) -> skipped (a ++ b) = length a.
Proof.
  intros F H. induction F as [|c a Hc F IH]; cbn [app skipped length].
  - destruct b as [|c b]; [reflexivity|]. cbn [skipped]. destruct (isSpace c || Ascii.eqb c ":") eqn:E; [|reflexivity]. apply is_separator in E. now destruct (H c b).
  - apply is_separator in Hc. now rewrite Hc, IH.
Qed.
Section Path.
Context {D : Type} (stod : word -> option (D * nat)) (SL : forall w d n, stod w = Some (d, n) -> 0 < n <= length w) (DIM : nat) (DIM_pos : 0 < DIM).
Lemma coordinates_text p t u : coordinates (fun d t u => stod (t ++ u) = Some (d, length t)) p t u -> t <> [].
Proof using SL. destruct 1 as [d t u N|d t ds ts u N]; [|destruct t; discriminate]. apply SL in N. intros ->. cbn in N. exact (Nat.lt_irrefl 0 (proj1 N)). Qed.
Lemma readPoints_text fuel : forall b w ps, length w < fuel -> readPoints stod fuel DIM (b ++ w) (length b) = Good ps <-> path_text stod DIM ps w.
Proof using SL DIM_pos.
  induction fuel as [|fuel IH]; intros b w ps L; [lia|]. cbn [readPoints]. rewrite app_length. destruct (Nat.ltb_spec (length b) (length b + length w)) as [P|P].
  - split.
    + destruct (parseCoordinates stod DIM (b ++ w) (length b)) as [[p e]| |] eqn:E; try discriminate. cbn [bind fst snd].
      apply (C65_point D stod SL DIM b w p e DIM_pos) in E. destruct E as [Lp [t [u [-> [-> C]]]]].
      replace (skipn (length b + length t) (b ++ t ++ u)) with u by (now rewrite app_assoc, <- app_length, skipn_app_exact).
      destruct (skipped_split u) as [s [rest [-> [-> [F H]]]]]. destruct (readPoints stod fuel DIM _ _) as [ps'| |] eqn:E; try discriminate. cbn [bind]. intros Q. injection Q as <-.
      apply (point_of_path stod DIM p t s rest ps' Lp C F H). apply (IH (b ++ t ++ s)).
      * pose proof (coordinates_text _ _ _ C). destruct t; [contradiction|]. rewrite !app_length in L. cbn in L. lia.
      * rewrite !app_length. rewrite <- !app_assoc. replace (length b + (length t + length s)) with (length b + length t + length s) by lia. exact E.
    + intros T. destruct T as [|p t s rest ps Lp C F H T]; [cbn in P; lia|].
      assert (E : parseCoordinates stod DIM (b ++ t ++ s ++ rest) (length b) = Good (p, length b + length t)).
      { apply (C65_point D stod SL DIM b _ p _ DIM_pos). split; [exact Lp|]. exists t, (s ++ rest). auto. }
      rewrite E. cbn [bind fst snd].
      replace (skipn (length b + length t) (b ++ t ++ s ++ rest)) with (s ++ rest) by (now rewrite app_assoc, <- app_length, skipn_app_exact).
      rewrite (skipped_all s rest F H). 
      assert (Q : readPoints stod fuel DIM (b ++ t ++ s ++ rest) (length b + length t + length s) = Good ps).
      { replace (b ++ t ++ s ++ rest) with ((b ++ t ++ s) ++ rest) by now rewrite <- !app_assoc. replace (length b + length t + length s) with (length (b ++ t ++ s)) by (rewrite !app_length; lia).
        apply IH; [|exact T]. pose proof (coordinates_text _ _ _ C). destruct t; [contradiction|]. rewrite !app_length in L. cbn in L. lia. }
      rewrite Q. reflexivity.
  - destruct w as [|c w]; [|cbn in P; lia]. split.
    + intros Q. injection Q as <-. constructor.
    + intros T. inversion T as [|p t s rest ps' Lp C F H T' E1 E2]; [reflexivity|]. pose proof (coordinates_text _ _ _ C). destruct t; [contradiction|discriminate].
Qed.
End Path.
Lemma toInt_as v n : n = toInt v <-> as_int v n.
Proof.
  unfold toInt, as_int. pose proof (Z.mod_pos_bound (v + 2 ^ 31) (2 ^ 32) ltac:(lia)) as B. pose proof (Z.div_mod (v + 2 ^ 31) (2 ^ 32) ltac:(lia)) as Q. split.
  - intros ->. split; [lia|]. exists ((v + 2 ^ 31) / 2 ^ 32)%Z. lia.
  - intros [R [k ->]]. replace (n + k * 2 ^ 32 + 2 ^ 31)%Z with (n + 2 ^ 31 + k * 2 ^ 32)%Z by lia. rewrite Z.mod_add by lia. rewrite Z.mod_small; lia.
Qed.
