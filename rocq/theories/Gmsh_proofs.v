(** Words, lines and the ends of sections. *)
From Coq Require Import String Ascii List Arith Bool ZArith Lia.
From Verif Require Import Loop_model StdMap_model Gmsh_model Gmsh_spec CommandLine_spec.
From Verif Require CommandLine_model CommandLine_proofs.
Import ListNotations.

(** * Words *)
Lemma space_iff : forall c, isSpace c = true <-> space c.
Proof. apply CommandLine_proofs.isSpace_iff. Qed.
Lemma space_false : forall c, isSpace c = false <-> ~ space c.
Proof. intros c. rewrite <- space_iff. destruct (isSpace c); intuition congruence. Qed.

Definition more (t : text) : Prop := exists c t', t = c :: t' /\ space c.
Lemma span_plain : forall w t, Forall (fun c => ~ space c) w -> more t -> span (w ++ t) = (w, t).
Proof.
  induction w as [|c w IH]; intros t H M.
  - destruct M as (c & t' & -> & Hc). cbn [app span]. apply space_iff in Hc. now rewrite Hc.
  - inversion H; subst. cbn [app span]. apply space_false in H2. rewrite H2, (IH t H3 M). reflexivity.
Qed.
Lemma skipSpace_plain : forall sep w t, Forall space sep -> plain w -> skipSpace (sep ++ w ++ t) = w ++ t.
Proof.
  induction sep as [|c sep IH]; intros w t H (W1 & W2); cbn [app].
  - destruct w as [|c w]; [congruence|]. inversion W2; subst. cbn [app CommandLine_model.skipSpace]. apply space_false in H2. now rewrite H2.
  - inversion H; subst. cbn [app CommandLine_model.skipSpace]. apply space_iff in H2. rewrite H2. apply IH; [assumption|split; assumption].
Qed.
Lemma extract_word : forall sep w t, Forall space sep -> plain w -> more t ->
  extract (Stream (sep ++ w ++ t) false) = Some (w, Stream t false).
Proof.
  intros sep w t S W M. unfold extract. cbn [eof rest]. rewrite (skipSpace_plain _ _ _ S W), (span_plain w t (proj2 W) M).
  cbn [fst snd]. destruct w; [destruct W; congruence|]. destruct M as (c & t' & -> & _). reflexivity.
Qed.

Lemma digits_plain : forall w n, digits w n -> Forall (fun c => ~ space c) w.
Proof.
  intros w n H. induction H; [constructor|]. apply Forall_app. split; [assumption|].
  constructor; [now apply CommandLine_proofs.not_space_digit|constructor].
Qed.
Lemma digits_nonneg : forall w n, digits w n -> (0 <= n)%Z.
Proof. intros w n H. induction H; lia. Qed.
Lemma readSign_digits : forall w n, w <> [] -> digits w n -> readSign w = (false, w).
Proof.
  intros w n W H. pose proof (CommandLine_proofs.digits_first w n H) as F. destruct w as [|c w]; [congruence|].
  destruct F as (d & Hd & ->). now apply CommandLine_proofs.not_sign_digit.
Qed.
Lemma natural_plain : forall n w, natural n w -> plain w.
Proof. intros n w (A & B & _). split; [exact A|now apply (digits_plain w n)]. Qed.
Lemma natural_range : forall n w, natural n w -> (0 <= n < 2 ^ 64)%Z.
Proof. intros n w (_ & B & C). apply digits_nonneg in B. lia. Qed.
Lemma integer_plain : forall z w, integer z w -> plain w.
Proof.
  intros z w H. destruct H as [z w A B _|n w A B _].
  - split; [exact A|now apply (digits_plain w z)].
  - split; [discriminate|]. constructor; [|now apply (digits_plain w n)]. cbv. intuition discriminate.
Qed.
Lemma toSize_natural : forall n w, natural n w -> toSize w = Some n.
Proof.
  intros n w (A & B & C). unfold toSize. rewrite (readSign_digits w n A B). cbn [snd fst].
  rewrite (CommandLine_proofs.readDigits_digits w n B). cbn [fst snd]. destruct w; [congruence|]. cbn [isEmpty negb CommandLine_model.atEnd andb].
  unfold sizeBound. destruct (Z.ltb_spec n (2 ^ 64)); [reflexivity|lia].
Qed.
Lemma toInt_integer : forall z w, integer z w -> toInt w = Some z.
Proof.
  intros z w H. unfold toInt. destruct H as [z w A B C|n w A B C].
  - rewrite (readSign_digits w z A B). cbn [snd fst]. rewrite (CommandLine_proofs.readDigits_digits w z B). cbn [fst snd].
    destruct w; [congruence|]. cbn [isEmpty negb CommandLine_model.atEnd andb]. apply digits_nonneg in B.
    destruct (Z.leb_spec (- 2 ^ 31) z); [|lia]. destruct (Z.ltb_spec z (2 ^ 31)); [reflexivity|lia].
  - cbn [readSign CommandLine_model.readSign Ascii.eqb Bool.eqb]. cbn [snd fst].
    change (CommandLine_model.readSign ("-"%char :: w)) with (true, w). cbn [fst snd].
    rewrite (CommandLine_proofs.readDigits_digits w n B). cbn [fst snd].
    destruct w; [congruence|]. cbn [isEmpty negb CommandLine_model.atEnd andb]. apply digits_nonneg in B.
    destruct (Z.leb_spec (- 2 ^ 31) (- n)); [|lia]. destruct (Z.ltb_spec (- n) (2 ^ 31)); [reflexivity|lia].
Qed.

Lemma readSize_word : forall sep n w t, Forall space sep -> natural n w -> more t ->
  readSize (Stream (sep ++ w ++ t) false) = Some (n, Stream t false).
Proof.
  intros sep n w t S W M. unfold readSize. rewrite (extract_word sep w t S (natural_plain n w W) M). cbn [bind fst snd].
  now rewrite (toSize_natural n w W).
Qed.
Lemma readInt_word : forall sep n w t, Forall space sep -> integer n w -> more t ->
  readInt (Stream (sep ++ w ++ t) false) = Some (n, Stream t false).
Proof.
  intros sep n w t S W M. unfold readInt. rewrite (extract_word sep w t S (integer_plain n w W) M). cbn [bind fst snd].
  now rewrite (toInt_integer n w W).
Qed.
Lemma readReal_word : forall {D} (convert : text -> option D) sep n w t, Forall space sep -> real convert n w -> more t ->
  readReal convert (Stream (sep ++ w ++ t) false) = Some (n, Stream t false).
Proof.
  intros D convert sep n w t S (W & E) M. unfold readReal. rewrite (extract_word sep w t S W M). cbn [bind fst snd].
  now rewrite E.
Qed.
Lemma untilQuote_app : forall s t, ~ In QUOTE s -> ~ In BACKSLASH s -> untilQuote (s ++ QUOTE :: t) = Some (s, t).
Proof.
  induction s as [|c s IH]; intros t Q B; [reflexivity|]. cbn [app untilQuote].
  destruct (Ascii.eqb_spec c QUOTE) as [->|_]; [exfalso; apply Q; now left|].
  destruct (Ascii.eqb_spec c BACKSLASH) as [->|_]; [exfalso; apply B; now left|].
  rewrite IH; [reflexivity| |]; intros H; [apply Q|apply B]; now right.
Qed.
Lemma readQuoted_word : forall sep s w t, Forall space sep -> quoted s w ->
  readQuoted (Stream (sep ++ w ++ t) false) = Some (s, Stream t false).
Proof.
  intros sep s w t S (-> & Q & B). unfold readQuoted. cbn [eof rest].
  assert (E : skipSpace (sep ++ (QUOTE :: s ++ [QUOTE]) ++ t) = QUOTE :: s ++ QUOTE :: t).
  { clear Q B. induction sep as [|c sep IH].
    - cbn [app]. rewrite <- app_assoc. reflexivity.
    - inversion S; subst. cbn [app CommandLine_model.skipSpace]. apply space_iff in H1. rewrite H1. now apply IH. }
  rewrite E. cbn [Ascii.eqb]. change (Ascii.eqb QUOTE QUOTE) with true. cbv iota. now rewrite (untilQuote_app s t Q B).
Qed.

(** * Words that follow each other *)
Lemma more_space : forall sep t, sep <> [] -> Forall space sep -> more (sep ++ t).
Proof. intros [|c sep] t N H; [congruence|]. inversion H; subst. exists c, (sep ++ t). now split. Qed.
Lemma follows_more : forall ws t r, follows ws t -> more r -> more (t ++ r).
Proof. intros ws t r H M. destruct H; [exact M|]. rewrite <- app_assoc. now apply more_space. Qed.
Lemma follows_split : forall ws ws' t, follows (ws ++ ws') t -> exists t1 t2, follows ws t1 /\ follows ws' t2 /\ t = t1 ++ t2.
Proof.
  induction ws as [|w ws IH]; intros ws' t H; [exists [], t; split; [constructor|split; [exact H|reflexivity]]|].
  cbn [app] in H. inversion H; subst. destruct (IH _ _ H5) as (t1 & t2 & A & B & ->).
  exists (sep ++ w ++ t1), t2. split; [now constructor|]. split; [exact B|]. now rewrite !app_assoc.
Qed.

(** a loop that reads the words of a list *)
Lemma times_all : forall {A St} (words : A -> list text -> Prop) (step : St -> A -> St) (ok : St -> A -> Prop)
    (body : St * stream -> option (St * stream)),
  (forall st a ws t r, ok st a -> words a ws -> follows ws t -> more r ->
     body (st, Stream (t ++ r) false) = Some (step st a, Stream r false)) ->
  forall l st ws t r, (forall l1 a l2, l = l1 ++ a :: l2 -> ok (fold_left step l1 st) a) ->
  all words l ws -> follows ws t -> more r ->
  times (length l) body (st, Stream (t ++ r) false) = Some (fold_left step l st, Stream r false).
Proof.
  intros A St words step ok body B. induction l as [|a l IH]; intros st ws t r O W F M; inversion W as [|? ? ws1 ws2 W1 W2]; subst.
  - inversion F; subst. reflexivity.
  - destruct (follows_split _ _ _ F) as (t1 & t2 & F1 & F2 & ->). cbn [length times fold_left]. rewrite <- app_assoc.
    rewrite (B st a ws1 t1 (t2 ++ r) (O [] a l eq_refl) W1 F1 (follows_more _ _ _ F2 M)). cbn [bind].
    apply (IH (step st a) ws2); [|assumption..]. intros l1 b l2 E. apply (O (a :: l1) b l2). now rewrite E.
Qed.
(** the same when nothing is kept *)
Lemma times_skip : forall {A} (words : A -> list text -> Prop) (body : stream -> option stream),
  (forall a ws t r, words a ws -> follows ws t -> more r -> body (Stream (t ++ r) false) = Some (Stream r false)) ->
  forall l ws t r, all words l ws -> follows ws t -> more r ->
  times (length l) body (Stream (t ++ r) false) = Some (Stream r false).
Proof.
  intros A words body B. induction l as [|a l IH]; intros ws t r W F M; inversion W as [|? ? ws1 ws2 W1 W2]; subst.
  - inversion F; subst. reflexivity.
  - destruct (follows_split _ _ _ F) as (t1 & t2 & F1 & F2 & ->). cbn [length times]. rewrite <- app_assoc.
    rewrite (B a ws1 t1 (t2 ++ r) W1 F1 (follows_more _ _ _ F2 M)). cbn [bind]. now apply (IH ws2).
Qed.

(** * Lines *)
Lemma getChars_line : forall l e r, one_line l -> ending e r ->
  exists b, getChars (l ++ e ++ r) = (l, (r, b)) /\ (b = true -> e = [] /\ r = []).
Proof.
  induction l as [|c l IH]; intros e r (A & B) E.
  - destruct E as [->|[->|[(-> & E)|(-> & ->)]]]; cbn [app getChars].
    + exists false. split; [reflexivity|discriminate].
    + exists false. split; [reflexivity|discriminate].
    + exists false. split; [|discriminate]. change (Ascii.eqb CR LF) with false. change (Ascii.eqb CR CR) with true. cbv iota.
      destruct r as [|c r]; [reflexivity|]. destruct (Ascii.eqb_spec c LF) as [->|_]; [exfalso; now apply E|reflexivity].
    + exists true. split; [reflexivity|now split].
  - destruct (IH e r) as (b & G & H); [split; intros H; [apply A|apply B]; now right|exact E|].
    exists b. split; [|exact H]. cbn [app getChars].
    destruct (Ascii.eqb_spec c LF) as [->|_]; [exfalso; apply A; now left|].
    destruct (Ascii.eqb_spec c CR) as [->|_]; [exfalso; apply B; now left|]. now rewrite G.
Qed.
Lemma safeGetline_line : forall l e r, one_line l -> ending e r -> l <> [] \/ e <> [] ->
  safeGetline (Stream (l ++ e ++ r) false) = (l, Stream r false).
Proof.
  intros l e r L E N. unfold safeGetline. cbn [rest eof]. destruct (getChars_line l e r L E) as (b & G & H). rewrite G. cbn [fst snd].
  destruct b; [|reflexivity]. destruct (H eq_refl) as (-> & ->). destruct N as [N|N]; [|congruence]. destruct l; [congruence|reflexivity].
Qed.

Lemma same_refl : forall t, same t t = true.
Proof. intros t. unfold same. destruct (list_eq_dec ascii_dec t t); congruence. Qed.
Lemma same_iff : forall a b, same a b = true <-> a = b.
Proof. intros a b. unfold same. destruct (list_eq_dec ascii_dec a b); intuition congruence. Qed.

(** the first line end in white space *)
Lemma blank_line : forall b r, new_line b -> hd_error r <> Some LF ->
  exists l b', Forall space l /\ (b' = [] \/ new_line b') /\ length b' < length b /\
    safeGetline (Stream (b ++ r) false) = (l, Stream (b' ++ r) false).
Proof.
  induction b as [|c b IH]; intros r (S & b0 & E) R; [destruct b0; destruct E; discriminate|].
  inversion S as [|? ? Sc Sb]; subst.
  assert (T : b = [] \/ new_line b).
  { destruct b as [|c' b]; [now left|right]. split; [exact Sb|]. destruct b0 as [|x b0]; [destruct E; discriminate|].
    exists b0. destruct E as [E|E]; injection E as _ E; [now left|now right]. }
  unfold safeGetline. cbn [app rest eof getChars].
  destruct (Ascii.eqb_spec c LF) as [->|N1].
  { exists [], b. split; [constructor|]. split; [exact T|]. split; [cbn; lia|reflexivity]. }
  destruct (Ascii.eqb_spec c CR) as [->|N2].
  { destruct b as [|c' b]; cbn [app].
    - exists [], []. split; [constructor|]. split; [now left|]. split; [cbn; lia|]. cbn [fst snd app].
      destruct r as [|x r]; [reflexivity|]. destruct (Ascii.eqb_spec x LF) as [->|_]; [exfalso; now apply R|reflexivity].
    - destruct (Ascii.eqb_spec c' LF) as [->|N].
      + exists [], b. split; [constructor|]. split; [|split; [cbn; lia|reflexivity]].
        destruct T as [T|(T1 & b1 & T2)]; [discriminate|]. inversion T1; subst. destruct b as [|x b]; [now left|right]. split; [assumption|].
        destruct b1 as [|y b1]; [destruct T2; discriminate|]. exists b1. destruct T2 as [E'|E']; injection E' as _ E'; [now left|now right].
      + exists [], (c' :: b). split; [constructor|]. split; [exact T|]. split; [cbn; lia|reflexivity]. }
  destruct T as [->|T].
  { exfalso. destruct b0 as [|x [|y b0]]; destruct E as [E|E]; try discriminate; injection E as ->; congruence. }
  destruct (IH r T R) as (l & b' & A & B & C & G). exists (c :: l), b'.
  split; [now constructor|]. split; [exact B|]. split; [cbn; lia|].
  unfold safeGetline in G. cbn [rest eof] in G. injection G as G1 G2 G3. cbn [fst snd isEmpty]. rewrite G1, G2, andb_false_r. reflexivity.
Qed.
Lemma forallb_space : forall l, Forall space l -> forallb isSpace l = true.
Proof. intros l H. apply forallb_forall. intros c Hc. apply space_iff. rewrite Forall_forall in H. now apply H. Qed.
Lemma end_line : forall name e r, one_line name -> ending e r ->
  safeGetline (Stream ((chars "$End" ++ name) ++ e ++ r) false) = (chars "$End" ++ name, Stream r false).
Proof.
  intros name e r (A & B) E. apply safeGetline_line; [|exact E|left; discriminate].
  split; intros H; apply in_app_iff in H; destruct H as [H|H]; try contradiction; cbv in H; intuition discriminate.
Qed.
Lemma readSectionEnd_ok : forall fuel name b e r, b = [] \/ new_line b -> one_line name -> ending e r ->
  length b < fuel -> readSectionEnd fuel name (Stream (b ++ (chars "$End" ++ name) ++ e ++ r) false) = Some (Stream r false).
Proof.
  induction fuel as [|fuel IH]; intros name b e r Hb N E F; [lia|]. cbn [readSectionEnd eof].
  destruct Hb as [->|Hb].
  - cbn [app]. change (chars "$End" ++ name) with (chars "$End" ++ name). rewrite (end_line name e r N E). cbn [fst snd].
    replace (forallb isSpace (chars "$End" ++ name)) with false by reflexivity. cbn [must]. 
    replace (4 <=? length (chars "$End" ++ name)) with true by reflexivity. cbn [bind].
    change (skipn 4 (chars "$End" ++ name)) with name. rewrite same_refl. reflexivity.
  - destruct (blank_line b ((chars "$End" ++ name) ++ e ++ r) Hb) as (l & b' & A & B & C & G); [discriminate|].
    rewrite G. cbn [fst snd]. rewrite (forallb_space l A). apply IH; [exact B|exact N|exact E|lia].
Qed.
Lemma skipSection_ok : forall ls t fuel name e r, lines_text ls t ((chars "$End" ++ name) ++ e ++ r) ->
  Forall (fun l => one_line l /\ firstn 4 l <> chars "$End") ls -> one_line name -> ending e r ->
  length t < fuel -> skipSection fuel name (Stream (t ++ (chars "$End" ++ name) ++ e ++ r) false) = Some (Stream r false).
Proof.
  induction ls as [|l ls IH]; intros t fuel name e r L H N E F; (destruct fuel as [|fuel]; [lia|]); inversion L; subst; cbn [skipSection eof].
  - cbn [app]. rewrite (end_line name e r N E). cbn [fst snd]. change (startsEnd (chars "$End" ++ name)) with true. cbv iota.
    change (skipn 4 (chars "$End" ++ name)) with name. rewrite same_refl. reflexivity.
  - inversion H as [|? ? (K1 & K2) K3]; subst.
    match goal with E0 : ending ?x (?y ++ _) |- _ => rename E0 into E1; rename x into e0; rename y into t0 end.
    match goal with L0 : lines_text ls t0 _ |- _ => rename L0 into L1 end.
    assert (NE : e0 <> []).
    { intros ->. destruct E1 as [X|[X|[(X & _)|(_ & X)]]]; try discriminate. destruct t0; discriminate. }
    replace ((l ++ e0 ++ t0) ++ (chars "$End" ++ name) ++ e ++ r) with (l ++ e0 ++ (t0 ++ (chars "$End" ++ name) ++ e ++ r)) by now rewrite <- !app_assoc.
    rewrite (safeGetline_line _ _ _ K1 E1 (or_intror NE)). cbn [fst snd]. unfold startsEnd.
    destruct (same (firstn 4 l) (chars "$End")) eqn:Q; [apply same_iff in Q; contradiction|].
    apply (IH t0); [assumption..|]. rewrite !app_length in F. destruct e0; [congruence|cbn in F; lia].
Qed.
