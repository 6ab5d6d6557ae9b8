(** Proofs about the loop over the command line. *)
From Coq Require Import String Ascii List Arith Bool ZArith Lia.
From Verif Require Import CommandLine_model CommandLine_spec CommandLine_proofs.
Import ListNotations.

Section Proofs.
Context {D : Type}.
Variable extractDouble : word -> D * bool.
Notation declaration := (@declaration D).
Notation value := (@value D).
Notation opt := (@opt D).
Variable declared : list declaration.
Notation r := (registerAll declared).
Notation convert := (convert extractDouble).
Notation parse := (parse extractDouble).
Notation shortOptions := (shortOptions extractDouble r).
Notation longOption := (longOption extractDouble r).

Definition worth (o : occurrence) (v : nat * value) : Prop := fst o = fst v /\ exists d, nth_error declared (fst o) = Some d /\ convert (d_kind d) (snd o) = Some (snd v).
Notation values := (Forall2 worth).
Definition apply (vs : list (nat * value)) (l : list opt) : list opt := fold_left (fun l v => set v l) vs l.
Lemma apply_fits : forall vs l, fits declared l -> fits declared (apply vs l).
Proof. induction vs as [|v vs IH]; intros l H; [exact H|]. cbn. apply IH, set_fits, H. Qed.
Lemma apply_app : forall vs ws l, apply (vs ++ ws) l = apply ws (apply vs l).
Proof. intros. apply fold_left_app. Qed.
Definition simple (c : ascii) (k : nat) : Prop := exists d, lettered declared c k d /\ flag d.

Lemma skipn_nth : forall {A} (l : list A) i a, nth_error l i = Some a -> skipn i l = a :: skipn (S i) l.
Proof. induction l as [|b l IH]; intros [|i] a H; try discriminate; cbn in *; [congruence|]. now apply IH. Qed.
Lemma nth_skipn : forall {A} (l : list A) i a w, skipn i l = a :: w -> nth_error l i = Some a /\ skipn (S i) l = w.
Proof. induction l as [|b l IH]; intros [|i] a w H; try discriminate; cbn [skipn] in *; [now injection H as -> ->|]. apply (IH i a w H). Qed.

(** ** letters *)
Lemma short_sound : forall argv cs l i l' j, fits declared l -> i < length argv -> shortOptions argv cs (l, i) = Good (l', j) ->
  (exists ks vs, Forall2 simple cs ks /\ values (map (fun k => (k, None)) ks) vs /\ l' = apply vs l /\ j = i) \/
  (exists cs' c ks k d a vs, cs = cs' ++ [c] /\ Forall2 simple cs' ks /\ lettered declared c k d /\ ~ flag d /\ nth_error argv (S i) = Some a /\
     values (map (fun k => (k, None)) ks ++ [(k, Some a)]) vs /\ l' = apply vs l /\ j = S i).
Proof.
  intros argv. induction cs as [|c cs IH]; intros l i l' j F Li H.
  - injection H as <- <-. left. exists [], []. repeat split; constructor.
  - cbn [shortOptions] in H. pose proof (shorts_first declared c) as L. destruct (find Ascii.eqb c (shorts r)) as [k|]; [|discriminate]. destruct L as (d & L). cbn [bind] in H.
    destruct (fits_at declared l k d F (proj1 L)) as (o & Eo & Ko). unfold option_at in H. cbn [fst snd] in H. rewrite Eo in H. cbn [bind] in H. destruct (has_flag o d Ko) as (HF & HV).
    destruct (flag_dec d) as [Fl|Fl].
    + rewrite (HF Fl) in H. cbn [andb negb must bind] in H. rewrite (parse_flag extractDouble declared argv l i k d F (proj1 L) Fl) in H. cbn [bind] in H.
      assert (W : worth (k, None) (k, VFlag true)) by (split; [reflexivity|]; exists d; split; [exact (proj1 L)|]; cbn; rewrite Fl; reflexivity).
      apply IH in H; [|now apply set_fits|exact Li]. destruct H as [(ks & vs & H1 & H2 & -> & ->)|(cs' & c' & ks & k' & d' & a & vs & -> & H1 & H2 & H3 & H4 & H5 & -> & ->)].
      * left. exists (k :: ks), ((k, VFlag true) :: vs). split; [constructor; [now exists d|exact H1]|]. split; [cbn; constructor; assumption|]. split; reflexivity.
      * right. exists (c :: cs'), c', (k :: ks), k', d', a, ((k, VFlag true) :: vs). split; [reflexivity|]. split; [constructor; [now exists d|exact H1]|]. repeat (split; [assumption|]).
        split; [cbn; constructor; assumption|]. split; reflexivity.
    + rewrite (HV Fl) in H. cbn [andb] in H. unfold must in H. destruct cs as [|c' cs]; cbn [atEnd negb orb] in H; [|discriminate]. destruct (length argv - i <=? 1) eqn:Q; [discriminate|]. cbn [negb bind] in H. apply Nat.leb_gt in Q.
      destruct (nth_error argv (S i)) as [a|] eqn:Ea; [|apply nth_error_None in Ea; lia]. rewrite (parse_value extractDouble declared argv l i k d a F (proj1 L) Fl Ea) in H.
      destruct (convert (d_kind d) (Some a)) as [v|] eqn:Cv; [|discriminate]. cbn in H. injection H as <- <-. right. exists [], c, [], k, d, a, [(k, v)].
      split; [reflexivity|]. split; [constructor|]. split; [exact L|]. split; [exact Fl|]. split; [reflexivity|]. split; [|split; reflexivity].
      cbn. constructor; [|constructor]. split; [reflexivity|]. exists d. split; [exact (proj1 L)|exact Cv].
Qed.
Lemma short_defined : forall argv cs l i, fits declared l -> i < length argv -> shortOptions argv cs (l, i) <> Undefined.
Proof.
  intros argv. induction cs as [|c cs IH]; intros l i F Li H; [discriminate|].
  cbn [CommandLine_model.shortOptions] in H. pose proof (shorts_first declared c) as L. destruct (find Ascii.eqb c (shorts r)) as [k|]; [|discriminate]. destruct L as (d & L). cbn [bind] in H.
  destruct (fits_at declared l k d F (proj1 L)) as (o & Eo & Ko). unfold option_at in H. cbn [fst snd] in H. rewrite Eo in H. cbn [bind] in H. destruct (has_flag o d Ko) as (HF & HV).
  destruct (flag_dec d) as [Fl|Fl].
  - rewrite (HF Fl) in H. cbn [andb negb must bind] in H. rewrite (parse_flag extractDouble declared argv l i k d F (proj1 L) Fl) in H. cbn [bind] in H.
    apply IH in H; [exact H|now apply set_fits|exact Li].
  - rewrite (HV Fl) in H. cbn [andb] in H. unfold must in H. destruct cs as [|c' cs]; cbn [atEnd negb orb] in H; [|discriminate]. destruct (length argv - i <=? 1) eqn:Q; [discriminate|]. cbn [negb bind] in H. apply Nat.leb_gt in Q.
    destruct (nth_error argv (S i)) as [a|] eqn:Ea; [|apply nth_error_None in Ea; lia]. rewrite (parse_value extractDouble declared argv l i k d a F (proj1 L) Fl Ea) in H.
    destruct (convert (d_kind d) (Some a)) as [v|] eqn:Cv; cbn in H; discriminate.
Qed.
Lemma values_flags : forall cs ks vs, Forall2 simple cs ks -> values (map (fun k => (k, None)) ks) vs -> vs = map (fun k => (k, VFlag true)) ks.
Proof.
  intros cs ks vs H. revert vs. induction H as [|c k cs ks (d & L & Fl) _ IH]; intros vs G; inversion G; subst; [reflexivity|]. cbn. f_equal; [|now apply IH].
  match goal with W : worth _ _ |- _ => destruct W as (E & d' & Ed & Ec) end. destruct y as [k' v]. cbn in *. subst k'. rewrite (proj1 L) in Ed. injection Ed as <-. rewrite Fl in Ec. cbn in Ec. congruence.
Qed.
Lemma short_flags : forall argv cs ks l i cs', Forall2 simple cs ks -> fits declared l ->
  shortOptions argv (cs ++ cs') (l, i) = shortOptions argv cs' (apply (map (fun k => (k, VFlag true)) ks) l, i).
Proof.
  intros argv cs ks l i cs' H. revert l. induction H as [|c k cs ks (d & L & Fl) _ IH]; intros l F; [reflexivity|].
  cbn [app CommandLine_model.shortOptions]. rewrite (find_lettered declared c k d L). cbn [bind]. destruct (fits_at declared l k d F (proj1 L)) as (o & Eo & Ko).
  unfold option_at. cbn [fst snd]. rewrite Eo. cbn [bind]. rewrite (proj1 (has_flag o d Ko) Fl). cbn [andb negb must bind].
  rewrite (parse_flag extractDouble declared argv l i k d F (proj1 L) Fl). cbn [bind map]. rewrite IH by now apply set_fits. reflexivity.
Qed.
Lemma short_complete_flags : forall argv cs ks vs l i, Forall2 simple cs ks -> fits declared l -> values (map (fun k => (k, None)) ks) vs ->
  shortOptions argv cs (l, i) = Good (apply vs l, i).
Proof.
  intros argv cs ks vs l i H F W. rewrite (values_flags _ _ _ H W). rewrite <- (app_nil_r cs), (short_flags argv cs ks l i [] H F). reflexivity.
Qed.
Lemma short_complete_value : forall argv cs ks c k d a vs l i, Forall2 simple cs ks -> lettered declared c k d -> ~ flag d -> fits declared l -> nth_error argv (S i) = Some a ->
  values (map (fun k => (k, None)) ks ++ [(k, Some a)]) vs -> shortOptions argv (cs ++ [c]) (l, i) = Good (apply vs l, S i).
Proof.
  intros argv cs ks c k d a vs l i H L Fl F Ea W. apply Forall2_app_inv_l in W. destruct W as (v1 & v2 & W1 & W2 & ->). rewrite (values_flags _ _ _ H W1).
  rewrite (short_flags argv cs ks l i [c] H F). inversion W2 as [|? [k' v] ? ? (E & d' & Ed & Ec) W3]; subst. inversion W3; subst. cbn [fst snd] in E, Ec, Ed. subst k'. rewrite (proj1 L) in Ed. injection Ed as <-.
  rewrite apply_app. set (l' := apply (map _ ks) l). assert (F' : fits declared l') by now apply apply_fits.
  cbn [CommandLine_model.shortOptions]. rewrite (find_lettered declared c k d L). cbn [bind]. destruct (fits_at declared l' k d F' (proj1 L)) as (o & Eo & Ko).
  unfold option_at. cbn [fst snd]. rewrite Eo. cbn [bind]. rewrite (proj2 (has_flag o d Ko) Fl). cbn [atEnd negb orb andb].
  assert (Q : S i < length argv) by (apply nth_error_Some; congruence). replace (length argv - i <=? 1) with false by (symmetry; apply Nat.leb_gt; lia). cbn [negb must bind].
  rewrite (parse_value extractDouble declared argv l' i k d a F' (proj1 L) Fl Ea), Ec. reflexivity.
Qed.

(** ** one word *)
Definition turn (argv : list word) (w : word) (s : list opt * nat) : outcome (list opt * nat) :=
  match w with
  | c :: c' :: rest => bind (must (Ascii.eqb c "-")) (fun _ => if Ascii.eqb c' "-" then longOption argv rest s else shortOptions argv (c' :: rest) s)
  | _ => Stopped
  end.
Lemma turn_sound : forall argv w l i l' j, fits declared l -> nth_error argv i = Some w -> turn argv w (l, i) = Good (l', j) ->
  exists g os vs, use declared g os /\ values os vs /\ l' = apply vs l /\ skipn i argv = g ++ skipn (S j) argv /\ i <= j < length argv.
Proof.
  intros argv w l i l' j F Ew H. assert (Li : i < length argv) by (apply nth_error_Some; congruence). unfold turn in H. destruct w as [|c [|c' rest]]; try discriminate. unfold must in H.
  destruct (Ascii.eqb c "-") eqn:C; [|discriminate]. apply Ascii.eqb_eq in C. subst c. cbn [bind] in H. destruct (Ascii.eqb c' "-") eqn:C'.
  - apply Ascii.eqb_eq in C'. subst c'. unfold CommandLine_model.longOption in H. pose proof (longs_first declared rest) as L. destruct (find same_word rest (longs r)) as [k|]; [|discriminate]. destruct L as (d & L). cbn [bind] in H.
    destruct (fits_at declared l k d F (proj1 L)) as (o & Eo & Ko). unfold option_at in H. cbn [fst snd] in H. rewrite Eo in H. cbn [bind] in H. destruct (has_flag o d Ko) as (HF & HV).
    destruct (flag_dec d) as [Fl|Fl].
    + rewrite (HF Fl) in H. cbn [andb negb must bind] in H. rewrite (parse_flag extractDouble declared argv l i k d F (proj1 L) Fl) in H. injection H as <- <-.
      exists [dash :: dash :: rest], [(k, None)], [(k, VFlag true)]. split; [now apply (use_flag declared rest k d)|]. split; [|split; [reflexivity|split; [|lia]]].
      * constructor; [|constructor]. split; [reflexivity|]. exists d. split; [exact (proj1 L)|]. cbn. now rewrite Fl.
      * rewrite (skipn_nth argv i _ Ew). reflexivity.
    + rewrite (HV Fl) in H. cbn [andb] in H. destruct (length argv - i <=? 1) eqn:Q; [discriminate|]. cbn [negb must bind] in H. apply Nat.leb_gt in Q.
      destruct (nth_error argv (S i)) as [a|] eqn:Ea; [|apply nth_error_None in Ea; lia]. rewrite (parse_value extractDouble declared argv l i k d a F (proj1 L) Fl Ea) in H.
      destruct (convert (d_kind d) (Some a)) as [v|] eqn:Cv; [|discriminate]. cbn in H. injection H as <- <-.
      exists [dash :: dash :: rest; a], [(k, Some a)], [(k, v)]. split; [now apply (use_value declared rest k d)|]. split; [|split; [reflexivity|split; [|lia]]].
      * constructor; [|constructor]. split; [reflexivity|]. exists d. split; [exact (proj1 L)|exact Cv].
      * rewrite (skipn_nth argv i _ Ew), (skipn_nth argv (S i) _ Ea). reflexivity.
  - assert (N : c' <> dash) by (intros ->; discriminate C'). apply short_sound in H; [|exact F|exact Li]. destruct H as [(ks & vs & H1 & H2 & -> & ->)|(cs' & c & ks & k & d & a & vs & E & H1 & H2 & H3 & H4 & H5 & -> & ->)].
    + exists [dash :: c' :: rest], (map (fun k => (k, None)) ks), vs. split; [now apply use_letters|]. split; [exact H2|]. split; [reflexivity|]. split; [|lia].
      rewrite (skipn_nth argv i _ Ew). reflexivity.
    + exists [dash :: cs' ++ [c]; a], (map (fun k => (k, None)) ks ++ [(k, Some a)]), vs. split; [|split; [exact H5|split; [reflexivity|split]]].
      * apply (use_letters_value declared cs' ks c k d a); try assumption. destruct cs'; cbn in *; congruence.
      * rewrite (skipn_nth argv i _ Ew), (skipn_nth argv (S i) _ H4), E. reflexivity.
      * assert (S i < length argv) by (apply nth_error_Some; congruence). lia.
Qed.
Lemma turn_defined : forall argv w l i, fits declared l -> nth_error argv i = Some w -> turn argv w (l, i) <> Undefined.
Proof.
  intros argv w l i F Ew H. assert (Li : i < length argv) by (apply nth_error_Some; congruence). unfold turn in H. destruct w as [|c [|c' rest]]; try discriminate. unfold must in H.
  destruct (Ascii.eqb c "-"); [|discriminate]. cbn [bind] in H. destruct (Ascii.eqb c' "-").
  - unfold CommandLine_model.longOption in H. pose proof (longs_first declared rest) as L. destruct (find same_word rest (longs r)) as [k|]; [|discriminate]. destruct L as (d & L). cbn [bind] in H.
    destruct (fits_at declared l k d F (proj1 L)) as (o & Eo & Ko). unfold option_at in H. cbn [fst snd] in H. rewrite Eo in H. cbn [bind] in H. destruct (has_flag o d Ko) as (HF & HV).
    destruct (flag_dec d) as [Fl|Fl].
    + rewrite (HF Fl) in H. cbn [andb negb must bind] in H. rewrite (parse_flag extractDouble declared argv l i k d F (proj1 L) Fl) in H. discriminate.
    + rewrite (HV Fl) in H. cbn [andb] in H. destruct (length argv - i <=? 1) eqn:Q; [discriminate|]. cbn [negb must bind] in H. apply Nat.leb_gt in Q.
      destruct (nth_error argv (S i)) as [a|] eqn:Ea; [|apply nth_error_None in Ea; lia]. rewrite (parse_value extractDouble declared argv l i k d a F (proj1 L) Fl Ea) in H.
      destruct (convert (d_kind d) (Some a)) as [v|] eqn:Cv; cbn in H; discriminate.
  - now apply short_defined in H.
Qed.
Lemma turn_complete : forall argv l i g os vs ws, fits declared l -> use declared g os -> values os vs -> skipn i argv = g ++ ws ->
  exists w, nth_error argv i = Some w /\ turn argv w (l, i) = Good (apply vs l, i + length g - 1) /\ 0 < length g.
Proof.
  intros argv l i g os vs ws F U W E. destruct U as [n k d L Fl|n k d a L Fl|c cs ks N H|cs ks c k d a N H L Fl]; cbn [app] in E; apply nth_skipn in E; destruct E as (Ew & E).
  - eexists. split; [exact Ew|]. split; [|cbn; lia]. unfold turn, dash. rewrite !Ascii.eqb_refl. cbn [must bind]. unfold CommandLine_model.longOption. rewrite (find_named declared n k d L). cbn [bind].
    destruct (fits_at declared l k d F (proj1 L)) as (o & Eo & Ko). unfold option_at. cbn [fst snd]. rewrite Eo. cbn [bind]. rewrite (proj1 (has_flag o d Ko) Fl). cbn [andb negb must bind].
    rewrite (parse_flag extractDouble declared argv l i k d F (proj1 L) Fl). inversion W as [|? [k' v] ? ? (E1 & d' & Ed & Ec) W3]; subst. inversion W3; subst. cbn [fst snd] in E1, Ec, Ed. subst k'. rewrite (proj1 L) in Ed. injection Ed as <-.
    rewrite Fl in Ec. cbn in Ec. injection Ec as <-. cbn. do 2 f_equal. lia.
  - apply nth_skipn in E. destruct E as (Ea & E). eexists. split; [exact Ew|]. split; [|cbn; lia]. unfold turn, dash. rewrite !Ascii.eqb_refl. cbn [must bind]. unfold CommandLine_model.longOption. rewrite (find_named declared n k d L). cbn [bind].
    destruct (fits_at declared l k d F (proj1 L)) as (o & Eo & Ko). unfold option_at. cbn [fst snd]. rewrite Eo. cbn [bind]. rewrite (proj2 (has_flag o d Ko) Fl).
    assert (Q : S i < length argv) by (apply nth_error_Some; congruence). replace (length argv - i <=? 1) with false by (symmetry; apply Nat.leb_gt; lia). cbn [andb negb must bind].
    rewrite (parse_value extractDouble declared argv l i k d a F (proj1 L) Fl Ea). inversion W as [|? [k' v] ? ? (E1 & d' & Ed & Ec) W3]; subst. inversion W3; subst. cbn [fst snd] in E1, Ec, Ed. subst k'. rewrite (proj1 L) in Ed. injection Ed as <-.
    match goal with |- context [outcome_of ?x] => replace x with (Some v) by (symmetry; exact Ec) end. cbn. do 2 f_equal. lia.
  - eexists. split; [exact Ew|]. split; [|cbn; lia]. unfold turn. change (Ascii.eqb dash "-") with true. cbn [must bind]. replace (Ascii.eqb c "-") with false by (symmetry; now apply Ascii.eqb_neq).
    rewrite (short_complete_flags argv (c :: cs) ks vs l i H F W). do 2 f_equal. cbn. lia.
  - apply nth_skipn in E. destruct E as (Ea & E). eexists. split; [exact Ew|]. split; [|cbn; lia].
    assert (G : exists c1 cs1, cs ++ [c] = c1 :: cs1 /\ c1 <> dash) by (destruct cs as [|c1 cs1]; cbn in *; eauto). destruct G as (c1 & cs1 & G & N1).
    unfold turn. rewrite G. change (Ascii.eqb dash "-") with true. cbn [must bind]. replace (Ascii.eqb c1 "-") with false by (symmetry; now apply Ascii.eqb_neq). rewrite <- G.
    rewrite (short_complete_value argv cs ks c k d a vs l i H L Fl F Ea W). do 2 f_equal. cbn. lia.
Qed.

(** ** the loop *)
Variable done : nat.
Variable ddone : declaration.
Hypothesis done_there : nth_error declared done = Some ddone.
Hypothesis done_flag : flag ddone.
Definition used_at (l : list opt) (k : nat) : bool := match nth_error l k with Some o => used o | None => false end.
Lemma set_used : forall l k v j, k < length l -> used_at (set (k, v) l) j = ((j =? k) || used_at l j)%bool.
Proof.
  intros l k v j H. unfold used_at, set. cbn [fst snd]. destruct (nth_error l k) as [o|] eqn:E; [|apply nth_error_None in E; lia]. rewrite replace_nth by exact H.
  destruct (j =? k); reflexivity.
Qed.
Lemma apply_used : forall os vs l j, values os vs -> fits declared l -> used_at (apply vs l) j = (existsb (Nat.eqb j) (map fst os) || used_at l j)%bool.
Proof.
  intros os vs l j W. revert l. induction W as [|[k a] [k' v] os vs (E & d & Ed & Ec) _ IH]; intros l F; [reflexivity|]. cbn in E. subst k'. cbn [apply fold_left map fst existsb].
  change (fold_left _ vs ?l) with (apply vs l). rewrite IH by now apply set_fits. rewrite set_used; [|apply forall2_length in F; rewrite <- F; apply nth_error_Some; cbn in Ed; congruence].
  destruct (j =? k), (existsb (Nat.eqb j) (map fst os)); reflexivity.
Qed.
Lemma existsb_in : forall j l, existsb (Nat.eqb j) l = true <-> In j l.
Proof. intros j l. rewrite existsb_exists. split; [intros (x & I & E); apply Nat.eqb_eq in E; now subst|]. intros I. exists j. now rewrite Nat.eqb_refl. Qed.
(** a flag that is used is true *)
Definition flags_true (l : list opt) : Prop := forall k o, nth_error l k = Some o -> kind o = Flag -> used o = true -> current o = VFlag true.
Lemma apply_flags : forall os vs l, values os vs -> fits declared l -> flags_true l -> flags_true (apply vs l).
Proof.
  intros os vs l W. revert l. induction W as [|[k a] [k' v] os vs (E & d & Ed & Ec) _ IH]; intros l F T; [exact T|]. cbn in E. subst k'. cbn [apply fold_left].
  apply IH; [now apply set_fits|]. intros j o Ho Ko Uo. unfold set in Ho. cbn [fst snd] in Ho, Ed, Ec. destruct (nth_error l k) as [o'|] eqn:Eo; [|eapply T; eassumption].
  rewrite replace_nth in Ho by (apply nth_error_Some; congruence). destruct (j =? k); [|eapply T; eassumption]. injection Ho as <-. cbn in Ko |- *.
  destruct (fits_at declared l k d F Ed) as (o2 & E2 & K2). rewrite Eo in E2. injection E2 as <-. rewrite <- K2, Ko in Ec. destruct a; cbn in Ec; [discriminate|congruence].
Qed.
Notation loop := (loop extractDouble r done).
Lemma is_done : forall l, fits declared l -> flags_true l -> exists o, option_at l done = Good o /\ (used o && isTrue (current o) = used_at l done)%bool.
Proof.
  intros l F T. destruct (fits_at declared l done ddone F done_there) as (o & Eo & Ko). exists o. unfold option_at, used_at. rewrite Eo. split; [reflexivity|].
  destruct (used o) eqn:U; [|reflexivity]. rewrite (T done o Eo); [reflexivity|now rewrite Ko|exact U].
Qed.
Lemma skipn_all' : forall {A} (l : list A) n, length l <= n -> skipn n l = [].
Proof. intros. now apply skipn_all2. Qed.
Lemma loop_unfold : forall argv turns l i, loop argv turns (l, i) = if i <? length argv then match turns with 0 => Undefined | S turns =>
    bind (word_at argv i) (fun w => bind (turn argv w (l, i)) (fun s => bind (option_at (fst s) done) (fun d => if used d && isTrue (current d) then Good s else loop argv turns (fst s, S (snd s))))) end else Good (l, i).
Proof. intros argv [|turns] l i; reflexivity. Qed.
Lemma loop_sound : forall argv turns l i l' j, fits declared l -> flags_true l -> used_at l done = false -> i <= length argv -> loop argv turns (l, i) = Good (l', j) ->
  exists os rest vs, command declared done (skipn i argv) os rest /\ values os vs /\ l' = apply vs l /\
  match rest with Some ws => skipn (S j) argv = ws /\ j < length argv | None => j = length argv end.
Proof.
  intros argv. induction turns as [|turns IH]; intros l i l' j F T U Li H; rewrite loop_unfold in H.
  - destruct (Nat.ltb_spec i (length argv)) as [Q|Q]; [discriminate|]. injection H as <- <-. exists [], None, []. split; [rewrite skipn_all' by exact Q; constructor|]. split; [constructor|]. split; [reflexivity|lia].
  - destruct (Nat.ltb_spec i (length argv)) as [Q|Q].
    + unfold word_at in H. destruct (nth_error argv i) as [w|] eqn:Ew; [|discriminate]. cbn [bind] in H. destruct (turn argv w (l, i)) as [[l1 j1]| |] eqn:Et; try discriminate. cbn [bind fst snd] in H.
      apply turn_sound in Et; [|exact F|exact Ew]. destruct Et as (g & os & vs & Us & W & -> & Sk & Lj). pose proof (apply_fits vs l F) as F1. pose proof (apply_flags os vs l W F T) as T1.
      destruct (is_done _ F1 T1) as (o & Eo & Do). rewrite Eo in H. cbn [bind] in H. rewrite Do, (apply_used os vs l done W F), U, orb_false_r in H.
      destruct (existsb (Nat.eqb done) (map fst os)) eqn:X.
      * injection H as <- <-. exists os, (Some (skipn (S j1) argv)), vs. split; [rewrite Sk; apply command_done; [exact Us|now apply existsb_in]|]. split; [exact W|]. split; [reflexivity|]. split; [reflexivity|lia].
      * apply IH in H; [|exact F1|exact T1|rewrite (apply_used os vs l done W F), U, X; reflexivity|lia]. destruct H as (os' & rest & vs' & C & W' & -> & R). exists (os ++ os'), rest, (vs ++ vs').
        split; [rewrite Sk; apply command_use; [exact Us| |exact C]|]. { intros C'. apply existsb_in in C'. congruence. }
        split; [now apply Forall2_app|]. split; [now rewrite apply_app|exact R].
    + injection H as <- <-. exists [], None, []. split; [rewrite skipn_all' by exact Q; constructor|]. split; [constructor|]. split; [reflexivity|lia].
Qed.
Lemma loop_defined : forall argv turns l i, fits declared l -> flags_true l -> length argv <= i + turns -> loop argv turns (l, i) <> Undefined.
Proof.
  intros argv. induction turns as [|turns IH]; intros l i F T Li H; rewrite loop_unfold in H.
  - destruct (Nat.ltb_spec i (length argv)) as [Q|Q]; [lia|discriminate].
  - destruct (Nat.ltb_spec i (length argv)) as [Q|Q]; [|discriminate].
    unfold word_at in H. destruct (nth_error argv i) as [w|] eqn:Ew; [|apply nth_error_None in Ew; lia]. cbn [bind] in H. destruct (turn argv w (l, i)) as [[l1 j1]| |] eqn:Et; [|discriminate|now apply turn_defined in Et].
    cbn [bind fst snd] in H. apply turn_sound in Et; [|exact F|exact Ew]. destruct Et as (g & os & vs & Us & W & -> & Sk & Lj). pose proof (apply_fits vs l F) as F1. pose proof (apply_flags os vs l W F T) as T1.
    destruct (is_done _ F1 T1) as (o & Eo & Do). rewrite Eo in H. cbn [bind] in H. destruct (_ && _)%bool; [discriminate|]. apply IH in H; [exact H|exact F1|exact T1|lia].
Qed.
Lemma loop_complete : forall argv words os rest, command declared done words os rest -> forall vs turns l i, fits declared l -> flags_true l -> used_at l done = false ->
  skipn i argv = words -> i <= length argv -> length argv <= i + turns -> values os vs ->
  exists j, loop argv turns (l, i) = Good (apply vs l, j) /\ match rest with Some ws => skipn (S j) argv = ws /\ j < length argv | None => j = length argv end.
Proof.
  intros argv words os rest C. induction C as [|g o ws os rest Us N C IH|g o ws Us N]; intros vs turns l i F T U Sk Li Lt W.
  - inversion W; subst. exists i. assert (E : length argv <= i) by (apply (f_equal (@length _)) in Sk; rewrite skipn_length in Sk; cbn in Sk; lia).
    rewrite loop_unfold. destruct (Nat.ltb_spec i (length argv)); [lia|]. split; [reflexivity|lia].
  - apply Forall2_app_inv_l in W. destruct W as (v1 & v2 & W1 & W2 & ->). destruct (turn_complete argv l i g o v1 ws F Us W1 Sk) as (w & Ew & Et & Lg).
    assert (Q : i < length argv) by (apply nth_error_Some; congruence). rewrite loop_unfold. destruct (Nat.ltb_spec i (length argv)); [|lia]. destruct turns as [|turns]; [lia|].
    unfold word_at. rewrite Ew. cbn [bind]. rewrite Et. cbn [bind fst snd]. pose proof (apply_fits v1 l F) as F1. pose proof (apply_flags o v1 l W1 F T) as T1.
    destruct (is_done _ F1 T1) as (p & Ep & Dp). rewrite Ep. cbn [bind]. rewrite Dp, (apply_used o v1 l done W1 F), U, orb_false_r. destruct (existsb (Nat.eqb done) (map fst o)) eqn:X; [apply existsb_in in X; contradiction|].
    rewrite apply_app. assert (Sk' : skipn (S (i + length g - 1)) argv = ws).
    { replace (S (i + length g - 1)) with (length g + i) by lia. clear - Sk. revert g Sk. induction i as [|i IHi] in argv |- *.
      - intros g E. cbn in E. subst argv. rewrite Nat.add_0_r, skipn_app, skipn_all, Nat.sub_diag. reflexivity.
      - intros g E. destruct argv as [|a argv]; cbn in E; [destruct g; [|discriminate]; cbn in E; subst; now rewrite skipn_nil|]. rewrite Nat.add_succ_r. cbn [skipn]. now apply IHi. }
    assert (Lq : i + length g <= length argv) by (apply (f_equal (@length _)) in Sk; rewrite skipn_length, app_length in Sk; lia).
    apply IH; try assumption; try lia. rewrite (apply_used o v1 l done W1 F), U, X. reflexivity.
  - destruct (turn_complete argv l i g o vs ws F Us W Sk) as (w & Ew & Et & Lg).
    assert (Q : i < length argv) by (apply nth_error_Some; congruence). rewrite loop_unfold. destruct (Nat.ltb_spec i (length argv)); [|lia]. destruct turns as [|turns]; [lia|].
    unfold word_at. rewrite Ew. cbn [bind]. rewrite Et. cbn [bind fst snd]. pose proof (apply_fits vs l F) as F1. pose proof (apply_flags o vs l W F T) as T1.
    destruct (is_done _ F1 T1) as (p & Ep & Dp). rewrite Ep. cbn [bind]. rewrite Dp, (apply_used o vs l done W F). rewrite (proj2 (existsb_in done (map fst o)) N). cbn [orb].
    exists (i + length g - 1). split; [reflexivity|].
    assert (Lq : i + length g <= length argv) by (apply (f_equal (@length _)) in Sk; rewrite skipn_length, app_length in Sk; lia). split; [|lia].
    replace (S (i + length g - 1)) with (length g + i) by lia. clear - Sk. revert g Sk. induction i as [|i IHi] in argv |- *.
    + intros g E. cbn in E. subst argv. rewrite Nat.add_0_r, skipn_app, skipn_all, Nat.sub_diag. reflexivity.
    + intros g E. destruct argv as [|a argv]; cbn in E; [destruct g; [|discriminate]; cbn in E; subst; now rewrite skipn_nil|]. rewrite Nat.add_succ_r. cbn [skipn]. now apply IHi.
Qed.
End Proofs.
