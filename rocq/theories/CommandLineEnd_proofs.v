(** Proofs about the options after the command line, and about points. *)
From Coq Require Import String Ascii List Arith Bool ZArith Lia.
From Verif Require Import CommandLine_model CommandLine_spec CommandLine_proofs CommandLineLoop_proofs.
Import ListNotations.

Section Proofs.
Context {D : Type}.
Variable extractDouble : word -> D * bool.
Notation declaration := (@declaration D).
Notation value := (@value D).
Notation opt := (@opt D).
Variable declared : list declaration.
Notation r := (registerAll declared).
Notation convert := (convert extractDouble).
Notation worth := (worth extractDouble declared).
Notation values := (Forall2 worth).

Lemma start_fits : fits declared (options r).
Proof.
  apply forall2_of_nth; [now rewrite registered_length|]. intros k d o Hd Ho. rewrite registered_options in Ho. rewrite nth_error_map, Hd in Ho. injection Ho as <-. cbn. auto.
Qed.
Lemma start_flags : flags_true (options r).
Proof. intros k o Ho _ U. rewrite registered_options, nth_error_map in Ho. destruct (nth_error declared k); [|discriminate]. injection Ho as <-. discriminate. Qed.
Lemma start_used : forall k, used_at (options r) k = false.
Proof. intros k. unfold used_at. rewrite registered_options, nth_error_map. now destruct (nth_error declared k). Qed.

Lemma current_after : forall os vs l k d o0 o, values os vs -> nth_error declared k = Some d -> nth_error l k = Some o0 -> nth_error (apply vs l) k = Some o ->
  (~ In k (map fst os) /\ current o = current o0) \/ (exists l1 a l2, os = l1 ++ (k, a) :: l2 /\ ~ In k (map fst l2) /\ convert (d_kind d) a = Some (current o)).
Proof.
  intros os vs l k d o0 o W Ed. revert l o0. induction W as [|[k1 a] [k2 v] os vs (E & d1 & E1 & Ec) _ IH]; intros l o0 H0 H.
  - left. cbn in H. rewrite H0 in H. injection H as <-. split; [intros []|reflexivity].
  - cbn [fst snd] in E, E1, Ec. subst k2. cbn [apply fold_left] in H. change (fold_left _ vs ?l) with (apply vs l) in H.
    assert (H1 : nth_error (set (k1, v) l) k = Some (if k =? k1 then Opt (tag o0) (long_tag o0) true (required o0) (kind o0) v else o0)).
    { unfold set. cbn [fst snd]. destruct (nth_error l k1) as [o'|] eqn:Eo.
      - rewrite replace_nth by (apply nth_error_Some; congruence). destruct (Nat.eqb_spec k k1) as [->|]; [congruence|exact H0].
      - destruct (Nat.eqb_spec k k1) as [->|]; [congruence|exact H0]. }
    destruct (IH _ _ H1 H) as [(N & C)|(l1 & b & l2 & -> & N & C)].
    + destruct (Nat.eqb_spec k k1) as [->|Nk].
      * right. exists [], a, os. split; [reflexivity|]. split; [exact N|]. rewrite C. cbn. rewrite E1 in Ed. injection Ed as <-. exact Ec.
      * left. split; [|exact C]. cbn. intros [->|I]; [now apply Nk|contradiction].
    + right. exists ((k1, a) :: l1), b, l2. repeat split; assumption.
Qed.
Lemma after_apply : forall os vs, values os vs -> options_after extractDouble declared os (apply vs (options r)).
Proof.
  intros os vs W. pose proof (apply_fits declared vs (options r) start_fits) as F. split; [symmetry; exact (forall2_length _ _ _ F)|]. intros k d o Hd Ho.
  destruct (forall2_nth _ _ _ _ _ _ F Hd Ho) as (F1 & F2 & F3 & F4). repeat (split; [assumption|]). split.
  - pose proof (apply_used extractDouble declared os vs (options r) k W start_fits) as U. rewrite start_used, orb_false_r in U. unfold used_at in U. rewrite Ho in U. rewrite U. apply existsb_in.
  - assert (H0 : nth_error (options r) k = Some (Opt (d_tag d) (d_long d) false (d_required d) (d_kind d) (d_default d))) by (rewrite registered_options, nth_error_map, Hd; reflexivity).
    destruct (current_after os vs _ k d _ o W Hd H0 Ho) as [(N & C)|(l1 & a & l2 & E & N & C)].
    + rewrite C. cbn. now constructor.
    + apply convert_iff in C. eapply valued_last; eassumption.
Qed.
Lemma last_unique : forall k (l1 : list occurrence) a l2 m1 b m2, l1 ++ (k, a) :: l2 = m1 ++ (k, b) :: m2 -> ~ In k (map fst l2) -> ~ In k (map fst m2) -> a = b.
Proof.
  intros k. induction l1 as [|x l1 IH]; intros a l2 [|y m1] b m2 E N M; cbn in E.
  - congruence.
  - injection E as <- E. exfalso. apply N. rewrite E, map_app, in_app_iff. right. now left.
  - injection E as -> E. exfalso. apply M. rewrite <- E, map_app, in_app_iff. right. now left.
  - injection E as _ E. eapply IH; eassumption.
Qed.
Lemma valued_unique : forall k d os v v', valued extractDouble k d os v -> valued extractDouble k d os v' -> v = v'.
Proof.
  intros k d os v v' [N|l a l' v0 E N A] [N'|m b m' v1 E' N' A'].
  - reflexivity.
  - exfalso. apply N. rewrite E', map_app, in_app_iff. right. now left.
  - exfalso. apply N'. rewrite E, map_app, in_app_iff. right. now left.
  - assert (a = b) by (apply (last_unique k l a l' m b m'); [exact (eq_trans (eq_sym E) E')|exact N|exact N']). subst b. apply convert_iff in A, A'. congruence.
Qed.
Lemma after_unique : forall os l l', options_after extractDouble declared os l -> options_after extractDouble declared os l' -> l = l'.
Proof.
  intros os l l' (L1 & H) (L2 & G). assert (E : Forall2 eq l l').
  { apply forall2_of_nth; [congruence|]. intros k o o' Ho Ho'. destruct (nth_error declared k) as [d|] eqn:Ed; [|apply nth_error_None in Ed; assert (k < length l) by (apply nth_error_Some; congruence); lia].
    destruct (H k d o Ed Ho) as (H1 & H2 & H3 & H4 & H5 & H6). destruct (G k d o' Ed Ho') as (G1 & G2 & G3 & G4 & G5 & G6). pose proof (valued_unique _ _ _ _ _ H6 G6) as E.
    destruct o as [t1 w1 u1 r1 k1 c1], o' as [t2 w2 u2 r2 k2 c2]. cbn in *. subst. f_equal. destruct u1, u2; try reflexivity; intuition congruence. }
  clear - E. induction E; congruence.
Qed.
Lemma values_exist : forall os, (forall k a, In (k, a) os -> exists d v, nth_error declared k = Some d /\ accepted extractDouble (d_kind d) a v) -> exists vs, values os vs.
Proof.
  induction os as [|[k a] os IH]; intros H; [exists []; constructor|]. destruct IH as (vs & IH); [intros; apply H; now right|]. destruct (H k a (or_introl eq_refl)) as (d & v & Hd & Hv).
  exists ((k, v) :: vs). constructor; [|exact IH]. split; [reflexivity|]. exists d. split; [exact Hd|]. now apply convert_iff.
Qed.
Lemma values_accepted : forall os vs k a, values os vs -> In (k, a) os -> exists d v, nth_error declared k = Some d /\ accepted extractDouble (d_kind d) a v.
Proof.
  intros os vs k a W. induction W as [|[k1 a1] [k2 v] os vs (E & d & Ed & Ec) _ IH]; intros []; [|auto]. injection H as -> ->. exists d, v. split; [exact Ed|]. now apply convert_iff.
Qed.

Variable done help : nat.
Variable ddone dhelp : declaration.
Hypothesis done_there : nth_error declared done = Some ddone.
Hypothesis done_flag : flag ddone.
Hypothesis help_there : nth_error declared help = Some dhelp.
Hypothesis help_flag : flag dhelp.
Hypothesis help_default : d_default dhelp = VFlag false.

Lemma help_value : forall os l, options_after extractDouble declared os l -> exists h, option_at l help = Good h /\ (isTrue (current h) = true <-> In help (map fst os)).
Proof.
  intros os l (L & H). destruct (nth_error l help) as [h|] eqn:E; [|apply nth_error_None in E; assert (help < length declared) by (apply nth_error_Some; congruence); lia].
  exists h. unfold option_at. rewrite E. split; [reflexivity|]. destruct (H help dhelp h help_there E) as (_ & _ & _ & _ & _ & V). inversion V as [N Ev|l1 a l2 v Eos N A Ev].
  - rewrite help_default. split; [discriminate|contradiction].
  - rewrite help_flag in A. inversion A. cbn. split; [intros _|reflexivity]. rewrite Eos, map_app, in_app_iff. right. now left.
Qed.
Lemma required_iff : forall os l, options_after extractDouble declared os l ->
  (existsb (fun o => required o && negb (used o)) l = false <-> forall k d, nth_error declared k = Some d -> d_required d = true -> In k (map fst os)).
Proof.
  intros os l (L & H). split.
  - intros X k d Hd R. destruct (nth_error l k) as [o|] eqn:E; [|apply nth_error_None in E; assert (k < length declared) by (apply nth_error_Some; congruence); lia].
    destruct (H k d o Hd E) as (_ & _ & H3 & _ & H5 & _). apply H5. destruct (used o) eqn:U; [reflexivity|]. exfalso.
    assert (Y : existsb (fun o => required o && negb (used o)) l = true) by (apply existsb_exists; exists o; split; [eapply nth_error_In; exact E|rewrite H3, R, U; reflexivity]). congruence.
  - intros G. destruct (existsb _ l) eqn:X; [|reflexivity]. exfalso. apply existsb_exists in X. destruct X as (o & I & X). apply In_nth_error in I. destruct I as (k & E).
    destruct (nth_error declared k) as [d|] eqn:Hd; [|apply nth_error_None in Hd; assert (k < length l) by (apply nth_error_Some; congruence); lia].
    destruct (H k d o Hd E) as (_ & _ & H3 & _ & H5 & _). apply andb_true_iff in X. destruct X as (X1 & X2). rewrite H3 in X1. apply (G k d Hd) in X1. apply H5 in X1. rewrite X1 in X2. discriminate.
Qed.

Lemma skipn_replace : forall {A} (l : list A) j a, j < length l -> skipn j (replace l j a) = a :: skipn (S j) l.
Proof. induction l as [|b l IH]; intros [|j] a H; cbn in H; try lia; [reflexivity|]. cbn [replace]. change (skipn (S j) (b :: replace l j a)) with (skipn j (replace l j a)). rewrite IH by lia. reflexivity. Qed.
Lemma parse_sound : forall name words l libs, parse_options extractDouble r done help (name :: words) = Good (l, libs) -> right_command extractDouble declared done help name words l libs.
Proof.
  intros name words l libs H. unfold parse_options, go in H. destruct (loop extractDouble r done (name :: words) _ _) as [[l' j]| |] eqn:E; try discriminate. cbn [bind fst snd] in H.
  eapply (loop_sound extractDouble declared done ddone done_there done_flag) in E; [|exact start_fits|exact start_flags|apply start_used|cbn; lia]. destruct E as (os & rest & vs & C & W & -> & R). cbn [skipn] in C.
  pose proof (after_apply os vs W) as AF. destruct (help_value os _ AF) as (h & Eh & Hh). rewrite Eh in H. cbn [bind] in H. unfold must in H.
  destruct (isTrue (current h)) eqn:T; cbn [orb] in H; [discriminate|]. destruct (existsb _ _) eqn:X; [discriminate|]. cbn [negb bind word_at nth_error fst snd] in H. injection H as <- <-.
  exists os, rest. split; [exact C|]. split; [intros k a I; eapply values_accepted; eassumption|]. split; [intros I; apply Hh in I; discriminate|]. split; [eapply required_iff; eassumption|]. split; [exact AF|].
  destruct rest as [ws|].
  - destruct R as (R1 & R2). rewrite <- R1. exact (skipn_replace (name :: words) j name R2).
  - subst j. transitivity (skipn (length (name :: words)) (replace (name :: words) (length (name :: words)) name)); [reflexivity|apply skipn_all2; rewrite replace_length; reflexivity].
Qed.
Lemma parse_complete : forall name words l libs, right_command extractDouble declared done help name words l libs -> parse_options extractDouble r done help (name :: words) = Good (l, libs).
Proof.
  intros name words l libs (os & rest & C & AC & NH & RQ & AF & ->). destruct (values_exist os AC) as (vs & W). pose proof (after_apply os vs W) as AF'. pose proof (after_unique os _ _ AF AF') as ->.
  destruct (loop_complete extractDouble declared done ddone done_there done_flag (name :: words) words os rest C vs (length (name :: words)) (options r) 1) as (j & E & R); try (cbn; lia); try assumption; [exact start_fits|exact start_flags|apply start_used|reflexivity|].
  unfold parse_options, go. rewrite E. cbn [bind fst snd]. destruct (help_value os _ AF') as (h & Eh & Hh). rewrite Eh. cbn [bind].
  rewrite (proj2 (required_iff os _ AF') RQ). destruct (isTrue (current h)) eqn:T; [exfalso; apply NH, Hh; exact eq_refl|]. cbn [orb negb must bind fst snd word_at nth_error]. do 2 f_equal.
  destruct rest as [ws|].
  - destruct R as (R1 & R2). rewrite <- R1. exact (skipn_replace (name :: words) j name R2).
  - subst j. transitivity (skipn (length (name :: words)) (replace (name :: words) (length (name :: words)) name)); [reflexivity|apply skipn_all2; rewrite replace_length; reflexivity].
Qed.
Lemma parse_defined : forall name words, parse_options extractDouble r done help (name :: words) <> Undefined.
Proof.
  intros name words H. unfold parse_options, go in H. destruct (loop extractDouble r done (name :: words) _ _) as [[l' j]| |] eqn:E; [|discriminate|].
  - cbn [bind fst snd] in H. eapply (loop_sound extractDouble declared done ddone done_there done_flag) in E; [|exact start_fits|exact start_flags|apply start_used|cbn; lia]. destruct E as (os & rest & vs & C & W & -> & R).
    pose proof (after_apply os vs W) as AF. destruct (help_value os _ AF) as (h & Eh & Hh). rewrite Eh in H. cbn [bind] in H. unfold must in H. destruct (negb _); discriminate.
  - apply (loop_defined extractDouble declared done ddone done_there done_flag) in E; [exact E|exact start_fits|exact start_flags|cbn; lia].
Qed.

(** ** points *)
Variable stod : word -> option (D * nat).
Definition number (d : D) (t u : word) : Prop := stod (t ++ u) = Some (d, length t).
Lemma skipn_app_exact : forall {A} (b l : list A), skipn (length b) (b ++ l) = l.
Proof. intros. rewrite skipn_app, skipn_all, Nat.sub_diag. reflexivity. Qed.
Lemma skipn_skipn' : forall {A} i j (l : list A), skipn i (skipn j l) = skipn (j + i) l.
Proof. intros A i j. induction j as [|j IH]; intros l; [reflexivity|]. destruct l; [now rewrite !skipn_nil|]. apply IH. Qed.
Lemma point_complete : forall ds ts u, coordinates number ds ts u -> (forall d t u, number d t u -> t <> []) -> forall b,
  parseCoordinates stod (length ds) (b ++ ts ++ u) (length b) = Good (ds, length b + length ts).
Proof.
  intros ds ts u H NE. induction H as [d t u N|d t ds ts u N H IH]; intros b.
  - cbn [length parseCoordinates]. pose proof (NE _ _ _ N) as Nt. assert (L : 0 < length t) by (destruct t; [contradiction|cbn; lia]).
    replace (length b <? _) with true by (symmetry; apply Nat.ltb_lt; rewrite !app_length; lia). cbn [must bind]. rewrite skipn_app_exact, N. reflexivity.
  - pose proof (NE _ _ _ N) as Nt. assert (L : 0 < length t) by (destruct t; [contradiction|cbn; lia]). cbn [length parseCoordinates].
    replace (length b <? _) with true by (symmetry; apply Nat.ltb_lt; rewrite !app_length; lia). cbn [must bind]. rewrite skipn_app_exact.
    replace ((t ++ ","%char :: ts) ++ u) with (t ++ ","%char :: ts ++ u) by (rewrite <- app_assoc; reflexivity). unfold number in N. rewrite N. cbn [bind fst snd].
    assert (L2 : 0 < length ds) by (destruct H; cbn; lia). replace (0 <? length ds) with true by (symmetry; now apply Nat.ltb_lt).
    replace (length b + length t <? _) with true by (symmetry; apply Nat.ltb_lt; rewrite !app_length; cbn; lia). cbn [must bind].
    replace (nth_error _ (length b + length t)) with (Some ","%char) by (rewrite app_assoc, nth_error_app2 by (rewrite app_length; lia); rewrite app_length, Nat.sub_diag; reflexivity).
    rewrite Ascii.eqb_refl. cbn [must bind]. specialize (IH (b ++ t ++ [","%char])).
    replace ((b ++ t ++ [","%char]) ++ ts ++ u) with (b ++ t ++ ","%char :: ts ++ u) in IH by (rewrite <- !app_assoc; reflexivity).
    replace (length (b ++ t ++ [","%char])) with (S (length b + length t)) in IH by (rewrite !app_length; cbn; lia). rewrite IH. cbn [bind fst snd]. do 2 f_equal. rewrite app_length. cbn. lia.
Qed.
Lemma point_sound : (forall w d n, stod w = Some (d, n) -> n <= length w) -> forall DIM s start ds e, 0 < DIM -> parseCoordinates stod DIM s start = Good (ds, e) ->
  length ds = DIM /\ exists ts, skipn start s = ts ++ skipn e s /\ coordinates number ds ts (skipn e s).
Proof.
  intros SL. induction DIM as [|DIM IH]; intros s start ds e L H; [lia|]. cbn [parseCoordinates] in H. unfold must in H. destruct (start <? length s) eqn:Ls; [|discriminate]. apply Nat.ltb_lt in Ls. cbn [bind] in H.
  destruct (stod (skipn start s)) as [[d n]|] eqn:Sd; [|discriminate]. cbn [bind fst snd] in H. pose proof (SL _ _ _ Sd) as Ln.
  assert (SP : skipn start s = firstn n (skipn start s) ++ skipn (start + n) s) by (rewrite <- skipn_skipn', firstn_skipn; reflexivity).
  assert (LF : length (firstn n (skipn start s)) = n) by (rewrite firstn_length; lia).
  destruct (0 <? DIM) eqn:Q.
  - apply Nat.ltb_lt in Q. destruct (start + n <? length s) eqn:L2; [|discriminate]. cbn [bind] in H. destruct (nth_error s (start + n)) as [c|] eqn:Ec; [|discriminate]. destruct (Ascii.eqb c ",") eqn:Cc; [|discriminate]. cbn [bind] in H.
    apply Ascii.eqb_eq in Cc. subst c. destruct (parseCoordinates stod DIM s (S (start + n))) as [[ds' e']| |] eqn:E; try discriminate. cbn [bind fst snd] in H. injection H as <- <-.
    apply IH in E; [|exact Q]. destruct E as (El & ts & E1 & E2). split; [cbn; now rewrite El|]. exists (firstn n (skipn start s) ++ ","%char :: ts).
    assert (SK : skipn (start + n) s = ","%char :: ts ++ skipn e' s) by (rewrite (skipn_nth s (start + n) _ Ec), E1; reflexivity).
    split; [rewrite SP at 1; rewrite SK, <- app_assoc; reflexivity|]. constructor; [|exact E2]. unfold number. rewrite <- SK, <- SP, LF. exact Sd.
  - injection H as <- <-. apply Nat.ltb_ge in Q. split; [cbn; lia|]. exists (firstn n (skipn start s)). split; [exact SP|]. constructor. unfold number. rewrite <- SP, LF. exact Sd.
Qed.
End Proofs.
