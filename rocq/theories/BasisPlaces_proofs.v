From Coq Require Import List Arith Bool Permutation Lia.
From Verif Require Import BasisPlaces_model BasisPlaces_spec.
Import ListNotations.

Definition szo (sz : list nat) (o : option nat) : nat :=
  match o with Some p => nth p sz 0 | None => 0 end.
Definition valid (sz : list nat) (l : list (option nat)) : Prop :=
  Forall (fun o => match o with Some p => p < length sz | None => True end) l.

Lemma set_size_ok sz p : p < length sz -> set_size sz p = Some (nth p sz 0).
Proof. intros H. apply nth_error_nth'. exact H. Qed.

Lemma total_size_ok sz l : valid sz l -> total_size sz l = Some (list_sum (map (szo sz) l)).
Proof.
  induction l as [|[p|] l IH]; intros H; inversion H; subst; cbn [total_size map list_sum fold_right szo].
  - reflexivity.
  - rewrite set_size_ok by assumption. rewrite IH by assumption. reflexivity.
  - rewrite IH by assumption. reflexivity.
Qed.

Lemma valid_firstn sz k l : valid sz l -> valid sz (firstn k l).
Proof.
  revert k; induction l as [|o l IH]; intros [|k] H; cbn; try constructor; inversion H; subst; auto.
  apply IH; assumption.
Qed.

Lemma sum_firstn sz l : forall k,
  list_sum (map (szo sz) (firstn k l)) = list_sum (map (fun p => szo sz (nth p l None)) (seq 0 k)).
Proof.
  induction l as [|o l IH]; intros k.
  - rewrite firstn_nil. symmetry. replace (map _ (seq 0 k)) with (repeat 0 k).
    + induction k; cbn; auto.
    + generalize 0 at 2. induction k; intros m; cbn; [reflexivity|]. f_equal; [destruct m; reflexivity|apply IHk].
  - destruct k as [|k]; [reflexivity|]. cbn [firstn map seq list_sum fold_right nth].
    f_equal. rewrite <- seq_shift, map_map. apply IH.
Qed.

Lemma in_last {A} (h : list A) o : In o (h ++ [o]).
Proof. apply in_or_app. right. left. reflexivity. Qed.

Lemma update_length {A} (l : list A) i x : length (update l i x) = length l.
Proof. revert i; induction l; intros [|i]; cbn; auto. Qed.
Lemma update_nth_error {A} (l : list A) i x j :
  nth_error (update l i x) j = if (j =? i) && (i <? length l) then Some x else nth_error l j.
Proof.
  revert i j; induction l as [|y l IH]; intros [|i] [|j]; cbn; auto.
  - rewrite andb_false_r. reflexivity.
  - rewrite IH. reflexivity.
Qed.
Lemma update_nth {A} (l : list A) i x j d :
  nth j (update l i x) d = if (j =? i) && (i <? length l) then x else nth j l d.
Proof.
  revert i j; induction l as [|y l IH]; intros [|i] [|j]; cbn; auto.
  - rewrite andb_false_r. reflexivity.
  - rewrite IH. reflexivity.
Qed.
Lemma update_Forall {A} (P : A -> Prop) l i x : Forall P l -> P x -> Forall P (update l i x).
Proof.
  revert i; induction l as [|y l IH]; intros [|i] H Hx; cbn; auto; inversion H; subst; constructor; auto.
Qed.

(** ** invariant over histories *)
Definition inv sz unknowns P (h : list op) (s : positions) : Prop :=
  length s = unknowns /\
  forall u, u < unknowns -> exists l, nth_error s u = Some l /\ valid sz l /\ length l <= P /\
    forall place, nth place l None = in_use h u place.

Lemma nth_pad (l : list (option nat)) n place : nth place (l ++ repeat None n) None = nth place l None.
Proof.
  destruct (Nat.lt_ge_cases place (length l)) as [H|H].
  - apply app_nth1, H.
  - rewrite app_nth2 by exact H. rewrite (nth_overflow l) by exact H.
    generalize (place - length l). induction n; intros [|k]; cbn; auto.
Qed.

Lemma in_use_snoc h o u place : in_use (h ++ [o]) u place =
  match o with
  | Register u' place' pos => if (u' =? u) && (place' =? place) then Some pos else in_use h u place
  | Clear u' => if u' =? u then None else in_use h u place
  end.
Proof. unfold in_use. rewrite fold_left_app. reflexivity. Qed.

Lemma ops_snoc sz h : forall s o,
  ops sz s (h ++ [o]) = match ops sz s h with None => None | Some s' => do_op sz s' o end.
Proof.
  induction h as [|x h IH]; intros s o; cbn.
  - destruct (do_op sz s o); reflexivity.
  - destruct (do_op sz s x); auto.
Qed.

Lemma ops_app sz h1 : forall s h2,
  ops sz s (h1 ++ h2) = match ops sz s h1 with None => None | Some s' => ops sz s' h2 end.
Proof.
  induction h1 as [|x h IH]; intros s h2; cbn; auto. destruct (do_op sz s x); auto.
Qed.

Lemma ops_inv sz unknowns P h : within sz unknowns P h ->
  exists s, ops sz (repeat [] unknowns) h = Some s /\ inv sz unknowns P h s.
Proof.
  induction h as [|o h IH] using rev_ind; intros Hw.
  - exists (repeat [] unknowns). split; [reflexivity|]. split; [apply repeat_length|].
    intros u Hu. exists []. split.
    + rewrite (nth_error_nth' _ []) by (rewrite repeat_length; exact Hu). f_equal. apply nth_repeat.
    + split; [constructor|]. split; [cbn; lia|]. intros [|p]; reflexivity.
  - destruct IH as (s & E & [Hl Hi]).
    { intros x Hx. apply Hw. apply in_or_app. left. exact Hx. }
    rewrite ops_snoc, E.
    pose proof (Hw o (in_last _ _)) as Ho.
    destruct o as [u place pos|u]; cbn [do_op].
    + destruct Ho as (Hu & Hp & Hpos). destruct (Hi u Hu) as (l & El & Hv & HP & Hn).
      unfold registerBasisFunctionPosition. rewrite El.
      replace (pos <? length sz) with true by (symmetry; apply Nat.ltb_lt; exact Hpos).
      set (l' := if length l <=? place then _ else _).
      assert (L' : (forall p, nth p l' None = nth p l None) /\ valid sz l' /\ place < length l' /\ length l' <= P).
      { unfold l'. destruct (length l <=? place) eqn:Ec.
        - apply Nat.leb_le in Ec. split; [intros p; apply nth_pad|]. split.
          + apply Forall_app. split; [exact Hv|]. apply Forall_forall. intros x Hx.
            apply repeat_spec in Hx. subst. exact I.
          + rewrite app_length, repeat_length. lia.
        - apply Nat.leb_gt in Ec. auto. }
      destruct L' as (N' & V' & P' & Q').
      eexists. split; [reflexivity|]. split; [rewrite update_length; exact Hl|].
      intros v Hv'. rewrite update_nth_error, Hl.
      destruct (v =? u) eqn:Evu; cbn [andb].
      * apply Nat.eqb_eq in Evu. subst v. replace (u <? unknowns) with true by (symmetry; apply Nat.ltb_lt; exact Hu).
        eexists. split; [reflexivity|]. split; [apply update_Forall; assumption|].
        split; [rewrite update_length; exact Q'|]. intros p. rewrite update_nth, N', Hn, in_use_snoc.
        rewrite Nat.eqb_refl. cbn [andb]. rewrite (Nat.eqb_sym p place).
        replace (place <? length l') with true by (symmetry; apply Nat.ltb_lt; exact P').
        rewrite andb_true_r. reflexivity.
      * destruct (Hi v Hv') as (lv & Elv & Vv & Pv & Nv). exists lv. repeat split; auto.
        intros p. rewrite in_use_snoc, Nat.eqb_sym, Evu. apply Nv.
    + destruct (Hi u Ho) as (l & El & Hv & HP & Hn).
      unfold clearBasisFunctionPosition. rewrite El. eexists. split; [reflexivity|].
      split; [rewrite update_length; exact Hl|].
      intros v Hv'. rewrite update_nth_error, Hl.
      destruct (v =? u) eqn:Evu; cbn [andb].
      * apply Nat.eqb_eq in Evu. subst v. replace (u <? unknowns) with true by (symmetry; apply Nat.ltb_lt; exact Ho).
        exists []. split; [reflexivity|]. split; [constructor|]. split; [cbn; lia|].
        intros p. rewrite in_use_snoc, Nat.eqb_refl. destruct p; reflexivity.
      * destruct (Hi v Hv') as (lv & Elv & Vv & Pv & Nv). exists lv. repeat split; auto.
        intros p. rewrite in_use_snoc, Nat.eqb_sym, Evu. apply Nv.
Qed.

(** ** readers *)
Lemma functions_at_szo sz h u place : functions_at sz h u place = szo sz (in_use h u place).
Proof. reflexivity. Qed.

Lemma before_firstn sz h u l : (forall place, nth place l None = in_use h u place) ->
  forall k, list_sum (map (szo sz) (firstn k l)) = functions_before sz h u k.
Proof.
  intros H k. rewrite sum_firstn. unfold functions_before. f_equal. apply map_ext.
  intros p. rewrite H. reflexivity.
Qed.

Lemma number_ok sz unknowns P h s u : inv sz unknowns P h s -> u < unknowns ->
  getNumberOfBasisFunctions sz s u = Some (functions_before sz h u P).
Proof.
  intros [_ Hi] Hu. destruct (Hi u Hu) as (l & El & Hv & HP & Hn).
  unfold getNumberOfBasisFunctions. rewrite El, total_size_ok by exact Hv.
  rewrite <- (before_firstn sz h u l Hn P), firstn_all2 by exact HP. reflexivity.
Qed.

Lemma local_number_ok sz unknowns P h s u : inv sz unknowns P h s -> u < unknowns ->
  getNumberOfLocalBasisFunctions sz s u = Some (functions_at sz h u 0).
Proof.
  intros [_ Hi] Hu. destruct (Hi u Hu) as (l & El & Hv & HP & Hn).
  unfold getNumberOfLocalBasisFunctions. rewrite El. rewrite functions_at_szo, <- Hn.
  destruct l as [|[p|] l]; cbn; auto. inversion Hv; subst. apply set_size_ok. assumption.
Qed.

Lemma sum_to_ok f g n : (forall i, i < n -> f i = Some (g i)) ->
  sum_to f n = Some (list_sum (map g (seq 0 n))).
Proof.
  induction n as [|n IH]; intros H; [reflexivity|].
  rewrite seq_S, map_app, list_sum_app. cbn [sum_to]. rewrite IH by (intros; apply H; lia).
  rewrite H by lia. cbn. f_equal. lia.
Qed.

Lemma total_local_ok sz unknowns P h s : inv sz unknowns P h s ->
  getTotalLocalNumberOfBasisFunctions sz s =
  Some (list_sum (map (fun u => functions_at sz h u 0) (seq 0 unknowns))).
Proof.
  intros Hi. unfold getTotalLocalNumberOfBasisFunctions. rewrite (proj1 Hi).
  apply sum_to_ok. intros u Hu. eapply local_number_ok; eauto.
Qed.

Lemma offset_ok sz unknowns P h s u place pos : inv sz unknowns P h s -> u < unknowns ->
  in_use h u place = Some pos ->
  getBasisFunctionOffset sz s u place = Some (functions_before sz h u place).
Proof.
  intros [_ Hi] Hu Hp. destruct (Hi u Hu) as (l & El & Hv & HP & Hn).
  unfold getBasisFunctionOffset. rewrite El.
  destruct (length l <=? place) eqn:E.
  - apply Nat.leb_le in E. rewrite <- Hn, nth_overflow in Hp by exact E. discriminate.
  - rewrite total_size_ok by (apply valid_firstn; exact Hv).
    rewrite (before_firstn sz h u l Hn). reflexivity.
Qed.

Lemma scan_ok sz l : valid sz l -> forall place pos j,
  nth place l None = Some pos -> j < nth pos sz 0 ->
  scan sz l (list_sum (map (szo sz) (firstn place l)) + j) = Some (pos, j).
Proof.
  induction l as [|o l IH]; intros Hv place pos j Hp Hj; [destruct place; discriminate|].
  inversion Hv as [|? ? Ho Hv']; subst. destruct place as [|place]; cbn [nth firstn map list_sum fold_right] in *.
  - subst o. cbn [scan]. rewrite set_size_ok by exact Ho.
    replace (0 + j) with j by lia.
    replace (j <? nth pos sz 0) with true by (symmetry; apply Nat.ltb_lt; exact Hj). reflexivity.
  - destruct o as [p|]; cbn [scan szo].
    + rewrite set_size_ok by exact Ho.
      match goal with |- (if ?c then _ else _) = _ => replace c with false by (symmetry; apply Nat.ltb_ge; lia) end.
      rewrite <- (IH Hv' place pos j Hp Hj). f_equal. unfold list_sum. lia.
    + apply IH; assumption.
Qed.

Lemma scan_none sz l : valid sz l -> forall i, list_sum (map (szo sz) l) <= i -> scan sz l i = None.
Proof.
  induction l as [|o l IH]; intros Hv i Hi; [reflexivity|].
  inversion Hv as [|? ? Ho Hv']; subst. cbn [map list_sum fold_right] in Hi. fold (list_sum (map (szo sz) l)) in Hi.
  destruct o as [p|]; cbn [scan szo] in *.
  - rewrite set_size_ok by exact Ho. replace (i <? nth p sz 0) with false by (symmetry; apply Nat.ltb_ge; lia).
    apply IH; [exact Hv'|lia].
  - apply IH; assumption.
Qed.

(** decomposition of a number below a sum *)
Lemma decompose (f : nat -> nat) P : forall i, i < list_sum (map f (seq 0 P)) ->
  exists place j, place < P /\ j < f place /\ list_sum (map f (seq 0 place)) + j = i.
Proof.
  induction P as [|P IH]; intros i Hi; [cbn in Hi; lia|].
  rewrite seq_S, map_app, list_sum_app in Hi. cbn in Hi.
  destruct (Nat.lt_ge_cases i (list_sum (map f (seq 0 P)))) as [H|H].
  - destruct (IH i H) as (p & j & A & B & C). exists p, j. repeat split; auto; lia.
  - exists P, (i - list_sum (map f (seq 0 P))). repeat split; lia.
Qed.

Lemma sum_mono (f : nat -> nat) a b : a <= b -> list_sum (map f (seq 0 a)) <= list_sum (map f (seq 0 b)).
Proof.
  induction 1 as [|b H IH]; [lia|]. rewrite seq_S, map_app, list_sum_app. lia.
Qed.
Lemma sum_step (f : nat -> nat) a : list_sum (map f (seq 0 (S a))) = list_sum (map f (seq 0 a)) + f a.
Proof. rewrite seq_S, map_app, list_sum_app. cbn. lia. Qed.

Lemma decompose_unique (f : nat -> nat) p j p' j' :
  j < f p -> j' < f p' ->
  list_sum (map f (seq 0 p)) + j = list_sum (map f (seq 0 p')) + j' -> p = p' /\ j = j'.
Proof.
  intros H H' E. destruct (Nat.lt_trichotomy p p') as [L|[->|L]]; [exfalso| |exfalso].
  - pose proof (sum_mono f (S p) p' L). rewrite sum_step in H0. lia.
  - split; [reflexivity|lia].
  - pose proof (sum_mono f (S p') p L). rewrite sum_step in H0. lia.
Qed.

Lemma sum_bound (f : nat -> nat) p P j : p < P -> j < f p ->
  list_sum (map f (seq 0 p)) + j < list_sum (map f (seq 0 P)).
Proof. intros L H. pose proof (sum_mono f (S p) P L). rewrite sum_step in H0. lia. Qed.

Lemma in_use_bound sz unknowns P h u place pos : within sz unknowns P h ->
  in_use h u place = Some pos -> place < P /\ pos < length sz /\ u < unknowns.
Proof.
  induction h as [|o h IH] using rev_ind; intros Hw H; [discriminate|].
  rewrite in_use_snoc in H.
  assert (Hw' : within sz unknowns P h) by (intros x Hx; apply Hw, in_or_app; left; exact Hx).
  pose proof (Hw o (in_last _ _)) as Ho.
  destruct o as [u' place' pos'|u'].
  - destruct ((u' =? u) && (place' =? place)) eqn:E; [|apply IH; assumption].
    apply andb_prop in E as [E1 E2]. apply Nat.eqb_eq in E1, E2. inversion H; subst. tauto.
  - destruct (u' =? u); [discriminate|apply IH; assumption].
Qed.

Lemma set_and_index sz unknowns P h u i : within sz unknowns P h -> u < unknowns ->
  exists s total, ops sz (repeat [] unknowns) h = Some s /\
    getNumberOfBasisFunctions sz s u = Some total /\
    total = functions_before sz h u P /\
    (i < total -> exists place pos j,
       in_use h u place = Some pos /\ j < nth pos sz 0 /\
       functions_before sz h u place + j = i /\
       getBasisFunctionSetAndIndex sz s i u = Some (pos, j) /\
       getBasisFunctionOffset sz s u place = Some (i - j) /\
       forall place' pos' j', in_use h u place' = Some pos' -> j' < nth pos' sz 0 ->
         functions_before sz h u place' + j' = i -> place' = place /\ j' = j) /\
    (total <= i -> getBasisFunctionSetAndIndex sz s i u = None).
Proof.
  intros Hw Hu. destruct (ops_inv sz unknowns P h Hw) as (s & E & Hi).
  exists s, (functions_before sz h u P). split; [exact E|].
  split; [eapply number_ok; eauto|]. split; [reflexivity|].
  destruct (proj2 Hi u Hu) as (l & El & Hv & HP & Hn). split.
  - intros Hlt. destruct (decompose _ _ _ Hlt) as (place & j & Hp & Hj & Hs).
    rewrite functions_at_szo in Hj. destruct (in_use h u place) as [pos|] eqn:Eu; [|cbn in Hj; lia].
    exists place, pos, j. split; [exact Eu|]. split; [exact Hj|].
    split; [exact Hs|]. split; [|split].
    + unfold getBasisFunctionSetAndIndex. rewrite El. rewrite <- Hs.
      change (list_sum (map (functions_at sz h u) (seq 0 place))) with (functions_before sz h u place).
      rewrite <- (before_firstn sz h u l Hn place). apply scan_ok; auto. rewrite Hn. exact Eu.
    + rewrite (offset_ok sz unknowns P h s u place pos Hi Hu Eu). f_equal.
      unfold functions_before. lia.
    + intros place' pos' j' E' Hj' Hs'.
      apply (decompose_unique (functions_at sz h u)).
      * rewrite functions_at_szo, E'. exact Hj'.
      * rewrite functions_at_szo, Eu. exact Hj.
      * unfold functions_before in Hs'. lia.
  - intros Hge. unfold getBasisFunctionSetAndIndex. rewrite El. apply scan_none; [exact Hv|].
    rewrite <- (before_firstn sz h u l Hn P), firstn_all2 in Hge by exact HP. exact Hge.
Qed.

(** ** elements *)
Definition ehist (nf ne : nat) (h : list edit) : list op := flat_map (element_ops nf ne) h.

Lemma edits_snoc sz h : forall e c,
  edits sz e (h ++ [c]) = match edits sz e h with None => None | Some e' => do_edit sz e' c end.
Proof.
  induction h as [|x h IH]; intros e c; cbn.
  - destruct (do_edit sz e c); reflexivity.
  - destruct (do_edit sz e x); auto.
Qed.

Lemma ehist_within sz nf ne nn unknowns h :
  Forall (legal_edit sz nf ne nn unknowns) h ->
  within sz unknowns (1 + nf + ne + nn) (ehist nf ne h).
Proof.
  intros H o Ho. unfold ehist in Ho. apply in_flat_map in Ho as [c [Hc Ho]].
  rewrite Forall_forall in H. specialize (H c Hc).
  destruct c; simpl in *; intuition (subst; simpl; lia).
Qed.

Definition einv sz nf ne nn unknowns (h : list edit) (e : element) : Prop :=
  nFaces e = nf /\ nEdges e = ne /\ nNodes e = nn /\
  ops sz (repeat [] unknowns) (ehist nf ne h) = Some (pos_ e) /\
  inv sz unknowns (1 + nf + ne + nn) (ehist nf ne h) (pos_ e) /\
  length (counts e) = unknowns /\
  forall u, u < unknowns ->
    nth_error (counts e) u = Some (functions_before sz (ehist nf ne h) u (1 + nf + ne + nn)).

Lemma before_other sz h o u P :
  match o with Register u' _ _ => u' <> u | Clear u' => u' <> u end ->
  functions_before sz (h ++ [o]) u P = functions_before sz h u P.
Proof.
  intros H. unfold functions_before. f_equal. apply map_ext. intros p.
  rewrite !functions_at_szo, in_use_snoc. destruct o as [u' ? ?|u'];
    replace (u' =? u) with false by (symmetry; apply Nat.eqb_neq; exact H); reflexivity.
Qed.

Lemma refresh_ok sz nf ne nn unknowns h c e s u :
  einv sz nf ne nn unknowns h e ->
  ops sz (repeat [] unknowns) (ehist nf ne (h ++ [c])) = Some s ->
  inv sz unknowns (1 + nf + ne + nn) (ehist nf ne (h ++ [c])) s ->
  u < unknowns ->
  (forall v, v <> u -> functions_before sz (ehist nf ne (h ++ [c])) v (1 + nf + ne + nn) =
                       functions_before sz (ehist nf ne h) v (1 + nf + ne + nn)) ->
  exists e', refresh_count sz e s u = Some e' /\ einv sz nf ne nn unknowns (h ++ [c]) e'.
Proof.
  intros (H1 & H2 & H3 & _ & _ & Hlen & Hc) Es Hi Hu Hoth. unfold refresh_count.
  rewrite (number_ok _ _ _ _ _ _ Hi Hu).
  replace (u <? length (counts e)) with true by (symmetry; apply Nat.ltb_lt; lia).
  eexists. split; [reflexivity|]. unfold einv. cbn [nFaces nEdges nNodes pos_ counts].
  repeat (split; [assumption|]). split; [rewrite update_length; exact Hlen|].
  intros v Hv. rewrite update_nth_error.
  replace (u <? length (counts e)) with true by (symmetry; apply Nat.ltb_lt; lia).
  rewrite andb_true_r. destruct (v =? u) eqn:E.
  - apply Nat.eqb_eq in E. subst. reflexivity.
  - apply Nat.eqb_neq in E. rewrite Hoth by exact E. apply Hc, Hv.
Qed.

Lemma sum_zeros (f : nat -> nat) n : (forall i, f i = 0) -> forall a, list_sum (map f (seq a n)) = 0.
Proof. intros H. induction n as [|n IH]; intros a; cbn; [reflexivity|]. rewrite H. apply IH. Qed.

Lemma edits_inv sz nf ne nn unknowns h :
  Forall (legal_edit sz nf ne nn unknowns) h ->
  exists e, edits sz (new_element nf ne nn unknowns) h = Some e /\ einv sz nf ne nn unknowns h e.
Proof.
  induction h as [|c h IH] using rev_ind; intros Hl.
  - eexists. split; [reflexivity|]. unfold einv, new_element. cbn [nFaces nEdges nNodes pos_ counts].
    destruct (ops_inv sz unknowns (1 + nf + ne + nn) []) as (s & E & Hi); [intros o []|].
    cbn in E. injection E as <-.
    repeat (split; [reflexivity|]). split; [exact Hi|]. split; [apply repeat_length|].
    intros u Hu. rewrite (nth_error_nth' _ 0) by (rewrite repeat_length; exact Hu).
    rewrite nth_repeat. f_equal. unfold functions_before.
    symmetry. apply sum_zeros. reflexivity.
  - apply Forall_app in Hl as [Hlh Hlc]. pose proof Hlh as Hlh'.
    destruct (IH Hlh) as (e & E & He). rewrite edits_snoc, E.
    assert (Hlall : Forall (legal_edit sz nf ne nn unknowns) (h ++ [c])) by (apply Forall_app; auto).
    destruct (ops_inv sz unknowns (1 + nf + ne + nn) (ehist nf ne (h ++ [c])) (ehist_within _ _ _ _ _ _ Hlall))
      as (s & Es & Hi).
    inversion Hlc as [|? ? Hc _]; subst.
    assert (Eh : ehist nf ne (h ++ [c]) = ehist nf ne h ++ element_ops nf ne c).
    { unfold ehist. rewrite flat_map_app. cbn. rewrite app_nil_r. reflexivity. }
    pose proof Es as Es0. rewrite Eh, ops_app in Es0. pose proof He as He0.
    destruct He as (H1 & H2 & H3 & Hops & Hinv & Hlen & Hcnt). rewrite Hops in Es0.
    destruct c as [pos u|pos f u|pos d u|pos v u]; cbn [element_ops ops do_op do_edit] in *.
    + unfold setDefaultBasisFunctionSet.
      destruct (clearBasisFunctionPosition (pos_ e) u) as [s1|]; [|discriminate].
      destruct (registerBasisFunctionPosition sz s1 u 0 pos) as [s2|]; [|discriminate].
      injection Es0 as ->. eapply refresh_ok; eauto.
      * apply Hc.
      * intros v Hv. rewrite Eh. change [Clear u; Register u 0 pos] with ([Clear u] ++ [Register u 0 pos]).
        rewrite app_assoc, before_other, before_other; auto.
    + unfold setFaceBasisFunctionSet. rewrite H1.
      replace (f <? nf) with true by (symmetry; apply Nat.ltb_lt; apply Hc).
      cbn [Nat.add] in *. destruct (registerBasisFunctionPosition sz (pos_ e) u (S f) pos) as [s2|]; [|discriminate].
      injection Es0 as ->. eapply refresh_ok; eauto; [apply Hc|].
      intros v Hv. rewrite Eh, before_other; auto.
    + unfold setEdgeBasisFunctionSet. rewrite H1, H2.
      replace (d <? ne) with true by (symmetry; apply Nat.ltb_lt; apply Hc).
      cbn [Nat.add] in *. destruct (registerBasisFunctionPosition sz (pos_ e) u (S (nf + d)) pos) as [s2|]; [|discriminate].
      injection Es0 as ->. eapply refresh_ok; eauto; [apply Hc|].
      intros v Hv. rewrite Eh, before_other; auto.
    + unfold setVertexBasisFunctionSet. rewrite H1, H2, H3.
      replace (v <? nn) with true by (symmetry; apply Nat.ltb_lt; apply Hc).
      cbn [Nat.add] in *. destruct (registerBasisFunctionPosition sz (pos_ e) u (S (nf + ne + v)) pos) as [s2|]; [|discriminate].
      injection Es0 as ->. eapply refresh_ok; eauto; [apply Hc|].
      intros w Hw. rewrite Eh, before_other; auto.
Qed.

Lemma element_counts sz nf ne nn unknowns h :
  Forall (legal_edit sz nf ne nn unknowns) h ->
  exists e, edits sz (new_element nf ne nn unknowns) h = Some e /\
    ops sz (repeat [] unknowns) (flat_map (element_ops nf ne) h) = Some (pos_ e) /\
    length (counts e) = unknowns /\
    forall u, u < unknowns ->
      count_of e u = getNumberOfBasisFunctions sz (pos_ e) u /\
      count_of e u = Some (functions_before sz (flat_map (element_ops nf ne) h) u (1 + nf + ne + nn)).
Proof.
  intros H. destruct (edits_inv _ _ _ _ _ _ H) as (e & E & H1 & H2 & H3 & Ho & Hi & Hl & Hc).
  exists e. split; [exact E|]. split; [exact Ho|]. split; [exact Hl|].
  intros u Hu. unfold count_of. rewrite (number_ok _ _ _ _ _ _ Hi Hu). rewrite (Hc u Hu). auto.
Qed.

(** ** faces *)
Lemma nth_error_sum (l : list nat) : forall k, k <= length l ->
  sum_to (nth_error l) k = Some (list_sum (firstn k l)).
Proof.
  induction k as [|k IH]; intros Hk; [reflexivity|].
  cbn [sum_to]. rewrite IH by lia.
  rewrite (nth_error_nth' l 0) by lia.
  f_equal. clear IH Hk. revert k. induction l as [|x l IH]; intros k.
  - destruct k; reflexivity.
  - destruct k as [|k]; [cbn; lia|]. change (nth (S k) (x :: l) 0) with (nth k l 0).
    change (list_sum (firstn (S k) (x :: l))) with (x + list_sum (firstn k l)).
    change (list_sum (firstn (S (S k)) (x :: l))) with (x + list_sum (firstn (S k) l)).
    rewrite <- IH. lia.
Qed.

Lemma list_sum_firstn_step (l : list nat) u n : nth_error l u = Some n ->
  list_sum (firstn u l) + n <= list_sum l.
Proof.
  revert u; induction l as [|x l IH]; intros [|u] H; cbn in *; try discriminate.
  - injection H as ->. lia.
  - specialize (IH u H). unfold list_sum in *. lia.
Qed.

Definition local_total sz (e : element) := getTotalLocalNumberOfBasisFunctions sz (pos_ e).

Lemma convert_left sz f b u : u < length (counts (fleft f)) ->
  convertToSingleIndex sz f LEFT b u = elementIndex (fleft f) b u.
Proof.
  intros Hu. unfold convertToSingleIndex, elementIndex.
  replace (u <? _) with true by (symmetry; apply Nat.ltb_lt; exact Hu).
  unfold count_of at 1. rewrite nth_error_sum by lia.
  destruct (count_of (fleft f) u); [|reflexivity]. reflexivity.
Qed.

Lemma convert_right sz f r b u t : fright f = Some r -> u < length (counts (fleft f)) ->
  length (counts r) = length (counts (fleft f)) ->
  local_total sz (fleft f) = Some t ->
  convertToSingleIndex sz f RIGHT b u =
  match elementIndex r b u with Some i => Some (t + i) | None => None end.
Proof.
  intros Hr Hu Hl Ht. unfold convertToSingleIndex, elementIndex.
  replace (u <? _) with true by (symmetry; apply Nat.ltb_lt; exact Hu).
  rewrite Hr. unfold count_of at 1. rewrite nth_error_sum by lia.
  unfold local_total in Ht. rewrite Ht.
  destruct (count_of r u); [|reflexivity]. destruct (b <? n); [|reflexivity]. f_equal. lia.
Qed.

Lemma elementIndex_bound e b u i : elementIndex e b u = Some i -> i < total_of e.
Proof.
  unfold elementIndex. destruct (count_of e u) as [n|] eqn:E; [|discriminate].
  destruct (b <? n) eqn:Eb; [|discriminate]. apply Nat.ltb_lt in Eb. intros H; injection H as <-.
  pose proof (list_sum_firstn_step _ _ _ E). unfold total_of. lia.
Qed.

Lemma elementIndex_onto e i : i < total_of e ->
  exists b u, u < length (counts e) /\ elementIndex e b u = Some i.
Proof.
  unfold total_of, elementIndex, count_of. generalize (counts e) as l. clear e.
  intros l. revert i. induction l as [|x l IH]; intros i Hi; cbn in Hi; [lia|].
  destruct (Nat.lt_ge_cases i x) as [H|H].
  - exists i, 0. split; [cbn; lia|]. cbn [nth_error firstn list_sum fold_right Nat.add]. replace (i <? x) with true by (symmetry; apply Nat.ltb_lt; exact H). reflexivity.
  - destruct (IH (i - x)) as (b & u & Hu & E); [unfold list_sum in *; lia|].
    exists b, (S u). split; [cbn; lia|]. cbn [nth_error firstn list_sum fold_right]. destruct (nth_error l u); [|discriminate].
    destruct (b <? n); [|discriminate]. injection E as E. f_equal. unfold list_sum in *. lia.
Qed.

Lemma elementIndex_inj e b u b' u' i : elementIndex e b u = Some i -> elementIndex e b' u' = Some i ->
  b = b' /\ u = u'.
Proof.
  unfold elementIndex, count_of. generalize (counts e) as l. clear e. intros l.
  revert i u u'. induction l as [|x l IH]; intros i u u'; [destruct u; discriminate|].
  destruct u as [|u], u' as [|u']; cbn [nth_error firstn list_sum fold_right Nat.add].
  - destruct (b <? x); [|discriminate]. destruct (b' <? x); [|discriminate].
    intros H H'. split; [congruence|reflexivity].
  - destruct (b <? x) eqn:E; [|discriminate]. destruct (nth_error l u'); [|discriminate].
    destruct (b' <? n); [|discriminate]. apply Nat.ltb_lt in E. intros H H'. injection H; injection H'. lia.
  - destruct (b' <? x) eqn:E; [|destruct (nth_error l u); discriminate]. destruct (nth_error l u); [|discriminate].
    destruct (b <? n); [|discriminate]. apply Nat.ltb_lt in E. intros H H'. injection H; injection H'. lia.
  - destruct (nth_error l u) as [n|] eqn:En; [|discriminate]. destruct (nth_error l u') as [n'|] eqn:En'; [|discriminate].
    destruct (b <? n) eqn:Eb; [|discriminate]. destruct (b' <? n') eqn:Eb'; [|discriminate].
    intros H H'. injection H as H. injection H' as H'.
    destruct (IH (list_sum (firstn u l) + b) u u') as [A B].
    + rewrite En, Eb. reflexivity.
    + rewrite En', Eb'. f_equal. unfold list_sum in *. lia.
    + auto.
Qed.

Lemma default_only_places sz h u P nf ne : only_default h -> 0 < P ->
  functions_before sz (flat_map (element_ops nf ne) h) u P =
  functions_at sz (flat_map (element_ops nf ne) h) u 0.
Proof.
  intros Hd HP.
  assert (Hz : forall place, place <> 0 -> in_use (flat_map (element_ops nf ne) h) u place = None).
  { intros place Hp. induction h as [|c h IH] using rev_ind; [reflexivity|].
    rewrite flat_map_app. cbn [flat_map]. rewrite app_nil_r.
    assert (Hc := Hd c (in_last _ _)).
    destruct c; try contradiction. cbn [element_ops].
    change [Clear u0; Register u0 0 pos] with ([Clear u0] ++ [Register u0 0 pos]).
    rewrite app_assoc, in_use_snoc, in_use_snoc.
    replace (0 =? place) with false by (symmetry; apply Nat.eqb_neq; lia). rewrite andb_false_r.
    destruct (u0 =? u); [reflexivity|]. apply IH.
    intros x Hx. apply Hd, in_or_app. left. exact Hx. }
  destruct P as [|P]; [lia|]. unfold functions_before. cbn [seq map list_sum fold_right].
  replace (fold_right Init.Nat.add 0 (map (functions_at sz (flat_map (element_ops nf ne) h) u) (seq 1 P))) with 0; [lia|].
  symmetry. assert (H : forall m, 0 < m -> fold_right Init.Nat.add 0 (map (functions_at sz (flat_map (element_ops nf ne) h) u) (seq m P)) = 0).
  { clear HP. induction P as [|P IH]; intros m Hm; cbn; [reflexivity|].
    rewrite IH by lia. rewrite functions_at_szo, Hz by lia. reflexivity. }
  apply H. lia.
Qed.

Lemma sum_nth_error (l : list nat) g : (forall u, u < length l -> nth_error l u = Some (g u)) ->
  list_sum l = list_sum (map g (seq 0 (length l))).
Proof.
  intros H. f_equal.
  revert g H; induction l as [|x l IH]; intros g H; cbn; [reflexivity|]. f_equal.
  - specialize (H 0 (Nat.lt_0_succ _)). cbn in H. congruence.
  - rewrite <- seq_shift, map_map. apply IH. intros u Hu. apply (H (S u)). cbn. lia.
Qed.

Lemma face_numbering_gen sz f r t :
  fright f = Some r -> length (counts r) = length (counts (fleft f)) ->
  local_total sz (fleft f) = Some t -> t = total_of (fleft f) ->
  (forall sd b u i, convertToSingleIndex sz f sd b u = Some i ->
     i < total_of (fleft f) + total_of r /\ getSide f i = Some sd /\
     getElementBasisFunctionId f i =
       elementIndex (match sd with LEFT => fleft f | RIGHT => r end) b u) /\
  (forall i, i < total_of (fleft f) + total_of r ->
     exists sd b u, convertToSingleIndex sz f sd b u = Some i /\
       forall sd' b' u', convertToSingleIndex sz f sd' b' u' = Some i -> sd' = sd /\ b' = b /\ u' = u).
Proof.
  intros Hr Hlen Ht Etot.
  assert (P1 : forall sd b u i, convertToSingleIndex sz f sd b u = Some i ->
     i < total_of (fleft f) + total_of r /\ getSide f i = Some sd /\
     getElementBasisFunctionId f i =
       elementIndex (match sd with LEFT => fleft f | RIGHT => r end) b u).
  { intros sd b u i H.
    assert (Hu : u < length (counts (fleft f))).
    { unfold convertToSingleIndex in H. destruct (u <? _) eqn:E; [apply Nat.ltb_lt; exact E|discriminate]. }
    unfold getSide, getElementBasisFunctionId, right_total. rewrite Hr.
    destruct sd.
    - rewrite convert_left in H by exact Hu. pose proof (elementIndex_bound _ _ _ _ H) as Hb.
      replace (i <? total_of (fleft f)) with true by (symmetry; apply Nat.ltb_lt; exact Hb).
      split; [lia|]. split; [reflexivity|]. symmetry; exact H.
    - rewrite (convert_right _ _ _ _ _ _ Hr Hu Hlen Ht) in H.
      destruct (elementIndex r b u) as [k|] eqn:Ek; [|discriminate]. injection H as <-.
      pose proof (elementIndex_bound _ _ _ _ Ek) as Hb. subst t.
      replace (total_of (fleft f) + k <? total_of (fleft f)) with false by (symmetry; apply Nat.ltb_ge; lia).
      replace (total_of (fleft f) + k <? total_of (fleft f) + total_of r) with true by (symmetry; apply Nat.ltb_lt; lia).
      split; [lia|]. split; [reflexivity|]. f_equal. lia. }
  split; [exact P1|].
  intros i Hi.
  assert (Hex : exists sd b u, convertToSingleIndex sz f sd b u = Some i).
  { destruct (Nat.lt_ge_cases i (total_of (fleft f))) as [H|H].
    - destruct (elementIndex_onto _ _ H) as (b & u & Hu & E). exists LEFT, b, u.
      rewrite convert_left by exact Hu. exact E.
    - destruct (elementIndex_onto r (i - total_of (fleft f))) as (b & u & Hu & E); [lia|].
      exists RIGHT, b, u. rewrite Hlen in Hu. rewrite (convert_right _ _ _ _ _ _ Hr Hu Hlen Ht), E.
      f_equal. lia. }
  destruct Hex as (sd & b & u & E). exists sd, b, u. split; [exact E|].
  intros sd' b' u' E'. destruct (P1 _ _ _ _ E) as (_ & S1 & I1). destruct (P1 _ _ _ _ E') as (_ & S2 & I2).
  assert (sd' = sd) by congruence. subst sd'.
  rewrite I1 in I2.
  assert (D : exists k, elementIndex (match sd with LEFT => fleft f | RIGHT => r end) b u = Some k).
  { assert (Hu : u < length (counts (fleft f))).
    { unfold convertToSingleIndex in E. destruct (u <? _) eqn:Eu; [apply Nat.ltb_lt; exact Eu|discriminate]. }
    destruct sd.
    - rewrite convert_left in E by exact Hu. eauto.
    - rewrite (convert_right _ _ _ _ _ _ Hr Hu Hlen Ht) in E. destruct (elementIndex r b u); [eauto|discriminate]. }
  destruct D as [k Ek]. rewrite Ek in I2.
  destruct (elementIndex_inj _ _ _ _ _ _ Ek (eq_sym I2)) as [-> ->]. auto.
Qed.

(** counts, totals of elements made by discontinuous bases *)
Lemma element_totals sz nf ne nn unknowns h e :
  Forall (legal_edit sz nf ne nn unknowns) h -> only_default h ->
  edits sz (new_element nf ne nn unknowns) h = Some e ->
  length (counts e) = unknowns /\ local_total sz e = Some (total_of e).
Proof.
  intros Hl Hd He. destruct (edits_inv _ _ _ _ _ _ Hl) as (e' & E & H1 & H2 & H3 & Ho & Hi & Hlen & Hc).
  rewrite He in E. injection E as <-. split; [exact Hlen|].
  unfold local_total. rewrite (total_local_ok _ _ _ _ _ Hi). f_equal. unfold total_of.
  rewrite (sum_nth_error (counts e) (fun u => functions_before sz (ehist nf ne h) u (1 + nf + ne + nn))).
  - rewrite Hlen. f_equal. apply map_ext. intros u. symmetry. apply default_only_places; [exact Hd|lia].
  - intros u Hu. apply Hc. lia.
Qed.

Lemma element_len sz nf ne nn unknowns h e :
  Forall (legal_edit sz nf ne nn unknowns) h ->
  edits sz (new_element nf ne nn unknowns) h = Some e -> length (counts e) = unknowns.
Proof.
  intros Hl He. destruct (edits_inv _ _ _ _ _ _ Hl) as (e' & E & H1 & H2 & H3 & Ho & Hi & Hlen & Hc).
  rewrite He in E. injection E as <-. exact Hlen.
Qed.

Lemma face_numbering sz nf ne nn nf' ne' nn' unknowns hl hr l r :
  Forall (legal_edit sz nf ne nn unknowns) hl -> only_default hl ->
  Forall (legal_edit sz nf' ne' nn' unknowns) hr ->
  edits sz (new_element nf ne nn unknowns) hl = Some l ->
  edits sz (new_element nf' ne' nn' unknowns) hr = Some r ->
  let f := {| fleft := l; fright := Some r |} in
  (forall sd b u i, convertToSingleIndex sz f sd b u = Some i ->
     i < total_of l + total_of r /\ getSide f i = Some sd /\
     getElementBasisFunctionId f i = elementIndex (match sd with LEFT => l | RIGHT => r end) b u) /\
  (forall i, i < total_of l + total_of r ->
     exists sd b u, convertToSingleIndex sz f sd b u = Some i /\
       forall sd' b' u', convertToSingleIndex sz f sd' b' u' = Some i -> sd' = sd /\ b' = b /\ u' = u).
Proof.
  intros Hl Hd Hr El Er f.
  destruct (element_totals _ _ _ _ _ _ _ Hl Hd El) as [L T].
  pose proof (element_len _ _ _ _ _ _ _ Hr Er) as R.
  apply (face_numbering_gen sz f r (total_of l)); auto. cbn. lia.
Qed.

Lemma boundary_numbering sz l :
  let f := {| fleft := l; fright := None |} in
  (forall sd b u i, convertToSingleIndex sz f sd b u = Some i ->
     sd = LEFT /\ i < total_of l /\ getSide f i = Some LEFT /\ getElementBasisFunctionId f i = elementIndex l b u) /\
  (forall i, i < total_of l ->
     exists b u, convertToSingleIndex sz f LEFT b u = Some i /\
       forall b' u', convertToSingleIndex sz f LEFT b' u' = Some i -> b' = b /\ u' = u).
Proof.
  intros f.
  assert (C : forall sd b u i, convertToSingleIndex sz f sd b u = Some i -> sd = LEFT /\ elementIndex l b u = Some i).
  { intros sd b u i H.
    assert (Hu : u < length (counts (fleft f))).
    { unfold convertToSingleIndex in H. destruct (u <? _) eqn:E; [apply Nat.ltb_lt; exact E|discriminate]. }
    destruct sd.
    - rewrite convert_left in H by exact Hu. auto.
    - unfold convertToSingleIndex in H. unfold f in H. cbn [fright fleft] in H. destruct (u <? length (counts l)); discriminate. }
  split.
  - intros sd b u i H. destruct (C _ _ _ _ H) as [-> E]. pose proof (elementIndex_bound _ _ _ _ E) as Hb.
    unfold getSide, getElementBasisFunctionId. cbn [fleft f].
    replace (i <? total_of l) with true by (symmetry; apply Nat.ltb_lt; exact Hb). auto.
  - intros i Hi. destruct (elementIndex_onto _ _ Hi) as (b & u & Hu & E). exists b, u. split.
    + rewrite convert_left by exact Hu. exact E.
    + intros b' u' H. destruct (C _ _ _ _ H) as [_ E']. exact (elementIndex_inj _ _ _ _ _ _ E' E).
Qed.

(** LEFT indices never depend on the kind of basis *)
Lemma left_numbering sz f b u i : convertToSingleIndex sz f LEFT b u = Some i ->
  getSide f i = Some LEFT /\ getElementBasisFunctionId f i = elementIndex (fleft f) b u.
Proof.
  intros H.
  assert (Hu : u < length (counts (fleft f))).
  { unfold convertToSingleIndex in H. destruct (u <? _) eqn:E; [apply Nat.ltb_lt; exact E|discriminate]. }
  rewrite convert_left in H by exact Hu. pose proof (elementIndex_bound _ _ _ _ H) as Hb.
  unfold getSide, getElementBasisFunctionId.
  replace (i <? total_of (fleft f)) with true by (symmetry; apply Nat.ltb_lt; exact Hb). auto.
Qed.

Lemma local_counts sz unknowns P h : within sz unknowns P h ->
  exists s, ops sz (repeat [] unknowns) h = Some s /\
    getTotalLocalNumberOfBasisFunctions sz s =
      Some (list_sum (map (fun u => functions_at sz h u 0) (seq 0 unknowns))) /\
    forall u, u < unknowns -> getNumberOfLocalBasisFunctions sz s u = Some (functions_at sz h u 0).
Proof.
  intros Hw. destruct (ops_inv sz unknowns P h Hw) as (s & E & Hi). exists s. split; [exact E|].
  split; [eapply total_local_ok; eauto|]. intros u Hu. eapply local_number_ok; eauto.
Qed.

Lemma do_op_frame sz s o s' u : do_op sz s o = Some s' -> about o <> u -> nth_error s' u = nth_error s u.
Proof.
  intros H Hu. destruct o as [u' place pos|u']; cbn [do_op about] in *.
  - unfold registerBasisFunctionPosition in H. destruct (nth_error s u'); [|discriminate].
    destruct (pos <? length sz); [|discriminate]. injection H as <-. rewrite update_nth_error.
    replace (u =? u') with false by (symmetry; apply Nat.eqb_neq; lia). reflexivity.
  - unfold clearBasisFunctionPosition in H. destruct (nth_error s u'); [|discriminate].
    injection H as <-. rewrite update_nth_error.
    replace (u =? u') with false by (symmetry; apply Nat.eqb_neq; lia). reflexivity.
Qed.

Lemma lookup_at sz unknowns P h s u place pos j : inv sz unknowns P h s -> u < unknowns ->
  in_use h u place = Some pos -> j < nth pos sz 0 ->
  getBasisFunctionSetAndIndex sz s (functions_before sz h u place + j) u = Some (pos, j).
Proof.
  intros [_ Hi] Hu Hp Hj. destruct (Hi u Hu) as (l & El & Hv & HP & Hn).
  unfold getBasisFunctionSetAndIndex. rewrite El, <- (before_firstn sz h u l Hn place).
  apply scan_ok; auto. rewrite Hn. exact Hp.
Qed.

Lemma history_frame sz unknowns P h o s s' u : within sz unknowns P (h ++ [o]) ->
  ops sz (repeat [] unknowns) h = Some s -> do_op sz s o = Some s' -> u < unknowns ->
  (about o <> u -> forall i place,
     getNumberOfBasisFunctions sz s' u = getNumberOfBasisFunctions sz s u /\
     getNumberOfLocalBasisFunctions sz s' u = getNumberOfLocalBasisFunctions sz s u /\
     getBasisFunctionOffset sz s' u place = getBasisFunctionOffset sz s u place /\
     getBasisFunctionSetAndIndex sz s' i u = getBasisFunctionSetAndIndex sz s i u) /\
  (forall place pos i, o = Register u place pos -> i < functions_before sz h u place ->
     getBasisFunctionSetAndIndex sz s' i u = getBasisFunctionSetAndIndex sz s i u) /\
  (forall place pos place' pos' j, o = Register u place pos -> place' <> place ->
     in_use h u place' = Some pos' -> j < nth pos' sz 0 ->
     exists off, getBasisFunctionOffset sz s' u place' = Some off /\
       getBasisFunctionSetAndIndex sz s' (off + j) u = Some (pos', j)).
Proof.
  intros Hw Es Eo Hu. split; [|split].
  - intros Hn i place. pose proof (do_op_frame _ _ _ _ _ Eo Hn) as E.
    unfold getNumberOfBasisFunctions, getNumberOfLocalBasisFunctions, getBasisFunctionOffset, getBasisFunctionSetAndIndex.
    rewrite E. auto.
  - intros place pos i -> Hi.
    assert (Hw' : within sz unknowns P h) by (intros x Hx; apply Hw, in_or_app; left; exact Hx).
    destruct (ops_inv _ _ _ _ Hw') as (t & Et & It). rewrite Es in Et. injection Et as <-.
    destruct (ops_inv _ _ _ _ Hw) as (t' & Et' & It'). rewrite ops_snoc, Es, Eo in Et'. injection Et' as <-.
    destruct (decompose _ _ _ Hi) as (p & j & Hp & Hj & <-).
    rewrite functions_at_szo in Hj. destruct (in_use h u p) as [q|] eqn:Eq; [|cbn in Hj; lia].
    change (list_sum (map (functions_at sz h u) (seq 0 p))) with (functions_before sz h u p).
    rewrite (lookup_at _ _ _ _ _ _ _ _ _ It Hu Eq Hj).
    replace (functions_before sz h u p) with (functions_before sz (h ++ [Register u place pos]) u p).
    + apply (lookup_at _ _ _ _ _ _ _ _ _ It' Hu); [|exact Hj]. rewrite in_use_snoc.
      replace (place =? p) with false by (symmetry; apply Nat.eqb_neq; lia).
      rewrite andb_false_r. exact Eq.
    + unfold functions_before. f_equal. apply map_ext_in. intros k Hk. apply in_seq in Hk.
      rewrite !functions_at_szo, in_use_snoc.
      replace (place =? k) with false by (symmetry; apply Nat.eqb_neq; lia).
      rewrite andb_false_r. reflexivity.
  - intros place pos place' pos' j -> Hne Hp Hj.
    destruct (ops_inv _ _ _ _ Hw) as (t' & Et' & It'). rewrite ops_snoc, Es, Eo in Et'. injection Et' as <-.
    assert (Hp' : in_use (h ++ [Register u place pos]) u place' = Some pos').
    { rewrite in_use_snoc. replace (place =? place') with false by (symmetry; apply Nat.eqb_neq; lia).
      rewrite andb_false_r. exact Hp. }
    eexists. split; [apply (offset_ok _ _ _ _ _ _ _ _ It' Hu Hp')|].
    apply (lookup_at _ _ _ _ _ _ _ _ _ It' Hu Hp' Hj).
Qed.
