From Coq Require Import List Arith Bool Lia.
From Verif Require Import Loop_model Loop_proofs Matrix_model Matrix_proofs FaceMatrix_model FaceMatrix_proofs.
From Verif Require Import ElementData_model ElementData_spec.
Import ListNotations.

Section Index.
Context (counts : list nat).

Lemma list_sum_app' (l1 l2 : list nat) : list_sum (l1 ++ l2) = list_sum l1 + list_sum l2.
Proof. induction l1 as [|x l1 IH]; cbn [list_sum app fold_right]; [reflexivity|]. fold (list_sum (l1 ++ l2)). fold (list_sum l1). lia. Qed.

Lemma before_S u n : nth_error counts u = Some n -> before counts (S u) = before counts u + n.
Proof.
  unfold before. revert u; induction counts as [|x l IH]; intros [|u] H; cbn in H; try discriminate.
  - inversion H; subst. cbn. lia.
  - specialize (IH u H). cbn [firstn list_sum fold_right] in *. fold (list_sum (firstn (S u) l)). fold (list_sum (firstn u l)). lia.
Qed.

Lemma before_mono u u' : u <= u' -> before counts u <= before counts u'.
Proof.
  intros H. unfold before. rewrite <- (firstn_skipn u (firstn u' counts)).
  rewrite list_sum_app'. rewrite firstn_firstn. replace (Nat.min u u') with u by lia. lia.
Qed.
Lemma before_total u : before counts u <= list_sum counts.
Proof. unfold before. rewrite <- (firstn_skipn u counts) at 2. rewrite list_sum_app'. lia. Qed.

Lemma valid_bound u b : valid counts u b -> before counts u + b < list_sum counts.
Proof. intros (n & E & H). pose proof (before_S u n E). pose proof (before_total (S u)). lia. Qed.

Lemma valid_inj u b u' b' : valid counts u b -> valid counts u' b' ->
  before counts u + b = before counts u' + b' -> u = u' /\ b = b'.
Proof.
  intros (n & E & H) (n' & E' & H') Heq. pose proof (before_S _ _ E). pose proof (before_S _ _ E').
  assert (u = u').
  { destruct (lt_eq_lt_dec u u') as [[L| ->]|L]; [|reflexivity|].
    - pose proof (before_mono (S u) u'). lia.
    - pose proof (before_mono (S u') u). lia. }
  subst. lia.
Qed.

Lemma valid_surj k : k < list_sum counts -> exists u b, valid counts u b /\ before counts u + b = k.
Proof.
  unfold valid, before. revert k; induction counts as [|x l IH]; intros k H; cbn [list_sum fold_right] in H; [lia|].
  fold (list_sum l) in H. destruct (le_lt_dec x k) as [L|L].
  - destruct (IH (k - x)) as (u & b & (n & E & Hb) & Hk); [lia|]. exists (S u), b. split.
    + exists n. auto.
    + cbn [firstn list_sum fold_right]. fold (list_sum (firstn u l)). lia.
  - exists 0, k. split; [exists x; auto|reflexivity].
Qed.
End Index.

Lemma fold_add_sum (l : list nat) : forall acc, fold_left (fun number index => number + index) l acc = acc + list_sum l.
Proof. induction l as [|x l IH]; intros acc; cbn [fold_left]; [cbn; lia|]. rewrite IH. change (list_sum (x :: l)) with (x + list_sum l). lia. Qed.
Lemma total_eq {A} (D : ElementData A) : total D = list_sum (nb D).
Proof. unfold total. rewrite fold_add_sum. lia. Qed.

Lemma conv_ok {A} (D : ElementData A) u b : valid (nb D) u b ->
  convertToSingleIndex D b u = Some (before (nb D) u + b).
Proof.
  intros (n & E & H). unfold convertToSingleIndex, getNumberOfBasisFunctions. rewrite E.
  replace (b <? n) with true by (symmetry; apply Nat.ltb_lt; exact H).
  assert (Hu : u < length (nb D)) by (apply nth_error_Some; congruence).
  destruct (for_loop_inv (fun i off => off = before (nb D) i)
    (fun i offset => option_map (Nat.add offset) (nth_error (nb D) i)) u 0) as (s & Es & ->).
  - reflexivity.
  - intros i s Hi ->. destruct (nth_error (nb D) i) as [m|] eqn:Em.
    + exists (before (nb D) i + m). split; [reflexivity|]. symmetry. apply before_S. exact Em.
    + apply nth_error_None in Em. lia.
  - rewrite Es. reflexivity.
Qed.

Lemma conv_inv {A} (D : ElementData A) u b k : convertToSingleIndex D b u = Some k -> valid (nb D) u b.
Proof.
  unfold convertToSingleIndex, getNumberOfBasisFunctions. intros H.
  destruct (nth_error (nb D) u) as [n|] eqn:E; [|discriminate].
  destruct (Nat.ltb_spec b n); [|discriminate]. exists n. auto.
Qed.

Section Cells.
Context {A : Type} (zero : A).
Notation ElementData := (ElementData A).

(** the vector [v] holds the cells [g] *)
Definition slot_ok (counts : list nat) (v : list A) (g : nat -> nat -> option A) : Prop :=
  (v = [] /\ forall u b, valid counts u b -> g u b = None) \/
  (length v = list_sum counts /\ forall u b, valid counts u b -> g u b = nth_error v (before counts u + b)).

Lemma slot_ok_ext counts v g g' : slot_ok counts v g -> (forall u b, valid counts u b -> g' u b = g u b) -> slot_ok counts v g'.
Proof.
  intros [[-> H]|[L H]] E; [left|right]; (split; [auto|]); intros u b V; rewrite E by exact V; auto.
Qed.

Lemma fit_ok (D : ElementData) v g : slot_ok (nb D) v g ->
  length (fit zero D v) = list_sum (nb D) /\
  forall u b, valid (nb D) u b -> nth_error (fit zero D v) (before (nb D) u + b) = touched zero (g u b).
Proof.
  unfold fit. rewrite total_eq. intros [[-> H]|[L H]].
  - cbn [length]. destruct (Nat.eqb_spec 0 (list_sum (nb D))) as [E|E].
    + split; [exact E|]. intros u b V. apply valid_bound in V. lia.
    + split; [apply vresize_length|]. intros u b V. rewrite H by exact V. cbn.
      rewrite vresize_nth by (apply valid_bound; exact V). reflexivity.
  - rewrite L, Nat.eqb_refl. split; [exact L|]. intros u b V. rewrite H by exact V.
    destruct (nth_error v (before (nb D) u + b)) eqn:E; [reflexivity|].
    apply nth_error_None in E. pose proof (valid_bound _ _ _ V). lia.
Qed.

Lemma put_ok (D : ElementData) u' b' x v : valid (nb D) u' b' -> length v = list_sum (nb D) ->
  exists v', put D b' u' x v = Some v' /\ length v' = list_sum (nb D) /\
    forall u b, valid (nb D) u b -> nth_error v' (before (nb D) u + b) =
      if (u =? u') && (b =? b') then Some x else nth_error v (before (nb D) u + b).
Proof.
  intros V L. unfold put. rewrite conv_ok by exact V.
  destruct (write_ok v (before (nb D) u' + b') x) as (v' & E & L' & N); [rewrite L; apply valid_bound; exact V|].
  exists v'. split; [exact E|]. split; [lia|]. intros u b V'. rewrite N.
  destruct ((u =? u') && (b =? b')) eqn:C.
  - bsplit. subst. rewrite Nat.eqb_refl. reflexivity.
  - destruct (Nat.eqb_spec (before (nb D) u + b) (before (nb D) u' + b')) as [Q|Q]; [|reflexivity].
    destruct (valid_inj _ _ _ _ _ V' V Q) as [-> ->]. rewrite !Nat.eqb_refl in C. discriminate.
Qed.

Lemma put_all (D : ElementData) u' val v : nth_error (nb D) u' = Some (length val) -> length v = list_sum (nb D) ->
  exists v', for_loop (length val) (fun iB v => match nth_error val iB with None => None | Some x => put D iB u' x v end) v = Some v' /\
    length v' = list_sum (nb D) /\
    forall u b, valid (nb D) u b -> nth_error v' (before (nb D) u + b) =
      if u =? u' then nth_error val b else nth_error v (before (nb D) u + b).
Proof.
  intros Hu L.
  destruct (for_loop_inv (fun i w => length w = list_sum (nb D) /\
      forall u b, valid (nb D) u b -> nth_error w (before (nb D) u + b) =
        if (u =? u') && (b <? i) then nth_error val b else nth_error v (before (nb D) u + b))
    (fun iB v => match nth_error val iB with None => None | Some x => put D iB u' x v end) (length val) v)
    as (w & E & L' & N).
  - split; [exact L|]. intros u b V. replace (b <? 0) with false by reflexivity. rewrite andb_false_r. reflexivity.
  - intros i w Hi [Lw N]. destruct (nth_error val i) as [x|] eqn:Ex; [|apply nth_error_None in Ex; lia].
    destruct (put_ok D u' i x w) as (w' & E & L' & N'); [exists (length val); auto|exact Lw|].
    exists w'. split; [exact E|]. split; [exact L'|]. intros u b V. rewrite N', N by exact V.
    destruct (Nat.eqb_spec u u') as [->|Hne]; cbn [andb]; [|reflexivity].
    destruct (Nat.eqb_spec b i) as [->|Hb].
    + replace (i <? S i) with true by (symmetry; apply Nat.ltb_lt; lia). congruence.
    + replace (b <? S i) with (b <? i); [reflexivity|].
      destruct (Nat.ltb_spec b i); destruct (Nat.ltb_spec b (S i)); try reflexivity; lia.
  - exists w. split; [exact E|]. split; [exact L'|]. intros u b V. rewrite N by exact V.
    destruct (Nat.eqb_spec u u') as [->|Hne]; cbn [andb]; [|reflexivity].
    destruct V as (n & En & Hb). rewrite Hu in En. inversion En; subst.
    replace (b <? length val) with true by (symmetry; apply Nat.ltb_lt; exact Hb). reflexivity.
Qed.

Definition bank_ok (counts : list nat) (l : list (list A)) (g : nat -> nat -> nat -> option A) : Prop :=
  forall t v, nth_error l t = Some v -> slot_ok counts v (g t).

Lemma bank_change counts (l : list (list A)) g g' t0 f : bank_ok counts l g -> t0 < length l ->
  (forall v, slot_ok counts v (g t0) -> exists v', f v = Some v' /\ slot_ok counts v' (g' t0)) ->
  (forall t u b, t <> t0 -> g' t u b = g t u b) ->
  exists l', change l t0 f = Some l' /\ length l' = length l /\ bank_ok counts l' g'.
Proof.
  intros HB Ht Hf Ho. unfold change. destruct (nth_error l t0) as [v|] eqn:Ev; [|apply nth_error_None in Ev; lia].
  destruct (Hf v (HB t0 v Ev)) as (v' & E & S'). rewrite E.
  destruct (write_ok l t0 v' Ht) as (l' & E' & L' & N). exists l'. split; [exact E'|]. split; [exact L'|].
  intros t w Hw. rewrite N in Hw. destruct (Nat.eqb_spec t t0) as [->|Hne].
  - inversion Hw; subst. exact S'.
  - eapply slot_ok_ext; [apply (HB t w Hw)|]. intros u b _. apply Ho. exact Hne.
Qed.

Lemma bank_ext counts l g g' : bank_ok counts l g -> (forall t u b, g' t u b = g t u b) -> bank_ok counts l g'.
Proof. intros H E t v Hv. eapply slot_ok_ext; [apply (H t v Hv)|]. intros. apply E. Qed.

Variable counts : list nat.
Variable levels : nat.

Definition Inv (D : ElementData) (h : list (call A)) : Prop :=
  nb D = counts /\ length (tl D) = levels /\ length (ti D) = vectors_after h /\
  bank_ok counts (tl D) (cell zero counts h Level) /\ bank_ok counts (ti D) (cell zero counts h Integration) /\
  (forall t u b, vectors_after h <= t -> cell zero counts h Integration t u b = None).

Lemma cell_snoc h c k t u b : cell zero counts (h ++ [c]) k t u b = effect zero counts c k t u b (cell zero counts h k t u b).
Proof. unfold cell. rewrite fold_left_app. reflexivity. Qed.
Lemma vectors_snoc (h : list (call A)) c : vectors_after (h ++ [c]) =
  match c with SetNumberOfTimeIntegrationVectors m => m | _ => vectors_after h end.
Proof. unfold vectors_after. rewrite fold_left_app. reflexivity. Qed.

Lemma same_slot t (x y : option A) : (if t =? t then x else y) = x.
Proof. rewrite Nat.eqb_refl. reflexivity. Qed.
Lemma other_slot t t' (x y : option A) : t <> t' -> (if t =? t' then x else y) = y.
Proof. intros H. apply Nat.eqb_neq in H. rewrite H. reflexivity. Qed.

(** the four kinds of change of one slot *)
Lemma slot_put (D : ElementData) v g u' b' x : valid (nb D) u' b' -> slot_ok (nb D) v g ->
  exists v', put D b' u' x (fit zero D v) = Some v' /\
    slot_ok (nb D) v' (fun u b => if (u =? u') && (b =? b') then Some x else touched zero (g u b)).
Proof.
  intros V H. destruct (fit_ok D v g H) as [L N]. destruct (put_ok D u' b' x _ V L) as (v' & E & L' & N').
  exists v'. split; [exact E|]. right. split; [exact L'|]. intros u b V'. rewrite N', N by exact V'. reflexivity.
Qed.
Lemma slot_put_all (D : ElementData) v g u' val : nth_error (nb D) u' = Some (length val) -> slot_ok (nb D) v g ->
  exists v', for_loop (length val) (fun iB v => match nth_error val iB with None => None | Some x => put D iB u' x v end) (fit zero D v) = Some v' /\
    slot_ok (nb D) v' (fun u b => if u =? u' then nth_error val b else touched zero (g u b)).
Proof.
  intros V H. destruct (fit_ok D v g H) as [L N]. destruct (put_all D u' val _ V L) as (v' & E & L' & N').
  exists v'. split; [exact E|]. right. split; [exact L'|]. intros u b V'. rewrite N', N by exact V'. reflexivity.
Qed.
Lemma slot_whole (val : list A) : length val = list_sum counts ->
  slot_ok counts val (fun u b => nth_error val (before counts u + b)).
Proof. intros L. right. split; [exact L|reflexivity]. Qed.
Lemma slot_fit (D : ElementData) v g : slot_ok (nb D) v g -> slot_ok (nb D) (fit zero D v) (fun u b => touched zero (g u b)).
Proof. intros H. destruct (fit_ok D v g H) as [L N]. right. split; [exact L|]. intros u b V. rewrite N by exact V. reflexivity. Qed.

Lemma tl_step (D : ElementData) h c t0 f :
  Inv D h -> t0 < levels ->
  (forall v, slot_ok counts v (cell zero counts h Level t0) ->
     exists v', f v = Some v' /\ slot_ok counts v' (cell zero counts (h ++ [c]) Level t0)) ->
  (forall t u b, t <> t0 -> effect zero counts c Level t u b (cell zero counts h Level t u b) = cell zero counts h Level t u b) ->
  (forall t u b old, effect zero counts c Integration t u b old = old) ->
  vectors_after (h ++ [c]) = vectors_after h ->
  exists D', with_tl D (change (tl D) t0 f) = Some D' /\ Inv D' (h ++ [c]).
Proof.
  intros (Hn & Ht & Hi & Bt & Bi & Ho) H0 Hf Hother HI HV.
  destruct (bank_change counts (tl D) _ (cell zero counts (h ++ [c]) Level) t0 f Bt) as (l' & E & L & B'); [lia|exact Hf| |].
  { intros t u b Hne. rewrite cell_snoc. apply Hother. exact Hne. }
  rewrite E. eexists. split; [reflexivity|]. unfold Inv. cbn [nb tl ti]. rewrite HV.
  split; [exact Hn|]. split; [lia|]. split; [exact Hi|]. split; [exact B'|]. split.
  - eapply bank_ext; [exact Bi|]. intros. rewrite cell_snoc. apply HI.
  - intros. rewrite cell_snoc, HI. auto.
Qed.

Lemma ti_step (D : ElementData) h c t0 f :
  Inv D h -> t0 < vectors_after h ->
  (forall v, slot_ok counts v (cell zero counts h Integration t0) ->
     exists v', f v = Some v' /\ slot_ok counts v' (cell zero counts (h ++ [c]) Integration t0)) ->
  (forall t u b, t <> t0 -> effect zero counts c Integration t u b (cell zero counts h Integration t u b) = cell zero counts h Integration t u b) ->
  (forall t u b old, effect zero counts c Level t u b old = old) ->
  vectors_after (h ++ [c]) = vectors_after h ->
  exists D', with_ti D (change (ti D) t0 f) = Some D' /\ Inv D' (h ++ [c]).
Proof.
  intros (Hn & Ht & Hi & Bt & Bi & Ho) H0 Hf Hother HI HV.
  destruct (bank_change counts (ti D) _ (cell zero counts (h ++ [c]) Integration) t0 f Bi) as (l' & E & L & B'); [lia|exact Hf| |].
  { intros t u b Hne. rewrite cell_snoc. apply Hother. exact Hne. }
  rewrite E. eexists. split; [reflexivity|]. unfold Inv. cbn [nb tl ti]. rewrite HV.
  split; [exact Hn|]. split; [exact Ht|]. split; [lia|]. split; [|split; [exact B'|]].
  - eapply bank_ext; [exact Bt|]. intros. rewrite cell_snoc. apply HI.
  - intros t u b Hge. rewrite cell_snoc, Hother by lia. apply Ho. exact Hge.
Qed.

Lemma step_ok (D : ElementData) h c : Inv D h -> in_range counts levels (vectors_after h) c ->
  exists D', run1 zero D c = Some D' /\ Inv D' (h ++ [c]).
Proof.
  intros HI HR. pose proof HI as (Hn & Ht & Hi & Bt & Bi & Ho).
  destruct c as [t u b x|t u v|t v|t v|t|n|i v|i u v|i u b x]; cbn [run1 in_range] in *.
  - destruct HR as [Hlt V]. pose proof V as (n & En & Hb). unfold setData. rewrite Hn, En, Ht.
    replace (t <? levels) with true by (symmetry; apply Nat.ltb_lt; exact Hlt).
    replace (b <? n) with true by (symmetry; apply Nat.ltb_lt; exact Hb). cbn [andb].
    apply tl_step; [exact HI|exact Hlt| | |reflexivity|apply vectors_snoc].
    + intros w Sw. rewrite <- Hn in V, Sw. destruct (slot_put D w _ u b x V Sw) as (v' & E & S').
      exists v'. split; [exact E|]. rewrite Hn in S'. eapply slot_ok_ext; [exact S'|]. intros u0 b0 _.
      rewrite cell_snoc. cbn [effect]. rewrite same_slot. reflexivity.
    + intros t1 u1 b1 Hne. cbn [effect]. rewrite other_slot by exact Hne. reflexivity.
  - destruct HR as [Hlt En]. unfold setTimeLevelData. rewrite Hn, En, Ht, Nat.eqb_refl.
    replace (t <? levels) with true by (symmetry; apply Nat.ltb_lt; exact Hlt). cbn [andb].
    apply tl_step; [exact HI|exact Hlt| | |reflexivity|apply vectors_snoc].
    + intros w Sw. rewrite <- Hn in En, Sw. destruct (slot_put_all D w _ u v En Sw) as (v' & E & S').
      exists v'. split; [exact E|]. rewrite Hn in S'. eapply slot_ok_ext; [exact S'|]. intros u0 b0 _.
      rewrite cell_snoc. cbn [effect]. rewrite same_slot. reflexivity.
    + intros t1 u1 b1 Hne. cbn [effect]. rewrite other_slot by exact Hne. reflexivity.
  - destruct HR as (Hlt & En & Hall). unfold setTimeLevelData_single, setTimeLevelData. rewrite Hn, En, Ht, Nat.eqb_refl.
    replace (t <? levels) with true by (symmetry; apply Nat.ltb_lt; exact Hlt).
    replace (forallb _ counts) with true by (symmetry; apply forallb_forall; intros m Hm; apply Nat.eqb_eq, Hall, Hm).
    cbn [andb].
    apply tl_step; [exact HI|exact Hlt| | |reflexivity|apply vectors_snoc].
    + intros w Sw. rewrite <- Hn in En, Sw. destruct (slot_put_all D w _ 0 v En Sw) as (v' & E & S').
      exists v'. split; [exact E|]. rewrite Hn in S'. eapply slot_ok_ext; [exact S'|]. intros u0 b0 _.
      rewrite cell_snoc. cbn [effect]. rewrite same_slot. reflexivity.
    + intros t1 u1 b1 Hne. cbn [effect]. rewrite other_slot by exact Hne. reflexivity.
  - destruct HR as [Hlt L]. unfold setTimeLevelDataVector. rewrite total_eq, Hn, Ht, L, Nat.eqb_refl.
    replace (t <? levels) with true by (symmetry; apply Nat.ltb_lt; exact Hlt). cbn [andb].
    apply tl_step; [exact HI|exact Hlt| | |reflexivity|apply vectors_snoc].
    + intros w _. exists v. split; [reflexivity|]. eapply slot_ok_ext; [apply slot_whole; exact L|].
      intros u0 b0 _. rewrite cell_snoc. cbn [effect]. rewrite same_slot. reflexivity.
    + intros t1 u1 b1 Hne. cbn [effect]. rewrite other_slot by exact Hne. reflexivity.
  - unfold openTimeLevelDataVector.
    apply tl_step; [exact HI|exact HR| | |reflexivity|apply vectors_snoc].
    + intros w Sw. exists (fit zero D w). split; [reflexivity|]. rewrite <- Hn in Sw. apply slot_fit in Sw. rewrite Hn in Sw.
      eapply slot_ok_ext; [exact Sw|]. intros u0 b0 _. rewrite cell_snoc. cbn [effect]. rewrite same_slot. reflexivity.
    + intros t1 u1 b1 Hne. cbn [effect]. rewrite other_slot by exact Hne. reflexivity.
  - eexists. split; [reflexivity|]. unfold Inv, setNumberOfTimeIntegrationVectors. cbn [nb tl ti]. rewrite vectors_snoc.
    split; [exact Hn|]. split; [exact Ht|]. split; [apply vresize_length|]. split; [|split].
    + eapply bank_ext; [exact Bt|]. intros. rewrite cell_snoc. reflexivity.
    + intros t v Hv. assert (Hlt : t < n).
      { assert (L := vresize_length (ti D) n []). rewrite <- L. apply nth_error_Some. congruence. }
      rewrite vresize_nth in Hv by exact Hlt.
      assert (Ec : forall u b, cell zero counts (h ++ [SetNumberOfTimeIntegrationVectors n]) Integration t u b = cell zero counts h Integration t u b).
      { intros. rewrite cell_snoc. cbn [effect]. replace (t <? n) with true by (symmetry; apply Nat.ltb_lt; exact Hlt). reflexivity. }
      destruct (Nat.ltb_spec t (length (ti D))) as [Hold|Hnew].
      * eapply slot_ok_ext; [apply (Bi t v Hv)|]. intros. apply Ec.
      * inversion Hv; subst. left. split; [reflexivity|]. intros. rewrite Ec. apply Ho. lia.
    + intros t u b Hge. rewrite cell_snoc. cbn [effect]. replace (t <? n) with false by (symmetry; apply Nat.ltb_ge; exact Hge). reflexivity.
  - destruct HR as [Hlt L]. unfold setTimeIntegrationVector. rewrite total_eq, Hn, L, Nat.eqb_refl.
    apply ti_step; [exact HI|exact Hlt| | |reflexivity|apply vectors_snoc].
    + intros w _. exists v. split; [reflexivity|]. eapply slot_ok_ext; [apply slot_whole; exact L|].
      intros u0 b0 _. rewrite cell_snoc. cbn [effect]. rewrite same_slot. reflexivity.
    + intros t1 u1 b1 Hne. cbn [effect]. rewrite other_slot by exact Hne. reflexivity.
  - destruct HR as [Hlt En]. unfold setTimeIntegrationSubvector. rewrite Hn, En, Nat.eqb_refl.
    apply ti_step; [exact HI|exact Hlt| | |reflexivity|apply vectors_snoc].
    + intros w Sw. rewrite <- Hn in En, Sw. destruct (slot_put_all D w _ u v En Sw) as (v' & E & S').
      exists v'. split; [exact E|]. rewrite Hn in S'. eapply slot_ok_ext; [exact S'|]. intros u0 b0 _.
      rewrite cell_snoc. cbn [effect]. rewrite same_slot. reflexivity.
    + intros t1 u1 b1 Hne. cbn [effect]. rewrite other_slot by exact Hne. reflexivity.
  - destruct HR as [Hlt V]. unfold setTimeIntegrationData.
    apply ti_step; [exact HI|exact Hlt| | |reflexivity|apply vectors_snoc].
    + intros w Sw. rewrite <- Hn in V, Sw. destruct (slot_put D w _ u b x V Sw) as (v' & E & S').
      exists v'. split; [exact E|]. rewrite Hn in S'. eapply slot_ok_ext; [exact S'|]. intros u0 b0 _.
      rewrite cell_snoc. cbn [effect]. rewrite same_slot. reflexivity.
    + intros t1 u1 b1 Hne. cbn [effect]. rewrite other_slot by exact Hne. reflexivity.
Qed.

Lemma run_snoc (D : ElementData) h c : run zero D (h ++ [c]) =
  match run zero D h with None => None | Some D' => run1 zero D' c end.
Proof.
  revert D; induction h as [|o h IH]; intros D; cbn.
  - destruct (run1 zero D c); reflexivity.
  - destruct (run1 zero D o); auto.
Qed.

Lemma run_inv m v h : legal counts levels h ->
  exists D, run zero (ed_new levels counts m v) h = Some D /\ Inv D h.
Proof.
  induction h as [|c h IH] using rev_ind; intros HL.
  - exists (ed_new levels counts m v). split; [reflexivity|]. unfold Inv, ed_new. cbn [nb tl ti].
    split; [reflexivity|]. split; [apply repeat_length|]. split; [reflexivity|]. split; [|split].
    + intros t w Hw. apply nth_error_In in Hw. apply repeat_spec in Hw. subst. left. split; reflexivity.
    + intros t w Hw. destruct t; discriminate.
    + reflexivity.
  - destruct IH as (D & E & HI).
    { intros h1 c1 h2 ->. apply (HL h1 c1 (h2 ++ [c])). rewrite <- app_assoc. reflexivity. }
    destruct (step_ok D h c HI) as (D' & E' & HI').
    { apply (HL h c []). reflexivity. }
    exists D'. rewrite run_snoc, E. auto.
Qed.

(** readers *)
Lemma get_slot (D : ElementData) v g u b : slot_ok (nb D) v g -> valid (nb D) u b ->
  get D b u v = g u b.
Proof.
  intros Hs V. unfold get. rewrite conv_ok by exact V. destruct Hs as [[-> H]|[L H]].
  - rewrite H by exact V. destruct (before (nb D) u + b); reflexivity.
  - rewrite H by exact V. reflexivity.
Qed.

Lemma collect_row n (f : nat -> option A) : collect n f = row f n.
Proof.
  unfold collect, for_loop.
  assert (G : forall m k acc, row f k = Some acc ->
    for_from k m (fun i acc => match f i with None => None | Some x => Some (acc ++ [x]) end) acc = row f (k + m)).
  { induction m as [|m IH]; intros k acc H; cbn [for_from].
    - rewrite Nat.add_0_r. symmetry. exact H.
    - destruct (f k) as [x|] eqn:E.
      + rewrite (IH (S k) (acc ++ [x])); [f_equal; lia|]. cbn. rewrite H, E. reflexivity.
      + symmetry. clear IH. replace (k + S m) with (S k + m) by lia.
        assert (N : forall j, row f (S k + j) = None).
        { induction j as [|j IHj]; [rewrite Nat.add_0_r; cbn; rewrite H, E; reflexivity|].
          replace (S k + S j) with (S (S k + j)) by lia. cbn [row]. rewrite IHj. reflexivity. }
        apply N. }
  rewrite (G n 0 []); reflexivity.
Qed.
Lemma row_ext n (f g : nat -> option A) : (forall i, i < n -> f i = g i) -> row f n = row g n.
Proof. induction n as [|n IH]; intros H; cbn; [reflexivity|]. rewrite IH by (intros; apply H; lia). rewrite H by lia. reflexivity. Qed.

Lemma row_map n (f : nat -> option A) l : row f n = Some l -> length l = n /\ forall i, i < n -> nth_error l i = f i.
Proof.
  revert l; induction n as [|n IH]; intros l H; cbn in H.
  - inversion H; subst. split; [reflexivity|]. intros; lia.
  - destruct (row f n) as [l'|]; [|discriminate]. destruct (f n) as [x|] eqn:E; [|discriminate]. inversion H; subst.
    destruct (IH l' eq_refl) as [L N]. split; [rewrite app_length; cbn; lia|]. intros i Hi.
    destruct (Nat.eq_dec i n) as [->|Hne].
    + rewrite nth_error_app2, L, Nat.sub_diag by lia. symmetry. exact E.
    + rewrite nth_error_app1 by lia. apply N. lia.
Qed.

Lemma nth_some_lt {X} (l : list X) t : t < length l -> exists v, nth_error l t = Some v.
Proof. intros H. destruct (nth_error l t) eqn:E; [eauto|]. apply nth_error_None in E. lia. Qed.

Lemma slot_len (D : ElementData) v g u b : slot_ok (nb D) v g -> valid (nb D) u b ->
  (length v =? total D) = match g u b with Some _ => true | None => false end.
Proof.
  intros Hs V. rewrite total_eq. pose proof (valid_bound _ _ _ V). destruct Hs as [[-> H']|[L H']].
  - rewrite H' by exact V. apply Nat.eqb_neq. cbn. lia.
  - rewrite H' by exact V. rewrite L, Nat.eqb_refl. destruct (nth_error v (before (nb D) u + b)) eqn:E; [reflexivity|].
    apply nth_error_None in E. lia.
Qed.

Lemma readers_ok m v h : legal counts levels h ->
  exists D, run zero (ed_new levels counts m v) h = Some D /\
    (forall t u b, t < levels -> valid counts u b -> getData D t u b = cell zero counts h Level t u b) /\
    (forall t u n, t < levels -> nth_error counts u = Some n ->
       getTimeLevelData D t u = row (fun b => cell zero counts h Level t u b) n) /\
    (forall t w, t < levels -> getTimeLevelDataVector D t = Some w ->
       length w = list_sum counts /\
       forall u b, valid counts u b -> nth_error w (before counts u + b) = cell zero counts h Level t u b) /\
    (forall i u b, i < vectors_after h -> valid counts u b ->
       getTimeIntegrationData D i u b = cell zero counts h Integration i u b) /\
    (forall i u w, i < vectors_after h -> getTimeIntegrationSubvector D i u = Some w ->
       nth_error counts u = Some (length w) /\
       forall b, b < length w -> nth_error w b = cell zero counts h Integration i u b) /\
    (forall i w, i < vectors_after h -> getTimeIntegrationVector D i = Some w ->
       length w = list_sum counts /\
       forall u b, valid counts u b -> nth_error w (before counts u + b) = cell zero counts h Integration i u b).
Proof.
  intros HL. destruct (run_inv m v h HL) as (D & E & Hn & Ht & Hi & Bt & Bi & Ho).
  exists D. split; [exact E|]. subst counts. clear HL E.
  assert (WH : forall w g, slot_ok (nb D) w g -> length w = total D ->
    length w = list_sum (nb D) /\ forall u b, valid (nb D) u b -> nth_error w (before (nb D) u + b) = g u b).
  { intros w g Hs HLw. rewrite total_eq in HLw. split; [exact HLw|]. intros u b V. destruct Hs as [[-> _]|[_ H]].
    - cbn in HLw. pose proof (valid_bound _ _ _ V). lia.
    - symmetry. apply H. exact V. }
  split; [|split; [|split; [|split; [|split]]]].
  - intros t u b Hlt V. pose proof V as (n & En & Hb). unfold getData. rewrite En.
    destruct (nth_some_lt (tl D) t) as (w & Ew); [lia|]. rewrite Ew.
    replace (b <? n) with true by (symmetry; apply Nat.ltb_lt; exact Hb). cbn [andb].
    rewrite (slot_len D w _ u b (Bt t w Ew) V). rewrite (get_slot D w _ u b (Bt t w Ew) V).
    destruct (cell zero (nb D) h Level t u b); reflexivity.
  - intros t u n Hlt En. unfold getTimeLevelData. rewrite En. destruct (nth_some_lt (tl D) t) as (w & Ew); [lia|]. rewrite Ew.
    rewrite collect_row. apply row_ext. intros b Hb. apply (get_slot D w (cell zero (nb D) h Level t) u b (Bt t w Ew)). exists n. auto.
  - intros t w Hlt. unfold getTimeLevelDataVector. destruct (nth_some_lt (tl D) t) as (w' & Ew); [lia|]. rewrite Ew.
    destruct (Nat.eqb_spec (length w') (total D)); intros Heq; inversion Heq; subst.
    apply WH; [apply (Bt t w Ew)|assumption].
  - intros i u b Hlt V. unfold getTimeIntegrationData.
    destruct (nth_some_lt (ti D) i) as (w & Ew); [lia|]. rewrite Ew.
    rewrite (slot_len D w _ u b (Bi i w Ew) V). rewrite (get_slot D w _ u b (Bi i w Ew) V).
    destruct (cell zero (nb D) h Integration i u b); reflexivity.
  - intros i u w Hlt. unfold getTimeIntegrationSubvector. destruct (nth_error (nb D) u) as [n|] eqn:En; [|discriminate].
    destruct (nth_some_lt (ti D) i) as (w' & Ew); [lia|]. rewrite Ew.
    destruct (length w' =? total D); [|discriminate]. rewrite collect_row. intros R. apply row_map in R as [L N].
    split; [congruence|]. rewrite L. intros b Hb. rewrite N by exact Hb.
    apply (get_slot D w' (cell zero (nb D) h Integration i) u b (Bi i w' Ew)). exists n. auto.
  - intros t w Hlt. unfold getTimeIntegrationVector. destruct (nth_some_lt (ti D) t) as (w' & Ew); [lia|]. rewrite Ew.
    destruct (Nat.eqb_spec (length w') (total D)); intros Heq; inversion Heq; subst.
    apply WH; [apply (Bi t w Ew)|assumption].
Qed.

(** calls that are not in range are refused *)
Lemma conv_none (D : ElementData) u b : ~ valid (nb D) u b -> convertToSingleIndex D b u = None.
Proof. intros H. destruct (convertToSingleIndex D b u) eqn:E; [|reflexivity]. apply conv_inv in E. tauto. Qed.
End Cells.

Lemma change_none {A} (l : list (list A)) t f : length l <= t -> change l t f = None.
Proof. intros H. unfold change. apply nth_error_None in H. rewrite H. reflexivity. Qed.

Lemma refuse {A} (zero : A) counts levels m v h c D :
  legal counts levels h -> run zero (ed_new levels counts m v) h = Some D ->
  ~ in_range counts levels (vectors_after h) c -> run1 zero D c = None.
Proof.
  intros HL ER HN. destruct (run_inv zero counts levels m v h HL) as (D' & E & Hn & Ht & Hi & _).
  assert (D' = D) by congruence. subst D'. clear E.
  assert (PN : forall (u b : nat) (x : A) w, ~ valid counts u b -> put D b u x w = None).
  { intros u b x w H. unfold put. rewrite conv_none; [reflexivity|]. rewrite Hn. exact H. }
  destruct c as [t u b x|t u w|t w|t w|t|n|i w|i u w|i u b x]; cbn [run1 in_range] in *.
  - unfold setData. rewrite Hn, Ht. destruct (nth_error counts u) as [n|] eqn:En; [|reflexivity].
    destruct (Nat.ltb_spec t levels); [|reflexivity]. destruct (Nat.ltb_spec b n); [|reflexivity].
    exfalso. apply HN. split; [assumption|]. exists n. auto.
  - unfold setTimeLevelData. rewrite Hn, Ht. destruct (nth_error counts u) as [n|] eqn:En; [|reflexivity].
    destruct (Nat.eqb_spec (length w) n); [|reflexivity]. destruct (Nat.ltb_spec t levels); [|reflexivity].
    exfalso. apply HN. subst. auto.
  - unfold setTimeLevelData_single. rewrite Hn, Ht. destruct (nth_error counts 0) as [n|] eqn:En; [|reflexivity].
    destruct (forallb (fun index => index =? n) counts) eqn:F; [|reflexivity].
    destruct (Nat.eqb_spec (length w) n); [|reflexivity]. destruct (Nat.ltb_spec t levels); [|reflexivity].
    exfalso. apply HN. subst. split; [assumption|]. split; [reflexivity|]. intros k Hk.
    rewrite forallb_forall in F. apply Nat.eqb_eq, F, Hk.
  - unfold setTimeLevelDataVector. rewrite total_eq, Hn, Ht. destruct (Nat.eqb_spec (length w) (list_sum counts)); [|reflexivity].
    destruct (Nat.ltb_spec t levels); [|reflexivity]. exfalso. apply HN. auto.
  - unfold openTimeLevelDataVector. rewrite change_none; [reflexivity|]. lia.
  - tauto.
  - unfold setTimeIntegrationVector. rewrite total_eq, Hn. destruct (Nat.eqb_spec (length w) (list_sum counts)); [|reflexivity].
    rewrite change_none; [reflexivity|]. lia.
  - unfold setTimeIntegrationSubvector. rewrite Hn. destruct (nth_error counts u) as [n|] eqn:En; [|reflexivity].
    destruct (Nat.eqb_spec (length w) n); [|reflexivity]. subst. rewrite change_none; [reflexivity|].
    destruct (le_lt_dec (length (ti D)) i); [assumption|]. exfalso. apply HN. split; [lia|reflexivity].
  - unfold setTimeIntegrationData. destruct (le_lt_dec (length (ti D)) i); [rewrite change_none by assumption; reflexivity|].
    unfold change. destruct (nth_error (ti D) i) as [w|] eqn:Ew; [|reflexivity]. rewrite PN; [reflexivity|].
    intros V. apply HN. split; [lia|exact V].
Qed.

(** the number of basis functions of one unknown changes *)
Lemma change_count {A} (zero : A) (D : ElementData A) n u D' : setNumberOfBasisFunctions zero D n u = Some D' ->
  (forall i v, nth_error (ti D) i = Some v -> length v = total D) ->
  forall i u' b, u' < u -> i < length (ti D) -> valid (nb D) u' b ->
    getTimeIntegrationData D' i u' b = getTimeIntegrationData D i u' b.
Proof.
  unfold setNumberOfBasisFunctions. intros H HV i u' b Hu Hi V.
  destruct (write (nb D) u n) as [c|] eqn:Ew; [|discriminate]. inversion H; subst D'. clear H.
  apply write_inv in Ew as (Hlen & Hl & Hc).
  assert (Hb : forall k, k <= u -> before c k = before (nb D) k).
  { induction k as [|k IHk]; intros Hk; [reflexivity|].
    destruct (nth_error (nb D) k) as [x|] eqn:Ex; [|apply nth_error_None in Ex; lia].
    assert (nth_error c k = Some x). { rewrite Hc. replace (k =? u) with false by (symmetry; apply Nat.eqb_neq; lia). exact Ex. }
    rewrite (before_S c k x), (before_S (nb D) k x), IHk by (assumption || lia). reflexivity. }
  assert (V' : valid c u' b).
  { destruct V as (x & Ex & Hbx). exists x. split; [|exact Hbx]. rewrite Hc. replace (u' =? u) with false by (symmetry; apply Nat.eqb_neq; lia). exact Ex. }
  unfold getTimeIntegrationData. cbn [ti]. rewrite nth_error_map.
  destruct (nth_error (ti D) i) as [v|] eqn:Ev; [|reflexivity]. cbn [option_map].
  set (D1 := ED c (tl D) (ti D) (elementMatrix_ D) (elementVector_ D)).
  match goal with |- (if length _ =? total ?D2 then _ else _) = _ => assert (T : total D2 = total D1) by (rewrite !total_eq; reflexivity); rewrite T end.
  rewrite vresize_length, Nat.eqb_refl, (HV i v Ev), Nat.eqb_refl.
  unfold get. rewrite !conv_ok by assumption. cbn [nb]. rewrite Hb by lia.
  pose proof (valid_bound _ _ _ V). pose proof (valid_bound _ _ _ V') as B'. rewrite Hb in B' by lia.
  rewrite vresize_nth by (rewrite total_eq; exact B').
  rewrite (HV i v Ev), total_eq.
  replace (before (nb D) u' + b <? list_sum (nb D)) with true by (symmetry; apply Nat.ltb_lt; assumption). reflexivity.
Qed.

Lemma setElementMatrix_ok {A} (D : ElementData A) M id :
  exists D', setElementMatrix D M id = Some D' /\ getElementMatrix D' id = Some M /\
    (forall k, k < length (elementMatrix_ D) -> k <> id -> getElementMatrix D' k = getElementMatrix D k) /\
    (forall k, getElementVector D' k = getElementVector D k) /\ nb D' = nb D /\ tl D' = tl D /\ ti D' = ti D.
Proof.
  unfold setElementMatrix. destruct (grow_write (elementMatrix_ D) id (Mat 0 0 []) M) as (l' & E & L & N & O & _).
  rewrite E. eexists. split; [reflexivity|]. split; [exact N|]. split; [exact O|]. repeat split.
Qed.
Lemma setElementVector_ok {A} (D : ElementData A) v id :
  exists D', setElementVector D v id = Some D' /\ getElementVector D' id = Some v /\
    (forall k, k < length (elementVector_ D) -> k <> id -> getElementVector D' k = getElementVector D k) /\
    (forall k, getElementMatrix D' k = getElementMatrix D k) /\ nb D' = nb D /\ tl D' = tl D /\ ti D' = ti D.
Proof.
  unfold setElementVector. destruct (grow_write (elementVector_ D) id [] v) as (l' & E & L & N & O & _).
  rewrite E. eexists. split; [reflexivity|]. split; [exact N|]. split; [exact O|]. repeat split.
Qed.

Lemma index_bijection {A} (D : ElementData A) :
  (forall u b, valid (nb D) u b -> exists k, convertToSingleIndex D b u = Some k /\ k < total D) /\
  (forall u b u' b' k, convertToSingleIndex D b u = Some k -> convertToSingleIndex D b' u' = Some k -> u = u' /\ b = b') /\
  (forall k, k < total D -> exists u b, convertToSingleIndex D b u = Some k) /\
  (forall u b, ~ valid (nb D) u b -> convertToSingleIndex D b u = None).
Proof.
  split; [|split; [|split]].
  - intros u b V. rewrite conv_ok by exact V. eexists. split; [reflexivity|]. rewrite total_eq. apply valid_bound, V.
  - intros u b u' b' k H H'. pose proof (conv_inv _ _ _ _ H) as V. pose proof (conv_inv _ _ _ _ H') as V'.
    rewrite conv_ok in H, H' by assumption. apply (valid_inj _ _ _ _ _ V V'). congruence.
  - intros k Hk. rewrite total_eq in Hk. apply valid_surj in Hk as (u & b & V & <-). exists u, b. apply conv_ok, V.
  - intros. apply conv_none. assumption.
Qed.

Lemma readers_defined {A} (zero : A) counts levels m v h D : legal counts levels h ->
  run zero (ed_new levels counts m v) h = Some D ->
  (forall t u b, t < levels -> valid counts u b -> cell zero counts h Level t u b <> None ->
     getTimeLevelDataVector D t <> None) /\
  (forall i u b, i < vectors_after h -> valid counts u b -> cell zero counts h Integration i u b <> None ->
     getTimeIntegrationVector D i <> None /\
     forall u', u' < length counts -> getTimeIntegrationSubvector D i u' <> None).
Proof.
  intros HL ER. destruct (run_inv zero counts levels m v h HL) as (D' & E & Hn & Ht & Hi & Bt & Bi & Ho).
  assert (D' = D) by congruence. subst D' counts. clear E.
  split.
  - intros t u b Hlt V Hc. unfold getTimeLevelDataVector. destruct (nth_some_lt (tl D) t) as (w & Ew); [lia|]. rewrite Ew.
    rewrite (slot_len D w _ u b (Bt t w Ew) V). destruct (cell zero (nb D) h Level t u b); [discriminate|tauto].
  - intros i u b Hlt V Hc. unfold getTimeIntegrationVector, getTimeIntegrationSubvector.
    destruct (nth_some_lt (ti D) i) as (w & Ew); [lia|]. rewrite Ew.
    rewrite (slot_len D w _ u b (Bi i w Ew) V). destruct (cell zero (nb D) h Integration i u b) eqn:Ec; [|tauto].
    split; [discriminate|]. intros u' Hu'. destruct (nth_some_lt (nb D) u' Hu') as (n & En). rewrite En.
    rewrite (collect_ok n _ (fun iB => match get D iB u' w with Some x => x | None => zero end)); [discriminate|].
    intros iB HiB. assert (V' : valid (nb D) u' iB) by (exists n; auto).
    rewrite (get_slot D w _ u' iB (Bi i w Ew) V').
    destruct (Bi i w Ew) as [[-> H]|[L H]].
    + rewrite H in Ec by exact V. discriminate.
    + rewrite H by exact V'. destruct (nth_error w (before (nb D) u' + iB)) eqn:En'; [reflexivity|].
      apply nth_error_None in En'. pose proof (valid_bound _ _ _ V'). lia.
Qed.
