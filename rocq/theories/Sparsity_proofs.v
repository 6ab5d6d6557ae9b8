(** Lemmas about the sparsity estimate. *)
From Coq Require Import List Arith ZArith Lia Bool Sorting.Sorted.
From Verif Require Import Loop_model Loop_proofs StdMap_model StdMap_proofs GlobalIndexing_model GlobalIndexing_spec GlobalIndexing_proofs
  Sparsity_model Sparsity_spec.
From Verif Require IndexExchange_proofs.
Import ListNotations.

Lemma interval_total : strict_total interval_ltb.
Proof.
  unfold interval_ltb. constructor.
  - intros (a, b). cbn [fst snd]. rewrite !Nat.ltb_irrefl. reflexivity.
  - intros (a, b) (c, d) (e, f). cbn [fst snd].
    destruct (Nat.ltb_spec a c), (Nat.ltb_spec c a), (Nat.ltb_spec c e), (Nat.ltb_spec e c), (Nat.ltb_spec a e), (Nat.ltb_spec e a);
      rewrite ?Nat.ltb_lt; intros; try discriminate; try reflexivity; lia.
  - intros (a, b) (c, d). cbn [fst snd]. destruct (Nat.ltb_spec a c), (Nat.ltb_spec c a); try discriminate; try lia.
    rewrite !Nat.ltb_ge. intros. f_equal; lia.
Qed.

(** * Loops that accumulate a relation *)
Lemma for_each_app {A St} (body : A -> St -> option St) l l' s :
  for_each (l ++ l') body s = bind (for_each l body s) (fun s => for_each l' body s).
Proof. revert s; induction l as [|a l IH]; intros s; [reflexivity|]. cbn. destruct (body a s); [apply IH|reflexivity]. Qed.
Lemma for_each_map {A B St} (f : A -> B) (body : B -> St -> option St) l s :
  for_each (map f l) body s = for_each l (fun a => body (f a)) s.
Proof. revert s; induction l as [|a l IH]; intros s; [reflexivity|]. cbn. destruct (body (f a) s); [apply IH|reflexivity]. Qed.
Lemma for_each_rel {A St X} (inv : St -> Prop) (rel : St -> X -> Prop) (Q : A -> X -> Prop) body l :
  (forall a s, In a l -> inv s -> exists s', body a s = Some s' /\ inv s' /\ forall x, rel s' x <-> rel s x \/ Q a x) ->
  forall s, inv s -> exists s', for_each l body s = Some s' /\ inv s' /\ forall x, rel s' x <-> rel s x \/ exists a, In a l /\ Q a x.
Proof.
  induction l as [|a l IH]; intros H s Hs.
  - exists s. split; [reflexivity|]. split; [exact Hs|]. intros x. split; [tauto|]. intros [R|(a & [] & _)]. exact R.
  - destruct (H a s (or_introl eq_refl) Hs) as (s1 & E1 & I1 & R1).
    destruct (IH (fun b t Hb => H b t (or_intror Hb)) s1 I1) as (s2 & E2 & I2 & R2).
    exists s2. cbn. rewrite E1. split; [exact E2|]. split; [exact I2|]. intros x. rewrite R2, R1. split.
    + intros [[R|R]|(b & Hb & R)]; [left; exact R|right; exists a; split; [left; reflexivity|exact R]|right; exists b; split; [right; exact Hb|exact R]].
    + intros [R|(b & [<-|Hb] & R)]; [left; left; exact R|left; right; exact R|right; exists b; split; assumption].
Qed.
Lemma fold_rel {A St X} (inv : St -> Prop) (rel : St -> X -> Prop) (Q : A -> X -> Prop) (f : St -> A -> St) l :
  (forall a s, In a l -> inv s -> inv (f s a) /\ forall x, rel (f s a) x <-> rel s x \/ Q a x) ->
  forall s, inv s -> inv (fold_left f l s) /\ forall x, rel (fold_left f l s) x <-> rel s x \/ exists a, In a l /\ Q a x.
Proof.
  induction l as [|a l IH]; intros H s Hs.
  - split; [exact Hs|]. intros x. split; [tauto|]. intros [R|(a & [] & _)]. exact R.
  - destruct (H a s (or_introl eq_refl) Hs) as (I1 & R1). cbn [fold_left].
    destruct (IH (fun b t Hb => H b t (or_intror Hb)) _ I1) as (I2 & R2). split; [exact I2|].
    intros x. rewrite R2, R1. split.
    + intros [[R|R]|(b & Hb & R)]; [left; exact R|right; exists a; split; [left; reflexivity|exact R]|right; exists b; split; [right; exact Hb|exact R]].
    + intros [R|(b & [<-|Hb] & R)]; [left; left; exact R|left; right; exact R|right; exists b; split; assumption].
Qed.

(** * The map of couplings *)
Section Couplings.
Variable isRow : interval -> Prop.
Definition good (c : couplings) : Prop :=
  ksorted interval_ltb c /\ forall row s, mfind interval_ltb row c = Some s -> ssorted interval_ltb s /\ isRow row.
Definition rel (c : couplings) (x : interval * interval) : Prop := In (snd x) (lookup (fst x) c).
Lemma lookup_put row s c r : lookup r (mput interval_ltb row s c) = if negb (interval_ltb row r) && negb (interval_ltb r row) then s else lookup r c.
Proof. unfold lookup. rewrite (mfind_mput _ interval_total). destruct (_ && _); reflexivity. Qed.
Lemma lookup_sorted c r : good c -> ssorted interval_ltb (lookup r c).
Proof.
  intros (_ & H). unfold lookup. destruct (mfind interval_ltb r c) eqn:E; [apply (H _ _ E)|]. constructor.
Qed.
Lemma good_put row s c : good c -> isRow row -> ssorted interval_ltb s -> good (mput interval_ltb row s c).
Proof.
  intros (H1 & H2) Hr Hs. split; [apply (mput_sorted _ interval_total), H1|]. intros r t.
  rewrite (mfind_mput _ interval_total). destruct (interval_ltb row r) eqn:E1, (interval_ltb r row) eqn:E2; cbn [negb andb]; try apply H2.
  intros E. injection E as <-. assert (row = r) by (apply (st_total _ interval_total); assumption). subst r. split; assumption.
Qed.
Lemma put_rel row s c x : rel (mput interval_ltb row s c) x <-> (fst x = row /\ In (snd x) s) \/ (fst x <> row /\ rel c x).
Proof.
  destruct x as (r, col). unfold rel. cbn [fst snd]. rewrite lookup_put.
  destruct (interval_ltb row r) eqn:E1.
  - cbn. assert (r <> row) by (intros ->; rewrite (st_irrefl _ interval_total) in E1; discriminate). tauto.
  - destruct (interval_ltb r row) eqn:E2; cbn.
    + assert (r <> row) by (intros ->; rewrite (st_irrefl _ interval_total) in E2; discriminate). tauto.
    + assert (row = r) by (apply (st_total _ interval_total); assumption). subst. tauto.
Qed.
Lemma interval_eq_dec (a b : interval) : {a = b} + {a <> b}.
Proof. decide equality; apply Nat.eq_dec. Qed.
Lemma inserts_in cols : forall s x, In x (fold_left (fun s i => sinsert interval_ltb i s) cols s) <-> In x cols \/ In x s.
Proof.
  induction cols as [|i cols IH]; intros s x; cbn [fold_left In]; [tauto|]. rewrite IH, (sinsert_in _ interval_total). intuition.
Qed.
Lemma inserts_sorted cols : forall s, ssorted interval_ltb s -> ssorted interval_ltb (fold_left (fun s i => sinsert interval_ltb i s) cols s).
Proof. induction cols as [|i cols IH]; intros s Hs; cbn [fold_left]; [exact Hs|]. apply IH, (sinsert_sorted _ interval_total), Hs. Qed.
Lemma insertRange_ok cols row c : good c -> isRow row -> good (insertRange cols row c) /\
  forall x, rel (insertRange cols row c) x <-> rel c x \/ (fst x = row /\ In (snd x) cols).
Proof.
  intros G R. split.
  - apply good_put; [exact G|exact R|]. apply inserts_sorted, lookup_sorted, G.
  - intros x. unfold insertRange. rewrite put_rel, inserts_in. unfold rel. destruct (interval_eq_dec (fst x) row) as [<-|N]; tauto.
Qed.
Lemma insertEach_ok cols row c : good c -> isRow row -> good (insertEach cols row c) /\
  forall x, rel (insertEach cols row c) x <-> rel c x \/ (fst x = row /\ In (snd x) cols).
Proof.
  intros G R.
  destruct (fold_rel good rel (fun i x => fst x = row /\ snd x = i)
    (fun c i => mput interval_ltb row (sinsert interval_ltb i (lookup row c)) c) cols) with (s := c) as (I1 & R1).
  - intros i s _ Gs. split.
    + apply good_put; [exact Gs|exact R|]. apply (sinsert_sorted _ interval_total), lookup_sorted, Gs.
    + intros x. rewrite put_rel, (sinsert_in _ interval_total). unfold rel. destruct (interval_eq_dec (fst x) row) as [<-|N]; tauto.
  - exact G.
  - split; [exact I1|]. intros x. unfold insertEach. rewrite R1. split.
    + intros [H|(i & Hi & E & ->)]; tauto.
    + intros [H|(E & Hi)]; [tauto|]. right. exists (snd x). tauto.
Qed.
Lemma good_nil : good [].
Proof. split; [constructor|]. intros row s E. discriminate. Qed.

(** both maps at once *)
Definition good2 (c : couplings * couplings) : Prop := good (fst c) /\ good (snd c).
Definition rel2 (c : couplings * couplings) (x : bool * (interval * interval)) : Prop := rel (if fst x then fst c else snd c) (snd x).
Definition cols2 (oc nc : intervals) (b : bool) : intervals := if b then oc else nc.
Lemma rows_range oc nc rows : (forall row, In row rows -> isRow row) -> forall c, good2 c ->
  let c' := fold_left (fun (c : couplings * couplings) row => (insertRange oc row (fst c), insertRange nc row (snd c))) rows c in
  good2 c' /\ forall x, rel2 c' x <-> rel2 c x \/ (In (fst (snd x)) rows /\ In (snd (snd x)) (cols2 oc nc (fst x))).
Proof.
  intros HR c G.
  destruct (fold_rel good2 rel2 (fun row x => fst (snd x) = row /\ In (snd (snd x)) (cols2 oc nc (fst x)))
    (fun (c : couplings * couplings) row => (insertRange oc row (fst c), insertRange nc row (snd c))) rows) with (s := c) as (I1 & R1); [|exact G|].
  - intros row s Hr (G1 & G2). destruct (insertRange_ok oc row (fst s) G1 (HR row Hr)) as (A1 & A2).
    destruct (insertRange_ok nc row (snd s) G2 (HR row Hr)) as (B1 & B2). split; [split; assumption|].
    intros (b, x). unfold rel2, cols2. cbn [fst snd]. destruct b; [apply A2|apply B2].
  - split; [exact I1|]. intros x. rewrite R1. split.
    + intros [H|(row & Hr & -> & Hc)]; tauto.
    + intros [H|(Hr & Hc)]; [tauto|]. right. exists (fst (snd x)). tauto.
Qed.
Lemma rows_each oc nc rows : (forall row, In row rows -> isRow row) -> forall c, good2 c ->
  let c' := fold_left (fun (c : couplings * couplings) row => (insertEach oc row (fst c), insertEach nc row (snd c))) rows c in
  good2 c' /\ forall x, rel2 c' x <-> rel2 c x \/ (In (fst (snd x)) rows /\ In (snd (snd x)) (cols2 oc nc (fst x))).
Proof.
  intros HR c G.
  destruct (fold_rel good2 rel2 (fun row x => fst (snd x) = row /\ In (snd (snd x)) (cols2 oc nc (fst x)))
    (fun (c : couplings * couplings) row => (insertEach oc row (fst c), insertEach nc row (snd c))) rows) with (s := c) as (I1 & R1); [|exact G|].
  - intros row s Hr (G1 & G2). destruct (insertEach_ok oc row (fst s) G1 (HR row Hr)) as (A1 & A2).
    destruct (insertEach_ok nc row (snd s) G2 (HR row Hr)) as (B1 & B2). split; [split; assumption|].
    intros (b, x). unfold rel2, cols2. cbn [fst snd]. destruct b; [apply A2|apply B2].
  - split; [exact I1|]. intros x. rewrite R1. split.
    + intros [H|(row & Hr & -> & Hc)]; tauto.
    + intros [H|(Hr & Hc)]; [tauto|]. right. exists (fst (snd x)). tauto.
Qed.
End Couplings.

(** * Writing the result *)
Lemma fold_sizes s : forall acc, fold_left (fun acc (columns : nat * nat) => acc + snd columns) s acc = acc + list_sum (map snd s).
Proof. induction s as [|i s IH]; intros acc; cbn; [lia|]. rewrite IH. unfold list_sum. lia. Qed.
Definition sizes (s : intervals) : nat := list_sum (map snd s).
Lemma write_range start n (v : nat) : forall w : list nat, start + n <= length w -> exists w',
  for_from start n (fun ri (w : list nat) => write w ri v) w = Some w' /\ length w' = length w /\
  forall j, nth_error w' j = if (start <=? j) && (j <? start + n) then Some v else nth_error w j.
Proof.
  intros w Hl.
  destruct (for_from_inv (fun i (w' : list nat) => length w' = length w /\
     forall j, nth_error w' j = if (start <=? j) && (j <? i) then Some v else nth_error w j) (fun ri w => write w ri v) n start w) as (w' & E & H1 & H2).
  - split; [reflexivity|]. intros j. destruct (Nat.leb_spec start j), (Nat.ltb_spec j start); try reflexivity. lia.
  - intros i s Hi (L & N). destruct (write_ok s i v) as (s' & E & L' & N'); [lia|]. exists s'. split; [exact E|].
    split; [lia|]. intros j. rewrite N', N. destruct (Nat.eqb_spec j i) as [->|].
    + destruct (Nat.leb_spec start i), (Nat.ltb_spec i (S i)); try lia. reflexivity.
    + destruct (Nat.leb_spec start j), (Nat.ltb_spec j (S i)), (Nat.ltb_spec j i); try lia; reflexivity.
  - exists w'. tauto.
Qed.
Lemma writeRows_ok total isRow (c : couplings) : good isRow c ->
  (forall row, isRow row -> fst row + snd row <= total) ->
  (forall row row' j, isRow row -> isRow row' -> fst row <= j < fst row + snd row -> fst row' <= j < fst row' + snd row' -> row = row') ->
  exists v, writeRows c (repeat 0 total) = Some v /\ length v = total /\
  forall row j, isRow row -> fst row <= j < fst row + snd row -> nth_error v j = Some (sizes (lookup row c)).
Proof.
  intros (K & G) HB HD. pose proof (ksorted_nodup _ interval_total c K) as ND.
  assert (GI : forall o, In o c -> isRow (fst o)).
  { intros (row, s) Ho. apply (mfind_in _ interval_total row s c K) in Ho. apply (G _ _ Ho). }
  assert (H : forall l w, NoDup (map fst l) -> (forall o, In o l -> isRow (fst o)) -> length w = total ->
    exists v, writeRows l w = Some v /\ length v = total /\
    (forall o j, In o l -> fst (fst o) <= j < fst (fst o) + snd (fst o) -> nth_error v j = Some (sizes (snd o))) /\
    (forall j, (forall o, In o l -> ~ fst (fst o) <= j < fst (fst o) + snd (fst o)) -> nth_error v j = nth_error w j)).
  { induction l as [|o l IH]; intros w NDl Hl Hw.
    - exists w. split; [reflexivity|]. split; [exact Hw|]. split; [intros o j []|reflexivity].
    - cbn [map] in NDl. apply NoDup_cons_iff in NDl. destruct NDl as (Hn & NDl'). unfold writeRows. cbn [for_each]. cbv beta zeta.
      destruct (write_range (fst (fst o)) (snd (fst o)) (fold_left (fun acc (columns : nat * nat) => acc + snd columns) (snd o) 0) w) as (w' & E & L' & N').
      { rewrite Hw. apply HB, Hl. left. reflexivity. }
      rewrite E. destruct (IH w' NDl' (fun o Ho => Hl o (or_intror Ho)) ltac:(congruence)) as (v & Ev & Lv & V1 & V2).
      exists v. split; [exact Ev|]. split; [exact Lv|]. split.
      + intros o' j [<-|Ho'] Hj; [|apply V1; assumption]. rewrite V2.
        * rewrite N'. destruct (Nat.leb_spec (fst (fst o)) j), (Nat.ltb_spec j (fst (fst o) + snd (fst o))); try lia.
          cbn [andb]. rewrite fold_sizes. reflexivity.
        * intros o' Ho' Hj'. apply Hn. rewrite (HD (fst o) (fst o') j); [apply in_map, Ho'| | | |]; try assumption; apply Hl; [left; reflexivity|right; exact Ho'].
      + intros j Hj. rewrite V2 by (intros o' Ho'; apply Hj; right; exact Ho'). rewrite N'.
        specialize (Hj o (or_introl eq_refl)).
        destruct (Nat.leb_spec (fst (fst o)) j), (Nat.ltb_spec j (fst (fst o) + snd (fst o))); try reflexivity. lia. }
  destruct (H c (repeat 0 total) ND GI (repeat_length 0 total)) as (v & Ev & Lv & V1 & V2). exists v. split; [exact Ev|]. split; [exact Lv|].
  intros row j HR Hj. unfold lookup. destruct (mfind interval_ltb row c) as [s|] eqn:E.
  - apply (mfind_in _ interval_total row s c K) in E. apply (V1 (row, s) j E Hj).
  - rewrite V2.
    + pose proof (HB row HR). rewrite nth_error_repeat by lia. reflexivity.
    + intros o Ho Hj'. pose proof (HD row (fst o) j HR (GI o Ho) Hj Hj') as Er. subst row. destruct o as (row, s). cbn in *.
      apply (mfind_in _ interval_total row s c K) in Ho. congruence.
Qed.
