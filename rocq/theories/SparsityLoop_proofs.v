(** The loops of the sparsity estimate on one process. *)
From Coq Require Import List Arith ZArith Lia Bool.
From Verif Require Import Loop_model Loop_proofs StdMap_model StdMap_proofs GlobalIndexing_model GlobalIndexing_spec GlobalIndexing_proofs
  Sparsity_model Sparsity_spec Sparsity_proofs.
From Verif Require IndexExchange_proofs.
Import ListNotations.

Section On.
Variables (m : Mesh) (n p : nat).
Hypothesis VM : valid_mesh n m.
Notation size := (localNumberOfBasisFunctions m).

Lemma on_adjacent e k x : In e (elements m) -> In (k, x) (objects_of_element m e) -> carries m k /\ In e (adjacent m k x).
Proof.
  intros He Ho. apply IndexExchange_proofs.in_objects in Ho. destruct Ho as [(-> & ->)|(Hk & C & Hx)].
  - split; [exact I|]. left. reflexivity.
  - split; [exact C|]. apply (vm_adjacency _ _ VM k e x Hk He) in Hx. destruct k; try exact Hx. congruence.
Qed.
Lemma adjacent_on e k x : In e (elements m) -> carries m k -> In e (adjacent m k x) -> In (k, x) (objects_of_element m e).
Proof.
  intros He C Ha. apply IndexExchange_proofs.in_objects. destruct (kind_eq_dec k KElement) as [->|Hk].
  - left. destruct Ha as [<-|[]]. split; reflexivity.
  - right. split; [exact Hk|]. split; [exact C|]. apply (vm_adjacency _ _ VM k e x Hk He). destruct k; try exact Ha. congruence.
Qed.
Lemma on_object e k x : In e (elements m) -> In (k, x) (objects_of_element m e) -> mesh_object m k x.
Proof. intros He Ho. destruct (on_adjacent e k x He Ho) as (C & A). split; [exact C|]. exists e. split; assumption. Qed.
Lemma owned_sees k x e : In e (elements m) -> In e (adjacent m k x) -> owned_by m p k x -> visible m p e = true.
Proof.
  intros He Ha (e0 & Hh & <-). destruct (kind_eq_dec k KElement) as [->|Hk].
  - cbn in Hh. destruct Ha as [<-|[]]. injection Hh as <-. apply (vm_sees_own _ _ VM), He.
  - apply (vm_shadow _ _ VM k x e0 e Hk).
    + destruct k; try congruence; cbn in Hh; destruct (elementsOf m _ x); try discriminate; injection Hh as ->; left; reflexivity.
    + destruct k; try exact Ha. congruence.
Qed.
Lemma isOwned_ok e k x : In e (elements m) -> In (k, x) (objects_of_element m e) ->
  isOwned m p k x = true <-> owned_by m p k x.
Proof.
  intros He Ho. destruct (on_adjacent e k x He Ho) as (C & A). destruct (kind_eq_dec k KElement) as [->|Hk].
  - cbn [isOwned]. rewrite Nat.eqb_eq. unfold owned_by. cbn. split; [intros E; exists x; tauto|intros (e0 & E & H); congruence].
  - assert (EA : adjacent m k x = elementsOf m k x) by (destruct k; [congruence|reflexivity|reflexivity|reflexivity]).
    assert (EO : isOwned m p k x = match firstElement m p k x with Some e => owner m e =? p | None => false end)
      by (destruct k; [congruence|reflexivity|reflexivity|reflexivity]).
    rewrite EO. unfold owned_by. rewrite EA. unfold firstElement. split.
    + destruct (hd_error (filter (visible m p) (elementsOf m k x))) as [e1|] eqn:E1; [|discriminate]. intros E. apply Nat.eqb_eq in E.
      exists e1. split; [|exact E]. rewrite filter_all in E1; [exact E1|]. intros e' He'. rewrite <- E.
      apply (vm_shadow _ _ VM k x e1 e' Hk); [|exact He'].
      assert (Hi : In e1 (filter (visible m p) (elementsOf m k x))) by (destruct (filter _ _); [discriminate|injection E1 as ->; left; reflexivity]).
      apply filter_In in Hi. tauto.
    + intros (e1 & E1 & E). rewrite filter_all.
      * rewrite E1. apply Nat.eqb_eq, E.
      * intros e' He'. rewrite <- E. apply (vm_shadow _ _ VM k x e1 e' Hk); [|exact He'].
        destruct (elementsOf m k x); [discriminate|injection E1 as ->; left; reflexivity].
Qed.

(** * The rows or columns of a local matrix *)
Section Side.
Variables (rows : bool) (g : GlobalIndexing) (us : list nat) (idx : Kind -> nat -> nat -> nat).
Hypothesis g_us : includedUnknowns_ g = us.
Hypothesis g_idx : forall e k x u, In e (elements m) -> visible m p e = true -> In (k, x) (objects_of_element m e) -> In u us ->
  size k x u <> 0 -> (rows = true -> isOwned m p k x = true) ->
  (if rows then match getProcessorLocalIndex g k x u with Some z => if (z <? 0)%Z then None else Some (Z.to_nat z) | None => None end
   else getGlobalIndex g k x u) = Some (idx k x u).
Definition stag := (nat + bool * nat * interval)%type.
Definition relS (s : side) (t : stag) : Prop :=
  match t with
  | inl u => isOnlyElementBased s u = false
  | inr (b, u, iv) => In iv (if b then ownedIntervals s u else nonOwnedIntervals s u)
  end.
Definition Qu (k : Kind) (x u : nat) (t : stag) : Prop :=
  size k x u <> 0 /\
  match t with
  | inl v => v = u /\ k <> KElement
  | inr (b, v, iv) => v = u /\ b = isOwned m p k x /\ (rows = true -> b = true) /\ iv = (idx k x u, size k x u)
  end.
Definition QE (e : nat) (t : stag) : Prop := exists o, In o (objects_of_element m e) /\ exists u, In u us /\ Qu (fst o) (snd o) u t.
Definition QF (x : nat) (t : stag) : Prop := exists e, In e (elementsOf m KFace x) /\ visible m p e = true /\ QE e t.

Lemma addLocalUnknown_ok e k x u s : In e (elements m) -> visible m p e = true -> In (k, x) (objects_of_element m e) -> In u us ->
  exists s', addLocalUnknown m p rows g k x u s = Some s' /\ True /\ forall t, relS s' t <-> relS s t \/ Qu k x u t.
Proof.
  intros He Hv Ho Hu. unfold addLocalUnknown. destruct (Nat.eqb_spec (size k x u) 0) as [E0|N0].
  { exists s. split; [reflexivity|]. split; [exact I|]. intros t. unfold Qu. tauto. }
  set (s1 := if kind_eqb k KElement then s else _).
  assert (R1 : forall t, relS s1 t <-> relS s t \/ match t with inl v => v = u /\ k <> KElement | inr _ => False end).
  { intros [v|((b, v), iv)]; unfold s1; destruct (kind_eqb_spec k KElement) as [->|Hk]; cbn; try tauto.
    - unfold setFn. destruct (Nat.eqb_spec v u); tauto. }
  destruct (rows && negb (isOwned m p k x)) eqn:ER.
  { exists s1. split; [reflexivity|]. split; [exact I|]. apply andb_prop in ER. destruct ER as (ER1 & ER2). apply negb_true_iff in ER2.
    intros t. rewrite R1. unfold Qu. destruct t as [v|((b, v), iv)]; [tauto|]. rewrite ER2.
    split; [tauto|]. intros [H|(_ & _ & Eb & H & _)]; [tauto|]. specialize (H ER1). congruence. }
  assert (HR : rows = true -> isOwned m p k x = true) by (intros Hr; rewrite Hr in ER; cbn in ER; apply negb_false_iff in ER; exact ER).
  rewrite (g_idx e k x u He Hv Ho Hu N0 HR). eexists. split; [reflexivity|]. split; [exact I|].
  intros t. unfold Qu. destruct (isOwned m p k x) eqn:EO; destruct t as [v|((b, v), iv)]; cbn [relS isOnlyElementBased ownedIntervals nonOwnedIntervals].
  - rewrite (R1 (inl v)). tauto.
  - pose proof (R1 (inr (b, v, iv))) as R2. cbn [relS] in R2. destruct b.
    + unfold setFn. destruct (Nat.eqb_spec v u) as [->|Nv].
      * rewrite (sinsert_in _ interval_total). rewrite R2. intuition.
      * rewrite R2. intuition.
    + rewrite R2. intuition congruence.
  - rewrite (R1 (inl v)). tauto.
  - pose proof (R1 (inr (b, v, iv))) as R2. cbn [relS] in R2. destruct b.
    + rewrite R2. intuition congruence.
    + unfold setFn. destruct (Nat.eqb_spec v u) as [->|Nv].
      * rewrite (sinsert_in _ interval_total). rewrite R2. intuition.
      * rewrite R2. intuition.
Qed.
Lemma addElement_ok e s : In e (elements m) -> visible m p e = true ->
  exists s', addLocalElementMatrixDoFs m p rows g e s = Some s' /\ True /\ forall t, relS s' t <-> relS s t \/ QE e t.
Proof.
  intros He Hv.
  assert (E : addLocalElementMatrixDoFs m p rows g e s = for_each (objects_of_element m e) (fun o => addLocal m p rows g (fst o) (snd o)) s).
  { unfold addLocalElementMatrixDoFs, objects_of_element. cbn [for_each fst snd]. unfold bind.
    destruct (addLocal m p rows g KElement e s) as [s1|]; [|reflexivity].
    rewrite for_each_app, for_each_map. unfold bind. destruct (for_each (objectsOf m KFace e) _ s1) as [s2|]; [|reflexivity].
    rewrite for_each_app, for_each_map. unfold bind. destruct (for_each (objectsOf m KEdge e) _ s2) as [s3|]; [|reflexivity].
    destruct (1 <? dimension m); [rewrite for_each_map|]; reflexivity. }
  rewrite E. apply (for_each_rel (fun _ => True) relS (fun o t => exists u, In u us /\ Qu (fst o) (snd o) u t)); [|exact I].
  intros (k, x) s1 Ho _. unfold addLocal. rewrite g_us.
  apply (for_each_rel (fun _ => True) relS (fun u t => Qu k x u t)); [|exact I].
  intros u s2 Hu _. apply (addLocalUnknown_ok e); assumption.
Qed.
Lemma leftRight_ok x e : two_sided m -> In e (elementsOf m KFace x) -> visible m p e = true ->
  exists l r, leftAndRight m p x = Some (l, r) /\ In l (elementsOf m KFace x) /\ visible m p l = true /\
    (forall e', In e' (elementsOf m KFace x) -> visible m p e' = true -> e' = l \/ r = Some e') /\
    (forall e', r = Some e' -> In e' (elementsOf m KFace x) /\ visible m p e' = true).
Proof.
  intros T He Hv. unfold leftAndRight. specialize (T x).
  assert (HF : forall e', In e' (filter (visible m p) (elementsOf m KFace x)) <-> In e' (elementsOf m KFace x) /\ visible m p e' = true)
    by (intros e'; apply filter_In).
  assert (L : length (filter (visible m p) (elementsOf m KFace x)) <= 2).
  { etransitivity; [|exact T]. clear. induction (elementsOf m KFace x) as [|y l IH]; cbn; [lia|]. destruct (visible m p y); cbn; lia. }
  destruct (filter (visible m p) (elementsOf m KFace x)) as [|l [|r [|q t]]].
  - exfalso. apply (HF e). split; assumption.
  - exists l, None. split; [reflexivity|]. destruct (proj1 (HF l) (or_introl eq_refl)) as (A & B). split; [exact A|]. split; [exact B|].
    split; [|discriminate]. intros e' H1 H2. destruct (proj2 (HF e') (conj H1 H2)) as [<-|[]]. left. reflexivity.
  - exists l, (Some r). split; [reflexivity|]. destruct (proj1 (HF l) (or_introl eq_refl)) as (A & B). split; [exact A|]. split; [exact B|]. split.
    + intros e' H1 H2. destruct (proj2 (HF e') (conj H1 H2)) as [<-|[<-|[]]]; [left|right]; reflexivity.
    + intros e' E. injection E as <-. apply HF. right. left. reflexivity.
  - cbn in L. lia.
Qed.
Lemma face_elements x e : In e (elementsOf m KFace x) -> In e (elements m).
Proof. apply (vm_adjacent_exist _ _ VM KFace e x). discriminate. Qed.
Lemma addFace_ok x e s : two_sided m -> In e (elementsOf m KFace x) -> visible m p e = true ->
  exists s', addLocalFaceMatrixDoFs m p rows g x s = Some s' /\ True /\ forall t, relS s' t <-> relS s t \/ QF x t.
Proof.
  intros T He Hv. destruct (leftRight_ok x e T He Hv) as (l & r & E & Hl & Vl & HA & HB).
  unfold addLocalFaceMatrixDoFs. rewrite E. cbn [bind fst snd].
  destruct (addElement_ok l s (face_elements x l Hl) Vl) as (s1 & E1 & _ & R1). rewrite E1. cbn [bind].
  destruct r as [r|].
  - destruct (HB r eq_refl) as (Hr & Vr). destruct (addElement_ok r s1 (face_elements x r Hr) Vr) as (s2 & E2 & _ & R2).
    exists s2. split; [exact E2|]. split; [exact I|]. intros t. rewrite R2, R1. unfold QF. split.
    + intros [[H|H]|H]; [left; exact H|right; exists l; tauto|right; exists r; tauto].
    + intros [H|(e' & H1 & H2 & H)]; [tauto|]. destruct (HA e' H1 H2) as [->|E']; [tauto|]. injection E' as ->. tauto.
  - exists s1. split; [reflexivity|]. split; [exact I|]. intros t. rewrite R1. unfold QF. split.
    + intros [H|H]; [left; exact H|right; exists l; tauto].
    + intros [H|(e' & H1 & H2 & H)]; [tauto|]. destruct (HA e' H1 H2) as [->|E']; [tauto|]. discriminate.
Qed.
Lemma clear_rel s t : relS (clear s) t <-> match t with inl _ => relS s t | inr _ => False end.
Proof. destruct t as [u|((b, u), iv)]; cbn; [tauto|]. destruct b; cbn; tauto. Qed.
End Side.

(** * Both sides *)
Section Estimate.
Variables (gr gc : GlobalIndexing) (usr usc : list nat) (idr idc : Kind -> nat -> nat -> nat) (faceCoupling : nat -> nat -> bool).
Hypothesis r_us : includedUnknowns_ gr = usr.
Hypothesis c_us : includedUnknowns_ gc = usc.
Hypothesis r_idx : forall e k x u, In e (elements m) -> visible m p e = true -> In (k, x) (objects_of_element m e) -> In u usr ->
  size k x u <> 0 -> isOwned m p k x = true ->
  match getProcessorLocalIndex gr k x u with Some z => if (z <? 0)%Z then None else Some (Z.to_nat z) | None => None end = Some (idr k x u).
Hypothesis c_idx : forall e k x u, In e (elements m) -> visible m p e = true -> In (k, x) (objects_of_element m e) -> In u usc ->
  size k x u <> 0 -> getGlobalIndex gc k x u = Some (idc k x u).
Hypothesis TS : two_sided m.

Definition isRow (row : interval) : Prop :=
  exists e k x u, In e (elements m) /\ visible m p e = true /\ In (k, x) (objects_of_element m e) /\ In u usr /\ size k x u <> 0 /\
    isOwned m p k x = true /\ row = (idr k x u, size k x u).
Notation QEr := (QE true usr idr).
Notation QEc := (QE false usc idc).
Notation QFr := (QF true usr idr).
Notation QFc := (QF false usc idc).
Lemma r_ok : forall e k x u, In e (elements m) -> visible m p e = true -> In (k, x) (objects_of_element m e) -> In u usr ->
  size k x u <> 0 -> (true = true -> isOwned m p k x = true) ->
  (if true then match getProcessorLocalIndex gr k x u with Some z => if (z <? 0)%Z then None else Some (Z.to_nat z) | None => None end
   else getGlobalIndex gr k x u) = Some (idr k x u).
Proof. intros e k x u H1 H2 H3 H4 H5 H6. apply (r_idx e); try assumption. apply H6. reflexivity. Qed.
Lemma c_ok : forall e k x u, In e (elements m) -> visible m p e = true -> In (k, x) (objects_of_element m e) -> In u usc ->
  size k x u <> 0 -> (false = true -> isOwned m p k x = true) ->
  (if false then match getProcessorLocalIndex gc k x u with Some z => if (z <? 0)%Z then None else Some (Z.to_nat z) | None => None end
   else getGlobalIndex gc k x u) = Some (idc k x u).
Proof. intros e k x u H1 H2 H3 H4 H5 H6. apply (c_idx e); assumption. Qed.
Lemma QEr_row e u r : In e (elements m) -> visible m p e = true -> QEr e (inr (true, u, r)) -> isRow r.
Proof.
  intros He Hv ((k, x) & Ho & v & Hu & Hs & -> & Hb & _ & ->). exists e, k, x, v. cbn [fst snd] in *.
  split; [exact He|]. split; [exact Hv|]. split; [exact Ho|]. split; [exact Hu|]. split; [exact Hs|]. split; [symmetry; exact Hb|reflexivity].
Qed.

Inductive tag := Flag (u : nat) | Distributed | Coupled (b : bool) (r c : interval).
Definition stateF := (side * side * couplings * couplings * bool)%type.
Definition relF (s : stateF) (t : tag) : Prop :=
  let '(rd, cd, o, no, dm) := s in
  match t with
  | Flag u => isOnlyElementBased rd u = false
  | Distributed => dm = true
  | Coupled b r c => rel (if b then o else no) (r, c)
  end.
Definition invF (s : stateF) : Prop := let '(rd, cd, o, no, dm) := s in good isRow o /\ good isRow no.
Definition relE (s : side * side * couplings * couplings) (t : tag) : Prop := relF (s, false) t.
Definition invE (s : side * side * couplings * couplings) : Prop := invF (s, false).

Definition QCE (e : nat) (t : tag) : Prop :=
  match t with
  | Flag u => QEr e (inl u)
  | Distributed => False
  | Coupled b r c => exists u v, In u usr /\ In v usc /\ QEr e (inr (true, u, r)) /\ QEc e (inr (b, v, c))
  end.
Definition QCF (x : nat) (t : tag) : Prop :=
  match t with
  | Flag u => QFr x (inl u)
  | Distributed => isSubdomainBoundary m p x = true
  | Coupled b r c => exists i j u v, nth_error usr i = Some u /\ nth_error usc j = Some v /\ faceCoupling i j = true /\
      QFr x (inr (true, u, r)) /\ QFc x (inr (b, v, c))
  end.
Lemma in_numbered (l : list nat) i u : In (i, u) (combine (seq 0 (length l)) l) <-> nth_error l i = Some u.
Proof.
  assert (H : forall a, In (i, u) (combine (seq a (length l)) l) <-> a <= i /\ nth_error l (i - a) = Some u).
  { induction l as [|x l IH]; intros a; cbn [length seq combine In].
    - split; [intros []|]. intros (_ & E). destruct (i - a); discriminate.
    - rewrite IH. split.
      + intros [E|(L & E)]; [injection E as <- <-; rewrite Nat.sub_diag; split; [lia|reflexivity]|].
        split; [lia|]. replace (i - a) with (S (i - S a)) by lia. exact E.
      + intros (L & E). destruct (Nat.eq_dec a i) as [->|N].
        * rewrite Nat.sub_diag in E. injection E as ->. left. reflexivity.
        * right. split; [lia|]. replace (i - a) with (S (i - S a)) in E by lia. exact E. }
  rewrite H, Nat.sub_0_r. split; [tauto|]. intros E. split; [lia|exact E].
Qed.

Lemma coupleElement_ok e s : In e (elements m) -> visible m p e = true -> invE s ->
  exists s', coupleElement m p gr gc e s = Some s' /\ invE s' /\ forall t, relE s' t <-> relE s t \/ QCE e t.
Proof.
  destruct s as (((rd, cd), o), no). intros He Hv (G1 & G2). unfold coupleElement.
  destruct (addElement_ok true gr usr idr r_us r_ok e (clear rd) He Hv) as (rd' & Er & _ & Rr). rewrite Er. cbn [bind].
  destruct (addElement_ok false gc usc idc c_us c_ok e (clear cd) He Hv) as (cd' & Ec & _ & Rc). rewrite Ec. cbn [bind].
  rewrite r_us, c_us.
  set (f := fun c rowUnknown => fold_left _ usc c).
  destruct (fold_rel (good2 isRow) rel2 (fun u x => exists v, In v usc /\
      In (fst (snd x)) (ownedIntervals rd' u) /\ In (snd (snd x)) (cols2 (ownedIntervals cd' v) (nonOwnedIntervals cd' v) (fst x))) f usr)
    with (s := (o, no)) as (GI & GR); [|split; assumption|].
  { intros u c Hu Gc. unfold f.
    apply (fold_rel (good2 isRow) rel2 (fun v x => In (fst (snd x)) (ownedIntervals rd' u) /\
      In (snd (snd x)) (cols2 (ownedIntervals cd' v) (nonOwnedIntervals cd' v) (fst x)))); [|exact Gc].
    intros v c1 Hv1 Gc1. apply rows_range; [|exact Gc1]. intros row Hrow. apply (QEr_row e u row He Hv).
    destruct (proj1 (Rr (inr (true, u, row))) Hrow) as [H|H]; [|exact H]. apply clear_rel in H. destruct H. }
  fold f. destruct (fold_left f usr (o, no)) as (o', no').
  eexists. split; [reflexivity|]. split; [exact GI|]. intros t. destruct t as [u| |b r c]; cbn [relE relF QCE].
  - rewrite (Rr (inl u)), clear_rel. cbn. tauto.
  - tauto.
  - specialize (GR (b, (r, c))). unfold rel2 in GR. cbn [fst snd] in GR. rewrite GR. split.
    + intros [H|(u & Hu & v & Hv1 & A & B)]; [left; exact H|right]. exists u, v. split; [exact Hu|]. split; [exact Hv1|]. split.
      * destruct (proj1 (Rr (inr (true, u, r))) A) as [H|H]; [apply clear_rel in H; destruct H|exact H].
      * assert (B' : relS cd' (inr (b, v, c))) by (destruct b; exact B).
        destruct (proj1 (Rc _) B') as [H|H]; [apply clear_rel in H; destruct H|exact H].
    + intros [H|(u & v & Hu & Hv1 & A & B)]; [left; exact H|right]. exists u. split; [exact Hu|]. exists v. split; [exact Hv1|]. split.
      * apply (Rr (inr (true, u, r))). right. exact A.
      * assert (B' : relS cd' (inr (b, v, c))) by (apply Rc; right; exact B). destruct b; exact B'.
Qed.

Lemma coupleFace_ok x e s : In e (elementsOf m KFace x) -> visible m p e = true -> invF s ->
  exists s', coupleFace m p gr gc faceCoupling x s = Some s' /\ invF s' /\ forall t, relF s' t <-> relF s t \/ QCF x t.
Proof.
  destruct s as ((((rd, cd), o), no), dm). intros He Hv (G1 & G2). unfold coupleFace.
  destruct (addFace_ok true gr usr idr r_us r_ok x e (clear rd) TS He Hv) as (rd' & Er & _ & Rr). rewrite Er. cbn [bind].
  destruct (addFace_ok false gc usc idc c_us c_ok x e (clear cd) TS He Hv) as (cd' & Ec & _ & Rc). rewrite Ec. cbn [bind].
  rewrite r_us, c_us.
  set (lr := combine (seq 0 (length usr)) usr). set (lc := combine (seq 0 (length usc)) usc).
  set (f := fun c (ru : nat * nat) => fold_left _ lc c).
  destruct (fold_rel (good2 isRow) rel2 (fun (ru : nat * nat) y => exists cu : nat * nat, In cu lc /\ faceCoupling (fst ru) (fst cu) = true /\
      In (fst (snd y)) (ownedIntervals rd' (snd ru)) /\ In (snd (snd y)) (cols2 (ownedIntervals cd' (snd cu)) (nonOwnedIntervals cd' (snd cu)) (fst y))) f lr)
    with (s := (o, no)) as (GI & GR); [|split; assumption|].
  { intros ru c Hu Gc. unfold f.
    apply (fold_rel (good2 isRow) rel2 (fun (cu : nat * nat) y => faceCoupling (fst ru) (fst cu) = true /\ In (fst (snd y)) (ownedIntervals rd' (snd ru)) /\
      In (snd (snd y)) (cols2 (ownedIntervals cd' (snd cu)) (nonOwnedIntervals cd' (snd cu)) (fst y)))); [|exact Gc].
    intros cu c1 Hv1 Gc1. destruct (faceCoupling (fst ru) (fst cu)).
    - destruct (rows_each isRow (ownedIntervals cd' (snd cu)) (nonOwnedIntervals cd' (snd cu)) (ownedIntervals rd' (snd ru))) with (c := c1) as (A1 & A2).
      + intros row Hrow. destruct (proj1 (Rr (inr (true, snd ru, row))) Hrow) as [H|(e1 & H1 & H2 & H)]; [apply clear_rel in H; destruct H|].
        apply (QEr_row e1 (snd ru) row); [apply (face_elements x), H1|exact H2|exact H].
      + exact Gc1.
      + split; [exact A1|]. intros y. rewrite A2. tauto.
    - split; [exact Gc1|]. intros y. split; [tauto|]. intros [H|(H & _)]; [exact H|discriminate]. }
  fold f. destruct (fold_left f lr (o, no)) as (o', no').
  eexists. split; [reflexivity|]. split; [exact GI|]. intros t. destruct t as [u| |b r c]; cbn [relF QCF].
  - rewrite (Rr (inl u)), clear_rel. cbn. tauto.
  - destruct (isSubdomainBoundary m p x); intuition congruence.
  - specialize (GR (b, (r, c))). unfold rel2 in GR. cbn [fst snd] in GR. rewrite GR. split.
    + intros [H|((i, u) & Hu & (j, v) & Hv1 & FC & A & B)]; [left; exact H|right]. cbn [fst snd] in *. apply in_numbered in Hu, Hv1.
      exists i, j, u, v. split; [exact Hu|]. split; [exact Hv1|]. split; [exact FC|]. split.
      * destruct (proj1 (Rr (inr (true, u, r))) A) as [H|H]; [apply clear_rel in H; destruct H|exact H].
      * assert (B' : relS cd' (inr (b, v, c))) by (destruct b; exact B).
        destruct (proj1 (Rc _) B') as [H|H]; [apply clear_rel in H; destruct H|exact H].
    + intros [H|(i & j & u & v & Hu & Hv1 & FC & A & B)]; [left; exact H|right]. exists (i, u). split; [apply in_numbered, Hu|].
      exists (j, v). split; [apply in_numbered, Hv1|]. split; [exact FC|]. cbn [fst snd]. split.
      * apply (Rr (inr (true, u, r))). right. exact A.
      * assert (B' : relS cd' (inr (b, v, c))) by (apply Rc; right; exact B). destruct b; exact B'.
Qed.

(** * The estimate *)
Variables (allElements faces : list nat).
Hypothesis LL : local_lists m p allElements faces.
Definition QAll (t : tag) : Prop :=
  (exists e, In e (elements m) /\ visible m p e = true /\ QCE e t) \/
  ((exists i j, i < length usr /\ j < length usc /\ faceCoupling i j = true) /\
   exists x, (exists e, In e (elementsOf m KFace x) /\ visible m p e = true) /\ QCF x t).
Variable total : nat.
Hypothesis r_total : localNumberOfBasisFunctions_ gr = total.
Hypothesis row_bound : forall row, isRow row -> fst row + snd row <= total.
Hypothesis row_disjoint : forall row row' j, isRow row -> isRow row' ->
  fst row <= j < fst row + snd row -> fst row' <= j < fst row' + snd row' -> row = row'.

Lemma estimate_ok : exists o no : couplings,
  (forall (b : bool) r c, rel (if b then o else no) (r, c) <-> QAll (Coupled b r c)) /\
  good isRow o /\ good isRow no /\
  match computeSparsityEstimate m p gr gc (length usr) (length usc) faceCoupling allElements faces with
  | None => exists i j, i < length usr /\ j < length usc /\ faceCoupling i j = true /\ QAll Distributed /\ QAll (Flag i)
  | Some est => length (fst est) = total /\ length (snd est) = total /\
      (total <> 0 -> forall i j, i < length usr -> j < length usc -> faceCoupling i j = true -> QAll Distributed -> ~ QAll (Flag i)) /\
      forall row j, isRow row -> fst row <= j < fst row + snd row ->
        nth_error (fst est) j = Some (sizes (lookup row o)) /\ nth_error (snd est) j = Some (sizes (lookup row no))
  end.
Proof.
  destruct LL as (LE & LF).
  destruct (for_each_rel invE relE QCE (coupleElement m p gr gc) allElements) with (s := (newSide, newSide, @nil (interval * intervals), @nil (interval * intervals)))
    as (s1 & E1 & I1 & R1).
  { intros e s He Hs. apply LE in He. destruct He as (He & Hv). apply coupleElement_ok; assumption. }
  { split; apply good_nil. }
  destruct s1 as (((rd1, cd1), o1), no1).
  set (any := existsb (fun ri => existsb (fun ci => faceCoupling ri ci) (seq 0 (length usc))) (seq 0 (length usr))).
  assert (HAny : any = true <-> exists i j, i < length usr /\ j < length usc /\ faceCoupling i j = true).
  { unfold any. rewrite existsb_exists. split.
    - intros (i & Hi & E). apply existsb_exists in E. destruct E as (j & Hj & E). apply in_seq in Hi, Hj. exists i, j. split; [lia|]. split; [lia|exact E].
    - intros (i & j & Hi & Hj & E). exists i. split; [apply in_seq; lia|]. apply existsb_exists. exists j. split; [apply in_seq; lia|exact E]. }
  assert (HF : exists s2, (if any then for_each faces (coupleFace m p gr gc faceCoupling) (rd1, cd1, o1, no1, false) else Some (rd1, cd1, o1, no1, false)) = Some s2 /\
    invF s2 /\ forall t, relF s2 t <-> QAll t).
  { assert (R0 : forall t, relF (rd1, cd1, o1, no1, false) t <-> exists e, In e (elements m) /\ visible m p e = true /\ QCE e t).
    { intros t. change (relE (rd1, cd1, o1, no1) t <-> exists e, In e (elements m) /\ visible m p e = true /\ QCE e t).
      rewrite R1. split.
      - intros [H|(e & He & H)]; [|exists e; apply LE in He; tauto]. exfalso.
        destruct t as [u| |b r c]; cbn in H; try discriminate. destruct b; cbn in H; exact H.
      - intros (e & He & Hv & H). right. exists e. split; [apply LE; split; assumption|exact H]. }
    destruct any.
    - destruct (for_each_rel invF relF QCF (coupleFace m p gr gc faceCoupling) faces) with (s := (rd1, cd1, o1, no1, false)) as (s2 & E2 & I2 & R2).
      + intros x s Hx Hs. apply LF in Hx. destruct Hx as (e & He & Hv & Hx). apply (vm_adjacency _ _ VM KFace e x) in Hx; [|discriminate|exact He].
        apply (coupleFace_ok x e); assumption.
      + exact I1.
      + exists s2. split; [exact E2|]. split; [exact I2|]. intros t. rewrite R2, R0. unfold QAll. split.
        * intros [H|(x & Hx & H)]; [left; exact H|right]. split; [apply HAny; reflexivity|]. exists x. split; [|exact H].
          apply LF in Hx. destruct Hx as (e & He & Hv & Hx). exists e. split; [|exact Hv]. apply (vm_adjacency _ _ VM KFace e x); [discriminate|exact He|exact Hx].
        * intros [H|(_ & x & (e & He & Hv) & H)]; [left; exact H|right]. exists x. split; [|exact H]. apply LF. exists e.
          split; [apply (face_elements x), He|]. split; [exact Hv|]. apply (vm_adjacency _ _ VM KFace e x); [discriminate|apply (face_elements x), He|exact He].
    - exists (rd1, cd1, o1, no1, false). split; [reflexivity|]. split; [exact I1|]. intros t. rewrite R0. unfold QAll. split; [tauto|].
      intros [H|(H & _)]; [exact H|]. apply HAny in H. discriminate. }
  destruct HF as (s2 & E2 & I2 & R2). destruct s2 as ((((rd, cd), o), no), dm). destruct I2 as (G1 & G2).
  exists o, no. split; [intros b r c; exact (R2 (Coupled b r c))|]. split; [exact G1|]. split; [exact G2|].
  unfold computeSparsityEstimate. rewrite r_us, c_us, !Nat.eqb_refl, r_total. cbn [andb negb].
  destruct (writeRows_ok total isRow o G1 row_bound row_disjoint) as (v & Ev & Lv & V).
  destruct (writeRows_ok total isRow no G2 row_bound row_disjoint) as (v' & Ev' & Lv' & V').
  destruct (Nat.eqb_spec total 0) as [ET|ET].
  { cbn [fst snd]. rewrite repeat_length. split; [reflexivity|]. split; [reflexivity|]. split; [contradiction|].
    intros row j HR Hj. pose proof (row_bound row HR). lia. }
  rewrite E1. cbn [bind]. fold any. rewrite E2. cbn [bind].
  set (chk := existsb (fun i => existsb (fun j => faceCoupling i j && negb (isOnlyElementBased rd i)) (seq 0 (length usc))) (seq 0 (length usr))).
  assert (HChk : chk = true <-> exists i j, i < length usr /\ j < length usc /\ faceCoupling i j = true /\ QAll (Flag i)).
  { unfold chk. rewrite existsb_exists. split.
    - intros (i & Hi & E). apply existsb_exists in E. destruct E as (j & Hj & E). apply in_seq in Hi, Hj. apply andb_prop in E. destruct E as (Ea & Eb).
      apply negb_true_iff in Eb. exists i, j. split; [lia|]. split; [lia|]. split; [exact Ea|]. apply R2. exact Eb.
    - intros (i & j & Hi & Hj & E & F). exists i. split; [apply in_seq; lia|]. apply existsb_exists. exists j. split; [apply in_seq; lia|].
      rewrite E. apply R2 in F. cbn in F. rewrite F. reflexivity. }
  pose proof (R2 Distributed) as RD. cbn in RD.
  destruct dm.
  - cbn [andb]. destruct chk.
    + destruct (proj1 HChk eq_refl) as (i & j & Hi & Hj & E & F). exists i, j. split; [exact Hi|]. split; [exact Hj|]. split; [exact E|].
      split; [apply RD; reflexivity|exact F].
    + rewrite Ev. cbn [bind]. rewrite Ev'. cbn [bind fst snd]. split; [exact Lv|]. split; [exact Lv'|]. split.
      * intros _ i j Hi Hj E _ F. assert (X : false = true) by (apply HChk; exists i, j; tauto). discriminate.
      * intros row j HR Hj. split; [apply V|apply V']; assumption.
  - cbn [andb]. rewrite Ev. cbn [bind]. rewrite Ev'. cbn [bind fst snd]. split; [exact Lv|]. split; [exact Lv'|]. split.
    + intros _ i j Hi Hj E HD. apply RD in HD. discriminate.
    + intros row j HR Hj. split; [apply V|apply V']; assumption.
Qed.
End Estimate.
End On.
