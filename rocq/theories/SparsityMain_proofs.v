(** The sparsity estimate and the assembly of matrices: the theorems and the examples. *)
From Coq Require Import List Arith ZArith Lia Bool Sorting.Sorted.
From Verif Require Import Loop_model Loop_proofs StdMap_model StdMap_proofs GlobalIndexing_model GlobalIndexing_spec GlobalIndexing_proofs
  Sparsity_model Sparsity_spec Sparsity_proofs SparsityLoop_proofs SparsityCount_proofs.
From Verif Require IndexExchange_model IndexExchange_spec IndexExchange_proofs.
Import ListNotations.

Section Main.
Variables (m : Mesh) (n p : nat) (lr lc : Layout) (ur uc : option (list nat)) (rr rc : nat -> GlobalIndexing) (gr gc : GlobalIndexing)
  (faceCoupling : nat -> nat -> bool) (allElements faces : list nat).
Hypothesis VM : valid_mesh n m.
Hypothesis NDr : NoDup (included m ur).
Hypothesis NDc : NoDup (included m uc).
Hypothesis VUr : valid_unknowns m ur.
Hypothesis VUc : valid_unknowns m uc.
Hypothesis IXr : indexing m n lr ur rr.
Hypothesis IXc : indexing m n lc uc rc.
Hypothesis Hp : p < n.
Hypothesis INr : informed m rr p gr.
Hypothesis INc : informed m rc p gc.
Hypothesis KL : keeps_local (rr p) gr.
Hypothesis TS : two_sided m.
Hypothesis LL : local_lists m p allElements faces.
Notation may := (allowed (includedUnknowns_ gr) (includedUnknowns_ gc) faceCoupling).
Notation compute := (computeSparsityEstimate m p gr gc (length (includedUnknowns_ gr)) (length (includedUnknowns_ gc)) faceCoupling allElements faces).

Lemma exact_if_sees est : compute = Some est -> sees_coupled m p may -> exact_estimate m p may (included m ur) (included m uc) gr est.
Proof.
  intros E SC. destruct (any_layout m n ur rr VM NDr VUr lr IXr) as (Gr & Lr & Dr & Fr).
  destruct (any_layout m n uc rc VM NDc VUc lc IXc) as (Gc & Lc & Dc & Fc).
  pose proof (estimate_exact m n p ur uc rr rc gr gc faceCoupling allElements faces VM Hp INr INc KL TS LL Gr Gc Lr Lc Dr Dc Fr Fc) as H.
  rewrite E in H. apply H. intros _. exact SC.
Qed.
Lemma sees_element_based : (forall u v, may u v -> element_based m u) -> sees_coupled m p may.
Proof.
  intros H u v k y x e e' HM (e0 & Hh & HO) Hs Ho He He'. pose proof (face_elements m n VM x e He) as He1.
  destruct (kind_eq_dec k KElement) as [->|Hk].
  - cbn in Hh. injection Hh as <-. apply IndexExchange_proofs.in_objects in Ho. destruct Ho as [(_ & ->)|(N & _)]; [|congruence].
    rewrite <- HO. apply (vm_shadow _ _ VM KFace x e e'); [discriminate|exact He|exact He'].
  - rewrite (H u v HM k y) in Hs; [lia| |exact Hk]. apply (on_object m n VM e); assumption.
Qed.
Lemma nth_seq a k i u : nth_error (seq a k) i = Some u -> u = a + i.
Proof.
  revert a i; induction k as [|k IH]; intros a i E; cbn in E; [destruct i; discriminate|].
  destruct i as [|i]; cbn in E; [injection E as <-; lia|]. apply IH in E. lia.
Qed.
Lemma boundary_seen x e e' : In e (elementsOf m KFace x) -> In e' (elementsOf m KFace x) -> owner m e = p -> owner m e' <> p ->
  isSubdomainBoundary m p x = true.
Proof.
  intros He He' Ho Ho'. pose proof (face_elements m n VM x e He) as He1.
  assert (V : visible m p e = true) by (rewrite <- Ho; apply (vm_sees_own _ _ VM), He1).
  assert (V' : visible m p e' = true) by (rewrite <- Ho; apply (vm_shadow _ _ VM KFace x e e'); [discriminate|exact He|exact He']).
  destruct (leftRight_ok m p x e TS He V) as (l & r & E & _ & _ & HA & _). unfold isSubdomainBoundary. rewrite E.
  destruct (HA e He V) as [->|E1], (HA e' He' V') as [E2|E2]; subst; try contradiction.
  - destruct (Nat.eqb_spec (owner m e') (owner m l)); [congruence|]. destruct (owner m l =? owner m l); reflexivity.
  - destruct (Nat.eqb_spec (owner m l) (owner m e)); [congruence|]. reflexivity.
  - injection E2 as ->. congruence.
Qed.

Lemma exact_if_checked est : ur = None -> meets_along_face m p -> compute = Some est ->
  exact_estimate m p may (included m ur) (included m uc) gr est.
Proof.
  intros EU MF E. destruct (any_layout m n ur rr VM NDr VUr lr IXr) as (Gr & Lr & Dr & Fr).
  destruct (any_layout m n uc rc VM NDc VUc lc IXc) as (Gc & Lc & Dc & Fc).
  pose proof (estimate_exact m n p ur uc rr rc gr gc faceCoupling allElements faces VM Hp INr INc KL TS LL Gr Gc Lr Lc Dr Dc Fr Fc) as H.
  rewrite E in H. destruct H as (HN & H). apply H. intros HT. specialize (HN HT).
  intros u v k y x e e' HM HO Hs Ho He He'. pose proof (face_elements m n VM x e He) as He1.
  destruct (on_adjacent m n VM e k y He1 Ho) as (_ & HA). pose proof (owned_sees m n p VM k y e He1 HA HO) as Ve.
  destruct (Nat.eq_dec (owner m e) p) as [<-|NO].
  { apply (vm_shadow _ _ VM KFace x e e'); [discriminate|exact He|exact He']. }
  exfalso. apply HN. destruct HM as (i & j & Hi & Hj & FC).
  pose proof (gr_us m n p ur rr gr Hp INr Gr Lr Dr Fr) as EGr. pose proof (gc_us m n p uc rc gc Hp INc Gc Lc Dc Fc) as EGc.
  rewrite EGr in Hi. rewrite EGc in Hj.
  assert (Li : i < length (sortedUnknowns m ur)) by (apply nth_error_Some; congruence).
  assert (Lj : j < length (sortedUnknowns m uc)) by (apply nth_error_Some; congruence).
  exists i, j. split; [exact Li|]. split; [exact Lj|]. split; [exact FC|]. split.
  - right. split; [exists i, j; tauto|]. destruct (MF (ex_intro _ e (conj He1 (conj Ve NO)))) as (x0 & e1 & e2 & H1 & H2 & O1 & O2).
    exists x0. split; [|apply (boundary_seen x0 e1 e2); assumption].
    exists e1. split; [exact H1|]. rewrite <- O1. apply (vm_sees_own _ _ VM), (face_elements m n VM x0), H1.
  - assert (EI : i = u). { rewrite EU in Hi. cbn in Hi. apply nth_seq in Hi. lia. }
    left. exists e. split; [exact He1|]. split; [exact Ve|]. exists (k, y). split; [exact Ho|]. exists u. split; [apply nth_error_In in Hi; exact Hi|].
    cbn [fst snd]. split; [lia|]. split; [exact EI|]. intros ->. apply NO. destruct HO as (e0 & Hh & <-). cbn in Hh. injection Hh as <-.
    destruct HA as [<-|[]]. reflexivity.
Qed.
Lemma succeeds_if_element_based : ur = None -> (forall u v, may u v -> element_based m u) -> exists est, compute = Some est.
Proof.
  intros EU EB. destruct (any_layout m n ur rr VM NDr VUr lr IXr) as (Gr & Lr & Dr & Fr).
  destruct (any_layout m n uc rc VM NDc VUc lc IXc) as (Gc & Lc & Dc & Fc).
  pose proof (estimate_exact m n p ur uc rr rc gr gc faceCoupling allElements faces VM Hp INr INc KL TS LL Gr Gc Lr Lc Dr Dc Fr Fc) as H.
  destruct compute as [est|]; [exists est; reflexivity|]. exfalso. destruct H as (i & j & Hi & Hj & FC & _ & HFl).
  pose proof (gr_us m n p ur rr gr Hp INr Gr Lr Dr Fr) as EGr. pose proof (gc_us m n p uc rc gc Hp INc Gc Lc Dc Fc) as EGc.
  assert (HM : exists v, may i v).
  { destruct (nth_error (sortedUnknowns m ur) i) as [u|] eqn:Eu; [|apply nth_error_None in Eu; lia].
    destruct (nth_error (sortedUnknowns m uc) j) as [v|] eqn:Ev; [|apply nth_error_None in Ev; lia].
    assert (EI : i = u). { rewrite EU in Eu. cbn in Eu. apply nth_seq in Eu. lia. } subst u.
    exists v, i, j. rewrite EGr, EGc. tauto. }
  destruct HM as (v & HM).
  assert (HE : exists e, In e (elements m) /\ QE m p true (sortedUnknowns m ur) (idr m p Lr) e (inl i)).
  { destruct HFl as [(e & He & _ & Q)|(_ & x & _ & (e & He & _ & Q))]; exists e; (split; [|exact Q]); [exact He|apply (face_elements m n VM x), He]. }
  destruct HE as (e & He & (k, x) & Ho & u & Hu & Hs & -> & Hk). cbn [fst snd] in *. apply Hs, (EB u v HM k x); [|exact Hk].
  apply (on_object m n VM e); assumption.
Qed.
End Main.

Lemma one_process m lr lc ur uc rr rc faceCoupling allElements faces : valid_mesh 1 m -> NoDup (included m ur) -> NoDup (included m uc) ->
  valid_unknowns m ur -> valid_unknowns m uc -> indexing m 1 lr ur rr -> indexing m 1 lc uc rc -> two_sided m ->
  local_lists m 0 allElements faces ->
  exists est, computeSparsityEstimate m 0 (rr 0) (rc 0) (length (includedUnknowns_ (rr 0))) (length (includedUnknowns_ (rc 0))) faceCoupling allElements faces = Some est /\
    exact_estimate m 0 (allowed (includedUnknowns_ (rr 0)) (includedUnknowns_ (rc 0)) faceCoupling) (included m ur) (included m uc) (rr 0) est.
Proof.
  intros VM NDr NDc VUr VUc IXr IXc TS LL.
  pose proof (informed_one_process m lr ur rr VM NDr VUr IXr) as INr. pose proof (informed_one_process m lc uc rc VM NDc VUc IXc) as INc.
  assert (KL : keeps_local (rr 0) (rr 0)) by (split; [reflexivity|intros u; split; reflexivity]).
  destruct (any_layout m 1 ur rr VM NDr VUr lr IXr) as (Gr & Lr & Dr & Fr).
  destruct (any_layout m 1 uc rc VM NDc VUc lc IXc) as (Gc & Lc & Dc & Fc).
  pose proof (estimate_exact m 1 0 ur uc rr rc (rr 0) (rc 0) faceCoupling allElements faces VM Nat.lt_0_1 INr INc KL TS LL Gr Gc Lr Lc Dr Dc Fr Fc) as H.
  assert (O0 : forall e, In e (elements m) -> owner m e = 0) by (intros e He; pose proof (vm_owner _ _ VM e He); lia).
  assert (SC : sees_coupled m 0 (allowed (includedUnknowns_ (rr 0)) (includedUnknowns_ (rc 0)) faceCoupling)).
  { intros u v k y x e e' _ _ _ _ _ He'. pose proof (face_elements m 1 VM x e' He') as H1. rewrite <- (O0 e' H1). apply (vm_sees_own _ _ VM), H1. }
  destruct (computeSparsityEstimate _ _ _ _ _ _ _ _ _) as [est|].
  - exists est. split; [reflexivity|]. apply H. intros _. exact SC.
  - exfalso. destruct H as (i & j & _ & _ & _ & [(e & _ & _ & [])|(_ & x & _ & B)] & _). cbn in B. unfold isSubdomainBoundary in B.
    destruct (leftAndRight m 0 x) as [[l [r|]]|] eqn:E; try discriminate. unfold leftAndRight in E.
    assert (HI : forall e, In e (filter (visible m 0) (elementsOf m KFace x)) -> owner m e = 0).
    { intros e He. apply filter_In in He. apply O0, (face_elements m 1 VM x), He. }
    destruct (filter (visible m 0) (elementsOf m KFace x)) as [|a [|b [|c t]]]; try discriminate. injection E as -> ->.
    rewrite (HI l), (HI r) in B by (cbn; tauto). discriminate.
Qed.

(** * Assembly *)
Lemma in_dofs m us e d : In d (dofs_of_element m us e) <->
  on_element m e d /\ In (d_unknown d) us /\ d_fn d < localNumberOfBasisFunctions m (d_kind d) (d_id d) (d_unknown d).
Proof.
  unfold dofs_of_element, on_element. rewrite in_flat_map. split.
  - intros (u & Hu & H). apply in_flat_map in H. destruct H as ((k, x) & Ho & H). apply in_map_iff in H. destruct H as (i & <- & Hi).
    apply in_seq in Hi. cbn in *. split; [exact Ho|]. split; [exact Hu|lia].
  - intros (Ho & Hu & Hf). exists (d_unknown d). split; [exact Hu|]. apply in_flat_map. exists (d_kind d, d_id d). split; [exact Ho|].
    apply in_map_iff. exists (d_fn d). split; [destruct d; reflexivity|]. apply in_seq. cbn. lia.
Qed.
Lemma Forall2_right {A B} (R : A -> B -> Prop) l l' b : Forall2 R l l' -> In b l' -> exists a, In a l /\ R a b.
Proof.
  induction 1 as [|a b' l l' H F IH]; intros Hi; [destruct Hi|]. destruct Hi as [->|Hi]; [exists a; split; [left; reflexivity|exact H]|].
  destruct (IH Hi) as (a' & Ha & Hr). exists a'. split; [right; exact Ha|exact Hr].
Qed.
Lemma Forall2_left {A B} (R : A -> B -> Prop) l l' a : Forall2 R l l' -> In a l -> exists b, In b l' /\ R a b.
Proof.
  induction 1 as [|a' b l l' H F IH]; intros Hi; [destruct Hi|]. destruct Hi as [->|Hi]; [exists b; split; [left; reflexivity|exact H]|].
  destruct (IH Hi) as (b' & Hb & Hr). exists b'. split; [right; exact Hb|exact Hr].
Qed.
Section Indices.
Variables (m : Mesh) (n : nat) (layout : Layout) (unk : option (list nat)) (r : nat -> GlobalIndexing) (total : nat -> nat -> nat).
Hypothesis VM : valid_mesh n m.
Hypothesis ND : NoDup (included m unk).
Hypothesis VU : valid_unknowns m unk.
Hypothesis IX : indexing m n layout unk r.
Hypothesis CA : counts_all m total.
Lemma element_has q g e l d i : q < n -> informed m r q g -> In e (elements m) -> visible m q e = true -> is_dof m (included m unk) d ->
  numbered m r d i -> getGlobalIndicesOfElement m g total e [] = Some l -> (In i l <-> on_element m e d).
Proof.
  intros Hq IN He Hv Hd Hn E.
  destruct (element_indices m n layout unk r q g total e [] VM ND VU IX Hq IN CA He Hv) as (l' & E' & _ & us & _ & Hus & F).
  rewrite E in E'. injection E' as <-.
  destruct (bijection m n layout unk r VM ND VU IX) as (N & _ & _ & HF & HJ & _). split.
  - intros Hi. destruct (Forall2_right _ _ _ i F Hi) as (d1 & Hd1 & Hn1). apply in_dofs in Hd1. destruct Hd1 as (On & Hu & Hf).
    assert (Hdof : is_dof m (included m unk) d1).
    { split; [apply (on_object m n VM e); assumption|]. split; [apply Hus, Hu|exact Hf]. }
    rewrite (HJ d d1 i Hd Hdof Hn Hn1). exact On.
  - intros On. assert (Hi : In d (dofs_of_element m us e)).
    { apply in_dofs. split; [exact On|]. destruct Hd as (_ & Hu & Hf). split; [apply Hus, Hu|exact Hf]. }
    destruct (Forall2_left _ _ _ d F Hi) as (j & Hj & Hn1). rewrite (HF d i j Hd Hn Hn1). exact Hj.
Qed.
Lemma element_some q g e : q < n -> informed m r q g -> In e (elements m) -> visible m q e = true ->
  exists l, getGlobalIndicesOfElement m g total e [] = Some l.
Proof.
  intros Hq IN He Hv. destruct (element_indices m n layout unk r q g total e [] VM ND VU IX Hq IN CA He Hv) as (l & E & _). exists l. exact E.
Qed.
Lemma face_has q g x l rt : q < n -> informed m r q g -> leftAndRight m q x = Some (l, rt) ->
  exists is, getGlobalIndicesOfFace m g total l rt [] = Some is /\
  forall d i, is_dof m (included m unk) d -> numbered m r d i ->
    (In i is <-> exists e, In e (elementsOf m KFace x) /\ visible m q e = true /\ on_element m e d).
Proof.
  intros Hq IN E. unfold leftAndRight in E.
  assert (HF : forall e, In e (filter (visible m q) (elementsOf m KFace x)) <-> In e (elementsOf m KFace x) /\ visible m q e = true)
    by (intros e; apply filter_In).
  assert (HE : forall e, In e (filter (visible m q) (elementsOf m KFace x)) -> In e (elements m) /\ visible m q e = true).
  { intros e He. apply HF in He. split; [apply (face_elements m n VM x), He|apply He]. }
  destruct (filter (visible m q) (elementsOf m KFace x)) as [|a [|b [|c t]]] eqn:EF; try discriminate; injection E as <- <-.
  - destruct (HE a (or_introl eq_refl)) as (Ha & Va).
    destruct (face_indices m n layout unk r q g total a a [] [] [] VM ND VU IX Hq IN CA Ha Va Ha Va) as (left & right & E1 & _ & _ & E2).
    exists left. split; [exact E2|]. intros d i Hd Hn. rewrite (element_has q g a left d i) by assumption. split.
    + intros On. exists a. destruct (proj1 (HF a) (or_introl eq_refl)) as (A & B). tauto.
    + intros (e & H1 & H2 & On). destruct (proj2 (HF e) (conj H1 H2)) as [<-|[]]. exact On.
  - destruct (HE a (or_introl eq_refl)) as (Ha & Va). destruct (HE b (or_intror (or_introl eq_refl))) as (Hb & Vb).
    destruct (face_indices m n layout unk r q g total a b [] [] [] VM ND VU IX Hq IN CA Ha Va Hb Vb) as (left & right & E1 & E1' & E2 & _).
    exists (left ++ right). split; [exact E2|]. intros d i Hd Hn. rewrite in_app_iff, (element_has q g a left d i), (element_has q g b right d i) by assumption. split.
    + intros [On|On].
      * exists a. destruct (proj1 (HF a) (or_introl eq_refl)) as (A & B). tauto.
      * exists b. destruct (proj1 (HF b) (or_intror (or_introl eq_refl))) as (A & B). tauto.
    + intros (e & H1 & H2 & On). destruct (proj2 (HF e) (conj H1 H2)) as [<-|[<-|[]]]; tauto.
Qed.
End Indices.

Section Assembly.
Variables (m : Mesh) (n : nat) (lr lc : Layout) (ur uc : option (list nat)) (rr rc gr gc : nat -> GlobalIndexing) (total : nat -> nat -> nat).
Hypothesis VM : valid_mesh n m.
Hypothesis NDr : NoDup (included m ur).
Hypothesis NDc : NoDup (included m uc).
Hypothesis VUr : valid_unknowns m ur.
Hypothesis VUc : valid_unknowns m uc.
Hypothesis IXr : indexing m n lr ur rr.
Hypothesis IXc : indexing m n lc uc rc.
Hypothesis INr : forall q, q < n -> informed m rr q (gr q).
Hypothesis INc : forall q, q < n -> informed m rc q (gc q).
Hypothesis CA : counts_all m total.
Hypothesis TS : two_sided m.

Lemma inserts_element q e : q < n -> In e (elements m) -> visible m q e = true ->
  exists rows columns, insertsElement m (gr q) (gc q) total e = Some (rows, columns).
Proof.
  intros Hq He Hv. destruct (element_some m n lr ur rr total VM NDr VUr IXr CA q (gr q) e Hq (INr q Hq) He Hv) as (l1 & E1).
  destruct (element_some m n lc uc rc total VM NDc VUc IXc CA q (gc q) e Hq (INc q Hq) He Hv) as (l2 & E2).
  exists l1, l2. unfold insertsElement. rewrite E1. cbn [bind]. rewrite E2. reflexivity.
Qed.
Lemma inserts_face q x e : q < n -> In e (elementsOf m KFace x) -> visible m q e = true ->
  exists rows columns, insertsFace m q (gr q) (gc q) total x = Some (rows, columns).
Proof.
  intros Hq He Hv. unfold insertsFace. destruct (isOwned m q KFace x); cbn [negb]; [|eauto].
  destruct (leftRight_ok m q x e TS He Hv) as (l & r & E & _). rewrite E. cbn [bind fst snd].
  destruct (face_has m n lr ur rr total VM NDr VUr IXr CA q (gr q) x l r Hq (INr q Hq) E) as (is1 & E1 & _). rewrite E1. cbn [bind].
  destruct (face_has m n lc uc rc total VM NDc VUc IXc CA q (gc q) x l r Hq (INc q Hq) E) as (is2 & E2 & _). rewrite E2. cbn [bind]. eauto.
Qed.
Lemma inserted_iff may d d' : is_dof m (included m ur) d -> is_dof m (included m uc) d' ->
  (inserted m n rr rc gr gc total may d d' <-> coupled m may d d').
Proof.
  intros Hd Hd'. split.
  - intros (q & rows & cols & i & j & Hq & Hn & Hn' & Hi & Hj & [(e & He & E)|(HM & x & (e0 & He0 & Hv0) & E)]).
    + left. apply (vm_local _ _ VM) in He. destruct He as (He & HO).
      assert (Hv : visible m q e = true) by (rewrite <- HO; apply (vm_sees_own _ _ VM), He). exists e. split; [exact He|].
      unfold insertsElement in E.
      destruct (getGlobalIndicesOfElement m (gr q) total e []) as [l1|] eqn:E1; [|discriminate]. cbn [bind] in E.
      destruct (getGlobalIndicesOfElement m (gc q) total e []) as [l2|] eqn:E2; [|discriminate]. cbn [bind] in E. injection E as -> ->. split.
      * apply (element_has m n lr ur rr total VM NDr VUr IXr CA q (gr q) e rows d i Hq (INr q Hq) He Hv Hd Hn E1). exact Hi.
      * apply (element_has m n lc uc rc total VM NDc VUc IXc CA q (gc q) e cols d' j Hq (INc q Hq) He Hv Hd' Hn' E2). exact Hj.
    + right. split; [exact HM|]. unfold insertsFace in E.
      destruct (isOwned m q KFace x); cbn [negb] in E; [|injection E as <- <-; destruct Hi].
      destruct (leftAndRight m q x) as [(l, r)|] eqn:EL; [|discriminate]. cbn [bind fst snd] in E.
      destruct (face_has m n lr ur rr total VM NDr VUr IXr CA q (gr q) x l r Hq (INr q Hq) EL) as (is1 & E1 & F1).
      destruct (face_has m n lc uc rc total VM NDc VUc IXc CA q (gc q) x l r Hq (INc q Hq) EL) as (is2 & E2 & F2).
      rewrite E1 in E. cbn [bind] in E. rewrite E2 in E. cbn [bind] in E. injection E as -> ->.
      destruct (proj1 (F1 d i Hd Hn) Hi) as (e & H1 & _ & On). destruct (proj1 (F2 d' j Hd' Hn') Hj) as (e' & H1' & _ & On').
      exists x, e, e'. tauto.
  - intros H. destruct (bijection m n lr ur rr VM NDr VUr IXr) as (N & _ & HX & _). destruct (HX d Hd) as (i & Hn & _). clear HX.
    destruct (bijection m n lc uc rc VM NDc VUc IXc) as (N' & _ & HX & _). destruct (HX d' Hd') as (j & Hn' & _). clear HX.
    destruct H as [(e & He & On & On')|(HM & x & e & e' & He & He' & On & On')].
    + set (q := owner m e). pose proof (vm_owner _ _ VM e He) as Hq. pose proof (vm_sees_own _ _ VM e He) as Hv. fold q in Hq, Hv.
      destruct (element_some m n lr ur rr total VM NDr VUr IXr CA q (gr q) e Hq (INr q Hq) He Hv) as (l1 & E1).
      destruct (element_some m n lc uc rc total VM NDc VUc IXc CA q (gc q) e Hq (INc q Hq) He Hv) as (l2 & E2).
      exists q, l1, l2, i, j. split; [exact Hq|]. split; [exact Hn|]. split; [exact Hn'|]. split.
      { apply (element_has m n lr ur rr total VM NDr VUr IXr CA q (gr q) e l1 d i Hq (INr q Hq) He Hv Hd Hn E1). exact On. }
      split; [apply (element_has m n lc uc rc total VM NDc VUc IXc CA q (gc q) e l2 d' j Hq (INc q Hq) He Hv Hd' Hn' E2); exact On'|].
      left. exists e. split; [apply (vm_local _ _ VM); split; [exact He|reflexivity]|]. unfold insertsElement. rewrite E1. cbn [bind]. rewrite E2. reflexivity.
    + pose proof (face_elements m n VM x e He) as He1. assert (Hx : In (KFace, x) (objects_of_element m e)) by (apply (adjacent_on m n VM); [exact He1|exact I|exact He]).
      destruct (owned_exists m n VM KFace x (on_object m n VM e KFace x He1 Hx)) as (q & Hq & HO).
      assert (See : forall e1, In e1 (elementsOf m KFace x) -> visible m q e1 = true).
      { intros e1 H1. apply (owned_sees m n q VM KFace x e1); [apply (face_elements m n VM x), H1|exact H1|exact HO]. }
      pose proof (proj2 (isOwned_ok m n q VM e KFace x He1 Hx) HO) as HI.
      destruct (leftRight_ok m q x e TS He (See e He)) as (l & r & EL & _).
      destruct (face_has m n lr ur rr total VM NDr VUr IXr CA q (gr q) x l r Hq (INr q Hq) EL) as (is1 & E1 & F1).
      destruct (face_has m n lc uc rc total VM NDc VUc IXc CA q (gc q) x l r Hq (INc q Hq) EL) as (is2 & E2 & F2).
      exists q, is1, is2, i, j. split; [exact Hq|]. split; [exact Hn|]. split; [exact Hn'|].
      split; [apply (F1 d i Hd Hn); exists e; split; [exact He|]; split; [apply See, He|exact On]|].
      split; [apply (F2 d' j Hd' Hn'); exists e'; split; [exact He'|]; split; [apply See, He'|exact On']|].
      right. split; [exact HM|]. exists x. split; [exists e; split; [exact He|apply See, He]|].
      unfold insertsFace. rewrite HI, EL. cbn [negb bind fst snd]. rewrite E1. cbn [bind]. rewrite E2. reflexivity.
Qed.
End Assembly.

Lemma after_exchange m n layout unk r : valid_mesh n m -> NoDup (included m unk) -> valid_unknowns m unk -> indexing m n layout unk r ->
  forall eager s p, IndexExchange_model.reachable m n eager r s -> p < n -> IndexExchange_model.phase (IndexExchange_model.proc s p) = IndexExchange_model.Done ->
  informed m r p (IndexExchange_model.indexing_ (IndexExchange_model.proc s p)) /\ keeps_local (r p) (IndexExchange_model.indexing_ (IndexExchange_model.proc s p)).
Proof.
  intros VM ND VU IX eager s p R Hp E. split; [apply (IndexExchange_proofs.exchange_informed m n layout unk r VM ND VU IX eager s p R Hp E)|].
  destruct (IndexExchange_proofs.the_setting m n layout unk r VM ND VU IX) as (val & N & ST). destruct ST.
  assert (C : IndexExchange_proofs.complete m r (sortedUnknowns m unk) val p (IndexExchange_model.indexing_ (IndexExchange_model.proc s p)))
    by (eapply (IndexExchange_proofs.done_complete m n r (sortedUnknowns m unk) val); eassumption).
  destruct C as ((_ & _ & L3 & _ & _ & _ & L7) & _). split; [exact L3|]. intros u. destruct (L7 u) as (A & B & _). split; assumption.
Qed.
