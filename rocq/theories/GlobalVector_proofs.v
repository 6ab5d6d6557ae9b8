(** Proofs for C61. *)
From Coq Require Import List Arith Bool Lia Permutation Sorted.
From Verif Require Import Loop_model Loop_proofs StdMap_model GlobalIndexing_model GlobalIndexing_spec GlobalIndexing_proofs
  GlobalVector_model GlobalVector_spec.
Import ListNotations.

Lemma dof_eqb_spec d d' : reflect (d = d') (dof_eqb d d').
Proof.
  unfold dof_eqb. destruct d as [k x u i], d' as [k' x' u' i']. cbn [d_kind d_id d_unknown d_fn].
  destruct (kind_eqb_spec k k'), (Nat.eqb_spec x x'), (Nat.eqb_spec u u'), (Nat.eqb_spec i i'); cbn; constructor; congruence.
Qed.

(** * Indices *)
Record index_map (n : nat) (m : Mesh) (incl us : list nat) (r gs : nat -> GlobalIndexing) (total : nat -> nat -> nat) (N : nat) (ix : dof -> nat) : Prop := {
  im_numbered : forall d i, is_dof m incl d -> (numbered m r d i <-> i = ix d);
  im_size : forall p, p < n -> globalNumberOfBasisFunctions_ (r p) = N;
  im_lt : forall d, is_dof m incl d -> ix d < N;
  im_inj : forall d d', is_dof m incl d -> is_dof m incl d' -> ix d = ix d' -> d = d';
  im_surj : forall i, i < N -> exists d, is_dof m incl d /\ ix d = i;
  im_element : forall p e old, p < n -> In e (elements m) -> visible m p e = true ->
    getGlobalIndicesOfElement m (gs p) total e old = Some (map ix (dofs_of_element m us e));
  im_face : forall p e o old, p < n -> In e (elements m) -> visible m p e = true ->
    (forall e', o = Some e' -> In e' (elements m) /\ visible m p e' = true) ->
    getGlobalIndicesOfFace m (gs p) total e o old =
      Some (map ix (dofs_of_element m us e ++ match o with None => [] | Some e' => dofs_of_element m us e' end));
  im_get : forall p e k x u, p < n -> In e (elements m) -> visible m p e = true -> In (k, x) (objects_of_element m e) -> In u us ->
    exists i, getGlobalIndex (gs p) k x u = Some i /\
      forall j, j < localNumberOfBasisFunctions m k x u -> i + j = ix {| d_kind := k; d_id := x; d_unknown := u; d_fn := j |};
  im_dofs : forall e d, In e (elements m) -> In d (dofs_of_element m us e) -> is_dof m incl d;
  im_nodup : forall e, In e (elements m) -> NoDup (dofs_of_element m us e);
  im_unknowns : forall p, p < n -> totalNumberOfUnknowns_ (gs p) = numberOfUnknowns m;
  im_excluded : forall p k x u, p < n -> ~ In u us -> getGlobalIndex (gs p) k x u = None;
  im_total : forall e u, In e (elements m) -> total e u = length (dofs_of_element m [u] e) }.

Lemma index_map_exists n m layout unk r gs total :
  valid_mesh n m -> NoDup (included m unk) -> valid_unknowns m unk -> indexing m n layout unk r ->
  (forall p, p < n -> informed m r p (gs p)) -> counts_all m total ->
  exists N ix, index_map n m (included m unk) (sortedUnknowns m unk) r gs total N ix.
Proof.
  intros VM ND VU HI Hinf Htot.
  destruct (any_layout m n unk r VM ND VU layout HI) as (G & Lp & D & F).
  destruct (global_bijection m n unk r VM _ _ _ F) as (N & HN & Hex & Huq & Hinj & Hsurj).
  exists N, (fun d => off item_eq_dec (w m) G (it d) + d_fn d).
  pose proof (numbered_iff m n unk r VM _ _ _ F) as HF.
  set (ix := fun d => off item_eq_dec (w m) G (it d) + d_fn d).
  change (forall d i, is_dof m (included m unk) d -> (numbered m r d i <-> i = ix d)) in HF.
  change (index_map n m (included m unk) (sortedUnknowns m unk) r gs total N ix).
  assert (Hd : forall e d, In e (elements m) -> In d (dofs_of_element m (sortedUnknowns m unk) e) -> is_dof m (included m unk) d)
    by (intros e d He; exact (dofs_are_dofs m n unk VM (owner m e) (vm_owner _ _ VM e He) e d He)).
  assert (HL : forall p e, p < n -> In e (elements m) -> visible m p e = true ->
    elemList m unk (gs p) e = map ix (dofs_of_element m (sortedUnknowns m unk) e)).
  { intros p e Hp He Hv. pose proof (elemList_numbered m n unk r layout VM ND VU HI p (gs p) Hp (Hinf p Hp) e He Hv) as H2.
    specialize (Hd e). revert H2 Hd. generalize (elemList m unk (gs p) e). generalize (dofs_of_element m (sortedUnknowns m unk) e).
    induction 1 as [|d i ds is Hi H2 IH]; intros Hd; [reflexivity|]. cbn. f_equal.
    - apply HF; [apply Hd; [exact He|left; reflexivity]|exact Hi].
    - apply IH. intros d' He' Hd'. apply Hd; [exact He'|right; exact Hd']. }
  constructor.
  - exact HF.
  - exact HN.
  - intros d H. destruct (Hex d H) as (i & Hi & L). apply HF in Hi; [|exact H]. lia.
  - intros d d' H H' E. apply (Hinj d d' (ix d)); try assumption; apply HF; auto.
  - intros i Hi. destruct (Hsurj i Hi) as (d & H & Hn). exists d. split; [exact H|]. apply HF in Hn; [congruence|exact H].
  - intros p e old Hp He Hv. rewrite <- (HL p e Hp He Hv).
    apply (element_ok m n unk r layout VM ND VU HI p (gs p) total Hp (Hinf p Hp) Htot); assumption.
  - intros p e o old Hp He Hv Ho. rewrite (face_ok m n unk r layout VM ND VU HI p (gs p) total Hp (Hinf p Hp) Htot) by assumption.
    rewrite map_app, (HL p e Hp He Hv). destruct o as [e'|]; [|reflexivity]. destruct (Ho e' eq_refl) as (He' & Hv').
    rewrite (HL p e' Hp He' Hv'). reflexivity.
  - intros p e k x u Hp He Hv Ho Hu.
    destruct (get_visible m n unk r layout VM ND VU HI p (gs p) Hp (Hinf p Hp) e k x u He Hv Ho Hu) as (E & q & Hq & E').
    exists (getv (gs p) k x u). split; [exact E|]. intros j Hj. apply HF.
    + split; [apply (object_of_mesh m n VM e k x He Ho)|]. split; [apply sortedUnknowns_in, Hu|exact Hj].
    + exists q. split; [exact Hq|]. unfold index_of. cbn. rewrite E'. reflexivity.
  - exact Hd.
  - intros e He. apply (dofs_nodup m n unk VM ND e He).
  - intros p Hp. apply (filter_inc m n unk r layout VM ND VU HI p (gs p) Hp (Hinf p Hp)).
  - intros p k x u Hp Hu. unfold getGlobalIndex.
    destruct (filter_inc m n unk r layout VM ND VU HI p (gs p) Hp (Hinf p Hp)) as (E1 & _).
    destruct (Nat.ltb_spec u (totalNumberOfUnknowns_ (gs p))) as [L|L]; [|reflexivity].
    destruct (includedInIndex_ (offsets_ (gs p) u)) eqn:Ei; [|reflexivity]. exfalso. apply Hu. rewrite <- E1. apply filter_In.
    split; [apply in_seq; lia|exact Ei].
  - exact Htot.
Qed.

(** * PETSc *)
Lemma setValues_all {A} : forall (l : list nat) (vs : list A), length l = length vs ->
  setValues (length l) (map Some l) vs = Some (combine l vs).
Proof.
  induction l as [|i l IH]; intros [|v vs] H; cbn in H; try discriminate; [reflexivity|].
  cbn. rewrite IH by lia. reflexivity.
Qed.
Lemma forEach_acc {S B C} (body : S * list C -> B -> option (S * list C)) (F : B -> list C) :
  forall es s, (forall o acc e, In e es -> exists o', body (o, acc) e = Some (o', acc ++ F e)) ->
  exists o, forEach body es s = Some (o, snd s ++ flat_map F es).
Proof.
  induction es as [|e es IH]; intros (o, acc) H; cbn [forEach flat_map snd].
  - exists o. rewrite app_nil_r. reflexivity.
  - destruct (H o acc e (or_introl eq_refl)) as (o' & E). rewrite E.
    destruct (IH (o', acc ++ F e)) as (o'' & E'). { intros. apply H. right. assumption. }
    exists o''. rewrite E'. cbn [snd]. rewrite <- app_assoc. reflexivity.
Qed.
Lemma forEach_append {B C} (body : list C -> B -> option (list C)) (F : B -> list C) :
  forall es acc, (forall acc e, In e es -> body acc e = Some (acc ++ F e)) ->
  forEach body es acc = Some (acc ++ flat_map F es).
Proof.
  induction es as [|e es IH]; intros acc H; cbn [forEach flat_map].
  - rewrite app_nil_r. reflexivity.
  - rewrite (H acc e (or_introl eq_refl)), IH, <- app_assoc by (intros; apply H; right; assumption). reflexivity.
Qed.

Definition at_ {A} (i : nat) (l : list (nat * A)) : list A := map snd (filter (fun q => fst q =? i) l).
Lemma at_perm {A} i (l l' : list (nat * A)) : Permutation l l' -> Permutation (at_ i l) (at_ i l').
Proof.
  intros H. apply Permutation_map. induction H as [|x l l' H IH|x y l|l l' l'' H1 IH1 H2 IH2]; cbn.
  - constructor.
  - destruct (fst x =? i); [apply perm_skip|]; exact IH.
  - destruct (fst x =? i), (fst y =? i); try apply Permutation_refl. apply perm_swap.
  - eapply perm_trans; eassumption.
Qed.
Lemma at_app {A} i (l l' : list (nat * A)) : at_ i (l ++ l') = at_ i l ++ at_ i l'.
Proof. unfold at_. rewrite filter_app, map_app. reflexivity. Qed.
Lemma at_flat_map {A B} i (F : B -> list (nat * A)) l : at_ i (flat_map F l) = flat_map (fun x => at_ i (F x)) l.
Proof. induction l as [|x l IH]; [reflexivity|]. cbn [flat_map]. rewrite at_app, IH. reflexivity. Qed.

Lemma forEach_set {A} (mode : A -> A -> A) : forall order b, (forall q, In q order -> fst q < length b) ->
  exists b', forEach (setValue mode) order b = Some b' /\ length b' = length b /\
    forall i x, nth_error b i = Some x -> nth_error b' i = Some (fold_left mode (at_ i order) x).
Proof.
  induction order as [|(j, v) order IH]; intros b H.
  - exists b. split; [reflexivity|]. split; [reflexivity|]. intros i x E. exact E.
  - cbn [forEach]. unfold setValue at 1. cbn [fst snd].
    assert (Hj : j < length b) by (apply (H (j, v)); left; reflexivity).
    destruct (nth_error b j) as [y|] eqn:Ey; [|apply nth_error_None in Ey; lia].
    destruct (write_ok b j (mode y v) Hj) as (b1 & E1 & L1 & N1). rewrite E1.
    destruct (IH b1) as (b' & E & L & Nb). { intros q Hq. rewrite L1. apply H. right. exact Hq. }
    exists b'. split; [exact E|]. split; [lia|]. intros i x Ex. unfold at_. cbn [filter fst].
    destruct (Nat.eqb_spec j i) as [->|Ne].
    + cbn [map snd fold_left]. rewrite (Nb i (mode y v)); [assert (y = x) as -> by congruence; reflexivity|]. rewrite N1, Nat.eqb_refl. reflexivity.
    + apply Nb. rewrite N1. destruct (Nat.eqb_spec i j) as [->|_]; [congruence|exact Ex].
Qed.

Section Sums.
Context {A : Type} (zero : A) (add : A -> A -> A) (Hz : forall x, add zero x = x) (Hc : forall x y, add x y = add y x)
  (Ha : forall x y z, add x (add y z) = add (add x y) z).
Lemma fold_left_sum : forall l x, fold_left add l x = add x (sum_of add zero l).
Proof.
  induction l as [|y l IH]; intros x; cbn; [rewrite Hc; symmetry; apply Hz|]. rewrite IH. symmetry. apply Ha.
Qed.
Lemma sum_perm l l' : Permutation l l' -> sum_of add zero l = sum_of add zero l'.
Proof.
  induction 1 as [|x l l' H IH|x y l|l l' l'' H1 IH1 H2 IH2]; cbn [sum_of fold_right]; fold (sum_of add zero).
  - reflexivity.
  - unfold sum_of in *. cbn. rewrite IH. reflexivity.
  - unfold sum_of. cbn. rewrite !Ha, (Hc y x). reflexivity.
  - rewrite IH1. exact IH2.
Qed.
End Sums.

Lemma insert_none {A} : forall (x : A), fold_left INSERT_VALUES [] x = x.
Proof. reflexivity. Qed.
Lemma insert_all {A} (v : A) : forall l x, l <> [] -> (forall y, In y l -> y = v) -> fold_left INSERT_VALUES l x = v.
Proof.
  induction l as [|y l IH]; intros x NE H; [contradiction|]. cbn.
  destruct l as [|z l]; [apply H; left; reflexivity|]. apply IH; [discriminate|]. intros t Ht. apply H. right. exact Ht.
Qed.

(** * Exchange *)
Section Exchange.
Context {A : Type} (zero : A) (n : nat) (m : Mesh) (incl us : list nat) (r gs : nat -> GlobalIndexing) (total : nat -> nat -> nat) (N : nat) (ix : dof -> nat).
Context (VM : valid_mesh n m) (IM : index_map n m incl us r gs total N ix).
Notation D e := (dofs_of_element m us e).

Lemma at_combine d ds (vs : list A) : is_dof m incl d -> (forall d', In d' ds -> is_dof m incl d') ->
  at_ (ix d) (combine (map ix ds) vs) = entries d ds vs.
Proof.
  intros Hd. unfold at_, entries. revert vs. induction ds as [|d' ds IH]; intros vs H; [reflexivity|].
  destruct vs as [|v vs]; [reflexivity|]. cbn [map combine filter fst].
  rewrite <- (IH vs) || idtac.
  destruct (Nat.eqb_spec (ix d') (ix d)) as [E|E], (dof_eqb_spec d' d) as [E'|E'].
  - cbn [map snd]. f_equal. apply IH. intros x Hx. apply H. right. exact Hx.
  - exfalso. apply E', (im_inj _ _ _ _ _ _ _ _ _ IM); [apply H; left; reflexivity|exact Hd|exact E].
  - exfalso. apply E. congruence.
  - apply IH. intros x Hx. apply H. right. exact Hx.
Qed.
Lemma local_visible p e : In e (localElements m p) -> p < n -> In e (elements m) /\ visible m p e = true.
Proof.
  intros H Hp. apply (vm_local _ _ VM) in H. destruct H as (He & <-). split; [exact He|]. apply (vm_sees_own _ _ VM), He.
Qed.

(** ** Assembly *)
Definition elementPairs (vec : nat -> list A) (e : nat) : list (nat * A) := combine (map ix (D e)) (vec e).
Definition optionally {B} (o : option B) (f : B -> list (nat * A)) : list (nat * A) := match o with None => [] | Some b => f b end.

Lemma assembleElements_ok p ev : p < n -> (forall vec, ev = Some vec -> complete m us vec) ->
  assembleElements m total p (gs p) ev = Some (optionally ev (fun vec => flat_map (elementPairs vec) (localElements m p))).
Proof.
  intros Hp HC. unfold assembleElements. destruct ev as [vec|]; [|reflexivity]. cbn [optionally]. specialize (HC vec eq_refl).
  match goal with |- option_map snd (forEach ?body _ _) = _ => destruct (forEach_acc body (elementPairs vec) (localElements m p) ([], [])) as (o & E) end.
  - intros o acc e He. destruct (local_visible p e He Hp) as (He' & Hv). cbn [fst snd].
    rewrite (im_element _ _ _ _ _ _ _ _ _ IM) by assumption. exists (map ix (D e)).
    assert (L : length (map ix (D e)) = length (vec e)) by (rewrite map_length; symmetry; apply HC, He').
    rewrite <- L, Nat.eqb_refl, setValues_all by exact L. reflexivity.
  - rewrite E. reflexivity.
Qed.

Context (faces : list nat) (facesList : nat -> list nat) (VF : valid_faces n m faces facesList).
Definition facePairs (vec : nat -> list A) (f : nat) : list (nat * A) := combine (map ix (dofs_of_face m us f)) (vec f).

Lemma face_elements f e : In f faces -> In e (elementsOf m KFace f) -> In e (elements m).
Proof. intros _ H. apply (vm_adjacent_exist _ _ VM KFace e f); [discriminate|exact H]. Qed.
Lemma owned_first p f : p < n -> In f faces -> isOwnedByCurrentProcessor m p f = true <->
  exists e rest, elementsOf m KFace f = e :: rest /\ owner m e = p.
Proof.
  intros Hp Hf. unfold isOwnedByCurrentProcessor, elementLeft, firstElement.
  assert (HV : forall e, In e (elementsOf m KFace f) -> owner m e = p -> filter (visible m p) (elementsOf m KFace f) = elementsOf m KFace f).
  { intros e He Eo. apply filter_all. intros e' He'. rewrite <- Eo. apply (vm_shadow _ _ VM KFace f e e'); [discriminate|exact He|exact He']. }
  split.
  - intros H. destruct (filter (visible m p) (elementsOf m KFace f)) as [|e rest] eqn:E; [discriminate|]. cbn in H. apply Nat.eqb_eq in H.
    assert (He : In e (elementsOf m KFace f)) by (apply (filter_In (visible m p)); rewrite E; left; reflexivity).
    exists e, rest. split; [symmetry; exact (HV e He H)|exact H].
  - intros (e & rest & E & Eo). rewrite (HV e); [|rewrite E; left; reflexivity|exact Eo]. rewrite E. cbn. rewrite Eo. apply Nat.eqb_refl.
Qed.
Lemma assembleFaces_ok p fv : p < n -> (forall vec, fv = Some vec -> forall f, In f faces -> length (vec f) = length (dofs_of_face m us f)) ->
  assembleFaces m total p (gs p) (facesList p) fv =
    Some (optionally fv (fun vec => flat_map (facePairs vec) (filter (isOwnedByCurrentProcessor m p) (facesList p)))).
Proof.
  intros Hp HC. unfold assembleFaces. destruct fv as [vec|]; [|reflexivity]. cbn [optionally]. specialize (HC vec eq_refl).
  rewrite (forEach_append _ (fun f => if isOwnedByCurrentProcessor m p f then facePairs vec f else [])).
  - cbn [app]. f_equal. induction (facesList p) as [|f fs IH]; [reflexivity|]. cbn [flat_map filter].
    destruct (isOwnedByCurrentProcessor m p f); cbn [flat_map app]; rewrite IH; reflexivity.
  - intros acc f Hf. apply (vf_local _ _ _ _ VF p f Hp) in Hf.
    destruct (isOwnedByCurrentProcessor m p f) eqn:Eo; cbn [negb]; [|rewrite app_nil_r; reflexivity].
    apply (owned_first p f Hp Hf) in Eo. destruct Eo as (e & rest & Ef & Eo).
    assert (HV : filter (visible m p) (elementsOf m KFace f) = elementsOf m KFace f).
    { apply filter_all. intros e' He'. rewrite <- Eo. apply (vm_shadow _ _ VM KFace f e e'); [discriminate|rewrite Ef; left; reflexivity|exact He']. }
    assert (Hin : forall e', In e' (elementsOf m KFace f) -> In e' (elements m) /\ visible m p e' = true).
    { intros e' He'. split; [apply (face_elements f e' Hf He')|].
      rewrite <- Eo. apply (vm_shadow _ _ VM KFace f e e'); [discriminate|rewrite Ef; left; reflexivity|exact He']. }
    unfold elementLeft, elementRight, firstElement. rewrite HV.
    assert (EF : hd_error (elementsOf m KFace f) = Some e) by (rewrite Ef; reflexivity). rewrite EF.
    destruct (Hin e) as (He & Hv); [rewrite Ef; left; reflexivity|].
    rewrite (im_face _ _ _ _ _ _ _ _ _ IM p e (nth_error (elementsOf m KFace f) 1)); [|exact Hp|exact He|exact Hv|].
    + assert (ED : D e ++ match nth_error (elementsOf m KFace f) 1 with None => [] | Some e' => D e' end = dofs_of_face m us f).
      { unfold dofs_of_face. destruct (vf_sides _ _ _ _ VF f Hf) as (e0 & [E0|(e1 & E0)]); rewrite E0 in *; injection Ef as -> <-; cbn; rewrite ?app_nil_r; reflexivity. }
      rewrite ED. assert (L : length (map ix (dofs_of_face m us f)) = length (vec f)) by (rewrite map_length; symmetry; apply HC, Hf).
      rewrite <- L, Nat.eqb_refl, setValues_all by exact L. reflexivity.
    + intros e' E'. apply nth_error_In in E'. apply Hin, E'.
Qed.
Lemma elements_perm : NoDup (elements m) -> Permutation (flat_map (localElements m) (seq 0 n)) (elements m).
Proof.
  intros ND. apply NoDup_Permutation.
  - apply NoDup_flat_map; [apply seq_NoDup|intros p _; apply (vm_local_distinct _ _ VM)|].
    intros p q e _ _ H1 H2. apply (vm_local _ _ VM) in H1, H2. destruct H1 as (_ & <-), H2 as (_ & <-). reflexivity.
  - exact ND.
  - intros e. rewrite in_flat_map. split.
    + intros (p & _ & H). apply (vm_local _ _ VM) in H. apply H.
    + intros H. exists (owner m e). split; [apply in_seq; pose proof (vm_owner _ _ VM e H); lia|]. apply (vm_local _ _ VM). auto.
Qed.
Lemma faces_perm : Permutation (flat_map (fun p => filter (isOwnedByCurrentProcessor m p) (facesList p)) (seq 0 n)) faces.
Proof.
  apply NoDup_Permutation.
  - apply NoDup_flat_map; [apply seq_NoDup|intros p Hp; apply NoDup_filter, (vf_local_distinct _ _ _ _ VF); apply in_seq in Hp; lia|].
    intros p q f Hp Hq H1 H2. apply filter_In in H1, H2. apply in_seq in Hp, Hq. destruct H1 as (H1 & O1), H2 as (H2 & O2).
    apply owned_first in O1; [|lia|apply (vf_local _ _ _ _ VF p f); [lia|exact H1]].
    apply owned_first in O2; [|lia|apply (vf_local _ _ _ _ VF q f); [lia|exact H2]].
    destruct O1 as (e & t & E1 & <-), O2 as (e' & t' & E2 & <-). rewrite E1 in E2. injection E2 as -> _. reflexivity.
  - apply (vf_distinct _ _ _ _ VF).
  - intros f. rewrite in_flat_map. split.
    + intros (p & Hp & H). apply in_seq in Hp. apply filter_In in H. apply (vf_local _ _ _ _ VF p f); [lia|apply H].
    + intros Hf. destruct (vf_sides _ _ _ _ VF f Hf) as (e & Hs).
      assert (Ef : exists rest, elementsOf m KFace f = e :: rest) by (destruct Hs as [E|(e' & E)]; rewrite E; eexists; reflexivity).
      destruct Ef as (rest & Ef). assert (Hi : In e (elementsOf m KFace f)) by (rewrite Ef; left; reflexivity).
      pose proof (vm_owner _ _ VM e (face_elements f e Hf Hi)) as Ho. exists (owner m e). split; [apply in_seq; lia|].
      apply filter_In. split; [apply (vf_own _ _ _ _ VF (owner m e) f e); auto|]. apply owned_first; [exact Ho|exact Hf|]. eauto.
Qed.

(** the contributions for a degree of freedom *)
Definition shares {B} (o : option B) (f : B -> list A) : list A := match o with None => [] | Some b => f b end.
Lemma dofs_of_face_dofs f d : In f faces -> In d (dofs_of_face m us f) -> is_dof m incl d.
Proof.
  intros Hf H. apply in_flat_map in H. destruct H as (e & He & Hd). apply (im_dofs _ _ _ _ _ _ _ _ _ IM e); [apply (face_elements f e Hf He)|exact Hd].
Qed.
Lemma perm_flat_map {B C} (F : B -> list C) l l' : Permutation l l' -> Permutation (flat_map F l) (flat_map F l').
Proof.
  induction 1 as [|x l l' H IH|x y l|l l' l'' H1 IH1 H2 IH2]; cbn.
  - constructor.
  - apply Permutation_app_head, IH.
  - rewrite !app_assoc. apply Permutation_app_tail, Permutation_app_comm.
  - eapply perm_trans; eassumption.
Qed.
Lemma flat_map_nested {B C E} (f : B -> list C) (h : C -> list E) l : flat_map (fun x => flat_map h (f x)) l = flat_map h (flat_map f l).
Proof. induction l as [|x l IH]; [reflexivity|]. cbn. rewrite flat_map_app, IH. reflexivity. Qed.
Lemma flat_map_in {B C} (f h : B -> list C) l : (forall x, In x l -> f x = h x) -> flat_map f l = flat_map h l.
Proof. induction l as [|x l IH]; intros H; [reflexivity|]. cbn. rewrite H, IH; auto using in_eq. intros y Hy. apply H. right. exact Hy. Qed.

Lemma at_elements vec d l : is_dof m incl d -> (forall e, In e l -> In e (elements m)) ->
  at_ (ix d) (flat_map (elementPairs vec) l) = flat_map (fun e => entries d (D e) (vec e)) l.
Proof.
  intros Hd Hl. rewrite at_flat_map. apply flat_map_in. intros e He. apply at_combine; [exact Hd|].
  intros d'. apply (im_dofs _ _ _ _ _ _ _ _ _ IM), Hl, He.
Qed.
Lemma at_faces vec d l : is_dof m incl d -> (forall f, In f l -> In f faces) ->
  at_ (ix d) (flat_map (facePairs vec) l) = flat_map (fun f => entries d (dofs_of_face m us f) (vec f)) l.
Proof.
  intros Hd Hl. rewrite at_flat_map. apply flat_map_in. intros f Hf. apply at_combine; [exact Hd|].
  intros d'. apply dofs_of_face_dofs, Hl, Hf.
Qed.
Lemma pairs_bound ds (vs : list A) q : (forall d, In d ds -> is_dof m incl d) -> In q (combine (map ix ds) vs) -> fst q < N.
Proof.
  intros H Hq. destruct q as (i, v). apply in_combine_l in Hq. apply in_map_iff in Hq. destruct Hq as (d & <- & Hd).
  apply (im_lt _ _ _ _ _ _ _ _ _ IM), H, Hd.
Qed.

Theorem assemble_ok (add : A -> A -> A) ev fv :
  (forall x, add zero x = x) -> (forall x y, add x y = add y x) -> (forall x y z, add x (add y z) = add (add x y) z) ->
  NoDup (elements m) ->
  (forall vec, ev = Some vec -> complete m us vec) ->
  (forall vec, fv = Some vec -> forall f, In f faces -> length (vec f) = length (dofs_of_face m us f)) ->
  exists pairs, (forall p, p < n -> assemble m total p (gs p) (facesList p) ev fv = Some (pairs p)) /\
    forall result, assembled add (repeat zero N) (flat_map pairs (seq 0 n)) result ->
      exists b, result = Some b /\ length b = N /\
        forall d, is_dof m incl d -> nth_error b (ix d) = Some (sum_of add zero (
          shares ev (fun vec => flat_map (fun e => entries d (D e) (vec e)) (elements m)) ++
          shares fv (fun vec => flat_map (fun f => entries d (dofs_of_face m us f) (vec f)) faces))).
Proof.
  intros Hz Hc Ha NDe HE HF.
  exists (fun p => optionally ev (fun vec => flat_map (elementPairs vec) (localElements m p)) ++
    optionally fv (fun vec => flat_map (facePairs vec) (filter (isOwnedByCurrentProcessor m p) (facesList p)))).
  split.
  { intros p Hp. unfold assemble. rewrite assembleElements_ok, assembleFaces_ok by assumption. reflexivity. }
  intros result (order & HP & <-).
  assert (SP : forall F1 F2 : nat -> list (nat * A), Permutation (flat_map (fun p => F1 p ++ F2 p) (seq 0 n)) (flat_map F1 (seq 0 n) ++ flat_map F2 (seq 0 n))).
  { clear HP. intros F1 F2. induction (seq 0 n) as [|x l IH]; [constructor|]. cbn [flat_map]. rewrite <- !app_assoc. apply Permutation_app_head.
    eapply perm_trans; [apply Permutation_app_head, IH|]. apply Permutation_app_swap_app. }
  assert (P2 : Permutation order (optionally ev (fun vec => flat_map (elementPairs vec) (elements m)) ++ optionally fv (fun vec => flat_map (facePairs vec) faces))).
  { eapply perm_trans; [exact HP|]. eapply perm_trans; [apply SP|]. clear HP SP. apply Permutation_app.
    - destruct ev as [vec|]; cbn [optionally]; [|induction (seq 0 n); [constructor|assumption]].
      rewrite flat_map_nested. apply perm_flat_map, elements_perm, NDe.
    - destruct fv as [vec|]; cbn [optionally]; [|induction (seq 0 n); [constructor|assumption]].
      rewrite flat_map_nested. apply perm_flat_map, faces_perm. }
  destruct (forEach_set add order (repeat zero N)) as (b & E & L & Nb).
  { intros q Hq. rewrite repeat_length. apply (Permutation_in _ P2) in Hq. apply in_app_or in Hq. destruct Hq as [Hq|Hq].
    - destruct ev as [vec|]; [|destruct Hq]. cbn in Hq. apply in_flat_map in Hq. destruct Hq as (e & He & Hq).
      apply (pairs_bound (D e) (vec e) q); [|exact Hq]. intros d. apply (im_dofs _ _ _ _ _ _ _ _ _ IM), He.
    - destruct fv as [vec|]; [|destruct Hq]. cbn in Hq. apply in_flat_map in Hq. destruct Hq as (f & Hf & Hq).
      apply (pairs_bound (dofs_of_face m us f) (vec f) q); [|exact Hq]. intros d. apply dofs_of_face_dofs, Hf. }
  exists b. split; [exact E|]. split; [rewrite L; apply repeat_length|].
  intros d Hd. rewrite (Nb (ix d) zero).
  - f_equal. rewrite (fold_left_sum zero add Hz Hc Ha), Hz.
    rewrite (sum_perm zero add Hc Ha _ _ (at_perm (ix d) _ _ P2)). rewrite at_app. f_equal. f_equal.
    + destruct ev as [vec|]; [|reflexivity]. cbn [optionally shares]. apply at_elements; [exact Hd|auto].
    + destruct fv as [vec|]; [|reflexivity]. cbn [optionally shares]. apply at_faces; [exact Hd|auto].
  - rewrite nth_error_repeat; [reflexivity|]. apply (im_lt _ _ _ _ _ _ _ _ _ IM), Hd.
Qed.
End Exchange.
