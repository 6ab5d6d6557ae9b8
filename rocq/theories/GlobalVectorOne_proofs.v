(** Proofs for C61: one unknown; the statements of the theorems. *)
From Coq Require Import List Arith Bool Lia Permutation Sorted.
From Verif Require Import Loop_model Loop_proofs StdMap_model GlobalIndexing_model GlobalIndexing_spec GlobalIndexing_proofs
  GlobalVector_model GlobalVector_spec GlobalVector_proofs GlobalVectorWrite_proofs.
Import ListNotations.

Section One.
Context {A : Type} (zero : A) (n : nat) (m : Mesh) (incl us : list nat) (r gs : nat -> GlobalIndexing) (total : nat -> nat -> nat) (N : nat) (ix : dof -> nat).
Context (VM : valid_mesh n m) (IM : index_map n m incl us r gs total N ix) (EU : us = unknowns_of m) (sv : nat).
Notation D e := (dofs_of_element m us e).

Lemma select_ok e (values : list A) l0 d0 : In e (elements m) -> length values = length (D e) -> length l0 = length (D e) -> length d0 = length (D e) ->
  exists l d, selectUnknown m total sv e values (l0, d0) = Some (l, d) /\ length l = length (D e) /\ length d = length (D e) /\
    forall k x, nth_error (D e) k = Some x ->
      (d_unknown x = sv -> nth_error l k = nth_error l0 k /\ nth_error d k = nth_error values k) /\ (d_unknown x <> sv -> nth_error l k = Some None).
Proof.
  intros He Lv Ll Ld.
  assert (HT : forall v, total e v = length (dofs_of_element m [v] e)) by (intros v; apply (im_total _ _ _ _ _ _ _ _ _ IM), He).
  set (Sj := fun j => length (dofs_of_element m (seq 0 j) e)).
  assert (SS : forall j, Sj (S j) = Sj j + total e j) by (intros j; unfold Sj; rewrite seq_S, dofs_app, app_length, HT; reflexivity).
  assert (SI : forall i j, singleIndex total e i j = Sj j + i) by (intros i j; unfold singleIndex; rewrite (dofs_numbers m total e HT); reflexivity).
  assert (SD : forall j i, j < numberOfUnknowns m -> i < total e j -> exists x, nth_error (D e) (Sj j + i) = Some x /\ d_unknown x = j).
  { intros j i Hj Hi. rewrite HT in Hi. destruct (nth_error (dofs_of_element m [j] e) i) as [x|] eqn:Ex; [|apply nth_error_None in Ex; lia].
    exists x. split; [|apply (dofs_unknown m j e), (nth_error_In _ _ Ex)]. rewrite EU. unfold unknowns_of, Sj. rewrite dofs_at by assumption. exact Ex. }
  set (Inv := fun B (s : list (option nat) * list A) => length (fst s) = length (D e) /\ length (snd s) = length (D e) /\
    forall k x, nth_error (D e) k = Some x ->
      (k < B -> (d_unknown x = sv -> nth_error (fst s) k = nth_error l0 k /\ nth_error (snd s) k = nth_error values k) /\ (d_unknown x <> sv -> nth_error (fst s) k = Some None)) /\
      (B <= k -> nth_error (fst s) k = nth_error l0 k)).
  destruct (for_loop_inv (fun j s => Inv (Sj j) s) (fun j s => for_loop (total e j) (fun i s =>
    if j =? sv
    then match nth_error values (singleIndex total e i sv) with
         | None => None
         | Some x => option_map (fun d => (fst s, d)) (write (snd s) (singleIndex total e i sv) x)
         end
    else option_map (fun l => (l, snd s)) (write (fst s) (singleIndex total e i j) None)) s) (numberOfUnknowns m) (l0, d0)) as ((l, d) & E & Hl & Hd & HI).
  - split; [exact Ll|]. split; [exact Ld|]. intros k x Hk. unfold Sj. cbn. split; [lia|reflexivity].
  - intros j s Hj HI. rewrite SS.
    apply (for_loop_inv (fun i s => Inv (Sj j + i) s)); [rewrite Nat.add_0_r; exact HI|]. clear s HI.
    intros i (l, d) Hi (Hl & Hd & HI). cbn [fst snd] in *. destruct (SD j i Hj Hi) as (x & Hx & Ex).
    assert (Lx : Sj j + i < length (D e)) by (apply nth_error_Some; congruence).
    destruct (Nat.eqb_spec j sv) as [Ej|Ej].
    + rewrite Ej in *. clear j Ej. rewrite SI. destruct (nth_error values (Sj sv + i)) as [v|] eqn:Ev; [|apply nth_error_None in Ev; lia].
      destruct (write_ok d (Sj sv + i) v) as (d' & E' & L' & N'); [lia|]. rewrite E'. eexists. split; [reflexivity|]. unfold Inv. cbn [fst snd].
      split; [exact Hl|]. split; [lia|]. intros k y Hk. destruct (HI k y Hk) as (H1 & H2). split; [|intros Hk'; apply H2; lia].
      intros Hlt. rewrite N'. destruct (Nat.eqb_spec k (Sj sv + i)) as [->|Nk].
      * split; [intros _; split; [apply H2; lia|congruence]|intros Hne; congruence].
      * apply H1. lia.
    + rewrite SI. destruct (write_ok l (Sj j + i) None) as (l' & E' & L' & N'); [lia|]. rewrite E'. eexists. split; [reflexivity|]. unfold Inv. cbn [fst snd].
      split; [lia|]. split; [exact Hd|]. intros k y Hk. destruct (HI k y Hk) as (H1 & H2). rewrite N'.
      destruct (Nat.eqb_spec k (Sj j + i)) as [->|Nk].
      * split; [|lia]. intros _. split; [intros Hs; congruence|reflexivity].
      * split; [intros Hlt; apply H1; lia|intros Hge; apply H2; lia].
  - exists l, d. split; [exact E|]. split; [exact Hl|]. split; [exact Hd|]. intros k x Hk. apply (HI k x Hk).
    assert (k < length (D e)) by (apply nth_error_Some; congruence). unfold Sj. fold (unknowns_of m). rewrite <- EU. exact H.
Qed.

Definition onePairs (data : nat -> list A) (e : nat) : list (nat * A) :=
  flat_map (fun q => if d_unknown (fst q) =? sv then [(ix (fst q), snd q)] else []) (combine (D e) (data e)).
Lemma setValues_some : forall (ds : list dof) (vs : list A) l d, length vs = length ds -> length l = length ds -> length d = length ds ->
  (forall k x, nth_error ds k = Some x -> (d_unknown x = sv -> nth_error l k = Some (Some (ix x)) /\ nth_error d k = nth_error vs k) /\
     (d_unknown x <> sv -> nth_error l k = Some None)) ->
  setValues (length l) l d = Some (flat_map (fun q => if d_unknown (fst q) =? sv then [(ix (fst q), snd q)] else []) (combine ds vs)).
Proof.
  induction ds as [|x ds IH]; intros [|v vs] [|o l] [|y d] L1 L2 L3 H; cbn in L1, L2, L3; try discriminate; [reflexivity|].
  cbn [length setValues combine flat_map fst snd]. rewrite (IH vs l d) by (try lia; intros k z Hk; apply (H (S k) z Hk)).
  destruct (H 0 x eq_refl) as (H1 & H2). cbn [nth_error] in H1, H2. destruct (Nat.eqb_spec (d_unknown x) sv) as [E|E].
  - destruct (H1 E) as (E1 & E2). injection E1 as ->. injection E2 as ->. reflexivity.
  - specialize (H2 E). injection H2 as ->. reflexivity.
Qed.
Lemma constructOne_ok p (data : nat -> list A) : p < n -> complete m us data ->
  constructOne zero m total p (gs p) sv data = Some (flat_map (onePairs data) (localElements m p)).
Proof.
  intros Hp HC. unfold constructOne.
  match goal with |- option_map snd (forEach ?body _ _) = _ => destruct (forEach_acc body (onePairs data) (localElements m p) ([], [], [])) as (o & E) end.
  - intros o acc e He. destruct (local_visible n m VM p e He Hp) as (He' & Hv). cbn [fst snd].
    rewrite (im_element _ _ _ _ _ _ _ _ _ IM) by assumption.
    rewrite (totalNumber_ok n m incl us r gs total N ix IM EU e He'), (HC e He'), Nat.eqb_refl.
    destruct (select_ok e (data e) (map Some (map ix (D e))) (vresize (snd o) (length (D e)) zero) He' (HC e He')) as (l & d & Es & Ll & Ld & Hs);
      [rewrite !map_length; reflexivity|apply vresize_length|].
    rewrite Es. rewrite (setValues_some (D e) (data e) l d); [|apply HC, He'|exact Ll|exact Ld|].
    + eexists. reflexivity.
    + intros k x Hk. destruct (Hs k x Hk) as (H1 & H2). split; [|exact H2]. intros Ex. destruct (H1 Ex) as (E1 & E2). split; [|exact E2].
      rewrite E1, !nth_error_map, Hk. reflexivity.
  - rewrite E. reflexivity.
Qed.
Lemma one_in data e i v : In (i, v) (onePairs data e) <-> exists k d, nth_error (D e) k = Some d /\ nth_error (data e) k = Some v /\ d_unknown d = sv /\ i = ix d.
Proof.
  unfold onePairs. rewrite in_flat_map. split.
  - intros ((d, w) & Hq & H). cbn [fst snd] in H. destruct (Nat.eqb_spec (d_unknown d) sv) as [E|E]; [|destruct H].
    destruct H as [H|[]]. injection H as <- <-. apply In_nth_error in Hq. destruct Hq as (k & Hk). exists k, d.
    revert Hk. generalize (data e). generalize (D e). clear -E. induction k as [|k IH]; intros [|x ds] [|y vs] Hk; try discriminate.
    + cbn in Hk. injection Hk as -> ->. auto.
    + cbn [combine nth_error] in Hk |- *. apply IH, Hk.
  - intros (k & d & Hk & Hv & E & ->). exists (d, v). cbn [fst snd]. rewrite (proj2 (Nat.eqb_eq _ _) E). split; [|left; reflexivity].
    apply nth_error_In with (n := k). revert Hk Hv. generalize (data e). generalize (D e). clear. induction k as [|k IH]; intros [|x ds] [|y vs] Hk Hv; try discriminate.
    + cbn in *. congruence.
    + cbn [combine nth_error] in *. apply IH; assumption.
Qed.
Lemma at_in i (l : list (nat * A)) v : In v (at_ i l) <-> In (i, v) l.
Proof.
  unfold at_. rewrite in_map_iff. split.
  - intros ((j, w) & <- & H). apply filter_In in H. destruct H as (H & E). cbn in E. apply Nat.eqb_eq in E. subst j. exact H.
  - intros H. exists (i, v). split; [reflexivity|]. apply filter_In. split; [exact H|apply Nat.eqb_refl].
Qed.
Theorem constructOne_result (data : nat -> list A) : NoDup (elements m) -> complete m us data -> agree_for m us sv data ->
  exists pairs, (forall p, p < n -> constructOne zero m total p (gs p) sv data = Some (pairs p)) /\
    forall result, assembled INSERT_VALUES (repeat zero N) (flat_map pairs (seq 0 n)) result ->
      exists b, result = Some b /\ length b = N /\
        forall e k d, In e (elements m) -> nth_error (D e) k = Some d ->
          nth_error b (ix d) = if d_unknown d =? sv then nth_error (data e) k else Some zero.
Proof.
  intros NDe HC HA. exists (fun p => flat_map (onePairs data) (localElements m p)). split; [intros p Hp; apply constructOne_ok; assumption|].
  intros result H.
  pose proof (fun P B => inserted zero N _ (flat_map (onePairs data) (elements m)) result P B H) as HI.
  destruct HI as (b & E & L & H1 & H2).
  - rewrite flat_map_nested. apply perm_flat_map, (elements_perm n m VM NDe).
  - intros (i, v) Hq. apply in_flat_map in Hq. destruct Hq as (e & He & Hq). apply one_in in Hq. destruct Hq as (k & d & Hk & _ & _ & ->).
    apply (im_lt _ _ _ _ _ _ _ _ _ IM), (im_dofs _ _ _ _ _ _ _ _ _ IM e d He), (nth_error_In _ _ Hk).
  - exists b. split; [exact E|]. split; [exact L|]. intros e k d He Hk.
    assert (Hd : is_dof m incl d) by (apply (im_dofs _ _ _ _ _ _ _ _ _ IM e d He), (nth_error_In _ _ Hk)).
    pose proof (im_lt _ _ _ _ _ _ _ _ _ IM d Hd) as Li.
    assert (HX : forall v, In v (at_ (ix d) (flat_map (onePairs data) (elements m))) <->
      d_unknown d = sv /\ exists e' k', In e' (elements m) /\ nth_error (D e') k' = Some d /\ nth_error (data e') k' = Some v).
    { intros v. rewrite at_in, in_flat_map. split.
      - intros (e' & He' & Hq). apply one_in in Hq. destruct Hq as (k' & d' & Hk' & Hv' & Es & Ei).
        apply (im_inj _ _ _ _ _ _ _ _ _ IM) in Ei; [|exact Hd|apply (im_dofs _ _ _ _ _ _ _ _ _ IM e' d' He'), (nth_error_In _ _ Hk')]. subst d'.
        split; [exact Es|]. eauto.
      - intros (Es & e' & k' & He' & Hk' & Hv'). exists e'. split; [exact He'|]. apply one_in. exists k', d. auto. }
    destruct (Nat.eqb_spec (d_unknown d) sv) as [Es|Es].
    + destruct (nth_error (data e) k) as [v|] eqn:Ev.
      * apply H1; [exact Li|apply HX; split; [exact Es|eauto]|]. intros w Hw. apply HX in Hw. destruct Hw as (_ & e' & k' & He' & Hk' & Hw).
        pose proof (HA e e' k k' d Es He He' Hk Hk') as HE. congruence.
      * exfalso. apply nth_error_None in Ev. rewrite (HC e He) in Ev. assert (k < length (D e)) by (apply nth_error_Some; congruence). lia.
    + apply H2; [exact Li|]. destruct (at_ (ix d) (flat_map (onePairs data) (elements m))) as [|v l] eqn:Ea; [reflexivity|].
      exfalso. apply Es. apply (proj1 (HX v)). left. reflexivity.
Qed.

(** ** Subsets of the unknowns *)
Lemma for_from_fails {St} (body : nat -> St -> option St) u : (forall s, body u s = None) -> forall c start s, start <= u < start + c -> for_from start c body s = None.
Proof.
  intros H. induction c as [|c IH]; intros start s Hu; [lia|]. cbn. destruct (Nat.eq_dec start u) as [->|Ne]; [rewrite H; reflexivity|].
  destruct (body start s); [apply IH; lia|reflexivity].
Qed.
End One.

Lemma Forall2_nth {X Y} (R : X -> Y -> Prop) : forall l l', length l = length l' -> (forall k x y, nth_error l k = Some x -> nth_error l' k = Some y -> R x y) -> Forall2 R l l'.
Proof.
  induction l as [|x l IH]; intros [|y l'] L H; cbn in L; try discriminate; constructor; [apply (H 0); reflexivity|].
  apply IH; [lia|]. intros k a b Ha Hb. apply (H (S k)); assumption.
Qed.
Section Subset.
Context {A : Type} (zero : A) (n : nat) (m : Mesh) (incl us : list nat) (r gs : nat -> GlobalIndexing) (total : nat -> nat -> nat) (N : nat) (ix : dof -> nat).
Context (VM : valid_mesh n m) (IM : index_map n m incl us r gs total N ix).
Lemma localData_fails p data e u : p < n -> u < numberOfUnknowns m -> ~ In u us -> localData zero m total (gs p) data e = None.
Proof.
  intros Hp Hu Hn. unfold localData, for_loop. rewrite (for_from_fails _ u); [reflexivity| |lia].
  intros s. unfold copyUnknown, copyRange at 1. rewrite (im_excluded _ _ _ _ _ _ _ _ _ IM) by assumption. reflexivity.
Qed.
Lemma writeVector_fails b p u : p < n -> u < numberOfUnknowns m -> ~ In u us -> filter (visible m p) (elements m) <> [] ->
  writeVector zero m total p (gs p) b = None.
Proof.
  intros Hp Hu Hn Hs. unfold writeVector. destruct (filter (visible m p) (elements m)) as [|e es]; [contradiction|].
  destruct (positions m total (gs p) (e :: es)) as [l|]; [|reflexivity]. cbn [forEach]. rewrite (localData_fails p _ e u) by assumption. reflexivity.
Qed.
Lemma setValues_short (number : nat) : forall indices (values : list A), length indices < number -> setValues number indices values = None.
Proof.
  induction number as [|k IH]; intros [|i l] values H; cbn in H; try lia; [reflexivity|]. cbn. destruct values as [|v values]; [reflexivity|].
  rewrite IH by lia. reflexivity.
Qed.
Lemma construct_fails (data : nat -> list A) p e u : p < n -> u < numberOfUnknowns m -> ~ In u us -> StronglySorted lt us -> (forall v, In v us -> v < numberOfUnknowns m) ->
  In e (localElements m p) -> 0 < total e u -> construct m total p (gs p) data = None.
Proof.
  intros Hp Hu Hn Hs Hb He Ht. unfold construct. rewrite (forEach_fails _ (localElements m p) e ([], []) He); [reflexivity|].
  intros s. destruct (local_visible n m VM p e He Hp) as (He' & Hv). rewrite (im_element _ _ _ _ _ _ _ _ _ IM) by assumption.
  rewrite setValues_short; [destruct (length (data e) =? totalNumber m total e); reflexivity|].
  rewrite !map_length.
  assert (HT : forall v, total e v = length (dofs_of_element m [v] e)) by (intros v; apply (im_total _ _ _ _ _ _ _ _ _ IM), He').
  unfold totalNumber. rewrite (dofs_numbers m total e HT).
  assert (HP : Permutation (seq 0 (numberOfUnknowns m)) (us ++ filter (fun v => negb (existsb (Nat.eqb v) us)) (seq 0 (numberOfUnknowns m)))).
  { apply NoDup_Permutation.
    - apply seq_NoDup.
    - assert (NU : NoDup us). { clear -Hs. induction Hs as [|a l Hl IH Ha]; constructor; [|exact IH]. intros Hi. rewrite Forall_forall in Ha. specialize (Ha a Hi). lia. }
      assert (NF : NoDup (filter (fun v => negb (existsb (Nat.eqb v) us)) (seq 0 (numberOfUnknowns m)))) by apply NoDup_filter, seq_NoDup.
      assert (DJ : forall x, In x us -> ~ In x (filter (fun v => negb (existsb (Nat.eqb v) us)) (seq 0 (numberOfUnknowns m)))).
      { intros x Hx Hf. apply filter_In in Hf. destruct Hf as (_ & Hf). apply negb_true_iff in Hf. rewrite <- not_true_iff_false in Hf. apply Hf.
        apply existsb_exists. exists x. split; [exact Hx|apply Nat.eqb_refl]. }
      revert NF DJ NU. generalize (filter (fun v => negb (existsb (Nat.eqb v) us)) (seq 0 (numberOfUnknowns m))). intros F NF. generalize us. intros l DJ NU. revert NU DJ. induction l as [|x l IH]; intros NU DJ; [exact NF|]. inversion NU as [|x' l' H1 H2]; subst.
      cbn. constructor; [|apply IH; [exact H2|intros y Hy; apply DJ; right; exact Hy]].
      intros Hi. apply in_app_or in Hi. destruct Hi as [Hi|Hi]; [contradiction|]. apply (DJ x); [left; reflexivity|exact Hi].
    - intros x. rewrite in_app_iff, filter_In, in_seq. split.
      + intros Hx. destruct (existsb (Nat.eqb x) us) eqn:Ex; [|right; split; [lia|reflexivity]]. left.
        apply existsb_exists in Ex. destruct Ex as (y & Hy & Exy). apply Nat.eqb_eq in Exy. subst y. exact Hy.
      + intros [Hx|(Hx & _)]; [specialize (Hb x Hx); lia|lia]. }
  assert (LP : forall l l', Permutation l l' -> length (dofs_of_element m l e) = length (dofs_of_element m l' e)).
  { intros l l' H. apply Permutation_length. apply perm_flat_map, H. }
  rewrite (LP _ _ HP), dofs_app, app_length.
  assert (Hin : In u (filter (fun v => negb (existsb (Nat.eqb v) us)) (seq 0 (numberOfUnknowns m)))).
  { apply filter_In. split; [apply in_seq; lia|]. apply negb_true_iff, not_true_iff_false. intros Ex. apply Hn.
    apply existsb_exists in Ex. destruct Ex as (y & Hy & Exy). apply Nat.eqb_eq in Exy. subst y. exact Hy. }
  apply in_split in Hin. destruct Hin as (l1 & l2 & ->). rewrite dofs_app, app_length. change (u :: l2) with ([u] ++ l2). rewrite dofs_app, app_length.
  rewrite HT in Ht. lia.
Qed.
End Subset.

(** * The theorems *)
Lemma indexed_map n m unknowns layout r gs total : indexed n m unknowns layout r gs total ->
  exists ix, index_map n m (included m unknowns) (sortedUnknowns m unknowns) r gs total (size_of r) ix.
Proof.
  intros I. destruct (index_map_exists n m layout unknowns r gs total (in_mesh _ _ _ _ _ _ _ I) (in_distinct _ _ _ _ _ _ _ I) (in_unknowns _ _ _ _ _ _ _ I)
    (in_indexing _ _ _ _ _ _ _ I) (in_informed _ _ _ _ _ _ _ I) (in_counts _ _ _ _ _ _ _ I)) as (N & ix & IM).
  exists ix. unfold size_of. rewrite (im_size _ _ _ _ _ _ _ _ _ IM 0 (in_processes _ _ _ _ _ _ _ I)). exact IM.
Qed.
Lemma sorted_unique n m unknowns layout r gs total us : indexed n m unknowns layout r gs total -> StronglySorted lt us ->
  (forall u, In u us <-> In u (included m unknowns)) -> us = sortedUnknowns m unknowns.
Proof.
  intros I Hs H. apply sorted_ext; [exact Hs|apply sortedUnknowns_sorted, (in_distinct _ _ _ _ _ _ _ I)|]. intros u. rewrite sortedUnknowns_in. apply H.
Qed.
Lemma included_lt m unknowns u : valid_unknowns m unknowns -> In u (included m unknowns) -> u < numberOfUnknowns m.
Proof. destruct unknowns as [l|]; cbn; [intros (_ & H); apply H|intros _ H; apply in_seq in H; lia]. Qed.
Lemma all_sorted n m unknowns layout r gs total : indexed n m unknowns layout r gs total -> all_unknowns m unknowns ->
  sortedUnknowns m unknowns = unknowns_of m.
Proof.
  intros I H. symmetry. apply (sorted_unique n m unknowns layout r gs total _ I); [apply seq_sorted|]. intros u. unfold unknowns_of. rewrite in_seq. split.
  - intros Hu. apply H. lia.
  - intros Hu. pose proof (included_lt m unknowns u (in_unknowns _ _ _ _ _ _ _ I) Hu). lia.
Qed.

Theorem assembly (A : Type) (zero : A) (add : A -> A -> A) n m unknowns layout r gs total faces facesList us ev fv :
  (forall x, add zero x = x) -> (forall x y, add x y = add y x) -> (forall x y z, add x (add y z) = add (add x y) z) ->
  indexed n m unknowns layout r gs total -> valid_faces n m faces facesList ->
  StronglySorted lt us -> (forall u, In u us <-> In u (included m unknowns)) ->
  (forall vec, ev = Some vec -> complete m us vec) ->
  (forall vec, fv = Some vec -> forall f, In f faces -> length (vec f) = length (dofs_of_face m us f)) ->
  exists pairs, (forall p, p < n -> assemble m total p (gs p) (facesList p) ev fv = Some (pairs p)) /\
    forall result, assembled add (repeat zero (size_of r)) (flat_map pairs (seq 0 n)) result ->
      exists b, result = Some b /\ length b = size_of r /\
        forall d, is_dof m (included m unknowns) d -> exists i, numbered m r d i /\
          nth_error b i = Some (sum_of add zero (element_shares m us d ev ++ face_shares m us faces d fv)).
Proof.
  intros Hz Hc Ha I VF Hs Hus HE HF. pose proof (sorted_unique _ _ _ _ _ _ _ _ I Hs Hus) as ->. destruct (indexed_map _ _ _ _ _ _ _ I) as (ix & IM).
  destruct (assemble_ok zero n m _ _ r gs total _ ix (in_mesh _ _ _ _ _ _ _ I) IM faces facesList VF add ev fv Hz Hc Ha (in_elements _ _ _ _ _ _ _ I) HE HF)
    as (pairs & HP & HR). exists pairs. split; [exact HP|]. intros result H. destruct (HR result H) as (b & E & L & Hb). exists b. split; [exact E|]. split; [exact L|].
  intros d Hd. exists (ix d). split; [apply (im_numbered _ _ _ _ _ _ _ _ _ IM); auto|]. rewrite (Hb d Hd). destruct ev, fv; reflexivity.
Qed.
Theorem constructed (A : Type) (zero : A) n m unknowns layout r gs total (data : nat -> list A) :
  indexed n m unknowns layout r gs total -> all_unknowns m unknowns -> complete m (unknowns_of m) data -> agree m (unknowns_of m) data ->
  exists pairs, (forall p, p < n -> construct m total p (gs p) data = Some (pairs p)) /\
    forall result, assembled INSERT_VALUES (repeat zero (size_of r)) (flat_map pairs (seq 0 n)) result ->
      exists b, result = Some b /\ length b = size_of r /\
        forall e, In e (elements m) -> values_of m r b (dofs_of_element m (unknowns_of m) e) (data e).
Proof.
  intros I HU HC HA. pose proof (all_sorted _ _ _ _ _ _ _ I HU) as EU. destruct (indexed_map _ _ _ _ _ _ _ I) as (ix & IM). rewrite EU in IM.
  destruct (construct_result zero n m _ _ r gs total _ ix (in_mesh _ _ _ _ _ _ _ I) IM eq_refl data (in_elements _ _ _ _ _ _ _ I) HC HA) as (pairs & HP & HR).
  exists pairs. split; [exact HP|]. intros result H. destruct (HR result H) as (b & E & L & Hb). exists b. split; [exact E|]. split; [exact L|].
  intros e He. apply Forall2_nth; [symmetry; apply HC, He|]. intros k d v Hd Hv. exists (ix d).
  split; [apply (im_numbered _ _ _ _ _ _ _ _ _ IM); [apply (im_dofs _ _ _ _ _ _ _ _ _ IM e d He), (nth_error_In _ _ Hd)|reflexivity]|].
  rewrite (Hb e k d He Hd). exact Hv.
Qed.
Theorem constructed_one (A : Type) (zero : A) n m unknowns layout r gs total u (data : nat -> list A) :
  indexed n m unknowns layout r gs total -> all_unknowns m unknowns -> complete m (unknowns_of m) data -> agree_for m (unknowns_of m) u data ->
  exists pairs, (forall p, p < n -> constructOne zero m total p (gs p) u data = Some (pairs p)) /\
    forall result, assembled INSERT_VALUES (repeat zero (size_of r)) (flat_map pairs (seq 0 n)) result ->
      exists b, result = Some b /\ length b = size_of r /\
        forall e k d, In e (elements m) -> nth_error (dofs_of_element m (unknowns_of m) e) k = Some d ->
          exists i, numbered m r d i /\ nth_error b i = if d_unknown d =? u then nth_error (data e) k else Some zero.
Proof.
  intros I HU HC HA. pose proof (all_sorted _ _ _ _ _ _ _ I HU) as EU. destruct (indexed_map _ _ _ _ _ _ _ I) as (ix & IM). rewrite EU in IM.
  destruct (constructOne_result zero n m _ _ r gs total _ ix (in_mesh _ _ _ _ _ _ _ I) IM eq_refl u data (in_elements _ _ _ _ _ _ _ I) HC HA) as (pairs & HP & HR).
  exists pairs. split; [exact HP|]. intros result H. destruct (HR result H) as (b & E & L & Hb). exists b. split; [exact E|]. split; [exact L|].
  intros e k d He Hd. exists (ix d).
  split; [apply (im_numbered _ _ _ _ _ _ _ _ _ IM); [apply (im_dofs _ _ _ _ _ _ _ _ _ IM e d He), (nth_error_In _ _ Hd)|reflexivity]|].
  apply (Hb e k d He Hd).
Qed.
Lemma values_map {A} (zero : A) n m incl us r gs total N ix b e us' : index_map n m incl us r gs total N ix -> length b = N -> In e (elements m) -> (forall u, In u us' -> In u us) ->
  values_of m r b (dofs_of_element m us' e) (map (val zero ix b) (dofs_of_element m us' e)).
Proof.
  intros IM Lb He Hu. apply Forall2_nth; [rewrite map_length; reflexivity|]. intros k d v Hd Hv. rewrite nth_error_map, Hd in Hv. injection Hv as <-.
  assert (H : is_dof m incl d).
  { apply (im_dofs _ _ _ _ _ _ _ _ _ IM e d He). apply nth_error_In in Hd. unfold dofs_of_element in *. apply in_flat_map in Hd. destruct Hd as (u & Hin & Hd).
    apply in_flat_map. exists u. auto. }
  exists (ix d). split; [apply (im_numbered _ _ _ _ _ _ _ _ _ IM); auto|]. apply (val_ok zero n m incl us r gs total N ix IM b Lb d H).
Qed.
Theorem written (A : Type) (zero : A) n m unknowns layout r gs total p b :
  indexed n m unknowns layout r gs total -> all_unknowns m unknowns -> length b = size_of r -> p < n ->
  exists rows, writeVector zero m total p (gs p) b = Some rows /\ map fst rows = filter (visible m p) (elements m) /\
    forall e values, In (e, values) rows -> values_of m r b (dofs_of_element m (unknowns_of m) e) values.
Proof.
  intros I HU Lb Hp. pose proof (all_sorted _ _ _ _ _ _ _ I HU) as EU. destruct (indexed_map _ _ _ _ _ _ _ I) as (ix & IM). rewrite EU in IM.
  rewrite (writeVector_ok zero n m _ _ r gs total _ ix IM eq_refl b p Lb Hp). eexists. split; [reflexivity|]. split; [rewrite map_map; apply map_id|].
  intros e values H. apply in_map_iff in H. destruct H as (e' & E & H). injection E as -> <-. apply seen_ok in H.
  apply (values_map zero n m _ _ r gs total _ ix b e _ IM Lb (proj1 H)). auto.
Qed.
Theorem written_one (A : Type) (zero : A) n m unknowns layout r gs total p b u :
  indexed n m unknowns layout r gs total -> all_unknowns m unknowns -> length b = size_of r -> p < n -> u < numberOfUnknowns m ->
  (forall e v, In e (elements m) -> visible m p e = true -> v < numberOfUnknowns m -> total e v = total e 0) ->
  exists rows, writeOne zero m total p (gs p) b u = Some rows /\ map fst rows = filter (visible m p) (elements m) /\
    forall e values, In (e, values) rows -> values_of m r b (dofs_of_element m [u] e) values.
Proof.
  intros I HU Lb Hp Hu HS. pose proof (all_sorted _ _ _ _ _ _ _ I HU) as EU. destruct (indexed_map _ _ _ _ _ _ _ I) as (ix & IM). rewrite EU in IM.
  rewrite (writeOne_ok zero n m _ _ r gs total _ ix IM eq_refl b p u Lb Hp Hu).
  2: { intros e v He. apply seen_ok in He. apply HS; apply He. }
  eexists. split; [reflexivity|]. split; [rewrite map_map; apply map_id|].
  intros e values H. apply in_map_iff in H. destruct H as (e' & E & H). injection E as -> <-. apply seen_ok in H.
  refine (values_map zero n m _ _ r gs total _ ix b e [u] IM Lb (proj1 H) _). intros v [<-|[]]. apply in_seq. lia.
Qed.
(** ** Round trips *)
Lemma values_fun (A : Type) n m unknowns layout r gs total (b : list A) e us vs ws : indexed n m unknowns layout r gs total -> all_unknowns m unknowns ->
  In e (elements m) -> (forall u, In u us -> u < numberOfUnknowns m) ->
  values_of m r b (dofs_of_element m us e) vs -> values_of m r b (dofs_of_element m us e) ws -> vs = ws.
Proof.
  intros I HU He Hus. pose proof (all_sorted _ _ _ _ _ _ _ I HU) as EU. destruct (indexed_map _ _ _ _ _ _ _ I) as (ix & IM). rewrite EU in IM.
  assert (HD : forall d, In d (dofs_of_element m us e) -> is_dof m (included m unknowns) d).
  { intros d Hd. apply (im_dofs _ _ _ _ _ _ _ _ _ IM e d He). unfold dofs_of_element in *. apply in_flat_map in Hd. destruct Hd as (u & Hin & Hd).
    apply in_flat_map. exists u. split; [apply in_seq; specialize (Hus u Hin); lia|exact Hd]. }
  unfold values_of. revert vs ws HD. generalize (dofs_of_element m us e). induction l as [|d l IH]; intros vs ws HD H1 H2; inversion H1; inversion H2; subst; [reflexivity|].
  repeat match goal with H : exists _, _ |- _ => destruct H as (? & ? & ?) end.
  repeat match goal with H : numbered m r d ?i |- _ => apply (im_numbered _ _ _ _ _ _ _ _ _ IM) in H; [|apply HD; left; reflexivity] end. subst.
  f_equal; [congruence|]. eapply IH; eauto. intros x Hx. apply HD. right. exact Hx.
Qed.
Theorem there_and_back (A : Type) (zero : A) n m unknowns layout r gs total p (data : nat -> list A) pairs b :
  indexed n m unknowns layout r gs total -> all_unknowns m unknowns -> complete m (unknowns_of m) data -> agree m (unknowns_of m) data ->
  (forall q, q < n -> construct m total q (gs q) data = Some (pairs q)) ->
  assembled INSERT_VALUES (repeat zero (size_of r)) (flat_map pairs (seq 0 n)) (Some b) -> p < n ->
  writeVector zero m total p (gs p) b = Some (map (fun e => (e, data e)) (filter (visible m p) (elements m))).
Proof.
  intros I HU HC HA HP HB Hp. destruct (constructed A zero _ _ _ _ _ _ _ data I HU HC HA) as (pairs' & HP' & HR).
  assert (EP : flat_map pairs (seq 0 n) = flat_map pairs' (seq 0 n)).
  { apply flat_map_in. intros q Hq. apply in_seq in Hq. pose proof (HP q) as E1. rewrite (HP' q) in E1 by lia. symmetry. specialize (E1 ltac:(lia)). congruence. }
  rewrite EP in HB. destruct (HR _ HB) as (b' & Eb & L & Hb). injection Eb as <-.
  destruct (written A zero _ _ _ _ _ _ _ p b I HU L Hp) as (rows & E & Hf & Hr). rewrite E. f_equal. rewrite <- Hf, map_map.
  assert (Hin : forall e, In e (map fst rows) -> In e (elements m)) by (intros e; rewrite Hf; intros He; apply filter_In in He; apply He).
  clear E Hf. induction rows as [|(e, v) rows IH]; [reflexivity|]. cbn [map fst]. f_equal.
  - f_equal. assert (He : In e (elements m)) by (apply Hin; left; reflexivity).
    apply (values_fun A n m unknowns layout r gs total b e (unknowns_of m) v (data e) I HU He).
    + intros u Hu. apply in_seq in Hu. lia.
    + apply Hr. left. reflexivity.
    + apply Hb, He.
  - apply IH; [intros e' v' H; apply Hr; right; exact H|intros e' H; apply Hin; right; exact H].
Qed.
Theorem back_and_there (A : Type) (zero : A) n m unknowns layout r gs total b rows (data : nat -> list A) :
  indexed n m unknowns layout r gs total -> all_unknowns m unknowns -> length b = size_of r ->
  (forall p, p < n -> writeVector zero m total p (gs p) b = Some (rows p)) ->
  (forall e, In e (elements m) -> In (e, data e) (rows (owner m e))) ->
  exists pairs, (forall p, p < n -> construct m total p (gs p) data = Some (pairs p)) /\
    forall result, assembled INSERT_VALUES (repeat zero (size_of r)) (flat_map pairs (seq 0 n)) result -> result = Some b.
Proof.
  intros I HU Lb HW HD. pose proof (all_sorted _ _ _ _ _ _ _ I HU) as EU. destruct (indexed_map _ _ _ _ _ _ _ I) as (ix & IM). rewrite EU in IM.
  assert (EV : forall e, In e (elements m) -> data e = map (val zero ix b) (dofs_of_element m (unknowns_of m) e)).
  { intros e He. specialize (HD e He). pose proof (vm_owner _ _ (in_mesh _ _ _ _ _ _ _ I) e He) as Ho. specialize (HW _ Ho).
    rewrite (writeVector_ok zero n m _ _ r gs total _ ix IM eq_refl b _ Lb Ho) in HW. injection HW as HW. rewrite <- HW in HD.
    apply in_map_iff in HD. destruct HD as (e' & E & _). injection E as -> <-. reflexivity. }
  assert (HC : complete m (unknowns_of m) data) by (intros e He; rewrite (EV e He), map_length; reflexivity).
  assert (HA : agree m (unknowns_of m) data).
  { intros e e' k k' d He He' Hk Hk'. rewrite (EV e He), (EV e' He'), !nth_error_map, Hk, Hk'. reflexivity. }
  destruct (construct_result zero n m _ _ r gs total _ ix (in_mesh _ _ _ _ _ _ _ I) IM eq_refl data (in_elements _ _ _ _ _ _ _ I) HC HA) as (pairs & HP & HR).
  exists pairs. split; [exact HP|]. intros result H. destruct (HR result H) as (b' & E & L & Hb). rewrite E. f_equal.
  apply (vector_ext n m _ _ r gs total _ ix (in_mesh _ _ _ _ _ _ _ I) IM b' b L Lb).
  - intros u Hu. apply in_seq. pose proof (included_lt m unknowns u (in_unknowns _ _ _ _ _ _ _ I) Hu). lia.
  - intros e d He Hd. apply In_nth_error in Hd. destruct Hd as (k & Hk). rewrite (Hb e k d He Hk), (EV e He), nth_error_map, Hk. cbn. symmetry.
    apply (val_ok zero n m _ _ r gs total _ ix IM b Lb), (im_dofs _ _ _ _ _ _ _ _ _ IM e d He), (nth_error_In _ _ Hk).
Qed.
(** ** Refusals *)
Theorem subset_fails (A : Type) (zero : A) n m unknowns layout r gs total p u :
  indexed n m unknowns layout r gs total -> p < n -> u < numberOfUnknowns m -> ~ In u (included m unknowns) ->
  (filter (visible m p) (elements m) <> [] -> forall b, writeVector zero m total p (gs p) b = None) /\
  (forall e, In e (localElements m p) -> 0 < total e u -> forall data : nat -> list A, construct m total p (gs p) data = None).
Proof.
  intros I Hp Hu Hn. destruct (indexed_map _ _ _ _ _ _ _ I) as (ix & IM).
  assert (Hn' : ~ In u (sortedUnknowns m unknowns)) by (rewrite sortedUnknowns_in; exact Hn). split.
  - intros Hs b. apply (writeVector_fails zero n m _ _ r gs total _ ix IM b p u Hp Hu Hn' Hs).
  - intros e He Ht data. apply (construct_fails n m _ _ r gs total _ ix (in_mesh _ _ _ _ _ _ _ I) IM data p e u Hp Hu Hn'); try assumption.
    + apply sortedUnknowns_sorted, (in_distinct _ _ _ _ _ _ _ I).
    + intros v Hv. apply sortedUnknowns_in in Hv. apply (included_lt m unknowns v (in_unknowns _ _ _ _ _ _ _ I) Hv).
Qed.
Theorem different_numbers (A : Type) (zero : A) n m total (gs : nat -> GlobalIndexing) p b u e v : p < n ->
  In e (elements m) -> visible m p e = true -> v < numberOfUnknowns m -> total e v <> total e 0 ->
  @writeOne A zero m total p (gs p) b u = None.
Proof.
  intros Hp He Hv Hlt Hne. apply (writeOne_refuses zero n m gs total b p u e v Hp); [apply filter_In; auto|exact Hlt|exact Hne].
Qed.
