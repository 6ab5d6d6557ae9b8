(** Proofs for C61: time integration vectors. *)
From Coq Require Import List Arith Bool Lia Permutation Sorted.
From Verif Require Import Loop_model Loop_proofs StdMap_model GlobalIndexing_model GlobalIndexing_spec GlobalIndexing_proofs
  GlobalVector_model GlobalVector_spec GlobalVector_proofs.
Import ListNotations.

Lemma forEach_fails {S B} (body : S -> B -> option S) l x s : In x l -> (forall s, body s x = None) -> forEach body l s = None.
Proof.
  intros H E. revert s. induction l as [|y l IH]; intros s; [destruct H|]. cbn [forEach]. destruct H as [->|H]; [rewrite E; reflexivity|].
  destruct (body s y); [apply IH, H|reflexivity].
Qed.

(** * Degrees of freedom of an element *)
Lemma dofs_app m us vs e : dofs_of_element m (us ++ vs) e = dofs_of_element m us e ++ dofs_of_element m vs e.
Proof. apply flat_map_app. Qed.
Lemma dofs_unknown m u e d : In d (dofs_of_element m [u] e) -> d_unknown d = u.
Proof.
  unfold dofs_of_element. cbn [flat_map]. rewrite app_nil_r. intros H. apply in_flat_map in H. destruct H as (o & _ & H).
  apply in_map_iff in H. destruct H as (i & <- & _). reflexivity.
Qed.
Lemma dofs_numbers m (total : nat -> nat -> nat) e : (forall u, total e u = length (dofs_of_element m [u] e)) ->
  forall k, fold_left (fun number u => number + total e u) (seq 0 k) 0 = length (dofs_of_element m (seq 0 k) e).
Proof.
  intros H. induction k as [|k IH]; [reflexivity|]. rewrite seq_S, fold_left_app, dofs_app, app_length, IH. cbn [fold_left plus]. rewrite H. reflexivity.
Qed.
Lemma dofs_at m U e u i : u < U -> i < length (dofs_of_element m [u] e) ->
  nth_error (dofs_of_element m (seq 0 U) e) (length (dofs_of_element m (seq 0 u) e) + i) = nth_error (dofs_of_element m [u] e) i.
Proof.
  intros Hu Hi. replace U with (u + (1 + (U - u - 1))) by lia. rewrite seq_app, dofs_app, seq_app, dofs_app.
  rewrite nth_error_app2 by lia. replace (_ + i - _) with i by lia. rewrite nth_error_app1 by exact Hi. reflexivity.
Qed.
Lemma dofs_prefix m U e u : u <= U -> length (dofs_of_element m (seq 0 u) e) <= length (dofs_of_element m (seq 0 U) e).
Proof. intros H. replace U with (u + (U - u)) by lia. rewrite seq_app, dofs_app, app_length. lia. Qed.
Lemma in_nth {A} (x : A) l : In x l -> exists k, nth_error l k = Some x.
Proof. apply In_nth_error. Qed.

(** * Writing ranges *)
Section Puts.
Context {A : Type}.
Definition puts (op : list A * nat -> option (list A * nat)) (X : list A) : Prop :=
  forall a R, length X <= length R -> op (a ++ R, length a) = Some ((a ++ X) ++ skipn (length X) R, length (a ++ X)).
Lemma put_app (a : list A) y R x : write (a ++ y :: R) (length a) x = Some (a ++ x :: R).
Proof. induction a as [|z a IH]; cbn; [reflexivity|]. rewrite IH. reflexivity. Qed.
Lemma puts_nil : puts Some [].
Proof. intros a R _. cbn. rewrite app_nil_r. reflexivity. Qed.
Lemma puts_bind f g X Y : puts f X -> puts g Y -> puts (fun s => bind (f s) g) (X ++ Y).
Proof.
  intros HX HY a R L. rewrite app_length in L. rewrite HX by lia. cbn [bind]. rewrite HY by (rewrite skipn_length; lia).
  rewrite skipn_skipn', !app_length, <- !app_assoc, <- Nat.add_assoc. reflexivity.
Qed.
Lemma puts_ext f g X : (forall s, f s = g s) -> puts f X -> puts g X.
Proof. intros E H a R L. rewrite <- E. apply H, L. Qed.
Lemma puts_one x : puts (fun s => match write (fst s) (snd s) x with None => None | Some v => Some (v, S (snd s)) end) [x].
Proof.
  intros a R L. destruct R as [|y R]; [cbn in L; lia|]. cbn [fst snd]. rewrite put_app. cbn. rewrite <- app_assoc, app_length.
  cbn. do 2 f_equal. lia.
Qed.
Lemma puts_range (data : nat -> option A) (val : nat -> A) b c : forall start, (forall i, start <= i < start + c -> data (b + i) = Some (val i)) ->
  puts (for_from start c (fun i s => match data (b + i) with None => None | Some v => match write (fst s) (snd s) v with None => None | Some l => Some (l, S (snd s)) end end))
    (map val (seq start c)).
Proof.
  induction c as [|c IH]; intros start H; cbn [for_from seq map]; [apply puts_nil|].
  change (val start :: ?l) with ([val start] ++ l).
  eapply puts_ext; [|apply puts_bind; [apply (puts_one (val start))|apply (IH (S start))]].
  - intros s. rewrite (H start) by lia. cbn [bind]. destruct (write (fst s) (snd s) (val start)); reflexivity.
  - intros i Hi. apply H. lia.
Qed.
End Puts.

Section Write.
Context {A : Type} (zero : A) (n : nat) (m : Mesh) (incl us : list nat) (r gs : nat -> GlobalIndexing) (total : nat -> nat -> nat) (N : nat) (ix : dof -> nat).
Context (VM : valid_mesh n m) (IM : index_map n m incl us r gs total N ix).
Notation D e := (dofs_of_element m us e).
Notation OD o u := (map (fun i => {| d_kind := fst o; d_id := snd o; d_unknown := u; d_fn := i |}) (seq 0 (localNumberOfBasisFunctions m (fst o) (snd o) u))).

Lemma covered d : is_dof m incl d -> (forall u, In u incl -> In u us) -> exists e k, In e (elements m) /\ nth_error (D e) k = Some d.
Proof.
  intros ((C & e & He & Ha) & Hu & Hf) HU. exists e.
  assert (Ho : In (d_kind d, d_id d) (objects_of_element m e)).
  { unfold objects_of_element. destruct (d_kind d) eqn:Ek; cbn in Ha.
    - destruct Ha as [<-|[]]. left. reflexivity.
    - right. apply in_or_app. left. apply in_map, (vm_adjacency _ _ VM); [discriminate|exact He|exact Ha].
    - right. apply in_or_app. right. apply in_or_app. left. apply in_map, (vm_adjacency _ _ VM); [discriminate|exact He|exact Ha].
    - right. apply in_or_app. right. apply in_or_app. right. cbn in C. destruct (Nat.ltb_spec 1 (dimension m)); [|lia].
      apply in_map, (vm_adjacency _ _ VM); [discriminate|exact He|exact Ha]. }
  destruct (in_nth d (D e)) as (k & Hk); [|eauto].
  unfold dofs_of_element. apply in_flat_map. exists (d_unknown d). split; [apply HU, Hu|]. apply in_flat_map.
  exists (d_kind d, d_id d). split; [exact Ho|]. apply in_map_iff. exists (d_fn d). split; [destruct d; reflexivity|]. apply in_seq. cbn. lia.
Qed.

(** ** Reading *)
Section Reading.
Context (b : list A) (Lb : length b = N).
Definition val (d : dof) : A := nth (ix d) b zero.
Lemma val_ok d : is_dof m incl d -> nth_error b (ix d) = Some (val d).
Proof. intros H. apply nth_error_nth'. rewrite Lb. apply (im_lt _ _ _ _ _ _ _ _ _ IM), H. Qed.
Lemma positions_ok p : p < n -> forall es, (forall e, In e es -> In e (elements m) /\ visible m p e = true) ->
  positions m total (gs p) es = Some (flat_map (fun e => map ix (D e)) es).
Proof.
  intros Hp es Hes. unfold positions.
  match goal with |- option_map snd (forEach ?body _ _) = _ => destruct (forEach_acc body (fun e => map ix (D e)) es ([], [])) as (o & E) end.
  - intros o acc e He. destruct (Hes e He) as (He' & Hv). cbn [fst snd]. rewrite (im_element _ _ _ _ _ _ _ _ _ IM) by assumption.
    eexists. reflexivity.
  - rewrite E. reflexivity.
Qed.
Lemma fetch_ok l d : is_dof m incl d -> In (ix d) l -> fetch b l (ix d) = Some (val d).
Proof.
  intros Hd Hl. unfold fetch. replace (existsb (Nat.eqb (ix d)) l) with true; [apply val_ok, Hd|].
  symmetry. apply existsb_exists. exists (ix d). split; [exact Hl|apply Nat.eqb_refl].
Qed.
Section Element.
Context (p e : nat) (Hp : p < n) (He : In e (elements m)) (Hv : visible m p e = true) (data : nat -> option A)
  (Hdata : forall d, In d (D e) -> data (ix d) = Some (val d)).
Lemma element_object o u i : In o (objects_of_element m e) -> In u us -> i < localNumberOfBasisFunctions m (fst o) (snd o) u ->
  In {| d_kind := fst o; d_id := snd o; d_unknown := u; d_fn := i |} (D e).
Proof.
  intros Ho Hu Hi. unfold dofs_of_element. apply in_flat_map. exists u. split; [exact Hu|]. apply in_flat_map. exists o. split; [exact Ho|].
  apply in_map_iff. exists i. split; [reflexivity|]. apply in_seq. lia.
Qed.
Lemma copyRange_ok k u x : In (k, x) (objects_of_element m e) -> In u us -> puts (copyRange m (gs p) data k u x) (map val (OD (k, x) u)).
Proof.
  intros Ho Hu a R L. unfold copyRange.
  destruct (im_get _ _ _ _ _ _ _ _ _ IM p e k x u Hp He Hv Ho Hu) as (i & Ei & Hi). rewrite Ei.
  rewrite map_map in *. apply puts_range; [|exact L]. intros j Hj. cbn [fst snd] in Hj |- *. rewrite Hi by lia. apply Hdata.
  apply (element_object (k, x)); [exact Ho|exact Hu|cbn; lia].
Qed.
Lemma copyRanges_ok k u : In u us -> forall xs, (forall x, In x xs -> In (k, x) (objects_of_element m e)) ->
  puts (copyRanges m (gs p) data k u xs) (flat_map (fun x => map val (OD (k, x) u)) xs).
Proof.
  intros Hu. induction xs as [|x xs IH]; intros H; cbn [copyRanges flat_map]; [apply puts_nil|].
  eapply puts_ext; [|apply puts_bind; [apply (copyRange_ok k u x); [apply H; left; reflexivity|exact Hu]|apply IH; intros y Hy; apply H; right; exact Hy]].
  intros s. unfold bind. destruct (copyRange m (gs p) data k u x s); reflexivity.
Qed.
Lemma flat_pair k u xs : flat_map (fun o : object => map val (OD o u)) (map (pair k) xs) = flat_map (fun x => map val (OD (k, x) u)) xs.
Proof. induction xs as [|x xs IH]; cbn; [reflexivity|]. rewrite IH. reflexivity. Qed.
Lemma copyUnknown_ok u : In u us -> puts (copyUnknown m (gs p) data e u) (map val (dofs_of_element m [u] e)).
Proof.
  intros Hu. unfold dofs_of_element. cbn [flat_map]. rewrite app_nil_r.
  assert (EM : forall l : list object, map val (flat_map (fun o => OD o u) l) = flat_map (fun o => map val (OD o u)) l).
  { induction l as [|o l IH]; [reflexivity|]. cbn [flat_map]. rewrite map_app, IH. reflexivity. }
  rewrite EM. unfold objects_of_element. cbn [flat_map]. rewrite !flat_map_app, !flat_pair.
  eapply puts_ext with (f := fun s => bind (copyRange m (gs p) data KElement u e s) (fun s => bind (copyRanges m (gs p) data KFace u (objectsOf m KFace e) s) (fun s =>
    bind (copyRanges m (gs p) data KEdge u (objectsOf m KEdge e) s) (fun s => if 1 <? dimension m then copyRanges m (gs p) data KNode u (objectsOf m KNode e) s else Some s)))); [reflexivity|].
  apply puts_bind; [apply copyRange_ok; [left; reflexivity|exact Hu]|].
  apply puts_bind; [apply copyRanges_ok; [exact Hu|]; intros x Hx; right; rewrite in_app_iff; left; apply in_map, Hx|].
  apply puts_bind; [apply copyRanges_ok; [exact Hu|]; intros x Hx; right; rewrite !in_app_iff; right; left; apply in_map, Hx|].
  destruct (1 <? dimension m) eqn:E1.
  - rewrite flat_pair. apply copyRanges_ok; [exact Hu|]. intros x Hx. right. rewrite !in_app_iff, E1. right. right. apply in_map, Hx.
  - apply puts_nil.
Qed.
Lemma unknowns_ok c : forall start, (forall u, start <= u < start + c -> In u us) ->
  puts (for_from start c (copyUnknown m (gs p) data e)) (map val (dofs_of_element m (seq start c) e)).
Proof.
  induction c as [|c IH]; intros start H; cbn [for_from seq]; [apply puts_nil|].
  change (start :: seq (S start) c) with ([start] ++ seq (S start) c). rewrite dofs_app, map_app.
  eapply puts_ext; [|apply puts_bind; [apply (copyUnknown_ok start); apply H; lia|apply IH; intros u Hu; apply H; lia]].
  intros s. unfold bind. destruct (copyUnknown m (gs p) data e start s); reflexivity.
Qed.
Context (EU : us = unknowns_of m).
Lemma localData_ok : localData zero m total (gs p) data e = Some (map val (D e)).
Proof.
  unfold localData, for_loop.
  assert (ET : totalNumber m total e = length (D e)).
  { unfold totalNumber. rewrite (dofs_numbers m total e); [|intros u; apply (im_total _ _ _ _ _ _ _ _ _ IM), He]. rewrite EU. reflexivity. }
  pose proof (unknowns_ok (numberOfUnknowns m) 0) as H.
  assert (Hu : forall u, 0 <= u < 0 + numberOfUnknowns m -> In u us) by (intros u Hu; rewrite EU; apply in_seq; lia).
  specialize (H Hu [] (repeat zero (totalNumber m total e))). cbn [app length] in H. fold (unknowns_of m) in H. rewrite <- EU in H.
  rewrite map_length, repeat_length, ET in H. rewrite ET, H by lia. rewrite skipn_all2 by (rewrite repeat_length; lia).
  rewrite app_nil_r, map_length, Nat.eqb_refl. reflexivity.
Qed.
End Element.
End Reading.
Context (EU : us = unknowns_of m).
Definition seen (p : nat) : list nat := filter (visible m p) (elements m).
Lemma seen_ok p e : In e (seen p) -> In e (elements m) /\ visible m p e = true.
Proof. unfold seen. rewrite filter_In. auto. Qed.
Lemma rows_ok {B} (f : nat -> option B) (h : nat -> B) es : (forall e, In e es -> f e = Some (h e)) ->
  forEach (fun rows e => option_map (fun d => rows ++ [(e, d)]) (f e)) es [] = Some (map (fun e => (e, h e)) es).
Proof.
  intros H. rewrite (forEach_append _ (fun e => [(e, h e)])).
  - reflexivity.
  - intros acc e He. rewrite (H e He). reflexivity.
Qed.
Lemma element_data b p e : length b = N -> p < n -> In e (seen p) ->
  localData zero m total (gs p) (fetch b (flat_map (fun e => map ix (D e)) (seen p))) e = Some (map (val b) (D e)).
Proof.
  intros Lb Hp He. destruct (seen_ok p e He) as (He' & Hv). apply (localData_ok b Lb p e Hp He' Hv); [|exact EU].
  intros d Hd. apply fetch_ok; [exact Lb|apply (im_dofs _ _ _ _ _ _ _ _ _ IM e d He' Hd)|]. apply in_flat_map. exists e.
  split; [exact He|apply in_map, Hd].
Qed.
Theorem writeVector_ok b p : length b = N -> p < n ->
  writeVector zero m total p (gs p) b = Some (map (fun e => (e, map (val b) (D e))) (seen p)).
Proof.
  intros Lb Hp. unfold writeVector. fold (seen p). rewrite (positions_ok p Hp (seen p)) by apply seen_ok.
  apply (rows_ok (localData zero m total (gs p) (fetch b (flat_map (fun e => map ix (D e)) (seen p))))). intros e He. apply element_data; assumption.
Qed.
Lemma writeOne_ok b p u : length b = N -> p < n -> u < numberOfUnknowns m ->
  (forall e v, In e (seen p) -> v < numberOfUnknowns m -> total e v = total e 0) ->
  writeOne zero m total p (gs p) b u = Some (map (fun e => (e, map (val b) (dofs_of_element m [u] e))) (seen p)).
Proof.
  intros Lb Hp Hu HS. unfold writeOne. fold (seen p). rewrite (positions_ok p Hp (seen p)) by apply seen_ok.
  rewrite (forEach_append _ (fun e => [(e, map (val b) (dofs_of_element m [u] e))])).
  - reflexivity.
  - intros acc e He. rewrite (element_data b p e Lb Hp He). unfold sameNumbers.
    replace (forallb _ _) with true.
    2: { symmetry. apply forallb_forall. intros v Hv. apply in_seq in Hv. apply Nat.eqb_eq, HS; [exact He|lia]. }
    destruct (Nat.ltb_spec u (numberOfUnknowns m)); [|lia]. destruct (seen_ok p e He) as (He' & Hv).
    assert (HT : forall v, total e v = length (dofs_of_element m [v] e)) by (intros v; apply (im_total _ _ _ _ _ _ _ _ _ IM), He').
    rewrite <- (HS e u He Hu), HT.
    rewrite (collect_ok _ _ (fun i => nth i (map (val b) (dofs_of_element m [u] e)) zero)).
    + cbn [option_map]. do 4 f_equal. rewrite <- (map_length (val b)).
      generalize (map (val b) (dofs_of_element m [u] e)). clear. induction l as [|x l IH]; [reflexivity|]. cbn [length seq map nth]. f_equal.
      rewrite <- seq_shift, map_map. exact IH.
    + intros i Hi. unfold singleIndex. rewrite (dofs_numbers m total e HT u). rewrite nth_error_map, EU. unfold unknowns_of.
      rewrite dofs_at by assumption. rewrite <- nth_error_map. apply nth_error_nth'. rewrite map_length. exact Hi.
Qed.
Lemma writeOne_refuses b p u e v : p < n -> In e (seen p) -> v < numberOfUnknowns m -> total e v <> total e 0 ->
  writeOne zero m total p (gs p) b u = None.
Proof.
  intros Hp He Hv Hne. unfold writeOne. fold (seen p). destruct (positions m total (gs p) (seen p)) as [l|]; [|reflexivity].
  assert (E : forall rows, match localData zero m total (gs p) (fetch b l) e, sameNumbers m total e with
    | Some d, Some number => if u <? numberOfUnknowns m then option_map (fun single => rows ++ [(e, single)]) (collect number (fun i => nth_error d (singleIndex total e i u))) else None
    | _, _ => None end = None).
  { intros rows. unfold sameNumbers. replace (forallb _ _) with false; [destruct (localData _ _ _ _ _ _); reflexivity|].
    symmetry. destruct (forallb _ _) eqn:Ef; [|reflexivity]. exfalso. rewrite forallb_forall in Ef. apply Hne, Nat.eqb_eq, Ef, in_seq. lia. }
  apply (forEach_fails _ (seen p) e [] He E).
Qed.

(** ** Constructing *)
Lemma totalNumber_ok e : In e (elements m) -> totalNumber m total e = length (D e).
Proof.
  intros He. unfold totalNumber. rewrite (dofs_numbers m total e); [|intros u; apply (im_total _ _ _ _ _ _ _ _ _ IM), He]. rewrite EU. reflexivity.
Qed.
Lemma construct_ok p (data : nat -> list A) : p < n -> complete m us data ->
  construct m total p (gs p) data = Some (flat_map (elementPairs m us ix data) (localElements m p)).
Proof.
  intros Hp HC. unfold construct.
  match goal with |- option_map snd (forEach ?body _ _) = _ => destruct (forEach_acc body (elementPairs m us ix data) (localElements m p) ([], [])) as (o & E) end.
  - intros o acc e He. destruct (local_visible n m VM p e He Hp) as (He' & Hv). cbn [fst snd].
    rewrite (im_element _ _ _ _ _ _ _ _ _ IM) by assumption. exists (map ix (D e)).
    rewrite totalNumber_ok by exact He'.
    assert (L : length (map ix (D e)) = length (data e)) by (rewrite map_length; symmetry; apply HC, He').
    rewrite (HC e He'), Nat.eqb_refl. replace (length (D e)) with (length (map ix (D e))) by apply map_length.
    rewrite setValues_all by exact L. reflexivity.
  - rewrite E. reflexivity.
Qed.
Lemma entries_in d ds (vs : list A) v : In v (entries d ds vs) <-> exists k, nth_error ds k = Some d /\ nth_error vs k = Some v.
Proof.
  unfold entries. revert vs. induction ds as [|d' ds IH]; intros vs; cbn [combine filter map].
  - split; [intros []|intros ([|k] & H & _); discriminate].
  - destruct vs as [|v' vs]; cbn [combine filter map]; [split; [intros []|intros (k & _ & H); destruct k; discriminate]|].
    cbn [fst]. destruct (dof_eqb_spec d' d) as [->|Ne]; cbn [map snd In]; rewrite IH; split.
    + intros [<-|(k & H1 & H2)]; [exists 0; auto|exists (S k); auto].
    + intros ([|k] & H1 & H2); [left; cbn in H2; congruence|right; exists k; auto].
    + intros (k & H1 & H2). exists (S k). auto.
    + intros ([|k] & H1 & H2); [cbn in H1; congruence|exists k; auto].
Qed.

(** the values that an assembly stores *)
Lemma inserted (pairs F : list (nat * A)) result : Permutation pairs F -> (forall q, In q F -> fst q < N) ->
  assembled INSERT_VALUES (repeat zero N) pairs result ->
  exists b, result = Some b /\ length b = N /\
    (forall i v, i < N -> In v (at_ i F) -> (forall w, In w (at_ i F) -> w = v) -> nth_error b i = Some v) /\
    (forall i, i < N -> at_ i F = [] -> nth_error b i = Some zero).
Proof.
  intros HP HB (order & HO & <-). assert (P2 : Permutation order F) by (eapply perm_trans; eassumption).
  destruct (forEach_set INSERT_VALUES order (repeat zero N)) as (b & E & L & Nb).
  { intros q Hq. rewrite repeat_length. apply HB, (Permutation_in _ P2), Hq. }
  rewrite repeat_length in L. exists b. split; [exact E|]. split; [exact L|].
  assert (Z : forall i, i < N -> nth_error (repeat zero N) i = Some zero) by (intros i Hi; apply nth_error_repeat, Hi).
  split.
  - intros i v Hi Hv Hall. rewrite (Nb i zero (Z i Hi)). f_equal. pose proof (at_perm i _ _ P2) as Pa. apply insert_all.
    + intros E0. rewrite E0 in Pa. apply Permutation_nil in Pa. rewrite Pa in Hv. destruct Hv.
    + intros w Hw. apply Hall, (Permutation_in _ Pa), Hw.
  - intros i Hi E0. rewrite (Nb i zero (Z i Hi)). pose proof (at_perm i _ _ P2) as Pa. rewrite E0 in Pa.
    apply Permutation_sym, Permutation_nil in Pa. rewrite Pa. reflexivity.
Qed.
Theorem construct_result (data : nat -> list A) : NoDup (elements m) -> complete m us data -> agree m us data ->
  exists pairs, (forall p, p < n -> construct m total p (gs p) data = Some (pairs p)) /\
    forall result, assembled INSERT_VALUES (repeat zero N) (flat_map pairs (seq 0 n)) result ->
      exists b, result = Some b /\ length b = N /\
        forall e k d, In e (elements m) -> nth_error (D e) k = Some d -> nth_error b (ix d) = nth_error (data e) k.
Proof.
  intros NDe HC HA. exists (fun p => flat_map (elementPairs m us ix data) (localElements m p)). split; [intros p Hp; apply construct_ok; assumption|].
  intros result H.
  pose proof (fun P B => inserted _ (flat_map (elementPairs m us ix data) (elements m)) result P B H) as HI.
  destruct HI as (b & E & L & H1 & _).
  - rewrite flat_map_nested. apply perm_flat_map, (elements_perm n m VM NDe).
  - intros q Hq. apply in_flat_map in Hq. destruct Hq as (e & He & Hq).
    refine (pairs_bound n m incl us r gs total N ix IM (D e) (data e) q _ Hq). intros d. apply (im_dofs _ _ _ _ _ _ _ _ _ IM), He.
  - exists b. split; [exact E|]. split; [exact L|]. intros e k d He Hk.
    assert (Hd : is_dof m incl d) by (apply (im_dofs _ _ _ _ _ _ _ _ _ IM e d He); eapply nth_error_In; exact Hk).
    destruct (nth_error (data e) k) as [v|] eqn:Ev.
    + apply H1; [apply (im_lt _ _ _ _ _ _ _ _ _ IM), Hd| |].
      * rewrite (at_elements n m incl us r gs total N ix IM) by auto. apply in_flat_map. exists e. split; [exact He|]. apply entries_in. eauto.
      * intros w Hw. rewrite (at_elements n m incl us r gs total N ix IM) in Hw by auto. apply in_flat_map in Hw.
        destruct Hw as (e' & He' & Hw). apply entries_in in Hw. destruct Hw as (k' & Hk' & Hw).
        pose proof (HA e e' k k' d He He' Hk Hk') as HE. congruence.
    + exfalso. apply nth_error_None in Ev. rewrite (HC e He) in Ev. assert (k < length (D e)) by (apply nth_error_Some; congruence). lia.
Qed.
Lemma vector_ext (b b' : list A) : length b = N -> length b' = N -> (forall u, In u incl -> In u us) ->
  (forall e d, In e (elements m) -> In d (D e) -> nth_error b (ix d) = nth_error b' (ix d)) -> b = b'.
Proof.
  intros L L' HU H. assert (E : forall i, nth_error b i = nth_error b' i).
  { intros i. destruct (Nat.lt_ge_cases i N) as [Hi|Hi].
    - destruct (im_surj _ _ _ _ _ _ _ _ _ IM i Hi) as (d & Hd & <-). destruct (covered d Hd HU) as (e & k & He & Hk).
      apply (H e); [exact He|]. eapply nth_error_In. exact Hk.
    - transitivity (@None A); [|symmetry]; apply nth_error_None; lia. }
  clear -E. revert b' E. induction b as [|x b IH]; intros [|y b'] E; [reflexivity|specialize (E 0); discriminate|specialize (E 0); discriminate|].
  pose proof (E 0) as E0. cbn in E0. injection E0 as ->. f_equal. apply IH. intros i. apply (E (S i)).
Qed.
End Write.
