(** Proofs for C62: assembly. *)
From Coq Require Import List Arith Bool Lia Permutation Sorted.
From Verif Require Import Loop_model Loop_proofs StdMap_model GlobalIndexing_model GlobalIndexing_spec GlobalIndexing_proofs
  GlobalVector_model GlobalVector_spec GlobalVector_proofs GlobalVectorWrite_proofs GlobalVectorOne_proofs GlobalMatrix_model GlobalMatrix_spec.
Import ListNotations.

(** * PETSc *)
Definition triples {A} (rows columns : list nat) (data : list A) : list (@entry A) :=
  flat_map (fun l => flat_map (fun k =>
    match nth_error rows k, nth_error columns l, nth_error data (l * length rows + k) with
    | Some i, Some j, Some v => [((i, j), v)]
    | _, _, _ => []
    end) (seq 0 (length rows))) (seq 0 (length columns)).
Lemma matSetValues_ok {A} rows columns (data : list A) : length data = length rows * length columns ->
  matSetValues rows columns data = Some (triples rows columns data).
Proof.
  intros L. unfold matSetValues, triples. change (Some (flat_map ?f ?l)) with (Some ([] ++ flat_map f l)). apply forEach_append. intros acc l Hl. apply in_seq in Hl.
  apply forEach_append. intros acc' k Hk. apply in_seq in Hk.
  destruct (nth_error rows k) as [i|] eqn:E1; [|apply nth_error_None in E1; lia].
  destruct (nth_error columns l) as [j|] eqn:E2; [|apply nth_error_None in E2; lia].
  destruct (nth_error data (l * length rows + k)) as [v|] eqn:E3; [reflexivity|]. apply nth_error_None in E3. nia.
Qed.
Lemma triples_in {A} rows columns (data : list A) t : In t (triples rows columns data) -> In (fst (fst t)) rows /\ In (snd (fst t)) columns.
Proof.
  intros H. apply in_flat_map in H. destruct H as (l & _ & H). apply in_flat_map in H. destruct H as (k & _ & H).
  destruct (nth_error rows k) as [i|] eqn:E1; [|destruct H]. destruct (nth_error columns l) as [j|] eqn:E2; [|destruct H].
  destruct (nth_error data (l * length rows + k)) as [v|]; [|destruct H]. destruct H as [<-|[]]. cbn.
  split; eapply nth_error_In; eassumption.
Qed.
Definition at2 {A} (i j : nat) (l : list (@entry A)) : list A := map snd (filter (fun q => (fst (fst q) =? i) && (snd (fst q) =? j)) l).
Lemma at2_perm {A} i j (l l' : list (@entry A)) : Permutation l l' -> Permutation (at2 i j l) (at2 i j l').
Proof.
  intros H. apply Permutation_map. induction H as [|x l l' H IH|x y l|l l' l'' H1 IH1 H2 IH2]; cbn.
  - constructor.
  - destruct ((fst (fst x) =? i) && (snd (fst x) =? j)); [apply perm_skip|]; exact IH.
  - destruct ((fst (fst x) =? i) && (snd (fst x) =? j)), ((fst (fst y) =? i) && (snd (fst y) =? j)); try apply Permutation_refl. apply perm_swap.
  - eapply perm_trans; eassumption.
Qed.
Lemma at2_app {A} i j (l l' : list (@entry A)) : at2 i j (l ++ l') = at2 i j l ++ at2 i j l'.
Proof. unfold at2. rewrite filter_app, map_app. reflexivity. Qed.
Lemma at2_flat_map {A B} i j (F : B -> list (@entry A)) l : at2 i j (flat_map F l) = flat_map (fun x => at2 i j (F x)) l.
Proof. induction l as [|x l IH]; [reflexivity|]. cbn [flat_map]. rewrite at2_app, IH. reflexivity. Qed.
Definition cell {A} (M : list (list A)) (i j : nat) : option A := match nth_error M i with None => None | Some row => nth_error row j end.
Lemma forEach_add {A} (add : A -> A -> A) R C : forall order M, length M = R -> (forall row, In row M -> length row = C) ->
  (forall t, In t order -> fst (fst t) < R /\ snd (fst t) < C) ->
  exists M', forEach (addEntry add) order M = Some M' /\ length M' = R /\ (forall row, In row M' -> length row = C) /\
    forall i j x, cell M i j = Some x -> cell M' i j = Some (fold_left add (at2 i j order) x).
Proof.
  induction order as [|((i0, j0), v) order IH]; intros M LM LR H.
  - exists M. split; [reflexivity|]. split; [exact LM|]. split; [exact LR|]. intros i j x E. exact E.
  - cbn [forEach]. unfold addEntry at 1. cbn [fst snd].
    destruct (H ((i0, j0), v) (or_introl eq_refl)) as (Hi & Hj). cbn [fst snd] in Hi, Hj.
    destruct (nth_error M i0) as [row|] eqn:Er; [|apply nth_error_None in Er; lia].
    pose proof (LR row (nth_error_In _ _ Er)) as Lr.
    destruct (nth_error row j0) as [y|] eqn:Ey; [|apply nth_error_None in Ey; lia].
    destruct (write_ok row j0 (add y v)) as (row' & E1 & L1 & N1); [lia|]. rewrite E1.
    destruct (write_ok M i0 row') as (M1 & E2 & L2 & N2); [lia|]. rewrite E2.
    destruct (IH M1) as (M' & E & L & LR' & NM).
    + lia.
    + intros r0 Hr0. apply In_nth_error in Hr0. destruct Hr0 as (k & Hk). rewrite N2 in Hk. destruct (k =? i0); [injection Hk as <-; lia|].
      apply LR. apply (nth_error_In _ _ Hk).
    + intros t Ht. apply H. right. exact Ht.
    + exists M'. split; [exact E|]. split; [exact L|]. split; [exact LR'|]. intros i j x Ex. unfold at2. cbn [filter fst snd].
      destruct (Nat.eqb_spec i0 i) as [->|Ni]; cbn [andb].
      * unfold cell in Ex. rewrite Er in Ex. destruct (Nat.eqb_spec j0 j) as [->|Nj].
        -- cbn [map snd fold_left]. rewrite (NM i j (add y v)); [assert (y = x) as -> by congruence; reflexivity|].
           unfold cell. rewrite N2, Nat.eqb_refl, N1, Nat.eqb_refl. reflexivity.
        -- apply NM. unfold cell. rewrite N2, Nat.eqb_refl, N1. destruct (Nat.eqb_spec j j0) as [->|_]; [congruence|exact Ex].
      * apply NM. unfold cell in *. rewrite N2. destruct (Nat.eqb_spec i i0) as [->|_]; [congruence|exact Ex].
Qed.

Section Exchange.
Context {A : Type} (zero : A) (n : nat) (m : Mesh) (total : nat -> nat -> nat).
Context (incl us : list nat) (r gs : nat -> GlobalIndexing) (N : nat) (ix : dof -> nat).
Context (incl' us' : list nat) (r' gs' : nat -> GlobalIndexing) (N' : nat) (ix' : dof -> nat).
Context (VM : valid_mesh n m) (IM : index_map n m incl us r gs total N ix) (IM' : index_map n m incl' us' r' gs' total N' ix').
Context (gc : nat -> option GlobalIndexing).
Context (HC : forall p, p < n -> gc p = Some (gs' p) \/ gc p = None /\ us' = us /\ ix' = ix).
Context (faces : list nat) (facesList : nat -> list nat) (VF : valid_faces n m faces facesList).
Notation D e := (dofs_of_element m us e).
Notation D' e := (dofs_of_element m us' e).

Definition blockTriples (ds ds' : list dof) (M : LocalMatrix A) : list (@entry A) := triples (map ix ds) (map ix' ds') (storage M).
Lemma at_block d d' ds ds' M : fits ds ds' M -> is_dof m incl d -> is_dof m incl' d' ->
  (forall x, In x ds -> is_dof m incl x) -> (forall x, In x ds' -> is_dof m incl' x) ->
  at2 (ix d) (ix' d') (blockTriples ds ds' M) = matrix_entries d d' ds ds' M.
Proof.
  intros (F1 & F2 & F3) Hd Hd' H H'. unfold blockTriples, triples, matrix_entries. rewrite at2_flat_map, !map_length. apply flat_map_in. intros l Hl. apply in_seq in Hl.
  rewrite at2_flat_map. apply flat_map_in. intros k Hk. apply in_seq in Hk. rewrite !nth_error_map.
  destruct (nth_error ds k) as [x|] eqn:E1; [|reflexivity]. destruct (nth_error ds' l) as [y|] eqn:E2; [|reflexivity]. cbn [option_map].
  unfold at_row_column. rewrite F1. destruct (Nat.ltb_spec k (length ds)) as [_|?]; [|lia]. rewrite (Nat.mul_comm (length ds) l).
  destruct (nth_error (storage M) (l * length ds + k)) as [v|]; [|reflexivity].
  unfold at2. cbn [filter fst snd].
  assert (Ea : (ix x =? ix d) = dof_eqb x d).
  { destruct (Nat.eqb_spec (ix x) (ix d)) as [E|E], (dof_eqb_spec x d) as [E'|E']; try reflexivity; exfalso; [|congruence].
    apply E', (im_inj _ _ _ _ _ _ _ _ _ IM); [apply H, (nth_error_In _ _ E1)|exact Hd|exact E]. }
  assert (Eb : (ix' y =? ix' d') = dof_eqb y d').
  { destruct (Nat.eqb_spec (ix' y) (ix' d')) as [E|E], (dof_eqb_spec y d') as [E'|E']; try reflexivity; exfalso; [|congruence].
    apply E', (im_inj _ _ _ _ _ _ _ _ _ IM'); [apply H', (nth_error_In _ _ E2)|exact Hd'|exact E]. }
  rewrite Ea, Eb. destruct (dof_eqb x d && dof_eqb y d'); reflexivity.
Qed.
Definition optionally2 {B} (o : option B) (f : B -> list (@entry A)) : list (@entry A) := match o with None => [] | Some b => f b end.
Definition elementTriples (matrix : nat -> LocalMatrix A) (e : nat) := blockTriples (D e) (D' e) (matrix e).
Definition faceTriples (matrix : nat -> LocalMatrix A) (f : nat) := blockTriples (dofs_of_face m us f) (dofs_of_face m us' f) (matrix f).

Lemma elementMatrices_ok p em : p < n -> (forall matrix, em = Some matrix -> forall e, In e (elements m) -> fits (D e) (D' e) (matrix e)) ->
  assembleElementMatrices m total p (gs p) (gc p) em = Some (optionally2 em (fun matrix => flat_map (elementTriples matrix) (localElements m p))).
Proof.
  intros Hp HF. unfold assembleElementMatrices. destruct em as [matrix|]; [|reflexivity]. cbn [optionally2]. specialize (HF matrix eq_refl).
  match goal with |- option_map snd (forEach ?body _ _) = _ => destruct (forEach_acc body (elementTriples matrix) (localElements m p) (([], []), [])) as (o & E) end.
  - intros o acc e He. destruct (local_visible n m VM p e He Hp) as (He' & Hv). cbn [fst snd].
    rewrite (im_element _ _ _ _ _ _ _ _ _ IM) by assumption. destruct (HF e He') as (F1 & F2 & F3).
    destruct (HC p Hp) as [->|(-> & E1 & E2)].
    + rewrite (im_element _ _ _ _ _ _ _ _ _ IM') by assumption.
      rewrite F1, F2, !map_length, !Nat.eqb_refl. cbn [andb]. rewrite matSetValues_ok by (rewrite !map_length, F3, F1, F2; reflexivity). eexists. reflexivity.
    + rewrite E1 in F2. rewrite F1, F2, !map_length, !Nat.eqb_refl. cbn [andb]. rewrite matSetValues_ok by (rewrite !map_length, F3, F1, F2; reflexivity).
      unfold elementTriples, blockTriples. rewrite E1, E2. eexists. reflexivity.
  - rewrite E. reflexivity.
Qed.
Lemma faceMatrices_ok p fm : p < n -> (forall matrix, fm = Some matrix -> forall f, In f faces -> fits (dofs_of_face m us f) (dofs_of_face m us' f) (matrix f)) ->
  assembleFaceMatrices m total p (gs p) (gc p) (facesList p) fm =
    Some (optionally2 fm (fun matrix => flat_map (faceTriples matrix) (filter (isOwnedByCurrentProcessor m p) (facesList p)))).
Proof.
  intros Hp HF. unfold assembleFaceMatrices. destruct fm as [matrix|]; [|reflexivity]. cbn [optionally2]. specialize (HF matrix eq_refl).
  match goal with |- option_map snd (forEach ?body _ _) = _ =>
    destruct (forEach_acc body (fun f => if isOwnedByCurrentProcessor m p f then faceTriples matrix f else []) (facesList p) (([], []), [])) as (o & E) end.
  - intros (o1, o2) acc f Hf. apply (vf_local _ _ _ _ VF p f Hp) in Hf. cbn [fst snd].
    destruct (isOwnedByCurrentProcessor m p f) eqn:Eo; cbn [negb]; [|exists (o1, o2); rewrite app_nil_r; reflexivity].
    apply (owned_first n m VM faces p f Hp Hf) in Eo. destruct Eo as (e & rest & Ef & Eo).
    assert (HV : filter (visible m p) (elementsOf m KFace f) = elementsOf m KFace f).
    { apply filter_all. intros e' He'. rewrite <- Eo. apply (vm_shadow _ _ VM KFace f e e'); [discriminate|rewrite Ef; left; reflexivity|exact He']. }
    assert (Hin : forall e', In e' (elementsOf m KFace f) -> In e' (elements m) /\ visible m p e' = true).
    { intros e' He'. split; [apply (face_elements n m VM faces f e' Hf He')|].
      rewrite <- Eo. apply (vm_shadow _ _ VM KFace f e e'); [discriminate|rewrite Ef; left; reflexivity|exact He']. }
    unfold elementLeft, elementRight, firstElement. rewrite HV.
    assert (EF : hd_error (elementsOf m KFace f) = Some e) by (rewrite Ef; reflexivity). rewrite EF.
    destruct (Hin e) as (He & Hv); [rewrite Ef; left; reflexivity|].
    assert (Ho : forall e', nth_error (elementsOf m KFace f) 1 = Some e' -> In e' (elements m) /\ visible m p e' = true)
      by (intros e' E'; apply nth_error_In in E'; apply Hin, E').
    assert (ED : forall vs, dofs_of_element m vs e ++ match nth_error (elementsOf m KFace f) 1 with None => [] | Some e' => dofs_of_element m vs e' end = dofs_of_face m vs f).
    { intros vs. unfold dofs_of_face. destruct (vf_sides _ _ _ _ VF f Hf) as (e0 & [E0|(e1 & E0)]); rewrite E0 in *; injection Ef as -> <-; cbn; rewrite ?app_nil_r; reflexivity. }
    rewrite (im_face _ _ _ _ _ _ _ _ _ IM p e (nth_error (elementsOf m KFace f) 1)) by assumption. rewrite ED.
    destruct (HF f Hf) as (F1 & F2 & F3).
    destruct (HC p Hp) as [->|(-> & E1 & E2)].
    + rewrite (im_face _ _ _ _ _ _ _ _ _ IM' p e (nth_error (elementsOf m KFace f) 1)) by assumption. rewrite ED.
      rewrite F1, F2, !map_length, !Nat.eqb_refl. cbn [andb]. rewrite matSetValues_ok by (rewrite !map_length, F3, F1, F2; reflexivity). eexists. reflexivity.
    + rewrite E1 in F2. rewrite F1, F2, !map_length, !Nat.eqb_refl. cbn [andb]. rewrite matSetValues_ok by (rewrite !map_length, F3, F1, F2; reflexivity).
      unfold faceTriples, blockTriples. rewrite E1, E2. eexists. reflexivity.
  - rewrite E. cbn [snd option_map app]. f_equal. clear E. induction (facesList p) as [|f fs IH]; [reflexivity|]. cbn [flat_map filter].
    destruct (isOwnedByCurrentProcessor m p f); cbn [flat_map app]; rewrite IH; reflexivity.
Qed.
Lemma block_bound ds ds' M t : (forall d, In d ds -> is_dof m incl d) -> (forall d, In d ds' -> is_dof m incl' d) -> In t (blockTriples ds ds' M) ->
  fst (fst t) < N /\ snd (fst t) < N'.
Proof.
  intros H H' Ht. apply triples_in in Ht. destruct Ht as (H1 & H2). apply in_map_iff in H1, H2. destruct H1 as (d & <- & Hd), H2 as (d' & <- & Hd').
  split; [apply (im_lt _ _ _ _ _ _ _ _ _ IM), H, Hd|apply (im_lt _ _ _ _ _ _ _ _ _ IM'), H', Hd'].
Qed.
Lemma split_pairs {B} (F1 F2 : nat -> list B) l : Permutation (flat_map (fun p => F1 p ++ F2 p) l) (flat_map F1 l ++ flat_map F2 l).
Proof.
  induction l as [|x l IH]; [constructor|]. cbn [flat_map]. rewrite <- !app_assoc. apply Permutation_app_head.
  eapply perm_trans; [apply Permutation_app_head, IH|]. apply Permutation_app_swap_app.
Qed.

Lemma assembleMatrix_ok (add : A -> A -> A) em fm :
  (forall x, add zero x = x) -> (forall x y, add x y = add y x) -> (forall x y z, add x (add y z) = add (add x y) z) ->
  NoDup (elements m) ->
  (forall matrix, em = Some matrix -> forall e, In e (elements m) -> fits (D e) (D' e) (matrix e)) ->
  (forall matrix, fm = Some matrix -> forall f, In f faces -> fits (dofs_of_face m us f) (dofs_of_face m us' f) (matrix f)) ->
  exists new, (forall p, p < n -> assembleMatrix m total p (gs p) (gc p) (facesList p) em fm = Some (new p)) /\
    forall result, matAssembled add (repeat (repeat zero N') N) (flat_map new (seq 0 n)) result ->
      exists M, result = Some M /\ length M = N /\ (forall row, In row M -> length row = N') /\
        forall d d', is_dof m incl d -> is_dof m incl' d' -> cell M (ix d) (ix' d') =
          Some (sum_of add zero (element_entries m us us' d d' em ++ face_entries m us us' faces d d' fm)).
Proof.
  intros Hz Hc Ha NDe HE HF.
  exists (fun p => optionally2 em (fun matrix => flat_map (elementTriples matrix) (localElements m p)) ++
    optionally2 fm (fun matrix => flat_map (faceTriples matrix) (filter (isOwnedByCurrentProcessor m p) (facesList p)))).
  split.
  { intros p Hp. unfold assembleMatrix. rewrite elementMatrices_ok, faceMatrices_ok by assumption. reflexivity. }
  intros result (order & HP & <-).
  assert (P2 : Permutation order (optionally2 em (fun matrix => flat_map (elementTriples matrix) (elements m)) ++ optionally2 fm (fun matrix => flat_map (faceTriples matrix) faces))).
  { eapply perm_trans; [exact HP|]. eapply perm_trans; [apply split_pairs|]. clear HP. apply Permutation_app.
    - destruct em as [matrix|]; cbn [optionally2]; [|induction (seq 0 n); [constructor|assumption]].
      rewrite flat_map_nested. apply perm_flat_map, (elements_perm n m VM NDe).
    - destruct fm as [matrix|]; cbn [optionally2]; [|induction (seq 0 n); [constructor|assumption]].
      rewrite flat_map_nested. apply perm_flat_map, (faces_perm n m VM faces facesList VF). }
  assert (HDe : forall e d, In e (elements m) -> In d (D e) -> is_dof m incl d) by (intros e d; apply (im_dofs _ _ _ _ _ _ _ _ _ IM)).
  assert (HDe' : forall e d, In e (elements m) -> In d (D' e) -> is_dof m incl' d) by (intros e d; apply (im_dofs _ _ _ _ _ _ _ _ _ IM')).
  pose proof (dofs_of_face_dofs n m incl us r gs total N ix VM IM faces) as HDf.
  pose proof (dofs_of_face_dofs n m incl' us' r' gs' total N' ix' VM IM' faces) as HDf'.
  destruct (forEach_add add N N' order (repeat (repeat zero N') N)) as (M & E & L & LR & NM).
  { apply repeat_length. }
  { intros row Hr. apply repeat_spec in Hr. subst row. apply repeat_length. }
  { intros t Ht. apply (Permutation_in _ P2) in Ht. apply in_app_or in Ht. destruct Ht as [Ht|Ht].
    - destruct em as [matrix|]; [|destruct Ht]. cbn in Ht. apply in_flat_map in Ht. destruct Ht as (e & He & Ht).
      apply (block_bound (D e) (D' e) (matrix e) t); [intros d; apply HDe, He|intros d; apply HDe', He|exact Ht].
    - destruct fm as [matrix|]; [|destruct Ht]. cbn in Ht. apply in_flat_map in Ht. destruct Ht as (f & Hf & Ht).
      apply (block_bound (dofs_of_face m us f) (dofs_of_face m us' f) (matrix f) t); [intros d; apply HDf, Hf|intros d; apply HDf', Hf|exact Ht]. }
  exists M. split; [exact E|]. split; [exact L|]. split; [exact LR|].
  intros d d' Hd Hd'. rewrite (NM (ix d) (ix' d') zero).
  - f_equal. rewrite (fold_left_sum zero add Hz Hc Ha), Hz.
    rewrite (sum_perm zero add Hc Ha _ _ (at2_perm (ix d) (ix' d') _ _ P2)). rewrite at2_app. f_equal. f_equal.
    + destruct em as [matrix|]; [|reflexivity]. cbn [optionally2 element_entries]. rewrite at2_flat_map. apply flat_map_in. intros e He.
      apply at_block; [exact (HE matrix eq_refl e He)|exact Hd|exact Hd'|intros x; apply HDe, He|intros x; apply HDe', He].
    + destruct fm as [matrix|]; [|reflexivity]. cbn [optionally2 face_entries]. rewrite at2_flat_map. apply flat_map_in. intros f Hf.
      apply at_block; [exact (HF matrix eq_refl f Hf)|exact Hd|exact Hd'|intros x; apply HDf, Hf|intros x; apply HDf', Hf].
  - unfold cell. rewrite nth_error_repeat by (apply (im_lt _ _ _ _ _ _ _ _ _ IM), Hd). apply nth_error_repeat.
    apply (im_lt _ _ _ _ _ _ _ _ _ IM'), Hd'.
Qed.
End Exchange.

Theorem assembly_matrix (A : Type) (zero : A) (add : A -> A -> A) n m total unknowns layout r gs unknowns' layout' r' gs' columns faces facesList us us' em fm :
  (forall x, add zero x = x) -> (forall x y, add x y = add y x) -> (forall x y z, add x (add y z) = add (add x y) z) ->
  indexed n m unknowns layout r gs total -> indexed n m unknowns' layout' r' gs' total ->
  (forall p, p < n -> columns p = Some (gs' p)) \/ (forall p, p < n -> columns p = None) /\ unknowns' = unknowns /\ r' = r ->
  valid_faces n m faces facesList ->
  StronglySorted lt us -> (forall u, In u us <-> In u (included m unknowns)) ->
  StronglySorted lt us' -> (forall u, In u us' <-> In u (included m unknowns')) ->
  (forall matrix, em = Some matrix -> forall e, In e (elements m) -> fits (dofs_of_element m us e) (dofs_of_element m us' e) (matrix e)) ->
  (forall matrix, fm = Some matrix -> forall f, In f faces -> fits (dofs_of_face m us f) (dofs_of_face m us' f) (matrix f)) ->
  exists new, (forall p, p < n -> assembleMatrix m total p (gs p) (columns p) (facesList p) em fm = Some (new p)) /\
    forall result, matAssembled add (repeat (repeat zero (size_of r')) (size_of r)) (flat_map new (seq 0 n)) result ->
      exists M, result = Some M /\ length M = size_of r /\ (forall row, In row M -> length row = size_of r') /\
        forall d d', is_dof m (included m unknowns) d -> is_dof m (included m unknowns') d' ->
          exists i j row, numbered m r d i /\ numbered m r' d' j /\ nth_error M i = Some row /\
            nth_error row j = Some (sum_of add zero (element_entries m us us' d d' em ++ face_entries m us us' faces d d' fm)).
Proof.
  intros Hz Hc Ha I I' HC VF Hs Hus Hs' Hus' HE HF. pose proof (sorted_unique _ _ _ _ _ _ _ _ I Hs Hus) as ->.
  pose proof (sorted_unique _ _ _ _ _ _ _ _ I' Hs' Hus') as ->. destruct (indexed_map _ _ _ _ _ _ _ I) as (ix & IM).
  assert (K : exists ix' gs', index_map n m (included m unknowns') (sortedUnknowns m unknowns') r' gs' total (size_of r') ix' /\
    forall p, p < n -> columns p = Some (gs' p) \/ columns p = None /\ sortedUnknowns m unknowns' = sortedUnknowns m unknowns /\ ix' = ix).
  { destruct HC as [HC|(HC & -> & ->)].
    - destruct (indexed_map _ _ _ _ _ _ _ I') as (ix' & IM'). exists ix', gs'. split; [exact IM'|]. intros p Hp. left. apply HC, Hp.
    - exists ix, gs. split; [exact IM|]. intros p Hp. right. split; [apply HC, Hp|]. split; reflexivity. }
  clear HC. destruct K as (ix' & gs'' & IM' & HC).
  destruct (assembleMatrix_ok zero n m total _ _ r gs _ ix _ _ r' gs'' _ ix' (in_mesh _ _ _ _ _ _ _ I) IM IM' columns HC faces facesList VF add em fm Hz Hc Ha
    (in_elements _ _ _ _ _ _ _ I) HE HF) as (new & HP & HR).
  exists new. split; [exact HP|]. intros result H. destruct (HR result H) as (M & E & L & LR & HM).
  exists M. split; [exact E|]. split; [exact L|]. split; [exact LR|]. intros d d' Hd Hd'. specialize (HM d d' Hd Hd'). unfold cell in HM.
  destruct (nth_error M (ix d)) as [row|] eqn:Er; [|discriminate]. exists (ix d), (ix' d'), row.
  split; [apply (im_numbered _ _ _ _ _ _ _ _ _ IM); auto|]. split; [apply (im_numbered _ _ _ _ _ _ _ _ _ IM'); auto|]. split; [exact Er|exact HM].
Qed.
