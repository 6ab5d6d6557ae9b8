From Coq Require Import List Arith NArith Bool Lia Reals String Ascii.
From Verif Require Import Loop_model Loop_proofs RefGeometry_model Curvilinear_model VTKElements_model VTKElements_proofs VTKTetra_proofs
  Base64_model Base64_spec Base64_theorems VTKWriter_model VTKWriter_spec.
Import ListNotations.
Local Open Scope list_scope.
Local Open Scope nat_scope.

(** * Loops *)
Lemma foldM_inv {A B} (f : A -> B -> option A) (P : list B -> A -> Prop) : forall l pre a,
  P pre a -> (forall done x rest a, pre ++ l = done ++ x :: rest -> P done a -> exists a', f a x = Some a' /\ P (done ++ [x]) a') ->
  exists a', foldM f l a = Some a' /\ P (pre ++ l) a'.
Proof.
  induction l as [|x l IH]; intros pre a H0 Hs.
  - exists a. rewrite app_nil_r. auto.
  - destruct (Hs pre x l a eq_refl H0) as (a1 & E & H1). cbn [foldM]. rewrite E.
    destruct (IH (pre ++ [x]) a1 H1) as (a2 & E2 & H2).
    + intros done y rest b Eq. apply (Hs done y rest b). rewrite <- Eq, <- app_assoc. reflexivity.
    + exists a2. rewrite <- app_assoc in H2. auto.
Qed.

Lemma all_points_app m l1 l2 : all_points m (l1 ++ l2) = all_points m l1 ++ all_points m l2.
Proof. unfold all_points. apply flat_map_app. Qed.

(** the loop over all points, with an invariant for complete elements and one for the points *)
Lemma forPoints_inv {A} m (body : A -> element * point -> option A) after (P : list element -> A -> Prop)
  (Q : list element -> list (element * point) -> A -> Prop) elements a :
  (forall e, In e elements -> has_cell m e) ->
  P [] a ->
  (forall done a, P done a -> Q done [] a) ->
  (forall done e rest pts ep more a, elements = done ++ e :: rest -> map (fun p => (e, p)) (getPoints (cell_of m e)) = pts ++ ep :: more ->
     Q done pts a -> exists a', body a ep = Some a' /\ Q done (pts ++ [ep]) a') ->
  (forall done e rest a, elements = done ++ e :: rest -> Q done (map (fun p => (e, p)) (getPoints (cell_of m e))) a ->
     exists a', after a e (cell_of m e) = Some a' /\ P (done ++ [e]) a') ->
  exists a', forPoints m body after elements a = Some a' /\ P elements a'.
Proof.
  intros HC H0 HQ HB HA. unfold forPoints. 
  destruct (foldM_inv (fun a e =>
    match find (geometryType e) m with
    | None => None
    | Some v => match foldM body (map (fun p => (e, p)) (getPoints v)) a with Some a => after a e v | None => None end
    end) P elements [] a H0) as (a' & E & HP).
  - cbn [app]. intros done e rest b Eq HP.
    assert (HCe : has_cell m e) by (apply HC; rewrite Eq; apply in_or_app; right; left; reflexivity).
    assert (Ef : find (geometryType e) m = Some (cell_of m e)).
    { unfold has_cell, cell_of in *. destruct (find (geometryType e) m); [reflexivity|congruence]. }
    rewrite Ef.
    destruct (foldM_inv body (Q done) (map (fun p => (e, p)) (getPoints (cell_of m e))) [] b (HQ done b HP)) as (b' & Eb & HQb).
    + intros pts ep more c Ec Hc. apply (HB done e rest pts ep more c Eq Ec Hc).
    + rewrite Eb. apply (HA done e rest b' Eq HQb).
  - exists a'. auto.
Qed.

(** * Numbers *)
Lemma u32_fits n : fits n -> u32 n = n.
Proof. intros H. unfold u32, fits in *. rewrite N.mod_small by exact H. apply Nat2N.id. Qed.
Lemma fits_le n k : fits n -> k <= n -> fits k.
Proof. unfold fits. lia. Qed.

(** * Filling an array from the left *)
Lemma write_app {A} (a b : list A) j x : write (a ++ b) (List.length a + j) x = option_map (app a) (write b j x).
Proof.
  induction a as [|y a IH]; cbn; [destruct (write b j x); reflexivity|]. rewrite IH. destruct (write b j x); reflexivity.
Qed.
Lemma write_next {A} (a : list A) z k x i : i = List.length a -> write (a ++ repeat z (S k)) i x = Some ((a ++ [x]) ++ repeat z k).
Proof. intros ->. rewrite <- (Nat.add_0_r (List.length a)), write_app. cbn. rewrite <- app_assoc. reflexivity. Qed.
Lemma write_same {A} (l : list A) i x : nth_error l i = Some x -> write l i x = Some l.
Proof.
  revert i. induction l as [|y l IH]; intros [|i] H; cbn in *; try discriminate; [congruence|]. rewrite (IH _ H). reflexivity.
Qed.
Lemma repeat_3 {A} (z : A) k : repeat z (3 * S k) = z :: z :: z :: repeat z (3 * k).
Proof. replace (3 * S k) with (S (S (S (3 * k)))) by lia. reflexivity. Qed.

Lemma padded_length dim v : List.length v = dim -> dim <= 3 -> List.length (padded v) = 3.
Proof. intros L H. unfold padded. rewrite firstn_length, app_length. cbn [List.length]. lia. Qed.
Lemma copyCoordinates_ok dim v (a : list R) k i : dim <= 3 -> List.length v = dim -> List.length a = 3 * i ->
  copyCoordinates dim v i (a ++ repeat 0%R (3 * S k)) = Some ((a ++ padded v) ++ repeat 0%R (3 * k)).
Proof.
  intros Hd Lv La. rewrite repeat_3, <- app_assoc. unfold copyCoordinates, padded.
  destruct dim as [|[|[|[|dim]]]]; [| | | |lia]; destruct v as [|x [|y [|z [|? ?]]]]; try discriminate;
    cbn [Nat.min for_loop for_from nth_error app firstn]; unfold for_loop; cbn [for_from nth_error];
    rewrite <- ?La, ?write_app; cbn [write option_map]; rewrite ?write_app; cbn [write option_map]; rewrite ?write_app; cbn [write option_map]; reflexivity.
Qed.

Lemma flat_length {A B} (f : A -> list B) n l : (forall x, In x l -> List.length (f x) = n) -> List.length (flat_map f l) = n * List.length l.
Proof. intros H. rewrite (flat_map_same_length f n l H). lia. Qed.

Lemma list_ext {A} : forall l1 l2 : list A, (forall i, nth_error l1 i = nth_error l2 i) -> l1 = l2.
Proof.
  induction l1 as [|x l1 IH]; intros [|y l2] H; [reflexivity|specialize (H 0); discriminate..|].
  pose proof (H 0) as H0. cbn in H0. injection H0 as ->. f_equal. apply IH. intros i. apply (H (S i)).
Qed.

(** * The mesh *)
Section Mesh.
Context (dim : nat) (m : list (shape * vtkElement)) (elements : list element).
Context (Hd : dim <= 3) (HC : forall e, In e elements -> has_cell m e)
  (HP : forall e p, In (e, p) (all_points m elements) -> List.length (referenceToPhysical e p) = dim)
  (HN : fits (3 * List.length (all_points m elements))) (HE : fits (List.length elements)).

Definition phys (ep : element * point) : list R := padded (referenceToPhysical (fst ep) (snd ep)).
Fixpoint sums (start : nat) (l : list element) : list nat :=
  match l with [] => [] | e :: l' => (start + List.length (getPoints (cell_of m e))) :: sums (start + List.length (getPoints (cell_of m e))) l' end.

Lemma all_points_length_split done e rest : elements = done ++ e :: rest ->
  List.length (all_points m elements) = List.length (all_points m done) + List.length (getPoints (cell_of m e)) + List.length (all_points m rest).
Proof.
  intros Eq. rewrite Eq, all_points_app, app_length.
  change (all_points m (e :: rest)) with (map (fun p => (e, p)) (getPoints (cell_of m e)) ++ all_points m rest).
  rewrite app_length, map_length. lia.
Qed.
Lemma count_ok : countPass m elements = Some (List.length (all_points m elements), List.length elements).
Proof.
  unfold countPass.
  destruct (foldM_inv (fun st e => match find (geometryType e) m with None => None
    | Some v => Some (u32 (fst st + List.length (getPoints v)), u32 (snd st + 1)) end)
    (fun done st => st = (List.length (all_points m done), List.length done)) elements [] (0, 0) eq_refl) as (st & E & ->).
  - cbn [app]. intros done e rest st Eq ->. 
    assert (HCe : has_cell m e) by (apply HC; rewrite Eq; apply in_or_app; right; left; reflexivity).
    assert (Ef : find (geometryType e) m = Some (cell_of m e)).
    { unfold has_cell, cell_of in *. destruct (find (geometryType e) m); [reflexivity|congruence]. }
    rewrite Ef. eexists. split; [reflexivity|]. cbn [fst snd]. pose proof (all_points_length_split done e rest Eq) as L.
    rewrite u32_fits by (apply (fits_le _ _ HN); lia).
    rewrite u32_fits by (apply (fits_le _ _ HE); rewrite Eq, app_length; cbn; lia).
    rewrite all_points_app, !app_length. unfold all_points at 3. cbn [flat_map]. rewrite app_nil_r, map_length. reflexivity.
  - exact E.
Qed.

Lemma sums_app a : forall l1 l2, sums a (l1 ++ l2) = sums a l1 ++ sums (a + List.length (all_points m l1)) l2.
Proof.
  intros l1. revert a. induction l1 as [|e l1 IH]; intros a l2; cbn [sums app].
  - rewrite Nat.add_0_r. reflexivity.
  - rewrite IH. unfold all_points at 2. cbn [flat_map]. rewrite app_length, map_length. fold (all_points m l1). rewrite Nat.add_assoc. reflexivity.
Qed.
Lemma sums_length a l : List.length (sums a l) = List.length l.
Proof. revert a. induction l as [|e l IH]; intros a; cbn; [reflexivity|]. rewrite IH. reflexivity. Qed.

Definition coords : list R := flat_map phys (all_points m elements).
Lemma mesh_pass : writeLocalFileHeader dim m elements = Some
  {| numberOfPoints := List.length (all_points m elements); numberOfCells := List.length elements;
     pointCoordinates := coords; connectivity := seq 0 (List.length (all_points m elements));
     offsets := sums 0 elements; types := map (fun e => vtkId (cell_of m e)) elements |}.
Proof.
  unfold writeLocalFileHeader. rewrite count_ok.
  set (N := List.length (all_points m elements)) in *. set (M := List.length elements) in *.
  rewrite u32_fits by (apply (fits_le _ _ HN); lia).
  destruct (forPoints_inv m (pointPass dim) elementPass
    (fun done st => st = {| p_coordinates := flat_map phys (all_points m done) ++ repeat 0%R (3 * (N - List.length (all_points m done)));
        p_connectivity := seq 0 (List.length (all_points m done)) ++ repeat 0 (N - List.length (all_points m done));
        p_offsets := sums 0 done ++ repeat 0 (M - List.length done);
        p_types := map (fun e => vtkId (cell_of m e)) done ++ repeat 0 (M - List.length done);
        pointCount := List.length (all_points m done); localPointCount := 0; elementId := List.length done |})
    (fun done pts st => st = {| p_coordinates := flat_map phys (all_points m done ++ pts) ++ repeat 0%R (3 * (N - List.length (all_points m done ++ pts)));
        p_connectivity := seq 0 (List.length (all_points m done ++ pts)) ++ repeat 0 (N - List.length (all_points m done ++ pts));
        p_offsets := sums 0 done ++ repeat 0 (M - List.length done);
        p_types := map (fun e => vtkId (cell_of m e)) done ++ repeat 0 (M - List.length done);
        pointCount := List.length (all_points m done); localPointCount := List.length pts; elementId := List.length done |})
    elements
    {| p_coordinates := repeat 0%R (N * 3); p_connectivity := repeat 0 N; p_offsets := repeat 0 M; p_types := repeat 0 M;
       pointCount := 0; localPointCount := 0; elementId := 0 |} HC) as (st & E & ->).
  - cbn. rewrite !Nat.sub_0_r. replace (N * 3) with (N + (N + (N + 0))) by lia. reflexivity.
  - intros done st ->. rewrite app_nil_r. reflexivity.
  - intros done e rest pts ep more st Eq Em ->.
    assert (LN : List.length (all_points m done ++ pts) < N).
    { unfold N. rewrite (all_points_length_split done e rest Eq). rewrite app_length.
      assert (L : List.length (map (fun p => (e, p)) (getPoints (cell_of m e))) = List.length (pts ++ ep :: more)) by (rewrite Em; reflexivity).
      rewrite map_length, app_length in L. cbn in L. lia. }
    assert (Iep : In ep (all_points m elements)).
    { rewrite Eq, all_points_app. apply in_or_app. right. unfold all_points. cbn [flat_map]. apply in_or_app. left. rewrite Em.
      apply in_or_app. right. left. reflexivity. }
    unfold pointPass. cbn [pointCount localPointCount p_connectivity p_coordinates p_offsets p_types elementId].
    rewrite <- app_length.
    set (D := all_points m done ++ pts) in *.
    replace (N - List.length D) with (S (N - List.length (D ++ [ep]))) by (rewrite app_length; cbn; lia).
    rewrite write_next by (rewrite seq_length; reflexivity).
    rewrite u32_fits by (apply (fits_le _ _ HN); lia).
    rewrite copyCoordinates_ok with (v := referenceToPhysical (fst ep) (snd ep)).
    + eexists. split; [reflexivity|]. rewrite app_assoc. fold D. rewrite flat_map_app. cbn [flat_map]. rewrite app_nil_r.
      rewrite !app_length. cbn [List.length]. f_equal; [|lia].
      rewrite Nat.add_1_r, seq_S. reflexivity.
    + exact Hd.
    + apply HP. destruct ep. exact Iep.
    + rewrite (flat_length phys 3); [reflexivity|]. intros (e', p') Hin. unfold phys. cbn [fst snd]. apply (padded_length dim).
      * apply HP. rewrite Eq, all_points_app. unfold D in Hin. apply in_app_or in Hin. apply in_or_app. destruct Hin as [Hin|Hin]; [left; exact Hin|right].
        unfold all_points. cbn [flat_map]. apply in_or_app. left. rewrite Em. apply in_or_app. left. exact Hin.
      * exact Hd.
  - intros done e rest st Eq ->. unfold elementPass. cbn [pointCount localPointCount p_connectivity p_coordinates p_offsets p_types elementId].
    pose proof (all_points_length_split done e rest Eq) as L. fold N in L.
    assert (LM : M = List.length done + S (List.length rest)) by (unfold M; rewrite Eq, app_length; reflexivity).
    rewrite map_length. rewrite u32_fits by (apply (fits_le _ _ HN); lia).
    replace (M - List.length done) with (S (M - List.length (done ++ [e]))) by (rewrite app_length; cbn; lia).
    rewrite write_next by (rewrite map_length; reflexivity). rewrite write_next by (rewrite sums_length; reflexivity).
    eexists. split; [reflexivity|].
    assert (EA : all_points m (done ++ [e]) = all_points m done ++ map (fun p => (e, p)) (getPoints (cell_of m e))).
    { rewrite all_points_app. f_equal. unfold all_points. cbn. apply app_nil_r. }
    rewrite EA, map_app, sums_app. cbn [map sums Nat.add]. rewrite !app_length, !map_length. cbn [List.length].
    f_equal. lia.
  - rewrite E. fold coords. cbn [p_coordinates p_connectivity p_offsets p_types]. fold N M. rewrite !Nat.sub_diag. cbn [repeat].
    rewrite !app_nil_r. reflexivity.
Qed.

(** ** and reading it *)
Lemma phys_length ep : In ep (all_points m elements) -> List.length (phys ep) = 3.
Proof. intros H. apply (padded_length dim); [|exact Hd]. destruct ep. apply HP, H. Qed.
Lemma read_point_flat {A} (f : A -> list R) : forall l i x, (forall x, In x l -> List.length (f x) = 3) -> nth_error l i = Some x ->
  read_point (flat_map f l) i = Some (f x).
Proof.
  induction l as [|y l IH]; intros i x H Hn; [destruct i; discriminate|].
  pose proof (H y (or_introl eq_refl)) as Ly. destruct i as [|i]; cbn in Hn.
  - injection Hn as ->. unfold read_point. cbn [flat_map skipn Nat.mul]. destruct (f x) as [|a [|b [|c [|? ?]]]]; try discriminate. reflexivity.
  - unfold read_point. replace (3 * S i) with (3 + 3 * i) by lia. cbn [flat_map].
    destruct (f y) as [|a [|b [|c [|? ?]]]]; try discriminate. cbn [app skipn Nat.add]. apply (IH i x); [|exact Hn].
    intros z Hz. apply H. right. exact Hz.
Qed.
Lemma firstn_skipn_seq start k n : start + k <= n -> firstn k (skipn start (seq 0 n)) = seq start k.
Proof.
  intros H. replace n with (start + (k + (n - start - k))) by lia. rewrite seq_app, seq_app. cbn [Nat.add].
  rewrite skipn_app, skipn_all2 by (rewrite seq_length; lia). rewrite seq_length, Nat.sub_diag. cbn [app skipn].
  rewrite firstn_app, firstn_all2 by (rewrite seq_length; lia). rewrite seq_length, Nat.sub_diag. cbn [firstn]. apply app_nil_r.
Qed.
Lemma read_back : forall l done, elements = done ++ l ->
  read_cells (List.length (all_points m done)) (map (fun e => vtkId (cell_of m e)) l) (sums (List.length (all_points m done)) l)
    (seq 0 (List.length (all_points m elements))) coords =
  map (fun e => (vtkId (cell_of m e), map (fun p => Some (padded (referenceToPhysical e p))) (getPoints (cell_of m e)))) l.
Proof.
  induction l as [|e l IH]; intros done Eq; [reflexivity|]. cbn [map sums read_cells].
  assert (EA : all_points m (done ++ [e]) = all_points m done ++ map (fun p => (e, p)) (getPoints (cell_of m e))).
  { rewrite all_points_app. f_equal. unfold all_points. cbn. apply app_nil_r. }
  pose proof (all_points_length_split done e l Eq) as L.
  f_equal.
  - f_equal. rewrite Nat.add_comm, Nat.add_sub. rewrite firstn_skipn_seq by lia.
    apply list_ext. intros i.
    destruct (Nat.lt_ge_cases i (List.length (getPoints (cell_of m e)))) as [Hi|Hi].
    + rewrite !nth_error_map, nth_error_seq by exact Hi. cbn [option_map].
      destruct (nth_error (getPoints (cell_of m e)) i) as [p|] eqn:Ep; [|apply nth_error_None in Ep; lia]. cbn [option_map].
      f_equal. unfold coords. rewrite (read_point_flat phys _ _ (e, p)); [reflexivity|apply phys_length|].
      rewrite Eq, all_points_app, nth_error_app2 by lia. rewrite Nat.add_comm, Nat.add_sub. unfold all_points. cbn [flat_map].
      rewrite nth_error_app1 by (rewrite map_length; exact Hi). rewrite nth_error_map, Ep. reflexivity.
    + rewrite (proj2 (nth_error_None _ _)) by (rewrite map_length, seq_length; exact Hi).
      rewrite (proj2 (nth_error_None _ _)) by (rewrite map_length; exact Hi). reflexivity.
  - specialize (IH (done ++ [e])). rewrite EA, app_length, map_length in IH. apply IH. rewrite Eq, <- app_assoc. reflexivity.
Qed.
End Mesh.
