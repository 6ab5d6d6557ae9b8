From Coq Require Import List Arith NArith Bool Lia Reals String Ascii.
From Verif Require Import Loop_model Loop_proofs RefGeometry_model Curvilinear_model VTKElements_model VTKElements_proofs VTKTetra_proofs
  Base64_model Base64_spec Base64_theorems VTKWriter_model VTKWriter_spec VTKWriter_proofs.
Import ListNotations.
Local Open Scope list_scope.
Local Open Scope nat_scope.

Lemma dget_put n a d : dget n (dput n a d) = a.
Proof. cbn. rewrite String.eqb_refl. reflexivity. Qed.
Lemma dget_other n n' a d : n <> n' -> dget n' (dput n a d) = dget n' d.
Proof. intros H. cbn. destruct (String.eqb_spec n n'); [congruence|reflexivity]. Qed.

(** entries under different names do not disturb each other *)
Lemma store_ok {T V} (put : nat -> V -> list R -> option (list R)) k (x : T) : forall (entries : list (string * (T -> V))) d (new : string * (T -> V) -> list R),
  NoDup (map fst entries) ->
  (forall e, In e entries -> put k (snd e x) (dget (fst e) d) = Some (new e)) ->
  exists d', store put k x entries d = Some d' /\ (forall e, In e entries -> dget (fst e) d' = new e) /\
    (forall n, ~ In n (map fst entries) -> dget n d' = dget n d).
Proof.
  induction entries as [|e entries IH]; intros d new N H.
  - exists d. split; [reflexivity|]. split; [intros e []|auto].
  - cbn in N. inversion N as [|? ? Ne N']; subst.
    unfold store in *. cbn [foldM]. rewrite (H e (or_introl eq_refl)). cbn [option_map].
    destruct (IH (dput (fst e) (new e) d) new N') as (d' & E & G & O).
    { intros e' He'. rewrite dget_other. { apply H. right. exact He'. } intros Ee. apply Ne. rewrite Ee. apply in_map, He'. }
    exists d'. split; [exact E|]. split.
    + intros e' [<-|He']; [|apply G, He']. rewrite O by exact Ne. apply dget_put.
    + intros n Hn. rewrite O by (intros Hn'; apply Hn; right; exact Hn'). apply dget_other. intros En. apply Hn. left. exact En.
Qed.

Lemma resizeAll_ok {V} k : forall (entries : list (string * V)) d,
  NoDup (map fst entries) -> (forall e, In e entries -> dget (fst e) d = []) ->
  (forall e, In e entries -> dget (fst e) (resizeAll k entries d) = repeat 0%R k) /\
  (forall n, ~ In n (map fst entries) -> dget n (resizeAll k entries d) = dget n d).
Proof.
  induction entries as [|e entries IH]; intros d N H.
  - split; [intros e []|auto].
  - cbn in N. inversion N as [|? ? Ne N']; subst. unfold resizeAll in *. cbn [fold_left].
    set (d1 := dput (fst e) (resize k (dget (fst e) d)) d).
    assert (H1 : forall e', In e' entries -> dget (fst e') d1 = []).
    { intros e' He'. unfold d1. rewrite dget_other. { apply H. right. exact He'. } intros Ee. apply Ne. rewrite Ee. apply in_map, He'. }
    destruct (IH d1 N' H1) as (G & O). split.
    + intros e' [<-|He']; [|apply G, He']. rewrite O by exact Ne. unfold d1. rewrite dget_put, (H e (or_introl eq_refl)).
      unfold resize. rewrite firstn_nil, Nat.sub_0_r. reflexivity.
    + intros n Hn. rewrite O by (intros Hn'; apply Hn; right; exact Hn'). apply dget_other. intros En. apply Hn. left. exact En.
Qed.

(** ** One value behind the others *)
Lemma scalar_ok (a : list R) k i x : List.length a = i -> writeScalar i x (a ++ repeat 0%R (S k)) = Some ((a ++ [x]) ++ repeat 0%R k).
Proof. intros La. apply write_next. auto. Qed.

Lemma padded_tail (v : list R) i : List.length v <= i < 3 -> nth_error (padded v) i = Some 0%R.
Proof.
  intros H. unfold padded. destruct v as [|x [|y [|z v]]]; cbn in H; [| | |lia];
    destruct i as [|[|[|i]]]; try lia; reflexivity.
Qed.
Lemma vector_ok {T} dim (f : T -> list R) (l : list T) x k : dim <= 3 -> (forall y, List.length (f y) = dim) ->
  writePaddedVector dim (List.length l) (f x) (flat_map (fun y => padded (f y)) l ++ repeat 0%R (3 * S k)) =
    Some (flat_map (fun y => padded (f y)) (l ++ [x]) ++ repeat 0%R (3 * k)).
Proof.
  intros Hd Hf. unfold writePaddedVector.
  pose proof (copyCoordinates_ok dim (f x) (flat_map (fun y => padded (f y)) l) k (List.length l) Hd (Hf x)) as C.
  unfold copyCoordinates in C. rewrite C; [|apply flat_length; intros y _; apply (padded_length dim); auto].
  clear C. replace (flat_map (fun y => padded (f y)) l ++ padded (f x)) with (flat_map (fun y => padded (f y)) (l ++ [x]))
    by (rewrite flat_map_app; cbn [flat_map]; rewrite app_nil_r; reflexivity).
  assert (Z : forall i, dim <= i < 3 -> nth_error (flat_map (fun y => padded (f y)) (l ++ [x]) ++ repeat 0%R (3 * k)) i = Some 0%R).
  { intros i Hi. assert (exists y r, l ++ [x] = y :: r) as (y & r & ->) by (destruct l as [|y l]; [exists x, []; reflexivity|exists y, (l ++ [x]); reflexivity]).
    cbn [flat_map]. rewrite <- app_assoc, nth_error_app1 by (rewrite (padded_length dim); auto; lia).
    apply padded_tail. rewrite Hf. exact Hi. }
  set (out := flat_map _ _ ++ _) in *. clearbody out.
  replace (Nat.min dim 3) with dim by lia.
  assert (G : forall n start, dim <= start -> start + n <= 3 -> for_from start n (fun i out => write out i 0%R) out = Some out).
  { induction n as [|n IH]; intros start H1 H2; [reflexivity|]. cbn [for_from]. rewrite (write_same out start 0%R) by (apply Z; lia).
    apply IH; lia. }
  apply G; lia.
Qed.

Lemma repeat_9 {A} (z : A) k : repeat z (9 * S k) = z :: z :: z :: z :: z :: z :: z :: z :: z :: repeat z (9 * k).
Proof. replace (9 * S k) with (S (S (S (S (S (S (S (S (S (9 * k))))))))) ) by lia. reflexivity. Qed.
Lemma tensor_ok {T} dim (f : T -> nat -> nat -> R) (l : list T) x k :
  writePaddedTensor dim (List.length l) (f x) (flat_map (fun y => padded_tensor dim (f y)) l ++ repeat 0%R (9 * S k)) =
    Some (flat_map (fun y => padded_tensor dim (f y)) (l ++ [x]) ++ repeat 0%R (9 * k)).
Proof.
  rewrite repeat_9, flat_map_app. cbn [flat_map]. rewrite app_nil_r, <- app_assoc.
  set (a := flat_map (fun y => padded_tensor dim (f y)) l).
  assert (La : List.length a = 9 * List.length l) by (apply flat_length; reflexivity). clearbody a.
  unfold writePaddedTensor, padded_tensor. cbn [map fst snd].
  assert (S3 : forall i (z0 z1 z2 : R) pre post (g : nat -> R), List.length pre = 9 * List.length l + 3 * i ->
    for_loop 3 (fun j out => write out (9 * List.length l + 3 * i + j) (g j)) (pre ++ z0 :: z1 :: z2 :: post) = Some (pre ++ g 0 :: g 1 :: g 2 :: post)).
  { intros i z0 z1 z2 pre post g Lp. unfold for_loop. cbn [for_from]. rewrite <- Lp.
    rewrite write_app. cbn [write option_map]. rewrite write_app. cbn [write option_map]. rewrite write_app. reflexivity. }
  unfold for_loop at 1. cbn [for_from].
  rewrite (S3 0 _ _ _ _ _ (fun j => if (0 <? dim) && (j <? dim) then f x 0 j else if 0 =? j then 1%R else 0%R)) by lia.
  match goal with |- context [a ++ ?u :: ?v :: ?w :: ?post] => replace (a ++ u :: v :: w :: post) with ((a ++ [u; v; w]) ++ post) by (rewrite <- app_assoc; reflexivity) end.
  rewrite (S3 1 _ _ _ _ _ (fun j => if (1 <? dim) && (j <? dim) then f x 1 j else if 1 =? j then 1%R else 0%R))
    by (rewrite app_length; cbn [List.length]; lia).
  match goal with |- context [?a ++ ?u :: ?v :: ?w :: 0%R :: ?post] => replace (a ++ u :: v :: w :: 0%R :: post) with ((a ++ [u; v; w]) ++ 0%R :: post) by (rewrite <- (app_assoc a); reflexivity) end.
  rewrite (S3 2 _ _ _ _ _ (fun j => if (2 <? dim) && (j <? dim) then f x 2 j else if 2 =? j then 1%R else 0%R))
    by (rewrite !app_length; cbn [List.length]; lia).
  rewrite <- !app_assoc. reflexivity.
Qed.

Section Fields.
Context {T : Type} (dim : nat) (m : list (shape * vtkElement)) (elements : list element) (extractor : element -> point -> T) (o : outputs T).
Context (Hd : dim <= 3) (HC : forall e, In e elements -> has_cell m e)
  (HV : forall e, In e (vectors o) -> forall x, List.length (snd e x) = dim)
  (HNames : NoDup (map fst (scalars o) ++ map fst (vectors o) ++ map fst (tensors o)))
  (HN : fits (9 * List.length (all_points m elements))).

Definition vals (pts : list (element * point)) : list T := map (fun ep => extractor (fst ep) (snd ep)) pts.
Let N := List.length (all_points m elements).

Definition filled (pts : list (element * point)) (d : fields) : Prop :=
  (forall e, In e (scalars o) -> dget (fst e) d = map (snd e) (vals pts) ++ repeat 0%R (N - List.length pts)) /\
  (forall e, In e (vectors o) -> dget (fst e) d = flat_map (fun x => padded (snd e x)) (vals pts) ++ repeat 0%R (3 * (N - List.length pts))) /\
  (forall e, In e (tensors o) -> dget (fst e) d = flat_map (fun x => padded_tensor dim (snd e x)) (vals pts) ++ repeat 0%R (9 * (N - List.length pts))).

Lemma names_split : NoDup (map fst (scalars o)) /\ NoDup (map fst (vectors o)) /\ NoDup (map fst (tensors o)) /\
  (forall n, In n (map fst (scalars o)) -> ~ In n (map fst (vectors o)) /\ ~ In n (map fst (tensors o))) /\
  (forall n, In n (map fst (vectors o)) -> ~ In n (map fst (scalars o)) /\ ~ In n (map fst (tensors o))) /\
  (forall n, In n (map fst (tensors o)) -> ~ In n (map fst (scalars o)) /\ ~ In n (map fst (vectors o))).
Proof.
  assert (A : forall (l1 l2 : list string), NoDup (l1 ++ l2) -> NoDup l1 /\ NoDup l2 /\ forall n, In n l1 -> In n l2 -> False).
  { induction l1 as [|x l1 IH]; intros l2 H; [split; [constructor|]; split; [exact H|intros n []]|].
    cbn in H. inversion H as [|? ? Nx H']; subst. destruct (IH _ H') as (H1 & H2 & H3).
    split; [constructor; [intros Hx; apply Nx, in_or_app; left; exact Hx|exact H1]|]. split; [exact H2|].
    intros n [<-|Hn] Hn'; [apply Nx, in_or_app; right; exact Hn'|apply (H3 n Hn Hn')]. }
  destruct (A _ _ HNames) as (A1 & A2 & A3). destruct (A _ _ A2) as (B1 & B2 & B3).
  assert (C1 : forall n, In n (map fst (scalars o)) -> In n (map fst (vectors o)) -> False)
    by (intros n H1 H2; apply (A3 n H1), in_or_app; left; exact H2).
  assert (C2 : forall n, In n (map fst (scalars o)) -> In n (map fst (tensors o)) -> False)
    by (intros n H1 H2; apply (A3 n H1), in_or_app; right; exact H2).
  split; [exact A1|]. split; [exact B1|]. split; [exact B2|]. 
  split; [|split]; intros n Hn; split; intros Hn'; eauto.
Qed.

Lemma storePoint_ok pts ep d : List.length pts < N -> filled pts d ->
  exists d', storePoint dim o extractor (d, List.length pts) ep = Some (d', S (List.length pts)) /\ filled (pts ++ [ep]) d'.
Proof.
  intros Hlt (FS & FV & FT). destruct names_split as (NS & NV & NT & DS & DV & DT).
  unfold storePoint. cbn [fst snd]. set (x := extractor (fst ep) (snd ep)).
  assert (Lv : List.length (vals pts) = List.length pts) by apply map_length.
  assert (Ev : vals (pts ++ [ep]) = vals pts ++ [x]) by (unfold vals; rewrite map_app; reflexivity).
  assert (EN : N - List.length pts = S (N - List.length (pts ++ [ep]))) by (rewrite app_length; cbn; lia).
  destruct (store_ok writeScalar (List.length pts) x (scalars o) d
    (fun e => map (snd e) (vals (pts ++ [ep])) ++ repeat 0%R (N - List.length (pts ++ [ep])))) as (d1 & E1 & G1 & O1); [exact NS| |].
  { intros e He. rewrite (FS e He), Ev, EN, map_app. apply scalar_ok. rewrite map_length. exact Lv. }
  rewrite E1.
  destruct (store_ok (writePaddedVector dim) (List.length pts) x (vectors o) d1
    (fun e => flat_map (fun y => padded (snd e y)) (vals (pts ++ [ep])) ++ repeat 0%R (3 * (N - List.length (pts ++ [ep]))))) as (d2 & E2 & G2 & O2); [exact NV| |].
  { intros e He. rewrite O1 by (apply DV, in_map, He). rewrite (FV e He), Ev, EN, <- Lv. apply vector_ok; [exact Hd|apply HV, He]. }
  rewrite E2.
  destruct (store_ok (writePaddedTensor dim) (List.length pts) x (tensors o) d2
    (fun e => flat_map (fun y => padded_tensor dim (snd e y)) (vals (pts ++ [ep])) ++ repeat 0%R (9 * (N - List.length (pts ++ [ep]))))) as (d3 & E3 & G3 & O3); [exact NT| |].
  { intros e He. rewrite O2 by (apply DT, in_map, He). rewrite O1 by (apply DT, in_map, He).
    rewrite (FT e He), Ev, EN, <- Lv. apply tensor_ok. }
  rewrite E3. exists d3. split; [reflexivity|]. split; [|split].
  - intros e He. rewrite O3 by (apply DS, in_map, He). rewrite O2 by (apply DS, in_map, He). apply G1, He.
  - intros e He. rewrite O3 by (apply DV, in_map, He). apply G2, He.
  - intros e He. apply G3, He.
Qed.

Lemma fields_ok : writeMultiple dim m N elements extractor o = Some (
  map (fun e => {| name := fst e; numberOfComponents := 1; values := map (snd e) (vals (all_points m elements)) |}) (scalars o) ++
  map (fun e => {| name := fst e; numberOfComponents := 3; values := flat_map (fun x => padded (snd e x)) (vals (all_points m elements)) |}) (vectors o) ++
  map (fun e => {| name := fst e; numberOfComponents := 3; values := flat_map (fun x => padded_tensor dim (snd e x)) (vals (all_points m elements)) |}) (tensors o)).
Proof.
  unfold writeMultiple. destruct names_split as (NS & NV & NT & DS & DV & DT).
  rewrite !u32_fits by (apply (fits_le _ _ HN); unfold N; lia).
  set (d1 := resizeAll N (scalars o) []). set (d2 := resizeAll (3 * N) (vectors o) d1). set (d3 := resizeAll (9 * N) (tensors o) d2).
  destruct (resizeAll_ok N (scalars o) [] NS) as (R1 & U1); [reflexivity|]. fold d1 in R1, U1.
  destruct (resizeAll_ok (3 * N) (vectors o) d1 NV) as (R2 & U2).
  { intros e He. rewrite U1 by (apply DV, in_map, He). reflexivity. } fold d2 in R2, U2.
  destruct (resizeAll_ok (9 * N) (tensors o) d2 NT) as (R3 & U3).
  { intros e He. rewrite U2 by (apply DT, in_map, He). rewrite U1 by (apply DT, in_map, He). reflexivity. } fold d3 in R3, U3.
  assert (F0 : filled [] d3).
  { unfold filled. cbn [vals map flat_map app List.length]. rewrite Nat.sub_0_r. split; [|split].
    - intros e He. rewrite U3 by (apply DS, in_map, He). rewrite U2 by (apply DS, in_map, He). apply R1, He.
    - intros e He. rewrite U3 by (apply DV, in_map, He). apply R2, He.
    - intros e He. apply R3, He. }
  clearbody d3. clear R1 R2 R3 U1 U2 U3 d1 d2.
  destruct (forPoints_inv m (storePoint dim o extractor) (fun st _ _ => Some st)
    (fun done st => snd st = List.length (all_points m done) /\ filled (all_points m done) (fst st))
    (fun done pts st => snd st = List.length (all_points m done ++ pts) /\ filled (all_points m done ++ pts) (fst st))
    elements (d3, 0) HC) as ((d & k) & E & Ek & FS & FV & FT).
  - split; [reflexivity|exact F0].
  - intros done st H. rewrite app_nil_r. exact H.
  - intros done e rest pts ep more (d, k) Eq Em (Ek & F). cbn [fst snd] in Ek, F. subst k.
    assert (Hlt : List.length (all_points m done ++ pts) < N).
    { unfold N. rewrite Eq, all_points_app, !app_length.
      change (all_points m (e :: rest)) with (map (fun p => (e, p)) (getPoints (cell_of m e)) ++ all_points m rest).
      rewrite app_length, map_length.
      assert (L : List.length (map (fun p => (e, p)) (getPoints (cell_of m e))) = List.length (pts ++ ep :: more)) by (rewrite Em; reflexivity).
      rewrite map_length, app_length in L. cbn in L. lia. }
    destruct (storePoint_ok _ ep d Hlt F) as (d' & E & F').
    exists (d', S (List.length (all_points m done ++ pts))). split; [exact E|]. cbn [fst snd].
    rewrite app_assoc. split; [rewrite (app_length _ [ep]); cbn; lia|exact F'].
  - intros done e rest st Eq H. exists st. split; [reflexivity|].
    assert (EA : all_points m (done ++ [e]) = all_points m done ++ map (fun p => (e, p)) (getPoints (cell_of m e))).
    { rewrite all_points_app. f_equal. unfold all_points. cbn. apply app_nil_r. }
    rewrite EA. exact H.
  - rewrite E. cbn [fst snd] in *. f_equal. rewrite <- !map_app || idtac. fold N in FS, FV, FT. rewrite Nat.sub_diag in FS, FV, FT. cbn [Nat.mul repeat] in FS, FV, FT.
    f_equal; [|f_equal]; apply map_ext_in; intros e He; [rewrite (FS e He)|rewrite (FV e He)|rewrite (FT e He)]; rewrite app_nil_r; reflexivity.
Qed.
End Fields.

(** ** Reading tuples *)
Lemma read_tuples_flat {A} (f : A -> list R) n : forall l, (forall x, List.length (f x) = n) ->
  read_tuples n (List.length l) (flat_map f l) = Some (map f l).
Proof.
  intros l H. induction l as [|x l IH]; [reflexivity|]. cbn [List.length read_tuples flat_map map].
  destruct (Nat.ltb_spec (List.length (f x ++ flat_map f l)) n) as [L|_]; [rewrite app_length, H in L; lia|].
  rewrite firstn_app, skipn_app, H, Nat.sub_diag. rewrite firstn_all2, skipn_all2 by (rewrite H; lia).
  cbn [firstn skipn app]. rewrite app_nil_r, IH. reflexivity.
Qed.
Lemma read_tuples_length n : forall k l t, read_tuples n k l = Some t -> List.length l = n * k.
Proof.
  induction k as [|k IH]; intros l t H; cbn [read_tuples] in H.
  - destruct l; [cbn; lia|discriminate].
  - destruct (Nat.ltb_spec (List.length l) n) as [|L]; [discriminate|].
    destruct (read_tuples n k (skipn n l)) as [t'|] eqn:E; [|discriminate]. apply IH in E. rewrite skipn_length in E. lia.
Qed.

(** ** Binary data *)
Lemma bytes4_value n : (n < 4294967296)%N -> value4 (bytes4 n) = n.
Proof.
  intros H. unfold value4, bytes4.
  rewrite (N.mod_small (n / 16777216) 256) by (apply N.div_lt_upper_bound; lia).
  pose proof (N.div_mod n 256 ltac:(lia)) as D0. 
  pose proof (N.div_mod (n / 256) 256 ltac:(lia)) as D1. rewrite N.div_div in D1 by lia. change (256 * 256)%N with 65536%N in D1.
  pose proof (N.div_mod (n / 65536) 256 ltac:(lia)) as D2. rewrite N.div_div in D2 by lia. change (65536 * 256)%N with 16777216%N in D2.
  lia.
Qed.
Lemma bytes4_bytes n : Forall is_byte (bytes4 n).
Proof. unfold bytes4, is_byte. repeat constructor; apply N.mod_lt; lia. Qed.

Lemma u32_lt n : (N.of_nat (u32 n) < 4294967296)%N.
Proof. unfold u32. rewrite N2Nat.id. apply N.mod_lt. lia. Qed.
Lemma binary_ok {V} sizeof (encode : V -> list N) data : (forall x, List.length (encode x) = sizeof) -> (forall x, Forall is_byte (encode x)) ->
  exists text, writeBinaryDataArrayData sizeof encode data = Some text /\
    read_binary text = Some (firstn (u32 (List.length data * sizeof)) (flat_map encode data)).
Proof.
  intros L B. unfold writeBinaryDataArrayData. set (size := u32 (List.length data * sizeof)).
  destruct (C37_base64_roundtrip (bytes4 (N.of_nat size)) (bytes4_bytes _)) as (h & Eh & Dh & Lh).
  assert (BF : Forall is_byte (firstn size (flat_map encode data))).
  { apply Forall_forall. intros b Hb. apply (In_nth_error) in Hb. destruct Hb as (i & Hi).
    assert (Hi' : In b (flat_map encode data)).
    { rewrite <- (firstn_skipn size (flat_map encode data)). apply in_or_app. left. apply (nth_error_In _ i), Hi. }
    apply in_flat_map in Hi'. destruct Hi' as (x & _ & Hx). apply (proj1 (Forall_forall _ _) (B x) b Hx). }
  destruct (C37_base64_roundtrip _ BF) as (c & Ec & Dc & _). rewrite Eh, Ec. exists (h ++ c). split; [reflexivity|].
  assert (L8 : List.length h = 8) by (rewrite Lh; reflexivity).
  unfold read_binary. rewrite firstn_app, skipn_app, L8. change (8 - 8) with 0. change (firstn 0 c) with (@nil ascii). change (skipn 0 c) with c.
  rewrite (firstn_all2 h), (skipn_all2 h) by lia. rewrite ?app_nil_r. cbn [app]. rewrite ?app_nil_r, Dh, Dc.
  rewrite bytes4_value by apply u32_lt.
  assert (LS : List.length (firstn size (flat_map encode data)) = size).
  { rewrite firstn_length, (flat_map_same_length encode sizeof) by (intros; apply L).
    apply Nat.min_l. unfold size, u32. 
    pose proof (N.mod_le (N.of_nat (List.length data * sizeof)) 4294967296 ltac:(lia)). lia. }
  rewrite LS, N.eqb_refl. reflexivity.
Qed.

(** ** File names *)
Lemma after_last_slash_ok : forall s dir acc, (dir = [] \/ exists d, dir = d ++ [slash]) -> (exists mid, acc = mid ++ s /\ ~ In slash mid) ->
  exists dir', (dir' = [] \/ exists d, dir' = d ++ [slash]) /\ ~ In slash (after_last_slash acc s) /\ dir ++ acc = dir' ++ after_last_slash acc s.
Proof.
  induction s as [|c s IH]; intros dir acc Hd (mid & -> & Hm).
  - exists dir. cbn [after_last_slash]. rewrite app_nil_r. auto.
  - cbn [after_last_slash]. destruct (Ascii.eqb_spec c slash) as [->|Ne].
    + destruct (IH (dir ++ mid ++ [slash]) s) as (dir' & H1 & H2 & H3).
      * right. exists (dir ++ mid). rewrite app_assoc. reflexivity.
      * exists []. split; [reflexivity|intros []].
      * exists dir'. split; [exact H1|]. split; [exact H2|]. rewrite <- H3, <- !app_assoc. reflexivity.
    + apply IH; [exact Hd|]. exists (mid ++ [c]). split; [rewrite <- app_assoc; reflexivity|].
      intros H. apply in_app_or in H. destruct H as [H|[H|[]]]; auto.
Qed.
