(** Reading the description of a structured mesh, and the mesh that comes out. *)
From Coq Require Import String Ascii List Arith Bool ZArith Reals Lia Lra.
From Verif Require Import Loop_model Loop_proofs Gmsh_model Gmsh_spec CommandLine_spec Gmsh_proofs Structured_model Structured_spec
  Structured_proofs StructuredCells_proofs StructuredCut_proofs.
Import ListNotations.

(** * The text *)
Lemma readMany_words : forall {A} (read : stream -> option (A * stream)) (word : A -> Gmsh_model.text -> Prop),
  (forall sep a w t, Forall space sep -> word a w -> more t -> read (Stream (sep ++ w ++ t) false) = Some (a, Stream t false)) ->
  forall l ws t r, Forall2 word l ws -> follows ws t -> more r ->
  readMany read (length l) (Stream (t ++ r) false) = Some (l, Stream r false).
Proof.
  intros A read word R l ws t r H. revert t. induction H as [|a w l ws W H IH]; intros t F M; inversion F; subst; [reflexivity|].
  cbn [length readMany]. rewrite <- !app_assoc. rewrite (R sep a w (t0 ++ r)); [|assumption..|now apply (follows_more ws)].
  cbn [bind fst snd]. rewrite IH by assumption. reflexivity.
Qed.
Lemma readCount_word : forall sep n w t, Forall space sep -> count n w -> more t ->
  readCount (Stream (sep ++ w ++ t) false) = Some (n, Stream t false).
Proof.
  intros sep n w t S W M. unfold readCount. rewrite (readSize_word sep (Z.of_nat n) w t S W M). cbn [bind fst snd]. now rewrite Nat2Z.id.
Qed.
Lemma readNumber_word : forall convert sep x w t, Forall space sep -> real convert x w -> more t ->
  readNumber convert (Stream (sep ++ w ++ t) false) = Some (x, Stream t false).
Proof.
  intros convert sep n w t S (W & E) M. unfold readNumber. rewrite (extract_word sep w t S W M). cbn [bind fst snd]. now rewrite E.
Qed.
Lemma yes_no_plain : forall b, plain (yes_no b).
Proof. intros b. split; [destruct b; discriminate|]. destruct b; repeat constructor; cbv; intuition discriminate. Qed.
Lemma extract_end : forall sep w, Forall space sep -> plain w -> extract (Stream (sep ++ w) false) = Some (w, Stream [] true).
Proof.
  intros sep w S W. unfold extract. cbn [eof rest]. pose proof (skipSpace_plain sep w [] S W) as E. rewrite app_nil_r in E. rewrite E.
  assert (X : span w = (w, [])).
  { destruct W as (_ & W). clear E. induction W as [|c w C W IH]; [reflexivity|]. cbn [span]. apply space_false in C. now rewrite C, IH. }
  rewrite X. cbn [fst snd]. destruct w; [destruct W; congruence|reflexivity].
Qed.
Lemma readBool_value : forall (b : bool) s s', extract s = Some (yes_no b, s') -> readBool s = Some (b, s').
Proof. intros b s s' E. unfold readBool. rewrite E. destruct b; reflexivity. Qed.
Lemma follows_nothing : forall w ws, ~ follows (w :: ws) [].
Proof.
  intros w ws H. remember [] as t eqn:T. remember (w :: ws) as vs eqn:V. destruct H as [|sep v vs t N P F]; [discriminate|].
  apply app_eq_nil in T. now destruct T.
Qed.
Lemma readBools : forall ps ts tail, Forall space tail -> follows (map yes_no ps) ts ->
  exists s', readMany readBool (length ps) (Stream (ts ++ tail) false) = Some (ps, s').
Proof.
  induction ps as [|p ps IH]; intros ts tail T F; cbn [map] in F; inversion F as [|sep ? ? t Sn Sp Ft]; subst; [eexists; reflexivity|].
  cbn [length readMany]. rewrite <- !app_assoc.
  destruct (list_eq_dec ascii_dec (t ++ tail) []) as [E|E].
  - apply app_eq_nil in E. destruct E as (-> & ->). rewrite app_nil_r.
    rewrite (readBool_value p _ _ (extract_end sep (yes_no p) Sp (yes_no_plain p))). cbn [bind fst snd].
    destruct ps as [|p' ps].
    + eexists. reflexivity.
    + exfalso. cbn [map] in Ft. now apply follows_nothing in Ft.
  - assert (M : more (t ++ tail)).
    { inversion Ft; subst.
      - cbn [app] in *. destruct tail as [|c tail]; [congruence|]. inversion T; subst. exists c, tail. now split.
      - rewrite <- app_assoc. now apply more_space. }
    rewrite (readBool_value p _ _ (extract_word sep (yes_no p) (t ++ tail) Sp (yes_no_plain p) M)). cbn [bind fst snd].
    destruct (IH t tail T Ft) as (s' & ->). cbn [bind fst snd]. eexists. reflexivity.
Qed.
Definition axisOf (d : direction) : axis :=
  Axis (cells d) (cells d + (if periodic d then 0 else 1)) (low d) (high d - low d)%R (periodic d).
Lemma assemble_ok : forall ds, assemble (map cells ds) (map low ds) (map high ds) (map periodic ds) = map axisOf ds.
Proof. induction ds as [|d ds IH]; cbn; [reflexivity|now rewrite IH]. Qed.
Lemma forall2_of : forall {A B C} (f : A -> B) (P : B -> C -> Prop) l m, Forall2 (fun a c => P (f a) c) l m -> Forall2 P (map f l) m.
Proof. intros A B C f P l m H. induction H; cbn; constructor; assumption. Qed.
Lemma plain_chars : forall w, w <> [] -> forallb (fun c => negb (isSpace c)) w = true -> plain w.
Proof.
  intros w N H. split; [exact N|]. rewrite forallb_forall in H. apply Forall_forall. intros c C. apply space_false.
  specialize (H c C). now destruct (isSpace c).
Qed.
Lemma file_read : forall convert t m, describes convert t m -> directions m <> [] ->
  hpgemReader convert t = Some (Reader (map axisOf (directions m)) (simplices m)).
Proof.
  intros convert t m (w1 & wd & wn & wl & wh & tail & W1 & Wd & Wn & Wl & Wh & T & body & Lb & ->) NE.
  destruct Lb as (w & ws & sep & t1 & E & Sp & F & ->). cbn [app] in E. injection E as <- <-.
  set (ds := directions m) in *.
  inversion F as [|s1 ? ? t2 Sn1 S1 F1]; subst. inversion F1 as [|s2 ? ? t3 Sn2 S2 F2]; subst.
  apply follows_split in F2. destruct F2 as (tn & t4 & Fn & F3 & ->).
  apply follows_split in F3. destruct F3 as (tl & t5 & Fl & F4 & ->).
  apply follows_split in F4. destruct F4 as (th & t6 & Fh & F5 & ->).
  cbn [app] in F5. inversion F5 as [|s3 ? ? tb Sn3 S3 Fb]; subst.
  assert (Mb : more (tb ++ tail)).
  { destruct ds as [|d ds']; [congruence|]. cbn [map] in Fb. inversion Fb; subst. rewrite <- app_assoc. now apply more_space. }
  set (kind := chars (if simplices m then "triangular" else "rectangular")) in *.
  assert (Pk : plain kind) by (unfold kind; destruct (simplices m); apply plain_chars; try discriminate; reflexivity).
  rewrite <- !app_assoc. 
  set (r6 := s3 ++ kind ++ tb ++ tail).
  assert (M6 : more r6) by (unfold r6; now apply more_space).
  set (r5 := th ++ r6). assert (M5 : more r5) by (apply (follows_more wh); assumption).
  set (r4 := tl ++ r5). assert (M4 : more r4) by (apply (follows_more wl); assumption).
  set (r3 := tn ++ r4). assert (M3 : more r3) by (apply (follows_more wn); assumption).
  unfold hpgemReader.
  rewrite (extract_word sep (chars "structured") _ Sp); [|apply plain_chars; [discriminate|reflexivity]|now apply more_space].
  cbn [bind fst snd]. rewrite same_refl. cbn [must bind]. unfold structuredReader.
  rewrite (readSize_word s1 1 w1 _ S1 W1) by now apply more_space. cbn [bind fst snd Z.eqb Pos.eqb must].
  rewrite (readCount_word s2 (length ds) wd _ S2 Wd M3). cbn [bind fst snd]. unfold r3.
  rewrite <- (map_length cells ds) at 1.
  rewrite (readMany_words readCount count readCount_word (map cells ds) wn tn r4 (forall2_of cells count ds wn Wn) Fn M4).
  cbn [bind fst snd]. unfold r4. rewrite <- (map_length low ds) at 1.
  rewrite (readMany_words (readNumber convert) (real convert) (readNumber_word convert) (map low ds) wl tl r5 (forall2_of low (real convert) ds wl Wl) Fl M5).
  cbn [bind fst snd]. unfold r5. rewrite <- (map_length high ds) at 1.
  rewrite (readMany_words (readNumber convert) (real convert) (readNumber_word convert) (map high ds) wh th r6 (forall2_of high (real convert) ds wh Wh) Fh M6).
  cbn [bind fst snd]. unfold r6. rewrite (extract_word s3 kind _ S3 Pk Mb). cbn [bind fst snd].
  assert (K : (if same kind (chars "triangular") then Some true else bind (must (same kind (chars "rectangular"))) (fun _ => Some false)) = Some (simplices m))
    by (unfold kind; destruct (simplices m); reflexivity).
  rewrite K. cbn [bind]. rewrite <- (map_map periodic yes_no) in Fb.
  destruct (readBools (map periodic ds) tb tail T Fb) as (s' & Rb). rewrite map_length in Rb. rewrite Rb. cbn [bind fst snd].
  now rewrite assemble_ok.
Qed.

(** * The mesh *)
Definition sensible (ds : list direction) : Prop := Forall (fun d => 0 < cells d) ds.
Lemma good_axes : forall ds, sensible ds -> Forall good (map axisOf ds).
Proof. intros ds H. rewrite Forall_map. eapply Forall_impl; [|exact H]. intros d D. split; [exact D|reflexivity]. Qed.
Lemma point_iff : forall ds g, point (map axisOf ds) g <-> grid_point ds g.
Proof.
  intros ds g. unfold point, grid_point. revert g. induction ds as [|d ds IH]; intros [|k g]; cbn [map]; split; intros H; inversion H; subst; constructor; try assumption; now apply IH.
Qed.
Lemma cell_iff : forall ds g, below numberOfElements (map axisOf ds) g <-> cell ds g.
Proof.
  intros ds g. unfold below, cell. revert g. induction ds as [|d ds IH]; intros [|k g]; cbn [map]; split; intros H; inversion H; subst; constructor; try assumption; now apply IH.
Qed.
Lemma placed_position : forall ds g, placed (map axisOf ds) g = position ds g.
Proof. induction ds as [|d ds IH]; intros [|k g]; try reflexivity. cbn [map placed]. rewrite IH. reflexivity. Qed.
Lemma fold_same : forall ds g g', sensible ds -> grid_point ds g -> grid_point ds g' ->
  (fold (map axisOf ds) g = fold (map axisOf ds) g' <-> same_node ds g g').
Proof.
  induction ds as [|d ds IH]; intros [|k g] [|k' g'] S H H'; inversion H as [|? ? ? ? Hk Hg]; inversion H' as [|? ? ? ? Hk' Hg']; inversion S as [|? ? Sd Sds]; subst.
  - split; [|reflexivity]. intros _ i d k k' N. destruct i; discriminate.
  - cbn [map fold axisOf numberOfNodes].
    assert (X : ((if k =? cells d + (if periodic d then 0 else 1) then 0 else k) =
                (if k' =? cells d + (if periodic d then 0 else 1) then 0 else k') <->
                (k = k' \/ (periodic d = true /\ (k = 0 /\ k' = cells d \/ k = cells d /\ k' = 0))))).
    { destruct (periodic d).
      - rewrite Nat.add_0_r. destruct (Nat.eqb_spec k (cells d)), (Nat.eqb_spec k' (cells d)); split; intros E; try lia.
      - destruct (Nat.eqb_spec k (cells d + 1)), (Nat.eqb_spec k' (cells d + 1)); split; lia. }
    specialize (IH g g' Sds Hg Hg'). split.
    + intros E. injection E as E1 E2. apply X in E1. apply IH in E2. intros [|i] d0 a b Nd Na Nb; cbn [nth_error] in Nd, Na, Nb.
      * injection Nd as <-. injection Na as <-. injection Nb as <-. exact E1.
      * now apply (E2 i).
    + intros E. f_equal; [apply X; now apply (E 0)|]. apply IH. intros i d0 a b Nd Na Nb. now apply (E (Datatypes.S i)).
Qed.
Lemma rank_injective : forall xs v v', below numberOfNodes xs v -> below numberOfNodes xs v' -> rank numberOfNodes xs v = rank numberOfNodes xs v' -> v = v'.
Proof. intros xs v v' H H' E. rewrite <- (unrank_rank _ _ _ H), <- (unrank_rank _ _ _ H'). now rewrite E. Qed.

Lemma listing_covers : forall ds ss, sensible ds -> covers ds (listing (map axisOf ds) ss).
Proof.
  intros ds ss S. unfold covers, listing. rewrite map_map. cbn [fst]. pose proof (good_axes ds S) as G. pose proof (good_elements _ G) as Ge.
  split.
  - apply NoDup_map_in; [apply seq_NoDup|]. intros a b A B E. apply in_seq in A, B.
    rewrite <- (rank_unrank numberOfElements (map axisOf ds) a Ge ltac:(lia)), <- (rank_unrank numberOfElements (map axisOf ds) b Ge ltac:(lia)). now rewrite E.
  - intros l. rewrite in_map_iff, <- cell_iff. split.
    + intros (e & <- & _). now apply unrank_below.
    + intros H. exists (rank numberOfElements (map axisOf ds) l). split; [now apply unrank_rank|]. apply in_seq. pose proof (rank_bound _ _ _ H). lia.
Qed.
Lemma mesh_made : forall ds cs nodes, sensible ds ->
  nodes = map (nodeCopies (map axisOf ds)) (seq 0 (prod numberOfNodes (map axisOf ds))) ->
  mesh_of ds cs nodes (all_elements (map axisOf ds) cs).
Proof.
  intros ds cs nodes S ->. pose proof (good_axes ds S) as G. set (xs := map axisOf ds) in *.
  exists (idOf xs), (nodeOf xs).
  assert (N : forall g, grid_point ds g -> point xs g) by (intros; now apply point_iff).
  split; [intros g H; rewrite (id_numbered xs G g (N g H)); unfold xs; now rewrite placed_position|].
  split; [intros g g' H H'; apply (id_inj xs G); now apply N|].
  split.
  { intros g g' H H'. unfold xs. rewrite <- (fold_same ds g g' S H H'). fold xs. unfold nodeOf. split.
    - apply rank_injective; apply fold_below; auto.
    - now intros ->. }
  split; [intros c H; destruct (id_surj xs G c H) as (g & Hg & E); exists g; split; [now apply point_iff|exact E]|].
  split; [intros n H; rewrite map_length, seq_length in H; destruct (node_surj xs G n H) as (g & Hg & E); exists g; split; [now apply point_iff|exact E]|].
  reflexivity.
Qed.
Lemma read_rectangles : forall ds, sensible ds ->
  exists nodes elements, readStructured (Reader (map axisOf ds) false) = Some (nodes, elements) /\
    mesh_of ds (listing (map axisOf ds) (whole (map axisOf ds))) nodes elements.
Proof.
  intros ds S. pose proof (good_axes ds S) as G. unfold readStructured. rewrite (nodes_ok _ G). cbn [bind fst snd].
  rewrite (rectangles_ok _ G). cbn [bind]. do 2 eexists. split; [reflexivity|]. now apply mesh_made.
Qed.
Lemma read_triangles : forall ds, sensible ds -> length ds = 2 \/ length ds = 3 ->
  exists nodes elements, readStructured (Reader (map axisOf ds) true) = Some (nodes, elements) /\
    mesh_of ds (listing (map axisOf ds) (triangles (map axisOf ds))) nodes elements.
Proof.
  intros ds S D. pose proof (good_axes ds S) as G. unfold readStructured. rewrite (nodes_ok _ G). cbn [bind fst snd].
  rewrite (triangles_ok _ G) by now rewrite map_length. cbn [bind]. do 2 eexists. split; [reflexivity|]. now apply mesh_made.
Qed.

(** the cells with their triangles *)
Lemma listing_in : forall ds l ss, sensible ds -> In (l, ss) (listing (map axisOf ds) (triangles (map axisOf ds))) ->
  length l = length ds /\ exists k, ss = Nat.iter k turn (cornersOfTriangles (map axisOf ds)) /\ Nat.odd k = parity l.
Proof.
  intros ds l ss S H. unfold listing in H. apply in_map_iff in H. destruct H as (e & E & _). injection E as <- <-.
  rewrite unrank_length, map_length. split; [reflexivity|]. exists (turned (map axisOf ds) e). split; [reflexivity|].
  apply turned_parity. apply good_elements. now apply good_axes.
Qed.
Lemma corners_flat : forall ds, length ds = 2 -> cornersOfTriangles (map axisOf ds) = flat.
Proof. intros ds D. unfold cornersOfTriangles. now rewrite map_length, D. Qed.
Lemma corners_solid : forall ds, length ds = 3 -> cornersOfTriangles (map axisOf ds) = solid.
Proof. intros ds D. unfold cornersOfTriangles. now rewrite map_length, D. Qed.
Lemma flat_bounded : forall k, bounded (2 ^ 2) (Nat.iter k turn flat).
Proof. intros k. apply iter_turn_bounded; [now left|]. repeat (apply Forall_cons; [repeat constructor; cbn; lia|]); apply Forall_nil. Qed.
Lemma solid_bounded : forall k, bounded (2 ^ 3) (Nat.iter k turn solid).
Proof. intros k. apply iter_turn_bounded; [now right|]. repeat (apply Forall_cons; [repeat constructor; cbn; lia|]); apply Forall_nil. Qed.
(** cells that differ by one number *)
Lemma sum_change : forall l l' i a b, length l' = length l -> nth_error l i = Some a -> nth_error l' i = Some b ->
  (forall q, q <> i -> nth_error l' q = nth_error l q) -> list_sum l' + a = list_sum l + b.
Proof.
  induction l as [|k l IH]; intros [|k' l'] i a b L A B N; try discriminate; [destruct i; discriminate|].
  destruct i as [|i]; cbn [nth_error] in A, B.
  - injection A as ->. injection B as ->. assert (E : l' = l).
    { apply nth_error_ext_le; [cbn in L; lia|]. intros q _. apply (N (S q)). lia. }
    subst l'. cbn. lia.
  - assert (E : k' = k) by (pose proof (N 0 ltac:(lia)) as X; cbn in X; congruence). subst k'.
    specialize (IH l' i a b ltac:(cbn in L; lia) A B (fun q Q => N (S q) ltac:(lia))). cbn. unfold list_sum in IH. lia.
Qed.
Lemma next_parity : forall i l l', i < length l -> next_cell i l l' -> parity l <> parity l'.
Proof.
  intros i l l' I (L & N). destruct (nth_error l i) as [a|] eqn:A; [|apply nth_error_None in A; lia].
  pose proof (N i a A) as B. rewrite Nat.eqb_refl in B.
  assert (E : list_sum l' + a = list_sum l + S a).
  { apply (sum_change l l' i); try assumption. intros q Q. destruct (nth_error l q) as [k|] eqn:K.
    - rewrite (N q k K). now rewrite (proj2 (Nat.eqb_neq q i) Q).
    - apply nth_error_None. rewrite L. now apply nth_error_None. }
  unfold parity. replace (list_sum l') with (S (list_sum l)) by lia. rewrite Nat.odd_succ, <- Nat.negb_odd. now destruct (Nat.odd (list_sum l)).
Qed.
Lemma opposite_parity : forall ds i l l' d, opposite ds i l l' -> nth_error ds i = Some d -> 0 < cells d -> Nat.even (cells d) = true -> parity l <> parity l'.
Proof.
  intros ds i l l' d (L & N0 & (d' & D' & _ & Nl) & N) D P E. rewrite D in D'. injection D' as <-.
  pose proof (sum_change l l' i _ _ L Nl N0 N) as X. unfold parity.
  assert (Y : list_sum l + 1 = list_sum l' + cells d) by lia.
  pose proof (f_equal Nat.odd Y) as Z. rewrite !Nat.odd_add in Z. rewrite <- (Nat.negb_even (cells d)), E in Z. cbn in Z.
  destruct (Nat.odd (list_sum l)), (Nat.odd (list_sum l')); cbn in Z; congruence.
Qed.
