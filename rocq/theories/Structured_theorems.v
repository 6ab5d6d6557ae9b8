(** C68: a structured mesh file gives the grid that it describes. *)
From Coq Require Import String Ascii List Arith Bool ZArith Reals Lia Lra.
From Verif Require Import Gmsh_spec CommandLine_spec Gmsh_proofs Structured_model Structured_spec
  Structured_proofs StructuredCells_proofs StructuredCut_proofs StructuredFile_proofs.
From Verif Require Gmsh_model.
Import ListNotations.

(** every direction has at least one cell *)
Definition has_cells (m : structured) : Prop := directions m <> [] /\ Forall (fun d => 0 < cells d) (directions m).

(** * Examples: words with one blank between them *)
Lemma laid_blanks : forall w ws, laid (w :: ws) (w ++ concat (map (cons " "%char) ws)).
Proof.
  intros w ws. exists w, ws, [], (concat (map (cons " "%char) ws)). split; [reflexivity|]. split; [constructor|]. split; [|reflexivity].
  induction ws as [|v ws IH]; cbn [map concat]; [constructor|].
  apply (follows_cons [" "%char] v ws (concat (map (cons " "%char) ws))); [discriminate|repeat constructor|exact IH].
Qed.
Definition convert01 (w : text) : option R :=
  if Gmsh_model.same w (chars "0") then Some 0%R else if Gmsh_model.same w (chars "1") then Some 1%R else None.
Lemma real0 : real convert01 0%R (chars "0").
Proof. split; [apply plain_chars; [discriminate|reflexivity]|reflexivity]. Qed.
Lemma real1 : real convert01 1%R (chars "1").
Proof. split; [apply plain_chars; [discriminate|reflexivity]|reflexivity]. Qed.
Lemma count_digit : forall n, n <= 9 -> count n [ascii_of_nat (48 + n)].
Proof. intros n H. split; [discriminate|]. split; [|lia]. exact (digits_more [] 0 n digits_none H). Qed.
(** a file of one line: a grid of [a], [b] and [c] cells in the unit cube *)
Definition cube_of (a b c : nat) (p q r t : bool) : structured :=
  Structured [Direction a 0 1 p; Direction b 0 1 q; Direction c 0 1 r]%R t.
Lemma cube_described : forall a b c p q r t, a <= 9 -> b <= 9 -> c <= 9 ->
  exists text, describes convert01 text (cube_of a b c p q r t).
Proof.
  intros a b c p q r t A B C. eexists.
  exists [ascii_of_nat (48 + 1)], [ascii_of_nat (48 + 3)],
    [[ascii_of_nat (48 + a)]; [ascii_of_nat (48 + b)]; [ascii_of_nat (48 + c)]],
    [chars "0"; chars "0"; chars "0"], [chars "1"; chars "1"; chars "1"], [].
  split; [apply count_digit; lia|]. split; [apply count_digit; cbn; lia|].
  split; [repeat constructor; try discriminate; now apply count_digit|].
  split; [repeat apply Forall2_cons; try apply Forall2_nil; exact real0|].
  split; [repeat apply Forall2_cons; try apply Forall2_nil; exact real1|].
  split; [constructor|]. eexists. split; [|reflexivity]. cbn [app]. apply laid_blanks.
Qed.
Example C68_text_nonvacuous : describes convert01 (chars "structured 1 2 4 3 0 0 1 1 triangular true false")
  (Structured [Direction 4 0 1 true; Direction 3 0 1 false]%R true).
Proof.
  exists (chars "1"), (chars "2"), [chars "4"; chars "3"], [chars "0"; chars "0"], [chars "1"; chars "1"], [].
  split; [exact (count_digit 1 ltac:(lia))|]. split; [exact (count_digit 2 ltac:(lia))|].
  split; [constructor; [exact (count_digit 4 ltac:(lia))|constructor; [exact (count_digit 3 ltac:(lia))|constructor]]|].
  split; [repeat apply Forall2_cons; try apply Forall2_nil; exact real0|].
  split; [repeat apply Forall2_cons; try apply Forall2_nil; exact real1|].
  split; [constructor|]. eexists. split; [|rewrite app_nil_r; reflexivity].
  exact (laid_blanks (chars "structured") [chars "1"; chars "2"; chars "4"; chars "3"; chars "0"; chars "0"; chars "1"; chars "1"; chars "triangular"; chars "true"; chars "false"]).
Qed.

(** * Rectangular meshes: every cell of the grid is an element, and its corners are in their places; corners at the same
      place are one coordinate, and corners that periodicity identifies one node; no coordinate or node is unused *)
Theorem C68_rectangular : forall convert t m, describes convert t m -> has_cells m -> simplices m = false ->
  exists r nodes elements cs, hpgemReader convert t = Some r /\ readStructured r = Some (nodes, elements) /\
    length (axes r) = length (directions m) /\
    covers (directions m) cs /\ Forall (fun p => snd p = [seq 0 (2 ^ length (directions m))]) cs /\
    mesh_of (directions m) cs nodes elements.
Proof.
  intros convert t m D (N & C) S. exists (Reader (map axisOf (directions m)) (simplices m)). rewrite S.
  destruct (read_rectangles (directions m) C) as (nodes & elements & E & M).
  exists nodes, elements, (listing (map axisOf (directions m)) (whole (map axisOf (directions m)))).
  split; [rewrite (file_read convert t m D N); now rewrite S|]. split; [exact E|]. split; [apply map_length|].
  split; [now apply listing_covers|]. split; [|exact M].
  unfold listing, whole. rewrite Forall_map, map_length. apply Forall_forall. reflexivity.
Qed.
Print Assumptions C68_rectangular.
Example C68_rectangular_nonvacuous : exists t, describes convert01 t (cube_of 4 1 3 true true false false) /\
  has_cells (cube_of 4 1 3 true true false false).
Proof.
  destruct (cube_described 4 1 3 true true false false) as (t & T); try lia. exists t. split; [exact T|].
  split; [discriminate|]. repeat constructor.
Qed.

(** * Triangular meshes: the cells are cut into triangles or tetrahedra that fill them; neighbouring cells cut the side
      between them in the same way, also across a periodic boundary, in space when the number of cells is even *)
Theorem C68_triangular : forall convert t m, describes convert t m -> has_cells m -> simplices m = true ->
  length (directions m) = 2 \/ length (directions m) = 3 ->
  exists r nodes elements cs, hpgemReader convert t = Some r /\ readStructured r = Some (nodes, elements) /\
    length (axes r) = length (directions m) /\
    covers (directions m) cs /\ Forall (fun p => cut (length (directions m)) (snd p)) cs /\
    match_between (length (directions m)) cs /\
    (forall i d, nth_error (directions m) i = Some d -> length (directions m) = 2 \/ Nat.even (cells d) = true ->
       match_across (directions m) i cs) /\
    mesh_of (directions m) cs nodes elements.
Proof.
  intros convert t m D (N & C) S L. exists (Reader (map axisOf (directions m)) (simplices m)). rewrite S.
  destruct (read_triangles (directions m) C L) as (nodes & elements & E & M).
  exists nodes, elements, (listing (map axisOf (directions m)) (triangles (map axisOf (directions m)))).
  split; [rewrite (file_read convert t m D N); now rewrite S|]. split; [exact E|]. split; [apply map_length|].
  split; [now apply listing_covers|]. set (ds := directions m) in *. fold (sensible ds) in C.
  split.
  { apply Forall_forall. intros (l & ss) H. apply listing_in in H; [|exact C]. destruct H as (_ & k & -> & _). cbn [snd].
    destruct L as [L|L]; rewrite L; [rewrite corners_flat by exact L; apply cut_flat|rewrite corners_solid by exact L; apply cut_solid]. }
  split; [|split; [|exact M]].
  - intros l ss l' ss' i f H H' I Nx P. apply listing_in in H; [|exact C]. apply listing_in in H'; [|exact C].
    destruct H as (Hl & k & -> & O), H' as (Hl' & k' & -> & O').
    pose proof (next_parity i l l' ltac:(lia) Nx) as Q. rewrite <- O, <- O' in Q.
    destruct L as [L|L]; rewrite L in *; [rewrite (corners_flat ds L)|rewrite (corners_solid ds L)].
    + apply (between 2 i); auto using flat_bounded, flat_fits.
    + apply (between 3 i); auto using solid_bounded, solid_fits.
  - intros i d Nd Hd l ss l' ss' f H H' Op P. apply listing_in in H; [|exact C]. apply listing_in in H'; [|exact C].
    destruct H as (Hl & k & -> & O), H' as (Hl' & k' & -> & O').
    assert (I : i < length ds) by (apply nth_error_Some; congruence).
    destruct L as [L|L]; rewrite L in *; [rewrite (corners_flat ds L)|rewrite (corners_solid ds L)].
    + apply (opposite_facets ds 2 i l l'); auto using flat_bounded, flat_fits.
    + destruct Hd as [Hd|Hd]; [discriminate|].
      assert (Pd : 0 < cells d) by (unfold sensible in C; rewrite Forall_forall in C; apply C; now apply nth_error_In in Nd).
      pose proof (opposite_parity ds i l l' d Op Nd Pd Hd) as Q. rewrite <- O, <- O' in Q.
      apply (opposite_facets ds 3 i l l'); auto using solid_bounded, solid_fits.
Qed.
Print Assumptions C68_triangular.
Example C68_triangular_nonvacuous : exists t, describes convert01 t (cube_of 4 2 3 true false false true) /\
  has_cells (cube_of 4 2 3 true false false true) /\
  next_cell 1 [1; 0; 2] [1; 1; 2] /\ cell (directions (cube_of 4 2 3 true false false true)) [1; 1; 2] /\
  opposite (directions (cube_of 4 2 3 true false false true)) 0 [3; 1; 2] [0; 1; 2] /\
  facet 3 [1; 0; 2] (Nat.iter 3 turn solid) (map (corner [1; 0; 2]) [3; 2; 6]).
Proof.
  destruct (cube_described 4 2 3 true false false true) as (t & T); try lia. exists t. split; [exact T|].
  split; [split; [discriminate|]; repeat constructor|].
  split; [split; [reflexivity|]; intros [|[|[|q]]] k E; cbn in E; try (destruct q; discriminate); injection E as <-; reflexivity|].
  split; [repeat constructor|].
  split.
  { split; [reflexivity|]. split; [reflexivity|]. split; [eexists; repeat split; reflexivity|].
    intros [|[|[|q]]] Q; try reflexivity. congruence. }
  split; [reflexivity|]. split.
  - repeat (constructor; [cbn; intuition discriminate|]). constructor.
  - exists [3; 2; 0; 6].
    split; [vm_compute; tauto|]. vm_compute. intros g. tauto.
Qed.

(** * An odd number of cells in a periodic direction: opposite tetrahedra do not match *)
Theorem C68_periodic_odd_refuted : forall convert t, describes convert t (cube_of 3 1 1 true false false true) ->
  exists r nodes elements cs, hpgemReader convert t = Some r /\ readStructured r = Some (nodes, elements) /\
    covers (directions (cube_of 3 1 1 true false false true)) cs /\
    mesh_of (directions (cube_of 3 1 1 true false false true)) cs nodes elements /\
    ~ match_across (directions (cube_of 3 1 1 true false false true)) 0 cs.
Proof.
  intros convert t D. set (m := cube_of 3 1 1 true false false true) in *.
  assert (C : sensible (directions m)) by (repeat constructor).
  destruct (read_triangles (directions m) C ltac:(now right)) as (nodes & elements & E & M).
  exists (Reader (map axisOf (directions m)) true), nodes, elements, (listing (map axisOf (directions m)) (triangles (map axisOf (directions m)))).
  split; [exact (file_read convert t m D ltac:(discriminate))|]. split; [exact E|]. split; [now apply listing_covers|]. split; [exact M|].
  intros A. clear M E D C nodes elements.
  assert (X : facet 3 [0; 0; 0] [[1; 2; 4; 7]; [0; 1; 2; 4]; [1; 3; 2; 7]; [1; 4; 5; 7]; [2; 6; 4; 7]] [[0; 0; 0]; [0; 0; 1]; [0; 1; 1]]).
  { apply (A [2; 0; 0] [[2; 1; 7; 4]; [3; 2; 1; 7]; [2; 0; 1; 4]; [2; 7; 6; 4]; [1; 5; 7; 4]] [0; 0; 0] _ [[3; 0; 0]; [3; 0; 1]; [3; 1; 1]]).
    - right. right. left. reflexivity.
    - left. reflexivity.
    - split; [reflexivity|]. split; [reflexivity|]. split; [eexists; repeat split; reflexivity|].
      intros [|[|[|q]]] Q; try reflexivity. congruence.
    - repeat constructor.
    - split; [reflexivity|]. split; [repeat (constructor; [cbn; intuition discriminate|]); constructor|].
      exists [1; 5; 7; 4]. split; [cbn; tauto|]. vm_compute. intros g. tauto. }
  destruct X as (_ & _ & s & S & I).
  pose proof (I [0; 0; 0] ltac:(cbn; tauto)) as I1. pose proof (I [0; 1; 1] ltac:(cbn; tauto)) as I2. clear I.
  cbn [In] in S. repeat (destruct S as [<- | S]; [vm_compute in I1, I2; intuition discriminate|]). exact S.
Qed.
Print Assumptions C68_periodic_odd_refuted.
Example C68_periodic_odd_nonvacuous : exists t, describes convert01 t (cube_of 3 1 1 true false false true).
Proof. apply cube_described; lia. Qed.

(** * Every element has a processor in a rectangular mesh *)
Lemma bindings_length : forall xs t, length (getProcessorBindings (Reader xs t)) = prod numberOfElements xs.
Proof. intros. unfold getProcessorBindings. cbn [axes]. now rewrite repeat_length, total_prod. Qed.
Lemma elements_length : forall xs ss n, (forall e, length (ss e) = n) ->
  length (all_elements xs (listing xs ss)) = n * prod numberOfElements xs.
Proof.
  intros xs ss n H. unfold all_elements, listing. generalize (prod numberOfElements xs). intros k. rewrite flat_map_concat_map, map_map. cbn [fst snd].
  rewrite <- (seq_length k 0) at 2. generalize (seq 0 k). intros l. induction l as [|e l IH]; [cbn; lia|].
  cbn [map concat length]. rewrite app_length, IH, map_length, H. lia.
Qed.
Theorem C68_bindings : forall convert t m, describes convert t m -> has_cells m -> simplices m = false ->
  exists r nodes elements, hpgemReader convert t = Some r /\ readStructured r = Some (nodes, elements) /\
    length (getProcessorBindings r) = length elements /\ Forall (fun p => p = 0) (getProcessorBindings r).
Proof.
  intros convert t m D (N & C) S. exists (Reader (map axisOf (directions m)) (simplices m)). rewrite S.
  pose proof (good_axes _ C) as G. unfold readStructured. rewrite (nodes_ok _ G). cbn [Gmsh_model.bind fst snd]. rewrite (rectangles_ok _ G). cbn [Gmsh_model.bind].
  do 2 eexists. split; [rewrite (file_read convert t m D N); now rewrite S|]. split; [reflexivity|].
  split; [|unfold getProcessorBindings; apply Forall_forall; intros p P; now apply repeat_spec in P].
  rewrite bindings_length, (elements_length _ _ 1) by reflexivity. lia.
Qed.
Print Assumptions C68_bindings.
(** but not in a triangular one: there is one for every cell *)
Theorem C68_bindings_refuted : forall convert t m, describes convert t m -> has_cells m -> simplices m = true ->
  length (directions m) = 2 \/ length (directions m) = 3 ->
  exists r nodes elements, hpgemReader convert t = Some r /\ readStructured r = Some (nodes, elements) /\
    length (getProcessorBindings r) < length elements.
Proof.
  intros convert t m D (N & C) S L. exists (Reader (map axisOf (directions m)) (simplices m)). rewrite S.
  pose proof (good_axes _ C) as G. unfold readStructured. rewrite (nodes_ok _ G). cbn [Gmsh_model.bind fst snd].
  rewrite (triangles_ok _ G) by now rewrite map_length. cbn [Gmsh_model.bind].
  do 2 eexists. split; [rewrite (file_read convert t m D N); now rewrite S|]. split; [reflexivity|].
  rewrite bindings_length, (elements_length _ _ (length (cornersOfTriangles (map axisOf (directions m))))) by (intros; unfold triangles; apply iter_turn_length).
  pose proof (prod_pos _ _ (good_elements _ G)) as P.
  destruct L as [L|L]; [rewrite corners_flat by exact L|rewrite corners_solid by exact L]; cbn [length flat solid]; lia.
Qed.
Print Assumptions C68_bindings_refuted.
Example C68_bindings_nonvacuous : (exists t, describes convert01 t (cube_of 2 1 3 false true false false)) /\
  (exists t, describes convert01 t (cube_of 2 1 3 false true false true)).
Proof. split; apply cube_described; lia. Qed.

(** * What is refused: other versions, and triangles in other dimensions *)
Theorem C68_version : forall convert n w w' ws t tail, count n w -> n <> 1 ->
  laid (chars "structured" :: w :: w' :: ws) t -> hpgemReader convert (t ++ tail) = None.
Proof.
  intros convert n w w' ws t tail W N (v & vs & sep & t1 & E & Sp & F & ->). injection E as <- <-.
  inversion F as [|s1 ? ? t2 Sn1 S1 F1]; subst. inversion F1 as [|s2 ? ? t3 Sn2 S2 F2]; subst. rewrite <- !app_assoc. unfold hpgemReader.
  rewrite (extract_word sep (chars "structured") _ Sp); [|apply plain_chars; [discriminate|reflexivity]|now apply more_space].
  cbn [Gmsh_model.bind fst snd]. rewrite same_refl. cbn [Gmsh_model.must Gmsh_model.bind]. unfold structuredReader.
  rewrite (readSize_word s1 (Z.of_nat n) w _ S1 W) by now apply more_space. cbn [Gmsh_model.bind fst snd].
  destruct (Z.eqb_spec (Z.of_nat n) 1); [lia|]. reflexivity.
Qed.
Print Assumptions C68_version.
Theorem C68_simplex_dimensions : forall convert t m, describes convert t m -> directions m <> [] -> simplices m = true ->
  length (directions m) <> 2 -> length (directions m) <> 3 ->
  exists r, hpgemReader convert t = Some r /\ readStructured r = None.
Proof.
  intros convert t m D N S L2 L3. exists (Reader (map axisOf (directions m)) (simplices m)). split; [now apply file_read|].
  unfold readStructured. destruct (getNodeCoordinates _) as [ns|]; [|reflexivity]. cbn [Gmsh_model.bind]. unfold getElements. cbn [axes hasTriangles].
  rewrite map_length, S. destruct (length (directions m)) as [|[|[|[|k]]]]; try congruence; reflexivity.
Qed.
Print Assumptions C68_simplex_dimensions.
Example C68_refused_nonvacuous : (count 2 (chars "2") /\ laid [chars "structured"; chars "2"; chars "1"] (chars "structured 2 1")) /\
  describes convert01 (chars "structured 1 1 4 0 1 triangular true") (Structured [Direction 4 0 1 true]%R true).
Proof.
  split; [split; [exact (count_digit 2 ltac:(lia))|exact (laid_blanks (chars "structured") [chars "2"; chars "1"])]|].
  exists (chars "1"), (chars "1"), [chars "4"], [chars "0"], [chars "1"], [].
  split; [exact (count_digit 1 ltac:(lia))|]. split; [exact (count_digit 1 ltac:(lia))|].
  split; [constructor; [exact (count_digit 4 ltac:(lia))|constructor]|].
  split; [repeat apply Forall2_cons; try apply Forall2_nil; exact real0|].
  split; [repeat apply Forall2_cons; try apply Forall2_nil; exact real1|].
  split; [constructor|]. eexists. split; [|rewrite app_nil_r; reflexivity].
  exact (laid_blanks (chars "structured") [chars "1"; chars "1"; chars "4"; chars "0"; chars "1"; chars "triangular"; chars "true"]).
Qed.
