(** Mesh files: what the preprocessor writes, every process of the kernel reads. *)
From Coq Require Import String Ascii List Arith Lia Bool Permutation Sorted.
From Verif Require Import Loop_model Loop_proofs Std_model StdMap_model StdMap_proofs PreMesh_model PreMesh_spec PreMesh_theorems MeshFile_model MeshFile_spec MeshFile_proofs MeshFileRead_proofs MeshFileFaces_proofs
  MeshFileMarks_proofs MeshFileCopy_proofs MeshFileGood_proofs MeshFileExamples.
From Verif Require Submesh_model Submesh_spec.
Import ListNotations.

Lemma file_read {D} (ltb : D -> D -> bool) geometry (i : input D) dim n p n0 e0 f0 g0 : strict_total ltb -> ready geometry i dim n -> dim = 2 \/ dim = 3 -> p < n ->
  exists edgesOf edges, readMesh geometry dim p n n0 e0 f0 g0 (fileF ltb i dim n) = Some (LF ltb geometry i dim p n0 e0 f0 edgesOf edges) /\
    (dim = 3 -> edgesOf = T i p e0 (cntG geometry i) (gF i 1 g0 (countD i 1)) /\ edges = map (fun x => (g0 + x, edgeF ltb geometry i p e0 x)) (GX i p (countD i 1))) /\ (dim <> 3 -> edges = []).
Proof.
  intros ST R [->| ->] Hp; eexists _, _; (split; [|split]).
  - apply (readMesh_2 ltb ST geometry i n p n0 e0 f0 g0 Hp R).
  - discriminate.
  - reflexivity.
  - apply (readMesh_3 ltb ST geometry i n p n0 e0 f0 g0 Hp R).
  - split; reflexivity.
  - intros C. contradiction.
Qed.

(** A mesh of dimension 2 or 3 is written without an error, and every process reads it without an error; it then has
    exactly the elements it must know with their values, nodes, faces, edges and zones, whatever the ids it starts with. *)
Theorem C63_round_trip : forall D (ltb : D -> D -> bool) geometry (i : input D) dim n, strict_total ltb -> ready geometry i dim n -> dim = 2 \/ dim = 3 ->
  exists ts, outputMesh ltb i n = Some ts /\
    forall p n0 e0 f0 g0, p < n -> exists L, readMesh geometry dim p n n0 e0 f0 g0 ts = Some L /\ copy geometry i dim p n0 e0 f0 g0 L.
Proof.
  intros D ltb geometry i dim n ST R HD. assert (Hdim : 1 <= dim) by lia. exists (fileF ltb i dim n). split; [apply (output_ok ltb ST geometry i dim n R Hdim)|].
  intros p n0 e0 f0 g0 Hp. destruct (file_read ltb geometry i dim n p n0 e0 f0 g0 ST R HD Hp) as (eo & ed & Q & H3 & HN). eexists. split; [exact Q|].
  apply (copy_ok ltb ST geometry i dim n R Hdim p n0 e0 f0 g0 eo ed H3 HN).
Qed.
Print Assumptions C63_round_trip.
Example C63_round_trip_nonvacuous : ready triangle triangles 2 2 /\ ready tetrahedron tetrahedra 3 2 /\ ready square ring 2 2.
Proof. split; [apply triangles_ready|]. split; [apply tetrahedra_ready|apply ring_ready]. Qed.
(** the second process reads an element of the first, and the faces and edges between them *)
Example C63_round_trip_example : exists ts L, outputMesh Nat.ltb tetrahedra 2 = Some ts /\ readMesh tetrahedron 3 1 2 10 20 30 40 ts = Some L /\
  map fst (l_elements L) = [20; 21] /\ map fst (l_faces L) = [30; 31; 32; 33; 34; 35; 36] /\ length (l_edges L) = 9 /\
  map f_type (map snd (l_faces L)) = [WALL_BC; WALL_BC; WALL_BC; SUBDOMAIN_BOUNDARY; WALL_BC; WALL_BC; WALL_BC].
Proof. eexists _, _. split; [vm_compute; reflexivity|]. split; [vm_compute; reflexivity|]. split; [reflexivity|]. split; [reflexivity|]. split; reflexivity. Qed.

(** The faces with a side that belongs to the process know whether the other side belongs to it too, and whether they
    are periodic. *)
Theorem C63_face_types : forall D (ltb : D -> D -> bool) geometry (i : input D) dim n ts, strict_total ltb -> ready geometry i dim n -> dim = 2 \/ dim = 3 -> outputMesh ltb i n = Some ts ->
  forall p n0 e0 f0 g0 L, p < n -> readMesh geometry dim p n n0 e0 f0 g0 ts = Some L -> forall id f, In (id, f) (l_faces L) -> type_ok geometry i p e0 f.
Proof.
  intros D ltb geometry i dim n ts ST R HD O p n0 e0 f0 g0 L Hp RM id f Hf. assert (Hdim : 1 <= dim) by lia. rewrite (output_ok ltb ST geometry i dim n R Hdim) in O. injection O as <-.
  destruct (file_read ltb geometry i dim n p n0 e0 f0 g0 ST R HD Hp) as (eo & ed & Q & _ & _). rewrite Q in RM. injection RM as <-. cbn [LF l_faces] in Hf. unfold facesOut in Hf.
  apply in_map_iff in Hf as (x & [= <- <-] & Hx). apply (type_good ltb ST geometry i dim n R Hdim p e0 x Hx).
Qed.
Print Assumptions C63_face_types.
(** the first process of the ring: an inner face, the face to the other process and the periodic one *)
Example C63_face_types_nonvacuous : exists ts L, ready square ring 2 2 /\ outputMesh Nat.ltb ring 2 = Some ts /\ readMesh square 2 0 2 0 0 0 0 ts = Some L /\
  map (fun q => (fst q, f_type (snd q))) (filter (fun q => match f_right (snd q) with Some _ => true | None => false end) (l_faces L)) =
    [(1, PERIODIC_SUBDOMAIN_BC); (2, INTERNAL); (5, SUBDOMAIN_BOUNDARY)].
Proof. eexists _, _. split; [apply ring_ready|]. split; [vm_compute; reflexivity|]. split; [vm_compute; reflexivity|]. reflexivity. Qed.

(** All processes have pull and push lists that come from the same list of owners and shadows, one that is valid in the
    sense of C14 and C54, and in which an element is in the shadow of exactly the other processes that must know it. *)
Theorem C63_shadow : forall D (ltb : D -> D -> bool) geometry (i : input D) dim n ts, strict_total ltb -> ready geometry i dim n -> dim = 2 \/ dim = 3 -> outputMesh ltb i n = Some ts ->
  exists lines, shadow_lines i lines /\ Submesh_spec.valid_file n lines /\
    forall p n0 e0 f0 g0 L, p < n -> readMesh geometry dim p n n0 e0 f0 g0 ts = Some L -> l_submesh L = Submesh_model.readMesh e0 lines p.
Proof.
  intros D ltb geometry i dim n ts ST R HD O. assert (Hdim : 1 <= dim) by lia. exists (linesF i). split; [|split].
  - split; [unfold linesF; rewrite map_length, seq_length; reflexivity|]. intros el x H. apply (linesF_nth i dim Hdim) in H as (Hel & ->). destruct (shF_ok geometry i dim n R Hdim el Hel) as (A & _ & _ & _ & B).
    split; [exact A|]. intros q. cbn. rewrite B. unfold owner. rewrite A. intuition congruence.
  - intros l Hl. apply in_map_iff in Hl as (el & <- & Hel). apply in_seq in Hel. destruct (shF_ok geometry i dim n R Hdim el ltac:(lia)) as (A & B & _ & S & M). cbn. split; [exact B|].
    split; [apply (ssorted_nodup _ nat_strict_total _ S)|]. split; [rewrite M; intuition congruence|]. intros q Hq. apply M in Hq as (_ & Hq). apply (seen_n geometry i dim n R Hdim el q Hq).
  - intros p n0 e0 f0 g0 L Hp RM. rewrite (output_ok ltb ST geometry i dim n R Hdim) in O. injection O as <-.
    destruct (file_read ltb geometry i dim n p n0 e0 f0 g0 ST R HD Hp) as (eo & ed & Q & _ & _). rewrite Q in RM. injection RM as <-. reflexivity.
Qed.
Print Assumptions C63_shadow.
Example C63_shadow_nonvacuous : exists ts L, ready triangle triangles 2 2 /\ outputMesh Nat.ltb triangles 2 = Some ts /\ readMesh triangle 2 0 2 10 20 30 40 ts = Some L /\
  Submesh_model.elements (l_submesh L) = [20] /\ Submesh_model.pullElements (l_submesh L) = [(1, [21; 22])] /\ Submesh_model.pushElements (l_submesh L) = [(1, [20])].
Proof. eexists _, _. split; [apply triangles_ready|]. split; [vm_compute; reflexivity|]. split; [vm_compute; reflexivity|]. split; [reflexivity|]. split; reflexivity. Qed.

(** ** The header *)
Lemma digits_le : forall f a g b, a <= b -> a < f -> b < g -> length (digits_fuel f a) <= length (digits_fuel g b).
Proof.
  induction f as [|f IH]; intros a [|g] b H Ha Hb; try lia. cbn [digits_fuel]. destruct (Nat.ltb_spec a 10) as [La|La].
  - destruct (b <? 10); cbn [length]; lia.
  - destruct (Nat.ltb_spec b 10) as [Lb|Lb]; [lia|]. cbn [length]. apply le_n_S. apply IH.
    + apply Nat.div_le_mono; lia.
    + assert (a / 10 < a) by (apply Nat.div_lt; lia). lia.
    + assert (b / 10 < b) by (apply Nat.div_lt; lia). lia.
Qed.
Lemma printed_fits a N : a <= N -> S (length (printed a)) <= reservedSpace N.
Proof.
  intros H. unfold printed, reservedSpace. rewrite map_length, rev_length. destruct (Nat.eqb_spec N 0) as [->|NZ].
  - assert (a = 0) as -> by lia. cbn. lia.
  - assert (length (digits a) <= length (digits N)) by (apply digits_le; lia). assert (1 <= length (digits N)) by (unfold digits; cbn [digits_fuel]; destruct (N <? 10); cbn [length]; lia). lia.
Qed.
Lemma filter_length' {A} (h : A -> bool) l : length (filter h l) <= length l.
Proof. induction l as [|a l IH]; cbn; [lia|]. destruct (h a); cbn; lia. Qed.
Lemma skipn_repeat {A} (x : A) k n : skipn k (repeat x n) = repeat x (n - k).
Proof. revert n; induction k as [|k IH]; intros [|n]; cbn; auto. Qed.
(** The numbers of nodes of the processes that are written over the reserved space at the end fit in it: the rest of the
    line stays blank and nothing after it is overwritten. *)
Theorem C63_header_space : forall D (ltb : D -> D -> bool) geometry (i : input D) dim n ts, strict_total ltb -> ready geometry i dim n -> 1 <= dim -> outputMesh ltb i n = Some ts ->
  exists info rest N, readInformation ts = Some (info, rest) /\ nth_error (entityCount info) 0 = Some N /\ length (partitionNodeCounts info) = n /\
    length (overwrite (whiteSpace N n) (partitionNumbers (partitionNodeCounts info))) = length (whiteSpace N n) /\
    exists k, overwrite (whiteSpace N n) (partitionNumbers (partitionNodeCounts info)) = partitionNumbers (partitionNodeCounts info) ++ repeat " "%char k.
Proof.
  intros D ltb geometry i dim n ts ST R Hdim O. rewrite (output_ok ltb ST geometry i dim n R Hdim) in O. injection O as <-.
  destruct (header_read ltb i dim n Hdim) as (rest & Q & _). eexists _, rest, _. split; [exact Q|]. split; [reflexivity|]. cbn [infoF partitionNodeCounts].
  set (N := length (nth 0 (meshEntities (theMesh i)) [])). split; [rewrite map_length, seq_length; reflexivity|].
  assert (F : length (partitionNumbers (map (countF i N) (seq 0 n))) <= n * reservedSpace N).
  { assert (G : forall l, (forall a, In a l -> a <= N) -> length (partitionNumbers l) <= length l * reservedSpace N).
    { unfold partitionNumbers. induction l as [|a l IH]; intros H; cbn [flat_map length]; [lia|]. rewrite !app_length. cbn [length]. pose proof (printed_fits a N (H a (or_introl eq_refl))). specialize (IH (fun b Hb => H b (or_intror Hb))). lia. }
    specialize (G (map (countF i N) (seq 0 n))). rewrite map_length, seq_length in G. apply G. intros a Ha. apply in_map_iff in Ha as (q & <- & _). unfold countF.
    etransitivity; [apply filter_length'|]. rewrite seq_length. unfold N. lia. }
  unfold overwrite, whiteSpace. rewrite skipn_repeat. split.
  - rewrite app_length, !repeat_length. lia.
  - eexists. reflexivity.
Qed.
Print Assumptions C63_header_space.
Example C63_header_space_nonvacuous : ready triangle triangles 2 2 /\ overwrite (whiteSpace 12 3) (partitionNumbers [12; 7; 0]) = map ascii_of_nat [49; 50; 32; 55; 32; 48; 32; 32; 32].
Proof. split; [apply triangles_ready|reflexivity]. Qed.

(** ** What does not hold *)
(** A face between two elements of another process becomes a periodic one although its sides are at the same place:
    both elements mark it. *)
Theorem C63_shadow_face_types_refuted : exists ts L f a l b l', ready triangle triangles 2 2 /\ outputMesh Nat.ltb triangles 2 = Some ts /\ readMesh triangle 2 0 2 10 20 30 40 ts = Some L /\
  In (34, f) (l_faces L) /\ f_left f = (20 + a, l) /\ f_right f = Some (20 + b, l') /\ owner triangles a = Some 1 /\ owner triangles b = Some 1 /\
  same_place triangle triangles (a, l) (b, l') /\ f_type f = PERIODIC_SUBDOMAIN_BC.
Proof.
  eexists _, _, (Face (21, 2) (Some (22, 0)) PERIODIC_SUBDOMAIN_BC), 1, 2, 2, 0. split; [apply triangles_ready|]. split; [vm_compute; reflexivity|]. split; [vm_compute; reflexivity|].
  split; [vm_compute; tauto|]. split; [reflexivity|]. split; [reflexivity|]. split; [reflexivity|]. split; [reflexivity|]. split; [|reflexivity].
  eexists _, _. split; [vm_compute; reflexivity|]. split; [vm_compute; reflexivity|]. apply Permutation_refl.
Qed.
Print Assumptions C63_shadow_face_types_refuted.
(** When an element has the same node twice, as in a periodic direction with one element, the file gives both corners
    the same coordinates, and the kernel stops when it reads the element. *)
Theorem C63_repeated_node_refuted : exists ts, consistent (theMesh loop) /\ value_of loop 0 0 = Some [0; 0] /\ value_of loop 0 1 = Some [1; 0] /\ outputMesh Nat.ltb loop 1 = Some ts /\
  (exists before after, ts = before ++ [Int 4; Int 0; Int 0; Int 0; Int 0; Int 1; Int 0; Int 1; Int 0] ++ after) /\ forall n0 e0 f0 g0, readMesh square 2 0 1 n0 e0 f0 g0 ts = None.
Proof.
  eexists. split; [apply (C52_consistent 2 loopOps); [lia|vm_compute; reflexivity]|]. split; [reflexivity|]. split; [reflexivity|]. split; [vm_compute; reflexivity|].
  split; [|intros; vm_compute; reflexivity]. match goal with |- exists b a, ?t = _ => exists (firstn 39 t), (skipn 48 t) end. reflexivity.
Qed.
Print Assumptions C63_repeated_node_refuted.
