(** What readMesh makes of the whole file. *)
From Coq Require Import String Ascii List Arith Lia Bool Permutation Sorted.
From Verif Require Import Loop_model Loop_proofs Std_model Std_proofs StdMap_model StdMap_proofs PreMesh_model PreMesh_spec PreMesh_proofs MeshFile_model MeshFile_spec MeshFile_proofs MeshFileRead_proofs MeshFileFaces_proofs MeshFileMarks_proofs.
From Verif Require Submesh_model Submesh_spec Submesh_proofs SubmeshMore_proofs GlobalIndexing_proofs.
Import ListNotations.

Section Copy.
Context {D : Type} (ltb : D -> D -> bool) (ST : strict_total ltb).
Context (geometry : nat -> option (list (list nat) * list (nat * nat))) (i : input D) (dim n : nat) (R : ready geometry i dim n).
Context (Hdim : 1 <= dim) (p n0 e0 f0 g0 : nat).
Local Notation m := (theMesh i).
Local Notation E := (length (elementsList (theMesh i))).
Local Notation N := (length (nth 0 (meshEntities (theMesh i)) [])).
Local Notation vis := (vis i p).
Local Notation VE := (VE i p).
Local Notation PN := (PN i p).
Local Notation pres := (pres i p).
Local Notation rank := (rank i p).
Local Notation start := (start ltb i p).
Local Notation cF := (cF ltb i).
Local Notation nF := (nF i).
Local Notation lF := (lF i).
Local Notation coordsE := (coordsE ltb i p).
Local Notation facesE := (facesE geometry i).
Local Notation edgesE := (edgesE geometry i).
Local Notation cntF := (cntF geometry i).
Local Notation cntG := (cntG geometry i).
Local Notation K := (countD i (dim - 1)).
Local Notation FXF := (FX i dim p K).
Local Notation faceF := (faceF ltb geometry i dim p e0).

Definition facesOut := map (fun x => (f0 + x, markN (ghostsOf i dim p x) (faceF x))) FXF.
Definition LF edgesOf edges := LocalMesh (flat_map cF (PN N)) (nodesF i p n0 e0 E) (esF ltb i p e0) (map (fun el => (e0 + el, map (fun v => Some (rank v)) (nF el))) (VE E))
  (T i p e0 cntF (gF i (dim - 1) f0 K)) edgesOf facesOut edges (subF i p e0).

Lemma names_ok : (negb (length (zoneNames i) =? 0) || (E =? 0))%bool = true.
Proof.
  destruct (r_zones _ _ _ _ R) as (L & B). destruct (Nat.eqb_spec E 0) as [|NE]; [apply Bool.orb_true_r|]. rewrite Bool.orb_false_r. apply Bool.negb_true_iff, Nat.eqb_neq.
  destruct (zoneIds i) as [|z zs]; [cbn in L; lia|]. specialize (B z (or_introl eq_refl)). lia.
Qed.
End Copy.

Section Two.
Context {D : Type} (ltb : D -> D -> bool) (ST : strict_total ltb).
Context (geometry : nat -> option (list (list nat) * list (nat * nat))) (i : input D) (n : nat).
Context (p n0 e0 f0 g0 : nat) (Hp : p < n).
Local Notation E := (length (elementsList (theMesh i))).
Local Notation N := (length (nth 0 (meshEntities (theMesh i)) [])).

Lemma readMesh_2 : ready geometry i 2 n -> readMesh geometry 2 p n n0 e0 f0 g0 (fileF ltb i 2 n) =
  Some (LF ltb geometry i 2 p n0 e0 f0 (map (fun el => (e0 + el, repeat None (length (edgesE geometry i el)))) (VE i p E)) []).
Proof.
  intros R. assert (Hdim : 1 <= 2) by lia. unfold readMesh. destruct (header_read ltb i 2 n Hdim) as (ts & -> & T0).
  cbn [infoF dimension partitionNodeCounts entityCount names version Nat.sub]. rewrite map_length, seq_length, !Nat.eqb_refl. cbn [Nat.eqb andb nth_error map seq app Nat.leb Nat.sub].
  rewrite (nth_error_map_seq (countF i N) n p Hp). rewrite (names_ok geometry i 2 n R). change (1 <? 2) with true. cbn [andb].
  rewrite (header_of _ _ _ T0).
  destruct (nodes_read ltb ST geometry i 2 n R Hdim p n0 (EndL :: flat_map (nodeTokens ltb i) (seq 0 N) ++ Word "elements"%string :: EndL :: flat_map (elementTokens ltb i) (seq 0 E) ++ othersTokens i 2 (2 - 1)) _ eq_refl)
    as (ns & ts1 & -> & T1 & NA).
  rewrite (na_processed _ _ _ _ _ _ NA). replace (length (PN i p N) =? countF i N p) with true by (symmetry; apply Nat.eqb_refl). cbn [trim] in T1.
  rewrite (header_of _ _ _ T1).
  destruct (elements_read ltb ST geometry i 2 n R Hdim p n0 e0 ns (EndL :: flat_map (elementTokens ltb i) (seq 0 E) ++ othersTokens i 2 (2 - 1)) _ NA eq_refl) as (es & ts2 & -> & T2 & EA).
  cbn [othersTokens Nat.sub trim] in T2. change (codim 1) with "codim1"%string in T2.
  rewrite (header_of _ _ _ T2). rewrite (ea_elements _ _ _ _ _ _ _ _ EA), (ea_facesOf _ _ _ _ _ _ _ _ EA). fold (esF ltb i p e0).
  destruct (faces_read ltb geometry i 2 n R Hdim p e0 f0 (r_actualElement es) (EndL :: flat_map (entityTokens i 1) (seq 0 (countD i 1)) ++ []) [] (ea_actual _ _ _ _ _ _ _ _ EA) eq_refl)
    as (fs & ts3 & FE & _ & FA).
  change (2 - 1) with 1 in *. cbn [Nat.sub] in FE. unfold MeshFileFaces_proofs.cntF in FE. rewrite FE. change (2 <? 2) with false. cbn [andb for_loop for_from Loop_model.for_loop Loop_model.for_from].
  change (2 =? 1) with false. cbv iota. cbn [r_facesOf r_faces r_edgesOf r_edges]. 
  rewrite (fa_table _ _ _ _ _ _ _ _ _ FA), (fa_faces _ _ _ _ _ _ _ _ _ FA), (ea_submesh _ _ _ _ _ _ _ _ EA).
  fold (linesF i). fold (Submesh_model.readMesh e0 (linesF i) p). fold (subF i p e0).
  rewrite (marked geometry i 2 n R Hdim p e0 f0).
  rewrite (na_coords _ _ _ _ _ _ NA), (ea_nodes _ _ _ _ _ _ _ _ EA), (ea_nodesOf _ _ _ _ _ _ _ _ EA), (ea_edgesOf _ _ _ _ _ _ _ _ EA). reflexivity.
  Unshelve. all: exact Hdim.
Qed.
Lemma readMesh_3 : ready geometry i 3 n -> readMesh geometry 3 p n n0 e0 f0 g0 (fileF ltb i 3 n) =
  Some (LF ltb geometry i 3 p n0 e0 f0 (T i p e0 (cntG geometry i) (gF i 1 g0 (countD i 1))) (map (fun x => (g0 + x, edgeF ltb geometry i p e0 x)) (GX i p (countD i 1)))).
Proof.
  intros R. assert (Hdim : 1 <= 3) by lia. unfold readMesh. destruct (header_read ltb i 3 n Hdim) as (ts & -> & T0).
  cbn [infoF dimension partitionNodeCounts entityCount names version Nat.sub]. rewrite map_length, seq_length, !Nat.eqb_refl. cbn [Nat.eqb andb nth_error map seq app Nat.leb Nat.sub].
  rewrite (nth_error_map_seq (countF i N) n p Hp). rewrite (names_ok geometry i 3 n R). change (1 <? 3) with true. change (1 <? 2) with true. cbn [andb].
  rewrite (header_of _ _ _ T0).
  destruct (nodes_read ltb ST geometry i 3 n R Hdim p n0 (EndL :: flat_map (nodeTokens ltb i) (seq 0 N) ++ Word "elements"%string :: EndL :: flat_map (elementTokens ltb i) (seq 0 E) ++ othersTokens i 3 (3 - 1)) _ eq_refl)
    as (ns & ts1 & -> & T1 & NA).
  rewrite (na_processed _ _ _ _ _ _ NA). replace (length (PN i p N) =? countF i N p) with true by (symmetry; apply Nat.eqb_refl). cbn [trim] in T1.
  rewrite (header_of _ _ _ T1).
  destruct (elements_read ltb ST geometry i 3 n R Hdim p n0 e0 ns (EndL :: flat_map (elementTokens ltb i) (seq 0 E) ++ othersTokens i 3 (3 - 1)) _ NA eq_refl) as (es & ts2 & -> & T2 & EA).
  cbn [othersTokens Nat.sub trim] in T2. change (codim 1) with "codim1"%string in T2.
  rewrite (header_of _ _ _ T2). rewrite (ea_elements _ _ _ _ _ _ _ _ EA), (ea_facesOf _ _ _ _ _ _ _ _ EA). fold (esF ltb i p e0).
  assert (RE : forall ts : list (token D), trim (EndL :: ts) = trim ts) by reflexivity.
  destruct (faces_read ltb geometry i 3 n R Hdim p e0 f0 (r_actualElement es) (EndL :: flat_map (entityTokens i 2) (seq 0 (countD i 2)) ++ Word (codim 2) :: EndL :: flat_map (entityTokens i 1) (seq 0 (countD i 1)) ++ [])
    (Word (codim 2) :: EndL :: flat_map (entityTokens i 1) (seq 0 (countD i 1)) ++ []) (ea_actual _ _ _ _ _ _ _ _ EA) eq_refl) as (fs & ts3 & FE & T3 & FA).
  change (3 - 1) with 2 in *. unfold MeshFileFaces_proofs.cntF in FE. rewrite FE. change (2 <? 3) with true. cbn [andb].
  cbn [trim] in T3. change (codim 2) with "codim2"%string in T3. rewrite (header_of _ _ _ T3).
  rewrite (ea_edgesOf _ _ _ _ _ _ _ _ EA).
  destruct (edges_read ltb geometry i 3 n R Hdim p e0 g0 (r_actualElement es) (EndL :: flat_map (entityTokens i 1) (seq 0 (countD i 1)) ++ []) [] eq_refl (ea_actual _ _ _ _ _ _ _ _ EA) eq_refl)
    as (gs & ts4 & GE & _ & GA).
  unfold MeshFileFaces_proofs.cntG in GE. rewrite GE. cbv iota. cbn [r_facesOf r_faces].
  rewrite (fa_table _ _ _ _ _ _ _ _ _ FA), (fa_faces _ _ _ _ _ _ _ _ _ FA), (ea_submesh _ _ _ _ _ _ _ _ EA).
  fold (linesF i). fold (Submesh_model.readMesh e0 (linesF i) p). fold (subF i p e0).
  rewrite (marked geometry i 3 n R Hdim p e0 f0).
  rewrite (na_coords _ _ _ _ _ _ NA), (ea_nodes _ _ _ _ _ _ _ _ EA), (ea_nodesOf _ _ _ _ _ _ _ _ EA), (ga_table _ _ _ _ _ _ _ _ GA), (ga_edges _ _ _ _ _ _ _ _ GA). reflexivity.
  Unshelve. all: exact Hdim.
Qed.
End Two.
