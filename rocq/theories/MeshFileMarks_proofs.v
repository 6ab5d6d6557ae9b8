(** The faces next to elements of other processes. *)
From Coq Require Import String Ascii List Arith Lia Bool Permutation Sorted.
From Verif Require Import Loop_model Loop_proofs Std_model Std_proofs StdMap_model StdMap_proofs PreMesh_model PreMesh_spec PreMesh_proofs MeshFile_model MeshFile_spec MeshFile_proofs MeshFileRead_proofs MeshFileFaces_proofs.
From Verif Require Submesh_model Submesh_spec Submesh_proofs SubmeshMore_proofs GlobalIndexing_proofs.
Import ListNotations.

Definition markType t := match t with INTERNAL => SUBDOMAIN_BOUNDARY | _ => PERIODIC_SUBDOMAIN_BC end.
Fixpoint markT c t := match c with 0 => t | S c => markT c (markType t) end.
Definition markN c f := match f_right f with None => f | Some _ => Face (f_left f) (f_right f) (markT c (f_type f)) end.
Lemma mark_ids f0 ids FX : NoDup FX -> (forall id, In id ids -> exists x, In x FX /\ id = f0 + x) -> forall h,
  for_each ids (fun id fs => markFace fs id) (map (fun x => (f0 + x, h x)) FX) = Some (map (fun x => (f0 + x, markN (count_occ Nat.eq_dec ids (f0 + x)) (h x))) FX).
Proof.
  intros ND. induction ids as [|id ids IH]; intros H h; cbn [for_each].
  - f_equal. apply map_ext. intros x. cbn. unfold markN. destruct (h x) as [a [b|] t]; reflexivity.
  - destruct (H id (or_introl eq_refl)) as (x & Hx & ->). assert (H' : forall id, In id ids -> exists x, In x FX /\ id = f0 + x) by (intros; apply H; right; assumption).
    unfold markFace at 1. rewrite (get_map f0 h FX x Hx). destruct (f_right (h x)) as [b|] eqn:FR.
    + rewrite (put_map f0 h FX x _ ND Hx). rewrite (IH H'). f_equal. apply map_ext. intros z. f_equal. cbn [count_occ]. destruct (Nat.eqb_spec z x) as [->|N].
      * destruct (Nat.eq_dec (f0 + x) (f0 + x)); [|lia]. unfold markN. rewrite FR. cbn [f_right f_left f_type markT]. reflexivity.
      * destruct (Nat.eq_dec (f0 + x) (f0 + z)); [lia|reflexivity].
    + rewrite (IH H'). f_equal. apply map_ext. intros z. f_equal. cbn [count_occ]. destruct (Nat.eq_dec (f0 + x) (f0 + z)) as [Q|]; [|reflexivity].
      assert (x = z) as <- by lia. unfold markN. rewrite FR. reflexivity.
Qed.
Lemma fe_flat {A B St} (g : A -> list B) (body : B -> St -> option St) (outer : A -> St -> option St) l : (forall x s, In x l -> outer x s = for_each (g x) body s) ->
  forall s, for_each l outer s = for_each (flat_map g l) body s.
Proof.
  assert (AP : forall l1 l2 s, for_each (l1 ++ l2) body s = match for_each l1 body s with Some s => for_each l2 body s | None => None end).
  { induction l1 as [|x l1 IH]; intros l2 s; cbn [app for_each]; [reflexivity|]. destruct (body x s); [apply IH|reflexivity]. }
  induction l as [|x l IH]; intros H s; cbn [for_each flat_map]; [reflexivity|]. rewrite AP, (H x s (or_introl eq_refl)). destruct (for_each (g x) body s); [|reflexivity].
  apply IH. intros y t Hy. apply H. right. exact Hy.
Qed.
Lemma fe_some {A B St} (f : A -> B) (body : B -> St -> option St) l : forall s, for_each (map (fun x => Some (f x)) l) (fun o s => id <- o; body id s) s = for_each (map f l) body s.
Proof. induction l as [|x l IH]; intros s; cbn; [reflexivity|]. destruct (body (f x) s); [apply IH|reflexivity]. Qed.
Lemma count_map {A} (f : A -> nat) l y : count_occ Nat.eq_dec (map f l) y = length (filter (fun q => f q =? y) l).
Proof. induction l as [|x l IH]; cbn; [reflexivity|]. destruct (Nat.eq_dec (f x) y) as [->|N]; [rewrite Nat.eqb_refl; cbn; rewrite IH; reflexivity|]. apply Nat.eqb_neq in N. rewrite N. exact IH. Qed.

(** all elements of a map of lists *)
Lemma kept_flat m : Submesh_proofs.kept m -> forall e, In e (flat_map snd m) <-> exists q, In e (Submesh_spec.entry m q).
Proof.
  intros K e. unfold Submesh_spec.entry. split.
  - intros H. apply in_flat_map in H as ((q & l) & H & He). exists q. assert (mfind Nat.ltb q m = Some l) as -> by (apply (mfind_in _ nat_strict_total); assumption). exact He.
  - intros (q & He). destruct (mfind Nat.ltb q m) as [l|] eqn:F; [|destruct He]. apply in_flat_map. exists (q, l). split; [|exact He]. apply (mfind_in _ nat_strict_total) in F; assumption.
Qed.
Lemma kept_flat_nodup m : Submesh_proofs.kept m -> (forall q, NoDup (Submesh_spec.entry m q)) -> (forall q q' e, In e (Submesh_spec.entry m q) -> In e (Submesh_spec.entry m q') -> q = q') -> NoDup (flat_map snd m).
Proof.
  intros K H1 H2. assert (F : forall q l, In (q, l) m -> Submesh_spec.entry m q = l).
  { intros q l H. unfold Submesh_spec.entry. assert (mfind Nat.ltb q m = Some l) as -> by (apply (mfind_in _ nat_strict_total); assumption). reflexivity. }
  pose proof (ksorted_nodup _ nat_strict_total _ K) as ND. apply GlobalIndexing_proofs.NoDup_flat_map.
  - apply NoDup_map_inv in ND. exact ND.
  - intros (q, l) H. cbn. rewrite <- (F q l H). apply H1.
  - intros (q, l) (q', l') e H H' He He'. cbn in He, He'. rewrite <- (F q l H) in He. rewrite <- (F q' l' H') in He'. pose proof (H2 q q' e He He') as ->.
    f_equal. rewrite <- (F q' l H). apply F. exact H'.
Qed.

Section Marks.
Context {D : Type} (ltb : D -> D -> bool) (ST : strict_total ltb).
Context (geometry : nat -> option (list (list nat) * list (nat * nat))) (i : input D) (dim n : nat) (R : ready geometry i dim n).
Context (Hdim : 1 <= dim) (p e0 f0 : nat).
Local Notation m := (theMesh i).
Local Notation E := (length (elementsList (theMesh i))).
Local Notation vis := (vis i p).
Local Notation VE := (VE i p).
Local Notation lF := (lF i).
Local Notation ownF := (ownF i).
Local Notation shF := (shF i).
Local Notation cntF := (cntF geometry i).
Local Notation K := (countD i (dim - 1)).
Definition linesF := map (lineF i) (seq 0 E).
Definition ghost el := (vis el && negb (ownF el =? p))%bool.
Definition ghosts := filter ghost (seq 0 E).
Definition subF := Submesh_model.readMesh e0 linesF p.

Lemma linesF_nodup l : In l linesF -> NoDup (Submesh_model.shadowPartitions l).
Proof.
  intros H. apply in_map_iff in H as (el & <- & Hel). apply in_seq in Hel. cbn. destruct (shF_ok geometry i dim n R Hdim el ltac:(lia)) as (_ & _ & _ & S & _). apply (ssorted_nodup _ nat_strict_total _ S).
Qed.
Lemma linesF_nth el l : nth_error linesF el = Some l <-> el < E /\ l = lineF i el.
Proof.
  unfold linesF. destruct (Nat.lt_ge_cases el E) as [H|H].
  - rewrite nth_error_map_seq by exact H. intuition congruence.
  - split; [intros C|lia]. assert (el < length (map (lineF i) (seq 0 E))) by (apply nth_error_Some; congruence). rewrite map_length, seq_length in *. lia.
Qed.
Lemma pulled e : In e (flat_map snd (Submesh_model.pullElements subF)) <-> exists el, In el ghosts /\ e = e0 + el.
Proof.
  destruct (SubmeshMore_proofs.readElements_ok p linesF linesF_nodup e0 (Submesh_model.Submesh [] [] [] [])) as (_ & _ & C & _ & KE & _).
  fold (Submesh_model.readMesh e0 linesF p) in C, KE. fold subF in C, KE. cbn [Submesh_model.pullElements] in C, KE.
  rewrite kept_flat by (apply KE; constructor). split.
  - intros (q & He). rewrite C in He. cbn [Submesh_spec.entry mfind app] in He. apply SubmeshMore_proofs.select_in in He as (el & l & Hl & -> & Q). apply linesF_nth in Hl as (Hel & ->). cbn in Q.
    apply Bool.andb_true_iff in Q as (Q & _). apply Bool.andb_true_iff in Q as (Q1 & Q2). exists el. split; [|reflexivity]. unfold ghosts. apply filter_In. split; [apply in_seq; lia|].
    unfold ghost. rewrite Q1. apply Bool.andb_true_iff. split; [|reflexivity]. unfold MeshFileRead_proofs.vis. apply Bool.orb_true_iff. right. exact Q2.
  - intros (el & Hel & ->). unfold ghosts in Hel. apply filter_In in Hel as (Hel & G). apply in_seq in Hel. exists (ownF el). rewrite C. cbn [Submesh_spec.entry mfind app]. apply SubmeshMore_proofs.select_in.
    exists el, (lineF i el). split; [apply linesF_nth; split; [lia|reflexivity]|]. split; [reflexivity|]. cbn. unfold ghost in G. apply Bool.andb_true_iff in G as (G1 & G2).
    rewrite G2, Nat.eqb_refl, Bool.andb_true_r. cbn. unfold MeshFileRead_proofs.vis in G1. apply Bool.negb_true_iff in G2. rewrite G2 in G1. exact G1.
Qed.
Lemma pulled_nodup : NoDup (flat_map snd (Submesh_model.pullElements subF)).
Proof.
  destruct (SubmeshMore_proofs.readElements_ok p linesF linesF_nodup e0 (Submesh_model.Submesh [] [] [] [])) as (_ & _ & C & _ & KE & _).
  fold (Submesh_model.readMesh e0 linesF p) in C, KE. fold subF in C, KE. cbn [Submesh_model.pullElements] in C, KE.
  apply kept_flat_nodup; [apply KE; constructor| |].
  - intros q. rewrite C. cbn [Submesh_spec.entry mfind app]. apply SubmeshMore_proofs.select_nodup.
  - intros q q' e. rewrite !C. cbn [Submesh_spec.entry mfind app]. rewrite !SubmeshMore_proofs.select_in. intros (el & l & Hl & -> & Q) (el' & l' & Hl' & Q3 & Q').
    assert (el' = el) as -> by lia. assert (l' = l) as -> by congruence. apply Bool.andb_true_iff in Q as (_ & Q), Q' as (_ & Q'). apply Nat.eqb_eq in Q, Q'. congruence.
Qed.
Lemma pulled_perm : Permutation (flat_map snd (Submesh_model.pullElements subF)) (map (fun el => e0 + el) ghosts).
Proof.
  apply NoDup_Permutation; [apply pulled_nodup| |].
  - apply FinFun.Injective_map_NoDup; [intros a b; lia|]. apply NoDup_filter, seq_NoDup.
  - intros e. rewrite pulled, in_map_iff. split; [intros (el & A & B)|intros (el & A & B)]; exists el; auto.
Qed.

Definition idF el l := match part_of m (dim - 1) el l with Some x => f0 + x | None => 0 end.
Definition idsE el := map (idF el) (seq 0 (cntF el)).
Lemma part_some el l : el < E -> l < cntF el -> exists x, part_of m (dim - 1) el l = Some x /\ x < K.
Proof.
  intros H L. destruct (facesE_ok geometry i dim n R Hdim el H) as (_ & F & _). apply F in L. destruct (part_of m (dim - 1) el l) as [x|] eqn:P; [|congruence]. exists x. split; [reflexivity|].
  destruct (c_exists _ (r_consistent _ _ _ _ R) _ _ _ _ P) as (en & Q). unfold links_of in Q. unfold countD. destruct (nth_error (meshEntities m) (dim - 1)) as [es|] eqn:X; [|discriminate].
  rewrite (nth_error_nth _ _ _ X). apply nth_error_Some. congruence.
Qed.
Lemma markFaces_ids fs : markFaces (Submesh_model.pullElements subF) (T i p e0 cntF (gF i (dim - 1) f0 K)) fs =
  for_each (flat_map (fun e => idsE (e - e0)) (flat_map snd (Submesh_model.pullElements subF))) (fun id fs => markFace fs id) fs.
Proof.
  unfold markFaces. rewrite <- (fe_flat (fun e => idsE (e - e0)) (fun id fs => markFace fs id)
     (fun e fs => mine <- get (T i p e0 cntF (gF i (dim - 1) f0 K)) e; for_each mine (fun o fs => id <- o; markFace fs id) fs)).
  - rewrite <- (fe_flat snd _ (fun '(_, elements) fs => for_each elements (fun e fs => mine <- get (T i p e0 cntF (gF i (dim - 1) f0 K)) e; for_each mine (fun o fs => id <- o; markFace fs id) fs) fs)); [reflexivity|].
    intros (q, l) s _. reflexivity.
  - intros e s He. apply pulled in He as (el & Hel & ->). unfold ghosts in Hel. apply filter_In in Hel as (Hel & G). apply in_seq in Hel. unfold ghost in G. apply Bool.andb_true_iff in G as (G & _).
    replace (e0 + el - e0) with el by lia. unfold T. rewrite (get_map e0 (fun el => map (gF i (dim - 1) f0 K el) (seq 0 (cntF el))) (VE E) el) by (apply VE_in; split; [lia|exact G]).
    unfold idsE. rewrite <- (fe_some (idF el) (fun id fs => markFace fs id)). f_equal. apply map_ext_in. intros l Hl. apply in_seq in Hl. unfold gF, idF.
    destruct (part_some el l ltac:(lia) ltac:(lia)) as (x & -> & Hx). apply Nat.ltb_lt in Hx. rewrite Hx. reflexivity.
Qed.
Lemma count_ids x : x < K -> count_occ Nat.eq_dec (flat_map (fun e => idsE (e - e0)) (flat_map snd (Submesh_model.pullElements subF))) (f0 + x) = length (filter (fun q => ghost (fst q)) (lF (dim - 1) x)).
Proof.
  intros Hx. pose proof (links_of_d i dim Hdim (dim - 1) x Hx) as LN. destruct (epF_ok geometry i dim n R Hdim (dim - 1) x LN) as (LK & ND & M & _).
  assert (P : Permutation (flat_map (fun e => idsE (e - e0)) (flat_map snd (Submesh_model.pullElements subF))) (flat_map idsE ghosts)).
  { etransitivity; [apply Permutation_flat_map, pulled_perm|]. rewrite flat_map_concat_map, map_map, <- flat_map_concat_map. erewrite flat_map_ext; [reflexivity|]. intros el. cbv beta. f_equal. lia. }
  rewrite (proj1 (Permutation_count_occ Nat.eq_dec _ _) P).
  set (prs := flat_map (fun el => map (pair el) (seq 0 (cntF el))) ghosts).
  assert (Q : flat_map idsE ghosts = map (fun q => idF (fst q) (snd q)) prs).
  { unfold prs. rewrite !flat_map_concat_map, concat_map, map_map. f_equal. apply map_ext. intros el. rewrite map_map. reflexivity. }
  rewrite Q, count_map. apply Permutation_length. apply NoDup_Permutation.
  - apply NoDup_filter. unfold prs. apply GlobalIndexing_proofs.NoDup_flat_map.
    + apply NoDup_filter, seq_NoDup.
    + intros el _. apply FinFun.Injective_map_NoDup; [intros a b; congruence|apply seq_NoDup].
    + intros a b z _ _ Ha Hb. apply in_map_iff in Ha as (u & <- & _). apply in_map_iff in Hb as (v & Hv & _). congruence.
  - apply NoDup_filter, ND.
  - intros (el, l). rewrite !filter_In. cbn [fst snd]. rewrite M. unfold prs. rewrite in_flat_map. split.
    + intros ((el' & He & Hl) & Q2). apply in_map_iff in Hl as (l2 & [= -> ->] & Hl). apply in_seq in Hl. apply filter_In in He as (He & G). apply in_seq in He. split; [|exact G].
      unfold idF in Q2. destruct (part_some el l ltac:(lia) ltac:(lia)) as (y & Py & _). rewrite Py in *. apply Nat.eqb_eq in Q2. f_equal. lia.
    + intros (Px & G). pose proof (part_lt_E i _ _ _ _ Px) as He. split; [|unfold idF; rewrite Px; apply Nat.eqb_refl]. exists el. split; [apply filter_In; split; [apply in_seq; lia|exact G]|].
      apply in_map_iff. exists l. split; [reflexivity|]. apply in_seq. split; [lia|]. apply (facesE_ok geometry i dim n R Hdim el He). congruence.
Qed.
Definition ghostsOf x := length (filter (fun q => ghost (fst q)) (lF (dim - 1) x)).
Lemma marked (h : nat -> face) : markFaces (Submesh_model.pullElements subF) (T i p e0 cntF (gF i (dim - 1) f0 K)) (map (fun x => (f0 + x, h x)) (FX i dim p K)) =
  Some (map (fun x => (f0 + x, markN (ghostsOf x) (h x))) (FX i dim p K)).
Proof.
  rewrite markFaces_ids, mark_ids.
  - f_equal. apply map_ext_in. intros x Hx. unfold FX in Hx. apply filter_In in Hx as (Hx & _). apply in_seq in Hx. rewrite count_ids by lia. reflexivity.
  - apply NoDup_filter, seq_NoDup.
  - intros id H. apply in_flat_map in H as (e & He & H). apply pulled in He as (el & Hel & ->). replace (e0 + el - e0) with el in H by lia. unfold idsE in H. apply in_map_iff in H as (l & <- & Hl). apply in_seq in Hl.
    unfold ghosts in Hel. apply filter_In in Hel as (Hel & G). apply in_seq in Hel. destruct (part_some el l ltac:(lia) ltac:(lia)) as (x & Px & Hx). exists x. unfold idF. rewrite Px. split; [|reflexivity].
    unfold FX. apply filter_In. split; [apply in_seq; lia|]. apply (here_iff geometry i dim n R Hdim p); [apply (links_of_d i dim Hdim), Hx|]. exists el, l. split; [exact Px|].
    unfold ghost in G. apply Bool.andb_true_iff in G as (G & _). exact G.
Qed.
End Marks.
