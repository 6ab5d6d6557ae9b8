(** What was read is what the process must have. *)
From Coq Require Import String Ascii List Arith Lia Bool Permutation Sorted.
From Verif Require Import Loop_model Loop_proofs Std_model Std_proofs StdMap_model StdMap_proofs PreMesh_model PreMesh_spec PreMesh_proofs MeshFile_model MeshFile_spec MeshFile_proofs MeshFileRead_proofs MeshFileFaces_proofs MeshFileMarks_proofs MeshFileCopy_proofs.
From Verif Require Submesh_model Submesh_spec Submesh_proofs SubmeshMore_proofs GlobalIndexing_proofs.
Import ListNotations.

Lemma map_fst_pairs {A} c (f : nat -> A) l : map fst (map (fun x => (c + x, f x)) l) = map (fun x => c + x) l.
Proof. rewrite map_map. reflexivity. Qed.
Lemma nodup_shift c l : NoDup l -> NoDup (map (fun x => c + x) l).
Proof. apply FinFun.Injective_map_NoDup. intros a b. lia. Qed.
Lemma in_shift c l x : In x (map (fun y => c + y) l) <-> exists y, x = c + y /\ In y l.
Proof. rewrite in_map_iff. split; intros (y & A & B); exists y; auto. Qed.
Lemma perm_forall2 {A B} (Q : A -> B -> Prop) l l' : Permutation l l' -> forall k, Forall2 Q l k -> exists k', Permutation k k' /\ Forall2 Q l' k'.
Proof.
  induction 1 as [|x l l' P IH|x y l|l l' l'' P1 IH1 P2 IH2]; intros k H.
  - inversion H; subst. exists []. split; constructor.
  - inversion H as [|? b ? k0 H1 H2]; subst. destruct (IH k0 H2) as (k' & A1 & A2). exists (b :: k'). split; constructor; assumption.
  - inversion H as [|? b ? k0 H1 H2]; subst. inversion H2 as [|? c ? k1 H3 H4]; subst. exists (c :: b :: k1). split; [apply perm_swap|]. repeat constructor; assumption.
  - destruct (IH1 k H) as (k1 & A1 & A2). destruct (IH2 k1 A2) as (k2 & B1 & B2). exists k2. split; [etransitivity; eassumption|exact B2].
Qed.
Lemma forall2_fun {A B} (Q : A -> B -> Prop) l k : (forall x y y', Q x y -> Q x y' -> y = y') -> Forall2 Q l k -> forall k', Forall2 Q l k' -> k = k'.
Proof. intros F. induction 1; intros k' H'; inversion H'; subst; [reflexivity|]. f_equal; eauto. Qed.
Lemma forall2_flip {A B} (Q : A -> B -> Prop) l k : Forall2 Q l k -> Forall2 (fun y x => Q x y) k l.
Proof. induction 1; constructor; assumption. Qed.
Lemma forall2_map {A B C} (Q : B -> C -> Prop) (f : A -> B) (g : A -> C) l : (forall x, In x l -> Q (f x) (g x)) -> Forall2 Q (map f l) (map g l).
Proof. induction l as [|x l IH]; intros H; cbn; constructor; [apply H; left; reflexivity|]. apply IH. intros; apply H; right; assumption. Qed.

Section Good.
Context {D : Type} (ltb : D -> D -> bool) (ST : strict_total ltb).
Context (geometry : nat -> option (list (list nat) * list (nat * nat))) (i : input D) (dim n : nat) (R : ready geometry i dim n).
Context (Hdim : 1 <= dim) (p n0 e0 f0 g0 : nat).
Local Notation m := (theMesh i).
Local Notation E := (length (elementsList (theMesh i))).
Local Notation N := (length (nth 0 (meshEntities (theMesh i)) [])).
Local Notation vis := (vis i p).
Local Notation VE := (VE i p).
Local Notation PN := (PN i p).
Local Notation pres := (pres i p).
Local Notation rank := (rank i p).
Local Notation start := (start ltb i p).
Local Notation cF := (cF ltb i).
Local Notation nF := (nF i).
Local Notation lF := (lF i).
Local Notation coordsE := (coordsE ltb i p).
Local Notation facesE := (facesE geometry i).
Local Notation edgesE := (edgesE geometry i).
Local Notation cntF := (cntF geometry i).
Local Notation cntG := (cntG geometry i).
Local Notation K := (countD i (dim - 1)).
Local Notation FXF := (FX i dim p K).
Local Notation faceF := (faceF ltb geometry i dim p e0).
Local Notation typeF := (typeF ltb geometry i p).

Lemma VE_seen el : In el (VE E) <-> seen i p el.
Proof.
  rewrite VE_in. split.
  - intros (H & V). apply (vis_iff geometry i dim n R Hdim p el H), V.
  - intros S. pose proof (seen_lt geometry i dim n R el p S) as H. split; [exact H|]. apply (vis_iff geometry i dim n R Hdim p el H), S.
Qed.
Lemma part_count d el l x : part_of m d el l = Some x -> x < countD i d.
Proof.
  intros P. destruct (c_exists _ (r_consistent _ _ _ _ R) _ _ _ _ P) as (en & Q). unfold links_of in Q. unfold countD. destruct (nth_error (meshEntities m) d) as [es|] eqn:X; [|discriminate].
  rewrite (nth_error_nth _ _ _ X). apply nth_error_Some. congruence.
Qed.
Lemma here_seen d x : x < countD i d -> (here i p d x = true <-> exists el l, part_of m d el l = Some x /\ seen i p el).
Proof.
  intros H. rewrite (here_iff geometry i dim n R Hdim p d x (links_of_d i dim Hdim d x H)). split; intros (el & l & P & V); exists el, l; (split; [exact P|]); apply VE_seen || idtac.
  - apply VE_in. split; [apply (part_lt_E i _ _ _ _ P)|exact V].
  - apply VE_seen, VE_in in V as (_ & V). exact V.
Qed.
Lemma slots_nodup el v : NoDup (slots i e0 el v).
Proof.
  unfold slots, slotsJ. apply GlobalIndexing_proofs.NoDup_flat_map.
  - apply seq_NoDup.
  - intros j _. destruct (nth_error (nF el) j) as [w|]; [|constructor]. destruct (w =? v); repeat constructor. intros [].
  - intros a b z _ _. destruct (nth_error (nF el) a) as [w|]; [|intros []]. destruct (w =? v); [|intros []]. intros [<-|[]]. destruct (nth_error (nF el) b) as [w'|]; [|intros []]. destruct (w' =? v); [|intros []]. intros [[= <-]|[]]. reflexivity.
Qed.
Lemma elementF_ok el x : get (esF ltb i p e0) (e0 + el) = Some x -> seen i p el /\ el < E /\ vis el = true /\ x = elementF ltb i p el.
Proof.
  intros H. apply (get_map_in e0 (elementF ltb i p) (VE E)) in H as (H & ->). pose proof H as H'. apply VE_in in H' as (A & B). apply VE_seen in H. auto.
Qed.
Lemma table_ok cnt d c el : (forall l, part_of m d el l <> None <-> l < cnt el) -> seen i p el ->
  exists mine, get (T i p e0 cnt (gF i d c (countD i d))) (e0 + el) = Some mine /\ forall l, nth_error mine l = option_map (fun x => Some (c + x)) (part_of m d el l).
Proof.
  intros HC S. apply VE_seen in S. unfold T. rewrite (get_map e0 (fun el => map (gF i d c (countD i d) el) (seq 0 (cnt el))) (VE E) el S). eexists. split; [reflexivity|].
  intros l. destruct (Nat.lt_ge_cases l (cnt el)) as [L|L].
  - rewrite nth_error_map_seq by exact L. unfold gF. destruct (part_of m d el l) as [x|] eqn:P; [|apply HC in L; congruence]. apply part_count in P. apply Nat.ltb_lt in P. rewrite P. reflexivity.
  - assert (nth_error (map (gF i d c (countD i d) el) (seq 0 (cnt el))) l = None) as -> by (apply nth_error_None; rewrite map_length, seq_length; exact L).
    destruct (part_of m d el l) as [x|] eqn:P; [|reflexivity]. assert (l < cnt el) by (apply HC; congruence). lia.
Qed.
Lemma mark_two c a l b l' ea eb : f_type (markN c (Face ea (Some eb) (typeF a l b l'))) <> WALL_BC /\ f_type (markN c (Face ea (Some eb) (typeF a l b l'))) <> PARTIAL_FACE.
Proof.
  unfold markN. cbn [f_right f_type]. unfold MeshFileFaces_proofs.typeF. set (t := if same_list _ _ then _ else _). assert (H : t <> WALL_BC /\ t <> PARTIAL_FACE) by (subst t; destruct (same_list _ _); split; discriminate).
  clearbody t. revert t H. induction c as [|c IH]; intros t H; [exact H|]. apply IH. destruct t; split; discriminate.
Qed.
Lemma face_sides x : In x FXF -> exists links, links_of m (dim - 1) x = Some links /\ sides i p e0 links (markN (ghostsOf i dim p x) (faceF x)).
Proof.
  intros Hx. unfold FX in Hx. apply filter_In in Hx as (Hx & HH). apply in_seq in Hx. assert (Lx : x < K) by lia. pose proof (links_of_d i dim Hdim (dim - 1) x Lx) as LN.
  destruct (epF_ok geometry i dim n R Hdim (dim - 1) x LN) as (LK & ND & M & _). exists (lF (dim - 1) x). split; [exact LK|]. pose proof (r_sides _ _ _ _ R x _ LK) as NL.
  assert (VS : forall el l, In (el, l) (lF (dim - 1) x) -> (vis el = true <-> seen i p el)) by (intros el l Hin; apply M in Hin; apply (vis_iff geometry i dim n R Hdim p), (part_lt_E i _ _ _ _ Hin)).
  apply (here_seen (dim - 1) x Lx) in HH as (el & l0 & P & S). apply M in P. unfold MeshFileFaces_proofs.faceF.
  destruct (lF (dim - 1) x) as [|(a, l) [|(b, l') [|]]]; cbn [length] in NL; try lia.
  - eapply sides_wall; reflexivity.
  - pose proof (VS a l (or_introl eq_refl)) as VA. pose proof (VS b l' (or_intror (or_introl eq_refl))) as VB. destruct (vis a) eqn:Va, (vis b) eqn:Vb.
    + eapply sides_both; try reflexivity; [apply VA; reflexivity|apply VB; reflexivity|apply mark_two|apply mark_two].
    + eapply sides_first; try reflexivity; [apply VA; reflexivity|]. intros C. apply VB in C. discriminate.
    + eapply sides_second; try reflexivity; [|apply VB; reflexivity]. intros C. apply VA in C. discriminate.
    + exfalso. destruct P as [[= -> ->]|[[= -> ->]|[]]]; [apply VA in S|apply VB in S]; discriminate.
Qed.

(** ** Periodic faces *)
Definition point_at (c : nat) (pt : option nat * option (list D)) := exists v val, pt = (Some v, Some val) /\ v < N /\ pres v = true /\ start v <= c < start v + length (cF v) /\ nth_error (cF v) (c - start v) = Some val.
Lemma point_fun c x y : point_at c x -> point_at c y -> x = y.
Proof.
  intros (v & a & -> & Nv & Pv & Bv & Ha) (w & b & -> & Nw & Pw & Bw & Hb).
  destruct (start_inj ltb i p v w (c - start v) (c - start w)) as (-> & _); try assumption; try lia. congruence.
Qed.
Lemma point_inj x c d : point_at c x -> point_at d x -> c = d.
Proof.
  intros (v & a & -> & Nv & Pv & Bv & Ha) (w & b & [= <- <-] & Nw & Pw & Bw & Hb).
  destruct (cF_ok ltb ST geometry i dim n R Hdim v Nv) as (_ & S & _). apply (ssorted_nodup _ (lex_strict_total _ ST)) in S.
  assert (c - start v = d - start v); [|lia]. apply (proj1 (NoDup_nth_error (cF v)) S); [lia|]. congruence.
Qed.
Lemma coordsE_nth' el j v : el < E -> vis el = true -> part_of m 0 el j = Some v -> nth j (coordsE el) 0 = start v + offF ltb i v el j.
Proof.
  intros H V P. destruct (nF_ok geometry i dim n R Hdim el H) as (_ & B & _). apply nth_error_nth. rewrite (coordsE_nth ltb i dim Hdim p), B, P. reflexivity.
Qed.
Lemma points_of el l : el < E -> vis el = true -> l < cntF el -> exists P, face_points geometry i el l = Some P /\ Forall2 point_at (fnF ltb geometry i p el l) P.
Proof.
  intros H V L. destruct (nF_ok geometry i dim n R Hdim el H) as (_ & B & _ & _ & _ & _ & _ & _ & _ & _ & _ & e & HE & HI).
  destruct (facesE_ok geometry i dim n R Hdim el H) as (G & _ & _ & F & _). unfold face_points. rewrite HE, HI, G, (nth_error_nth' _ []) by exact L. eexists. split; [reflexivity|].
  unfold fnF. apply forall2_map. intros j Hj. specialize (F _ j (nth_In _ [] L) Hj).
  destruct (part_of m 0 el j) as [v|] eqn:P; [|exfalso; assert (nth_error (nF el) j = None) by (rewrite B; exact P); apply nth_error_None in H0; lia].
  destruct (value_ok geometry i dim n R el j v P) as (c & _ & VO & _). pose proof (part_of_0_lt geometry i dim n R el j v P) as Nv.
  exists v, c. rewrite (coordsE_nth' el j v H V P), VO. split; [reflexivity|]. split; [exact Nv|]. split; [apply (vis_pres geometry i dim n R Hdim p el j v H V P)|].
  pose proof (offF_lt ltb ST geometry i dim n R Hdim el j v P). split; [lia|]. replace (start v + offF ltb i v el j - start v) with (offF ltb i v el j) by lia.
  rewrite (offF_ok ltb ST geometry i dim n R Hdim el j v P). exact VO.
Qed.
Lemma typeF_ok a l b l' : a < E -> vis a = true -> l < cntF a -> b < E -> vis b = true -> l' < cntF b ->
  (same_place geometry i (a, l) (b, l') -> typeF a l b l' = INTERNAL) /\ (~ same_place geometry i (a, l) (b, l') -> typeF a l b l' = PERIODIC_BC).
Proof.
  intros Ha Va La Hb Vb Lb. destruct (points_of a l Ha Va La) as (P & FP & PP). destruct (points_of b l' Hb Vb Lb) as (Q & FQ & QQ).
  assert (X : same_list (sort (fnF ltb geometry i p a l)) (sort (fnF ltb geometry i p b l')) = true <-> same_place geometry i (a, l) (b, l')).
  { rewrite same_list_ok. split.
    - intros S. exists P, Q. cbn [fst snd]. split; [exact FP|]. split; [exact FQ|].
      assert (PM : Permutation (fnF ltb geometry i p a l) (fnF ltb geometry i p b l')) by (rewrite <- sort_perm, S, sort_perm; reflexivity).
      destruct (perm_forall2 point_at _ _ PM P PP) as (Q' & A & B). rewrite (forall2_fun point_at _ _ point_fun QQ Q' B). exact A.
    - intros (P' & Q' & FP' & FQ' & PM). cbn [fst snd] in *. assert (P' = P) as -> by congruence. assert (Q' = Q) as -> by congruence.
      apply forall2_flip in PP, QQ. destruct (perm_forall2 _ _ _ PM _ PP) as (k & A & B).
      assert (k = fnF ltb geometry i p b l') as -> by (apply (forall2_fun _ _ _ (fun x y y' => point_inj x y y') B), QQ).
      apply (sorted_unique _ _ 0); [apply sort_sorted|apply sort_sorted|]. rewrite !sort_perm. exact A. }
  unfold MeshFileFaces_proofs.typeF. destruct (same_list _ _) eqn:SL; split; intros H; try reflexivity; exfalso.
  - apply H, X. reflexivity.
  - apply X in H. discriminate.
Qed.
Lemma type_good x : In x FXF -> type_ok geometry i p e0 (markN (ghostsOf i dim p x) (faceF x)).
Proof.
  intros Hx. unfold FX in Hx. apply filter_In in Hx as (Hx & _). apply in_seq in Hx. assert (Lx : x < K) by lia. pose proof (links_of_d i dim Hdim (dim - 1) x Lx) as LN.
  destruct (epF_ok geometry i dim n R Hdim (dim - 1) x LN) as (LK & ND & M & _). pose proof (r_sides _ _ _ _ R x _ LK) as NL.
  unfold ghostsOf, MeshFileFaces_proofs.faceF. intros a l b l' FL FR OW.
  destruct (lF (dim - 1) x) as [|(a1, l1) [|(b1, l1') [|]]] eqn:LE; cbn [length] in NL; try lia; [discriminate|].
  destruct (vis a1) eqn:Va; [|discriminate]. destruct (vis b1) eqn:Vb; [|discriminate]. cbn [markN f_right f_left f_type] in *. injection FL as FL <-. injection FR as FR <-.
  assert (a1 = a) as -> by lia. assert (b1 = b) as -> by lia. clear FL FR.
  assert (PA : part_of m (dim - 1) a l1 = Some x) by (apply M; left; reflexivity). assert (PB : part_of m (dim - 1) b l1' = Some x) by (apply M; right; left; reflexivity).
  pose proof (part_lt_E i _ _ _ _ PA) as Ha. pose proof (part_lt_E i _ _ _ _ PB) as Hb.
  destruct (typeF_ok a l1 b l1' Ha Va) as (T1 & T2); [apply (facesE_ok geometry i dim n R Hdim a Ha); congruence|exact Hb|exact Vb|apply (facesE_ok geometry i dim n R Hdim b Hb); congruence|].
  destruct (shF_ok geometry i dim n R Hdim a Ha) as (OA & _). destruct (shF_ok geometry i dim n R Hdim b Hb) as (OB & _). unfold owner in *. rewrite OA, OB in *.
  cbn [filter fst]. unfold ghost. rewrite Va, Vb. cbn [andb].
  assert (DEC : same_place geometry i (a, l1) (b, l1') \/ ~ same_place geometry i (a, l1) (b, l1')).
  { unfold MeshFileFaces_proofs.typeF in T1, T2. destruct (same_list _ _) eqn:SL.
    - left. destruct (points_of a l1 Ha Va) as (P & FP & PP); [apply (facesE_ok geometry i dim n R Hdim a Ha); congruence|]. destruct (points_of b l1' Hb Vb) as (Q & FQ & QQ); [apply (facesE_ok geometry i dim n R Hdim b Hb); congruence|].
      exists P, Q. cbn [fst snd]. split; [exact FP|]. split; [exact FQ|]. apply same_list_ok in SL.
      assert (PM : Permutation (fnF ltb geometry i p a l1) (fnF ltb geometry i p b l1')) by (rewrite <- sort_perm, SL, sort_perm; reflexivity).
      destruct (perm_forall2 point_at _ _ PM P PP) as (Q' & A & B). rewrite (forall2_fun point_at _ _ point_fun QQ Q' B). exact A.
    - right. intros C. specialize (T1 C). discriminate. }
  destruct (Nat.eqb_spec (ownF i a) p) as [QA|QA], (Nat.eqb_spec (ownF i b) p) as [QB|QB]; cbn [negb length markT].
  4: { exfalso. destruct OW as [[= C]|[= C]]; congruence. }
  all: destruct DEC as [SP|SP]; [rewrite (T1 SP)|rewrite (T2 SP)]; cbn [markType]; (split; [|split; [|split]]); split; try discriminate; try (intros _; split; [|assumption]; congruence); try (intros (C1 & C2); exfalso; congruence || (apply C2, SP) || (apply SP, C2)); intros; reflexivity.
Qed.

(** ** Everything *)
Lemma copy_ok edgesOf edges : (dim = 3 -> edgesOf = T i p e0 cntG (gF i 1 g0 (countD i 1)) /\ edges = map (fun x => (g0 + x, edgeF ltb geometry i p e0 x)) (GX i p (countD i 1))) ->
  (dim <> 3 -> edges = []) -> copy geometry i dim p n0 e0 f0 g0 (LF ltb geometry i dim p n0 e0 f0 edgesOf edges).
Proof.
  intros D3 DN. constructor; cbn [LF l_elements l_coords l_nodes l_elementNodes l_faces l_elementFaces l_edges l_elementEdges].
  - unfold esF. rewrite map_fst_pairs. split; [apply nodup_shift, VE_nodup|]. intros id. rewrite in_shift. split; intros (el & -> & H); exists el; (split; [reflexivity|]); apply VE_seen, H.
  - intros el x Hx. apply elementF_ok in Hx as (S & H & V & ->). cbn [elementF e_owner e_owning e_zone e_coords]. destruct (shF_ok geometry i dim n R Hdim el H) as (O & _). split; [exact O|]. split; [reflexivity|]. split.
    + exists (zF i el). split; [|apply (zone_ok geometry i dim n R Hdim el H)]. unfold zF. apply nth_error_nth'. destruct (r_zones _ _ _ _ R) as (-> & _). exact H.
    + intros j. rewrite (coordsE_nth ltb i dim Hdim p). destruct (nF_ok geometry i dim n R Hdim el H) as (_ & B & _). rewrite B. destruct (part_of m 0 el j) as [v|] eqn:P.
      * pose proof (part_of_0_lt geometry i dim n R el j v P) as Nv. rewrite (coords_at ltb i p N v _ Nv (vis_pres geometry i dim n R Hdim p el j v H V P) (offF_lt ltb ST geometry i dim n R Hdim el j v P)).
        apply (offF_ok ltb ST geometry i dim n R Hdim el j v P).
      * pose proof (c_coords _ (r_consistent _ _ _ _ R) el j) as C. rewrite P in C. unfold value_of. destruct (coord_of m el j); [destruct C|reflexivity].
  - unfold nodesF. rewrite map_map. cbn [n_id]. split; [apply nodup_shift, PN_nodup|]. intros id. rewrite in_shift. split.
    + intros (v & -> & Hv). apply PN_in in Hv as (Nv & Pv). apply (pres_iff geometry i dim n R Hdim p v Nv) in Pv as (el & j & P & S). exists v, el, j. auto.
    + intros (v & el & j & -> & P & S). exists v. split; [reflexivity|]. apply PN_in. pose proof (part_of_0_lt geometry i dim n R el j v P) as Nv. split; [exact Nv|]. apply (pres_iff geometry i dim n R Hdim p v Nv). eauto.
  - intros v x Hx Hid. unfold nodesF in Hx. apply in_map_iff in Hx as (w & <- & Hw). cbn [n_id n_elements] in *. assert (w = v) as -> by lia. split.
    + apply GlobalIndexing_proofs.NoDup_flat_map; [apply VE_nodup|intros; apply slots_nodup|]. intros a b (id, j) _ _ A B. apply (slots_in i dim Hdim e0) in A as (A & _), B as (B & _). lia.
    + intros id j. rewrite in_flat_map. split.
      * intros (el & He & Hin). apply (slots_in i dim Hdim e0) in Hin as (-> & Hj). exists el. split; [reflexivity|]. pose proof He as He'. apply VE_in in He' as (H & _). destruct (nF_ok geometry i dim n R Hdim el H) as (_ & B & _). rewrite B in Hj. split; [apply VE_seen, He|exact Hj].
      * intros (el & -> & S & P). exists el. apply VE_seen in S. split; [exact S|]. apply (slots_in i dim Hdim e0). split; [reflexivity|]. apply VE_in in S as (H & _). destruct (nF_ok geometry i dim n R Hdim el H) as (_ & B & _). rewrite B. exact P.
  - intros el S. pose proof S as I. apply VE_seen in I. rewrite (get_map e0 (fun el => map (fun v => Some (rank v)) (nF el)) (VE E) el I). eexists. split; [reflexivity|]. intros j. rewrite nth_error_map.
    apply VE_in in I as (H & V). destruct (nF_ok geometry i dim n R Hdim el H) as (_ & B & _). rewrite B. destruct (part_of m 0 el j) as [v|] eqn:P; [|reflexivity]. cbn [option_map]. unfold nodesF. rewrite nth_error_map.
    rewrite (rank_ok i p N v (part_of_0_lt geometry i dim n R el j v P) (vis_pres geometry i dim n R Hdim p el j v H V P)). reflexivity.
  - unfold facesOut. rewrite map_fst_pairs. split; [apply nodup_shift, NoDup_filter, seq_NoDup|]. intros id. rewrite in_shift. split.
    + intros (x & -> & Hx). apply filter_In in Hx as (Hx & HH). apply in_seq in Hx. apply here_seen in HH as (el & l & P & S); [|lia]. exists x, el, l. auto.
    + intros (x & el & l & -> & P & S). exists x. split; [reflexivity|]. pose proof (part_count _ _ _ _ P) as Lx. apply filter_In. split; [apply in_seq; lia|]. apply here_seen; [exact Lx|]. eauto.
  - intros x f Hf. unfold facesOut in Hf. apply (get_map_in f0 (fun x => markN (ghostsOf i dim p x) (faceF x)) FXF) in Hf as (Hx & ->). apply face_sides, Hx.
  - intros el S. apply table_ok; [|exact S].
    + apply (facesE_ok geometry i dim n R Hdim el (seen_lt geometry i dim n R el p S)).
  - destruct (Nat.eq_dec dim 3) as [Q|Q].
    + destruct (D3 Q) as (_ & ->). rewrite map_fst_pairs. split; [apply nodup_shift, NoDup_filter, seq_NoDup|]. intros id. rewrite in_shift. split.
      * intros (x & -> & Hx). apply filter_In in Hx as (Hx & HH). apply in_seq in Hx. apply here_seen in HH as (el & l & P & S); [|lia]. split; [exact Q|]. exists x, el, l. auto.
      * intros (_ & x & el & l & -> & P & S). exists x. split; [reflexivity|]. pose proof (part_count _ _ _ _ P) as Lx. apply filter_In. split; [apply in_seq; lia|]. apply here_seen; [exact Lx|]. eauto.
    + rewrite (DN Q). split; [constructor|]. intros id. split; [intros []|]. intros (C & _). contradiction.
  - intros x g Hg. destruct (Nat.eq_dec dim 3) as [Q|Q]; [|rewrite (DN Q) in Hg; discriminate]. destruct (D3 Q) as (_ & ->).
    apply (get_map_in g0 (edgeF ltb geometry i p e0) (GX i p (countD i 1))) in Hg as (Hx & ->). unfold GX in Hx. apply filter_In in Hx as (Hx & _). apply in_seq in Hx.
    assert (Lx : x < countD i 1) by lia. destruct (epF_ok geometry i dim n R Hdim 1 x (links_of_d i dim Hdim 1 x Lx)) as (LK & ND & M & _). cbn [edgeF g_elements g_orientation].
    assert (KN : forall q, In q (filter (known i p) (lF 1 x)) <-> part_of m 1 (fst q) (snd q) = Some x /\ seen i p (fst q)).
    { intros (el, l). rewrite filter_In, M. cbn [fst snd]. unfold known. cbn [fst]. split; intros (P & V); (split; [exact P|]); apply (vis_iff geometry i dim n R Hdim p el (part_lt_E i _ _ _ _ P)), V. }
    split; [|split].
    + apply FinFun.Injective_map_NoDup; [|apply NoDup_filter, ND]. intros (a, b) (c, d). cbn [fst snd]. intros [= A ->]. f_equal. lia.
    + intros id l. rewrite in_map_iff. split.
      * intros ((el & l2) & [= <- <-] & Hin). apply KN in Hin as (P & S). exists el. auto.
      * intros (el & -> & S & P). exists (el, l). split; [reflexivity|]. apply KN. auto.
    + apply forall2_map. intros (el, l) Hin. apply KN in Hin as (P & S). cbn [fst snd] in *. pose proof (part_lt_E i _ _ _ _ P) as H.
      assert (V : vis el = true) by (apply (vis_iff geometry i dim n R Hdim p el H), S).
      destruct (nF_ok geometry i dim n R Hdim el H) as (_ & B & _ & _ & _ & _ & _ & _ & _ & _ & _ & e & HE & HI).
      destruct (facesE_ok geometry i dim n R Hdim el H) as (G & _ & FG & _ & GE). assert (Ll : l < length (edgesE el)) by (apply (FG Q); congruence).
      unfold orientF. pose proof (nth_error_nth' (edgesE el) (0, 0) Ll) as NE. destruct (nth l (edgesE el) (0, 0)) as (a, b) eqn:AB. cbn [fst snd].
      destruct (GE a b) as (La & Lb); [rewrite <- AB; apply nth_In, Ll|].
      destruct (part_of m 0 el a) as [v|] eqn:PA; [|exfalso; rewrite <- B in PA; apply nth_error_None in PA; lia]. destruct (part_of m 0 el b) as [w|] eqn:PB; [|exfalso; rewrite <- B in PB; apply nth_error_None in PB; lia].
      exists el, v, w. split; [reflexivity|]. split; [unfold edge_nodes; rewrite HE, HI, G, NE, PA, PB; reflexivity|]. rewrite (coordsE_nth' el a v H V PA), (coordsE_nth' el b w H V PB).
      pose proof (vis_pres geometry i dim n R Hdim p el a v H V PA) as Pv. pose proof (vis_pres geometry i dim n R Hdim p el b w H V PB) as Pw.
      pose proof (offF_lt ltb ST geometry i dim n R Hdim el a v PA) as Ov. pose proof (offF_lt ltb ST geometry i dim n R Hdim el b w PB) as Ow.
      split; intros Hvw; [pose proof (start_lt ltb i p v w (offF ltb i v el a) (offF ltb i w el b) Pv Ov Hvw) as SL|pose proof (start_lt ltb i p w v (offF ltb i w el b) (offF ltb i v el a) Pw Ow Hvw) as SL].
      * apply Nat.ltb_lt in SL. rewrite SL. reflexivity.
      * destruct (Nat.ltb_spec (start v + offF ltb i v el a) (start w + offF ltb i w el b)); [lia|reflexivity].
  - intros Q el S. destruct (D3 Q) as (-> & _). apply table_ok; [|exact S]; apply (facesE_ok geometry i dim n R Hdim el (seen_lt geometry i dim n R el p S)), Q.
Qed.
End Good.
