(** What readMesh makes of the faces and the edges of the file. *)
From Coq Require Import String Ascii List Arith Lia Bool Permutation Sorted.
From Verif Require Import Loop_model Loop_proofs Std_model Std_proofs StdMap_model StdMap_proofs PreMesh_model PreMesh_spec PreMesh_proofs MeshFile_model MeshFile_spec MeshFile_proofs MeshFileRead_proofs.
From Verif Require Submesh_model Submesh_proofs SubmeshMore_proofs.
Import ListNotations.

Lemma get_map {A} c (f : nat -> A) l x : In x l -> get (map (fun y => (c + y, f y)) l) (c + x) = Some (f x).
Proof.
  induction l as [|y l IH]; intros H; [destruct H|]. cbn [map get]. destruct (Nat.eqb_spec (c + y) (c + x)) as [E|N].
  - replace y with x by lia. reflexivity.
  - apply IH. destruct H as [->|H]; [lia|exact H].
Qed.
Lemma get_map_in {A} c (f : nat -> A) l x y : get (map (fun y => (c + y, f y)) l) (c + x) = Some y -> In x l /\ y = f x.
Proof.
  induction l as [|z l IH]; intros H; [discriminate|]. cbn [map get] in H. destruct (Nat.eqb_spec (c + z) (c + x)) as [E|N].
  - replace z with x in * by lia. injection H as <-. split; [left; reflexivity|reflexivity].
  - destruct (IH H). split; [right|]; assumption.
Qed.
Lemma put_map {A} c (f : nat -> A) l x y : NoDup l -> In x l -> put (map (fun z => (c + z, f z)) l) (c + x) y = Some (map (fun z => (c + z, if z =? x then y else f z)) l).
Proof.
  induction l as [|z l IH]; intros ND H; [destruct H|]. inversion ND as [|? ? Nin ND']; subst. cbn [map put]. destruct (Nat.eqb_spec (c + z) (c + x)) as [E|N].
  - assert (z = x) as -> by lia. rewrite Nat.eqb_refl. do 2 f_equal. apply map_ext_in. intros w Hw. destruct (Nat.eqb_spec w x) as [->|]; [contradiction|reflexivity].
  - destruct H as [->|H]; [lia|]. rewrite (IH ND' H). destruct (Nat.eqb_spec z x); [lia|reflexivity].
Qed.
Lemma fe_parts {St} (p : nat) (body : nat -> bool * St -> option (bool * St)) s s' l : NoDup l ->
  (forall q b t, q <> p -> body q (b, t) = Some (b, t)) -> (existsb (Nat.eqb p) l = true -> body p (false, s) = Some (true, s')) ->
  for_each l body (false, s) = Some (if existsb (Nat.eqb p) l then (true, s') else (false, s)).
Proof.
  intros ND H1 H2. assert (K : forall l b t, ~ In p l -> for_each l body (b, t) = Some (b, t)).
  { intros l0. induction l0 as [|q l0 IH]; intros b t Hn; [reflexivity|]. cbn [for_each]. rewrite H1 by (intros ->; apply Hn; left; reflexivity). apply IH. intros C. apply Hn. right. exact C. }
  induction ND as [|q l Nin ND IH]; [reflexivity|]. cbn [for_each existsb] in *. destruct (Nat.eqb_spec p q) as [<-|NE].
  - rewrite (H2 eq_refl). apply K, Nin.
  - rewrite H1 by congruence. apply IH, H2.
Qed.
Lemma same_list_ok a : forall b, same_list a b = true <-> a = b.
Proof.
  induction a as [|x a IH]; intros [|y b]; cbn; try (split; [reflexivity|reflexivity]); try (split; discriminate).
  rewrite Bool.andb_true_iff, Nat.eqb_eq, IH. split; [intros (-> & ->); reflexivity|intros [= -> ->]; auto].
Qed.
Lemma fe_nth (l f : list nat) : (forall j, In j f -> j < length l) -> forall acc, for_each f (fun n acc => c <- nth_error l n; Some (acc ++ [c])) acc = Some (acc ++ map (fun j => nth j l 0) f).
Proof.
  induction f as [|j f IH]; intros H acc; cbn [for_each map]; [rewrite app_nil_r; reflexivity|]. rewrite (nth_error_nth' l 0) by (apply H; left; reflexivity).
  rewrite IH by (intros; apply H; right; assumption). rewrite <- app_assoc. reflexivity.
Qed.

Section Faces.
Context {D : Type} (ltb : D -> D -> bool) (ST : strict_total ltb).
Context (geometry : nat -> option (list (list nat) * list (nat * nat))) (i : input D) (dim n : nat) (R : ready geometry i dim n).
Context (Hdim : 1 <= dim) (p e0 : nat).
Local Notation m := (theMesh i).
Local Notation E := (length (elementsList (theMesh i))).
Local Notation vis := (vis i p).
Local Notation VE := (VE i p).
Local Notation lF := (lF i).
Local Notation epF := (epF i).
Local Notation coordsE := (coordsE ltb i p).
Local Notation facesE := (facesE geometry i).
Local Notation edgesE := (edgesE geometry i).
Local Notation nF := (nF i).

Lemma part_lt_E d el l x : part_of m d el l = Some x -> el < E.
Proof. unfold part_of. intros H. apply nth_error_Some. destruct (nth_error (elementsList m) el); discriminate. Qed.
Lemma facesE_ok el : el < E -> geometry (length (nF el)) = Some (facesE el, edgesE el) /\
  (forall l, part_of m (dim - 1) el l <> None <-> l < length (facesE el)) /\ (dim = 3 -> forall l, part_of m 1 el l <> None <-> l < length (edgesE el)) /\
  (forall f v, In f (facesE el) -> In v f -> v < length (nF el)) /\ (forall a b, In (a, b) (edgesE el) -> a < length (nF el) /\ b < length (nF el)).
Proof.
  intros H. destruct (nF_ok geometry i dim n R Hdim el H) as (_ & _ & _ & _ & faces & edges & G & A & B & C & F & _). unfold MeshFileRead_proofs.facesE, MeshFileRead_proofs.edgesE.
  rewrite G. auto.
Qed.
Lemma coordsE_length el : length (coordsE el) = length (nF el).
Proof. unfold MeshFileRead_proofs.coordsE. rewrite map_length. apply (pairsF_length ltb i dim Hdim). Qed.

(** ** The tables of the faces or edges of the elements *)
Definition T (cnt : nat -> nat) (g : nat -> nat -> option nat) := map (fun el => (e0 + el, map (g el) (seq 0 (cnt el)))) (VE E).
Lemma T_ext cnt g h : (forall el l, el < E -> vis el = true -> g el l = h el l) -> T cnt g = T cnt h.
Proof. intros H. apply map_ext_in. intros el Hel. apply VE_in in Hel as (L & V). f_equal. apply map_ext. intros l. apply H; assumption. Qed.
Lemma setPart_T cnt g el l y : el < E -> vis el = true -> l < cnt el ->
  setPart (T cnt g) (e0 + el) l y = Some (T cnt (fun a b => if ((a =? el) && (b =? l))%bool then Some y else g a b)).
Proof.
  intros H V L. unfold setPart, T. assert (I : In el (VE E)) by (apply VE_in; auto).
  rewrite (get_map e0 (fun el => map (g el) (seq 0 (cnt el))) (VE E) el I).
  rewrite (write_map (g el) (seq 0 (cnt el)) l l); [|apply seq_NoDup|rewrite (nth_error_nth' _ 0) by (rewrite seq_length; exact L); rewrite seq_nth by exact L; reflexivity].
  rewrite (put_map e0 (fun el => map (g el) (seq 0 (cnt el))) (VE E) el _ (VE_nodup i p E) I). f_equal. apply map_ext. intros a. f_equal.
  destruct (Nat.eqb_spec a el) as [->|]; cbn [andb]; reflexivity.
Qed.
Definition gF d c k el l := match part_of m d el l with Some x => if x <? k then Some (c + x) else None | None => None end.
Lemma gF_S d c k el l : gF d c (S k) el l = if (match part_of m d el l with Some x => x =? k | None => false end) then Some (c + k) else gF d c k el l.
Proof.
  unfold gF. destruct (part_of m d el l) as [x|]; [|reflexivity]. destruct (Nat.eqb_spec x k) as [->|N].
  - replace (k <? S k) with true by (symmetry; apply Nat.ltb_lt; lia). reflexivity.
  - destruct (Nat.ltb_spec x k), (Nat.ltb_spec x (S k)); try reflexivity; lia.
Qed.
Lemma gF_0 d c cnt : T cnt (gF d c 0) = map (fun el => (e0 + el, repeat None (cnt el))) (VE E).
Proof.
  apply map_ext. intros el. f_equal. generalize 0 at 2. generalize (cnt el) as k. induction k as [|k IH]; intros a; cbn [seq map repeat]; [reflexivity|]. rewrite IH. f_equal.
  unfold gF. destruct (part_of m d el a); reflexivity.
Qed.
Definition eF c el := (e0 + el, elementF ltb i p el) = c.
Definition esF := map (fun el => (e0 + el, elementF ltb i p el)) (VE E).
Definition actual_ok (actual : list (nat * nat)) := forall el, mfind Nat.ltb el actual = if ((el <? E) && vis el)%bool then Some (e0 + el) else None.

(** a part is present when one of its elements is known *)
Definition here d x := existsb (Nat.eqb p) (epF d x).
Lemma here_iff d x : links_of m d x <> None -> (here d x = true <-> exists el l, part_of m d el l = Some x /\ vis el = true).
Proof.
  intros L. destruct (epF_ok geometry i dim n R Hdim d x L) as (_ & _ & _ & _ & _ & M). unfold here. rewrite existsb_exists. split.
  - intros (q & Hq & Q). apply Nat.eqb_eq in Q. subst q. apply M in Hq as (el & l & P & S). exists el, l. split; [exact P|]. apply (vis_iff geometry i dim n R Hdim p el (part_lt_E _ _ _ _ P)), S.
  - intros (el & l & P & V). exists p. split; [|apply Nat.eqb_refl]. apply M. exists el, l. split; [exact P|]. apply (vis_iff geometry i dim n R Hdim p el (part_lt_E _ _ _ _ P)), V.
Qed.
Lemma entityTokens_app d x X : entityTokens i d x ++ X = Int (length (lF d x)) :: flat_map pairTokens (lF d x) ++ Int (length (epF d x)) :: map Int (epF d x) ++ EndL :: X.
Proof. unfold entityTokens. cbn [app]. f_equal. rewrite <- app_assoc. cbn [app]. rewrite <- app_assoc. reflexivity. Qed.
Lemma not_here d x c el l : links_of m d x <> None -> here d x = false -> vis el = true -> gF d c (S x) el l = gF d c x el l.
Proof.
  intros L H V. rewrite gF_S. destruct (part_of m d el l) as [y|] eqn:P; [|reflexivity]. destruct (Nat.eqb_spec y x) as [->|]; [|reflexivity].
  exfalso. assert (here d x = true) by (apply here_iff; [exact L|exists el, l; auto]). congruence.
Qed.

(** ** Faces *)
Definition fnF el l := map (fun j => nth j (coordsE el) 0) (nth l (facesE el) []).
Lemma globalFaceNodes_ok el l : el < E -> vis el = true -> l < length (facesE el) -> globalFaceNodes geometry esF (e0 + el, l) = Some (fnF el l).
Proof.
  intros H V L. unfold globalFaceNodes, esF. rewrite (get_map e0 (elementF ltb i p) (VE E) el) by (apply VE_in; auto). cbn [elementF e_coords].
  destruct (facesE_ok el H) as (G & _ & _ & F & _). rewrite coordsE_length, G. rewrite (nth_error_nth' _ []) by exact L. rewrite fe_nth; [reflexivity|].
  intros j Hj. rewrite coordsE_length. apply (F (nth l (facesE el) [])); [apply nth_In, L|exact Hj].
Qed.
Definition typeF a l b l' := if same_list (sort (fnF a l)) (sort (fnF b l')) then INTERNAL else PERIODIC_BC.
Definition faceF x := match lF (dim - 1) x with
  | (a, l) :: (b, l') :: _ => if vis a then if vis b then Face (e0 + a, l) (Some (e0 + b, l')) (typeF a l b l') else Face (e0 + a, l) None PARTIAL_FACE
                              else Face (e0 + b, l') None PARTIAL_FACE
  | (a, l) :: _ => Face (e0 + a, l) None WALL_BC
  | [] => Face (0, 0) None WALL_BC
  end.
Definition FX k := filter (here (dim - 1)) (seq 0 k).
Lemma FX_S k : FX (S k) = FX k ++ (if here (dim - 1) k then [k] else []).
Proof. unfold FX. rewrite seq_S, filter_app. cbn. reflexivity. Qed.
Definition cntF el := length (facesE el).
Record faces_at (f0 k : nat) (s : facesRead) : Prop := {
  fa_index : r_faceIndex s = f0 + k;
  fa_faces : r_faces s = map (fun x => (f0 + x, faceF x)) (FX k);
  fa_table : r_facesOf s = T cntF (gF (dim - 1) f0 k) }.
Lemma addFace_one f0 k s a l type : faces_at f0 k s -> a < E -> vis a = true -> l < cntF a ->
  addFace geometry esF s (e0 + a, l) None type = Some (FacesRead (r_faces s ++ [(f0 + k, Face (e0 + a, l) None type)])
    (T cntF (fun a' l' => if ((a' =? a) && (l' =? l))%bool then Some (f0 + k) else gF (dim - 1) f0 k a' l')) (S (f0 + k))).
Proof. intros [A B C] H V L. unfold addFace. cbn [fst snd]. rewrite C, A, setPart_T by assumption. reflexivity. Qed.
Lemma addFace_two f0 k s a l b l' type : faces_at f0 k s -> a < E -> vis a = true -> l < cntF a -> b < E -> vis b = true -> l' < cntF b ->
  addFace geometry esF s (e0 + a, l) (Some (e0 + b, l')) type = Some (FacesRead (r_faces s ++ [(f0 + k, Face (e0 + a, l) (Some (e0 + b, l')) (typeF a l b l'))])
    (T cntF (fun x y => if ((x =? b) && (y =? l'))%bool then Some (f0 + k) else if ((x =? a) && (y =? l))%bool then Some (f0 + k) else gF (dim - 1) f0 k x y)) (S (f0 + k))).
Proof.
  intros [A B C] H V L H' V' L'. unfold addFace. rewrite !globalFaceNodes_ok by assumption. cbn [fst snd]. rewrite C, A, setPart_T by assumption. rewrite setPart_T by assumption. reflexivity.
Qed.
Lemma face_read f0 k s ts X actual : actual_ok actual -> faces_at f0 k s -> k < countD i (dim - 1) -> trim ts = entityTokens i (dim - 1) k ++ X ->
  exists s' ts', readFace geometry p esF actual (s, ts) = Some (s', ts') /\ trim ts' = trim X /\ faces_at f0 (S k) s'.
Proof.
  intros AC F Hk T0. pose proof (links_of_d i dim Hdim (dim - 1) k Hk) as LN. destruct (epF_ok geometry i dim n R Hdim (dim - 1) k LN) as (LK & ND & M & _ & SE & _).
  pose proof (r_sides _ _ _ _ R k _ LK) as NL. rewrite entityTokens_app in T0. unfold readFace. rewrite (readInt_of _ _ _ T0).
  replace ((0 <? length (lF (dim - 1) k)) && (length (lF (dim - 1) k) <? 3))%bool with true by (symmetry; apply Bool.andb_true_iff; split; apply Nat.ltb_lt; lia).
  rewrite readMany_pairs. cbn [readInt]. rewrite readMany_ints. fold (here (dim - 1) k).
  assert (KN : forall a l, In (a, l) (lF (dim - 1) k) -> a < E /\ l < cntF a).
  { intros a l Hin. apply M in Hin. split; [apply (part_lt_E _ _ _ _ Hin)|]. apply (facesE_ok a (part_lt_E _ _ _ _ Hin)). congruence. }
  assert (MF : forall a, a < E -> mfind Nat.ltb a actual = if vis a then Some (e0 + a) else None).
  { intros a Ha. rewrite AC. apply Nat.ltb_lt in Ha. rewrite Ha. reflexivity. }
  assert (PK : forall el l, (match part_of m (dim - 1) el l with Some x => x =? k | None => false end) = true <-> In (el, l) (lF (dim - 1) k)).
  { intros el l. rewrite M. destruct (part_of m (dim - 1) el l) as [x|]; [rewrite Nat.eqb_eq; split; congruence|split; discriminate]. }
  assert (GO : forall g, (forall el l, vis el = true -> g el l = if (match part_of m (dim - 1) el l with Some x => x =? k | None => false end) then Some (f0 + k) else gF (dim - 1) f0 k el l) ->
    here (dim - 1) k = true -> faces_at f0 (S k) (FacesRead (r_faces s ++ [(f0 + k, faceF k)]) (T cntF g) (S (f0 + k)))).
  { intros g Hg H. destruct F as [F1 F2 F3]. constructor; cbn [r_faceIndex r_faces r_facesOf].
    - lia.
    - rewrite F2, FX_S, H, map_app. reflexivity.
    - apply T_ext. intros el l _ V. rewrite gF_S. apply Hg, V. }
  assert (NDE : NoDup (epF (dim - 1) k)) by apply (ssorted_nodup _ nat_strict_total _ SE).
  match goal with |- context [for_each _ ?b (false, s)] => set (body := b) end.
  assert (B1 : forall q b t, q <> p -> body q (b, t) = Some (b, t)) by (intros q b t Hq; unfold body; apply Nat.eqb_neq in Hq; rewrite Hq; reflexivity).
  assert (B2 : exists s', (here (dim - 1) k = true -> body p (false, s) = Some (true, s')) /\ (here (dim - 1) k = true -> faces_at f0 (S k) s')).
  { unfold body. rewrite Nat.eqb_refl. destruct (here (dim - 1) k) eqn:H; [|exists s; split; discriminate].
    pose proof (proj1 (here_iff (dim - 1) k LN) H) as (el & l0 & PE & VE'). apply M in PE.
    unfold faceF in GO. destruct (lF (dim - 1) k) as [|(a, l) [|(b, l') [|]]] eqn:LE; cbn [length] in NL |- *; try lia.
    - destruct PE as [[= -> ->]|[]]. destruct (KN el l0 (or_introl eq_refl)) as (Ha & Hl). cbn [nth_error Nat.eqb]. rewrite (MF el Ha), VE'. rewrite (addFace_one f0 k) by assumption.
      eexists. split; [reflexivity|]. intros _. apply GO; [|reflexivity]. intros x y V. assert (Q : (match part_of m (dim - 1) x y with Some z => z =? k | None => false end) = ((x =? el) && (y =? l0))%bool) by (apply Bool.eq_true_iff_eq; rewrite PK, Bool.andb_true_iff, !Nat.eqb_eq; cbn; intuition congruence).
        rewrite Q. reflexivity.
    - destruct (KN a l (or_introl eq_refl)) as (Ha & Hl). destruct (KN b l' (or_intror (or_introl eq_refl))) as (Hb & Hl'). cbn [nth_error Nat.eqb]. rewrite (MF a Ha), (MF b Hb).
      destruct (vis a) eqn:Va, (vis b) eqn:Vb.
      + rewrite (addFace_two f0 k) by assumption. eexists. split; [reflexivity|]. intros _. apply GO; [|reflexivity]. intros x y V.
        destruct (match part_of m (dim - 1) x y with Some z => z =? k | None => false end) eqn:Q.
        * apply PK in Q. cbn in Q. destruct Q as [[= -> ->]|[[= -> ->]|[]]]; rewrite !Nat.eqb_refl; cbn; [destruct (_ && _)%bool; reflexivity|reflexivity].
        * assert (NQ : ~ In (x, y) [(a, l); (b, l')]) by (rewrite <- PK; congruence).
          replace ((x =? b) && (y =? l'))%bool with false; [replace ((x =? a) && (y =? l))%bool with false; [reflexivity|]|]; symmetry; apply Bool.not_true_is_false; rewrite Bool.andb_true_iff, !Nat.eqb_eq; intros (-> & ->); apply NQ; cbn; auto.
      + rewrite (addFace_one f0 k) by assumption. eexists. split; [reflexivity|]. intros _. apply GO; [|reflexivity]. intros x y V. assert (Q : (match part_of m (dim - 1) x y with Some z => z =? k | None => false end) = ((x =? a) && (y =? l))%bool) by (apply Bool.eq_true_iff_eq; rewrite PK, Bool.andb_true_iff, !Nat.eqb_eq; cbn; intuition congruence).
        rewrite Q. reflexivity.
      + rewrite (addFace_one f0 k) by assumption. eexists. split; [reflexivity|]. intros _. apply GO; [|reflexivity]. intros x y V. assert (Q : (match part_of m (dim - 1) x y with Some z => z =? k | None => false end) = ((x =? b) && (y =? l'))%bool) by (apply Bool.eq_true_iff_eq; rewrite PK, Bool.andb_true_iff, !Nat.eqb_eq; cbn; intuition congruence).
        rewrite Q. reflexivity.
      + exfalso. destruct PE as [[= -> ->]|[[= -> ->]|[]]]; congruence. }
  destruct B2 as (s' & B2 & B3). rewrite (fe_parts p body s s' (epF (dim - 1) k) NDE B1 B2). fold (here (dim - 1) k).
  destruct (here (dim - 1) k) eqn:H.
  - exists s', (EndL :: X). split; [reflexivity|]. split; [reflexivity|]. apply B3. reflexivity.
  - eexists _, (EndL :: X). split; [reflexivity|]. split; [reflexivity|]. destruct F as [F1 F2 F3]. constructor; cbn [r_faceIndex r_faces r_facesOf].
    + lia.
    + rewrite F2, FX_S, H, app_nil_r. reflexivity.
    + rewrite F3. apply T_ext. intros el l _ V. symmetry. apply not_here; assumption.
Qed.
Lemma faces_read f0 actual ts rest : actual_ok actual -> trim ts = trim (flat_map (entityTokens i (dim - 1)) (seq 0 (countD i (dim - 1))) ++ rest) ->
  exists s ts', for_loop (countD i (dim - 1)) (fun _ => readFace geometry p esF actual) (FacesRead [] (map (fun el => (e0 + el, repeat None (cntF el))) (VE E)) f0, ts) = Some (s, ts') /\
    trim ts' = trim rest /\ faces_at f0 (countD i (dim - 1)) s.
Proof.
  intros AC T0. set (K := countD i (dim - 1)) in *.
  destruct (for_loop_inv (fun k (st : facesRead * list (token D)) => trim (snd st) = trim (flat_map (entityTokens i (dim - 1)) (seq k (K - k)) ++ rest) /\ faces_at f0 k (fst st))
    (fun _ => readFace geometry p esF actual) K (FacesRead [] (map (fun el => (e0 + el, repeat None (cntF el))) (VE E)) f0, ts)) as ((s & ts') & X & A & B).
  - cbn [fst snd]. rewrite Nat.sub_0_r. split; [exact T0|]. constructor; cbn; [lia|reflexivity|]. symmetry. apply gF_0.
  - clear ts T0. intros k (s & ts) Hk (T0 & F). cbn [fst snd] in *. rewrite (seq_step k K Hk) in T0. cbn [flat_map] in T0. rewrite <- app_assoc in T0.
    destruct (face_read f0 k s ts _ actual AC F Hk T0) as (s' & ts' & X & A & B). exists (s', ts'). cbn [fst snd]. auto.
  - exists s, ts'. cbn [fst snd] in *. rewrite Nat.sub_diag in A. cbn [seq flat_map app] in A. auto.
Qed.

(** ** Edges *)
Definition orientF (el l : nat) := if nth (fst (nth l (edgesE el) (0, 0))) (coordsE el) 0 <? nth (snd (nth l (edgesE el) (0, 0))) (coordsE el) 0 then 0 else 1.
Definition known (q : nat * nat) := vis (fst q).
Definition edgeF x := Edge (map (fun q => (e0 + fst q, snd q)) (filter known (lF 1 x))) (map (fun q => orientF (fst q) (snd q)) (filter known (lF 1 x))).
Definition cntG el := length (edgesE el).
Definition pair_eqb (a b : nat * nat) := ((fst a =? fst b) && (snd a =? snd b))%bool.
Lemma edge_links c actual L : actual_ok actual -> (forall el l, In (el, l) L -> el < E /\ l < cntG el) -> forall es os h,
  for_each L (fun '(global, l) st => match mfind Nat.ltb global actual with Some element => addElementToEdge geometry esF c element l st | None => Some st end) (Edge es os, T cntG h) =
  Some (Edge (es ++ map (fun q => (e0 + fst q, snd q)) (filter known L)) (os ++ map (fun q => orientF (fst q) (snd q)) (filter known L)),
        T cntG (fun el l => if existsb (pair_eqb (el, l)) (filter known L) then Some c else h el l)).
Proof.
  intros AC. induction L as [|(a, l) L IH]; intros HL es os h; cbn [for_each filter map existsb].
  - rewrite !app_nil_r. reflexivity.
  - destruct (HL a l (or_introl eq_refl)) as (Ha & Hl). assert (HL' : forall el l, In (el, l) L -> el < E /\ l < cntG el) by (intros; apply HL; right; assumption). specialize (IH HL').
    rewrite AC. pose proof Ha as Ha'. apply Nat.ltb_lt in Ha'. rewrite Ha'. cbn [andb]. change (known (a, l)) with (vis a). destruct (vis a) eqn:V; [|apply IH].
    unfold addElementToEdge at 1. unfold esF at 1. rewrite (get_map e0 (elementF ltb i p) (VE E) a) by (apply VE_in; auto). rewrite setPart_T by assumption. cbn [elementF e_coords].
    destruct (facesE_ok a Ha) as (G & _ & _ & _ & GE). rewrite coordsE_length, G. rewrite (nth_error_nth' _ (0, 0)) by exact Hl.
    destruct (nth l (edgesE a) (0, 0)) as (x, y) eqn:XY. assert (IN : In (x, y) (edgesE a)) by (rewrite <- XY; apply nth_In, Hl). destruct (GE x y IN) as (Lx & Ly).
    rewrite (nth_error_nth' _ 0) by (rewrite coordsE_length; exact Lx). rewrite (nth_error_nth' _ 0) by (rewrite coordsE_length; exact Ly). rewrite IH. cbn [map fst snd]. assert (O : orientF a l = if nth x (coordsE a) 0 <? nth y (coordsE a) 0 then 0 else 1) by (unfold orientF; rewrite XY; reflexivity). rewrite O.
    rewrite <- !app_assoc. cbn [app]. do 2 f_equal. apply T_ext. intros el l' _ _. cbn [existsb]. unfold pair_eqb at 2. cbn [fst snd].
    destruct ((el =? a) && (l' =? l))%bool, (existsb (pair_eqb (el, l')) (filter known L)); reflexivity.
Qed.
Definition GX k := filter (here 1) (seq 0 k).
Lemma GX_S k : GX (S k) = GX k ++ (if here 1 k then [k] else []).
Proof. unfold GX. rewrite seq_S, filter_app. cbn. reflexivity. Qed.
Record edges_at (g0 k : nat) (s : edgesRead) : Prop := {
  ga_index : r_edgeIndex s = g0 + k;
  ga_edges : r_edges s = map (fun x => (g0 + x, edgeF x)) (GX k);
  ga_table : r_edgesOf s = T cntG (gF 1 g0 k) }.
Lemma edge_read g0 k s ts X actual : dim = 3 -> actual_ok actual -> edges_at g0 k s -> k < countD i 1 -> trim ts = entityTokens i 1 k ++ X ->
  exists s' ts', readEdge geometry p esF actual (s, ts) = Some (s', ts') /\ trim ts' = trim X /\ edges_at g0 (S k) s'.
Proof.
  intros D3 AC [F1 F2 F3] Hk T0. pose proof (links_of_d i dim Hdim 1 k Hk) as LN. destruct (epF_ok geometry i dim n R Hdim 1 k LN) as (LK & ND & M & _ & SE & _).
  rewrite entityTokens_app in T0. unfold readEdge. rewrite (readInt_of _ _ _ T0). rewrite readMany_pairs. cbn [readInt]. rewrite readMany_ints.
  assert (KN : forall a l, In (a, l) (lF 1 k) -> a < E /\ l < cntG a).
  { intros a l Hin. apply M in Hin. split; [apply (part_lt_E _ _ _ _ Hin)|]. apply (facesE_ok a (part_lt_E _ _ _ _ Hin)); [exact D3|]. congruence. }
  assert (NDE : NoDup (epF 1 k)) by apply (ssorted_nodup _ nat_strict_total _ SE).
  match goal with |- context [for_each _ ?b (false, s)] => set (body := b) end.
  assert (B1 : forall q b t, q <> p -> body q (b, t) = Some (b, t)) by (intros q b t Hq; unfold body; apply Nat.eqb_neq in Hq; rewrite Hq; reflexivity).
  set (s' := EdgesRead (r_edges s ++ [(g0 + k, edgeF k)]) (T cntG (fun el l => if existsb (pair_eqb (el, l)) (filter known (lF 1 k)) then Some (g0 + k) else gF 1 g0 k el l)) (S (g0 + k))).
  assert (B2 : existsb (Nat.eqb p) (epF 1 k) = true -> body p (false, s) = Some (true, s')).
  { intros _. unfold body. rewrite Nat.eqb_refl, F1, F3, (edge_links (g0 + k) actual (lF 1 k) AC KN). cbn [app]. reflexivity. }
  rewrite (fe_parts p body s s' (epF 1 k) NDE B1 B2). fold (here 1 k). destruct (here 1 k) eqn:H.
  - exists s', (EndL :: X). split; [reflexivity|]. split; [reflexivity|]. constructor; cbn [s' r_edgeIndex r_edges r_edgesOf].
    + lia.
    + rewrite F2, GX_S, H, map_app. reflexivity.
    + apply T_ext. intros el l _ V. rewrite gF_S. rewrite (Bool.eq_true_iff_eq (existsb _ _) (match part_of m 1 el l with Some x => x =? k | None => false end)); [reflexivity|].
      rewrite existsb_exists. split.
      * intros ((a, b) & Hin & Q). apply filter_In in Hin as (Hin & _). unfold pair_eqb in Q. cbn [fst snd] in Q. apply Bool.andb_true_iff in Q as (Q1 & Q2). apply Nat.eqb_eq in Q1, Q2. subst a b.
        apply M in Hin. rewrite Hin. apply Nat.eqb_refl.
      * destruct (part_of m 1 el l) as [x|] eqn:P; [|discriminate]. intros Q. apply Nat.eqb_eq in Q. subst x. exists (el, l). split; [apply filter_In; split; [apply M, P|exact V]|].
        unfold pair_eqb. cbn [fst snd]. rewrite !Nat.eqb_refl. reflexivity.
  - eexists _, (EndL :: X). split; [reflexivity|]. split; [reflexivity|]. constructor; cbn [r_edgeIndex r_edges r_edgesOf].
    + lia.
    + rewrite F2, GX_S, H, app_nil_r. reflexivity.
    + rewrite F3. apply T_ext. intros el l _ V. symmetry. apply not_here; assumption.
Qed.
Lemma edges_read g0 actual ts rest : dim = 3 -> actual_ok actual -> trim ts = trim (flat_map (entityTokens i 1) (seq 0 (countD i 1)) ++ rest) ->
  exists s ts', for_loop (countD i 1) (fun _ => readEdge geometry p esF actual) (EdgesRead [] (map (fun el => (e0 + el, repeat None (cntG el))) (VE E)) g0, ts) = Some (s, ts') /\
    trim ts' = trim rest /\ edges_at g0 (countD i 1) s.
Proof.
  intros D3 AC T0. set (K := countD i 1) in *.
  destruct (for_loop_inv (fun k (st : edgesRead * list (token D)) => trim (snd st) = trim (flat_map (entityTokens i 1) (seq k (K - k)) ++ rest) /\ edges_at g0 k (fst st))
    (fun _ => readEdge geometry p esF actual) K (EdgesRead [] (map (fun el => (e0 + el, repeat None (cntG el))) (VE E)) g0, ts)) as ((s & ts') & X & A & B).
  - cbn [fst snd]. rewrite Nat.sub_0_r. split; [exact T0|]. constructor; cbn; [lia|reflexivity|]. symmetry. apply gF_0.
  - clear ts T0. intros k (s & ts) Hk (T0 & F). cbn [fst snd] in *. rewrite (seq_step k K Hk) in T0. cbn [flat_map] in T0. rewrite <- app_assoc in T0.
    destruct (edge_read g0 k s ts _ actual D3 AC F Hk T0) as (s' & ts' & X & A & B). exists (s', ts'). cbn [fst snd]. auto.
  - exists s, ts'. cbn [fst snd] in *. rewrite Nat.sub_diag in A. cbn [seq flat_map app] in A. auto.
Qed.
End Faces.
