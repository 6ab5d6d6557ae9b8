(** Proofs for C62: the entries of a boundary face. *)
From Coq Require Import List Arith Bool Lia Permutation Sorted FinFun.
From Verif Require Import Loop_model Loop_proofs StdMap_model GlobalIndexing_model GlobalIndexing_spec GlobalIndexing_proofs
  GlobalVector_model GlobalVector_spec GlobalVector_proofs GlobalVectorWrite_proofs GlobalVectorOne_proofs GlobalMatrix_model GlobalMatrix_spec GlobalMatrix_proofs.
Import ListNotations.

Definition object_dofs (m : Mesh) (us : list nat) (o : object) : list dof :=
  flat_map (fun u => map (fun i => {| d_kind := fst o; d_id := snd o; d_unknown := u; d_fn := i |}) (seq 0 (localNumberOfBasisFunctions m (fst o) (snd o) u))) us.
Lemma object_dofs_in m us o d : In d (object_dofs m us o) <->
  (d_kind d, d_id d) = o /\ In (d_unknown d) us /\ d_fn d < localNumberOfBasisFunctions m (d_kind d) (d_id d) (d_unknown d).
Proof.
  unfold object_dofs. rewrite in_flat_map. split.
  - intros (u & Hu & H). apply in_map_iff in H. destruct H as (i & <- & Hi). apply in_seq in Hi. cbn. destruct o. cbn in *. split; [reflexivity|]. split; [exact Hu|lia].
  - intros (<- & Hu & Hi). exists (d_unknown d). split; [exact Hu|]. apply in_map_iff. exists (d_fn d). split; [destruct d; reflexivity|]. apply in_seq. cbn. lia.
Qed.
Lemma object_dofs_nodup m us o : NoDup us -> NoDup (object_dofs m us o).
Proof.
  intros ND. apply NoDup_flat_map; [exact ND| |].
  - intros u _. apply Injective_map_NoDup; [intros a b E; inversion E; reflexivity|apply seq_NoDup].
  - intros u v d _ _ H1 H2. apply in_map_iff in H1, H2. destruct H1 as (i & <- & _), H2 as (j & E & _). inversion E. reflexivity.
Qed.
(** a step that appends to the entries and counts *)
Definition appends (f : nat * list nat -> option (nat * list nat)) (new : list nat) : Prop :=
  forall s, f s = Some (fst s + length new, snd s ++ new).
Lemma appends_forEach {B} (body : nat * list nat -> B -> option (nat * list nat)) (F : B -> list nat) l :
  (forall x, In x l -> appends (fun s => body s x) (F x)) -> appends (forEach body l) (flat_map F l).
Proof.
  induction l as [|x l IH]; intros H s; cbn [forEach flat_map].
  - cbn. rewrite Nat.add_0_r, app_nil_r. destruct s; reflexivity.
  - rewrite (H x (or_introl eq_refl) s), (IH (fun y Hy => H y (or_intror Hy)) _). cbn [fst snd]. rewrite app_length, <- app_assoc, Nat.add_assoc. reflexivity.
Qed.
Lemma appends_bind f g X Y : appends f X -> appends g Y -> appends (fun s => bind (f s) g) (X ++ Y).
Proof. intros HX HY s. rewrite HX. cbn [bind]. rewrite HY. cbn [fst snd]. rewrite app_length, <- app_assoc, Nat.add_assoc. reflexivity. Qed.
Lemma appends_nothing : appends Some [].
Proof. intros (a, l). cbn. rewrite Nat.add_0_r, app_nil_r. reflexivity. Qed.

Section Boundary.
Context (n : nat) (m : Mesh) (incl us : list nat) (r gs : nat -> GlobalIndexing) (total : nat -> nat -> nat) (N : nat) (ix : dof -> nat).
Context (VM : valid_mesh n m) (IM : index_map n m incl us r gs total N ix) (p : nat) (Hp : p < n) (EU : includedUnknowns_ (gs p) = us) (NDu : NoDup us).
Context (faceNodes : nat -> list nat) (edgeNodes : nat -> nat -> nat * nat) (nodeIndex : nat -> nat -> nat) (nodes f e : nat).
Context (VT : valid_tables m faceNodes edgeNodes nodeIndex nodes f e) (He : elementLeft m p f = Some e).

Lemma left_element : In e (elements m) /\ visible m p e = true /\ In f (objectsOf m KFace e).
Proof.
  unfold elementLeft, firstElement in He. destruct (filter (visible m p) (elementsOf m KFace f)) as [|e' rest] eqn:E; [discriminate|]. injection He as ->.
  assert (H : In e (filter (visible m p) (elementsOf m KFace f))) by (rewrite E; left; reflexivity). apply filter_In in H. destruct H as (H1 & H2).
  assert (H3 : In e (elements m)) by (apply (vm_adjacent_exist _ _ VM KFace e f); [discriminate|exact H1]).
  split; [exact H3|]. split; [exact H2|]. apply (vm_adjacency _ _ VM KFace e f); [discriminate|exact H3|exact H1].
Qed.
Lemma pushIndices_ok k x : In (k, x) (objects_of_element m e) -> appends (pushIndices m (gs p) k x) (map ix (object_dofs m us (k, x))).
Proof.
  intros Ho. destruct left_element as (Hin & Hv & _).
  assert (E : map ix (object_dofs m us (k, x)) =
    flat_map (fun u => map (fun i => ix {| d_kind := k; d_id := x; d_unknown := u; d_fn := i |}) (seq 0 (localNumberOfBasisFunctions m k x u))) us).
  { unfold object_dofs. clear EU NDu IM. induction us as [|u l IH]; [reflexivity|]. cbn [flat_map fst snd]. rewrite map_app, map_map. f_equal. exact IH. }
  rewrite E. unfold pushIndices. rewrite EU. apply appends_forEach. intros u Hu s.
  destruct (im_get _ _ _ _ _ _ _ _ _ IM p e k x u Hp Hin Hv Ho Hu) as (i & Ei & Hi). rewrite Ei, map_length, seq_length. do 3 f_equal.
  apply map_ext_in. intros j Hj. apply in_seq in Hj. apply Hi. lia.
Qed.
Definition edges_on : list nat :=
  flat_map (fun i => if onFace edgeNodes nodeIndex (map (nodeIndex e) (faceNodes f)) e i
    then match nth_error (objectsOf m KEdge e) i with None => [] | Some x => [x] end else []) (seq 0 (length (objectsOf m KEdge e))).
Definition nodes_on : list nat := flat_map (fun i => match nth_error (objectsOf m KNode e) i with None => [] | Some x => [x] end) (faceNodes f).
Definition objects_on : list object :=
  (KFace, f) :: map (pair KEdge) edges_on ++ (if 1 <? dimension m then map (pair KNode) nodes_on else []).
Definition dofs_on : list dof := flat_map (object_dofs m us) objects_on.

Lemma is_on j : j < nodes -> existsb (Nat.eqb (nodeIndex e j)) (map (nodeIndex e) (faceNodes f)) = true <-> In j (faceNodes f).
Proof.
  intros Hj. rewrite existsb_exists. split.
  - intros (x & Hx & E). apply Nat.eqb_eq in E. subst x. apply in_map_iff in Hx. destruct Hx as (j' & E & Hj').
    assert (j' = j) as <- by (apply (vt_index _ _ _ _ _ _ _ VT); [apply (vt_nodes _ _ _ _ _ _ _ VT), Hj'|exact Hj|exact E]). exact Hj'.
  - intros H. exists (nodeIndex e j). split; [apply in_map, H|apply Nat.eqb_refl].
Qed.
Lemma onFace_iff i : i < length (objectsOf m KEdge e) -> onFace edgeNodes nodeIndex (map (nodeIndex e) (faceNodes f)) e i = true <->
  In (fst (edgeNodes e i)) (faceNodes f) /\ In (snd (edgeNodes e i)) (faceNodes f).
Proof.
  intros Hi. destruct (vt_edges _ _ _ _ _ _ _ VT i Hi) as (H1 & H2). unfold onFace. rewrite andb_true_iff, !is_on by assumption. reflexivity.
Qed.
Lemma edges_on_iff x : In x edges_on <-> on_face m faceNodes edgeNodes f e KEdge x.
Proof.
  unfold edges_on. rewrite in_flat_map. split.
  - intros (i & Hi & H). apply in_seq in Hi. destruct (onFace edgeNodes nodeIndex _ e i) eqn:E; [|destruct H]. apply onFace_iff in E; [|lia].
    destruct (nth_error (objectsOf m KEdge e) i) as [y|] eqn:Ey; [|destruct H]. destruct H as [<-|[]]. exists i. split; [exact Ey|exact E].
  - intros (i & Ei & H). assert (Hi : i < length (objectsOf m KEdge e)) by (apply nth_error_Some; congruence). exists i. split; [apply in_seq; lia|].
    rewrite (proj2 (onFace_iff i Hi) H), Ei. left. reflexivity.
Qed.
Lemma nodes_on_iff x : In x nodes_on <-> exists i, nth_error (objectsOf m KNode e) i = Some x /\ In i (faceNodes f).
Proof.
  unfold nodes_on. rewrite in_flat_map. split.
  - intros (i & Hi & H). destruct (nth_error (objectsOf m KNode e) i) as [y|] eqn:Ey; [|destruct H]. destruct H as [<-|[]]. exists i. auto.
  - intros (i & Ei & Hi). exists i. rewrite Ei. split; [exact Hi|left; reflexivity].
Qed.
Lemma objects_on_iff k x : In (k, x) objects_on <-> on_face m faceNodes edgeNodes f e k x.
Proof.
  unfold objects_on. cbn [In]. rewrite in_app_iff. split.
  - intros [H|[H|H]].
    + injection H as <- <-. reflexivity.
    + apply in_map_iff in H. destruct H as (y & H & Hy). injection H as <- <-. apply edges_on_iff, Hy.
    + destruct (Nat.ltb_spec 1 (dimension m)) as [L|L]; [|destruct H]. apply in_map_iff in H. destruct H as (y & H & Hy). injection H as <- <-.
      split; [exact L|]. apply nodes_on_iff, Hy.
  - destruct k.
    + intros [].
    + intros H. cbn in H. subst x. left. reflexivity.
    + intros H. right. left. apply in_map, edges_on_iff, H.
    + intros (L & H). right. right. destruct (Nat.ltb_spec 1 (dimension m)) as [_|L']; [|lia]. apply in_map, nodes_on_iff, H.
Qed.
Lemma select_nodup {B} (l : list B) (is : list nat) : NoDup l -> NoDup is -> NoDup (flat_map (fun i => match nth_error l i with None => [] | Some x => [x] end) is).
Proof.
  intros H Hi. apply NoDup_flat_map; [exact Hi| |].
  - intros i _. destruct (nth_error l i); [repeat constructor; intros []|constructor].
  - intros i j x _ _ H1 H2. destruct (nth_error l i) as [y|] eqn:E1; [|destruct H1]. destruct (nth_error l j) as [z|] eqn:E2; [|destruct H2].
    destruct H1 as [<-|[]], H2 as [<-|[]]. apply (proj1 (NoDup_nth_error l) H); [apply nth_error_Some; congruence|congruence].
Qed.
Lemma edges_on_filter : edges_on = flat_map (fun i => match nth_error (objectsOf m KEdge e) i with None => [] | Some x => [x] end)
  (filter (onFace edgeNodes nodeIndex (map (nodeIndex e) (faceNodes f)) e) (seq 0 (length (objectsOf m KEdge e)))).
Proof.
  unfold edges_on. induction (seq 0 (length (objectsOf m KEdge e))) as [|i l IH]; [reflexivity|]. cbn [flat_map filter].
  destruct (onFace _ _ _ e i); cbn [flat_map]; rewrite IH; reflexivity.
Qed.
Lemma objects_on_nodup : NoDup objects_on.
Proof.
  destruct left_element as (Hin & _ & _).
  assert (K : forall (k : Kind) (l : list nat), NoDup l -> NoDup (map (pair k) l)) by (intros k l H; apply Injective_map_NoDup; [intros a b E; congruence|exact H]).
  assert (Dk : forall (k k' : Kind) (l : list nat) x, In (k, x) (map (pair k') l) -> k = k') by (intros k k' l x H; apply in_map_iff in H; destruct H as (y & H & _); congruence).
  constructor.
  - rewrite in_app_iff. intros [H|H]; [apply Dk in H; discriminate|]. destruct (1 <? dimension m); [apply Dk in H; discriminate|destruct H].
  - apply NoDup_app.
    + apply K. rewrite edges_on_filter. apply select_nodup; [apply (vm_objects_distinct _ _ VM), Hin|apply NoDup_filter, seq_NoDup].
    + destruct (1 <? dimension m); [|constructor]. apply K. apply select_nodup; [apply (vm_objects_distinct _ _ VM), Hin|apply (vt_distinct _ _ _ _ _ _ _ VT)].
    + intros (k, x) H1 H2. apply Dk in H1. destruct (1 <? dimension m); [apply Dk in H2; congruence|destruct H2].
Qed.
Lemma objects_on_element o : In o objects_on -> In o (objects_of_element m e).
Proof.
  destruct left_element as (_ & _ & Hf). destruct o as (k, x). rewrite objects_on_iff. unfold objects_of_element. destruct k; cbn [on_face].
  - intros [].
  - intros ->. right. apply in_or_app. left. apply in_map, Hf.
  - intros (i & E & _). right. apply in_or_app. right. apply in_or_app. left. apply in_map, (nth_error_In _ _ E).
  - intros (L & i & E & _). right. apply in_or_app. right. apply in_or_app. right. destruct (Nat.ltb_spec 1 (dimension m)); [|lia]. apply in_map, (nth_error_In _ _ E).
Qed.
Lemma dofs_on_iff d : In d dofs_on <-> on_face m faceNodes edgeNodes f e (d_kind d) (d_id d) /\ In (d_unknown d) us /\
  d_fn d < localNumberOfBasisFunctions m (d_kind d) (d_id d) (d_unknown d).
Proof.
  unfold dofs_on. rewrite in_flat_map. split.
  - intros (o & Ho & H). apply object_dofs_in in H. destruct H as (<- & H). apply objects_on_iff in Ho. auto.
  - intros (Ho & H). exists (d_kind d, d_id d). split; [apply objects_on_iff, Ho|]. apply object_dofs_in. auto.
Qed.
Lemma dofs_on_nodup : NoDup dofs_on.
Proof.
  apply NoDup_flat_map; [exact objects_on_nodup|intros o _; apply object_dofs_nodup, NDu|].
  intros o o' d _ _ H1 H2. apply object_dofs_in in H1, H2. destruct H1 as (<- & _), H2 as (<- & _). reflexivity.
Qed.
Lemma map_objects k l : map ix (flat_map (object_dofs m us) (map (pair k) l)) = flat_map (fun x => map ix (object_dofs m us (k, x))) l.
Proof. induction l as [|x l IH]; [reflexivity|]. cbn [map flat_map]. rewrite map_app, IH. reflexivity. Qed.
Lemma boundary_ok number entries : getMatrixBCEntries m p (gs p) faceNodes edgeNodes nodeIndex f number entries =
  Some (number + length (map ix dofs_on), entries ++ map ix dofs_on).
Proof.
  unfold getMatrixBCEntries. rewrite He.
  assert (EE : map ix dofs_on = map ix (object_dofs m us (KFace, f)) ++ flat_map (fun x => map ix (object_dofs m us (KEdge, x))) edges_on ++
    (if 1 <? dimension m then flat_map (fun x => map ix (object_dofs m us (KNode, x))) nodes_on else [])).
  { unfold dofs_on, objects_on. cbn [flat_map]. rewrite map_app, flat_map_app, map_app, map_objects. do 2 f_equal. destruct (1 <? dimension m); [apply map_objects|reflexivity]. }
  rewrite EE.
  assert (HO : forall k x, on_face m faceNodes edgeNodes f e k x -> In (k, x) (objects_of_element m e)) by (intros k x H; apply objects_on_element, objects_on_iff, H).
  refine (appends_bind _ _ _ _ (pushIndices_ok KFace f (HO KFace f eq_refl)) _ (number, entries)). refine (appends_bind _ _ _ _ _ _).
  - unfold edges_on. rewrite <- flat_map_nested. apply appends_forEach. intros i Hi. apply in_seq in Hi.
    destruct (onFace edgeNodes nodeIndex _ e i) eqn:E; [|exact appends_nothing].
    destruct (nth_error (objectsOf m KEdge e) i) as [x|] eqn:Ex; [|apply nth_error_None in Ex; lia].
    cbn [flat_map]. rewrite app_nil_r. apply pushIndices_ok, HO. exists i. split; [exact Ex|]. apply onFace_iff; [lia|exact E].
  - destruct (Nat.ltb_spec 1 (dimension m)) as [L|L]; [|exact appends_nothing].
    unfold nodes_on. rewrite <- flat_map_nested. apply appends_forEach. intros i Hi.
    pose proof (vt_nodes _ _ _ _ _ _ _ VT i Hi) as Hn.
    destruct (nth_error (objectsOf m KNode e) i) as [x|] eqn:Ex; [|apply nth_error_None in Ex; rewrite (vt_objects _ _ _ _ _ _ _ VT L) in Ex; lia].
    cbn [flat_map]. rewrite app_nil_r. apply pushIndices_ok, HO. split; [exact L|]. exists i. auto.
Qed.
End Boundary.

Theorem boundary n m unknowns layout r gs total p faceNodes edgeNodes nodeIndex nodes f e number entries :
  indexed n m unknowns layout r gs total -> p < n -> elementLeft m p f = Some e -> valid_tables m faceNodes edgeNodes nodeIndex nodes f e ->
  exists ds new, getMatrixBCEntries m p (gs p) faceNodes edgeNodes nodeIndex f number entries = Some (number + length new, entries ++ new) /\
    Forall2 (numbered m r) ds new /\ NoDup ds /\ NoDup new /\
    forall d, In d ds <-> is_dof m (included m unknowns) d /\ on_face m faceNodes edgeNodes f e (d_kind d) (d_id d).
Proof.
  intros I Hp He VT. destruct (indexed_map _ _ _ _ _ _ _ I) as (ix & IM).
  set (us := sortedUnknowns m unknowns) in *. pose proof (in_mesh _ _ _ _ _ _ _ I) as VM.
  assert (EU : includedUnknowns_ (gs p) = us).
  { apply (filter_inc m n unknowns r layout VM (in_distinct _ _ _ _ _ _ _ I) (in_unknowns _ _ _ _ _ _ _ I) (in_indexing _ _ _ _ _ _ _ I) p (gs p) Hp (in_informed _ _ _ _ _ _ _ I p Hp)). }
  assert (NDu : NoDup us) by (apply sorted_nodup, sortedUnknowns_sorted, (in_distinct _ _ _ _ _ _ _ I)).
  destruct (left_element n m VM p f e He) as (Hin & _ & _).
  set (ds := dofs_on m us faceNodes edgeNodes nodeIndex f e).
  assert (Hds : forall d, In d ds <-> is_dof m (included m unknowns) d /\ on_face m faceNodes edgeNodes f e (d_kind d) (d_id d)).
  { intros d. unfold ds. rewrite (dofs_on_iff n m us p Hp faceNodes edgeNodes nodeIndex nodes f e VT). unfold us. rewrite sortedUnknowns_in. split.
    - intros (Ho & Hu & Hi). split; [|exact Ho]. split; [|split; assumption]. apply (object_of_mesh m n VM e _ _ Hin).
      apply (objects_on_element n m VM p Hp faceNodes edgeNodes nodeIndex nodes f e VT He). apply (objects_on_iff n m p Hp faceNodes edgeNodes nodeIndex nodes f e VT), Ho.
    - intros ((_ & Hu & Hi) & Ho). auto. }
  assert (NDd : NoDup ds) by (apply (dofs_on_nodup n m us VM p NDu faceNodes edgeNodes nodeIndex nodes f e VT He)).
  exists ds, (map ix ds). split; [|split; [|split; [exact NDd|split; [|exact Hds]]]].
  - apply (boundary_ok n m (included m unknowns) us r gs total _ ix VM IM p Hp EU faceNodes edgeNodes nodeIndex nodes f e VT He).
  - assert (Hd : forall d, In d ds -> numbered m r d (ix d)) by (intros d H; apply (im_numbered _ _ _ _ _ _ _ _ _ IM); [apply Hds, H|reflexivity]).
    clear -Hd. clearbody ds. induction ds as [|d l IH]; [constructor|]. cbn. constructor; [apply Hd; left; reflexivity|]. apply IH. intros d' H. apply Hd. right. exact H.
  - assert (Hd : forall d d', In d ds -> In d' ds -> ix d = ix d' -> d = d') by (intros d d' H H'; apply (im_inj _ _ _ _ _ _ _ _ _ IM); apply Hds; assumption).
    clear -Hd NDd. clearbody ds. induction NDd as [|d l Hn Hl IH]; [constructor|]. cbn. constructor.
    + intros H. apply in_map_iff in H. destruct H as (d' & E & H'). apply Hd in E; [|right; exact H'|left; reflexivity]. subst d'. contradiction.
    + apply IH. intros x y Hx Hy. apply Hd; right; assumption.
Qed.
