From Coq Require Import List Arith Bool Lia Sorted.
From Verif Require Import Loop_model Loop_proofs StdMap_model StdMap_proofs PreMesh_model PreShapes_model PreMesh_spec PreMesh_proofs.
Import ListNotations.

(** ** The shapes *)
Record shape_ok (dim : nat) (s : shape) : Prop := {
  so_dim : length s = dim;
  so_nodes : exists n, nth_error s 0 = Some (generateVertices n);
  so_parts : forall d ps, 1 <= d -> nth_error s d = Some ps -> ps <> [] /\
    (forall i p, nth_error ps i = Some p -> p <> [] /\ NoDup p /\ forall k n, In k p -> nth_error s 0 = Some (generateVertices n) -> k < n) /\
    forall i j p q, nth_error ps i = Some p -> nth_error ps j = Some q -> (forall k, In k p <-> In k q) -> i = j }.

Fixpoint nodupb (l : list nat) : bool := match l with [] => true | x :: r => negb (mem x r) && nodupb r end.
Definition sameb (p q : list nat) : bool := forallb (fun k => mem k q) p && forallb (fun k => mem k p) q.
Definition parts_okb (n : nat) (ps : list (list nat)) : bool :=
  negb (length ps =? 0) &&
  forallb (fun p => negb (length p =? 0) && nodupb p && forallb (fun k => k <? n) p) ps &&
  forallb (fun i => forallb (fun j => (i =? j) || negb (match nth_error ps i, nth_error ps j with Some p, Some q => sameb p q | _, _ => false end)) (seq 0 (length ps))) (seq 0 (length ps)).
Definition list_eqb (a b : list (list nat)) : bool := if list_eq_dec (list_eq_dec Nat.eq_dec) a b then true else false.
Definition shape_okb (dim : nat) (s : shape) : bool :=
  (length s =? dim) && match s with [] => false | v :: r => list_eqb v (generateVertices (length v)) && forallb (parts_okb (length v)) r end.

Lemma mem_in x l : mem x l = true <-> In x l.
Proof.
  unfold mem. rewrite existsb_exists. split; [intros (y & H & E); apply Nat.eqb_eq in E; congruence|]. intros H. exists x. split; [exact H|apply Nat.eqb_refl].
Qed.
Lemma nodupb_sound l : nodupb l = true -> NoDup l.
Proof.
  induction l as [|x l IH]; cbn [nodupb]; intros H; constructor; apply andb_true_iff in H as [H1 H2]; [|apply IH, H2].
  intros F. apply mem_in in F. rewrite F in H1. discriminate.
Qed.
Lemma sameb_spec p q : (forall k, In k p <-> In k q) -> sameb p q = true.
Proof. intros H. unfold sameb. apply andb_true_iff. split; apply forallb_forall; intros k Hk; apply mem_in, H, Hk. Qed.
Lemma vertices_length n : length (generateVertices n) = n. Proof. unfold generateVertices. rewrite map_length, seq_length. reflexivity. Qed.

Lemma shape_okb_sound dim s : shape_okb dim s = true -> shape_ok dim s.
Proof.
  unfold shape_okb. intros H. apply andb_true_iff in H as [H1 H2]. apply Nat.eqb_eq in H1. destruct s as [|v r]; [discriminate|]. apply andb_true_iff in H2 as [H2 H3].
  unfold list_eqb in H2. destruct (list_eq_dec _ v (generateVertices (length v))) as [E|]; [|discriminate]. constructor; [exact H1|exists (length v); cbn; congruence|].
  intros [|d] ps Hd Hps; [lia|]. cbn in Hps. rewrite forallb_forall in H3. specialize (H3 ps (nth_error_In _ _ Hps)). unfold parts_okb in H3.
  apply andb_true_iff in H3 as [H3 H5]. apply andb_true_iff in H3 as [H3 H4]. splits.
  - intros ->. discriminate.
  - intros i p Hp. rewrite forallb_forall in H4. specialize (H4 p (nth_error_In _ _ Hp)). apply andb_true_iff in H4 as [H4 H6]. apply andb_true_iff in H4 as [H4 H7]. splits.
    + intros ->. discriminate.
    + apply nodupb_sound, H7.
    + intros k n Hk Hn. cbn in Hn. injection Hn as Hn. rewrite forallb_forall in H6. specialize (H6 k Hk). apply Nat.ltb_lt in H6. rewrite Hn, vertices_length in H6. exact H6.
  - intros i j p q Hp Hq Hs. destruct (Nat.eq_dec i j) as [|N]; [assumption|]. exfalso. rewrite forallb_forall in H5.
    assert (Hi : i < length ps) by (apply nth_error_Some; congruence). assert (Hj : j < length ps) by (apply nth_error_Some; congruence).
    specialize (H5 i ltac:(apply in_seq; lia)). rewrite forallb_forall in H5. specialize (H5 j ltac:(apply in_seq; lia)).
    rewrite Hp, Hq, (sameb_spec _ _ Hs) in H5. apply Nat.eqb_neq in N. rewrite N in H5. discriminate.
Qed.
Lemma tables_ok dim s : In s (hpgemShapes dim) -> shape_ok dim s.
Proof.
  intros H. apply shape_okb_sound. assert (A : forallb (shape_okb dim) (hpgemShapes dim) = true).
  { do 4 (destruct dim as [|dim]; [vm_compute; reflexivity|]). reflexivity. }
  rewrite forallb_forall in A. apply A, H.
Qed.
Lemma find_geometry_ok dim n s : findGeometry dim n = Some s -> shape_ok dim s /\ nth_error s 0 = Some (generateVertices n).
Proof.
  intros H. apply find_some in H as [H1 H2]. pose proof (tables_ok dim s H1) as S. split; [exact S|]. destruct (so_nodes _ _ S) as (k & E).
  unfold getNumberOfEntities in H2. rewrite E in H2. cbn [option_map] in H2. apply Nat.eqb_eq in H2. rewrite vertices_length in H2. congruence.
Qed.
Lemma part_vertex s n k : nth_error s 0 = Some (generateVertices n) -> k < n -> part s 0 k = Some [k].
Proof.
  intros E Hk. unfold part. rewrite E. unfold generateVertices. erewrite map_nth_error; [reflexivity|]. 
  rewrite (nth_error_nth' _ 0) by (rewrite seq_length; exact Hk). rewrite seq_nth by exact Hk. reflexivity.
Qed.

Lemma filter_index {A} (f : A -> bool) l : forall st i, In i (map fst (filter (fun '(_, c) => f c) (combine (seq st (length l)) l))) <-> exists k c, i = st + k /\ nth_error l k = Some c /\ f c = true.
Proof.
  induction l as [|a l IH]; intros st i; cbn [length seq combine filter map].
  - split; [intros []|intros ([|k] & c & _ & E & _); discriminate].
  - assert (T : (exists k c, i = st + k /\ nth_error (a :: l) k = Some c /\ f c = true) <-> (i = st /\ f a = true) \/ exists k c, i = S st + k /\ nth_error l k = Some c /\ f c = true).
    { split.
      - intros ([|k] & c & A1 & A2 & A3); cbn in A2; [left; split; [lia|congruence]|right; exists k, c; splits; auto; lia].
      - intros [[-> A0]|(k & c & A1 & A2 & A3)]; [exists 0, a; splits; auto; lia|exists (S k), c; splits; auto; lia]. }
    rewrite T, <- IH. destruct (f a) eqn:E; cbn [map fst In]; split; intuition congruence.
Qed.
Lemma adjacent_to_node s n d ps k : 1 <= d -> nth_error s 0 = Some (generateVertices n) -> nth_error s d = Some ps -> k < n ->
  exists locals, getAdjacentEntities s 0 d k = Some locals /\ forall i, In i locals <-> exists p, nth_error ps i = Some p /\ In k p.
Proof.
  intros Hd E Ed Hk. unfold getAdjacentEntities. rewrite (part_vertex s n k E Hk). destruct d as [|d]; [lia|]. cbn [Nat.eqb]. rewrite Ed. eexists. split; [reflexivity|].
  intros i. change (S d <? 0) with false. cbn iota. rewrite (filter_index (fun c => forallb (fun n => mem n c) [k]) ps 0 i). cbn [forallb]. split.
  - intros (k' & c & -> & A & B). rewrite andb_true_r in B. apply mem_in in B. exists c. auto.
  - intros (p & A & B). exists i, p. splits; auto. rewrite andb_true_r. apply mem_in, B.
Qed.
Lemma nodes_of_part s d i : getAdjacentEntities s d 0 i = part s d i.
Proof. unfold getAdjacentEntities. destruct (part s d i); reflexivity. Qed.

(** ** The invariant while element [E] is added *)
Section Adding.
Variables (dim E : nat).

Record growing (m : mesh) (count : nat -> nat) : Prop := {
  g_consistent : consistent m;
  g_dim : length (meshEntities m) = dim;
  g_shape : forall el e, getElement m el = Some e -> shape_ok dim (referenceGeometry e);
  g_sized : forall el e d, getElement m el = Some e -> d < dim -> nth_error (incidenceLists e) d <> None;
  g_nodes : forall el e n l, getElement m el = Some e -> nth_error (referenceGeometry e) 0 = Some (generateVertices n) -> (part_of m 0 el l <> None <-> l < n);
  g_distinct : forall el l l' x, part_of m 0 el l = Some x -> part_of m 0 el l' = Some x -> l = l';
  g_parts : forall el e d ps l, getElement m el = Some e -> 1 <= d < dim -> nth_error (referenceGeometry e) d = Some ps ->
     (part_of m d el l <> None <-> l < (if el =? E then count d else length ps));
  g_sharing : forall d el l x el' l' x' ns ns', 1 <= d < dim -> part_of m d el l = Some x -> part_of m d el' l' = Some x' ->
     nodes_of m d el l ns -> nodes_of m d el' l' ns' -> (x = x' <-> same_nodes ns ns') }.

Definition fitting (m : mesh) : Prop := forall d i el l mine theirs, 1 <= d < dim -> el <> E ->
  nodes_of m d E i mine -> nodes_of m d el l theirs -> incl mine theirs -> incl theirs mine.

Lemma level_exists s d : shape_ok dim s -> d < dim -> exists ps, nth_error s d = Some ps.
Proof. intros S H. destruct (nth_error s d) eqn:F; [eauto|]. apply nth_error_None in F. rewrite (so_dim _ _ S) in F. lia. Qed.

Lemma slot_nodes m count d el l e locals : growing m count -> 1 <= d < dim -> getElement m el = Some e -> part (referenceGeometry e) d l = Some locals ->
  exists ns, Forall2 (fun k n => getIncidentEntityIndex e 0 k = Some n) locals ns /\ nodes_of m d el l ns /\ locals <> [].
Proof.
  intros G Hd Ee Ep. pose proof (g_shape _ _ G el e Ee) as S. destruct (so_nodes _ _ S) as (n & En).
  destruct (level_exists _ d S ltac:(lia)) as (ps & Eps). unfold part in Ep. rewrite Eps in Ep. destruct (so_parts _ _ S d ps ltac:(lia) Eps) as (_ & SP & _).
  destruct (SP l locals Ep) as (N & _ & B).
  assert (F : exists ns, Forall2 (fun k n => getIncidentEntityIndex e 0 k = Some n) locals ns).
  { clear N Ep. induction locals as [|k locals IH]; [exists []; constructor|]. destruct IH as (ns & F); [intros; eapply B; [right|]; eassumption|].
    assert (Q : part_of m 0 el k <> None) by (apply (g_nodes _ _ G el e n k Ee En); eapply B; [left; reflexivity|exact En]).
    rewrite part_of_get, Ee in Q. destruct (getIncidentEntityIndex e 0 k) as [x|] eqn:Ex; [|congruence]. exists (x :: ns). constructor; assumption. }
  destruct F as (ns & F). exists ns. splits; [exact F| |exact N]. exists (referenceGeometry e), locals. splits.
  - unfold shape_of. unfold getElement in Ee. rewrite Ee. reflexivity.
  - unfold part. rewrite Eps. exact Ep.
  - clear -F Ee. induction F; constructor; [|assumption]. rewrite part_of_get, Ee. assumption.
Qed.

Lemma local_index_ok en el l : In (el, l) en -> exists l', getLocalIndex en el = Some l' /\ In (el, l') en.
Proof.
  induction en as [|[x k] en IH]; intros H; [destruct H|]. cbn [getLocalIndex]. destruct (Nat.eqb_spec x el) as [->|N].
  - exists k. split; [reflexivity|left; reflexivity].
  - destruct H as [H|H]; [congruence|]. destruct (IH H) as (l' & A & B). exists l'. split; [exact A|right; exact B].
Qed.

Lemma each_lookup {A} (have : list A) locals : (forall l, In l locals -> l < length have) ->
  exists r, for_each locals (fun l acc => x <- nth_error have l; Some (acc ++ [x])) [] = Some r /\ forall x, In x r <-> exists l, In l locals /\ nth_error have l = Some x.
Proof.
  intros H. destruct (fe_map_ok (fun l => nth_error have l) locals) as (r & Er).
  { intros l Hl. apply nth_error_Some, H, Hl. }
  exists r. split; [exact Er|]. apply fe_map_gen in Er as (ys & -> & F). cbn [app]. clear H. intros x. induction F as [|l y locals ys E1 F IH]; cbn [In].
  - split; [intros []|intros (? & [] & _)].
  - rewrite IH. split.
    + intros [<-|(l' & A1 & A2)]; [exists l; auto|exists l'; auto].
    + intros (l' & [<-|A1] & A2); [left; congruence|right; exists l'; auto].
Qed.

Lemma incident_ok m count d el e n en k : growing m count -> 1 <= d < dim -> count d < length (match nth_error (match shape_of m E with Some s => s | None => [] end) d with Some ps => ps | None => [] end) \/ E <> el ->
  getElement m el = Some e -> links_of m 0 n = Some en -> In (el, k) en ->
  exists r, incidentToNode m d el en = Some r /\ forall x, In x r <-> el <> E /\ exists l ns, part_of m d el l = Some x /\ nodes_of m d el l ns /\ In n ns.
Proof.
  intros G Hd HC Ee En Hk. pose proof (g_shape _ _ G el e Ee) as S. destruct (so_nodes _ _ S) as (nv & Ev).
  destruct (level_exists _ d S ltac:(lia)) as (ps & Eps). unfold incidentToNode. rewrite Ee.
  destruct (nth_error (incidenceLists e) d) as [have|] eqn:Eh; [|exfalso; apply (g_sized _ _ G el e d Ee); [lia|exact Eh]].
  unfold getNumberOfEntities. rewrite Eps. cbn [option_map].
  assert (PL : forall l, part_of m d el l = nth_error have l) by (intros; rewrite part_of_get, Ee; unfold getIncidentEntityIndex; rewrite Eh; reflexivity).
  assert (HL : length have = if el =? E then count d else length ps).
  { assert (Q : forall l, l < length have <-> l < (if el =? E then count d else length ps)).
    { intros l. rewrite <- (g_parts _ _ G el e d ps l Ee Hd Eps), PL. symmetry. apply nth_error_Some. }
    pose proof (Q (length have)). pose proof (Q (if el =? E then count d else length ps)). lia. }
  destruct (Nat.eqb_spec el E) as [->|NE].
  - destruct HC as [HC|HC]; [|congruence]. unfold shape_of in HC. unfold getElement in Ee. rewrite Ee in HC. cbn [option_map] in HC. rewrite Eps in HC.
    replace (length have <? length ps) with true by (symmetry; apply Nat.ltb_lt; lia). exists []. split; [reflexivity|]. intros x. split; [intros []|intros [F _]; congruence].
  - replace (length have <? length ps) with false by (symmetry; apply Nat.ltb_ge; lia).
    destruct (local_index_ok en el k Hk) as (l0 & E0 & I0). rewrite E0.
    apply (c_links m (g_consistent _ _ G) 0 n en En) in I0.
    assert (Hl0 : l0 < nv) by (apply (g_nodes _ _ G el e nv l0 Ee Ev); congruence).
    destruct (adjacent_to_node (referenceGeometry e) nv d ps l0 ltac:(lia) Ev Eps Hl0) as (locals & Ea & Ha). rewrite Ea.
    destruct (each_lookup have locals) as (r & Er & Hr).
    { intros l Hl. apply Ha in Hl as (p & Hp & _). rewrite HL. apply nth_error_Some. congruence. }
    exists r. split; [exact Er|]. intros x. rewrite Hr. split.
    + intros (l & Hl & Hx). split; [exact NE|]. apply Ha in Hl as (p & Hp & Hin).
      destruct (slot_nodes m count d el l e p G Hd Ee) as (ns & F & NO & _); [unfold part; rewrite Eps; exact Hp|]. exists l, ns. splits; [rewrite PL; exact Hx|exact NO|].
      clear -F Hin I0 Ee. rewrite part_of_get, Ee in I0. induction F; [destruct Hin|]. destruct Hin as [->|Hin]; [left; congruence|right; auto].
    + intros (_ & l & ns & Hx & (s & locs & Es & Ep & F) & Hin). exists l. rewrite <- PL. split; [|exact Hx]. apply Ha. exists locs.
      unfold shape_of in Es. unfold getElement in Ee. rewrite Ee in Es. injection Es as <-. unfold part in Ep. rewrite Eps in Ep. split; [exact Ep|].
      assert (exists k', In k' locs /\ part_of m 0 el k' = Some n) as (k' & K1 & K2).
      { clear -F Hin. induction F; [destruct Hin|]. destruct Hin as [->|Hin]; [eexists; split; [left; reflexivity|assumption]|]. destruct (IHF Hin) as (k' & ? & ?). exists k'. split; [right; assumption|assumption]. }
      rewrite (g_distinct _ _ G el l0 k' n I0 K2). exact K1.
Qed.

Definition unfinished (m : mesh) (count : nat -> nat) (d : nat) : Prop :=
  exists s ps, shape_of m E = Some s /\ nth_error s d = Some ps /\ count d < length ps.

Lemma fold_sinsert new : forall acc x, In x (fold_left (fun s x => sinsert Nat.ltb x s) new acc) <-> In x new \/ In x acc.
Proof.
  induction new as [|a new IH]; intros acc x; cbn [fold_left]; [cbn; tauto|]. rewrite IH, (sinsert_in _ nat_strict_total). cbn [In]. intuition auto.
Qed.
Lemma fold_sinsert_sorted new : forall acc, ssorted Nat.ltb acc -> ssorted Nat.ltb (fold_left (fun s x => sinsert Nat.ltb x s) new acc).
Proof. induction new as [|a new IH]; intros acc H; cbn [fold_left]; [exact H|]. apply IH, (sinsert_sorted _ nat_strict_total), H. Qed.

Lemma entities_ok m count d n en : growing m count -> 1 <= d < dim -> unfinished m count d -> links_of m 0 n = Some en ->
  exists r, entitiesOfNode m d n = Some r /\ NoDup r /\ forall x, In x r <-> exists el l ns, el <> E /\ part_of m d el l = Some x /\ nodes_of m d el l ns /\ In n ns.
Proof.
  intros G Hd (s & ps & Es & Eps & HC) En. unfold entitiesOfNode. rewrite getEntity_links, En.
  assert (HI : forall el k, In (el, k) en -> exists e r, getElement m el = Some e /\ incidentToNode m d el en = Some r /\
     forall x, In x r <-> el <> E /\ exists l ns, part_of m d el l = Some x /\ nodes_of m d el l ns /\ In n ns).
  { intros el k Hk. pose proof Hk as Hp. apply (c_links m (g_consistent _ _ G) 0 n en En) in Hp. rewrite part_of_get in Hp. destruct (getElement m el) as [e|] eqn:Ee; [|discriminate].
    destruct (incident_ok m count d el e n en k G Hd) as (r & A & B); auto; [rewrite Es, Eps; auto|]. exists e, r. auto. }
  assert (G2 : forall l acc, incl l en -> ssorted Nat.ltb acc -> exists r, for_each l (fun '(elementID, _) acc => new <- incidentToNode m d elementID en; Some (fold_left (fun s x => sinsert Nat.ltb x s) new acc)) acc = Some r /\ ssorted Nat.ltb r /\
     forall x, In x r <-> In x acc \/ exists el k, In (el, k) l /\ el <> E /\ exists l ns, part_of m d el l = Some x /\ nodes_of m d el l ns /\ In n ns).
  { induction l as [|[el k] l IH]; intros acc I SA; cbn [for_each].
    - exists acc. splits; [reflexivity|exact SA|]. intros x. split; [auto|intros [?|(? & ? & [] & _)]; assumption].
    - destruct (HI el k) as (e & r0 & _ & E0 & H0); [apply I; left; reflexivity|]. rewrite E0.
      destruct (IH (fold_left (fun s x => sinsert Nat.ltb x s) r0 acc)) as (r & A & B & D); [intros y Hy; apply I; right; exact Hy|apply fold_sinsert_sorted, SA|].
      exists r. splits; [exact A|exact B|]. intros x. rewrite D, fold_sinsert, H0. split.
      + intros [[[Q1 Q2]|Q]|(el' & k' & Q1 & Q2)]; [right; exists el, k; split; [left; reflexivity|auto]|auto|right; exists el', k'; split; [right; exact Q1|exact Q2]].
      + intros [Q|(el' & k' & [Q|Q] & Q2)]; [auto|injection Q as <- <-; auto|right; exists el', k'; auto]. }
  destruct (G2 en [] (incl_refl _) ltac:(constructor)) as (r & A & B & D). exists r. splits; [exact A|exact (ssorted_nodup _ nat_strict_total _ B)|].
  intros x. rewrite D. cbn [In]. split.
  - intros [[]|(el & k & _ & N & l & ns & Q)]. exists el, l, ns. tauto.
  - intros (el & l & ns & N & Q1 & Q2 & Q3). right. destruct Q2 as (s' & locs & F1 & F2 & F).
    assert (exists k', part_of m 0 el k' = Some n) as (k' & K2).
    { clear -F Q3. induction F; [destruct Q3|]. destruct Q3 as [->|Q3]; [eexists; eassumption|auto]. }
    exists el, k'. splits; [apply (c_links m (g_consistent _ _ G) 0 n en En), K2|exact N|]. exists l, ns. splits; [exact Q1|exists s', locs; auto|exact Q3].
Qed.

Lemma candidates_ok m count d : growing m count -> 1 <= d < dim -> unfinished m count d -> forall others cs,
  (forall n, In n others -> links_of m 0 n <> None) -> NoDup cs ->
  exists r, for_each others (fun n cs => new <- entitiesOfNode m d n; Some (filter (fun c => mem c new) cs)) cs = Some r /\ NoDup r /\
    forall x, In x r <-> In x cs /\ forall n, In n others -> exists el l ns, el <> E /\ part_of m d el l = Some x /\ nodes_of m d el l ns /\ In n ns.
Proof.
  intros G Hd U. induction others as [|n others IH]; intros cs HL ND; cbn [for_each].
  - exists cs. splits; [reflexivity|exact ND|]. intros x. split; [intros; split; [assumption|intros ? []]|tauto].
  - destruct (links_of m 0 n) as [en|] eqn:En; [|exfalso; apply (HL n); [left; reflexivity|exact En]].
    destruct (entities_ok m count d n en G Hd U En) as (new & E1 & _ & H1). rewrite E1.
    destruct (IH (filter (fun c => mem c new) cs)) as (r & A & B & D); [intros; apply HL; right; assumption|apply NoDup_filter, ND|].
    exists r. splits; [exact A|exact B|]. intros x. rewrite D, filter_In, mem_in, H1. split.
    + intros [[Q1 Q2] Q3]. split; [exact Q1|]. intros k [<-|Hk]; [exact Q2|apply Q3, Hk].
    + intros [Q1 Q2]. splits; [exact Q1|apply Q2; left; reflexivity|]. intros k Hk. apply Q2. right. exact Hk.
Qed.
Lemma addEntity_ok m d el e old x : getElement m el = Some e -> nth_error (incidenceLists e) d = Some old -> links_of m d x <> None -> exists m', addEntity m d el x = Some m'.
Proof.
  intros Ee Eo Hx. unfold addEntity. rewrite Ee, Eo. destruct (push_incidence_ok e d x old Eo) as (e' & ->).
  assert (Hel : el < length (elementsList m)) by (apply nth_error_Some; unfold getElement in Ee; congruence).
  destruct (put_element_ok m el e' Hel) as (m1 & E1). rewrite E1. apply put_element_spec in E1 as (_ & P2 & _).
  assert (LK : links_of m1 d x = links_of m d x) by (unfold links_of; rewrite P2; reflexivity).
  rewrite getEntity_links, LK. destruct (links_of m d x) as [en|] eqn:El; [|congruence]. apply put_entity_ok. rewrite LK. discriminate.
Qed.
Lemma fun_forall2 {A B} (f : A -> option B) xs : forall ys ys', Forall2 (fun x y => f x = Some y) xs ys -> Forall2 (fun x y => f x = Some y) xs ys' -> ys = ys'.
Proof. intros ys ys' F; revert ys'. induction F; intros ys' F'; inversion F'; subst; [reflexivity|]. f_equal; [congruence|auto]. Qed.
Lemma nodes_of_fun m d el l ns ns' : nodes_of m d el l ns -> nodes_of m d el l ns' -> ns = ns'.
Proof. intros (s & n & A & B & F) (s' & n' & A' & B' & F'). assert (s' = s) by congruence. subst. assert (n' = n) by congruence. subst. eapply fun_forall2; eassumption. Qed.
Lemma nodes_of_same m m' : (forall el l, part_of m' 0 el l = part_of m 0 el l) -> (forall el, shape_of m' el = shape_of m el) -> forall d el l ns, nodes_of m' d el l ns <-> nodes_of m d el l ns.
Proof.
  assert (Q : forall m m', (forall el l, part_of m' 0 el l = part_of m 0 el l) -> (forall el, shape_of m' el = shape_of m el) -> forall d el l ns, nodes_of m' d el l ns -> nodes_of m d el l ns).
  { clear. intros m m' HP HS d el l ns (s & n & A & B & F). exists s, n. rewrite <- HS. splits; auto. clear -F HP. induction F; constructor; [rewrite <- HP; assumption|assumption]. }
  intros HP HS d el l ns. split; apply Q; auto.
Qed.
Lemma in_forall2_l {A B} (R : A -> B -> Prop) xs ys x : Forall2 R xs ys -> In x xs -> exists y, In y ys /\ R x y.
Proof. induction 1; intros []; [subst; eexists; split; [left; reflexivity|assumption]|]. destruct IHForall2 as (z & ? & ?); [assumption|]. exists z. split; [right; assumption|assumption]. Qed.
Lemma in_forall2_r {A B} (R : A -> B -> Prop) xs ys y : Forall2 R xs ys -> In y ys -> exists x, In x xs /\ R x y.
Proof. induction 1; intros []; [subst; eexists; split; [left; reflexivity|assumption]|]. destruct IHForall2 as (z & ? & ?); [assumption|]. exists z. split; [right; assumption|assumption]. Qed.
Lemma same_nodes_sym a b : same_nodes a b -> same_nodes b a. Proof. intros H n. symmetry. apply H. Qed.
Lemma same_nodes_trans a b c : same_nodes a b -> same_nodes b c -> same_nodes a c. Proof. intros H K n. rewrite (H n). apply K. Qed.

Lemma each_forall2 {A B} (f : A -> option B) xs ys : Forall2 (fun x y => f x = Some y) xs ys -> forall acc, for_each xs (fun x acc => y <- f x; Some (acc ++ [y])) acc = Some (acc ++ ys).
Proof. induction 1 as [|x y xs ys E0 F IH]; intros acc; cbn; [rewrite app_nil_r; reflexivity|]. rewrite E0, IH, <- app_assoc. reflexivity. Qed.

(** different parts of an element have different nodes *)
Lemma own_parts m count d el e l l' ns ns' : growing m count -> 1 <= d < dim -> getElement m el = Some e ->
  nodes_of m d el l ns -> nodes_of m d el l' ns' -> same_nodes ns ns' -> l = l'.
Proof.
  intros G Hd Ee (s & p & Es & Ep & F) (s' & q & Es' & Eq & F') SN. assert (s' = s) by congruence. subst s'. unfold shape_of in Es. unfold getElement in Ee. rewrite Ee in Es. injection Es as <-.
  pose proof (g_shape _ _ G el e Ee) as S. destruct (level_exists _ d S ltac:(lia)) as (ps & Eps). unfold part in Ep, Eq. rewrite Eps in Ep, Eq.
  apply (proj2 (proj2 (so_parts _ _ S d ps ltac:(lia) Eps)) l l' p q Ep Eq).
  assert (Q : forall p q ns ns', Forall2 (fun k n => part_of m 0 el k = Some n) p ns -> Forall2 (fun k n => part_of m 0 el k = Some n) q ns' -> same_nodes ns ns' -> forall k, In k p -> In k q).
  { clear -G. intros p q ns ns' F F' SN k Hk. destruct (in_forall2_l _ _ _ _ F Hk) as (n & Hn & E1). apply SN in Hn. destruct (in_forall2_r _ _ _ _ F' Hn) as (k' & Hk' & E2).
    rewrite (g_distinct _ _ G el k k' n E1 E2). exact Hk'. }
  intros k. split; [eapply Q; eassumption|eapply Q; [eassumption..|apply same_nodes_sym, SN]].
Qed.

Definition bump (count : nat -> nat) (d : nat) : nat -> nat := fun d' => if d' =? d then S (count d) else count d'.

Record same_but (d : nat) (m m' : mesh) : Prop := {
  sb_parts : forall d' el l, el <> E \/ d' <> d -> part_of m' d' el l = part_of m d' el l;
  sb_own : forall l x, part_of m d E l = Some x -> part_of m' d E l = Some x;
  sb_coord : forall el l, coord_of m' el l = coord_of m el l;
  sb_shape : forall el, shape_of m' el = shape_of m el;
  sb_elements : length (elementsList m') = length (elementsList m);
  sb_coords : coordinates m' = coordinates m;
  sb_exist : forall n, links_of m 0 n <> None -> links_of m' 0 n <> None }.
Lemma same_but_refl d m : same_but d m m. Proof. constructor; auto. Qed.
Lemma same_but_trans d m m1 m2 : same_but d m m1 -> same_but d m1 m2 -> same_but d m m2.
Proof. intros [] []. constructor; intros; try congruence; eauto. rewrite sb_parts1, sb_parts0; auto. Qed.

Lemma fixEntity_grows m count d : growing m count -> 1 <= d < dim -> unfinished m count d -> fitting m ->
  exists m', fixEntity m d E (count d) = Some m' /\ growing m' (bump count d) /\ fitting m' /\ same_but d m m'.
Proof.
  intros G Hd U FT. pose proof U as (s & ps & Es & Eps & HC). unfold shape_of in Es. destruct (nth_error (elementsList m) E) as [e|] eqn:Ee0; [|discriminate]. injection Es as <-.
  assert (Ee : getElement m E = Some e) by exact Ee0. pose proof (g_shape _ _ G E e Ee) as S.
  destruct (nth_error ps (count d)) as [locals|] eqn:El; [|apply nth_error_None in El; lia].
  assert (Ep : part (referenceGeometry e) d (count d) = Some locals) by (unfold part; rewrite Eps; exact El).
  destruct (slot_nodes m count d E (count d) e locals G Hd Ee Ep) as (ns & F & NO & NE).
  assert (HX : forall n, In n ns -> links_of m 0 n <> None).
  { intros n Hn. destruct (in_forall2_r _ _ _ _ F Hn) as (k & _ & Ek). destruct (c_exists m (g_consistent _ _ G) 0 E k n) as (en & ->); [rewrite part_of_get, Ee; exact Ek|discriminate]. }
  assert (R : exists r, (match ns with [] => None | first :: others => candidates <- entitiesOfNode m d first; for_each others (fun n cs => new <- entitiesOfNode m d n; Some (filter (fun c => mem c new) cs)) candidates end) = Some r /\ NoDup r /\
     forall x, In x r <-> exists el l ns', el <> E /\ part_of m d el l = Some x /\ nodes_of m d el l ns' /\ same_nodes ns ns').
  { assert (F0 : forall x, (forall n, In n ns -> exists el l ns', el <> E /\ part_of m d el l = Some x /\ nodes_of m d el l ns' /\ In n ns') <->
                            exists el l ns', el <> E /\ part_of m d el l = Some x /\ nodes_of m d el l ns' /\ same_nodes ns ns').
    { intros x. split.
      - intros H. destruct ns as [|n0 ns0]; [inversion F; subst; congruence|]. destruct (H n0 (or_introl eq_refl)) as (el & l & ns' & A1 & A2 & A3 & A4). exists el, l, ns'. splits; auto.
        assert (I1 : incl (n0 :: ns0) ns').
        { intros n Hn. destruct (H n Hn) as (el2 & l2 & ns2 & B1 & B2 & B3 & B4). apply (proj1 (g_sharing _ _ G d el2 l2 x el l x ns2 ns' Hd B2 A2 B3 A3) eq_refl). exact B4. }
        pose proof (FT d (count d) el l _ ns' Hd A1 NO A3 I1) as I2. intros n. split; [apply I1|apply I2].
      - intros (el & l & ns' & A1 & A2 & A3 & A4) n Hn. exists el, l, ns'. splits; auto. apply A4, Hn. }
    destruct ns as [|n0 ns0]; [inversion F; subst; congruence|]. destruct (links_of m 0 n0) as [en|] eqn:En; [|exfalso; apply (HX n0); [left; reflexivity|exact En]].
    destruct (entities_ok m count d n0 en G Hd U En) as (c0 & E0 & N0 & H0). rewrite E0.
    destruct (candidates_ok m count d G Hd U ns0 c0) as (r & E1 & N1 & H1); [intros; apply HX; right; assumption|exact N0|]. exists r. splits; [exact E1|exact N1|].
    intros x. rewrite <- F0, H1, H0. split.
    - intros [Q1 Q2] n [<-|Hn]; [exact Q1|apply Q2, Hn].
    - intros Q. split; [apply Q; left; reflexivity|]. intros n Hn. apply Q. right. exact Hn. }
  destruct R as (r & Er & Nr & Hr).
  destruct (nth_error (incidenceLists e) d) as [old|] eqn:Eo; [|exfalso; apply (g_sized _ _ G E e d Ee); [lia|exact Eo]].
  assert (HO : length old = count d).
  { assert (Q : forall l, l < length old <-> l < count d).
    { intros l. pose proof (g_parts _ _ G E e d ps l Ee Hd Eps) as GP. rewrite Nat.eqb_refl in GP. rewrite <- GP, part_of_get, Ee. unfold getIncidentEntityIndex. rewrite Eo. symmetry. apply nth_error_Some. }
    pose proof (Q (length old)). pose proof (Q (count d)). lia. }
  (* the entity *)
  assert (K : exists m1 x, (match r with [] => newEntity m d | [c] => Some (m, c) | _ => None end) = Some (m1, x) /\ links_of m1 d x <> None /\
     elementsList m1 = elementsList m /\ coordinates m1 = coordinates m /\ (forall n, links_of m 0 n <> None -> links_of m1 0 n <> None) /\ length (meshEntities m1) = length (meshEntities m) /\
     forall el l x' ns', part_of m d el l = Some x' -> nodes_of m d el l ns' -> (x = x' <-> same_nodes ns ns')).
  { destruct r as [|c [|c2 r]].
    - destruct (newEntity_ok m d) as (m1 & x & E1); [rewrite (g_dim _ _ G); lia|]. exists m1, x. pose proof E1 as E2. apply newEntity_spec in E1 as (A1 & A2 & A3 & A4 & A5). splits; auto.
      + rewrite A5, !Nat.eqb_refl. discriminate.
      + intros n Hn. rewrite A5. destruct ((0 =? d) && (n =? x)); [discriminate|exact Hn].
      + intros el l x' ns' Hx' Hns'. split.
        * intros <-. exfalso. destruct (c_exists m (g_consistent _ _ G) d el l x Hx') as (en & Hen). congruence.
        * intros SN. exfalso. destruct (Nat.eq_dec el E) as [->|Nel].
          -- rewrite (own_parts m count d E e _ _ _ _ G Hd Ee NO Hns' SN) in HO. rewrite part_of_get, Ee in Hx'. unfold getIncidentEntityIndex in Hx'. rewrite Eo in Hx'.
             assert (l < length old) by (apply nth_error_Some; congruence). lia.
          -- apply (proj2 (Hr x')). exists el, l, ns'. auto.
    - exists m, c. destruct (proj1 (Hr c) (or_introl eq_refl)) as (el & l & ns2 & A1 & A2 & A3 & A4). splits; auto.
      + destruct (c_exists m (g_consistent _ _ G) d el l c A2) as (en & ->). discriminate.
      + intros el' l' x' ns' Hx' Hns'. rewrite (g_sharing _ _ G d el l c el' l' x' ns2 ns' Hd A2 Hx' A3 Hns'). split; intros Q.
        * eapply same_nodes_trans; [exact A4|exact Q].
        * eapply same_nodes_trans; [apply same_nodes_sym, A4|exact Q].
    - exfalso. destruct (proj1 (Hr c) (or_introl eq_refl)) as (el & l & ns2 & A1 & A2 & A3 & A4). destruct (proj1 (Hr c2) (or_intror (or_introl eq_refl))) as (el' & l' & ns3 & B1 & B2 & B3 & B4).
      inversion Nr; subst. apply H1. left. symmetry. apply (g_sharing _ _ G d el l c el' l' c2 ns2 ns3 Hd A2 B2 A3 B3). eapply same_nodes_trans; [apply same_nodes_sym, A4|exact B4]. }
  destruct K as (m1 & x & EK & Hx & K1 & K2 & K3 & K4 & K5).
  assert (Ee1 : getElement m1 E = Some e) by (unfold getElement; rewrite K1; exact Ee).
  destruct (addEntity_ok m1 d E e old x Ee1 Eo Hx) as (m' & EA). exists m'.
  assert (FE : fixEntity m d E (count d) = Some m').
  { unfold fixEntity. rewrite Ee, nodes_of_part, Ep, (each_forall2 (getIncidentEntityIndex e 0) _ _ F). cbn [app].
    destruct ns as [|first others]; [inversion F; subst; congruence|]. destruct (entitiesOfNode m d first) as [c0|]; [|discriminate]. rewrite Er, EK. exact EA. }
  split; [exact FE|].
  pose proof (fixEntity_consistent m d E (count d) m' ltac:(lia) (g_consistent _ _ G) FE) as C'.
  pose proof EA as ES. apply addEntity_spec in ES as (e1 & old1 & en1 & e2 & Z1 & Z2 & Z3 & Z4 & Z5 & Z6 & Z7 & Z8 & Z9). assert (e1 = e) by congruence. subst e1. assert (old1 = old) by congruence. subst old1.
  apply push_incidence_spec in Z4 as (Y1 & Y2 & Y3 & oldy & Y4 & Y5 & Y6). assert (oldy = old) by congruence. subst oldy.
  apply addEntity_part in EA as (old' & en & B1 & B2 & B3 & B4 & B5 & B6 & B7 & B8). rewrite Ee1, Eo in B1. injection B1 as <-. rewrite HO in *.
  assert (P1 : forall d' el l, part_of m1 d' el l = part_of m d' el l) by (intros; unfold part_of; rewrite K1; reflexivity).
  assert (S1 : forall el, shape_of m1 el = shape_of m el) by (intros; unfold shape_of; rewrite K1; reflexivity).
  assert (C1 : forall el l, coord_of m1 el l = coord_of m el l) by (intros; unfold coord_of; rewrite K1; reflexivity).
  assert (PN : forall d' el l, part_of m' d' el l = if same_slot d E (count d) d' el l then Some x else part_of m d' el l) by (intros; rewrite B4, P1; reflexivity).
  assert (P0 : forall el l, part_of m' 0 el l = part_of m 0 el l) by (intros; rewrite PN; destruct (same_slot_spec d E (count d) 0 el l) as [Q|]; [injection Q; lia|reflexivity]).
  assert (SH : forall el, shape_of m' el = shape_of m el) by (intros; rewrite B7, S1; reflexivity).
  assert (NS : forall d el l ns, nodes_of m' d el l ns <-> nodes_of m d el l ns) by (apply nodes_of_same; assumption).
  assert (EL : forall el e', getElement m' el = Some e' -> exists e0, getElement m el = Some e0 /\ referenceGeometry e' = referenceGeometry e0 /\ length (incidenceLists e') = length (incidenceLists e0)).
  { intros el e' He'. rewrite Z5 in He'. destruct (Nat.eqb_spec el E) as [->|]; [injection He' as <-; exists e; auto|]. exists e'. unfold getElement in *. rewrite K1 in He'. auto. }
  splits.
  - constructor.
    + exact C'.
    + rewrite Z8, K4. apply (g_dim _ _ G).
    + intros el e' He'. destruct (EL el e' He') as (e0 & A1 & A2 & _). rewrite A2. apply (g_shape _ _ G el e0 A1).
    + intros el e' d' He' Hd'. destruct (EL el e' He') as (e0 & A1 & _ & A3). apply nth_error_Some. rewrite A3. apply nth_error_Some. apply (g_sized _ _ G el e0 d' A1 Hd').
    + intros el e' n l He' Hn. destruct (EL el e' He') as (e0 & A1 & A2 & _). rewrite P0. rewrite A2 in Hn. apply (g_nodes _ _ G el e0 n l A1 Hn).
    + intros el l l' y. rewrite !P0. apply (g_distinct _ _ G).
    + intros el e' d' ps' l He' Hd' Hps'. destruct (EL el e' He') as (e0 & A1 & A2 & _). rewrite A2 in Hps'. rewrite PN. pose proof (g_parts _ _ G el e0 d' ps' l A1 Hd' Hps') as GP.
      unfold bump. destruct (same_slot_spec d E (count d) d' el l) as [Q|Q].
      * injection Q as -> -> ->. rewrite !Nat.eqb_refl. split; [lia|discriminate].
      * rewrite GP. destruct (Nat.eqb_spec el E) as [->|]; [|tauto]. destruct (Nat.eqb_spec d' d) as [->|]; [|tauto]. assert (l <> count d) by congruence. lia.
    + intros d' el l y el' l' y' nl nl' Hd' Hy Hy' Hn Hn'. apply NS in Hn, Hn'. rewrite PN in Hy, Hy'.
      destruct (same_slot_spec d E (count d) d' el l) as [Q|Q].
      * injection Q as -> -> ->. injection Hy as <-. pose proof (nodes_of_fun _ _ _ _ _ _ Hn NO). subst nl.
        destruct (same_slot_spec d E (count d) d el' l') as [Q'|Q'].
        -- injection Q' as -> ->. injection Hy' as <-. pose proof (nodes_of_fun _ _ _ _ _ _ Hn' NO). subst nl'. split; [intros _ ?; tauto|reflexivity].
        -- eapply K5; eassumption.
      * destruct (same_slot_spec d E (count d) d' el' l') as [Q'|Q'].
        -- injection Q' as -> -> ->. injection Hy' as <-. pose proof (nodes_of_fun _ _ _ _ _ _ Hn' NO). subst nl'.
           pose proof (K5 el l y nl Hy Hn) as KK. split; [intros ->; apply same_nodes_sym, KK; reflexivity|]. intros SN. symmetry. apply KK, same_nodes_sym, SN.
        -- eapply (g_sharing _ _ G d'); eassumption.
  - intros d' i el l mine theirs Hd' Hel Hm Ht. apply NS in Hm, Ht. eapply FT; eassumption.
  - constructor.
    + intros d' el l Q. rewrite PN. destruct (same_slot_spec d E (count d) d' el l) as [Q'|]; [|reflexivity]. injection Q' as -> -> ->. tauto.
    + intros l y Hy. rewrite PN. destruct (same_slot_spec d E (count d) d E l) as [Q'|]; [|exact Hy]. injection Q' as ->. rewrite <- P1 in Hy. congruence.
    + intros. rewrite B6. apply C1.
    + exact SH.
    + rewrite Z7, K1. reflexivity.
    + congruence.
    + intros n Hn. rewrite Z9. destruct ((0 =? d) && (n =? x)); [discriminate|]. apply K3, Hn.
Qed.

(** one level, then all levels *)
Lemma level_grows d ps s : 1 <= d < dim -> nth_error s d = Some ps -> forall n m count, growing m count -> fitting m -> shape_of m E = Some s ->
  count d + n = length ps -> exists m' count', for_from (count d) n (fun i m => fixEntity m d E i) m = Some m' /\ growing m' count' /\ fitting m' /\ same_but d m m' /\
    count' d = length ps /\ forall d', d' <> d -> count' d' = count d'.
Proof.
  intros Hd Eps. induction n as [|n IH]; intros m count G FT Es HC; cbn [for_from].
  - exists m, count. splits; auto; [apply same_but_refl|lia].
  - destruct (fixEntity_grows m count d G Hd) as (m1 & E1 & G1 & F1 & B1); [exists s, ps; splits; auto; lia|exact FT|]. rewrite E1.
    assert (Q : bump count d d = S (count d)) by (unfold bump; rewrite Nat.eqb_refl; reflexivity).
    destruct (IH m1 (bump count d) G1 F1) as (m' & count' & A1 & A2 & A3 & A4 & A5 & A6); [rewrite (sb_shape _ _ _ B1); exact Es|lia|]. rewrite Q in A1.
    exists m', count'. splits; auto; [eapply same_but_trans; eassumption|]. intros d' N. rewrite A6 by exact N. unfold bump. apply Nat.eqb_neq in N. rewrite N. reflexivity.
Qed.

Record same_others (m m' : mesh) : Prop := {
  so_others : forall d' el l, el <> E \/ d' = 0 -> part_of m' d' el l = part_of m d' el l;
  so_coord : forall el l, coord_of m' el l = coord_of m el l;
  so_shape : forall el, shape_of m' el = shape_of m el;
  so_elements : length (elementsList m') = length (elementsList m);
  so_coords : coordinates m' = coordinates m;
  so_exist : forall n, links_of m 0 n <> None -> links_of m' 0 n <> None }.

Lemma element_grows s : forall d m count, d < dim -> growing m count -> fitting m -> shape_of m E = Some s -> (forall d', 1 <= d' <= d -> count d' = 0) ->
  exists m' count', fixElement m E d = Some m' /\ growing m' count' /\ same_others m m' /\
    (forall d' ps, 1 <= d' <= d -> nth_error s d' = Some ps -> count' d' = length ps) /\ forall d', d < d' -> count' d' = count d'.
Proof.
  induction d as [|d IH]; intros m count Hd G FT Es HC; cbn [fixElement].
  - exists m, count. splits; auto; [constructor; auto|]. intros; lia.
  - unfold shape_of in Es. destruct (nth_error (elementsList m) E) as [e|] eqn:Ee0; [|discriminate]. injection Es as <-. assert (Ee : getElement m E = Some e) by exact Ee0. rewrite Ee.
    pose proof (g_shape _ _ G E e Ee) as S. destruct (level_exists _ (Datatypes.S d) S Hd) as (ps & Eps).
    destruct (nth_error (incidenceLists e) (Datatypes.S d)) as [have|] eqn:Eh; [|exfalso; apply (g_sized _ _ G E e (Datatypes.S d) Ee Hd Eh)].
    unfold getNumberOfEntities. rewrite Eps. cbn [option_map].
    assert (HZ : count (Datatypes.S d) = 0) by (apply HC; lia).
    assert (HL : length have = 0).
    { pose proof (g_parts _ _ G E e (Datatypes.S d) ps 0 Ee ltac:(lia) Eps) as GP. rewrite Nat.eqb_refl, HZ in GP. destruct have; [reflexivity|]. exfalso.
      assert (0 < 0); [|lia]. apply GP. rewrite part_of_get, Ee. unfold getIncidentEntityIndex. rewrite Eh. discriminate. }
    rewrite HL, Nat.sub_0_r.
    assert (Es : shape_of m E = Some (referenceGeometry e)) by (unfold shape_of; rewrite Ee0; reflexivity).
    destruct (level_grows (Datatypes.S d) ps (referenceGeometry e) ltac:(lia) Eps (length ps) m count G FT Es ltac:(lia)) as (m1 & c1 & A1 & A2 & A3 & A4 & A5 & A6).
    rewrite HZ in A1. rewrite A1.
    destruct (IH m1 c1 ltac:(lia) A2 A3) as (m' & c' & B1 & B2 & B3 & B4 & B5).
    { rewrite (sb_shape _ _ _ A4). exact Es. }
    { intros d' Hd'. rewrite A6 by lia. apply HC. lia. }
    exists m', c'. splits; auto.
    + destruct A4, B3. constructor; try congruence; [|auto]. intros d' el l Q. rewrite so_others0 by exact Q. apply sb_parts0. destruct Q as [Q| ->]; [auto|right; lia].
    + intros d' ps' Hd' Hps'. destruct (Nat.eq_dec d' (Datatypes.S d)) as [->|]; [rewrite B5 by lia; congruence|]. apply (B4 d' ps'); [lia|exact Hps'].
    + intros d' Hd'. rewrite B5, A6 by lia. reflexivity.
Qed.
End Adding.

(** ** Adding elements *)
Definition complete (dim : nat) (m : mesh) : Prop := growing dim (length (elementsList m)) m (fun _ => 0).

Lemma add_nodes_ok m0 : forall coords ns m e old, elementsList m = elementsList m0 ->
  Forall2 (fun c n => nth_error (coordinates m) c = Some (Some n) /\ links_of m 0 n <> None) coords ns ->
  consistent (with_element m e) -> length (globalCoordinateIndices e) = length (nth 0 (incidenceLists e) []) -> nth_error (incidenceLists e) 0 = Some old ->
  exists m' e', for_each coords (addNodeStep (length (elementsList m0))) (m, e) = Some (m', e') /\ consistent (with_element m' e') /\
    elementsList m' = elementsList m0 /\ coordinates m' = coordinates m /\ length (meshEntities m') = length (meshEntities m) /\
    globalCoordinateIndices e' = globalCoordinateIndices e ++ coords /\ referenceGeometry e' = referenceGeometry e /\
    (forall d', nth_error (incidenceLists e') d' = if d' =? 0 then Some (old ++ ns) else nth_error (incidenceLists e) d') /\
    (forall d y, links_of m' d y = None <-> links_of m d y = None).
Proof.
  induction coords as [|c coords IH]; intros ns m e old EL F C HL Ho; inversion F; subst; cbn [for_each].
  - exists m, e. rewrite !app_nil_r. splits; auto; try tauto. intros d'. destruct (Nat.eqb_spec d' 0) as [->|]; [exact Ho|reflexivity].
  - destruct H1 as [H1 H2]. rename y into n.
    assert (T : exists m1 e1, addNodeStep (length (elementsList m)) c (m, e) = Some (m1, e1)).
    { unfold addNodeStep, nodeIndex. rewrite H1, Ho. set (e0 := Elt (referenceGeometry e) (incidenceLists e) (globalCoordinateIndices e ++ [c])).
      destruct (push_incidence_ok e0 0 n old Ho) as (e1 & ->). rewrite getEntity_links. destruct (links_of m 0 n) as [en|] eqn:En; [|congruence].
      destruct (put_entity_ok m 0 n (addElementLink en (length (elementsList m)) (length old))) as (m1 & ->); [congruence|]. eauto. }
    destruct T as (m1 & e1 & ET). rewrite <- EL, ET. apply addNodeStep_spec in ET; [|exact HL|exact C].
    destruct ET as (A1 & A2 & A3 & A4 & A5 & A6 & A7 & n' & old' & A8 & A9 & A10 & A11 & _). unfold nodeIndex in A8. rewrite H1 in A8. injection A8 as <-. assert (old' = old) by congruence. subst old'.
    destruct (IH l' m1 e1 (old ++ [n])) as (m' & e' & B1 & B2 & B3 & B4 & B5 & B6 & B7 & B8 & B9).
    { congruence. }
    { rewrite A3. clear -H3 A11. induction H3 as [|? ? ? ? [? ?]]; constructor; [split; [assumption|]|assumption]. rewrite A11. assumption. }
    { exact A1. } { exact A7. } { apply A10. }
    rewrite EL. exists m', e'. splits; auto; try congruence.
    + rewrite B6, A5, <- app_assoc. reflexivity.
    + intros d'. rewrite B8. destruct (Nat.eqb_spec d' 0) as [->|N]; [rewrite <- app_assoc; reflexivity|]. rewrite A10. apply Nat.eqb_neq in N. rewrite N. reflexivity.
    + intros d y. rewrite B9. apply A11.
Qed.

Lemma with_element_part m e d el l : el <> length (elementsList m) -> part_of (with_element m e) d el l = part_of m d el l.
Proof. intros N. rewrite !part_of_get, with_element_get. apply Nat.eqb_neq in N. rewrite N. reflexivity. Qed.
Lemma with_element_coord m e el l : el <> length (elementsList m) -> coord_of (with_element m e) el l = coord_of m el l.
Proof. intros N. unfold coord_of. fold (getElement (with_element m e) el) (getElement m el). rewrite with_element_get. apply Nat.eqb_neq in N. rewrite N. reflexivity. Qed.
Lemma with_element_shape m e el : el <> length (elementsList m) -> shape_of (with_element m e) el = shape_of m el.
Proof. intros N. unfold shape_of. fold (getElement (with_element m e) el) (getElement m el). rewrite with_element_get. apply Nat.eqb_neq in N. rewrite N. reflexivity. Qed.
Lemma nodes_of_other m m' d el l ns : (forall k, part_of m' 0 el k = part_of m 0 el k) -> shape_of m' el = shape_of m el -> nodes_of m' d el l ns -> nodes_of m d el l ns.
Proof. intros HP HS (s & n & A & B & F). exists s, n. rewrite <- HS. splits; auto. clear -F HP. induction F; constructor; [rewrite <- HP; assumption|assumption]. Qed.
Lemma get_shape m el e : getElement m el = Some e -> shape_of m el = Some (referenceGeometry e).
Proof. unfold getElement, shape_of. intros ->. reflexivity. Qed.

Lemma addElement_complete dim m coords : 1 <= dim -> complete dim m -> fits m coords ->
  exists s m', findGeometry dim (length coords) = Some s /\ addElement m s coords = Some m' /\ complete dim m' /\ added m coords s m'.
Proof.
  intros Hdim G (s & ns & Eg & F & ND & FT). rewrite (g_dim _ _ _ _ G) in Eg. destruct (find_geometry_ok _ _ _ Eg) as [S Ev]. exists s.
  set (E := length (elementsList m)). pose proof (g_consistent _ _ _ _ G) as C. pose proof (g_dim _ _ _ _ G) as GD.
  destruct (add_nodes_ok m coords ns m (Elt s (repeat [] dim) []) []) as (m1 & e1 & A1 & A2 & A3 & A4 & A5 & A6 & A7 & A8 & A9); auto.
  { apply with_empty_consistent, C. }
  { cbn. destruct dim; [lia|reflexivity]. }
  { cbn. destruct dim; [lia|reflexivity]. }
  cbn [globalCoordinateIndices referenceGeometry incidenceLists app] in A6, A7, A8. set (m2 := with_element m1 e1).
  assert (E1 : length (elementsList m1) = E) by (rewrite A3; reflexivity).
  assert (GE : forall j, getElement m2 j = if j =? E then Some e1 else getElement m j) by (intros; unfold m2; rewrite with_element_get, E1; unfold getElement; rewrite A3; reflexivity).
  assert (LN : length coords = length ns) by (clear -F; induction F; cbn; congruence).
  assert (PE0 : forall l, part_of m2 0 E l = nth_error ns l) by (intros; rewrite part_of_get, GE, Nat.eqb_refl; unfold getIncidentEntityIndex; rewrite A8; reflexivity).
  assert (PED : forall d l, 1 <= d -> part_of m2 d E l = None).
  { intros d l Hd. rewrite part_of_get, GE, Nat.eqb_refl. unfold getIncidentEntityIndex. rewrite A8. destruct d; [lia|]. cbn [Nat.eqb]. rewrite nth_error_repeat'.
    destruct (Datatypes.S d <? dim); [destruct l; reflexivity|reflexivity]. }
  assert (PO : forall d el l, el <> E -> part_of m2 d el l = part_of m d el l).
  { intros d el l N. rewrite !part_of_get, GE. apply Nat.eqb_neq in N. rewrite N. reflexivity. }
  assert (SO : forall el, el <> E -> shape_of m2 el = shape_of m el).
  { intros el N. unfold shape_of. fold (getElement m2 el) (getElement m el). rewrite GE. apply Nat.eqb_neq in N. rewrite N. reflexivity. }
  assert (SE : shape_of m2 E = Some s) by (rewrite (get_shape m2 E e1); [rewrite A7; reflexivity|rewrite GE, Nat.eqb_refl; reflexivity]).
  assert (G2 : growing dim E m2 (fun _ => 0)).
  { constructor.
    - exact A2.
    - cbn. congruence.
    - intros el e. rewrite GE. destruct (Nat.eqb_spec el E); intros He; [injection He as <-; rewrite A7; exact S|]. apply (g_shape _ _ _ _ G el e He).
    - intros el e d. rewrite GE. destruct (Nat.eqb_spec el E); intros He Hd; [injection He as <-|apply (g_sized _ _ _ _ G el e d He Hd)].
      rewrite A8. destruct (d =? 0); [discriminate|]. rewrite nth_error_repeat'. replace (d <? dim) with true by (symmetry; apply Nat.ltb_lt; lia). discriminate.
    - intros el e n l. rewrite GE. destruct (Nat.eqb_spec el E) as [->|N]; intros He Hn; [|rewrite PO by exact N; apply (g_nodes _ _ _ _ G el e n l He Hn)].
      injection He as <-. rewrite A7 in Hn. assert (n = length coords) by (rewrite Ev in Hn; injection Hn as Hn; rewrite <- (vertices_length n), <- Hn; apply vertices_length). subst n.
      rewrite PE0, LN. apply nth_error_Some.
    - intros el l l' x. destruct (Nat.eq_dec el E) as [->|N]; [|rewrite !PO by exact N; apply (g_distinct _ _ _ _ G)]. rewrite !PE0. intros Q1 Q2.
      apply (proj1 (NoDup_nth_error ns) ND); [apply nth_error_Some; congruence|congruence].
    - intros el e d ps l. rewrite GE. destruct (Nat.eqb_spec el E) as [->|N]; intros He Hd Hps.
      + rewrite PED by lia. split; [congruence|lia].
      + rewrite PO by exact N. pose proof (g_parts _ _ _ _ G el e d ps l He Hd Hps) as GP. fold E in GP. apply Nat.eqb_neq in N. rewrite N in GP. exact GP.
    - intros d el l x el' l' x' n n' Hd Hx Hx' Hn Hn'.
      assert (N : el <> E) by (intros ->; rewrite PED in Hx by lia; discriminate). assert (N' : el' <> E) by (intros ->; rewrite PED in Hx' by lia; discriminate).
      rewrite PO in Hx, Hx' by assumption.
      eapply (g_sharing _ _ _ _ G d el l x el' l' x' n n' Hd Hx Hx'); (eapply nodes_of_other; [| |eassumption]; [intros; apply PO; assumption|apply SO; assumption]). }
  assert (FT2 : fitting dim E m2).
  { intros d i el l mine theirs Hd N (s' & locals & B1 & B2 & B3) Ht I. assert (s' = s) by congruence. subst s'.
    eapply (FT d i locals mine el l theirs); [lia|exact B2| |eapply nodes_of_other; [| |exact Ht]; [intros; apply PO, N|apply SO, N]|exact I].
    clear -B3 PE0. induction B3; constructor; [rewrite <- PE0; assumption|assumption]. }
  destruct (element_grows dim E s (dim - 1) m2 (fun _ => 0) ltac:(lia) G2 FT2 SE ltac:(reflexivity)) as (m' & count' & B1 & B2 & B3 & B4 & _).
  exists m'. splits; [exact Eg| | |].
  - unfold addElement. fold (addNodeStep (length (elementsList m))). rewrite GD.
    change (fun (c : nat) '(m0, e) => addNodeStep (length (elementsList m)) c (m0, e)) with (addNodeStep (length (elementsList m))).
    match goal with |- context [for_each coords ?b ?i] => replace (for_each coords b i) with (for_each coords (addNodeStep (length (elementsList m))) i) by reflexivity end.
    rewrite A1. exact B1.
  - assert (LE : length (elementsList m') = Datatypes.S E) by (rewrite (so_elements _ _ _ B3); unfold m2, with_element; cbn; rewrite app_length, E1; cbn; lia).
    unfold complete. rewrite LE. destruct B2. constructor; auto.
    intros el e d ps l He Hd Hps. rewrite (g_parts0 el e d ps l He Hd Hps).
    assert (el < Datatypes.S E) by (rewrite <- LE; apply nth_error_Some; unfold getElement in He; congruence).
    replace (el =? Datatypes.S E) with false by (symmetry; apply Nat.eqb_neq; lia). destruct (Nat.eqb_spec el E) as [->|]; [|tauto].
    rewrite (B4 d ps); [tauto|lia|]. pose proof (get_shape _ _ _ He) as Q. rewrite (so_shape _ _ _ B3), SE in Q. injection Q as ->. exact Hps.
  - destruct B3. constructor; fold E.
    + rewrite so_shape0. exact SE.
    + intros l. rewrite so_coord0. unfold coord_of. fold (getElement m2 E). rewrite GE, Nat.eqb_refl, A6. reflexivity.
    + rewrite so_elements0. unfold m2, with_element; cbn; rewrite app_length, E1; cbn; lia.
    + intros d el l N. rewrite so_others0 by auto. apply PO, N.
    + intros el l N. rewrite so_coord0. unfold coord_of. fold (getElement m2 el) (getElement m el). rewrite GE. apply Nat.eqb_neq in N. rewrite N. reflexivity.
    + intros el N. rewrite so_shape0. apply SO, N.
    + rewrite so_coords0. cbn. exact A4.
    + intros n Hn. apply so_exist0. change (links_of m2 0 n) with (links_of m1 0 n). rewrite A9. exact Hn.
Qed.

Lemma complete_ext dim m m' : complete dim m -> elementsList m' = elementsList m -> length (meshEntities m') = length (meshEntities m) -> consistent m' -> complete dim m'.
Proof.
  intros G EL LE C. assert (PO : forall d el l, part_of m' d el l = part_of m d el l) by (intros; unfold part_of; rewrite EL; reflexivity).
  assert (SO : forall el, shape_of m' el = shape_of m el) by (intros; unfold shape_of; rewrite EL; reflexivity).
  assert (GE : forall el, getElement m' el = getElement m el) by (intros; unfold getElement; rewrite EL; reflexivity).
  unfold complete in *. rewrite EL. destruct G. constructor; auto; intros *; rewrite ?PO, ?GE; eauto.
  - rewrite LE. exact g_dim0.
  - intros Hd Hx Hx' Hn Hn'. apply (nodes_of_same m m') in Hn; [|intros; apply PO|exact SO]. apply (nodes_of_same m m') in Hn'; [|intros; apply PO|exact SO]. eapply g_sharing0; eassumption.
Qed.

Lemma built_complete dim m : 1 <= dim -> built dim m -> complete dim m.
Proof.
  intros Hdim. induction 1 as [|m m' B IH H|m m' n B IH Hn H|m m' coords B IH FT H].
  - assert (NE : forall el, getElement (empty dim) el = None) by (intros [|]; reflexivity).
    assert (NP : forall d el l, part_of (empty dim) d el l = None) by (intros; rewrite part_of_get, NE; reflexivity).
    constructor; try (intros *; rewrite NE; discriminate).
    + apply empty_consistent.
    + cbn. apply repeat_length.
    + intros *. rewrite NP. discriminate.
    + intros * _. rewrite NP. discriminate.
  - cbn [perform] in H. unfold addNode in H. destruct (newEntity m 0) as [[m1 x]|] eqn:En; [|discriminate]. injection H as <-.
    pose proof En as En'. apply newEntity_spec in En as (A1 & A2 & A3 & _). cbn [fst]. apply (complete_ext dim m); auto. eapply new_consistent; [apply (g_consistent _ _ _ _ IH)|exact En'].
  - injection H as <-. apply (complete_ext dim m); auto. apply coordinate_consistent, (g_consistent _ _ _ _ IH).
  - destruct (addElement_complete dim m coords Hdim IH FT) as (s & m2 & A1 & A2 & A3 & _). cbn [perform] in H. rewrite (g_dim _ _ _ _ IH), A1, A2 in H. congruence.
Qed.
