(** What readMesh makes of the header, the nodes and the elements of the file. *)
From Coq Require Import String Ascii List Arith Lia Bool Permutation Sorted.
From Verif Require Import Loop_model Loop_proofs StdMap_model StdMap_proofs PreMesh_model PreMesh_spec PreMesh_proofs MeshFile_model MeshFile_spec MeshFile_proofs.
From Verif Require Submesh_model.
Import ListNotations.

Fixpoint trim {D} (ts : list (token D)) : list (token D) := match ts with EndL :: r => trim r | _ => ts end.
Lemma readInt_of {D} (ts : list (token D)) x r : trim ts = Int x :: r -> readInt ts = Some (x, r).
Proof. induction ts as [|[y|y|s|] ts IH]; cbn; intros H; try discriminate; [congruence|apply IH, H]. Qed.
Lemma readWord_of {D} (ts : list (token D)) x r : trim ts = Word x :: r -> readWord ts = Some (x, r).
Proof. induction ts as [|[y|y|s|] ts IH]; cbn; intros H; try discriminate; [congruence|apply IH, H]. Qed.
Lemma header_of {D} (ts : list (token D)) x r : trim ts = Word x :: r -> readSegmentHeader x ts = Some r.
Proof. intros H. unfold readSegmentHeader. rewrite (readWord_of ts x r H), String.eqb_refl. reflexivity. Qed.
Lemma readMany_ints {D} l (r : list (token D)) : readMany (length l) readInt (map Int l ++ r) = Some (l, r).
Proof. induction l as [|x l IH]; cbn; [reflexivity|]. rewrite IH. reflexivity. Qed.
Lemma readMany_ints' {D} k l (r : list (token D)) : k = length l -> readMany k readInt (map Int l ++ r) = Some (l, r).
Proof. intros ->. apply readMany_ints. Qed.
Lemma readMany_pairs {D} l (r : list (token D)) : readMany (length l) readPair (flat_map pairTokens l ++ r) = Some (l, r).
Proof. induction l as [|(x, y) l IH]; cbn; [reflexivity|]. rewrite IH. reflexivity. Qed.
Lemma readMany_reals {D} l (r : list (token D)) : readMany (length l) readReal (map Real l ++ r) = Some (l, r).
Proof. induction l as [|x l IH]; cbn; [reflexivity|]. rewrite IH. reflexivity. Qed.
Lemma readMany_coords {D} dim l (r : list (token D)) : (forall c, In c l -> length c = dim) -> readMany (length l) (readMany dim readReal) (flat_map (map Real) l ++ r) = Some (l, r).
Proof.
  induction l as [|c l IH]; intros H; cbn [length readMany flat_map app]; [reflexivity|]. rewrite <- app_assoc, <- (H c (or_introl eq_refl)), readMany_reals.
  rewrite (H c (or_introl eq_refl)), IH by (intros; apply H; right; assumption). reflexivity.
Qed.
Lemma readMany_names {D} l (r : list (token D)) :
  readMany (length l) (fun ts => match getline ts with ([Word s], ts) => Some (s, ts) | _ => None end) (flat_map (fun z => [Word z; EndL]) l ++ r) = Some (l, r).
Proof. induction l as [|x l IH]; cbn; [reflexivity|]. rewrite IH. reflexivity. Qed.
Lemma ignore_ints {D} l (r : list (token D)) : ignoreLine (map Int l ++ EndL :: r) = r.
Proof. induction l; cbn; auto. Qed.
Lemma ignore_reals {D} l (r : list (token D)) : ignoreLine (flat_map (map Real) l ++ EndL :: r) = r.
Proof. induction l as [|c l IH]; cbn; [reflexivity|]. induction c; cbn; auto. Qed.
Lemma findPartition_ok {D} p l (r : list (token D)) : exists r', findPartition p (length l) (map Int l ++ EndL :: r) = Some (existsb (Nat.eqb p) l, r') /\
  (if existsb (Nat.eqb p) l then ignoreLine r' = r else r' = EndL :: r).
Proof.
  induction l as [|x l IH]; cbn [length findPartition map app existsb]; [eexists; split; reflexivity|].
  cbn [readInt]. rewrite (Nat.eqb_sym x p). destruct (p =? x); [|exact IH]. exists (map Int l ++ EndL :: r). split; [reflexivity|]. apply ignore_ints.
Qed.
Lemma seq_step k n : k < n -> seq k (n - k) = k :: seq (S k) (n - S k).
Proof. intros H. replace (n - k) with (S (n - S k)) by lia. reflexivity. Qed.

Lemma write_map {A} (f : nat -> A) l k w y : NoDup l -> nth_error l k = Some w -> write (map f l) k y = Some (map (fun v => if v =? w then y else f v) l).
Proof.
  revert k; induction l as [|x l IH]; intros [|k] ND H; cbn in H; try discriminate; inversion ND as [|? ? Nin ND']; subst; cbn [map write].
  - injection H as ->. rewrite Nat.eqb_refl. do 2 f_equal. apply map_ext_in. intros v Hv. destruct (Nat.eqb_spec v w) as [->|_]; [contradiction|reflexivity].
  - rewrite (IH k ND' H). destruct (Nat.eqb_spec x w) as [->|_]; [|reflexivity]. exfalso. apply Nin. eapply nth_error_In. exact H.
Qed.
Lemma filter_rank (f : nat -> bool) n v : v < n -> f v = true -> nth_error (filter f (seq 0 n)) (length (filter f (seq 0 v))) = Some v.
Proof.
  intros H F. replace n with (v + (n - v)) by lia. rewrite seq_app, filter_app, nth_error_app2 by lia. rewrite Nat.sub_diag. cbn [plus].
  rewrite <- (seq_step v n H) || idtac. replace (n - v) with (S (n - S v)) by lia. cbn [seq filter]. rewrite F. reflexivity.
Qed.
Lemma filter_seq_lt (f : nat -> bool) v n : v <= n -> exists r, filter f (seq 0 n) = filter f (seq 0 v) ++ r.
Proof. intros H. replace n with (v + (n - v)) by lia. rewrite seq_app, filter_app. eauto. Qed.

Section Reader.
Context {D : Type} (ltb : D -> D -> bool) (ST : strict_total ltb).
Context (geometry : nat -> option (list (list nat) * list (nat * nat))) (i : input D) (dim n : nat) (R : ready geometry i dim n).
Context (Hdim : 1 <= dim) (p n0 e0 : nat).
Local Notation m := (theMesh i).
Local Notation E := (length (elementsList (theMesh i))).
Local Notation N := (length (nth 0 (meshEntities (theMesh i)) [])).
Local Notation pF := (pF i).
Local Notation cF := (cF ltb i).
Local Notation nF := (nF i).
Local Notation shF := (shF i).
Local Notation ownF := (ownF i).
Local Notation zF := (zF i).
Local Notation pairsF := (pairsF ltb i).
Local Notation nodeTokens := (nodeTokens ltb i).
Local Notation elementTokens := (elementTokens ltb i).

Definition pres v := existsb (Nat.eqb p) (pF v).
Definition vis el := ((ownF el =? p) || existsb (Nat.eqb p) (shF el))%bool.
Definition PN k := filter pres (seq 0 k).
Definition VE k := filter vis (seq 0 k).
Definition rank v := length (PN v).
Definition start v := length (flat_map cF (PN v)).

Lemma pres_iff v : v < N -> (pres v = true <-> exists el j, part_of m 0 el j = Some v /\ seen i p el).
Proof.
  intros H. unfold pres. rewrite existsb_exists. rewrite <- (proj2 (proj2 (pF_ok geometry i dim n R Hdim v H)) p). split.
  - intros (q & Hq & Q). apply Nat.eqb_eq in Q. subst q. exact Hq.
  - intros Hq. exists p. split; [exact Hq|apply Nat.eqb_refl].
Qed.
Lemma vis_iff el : el < E -> (vis el = true <-> seen i p el).
Proof.
  intros H. destruct (shF_ok geometry i dim n R Hdim el H) as (O & _ & _ & _ & M). unfold vis. rewrite Bool.orb_true_iff, existsb_exists, Nat.eqb_eq. split.
  - intros [O'|(q & Hq & Q)]; [apply seen_owner; congruence|]. apply Nat.eqb_eq in Q. subst q. apply (M p), Hq.
  - intros S. destruct (Nat.eq_dec (ownF el) p) as [Q|Q]; [left; exact Q|right]. exists p. split; [apply M; split; [congruence|exact S]|apply Nat.eqb_refl].
Qed.
Lemma vis_pres el j v : el < E -> vis el = true -> part_of m 0 el j = Some v -> pres v = true.
Proof.
  intros H V P. apply pres_iff; [apply (part_of_0_lt geometry i dim n R el j v P)|]. exists el, j. split; [exact P|]. apply vis_iff; assumption.
Qed.
Lemma PN_nodup k : NoDup (PN k). Proof. apply NoDup_filter, seq_NoDup. Qed.
Lemma VE_nodup k : NoDup (VE k). Proof. apply NoDup_filter, seq_NoDup. Qed.
Lemma PN_in k v : In v (PN k) <-> v < k /\ pres v = true.
Proof. clear Hdim. unfold PN. rewrite filter_In, in_seq. intuition lia. Qed.
Lemma VE_in k v : In v (VE k) <-> v < k /\ vis v = true.
Proof. clear Hdim. unfold VE. rewrite filter_In, in_seq. intuition lia. Qed.
Lemma PN_S k : PN (S k) = PN k ++ (if pres k then [k] else []).
Proof. unfold PN. rewrite seq_S, filter_app. cbn. reflexivity. Qed.
Lemma VE_S k : VE (S k) = VE k ++ (if vis k then [k] else []).
Proof. unfold VE. rewrite seq_S, filter_app. cbn. reflexivity. Qed.
Lemma rank_ok k v : v < k -> pres v = true -> nth_error (PN k) (rank v) = Some v.
Proof. intros H P. apply filter_rank; assumption. Qed.
Lemma rank_inj v w : pres v = true -> pres w = true -> rank v = rank w -> v = w.
Proof. clear Hdim.
  intros Hv Hw H. pose proof (rank_ok (S (v + w)) v ltac:(lia) Hv) as A. pose proof (rank_ok (S (v + w)) w ltac:(lia) Hw) as B. rewrite H in A. congruence.
Qed.
Lemma start_S v : pres v = true -> start (S v) = start v + length (cF v).
Proof. intros H. unfold start. rewrite PN_S, H, flat_map_app, app_length. cbn. rewrite app_nil_r. reflexivity. Qed.
Lemma start_le v w : v <= w -> start v <= start w.
Proof. clear Hdim. intros H. unfold start, PN. destruct (filter_seq_lt pres v w H) as (r & ->). rewrite flat_map_app, app_length. lia. Qed.
Lemma start_inj v w a b : pres v = true -> pres w = true -> a < length (cF v) -> b < length (cF w) -> start v + a = start w + b -> v = w /\ a = b.
Proof. clear Hdim.
  intros Hv Hw Ha Hb H. destruct (Nat.lt_trichotomy v w) as [L|[->|L]].
  - pose proof (start_S v Hv). pose proof (start_le (S v) w L). lia.
  - split; [reflexivity|lia].
  - pose proof (start_S w Hw). pose proof (start_le (S w) v L). lia.
Qed.
Lemma start_lt v w a b : pres v = true -> a < length (cF v) -> v < w -> start v + a < start w + b.
Proof. clear Hdim. intros Hv Ha L. pose proof (start_S v Hv). pose proof (start_le (S v) w L). lia. Qed.
Lemma coords_at k v a : v < k -> pres v = true -> a < length (cF v) -> nth_error (flat_map cF (PN k)) (start v + a) = nth_error (cF v) a.
Proof. clear Hdim.
  intros H P Ha. unfold PN at 1. replace k with (v + (k - v)) by lia. rewrite seq_app, filter_app, flat_map_app.
  rewrite nth_error_app2 by (unfold start, PN; lia). unfold start, PN. replace (_ + a - _) with a by lia. replace (k - v) with (S (k - S v)) by lia. cbn [seq filter plus]. rewrite P.
  cbn [flat_map]. rewrite nth_error_app1 by exact Ha. reflexivity.
Qed.

(** ** Nodes *)
Record nodes_at (k : nat) (s : nodesRead (D := D)) : Prop := {
  na_index : r_nodeIndex s = n0 + k;
  na_nodes : r_nodes s = map (fun v => Node (n0 + v) []) (PN k);
  na_processed : r_processedNodes s = length (PN k);
  na_coords : r_coords s = flat_map cF (PN k);
  na_local : forall v, mfind Nat.ltb v (r_localNodeIndex s) = if ((v <? k) && pres v)%bool then Some (rank v) else None;
  na_start : forall v, mfind Nat.ltb v (r_startOfCoordinates s) = if ((v <? k) && pres v)%bool then Some (start v) else None }.
Lemma cF_dim v c : v < N -> In c (cF v) -> length c = dim.
Proof.
  intros H Hc. apply (cF_ok ltb ST geometry i dim n R Hdim v H) in Hc as (el & j & P & V).
  destruct (value_ok geometry i dim n R el j v P) as (c' & _ & V' & L). congruence.
Qed.
Lemma nodeTokens_app v X : nodeTokens v ++ X = Int (length (pF v)) :: map Int (pF v) ++ EndL :: Int (length (cF v)) :: flat_map (map Real) (cF v) ++ EndL :: X.
Proof. unfold MeshFile_proofs.nodeTokens. cbn [app]. f_equal. rewrite <- !app_assoc. cbn [app]. do 3 f_equal. rewrite <- app_assoc. reflexivity. Qed.
Lemma nodes_read ts rest : trim ts = trim (flat_map nodeTokens (seq 0 N) ++ rest) ->
  exists s ts', for_loop N (readNode dim p) (NodesRead [] [] [] [] 0 n0, ts) = Some (s, ts') /\ trim ts' = trim rest /\ nodes_at N s.
Proof.
  intros T. destruct (for_loop_inv (fun k (st : nodesRead * list (token D)) => trim (snd st) = trim (flat_map nodeTokens (seq k (N - k)) ++ rest) /\ nodes_at k (fst st))
    (readNode dim p) N (NodesRead [] [] [] [] 0 n0, ts)) as ((s & ts') & X & A & B).
  - cbn [fst snd]. rewrite Nat.sub_0_r. split; [exact T|]. constructor; cbn; try reflexivity. lia.
  - clear ts T. intros k (s & ts) Hk (T & [A1 A2 A3 A4 A5 A6]). cbn [fst snd] in *. rewrite (seq_step k N Hk) in T. cbn [flat_map] in T. rewrite <- app_assoc, nodeTokens_app in T.
    set (X := flat_map nodeTokens (seq (S k) (N - S k)) ++ rest) in *. cbn [trim] in T.
    unfold readNode. rewrite (readInt_of _ _ _ T). destruct (findPartition_ok p (pF k) (Int (length (cF k)) :: flat_map (map Real) (cF k) ++ EndL :: X)) as (r' & F1 & F2).
    rewrite F1. fold (pres k) in F2 |- *. destruct (pres k) eqn:P.
    + rewrite F2. cbn [readInt]. rewrite readMany_coords by (intros c Hc; apply (cF_dim k c Hk Hc)). eexists. split; [reflexivity|]. cbn [fst snd]. split; [reflexivity|].
      constructor; cbn [r_nodeIndex r_nodes r_processedNodes r_coords r_localNodeIndex r_startOfCoordinates].
      * lia.
      * rewrite A2, A1, PN_S, P, map_app. reflexivity.
      * rewrite A3, PN_S, P, app_length. cbn. lia.
      * rewrite A4, PN_S, P, flat_map_app. cbn. rewrite app_nil_r. reflexivity.
      * intros v. destruct (Nat.eq_dec v k) as [->|NE].
        -- rewrite mfind_put_same by exact nat_strict_total. rewrite P, A3. replace (k <? S k) with true by (symmetry; apply Nat.ltb_lt; lia). reflexivity.
        -- rewrite mfind_put_other by (try exact nat_strict_total; congruence). rewrite A5. replace (v <? S k) with (v <? k); [reflexivity|].
           destruct (Nat.ltb_spec v k), (Nat.ltb_spec v (S k)); try reflexivity; lia.
      * intros v. destruct (Nat.eq_dec v k) as [->|NE].
        -- rewrite mfind_put_same by exact nat_strict_total. rewrite P, A4. replace (k <? S k) with true by (symmetry; apply Nat.ltb_lt; lia). reflexivity.
        -- rewrite mfind_put_other by (try exact nat_strict_total; congruence). rewrite A6. replace (v <? S k) with (v <? k); [reflexivity|].
           destruct (Nat.ltb_spec v k), (Nat.ltb_spec v (S k)); try reflexivity; lia.
    + rewrite F2. cbn [ignoreLine]. rewrite ignore_reals. eexists. split; [reflexivity|]. cbn [fst snd]. split; [reflexivity|].
      assert (Q : forall v, ((v <? S k) && pres v = (v <? k) && pres v)%bool).
      { intros v. destruct (Nat.ltb_spec v k), (Nat.ltb_spec v (S k)); try reflexivity; try lia. replace v with k by lia. rewrite P. reflexivity. }
      constructor; cbn [r_nodeIndex r_nodes r_processedNodes r_coords r_localNodeIndex r_startOfCoordinates].
      * lia.
      * rewrite A2, PN_S, P, app_nil_r. reflexivity.
      * rewrite A3, PN_S, P, app_nil_r. reflexivity.
      * rewrite A4, PN_S, P, app_nil_r. reflexivity.
      * intros v. rewrite Q. apply A5.
      * intros v. rewrite Q. apply A6.
  - exists s, ts'. cbn [fst snd] in *. rewrite Nat.sub_diag in A. cbn [seq flat_map app] in A. auto.
Qed.

(** ** Elements *)
Definition coordsE el := map (fun '(v, o) => start v + o) (pairsF el).
Definition facesE el := match geometry (length (nF el)) with Some (f, _) => f | None => [] end.
Definition edgesE el := match geometry (length (nF el)) with Some (_, g) => g | None => [] end.
Definition elementF el := RElement (coordsE el) (nth (zF el) (zoneNames i) ""%string) (ownF el) (ownF el =? p).
Definition lineF el := Submesh_model.Line (ownF el) (shF el).
Definition slotsJ el v k : list (nat * nat) := flat_map (fun j => match nth_error (nF el) j with Some w => if w =? v then [(e0 + el, j)] else [] | None => [] end) (seq 0 k).
Definition slots el v := slotsJ el v (length (nF el)).
Definition nodesF k := map (fun v => Node (n0 + v) (flat_map (fun el => slots el v) (VE k))) (PN N).

Lemma slots_in el v x j : In (x, j) (slots el v) <-> x = e0 + el /\ nth_error (nF el) j = Some v.
Proof.
  unfold slots, slotsJ. rewrite in_flat_map. split.
  - intros (k & _ & H). destruct (nth_error (nF el) k) as [w|] eqn:X; [|destruct H]. destruct (Nat.eqb_spec w v) as [->|]; [|destruct H]. destruct H as [[= <- <-]|[]]. auto.
  - intros (-> & H). exists j. split; [apply in_seq; split; [lia|]; apply nth_error_Some; congruence|]. rewrite H, Nat.eqb_refl. left. reflexivity.
Qed.
Lemma offF_lt el j v : part_of m 0 el j = Some v -> offF ltb i v el j < length (cF v).
Proof.
  intros H. apply nth_error_Some. rewrite (offF_ok ltb ST geometry i dim n R Hdim el j v H). destruct (value_ok geometry i dim n R el j v H) as (c & _ & -> & _). discriminate.
Qed.
Lemma coordsE_nth el j : nth_error (coordsE el) j = match nth_error (nF el) j with Some v => Some (start v + offF ltb i v el j) | None => None end.
Proof. unfold coordsE. rewrite nth_error_map, (pairsF_nth ltb i dim Hdim). destruct (nth_error (nF el) j); reflexivity. Qed.
Lemma distinct_ok l : NoDup l -> distinct l = true.
Proof.
  induction 1 as [|x l Nin ND IH]; [reflexivity|]. cbn. rewrite IH, Bool.andb_true_r. apply Bool.negb_true_iff, Bool.not_true_is_false. intros C. apply existsb_exists in C as (y & Hy & Q). apply Nat.eqb_eq in Q. subst y. contradiction.
Qed.
Lemma coordsE_nodup el : el < E -> vis el = true -> NoDup (coordsE el).
Proof.
  intros H V. destruct (nF_ok geometry i dim n R Hdim el H) as (_ & B & ND & _). apply NoDup_nth_error. intros a b Ha. rewrite !coordsE_nth.
  assert (La : a < length (nF el)) by (unfold coordsE in Ha; rewrite map_length, (pairsF_length ltb i dim Hdim) in Ha; exact Ha).
  destruct (nth_error (nF el) a) as [v|] eqn:X; [|apply nth_error_None in X; lia]. destruct (nth_error (nF el) b) as [w|] eqn:Y; [|discriminate].
  intros [= Q]. rewrite B in X, Y. destruct (start_inj v w (offF ltb i v el a) (offF ltb i w el b)) as (-> & _); try assumption.
  - apply (vis_pres el a v H V X).
  - apply (vis_pres el b w H V Y).
  - apply offF_lt, X.
  - apply offF_lt, Y.
  - apply (r_distinct _ _ _ _ R el a b w X Y).
Qed.

Lemma map_nth_seq {A B} (f : A -> B) (g : nat -> B) l : (forall j x, nth_error l j = Some x -> g j = f x) -> map g (seq 0 (length l)) = map f l.
Proof.
  intros H. apply nth_error_ext_le; [rewrite !map_length, seq_length; reflexivity|]. intros j Hj. rewrite map_length, seq_length in Hj. rewrite nth_error_map_seq by exact Hj.
  rewrite nth_error_map. destruct (nth_error l j) as [x|] eqn:X; [|apply nth_error_None in X; lia]. cbn. rewrite (H j x X). reflexivity.
Qed.
(** the nodes of a new element are told about it *)
Lemma nodes_linked k prev : k < E -> vis k = true -> (forall v id j, In (id, j) (prev v) -> id < e0 + k) ->
  for_loop (length (nF k)) (fun j st => x <- nth_error (map rank (nF k)) j; addElementToNode (e0 + k) j x st)
    (map (fun v => Node (n0 + v) (prev v)) (PN N), repeat None (length (nF k))) =
  Some (map (fun v => Node (n0 + v) (prev v ++ slots k v)) (PN N), map (fun v => Some (rank v)) (nF k)).
Proof.
  intros Hk V Hprev. destruct (nF_ok geometry i dim n R Hdim k Hk) as (_ & B & ND & _).
  destruct (for_loop_inv (fun j (st : list node * list (option nat)) => fst st = map (fun v => Node (n0 + v) (prev v ++ slotsJ k v j)) (PN N) /\
     snd st = map (fun j' => if j' <? j then option_map rank (nth_error (nF k) j') else None) (seq 0 (length (nF k))))
     (fun j st => x <- nth_error (map rank (nF k)) j; addElementToNode (e0 + k) j x st) (length (nF k))
     (map (fun v => Node (n0 + v) (prev v)) (PN N), repeat None (length (nF k)))) as ((nodes & mine) & X & A1 & A2).
  - cbn [fst snd]. split.
    + apply map_ext. intros v. unfold slotsJ. cbn. rewrite app_nil_r. reflexivity.
    + apply nth_error_ext_le; [rewrite repeat_length, map_length, seq_length; reflexivity|]. intros j Hj. rewrite repeat_length in Hj. rewrite nth_error_map_seq, nth_error_repeat' by exact Hj. apply Nat.ltb_lt in Hj. rewrite Hj. reflexivity.
  - intros j (nodes & mine) Hj (A1 & A2). cbn [fst snd] in *. destruct (nth_error (nF k) j) as [w|] eqn:W; [|apply nth_error_None in W; lia].
    rewrite nth_error_map, W. cbn [option_map]. pose proof W as W'. rewrite B in W'. pose proof (vis_pres k j w Hk V W') as Pw. pose proof (part_of_0_lt geometry i dim n R k j w W') as Lw.
    unfold addElementToNode. rewrite A1, nth_error_map, (rank_ok N w Lw Pw). cbn [option_map n_elements n_id].
    assert (Q1 : existsb (Nat.eqb (e0 + k)) (map fst (prev w ++ slotsJ k w j)) = false).
    { apply Bool.not_true_is_false. intros C. apply existsb_exists in C as (id & Hid & Q). apply Nat.eqb_eq in Q. subst id. apply in_map_iff in Hid as ((id & j') & Q & Hid). cbn in Q. subst id.
      apply in_app_iff in Hid as [Hid|Hid]; [apply Hprev in Hid; lia|]. unfold slotsJ in Hid. apply in_flat_map in Hid as (j2 & Hj2 & Hid). apply in_seq in Hj2.
      destruct (nth_error (nF k) j2) as [w2|] eqn:W2; [|destruct Hid]. destruct (Nat.eqb_spec w2 w) as [->|]; [|destruct Hid]. rewrite B in W2. pose proof (r_distinct _ _ _ _ R k j2 j w W2 W'). lia. }
    rewrite Q1. rewrite (write_map _ (PN N) (rank w) w) by (try apply PN_nodup; apply (rank_ok N w Lw Pw)).
    assert (Q2 : existsb (fun o => match o with Some k' => k' =? rank w | None => false end) mine = false).
    { apply Bool.not_true_is_false. intros C. apply existsb_exists in C as (o & Ho & Q). destruct o as [k'|]; [|discriminate]. apply Nat.eqb_eq in Q. subst k'.
      rewrite A2 in Ho. apply in_map_iff in Ho as (j2 & Q & Hj2). destruct (Nat.ltb_spec j2 j) as [L|]; [|discriminate]. destruct (nth_error (nF k) j2) as [w2|] eqn:W2; [|discriminate].
      cbn in Q. injection Q as Q. rewrite B in W2. apply rank_inj in Q; [|apply (vis_pres k j2 w2 Hk V W2)|exact Pw]. subst w2. pose proof (r_distinct _ _ _ _ R k j2 j w W2 W'). lia. }
    rewrite Q2, A2. rewrite (write_map _ (seq 0 (length (nF k))) j j); [|apply seq_NoDup|rewrite (nth_error_nth' _ 0) by (rewrite seq_length; exact Hj); rewrite seq_nth by exact Hj; reflexivity].
    eexists. split; [reflexivity|]. cbn [fst snd]. split.
    + apply map_ext. intros v. unfold slotsJ. rewrite seq_S, flat_map_app. cbn [plus flat_map]. rewrite W, app_nil_r. rewrite (Nat.eqb_sym w v).
      destruct (Nat.eqb_spec v w) as [->|]; [rewrite app_assoc; reflexivity|]. rewrite app_nil_r. reflexivity.
    + apply map_ext. intros j'. destruct (Nat.eqb_spec j' j) as [->|NE].
      * replace (j <? S j) with true by (symmetry; apply Nat.ltb_lt; lia). rewrite W. reflexivity.
      * destruct (Nat.ltb_spec j' j), (Nat.ltb_spec j' (S j)); try reflexivity; lia.
  - rewrite X. cbn [fst snd] in *. rewrite A1, A2. do 2 f_equal. apply map_nth_seq. intros j v Hv. replace (j <? length (nF k)) with true; [rewrite Hv; reflexivity|].
    symmetry. apply Nat.ltb_lt, nth_error_Some. congruence.
Qed.

Record elements_at (k : nat) (s : elementsRead) : Prop := {
  ea_index : r_elementIndex s = e0 + k;
  ea_elements : r_elements s = map (fun el => (e0 + el, elementF el)) (VE k);
  ea_nodesOf : r_elementNodes s = map (fun el => (e0 + el, map (fun v => Some (rank v)) (nF el))) (VE k);
  ea_facesOf : r_elementFaces s = map (fun el => (e0 + el, repeat None (length (facesE el)))) (VE k);
  ea_edgesOf : r_elementEdges s = map (fun el => (e0 + el, repeat None (length (edgesE el)))) (VE k);
  ea_nodes : r_nodesNow s = nodesF k;
  ea_submesh : r_submesh s = Submesh_model.readElements p e0 (map lineF (seq 0 k)) (Submesh_model.Submesh [] [] [] []);
  ea_actual : forall el, mfind Nat.ltb el (r_actualElement s) = if ((el <? k) && vis el)%bool then Some (e0 + el) else None }.
Lemma readElements_snoc q lines l : forall first s, Submesh_model.readElements q first (lines ++ [l]) s = Submesh_model.readElement q (first + length lines) l (Submesh_model.readElements q first lines s).
Proof.
  induction lines as [|x lines IH]; intros first s; cbn [app Submesh_model.readElements length]; [rewrite Nat.add_0_r; reflexivity|]. rewrite IH. f_equal. lia.
Qed.
Lemma elementTokens_app el X : elementTokens el ++ X = Int (length (pairsF el)) :: flat_map pairTokens (pairsF el) ++ Int (ownF el) :: Int (length (shF el)) :: map Int (shF el) ++ EndL :: Int (zF el) :: EndL :: X.
Proof. unfold MeshFile_proofs.elementTokens. cbn [app]. f_equal. rewrite <- !app_assoc. cbn [app]. do 3 f_equal. rewrite <- app_assoc. reflexivity. Qed.
Lemma zone_ok el : el < E -> nth_error (zoneNames i) (zF el) = Some (nth (zF el) (zoneNames i) ""%string).
Proof.
  intros H. destruct (r_zones _ _ _ _ R) as (L & B). apply nth_error_nth'. apply B. unfold MeshFile_proofs.zF. apply nth_In. lia.
Qed.
Lemma elements_read ns ts rest : nodes_at N ns -> trim ts = trim (flat_map elementTokens (seq 0 E) ++ rest) ->
  exists s ts', for_loop E (readElement geometry p 2 (zoneNames i) ns) (ElementsRead [] [] [] [] (r_nodes ns) (Submesh_model.Submesh [] [] [] []) [] e0, ts) = Some (s, ts') /\
    trim ts' = trim rest /\ elements_at E s.
Proof.
  intros NA T. destruct (for_loop_inv (fun k (st : elementsRead * list (token D)) => trim (snd st) = trim (flat_map elementTokens (seq k (E - k)) ++ rest) /\ elements_at k (fst st))
    (readElement geometry p 2 (zoneNames i) ns) E (ElementsRead [] [] [] [] (r_nodes ns) (Submesh_model.Submesh [] [] [] []) [] e0, ts)) as ((s & ts') & X & A & B).
  - cbn [fst snd]. rewrite Nat.sub_0_r. split; [exact T|]. constructor; cbn; try reflexivity; [lia|]. rewrite (na_nodes _ _ NA). reflexivity.
  - clear ts T. intros k (s & ts) Hk (T & [A1 A2 A3 A4 A5 A6 A7 A8]). cbn [fst snd] in *. rewrite (seq_step k E Hk) in T. cbn [flat_map] in T. rewrite <- app_assoc, elementTokens_app in T.
    set (X := flat_map elementTokens (seq (S k) (E - S k)) ++ rest) in *. cbn [trim] in T.
    unfold readElement. rewrite (readInt_of _ _ _ T), readMany_pairs. cbn [readInt]. rewrite readMany_ints. change (2 =? 1) with false. cbv iota. cbn [readInt].
    rewrite (zone_ok k Hk). fold (vis k).
    destruct (nF_ok geometry i dim n R Hdim k Hk) as (_ & B & ND & _ & faces & edges & G & _).
    assert (VS : VE (S k) = VE k ++ (if vis k then [k] else [])) by apply VE_S.
    destruct (vis k) eqn:V.
    + assert (PR : forall v o, In (v, o) (pairsF k) -> v < N /\ pres v = true).
      { intros v o Hin. apply (in_map fst) in Hin. rewrite (pairsF_fst ltb i dim Hdim) in Hin. cbn in Hin. apply In_nth_error in Hin as (j & Hj). rewrite B in Hj. split; [apply (part_of_0_lt geometry i dim n R k j v Hj)|apply (vis_pres k j v Hk V Hj)]. }
      assert (C1 : map (fun '(globalIndex, offset) => entryOr0 (r_startOfCoordinates ns) globalIndex + offset) (pairsF k) = coordsE k).
      { apply map_ext_in. intros (v, o) Hin. destruct (PR v o Hin) as (Lv & Pv). unfold entryOr0. rewrite (na_start _ _ NA). apply Nat.ltb_lt in Lv. rewrite Lv, Pv. reflexivity. }
      assert (C2 : map (fun '(globalIndex, _) => entryOr0 (r_localNodeIndex ns) globalIndex) (pairsF k) = map rank (nF k)).
      { rewrite <- (pairsF_fst ltb i dim Hdim), map_map. apply map_ext_in. intros (v, o) Hin. destruct (PR v o Hin) as (Lv & Pv). unfold entryOr0. rewrite (na_local _ _ NA). apply Nat.ltb_lt in Lv. rewrite Lv, Pv. reflexivity. }
      rewrite C1, C2, (distinct_ok _ (coordsE_nodup k Hk V)).
      assert (LC : length (coordsE k) = length (nF k)) by (unfold coordsE; rewrite map_length; apply (pairsF_length ltb i dim Hdim)).
      rewrite LC, G, map_length, A1, A6. unfold nodesF.
      rewrite (nodes_linked k (fun v => flat_map (fun el => slots el v) (VE k)) Hk V).
      2: { intros v id j Hin. apply in_flat_map in Hin as (el & Hel & Hin). apply slots_in in Hin as (-> & _). apply VE_in in Hel. lia. }
      eexists. split; [reflexivity|]. cbn [fst snd]. split; [reflexivity|].
      constructor; cbn [r_elementIndex r_elements r_elementNodes r_elementFaces r_elementEdges r_nodesNow r_submesh r_actualElement].
      * lia.
      * rewrite A2, VS, map_app. reflexivity.
      * rewrite A3, VS, map_app. reflexivity.
      * rewrite A4, VS, map_app. cbn [map]. unfold facesE. rewrite G. reflexivity.
      * rewrite A5, VS, map_app. cbn [map]. unfold edgesE. rewrite G. reflexivity.
      * unfold nodesF. rewrite VS. apply map_ext. intros v. rewrite flat_map_app. cbn [flat_map]. rewrite app_nil_r. reflexivity.
      * rewrite A7, seq_S, map_app. cbn [map plus]. rewrite readElements_snoc, map_length, seq_length. reflexivity.
      * intros el. destruct (Nat.eq_dec el k) as [->|NE].
        -- rewrite mfind_put_same by exact nat_strict_total. rewrite V. replace (k <? S k) with true by (symmetry; apply Nat.ltb_lt; lia). reflexivity.
        -- rewrite mfind_put_other by (try exact nat_strict_total; congruence). rewrite A8. replace (el <? S k) with (el <? k); [reflexivity|].
           destruct (Nat.ltb_spec el k), (Nat.ltb_spec el (S k)); try reflexivity; lia.
    + eexists. split; [reflexivity|]. cbn [fst snd]. split; [reflexivity|]. rewrite app_nil_r in VS.
      constructor; cbn [r_elementIndex r_elements r_elementNodes r_elementFaces r_elementEdges r_nodesNow r_submesh r_actualElement]; rewrite ?VS; try assumption.
      * lia.
      * unfold nodesF. rewrite VS. exact A6.
      * rewrite A7, seq_S, map_app. cbn [map plus]. rewrite readElements_snoc, map_length, seq_length. unfold Submesh_model.readElement. change (Submesh_model.partition (lineF k)) with (ownF k). change (Submesh_model.shadowPartitions (lineF k)) with (shF k).
        unfold vis in V. apply Bool.orb_false_iff in V as (V1 & V2). rewrite V1, V2. reflexivity.
      * intros el. rewrite A8. replace ((el <? S k) && vis el)%bool with ((el <? k) && vis el)%bool; [reflexivity|].
        destruct (Nat.ltb_spec el k), (Nat.ltb_spec el (S k)); try reflexivity; try lia. replace el with k by lia. rewrite V. reflexivity.
  - exists s, ts'. cbn [fst snd] in *. rewrite Nat.sub_diag in A. cbn [seq flat_map app] in A. auto.
Qed.

(** ** Header *)
Definition infoF := Information 2 dim (N :: map (countD i) (seq 1 (dim - 1)) ++ [E]) (map (countF i N) (seq 0 n)) (zoneNames i).
Lemma countTokens_ok d : countTokens i d = map (@Int D) (rev (map (countD i) (seq 1 d))).
Proof. induction d as [|d IH]; [reflexivity|]. cbn [countTokens]. rewrite seq_S, map_app, rev_app_distr, IH. reflexivity. Qed.
Lemma header_read : exists ts, readInformation (fileF ltb i dim n) = Some (infoF, ts) /\
  trim ts = Word "nodes"%string :: EndL :: flat_map nodeTokens (seq 0 N) ++ Word "elements"%string :: EndL :: flat_map elementTokens (seq 0 E) ++ othersTokens i dim (dim - 1).
Proof.
  unfold readInformation, fileF. cbn [app getline]. rewrite String.eqb_refl. cbn [andb Nat.leb readInt]. destruct (Nat.eqb_spec dim 0); [lia|].
  rewrite countTokens_ok. assert (L : dim - 1 = length (rev (map (countD i) (seq 1 (dim - 1))))) by (rewrite rev_length, map_length, seq_length; reflexivity).
  rewrite (readMany_ints' _ _ _ L). cbn [readInt].
  assert (L' : n = length (map (countF i N) (seq 0 n))) by (rewrite map_length, seq_length; reflexivity).
  rewrite (readMany_ints' _ _ _ L'). cbn [ignoreLine getline Nat.eqb]. rewrite String.eqb_refl. cbn [readInt ignoreLine].
  rewrite readMany_names. eexists. split; [rewrite rev_involutive; reflexivity|reflexivity].
Qed.
End Reader.
