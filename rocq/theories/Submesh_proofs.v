From Coq Require Import List Arith Bool Lia Sorted Permutation.
From Verif Require Import Loop_model Loop_proofs Std_model Std_proofs StdMap_model StdMap_proofs Submesh_model Submesh_spec.
Import ListNotations.

Ltac splits := repeat match goal with |- _ /\ _ => split end.

(** * Maps *)
Lemma entry_push_back m k x k' : entry (push_back m k x) k' = if k' =? k then entry m k ++ [x] else entry m k'.
Proof.
  unfold entry, push_back. destruct (Nat.eqb_spec k' k) as [->|N].
  - rewrite (mfind_put_same _ nat_strict_total). reflexivity.
  - rewrite (mfind_put_other _ nat_strict_total); [reflexivity|congruence].
Qed.

Definition kept (m : list (nat * list nat)) : Prop := ksorted Nat.ltb m.
Lemma kept_push_back m k x : kept m -> kept (push_back m k x).
Proof. apply mput_sorted, nat_strict_total. Qed.

(** * Sums *)
Lemma partial_sum_from_nth l : forall a i, i < length l -> nth_error (partial_sum_from a l) i = Some (a + list_sum (firstn (S i) l)).
Proof.
  induction l as [|x l IH]; intros a [|i] H; cbn [length partial_sum_from nth_error] in *; try lia.
  - cbn. f_equal. lia.
  - rewrite IH by lia. f_equal. cbn [firstn list_sum fold_right]. unfold list_sum. lia.
Qed.
Lemma sums_nth l i : i <= length l -> nth_error (partial_sum (0 :: l)) i = Some (list_sum (firstn i l)).
Proof. intros H. unfold partial_sum. rewrite partial_sum_from_nth by (cbn; lia). cbn. reflexivity. Qed.

Lemma slice_concat {A} (ls : list (list A)) q l : nth_error ls q = Some l ->
  slice (List.concat ls) (list_sum (firstn q (map (@length A) ls))) (length l) = Some l.
Proof.
  intros H. destruct (nth_error_split _ _ H) as (l1 & l2 & -> & <-). unfold slice.
  assert (E : list_sum (firstn (length l1) (map (@length A) (l1 ++ l :: l2))) = length (List.concat l1)).
  { rewrite map_app, firstn_app, map_length, Nat.sub_diag. cbn [firstn]. rewrite app_nil_r, firstn_all2 by (rewrite map_length; lia).
    clear; induction l1 as [|x l1 IH]; cbn; [reflexivity|rewrite app_length; unfold list_sum in IH; lia]. }
  rewrite E, concat_app, !app_length. cbn [List.concat]. rewrite app_length.
  replace (_ <=? _) with true by (symmetry; apply Nat.leb_le; lia). f_equal.
  rewrite skipn_app, skipn_all, Nat.sub_diag. cbn [skipn app]. rewrite firstn_app, Nat.sub_diag, firstn_all. cbn. apply app_nil_r.
Qed.

(** * Filling the buffer *)
Lemma nth_error_firstn {A} (l : list A) n i : nth_error (firstn n l) i = if i <? n then nth_error l i else None.
Proof.
  revert n i; induction l as [|x l IH]; intros [|n] [|i]; cbn [firstn nth_error]; try reflexivity.
  - destruct (_ <? _); reflexivity.
  - rewrite IH. reflexivity.
Qed.
Lemma nth_error_skipn {A} (l : list A) n i : nth_error (skipn n l) i = nth_error l (n + i).
Proof. revert n i; induction l as [|x l IH]; intros [|n] i; cbn; try reflexivity; [destruct i; reflexivity|apply IH]. Qed.
Lemma fill_ok (els : list nat) start v : start + length els <= length v ->
  exists w, for_loop (length els) (fun k v => x <- nth_error els k; write v (start + k) x) v = Some w /\ length w = length v /\
    forall i, nth_error w i = if (start <=? i) && (i <? start + length els) then nth_error els (i - start) else nth_error v i.
Proof.
  intros H.
  destruct (for_loop_inv (fun k w => length w = length v /\ forall i, nth_error w i = if (start <=? i) && (i <? start + k) then nth_error els (i - start) else nth_error v i)
    (fun k v => x <- nth_error els k; write v (start + k) x) (length els) v) as (w & E & L & I).
  - split; [reflexivity|]. intros i. destruct (Nat.leb_spec start i), (Nat.ltb_spec i (start + 0)); cbn; try reflexivity; lia.
  - intros k w Hk (L & I). destruct (nth_error els k) as [x|] eqn:Ex; [|apply nth_error_None in Ex; lia].
    destruct (write_ok w (start + k) x) as (w' & W & L' & Hw); [lia|]. exists w'. split; [exact W|]. split; [congruence|].
    intros i. rewrite Hw, I. destruct (Nat.eqb_spec i (start + k)) as [->|N].
    + replace (start <=? start + k) with true by (symmetry; apply Nat.leb_le; lia). replace (start + k <? start + S k) with true by (symmetry; apply Nat.ltb_lt; lia).
      cbn. replace (start + k - start) with k by lia. symmetry. exact Ex.
    + destruct (Nat.leb_spec start i), (Nat.ltb_spec i (start + k)), (Nat.ltb_spec i (start + S k)); cbn; try reflexivity; lia.
  - exists w. auto.
Qed.

Definition block (top : nat) (s : submesh) : list nat := sort (elements s ++ [top]).
Lemma block_length top s : length (block top s) = S (length (elements s)).
Proof. unfold block. rewrite sort_length, app_length. cbn. lia. Qed.
Definition counts (system : list submesh) : list nat := map (fun s => S (length (elements s))) system.
Lemma list_sum_firstn_S l i x : nth_error l i = Some x -> list_sum (firstn (S i) l) = list_sum (firstn i l) + x.
Proof.
  revert i; induction l as [|y l IH]; intros [|i] H; cbn in H; try discriminate.
  - injection H as <-. cbn. lia.
  - specialize (IH i H). cbn [firstn] in *. unfold list_sum in *. cbn [fold_right] in *. lia.
Qed.
Lemma list_sum_firstn_le l i : list_sum (firstn i l) <= list_sum l.
Proof. revert i; induction l as [|y l IH]; intros [|i]; cbn; try lia. specialize (IH i). unfold list_sum in *. lia. Qed.

Lemma ownIDs_ok top system r s : nth_error system r = Some s -> ownIDs top system r s = Some (block top s).
Proof.
  intros H. unfold ownIDs, numberOfElements. fold (counts system).
  assert (Hr : r < length system) by (apply nth_error_Some; congruence).
  assert (LC : length (counts system) = length system) by apply map_length.
  assert (EC : nth_error (counts system) r = Some (S (length (elements s)))) by (unfold counts; rewrite nth_error_map, H; reflexivity).
  rewrite !sums_nth by lia. rewrite (list_sum_firstn_S _ _ _ EC). set (start := list_sum (firstn r (counts system))).
  assert (T : start + S (length (elements s)) <= list_sum (firstn (length system) (counts system))).
  { rewrite <- LC, firstn_all. unfold start. rewrite <- (list_sum_firstn_S _ _ _ EC). apply list_sum_firstn_le. }
  destruct (fill_ok (elements s) start (repeat 0 (list_sum (firstn (length system) (counts system))))) as (w & E & L & I); [rewrite repeat_length; lia|].
  rewrite E. rewrite repeat_length in L. destruct (write_ok w (start + length (elements s)) top) as (w' & W & L' & I'); [lia|]. rewrite W.
  replace (start + S (length (elements s)) - start) with (S (length (elements s))) by lia.
  unfold slice. destruct (Nat.leb_spec (start + S (length (elements s))) (length w')) as [_|F]; [|rewrite L', L in F; lia]. f_equal. unfold block. f_equal.
  apply nth_error_ext_le; [rewrite firstn_length, skipn_length, app_length; cbn [length]; rewrite L', L; lia|].
  intros i Hi. rewrite firstn_length, skipn_length in Hi. rewrite nth_error_firstn. replace (i <? _) with true by (symmetry; apply Nat.ltb_lt; lia).
  rewrite nth_error_skipn, I'. destruct (Nat.eqb_spec (start + i) (start + length (elements s))) as [Ei|Ni].
  - assert (i = length (elements s)) as -> by lia. rewrite nth_error_app2 by lia. rewrite Nat.sub_diag. reflexivity.
  - rewrite I. replace (start <=? start + i) with true by (symmetry; apply Nat.leb_le; lia). replace (start + i <? _) with true by (symmetry; apply Nat.ltb_lt; lia).
    cbn. rewrite nth_error_app1 by lia. f_equal. lia.
Qed.
Lemma map_seq_nth {A B} (l : list A) (f : A -> B) (d : A) : map (fun i => f (nth i l d)) (seq 0 (length l)) = map f l.
Proof.
  apply nth_error_ext_le; [rewrite !map_length, seq_length; reflexivity|]. intros i Hi. rewrite map_length, seq_length in Hi.
  rewrite nth_error_map_seq by exact Hi. rewrite nth_error_map, (nth_error_nth' _ d) by exact Hi. reflexivity.
Qed.
Lemma collect_map {A B} (l : list A) (f : nat -> option B) (g : A -> B) : (forall i x, nth_error l i = Some x -> f i = Some (g x)) -> collect (length l) f = Some (map g l).
Proof.
  intros H. destruct l as [|d l'] eqn:El; [reflexivity|]. rewrite <- El in *. clear El l'.
  rewrite (collect_ok _ f (fun i => g (nth i l d))).
  - rewrite map_seq_nth. reflexivity.
  - intros i Hi. apply H. apply nth_error_nth'. exact Hi.
Qed.
Lemma elementIDs_ok top system : elementIDs top system = Some (List.concat (map (block top) system)).
Proof.
  unfold elementIDs. rewrite (collect_map system _ (block top)); [reflexivity|]. intros r s H. rewrite H. apply ownIDs_ok. exact H.
Qed.
Lemma skipn_blocks top system i s : nth_error system i = Some s ->
  exists rest, skipn (list_sum (firstn i (counts system))) (List.concat (map (block top) system)) = block top s ++ rest.
Proof.
  intros H. destruct (nth_error_split _ _ H) as (a & b & -> & <-). unfold counts.
  rewrite map_app, firstn_app, map_length, Nat.sub_diag. cbn [map firstn]. rewrite app_nil_r.
  rewrite firstn_all2 by (rewrite map_length; lia).
  replace (list_sum _) with (length (List.concat (map (block top) a))).
  - rewrite map_app, concat_app, skipn_app, skipn_all, Nat.sub_diag. cbn. eexists. reflexivity.
  - clear. induction a as [|x a IH]; [reflexivity|]. cbn [map List.concat]. rewrite app_length, block_length, IH. reflexivity.
Qed.

(** * Searching *)
Fixpoint drop_below (b : nat) (l : list nat) : list nat := match l with [] => [] | x :: r => if x <? b then drop_below b r else l end.
Lemma drop_drop b c l : b <= c -> drop_below c (drop_below b l) = drop_below c l.
Proof.
  intros H. induction l as [|x l IH]; [reflexivity|]. cbn [drop_below]. destruct (Nat.ltb_spec x b) as [Hx|Hx]; [|reflexivity].
  rewrite IH. replace (x <? c) with true by (symmetry; apply Nat.ltb_lt; lia). reflexivity.
Qed.
Lemma drop_0 l : drop_below 0 l = l.
Proof. destruct l; reflexivity. Qed.
Lemma drop_in b l x : b <= x -> In x l -> In x (drop_below b l).
Proof.
  intros H. induction l as [|y l IH]; intros I; [destruct I|]. cbn [drop_below]. destruct (Nat.ltb_spec y b) as [Hy|Hy]; [|exact I].
  apply IH. destruct I as [->|I]; [lia|exact I].
Qed.
Lemma advance_ok l rest id x : In x l -> id <= x -> advance (l ++ rest) id = Some (drop_below id l ++ rest).
Proof.
  intros I H. induction l as [|y l IH]; [destruct I|]. cbn [app advance drop_below]. destruct (Nat.ltb_spec y id) as [Hy|Hy]; [|reflexivity].
  apply IH. destruct I as [->|I]; [lia|exact I].
Qed.
Lemma drop_in_inv b l x : In x (drop_below b l) -> In x l.
Proof. induction l as [|y l IH]; intros I; [exact I|]. cbn [drop_below] in I. destruct (y <? b); [right; apply IH, I|exact I]. Qed.
Lemma drop_head b l p : sorted_from p l -> In b l -> exists r, drop_below b l = b :: r.
Proof.
  revert p; induction l as [|y l IH]; intros p S I; [destruct I|]. cbn [drop_below]. destruct S as (Sy & S). destruct (Nat.ltb_spec y b) as [Hy|Hy].
  - apply (IH _ S). destruct I as [->|I]; [lia|exact I].
  - destruct I as [->|I]; [eexists; reflexivity|]. pose proof (sorted_from_in _ _ _ S I). assert (y = b) as -> by lia. eexists. reflexivity.
Qed.

Definition memb (e : nat) (l : list nat) : bool := existsb (Nat.eqb e) l.
Lemma memb_in e l : memb e l = true <-> In e l.
Proof. unfold memb. rewrite existsb_exists. split; [intros (x & I & E); apply Nat.eqb_eq in E; subst; exact I|intros I; exists e; split; [exact I|apply Nat.eqb_refl]]. Qed.
(** what process [rank] will receive of process [j], of the requested elements *)
Definition wanted (rank : nat) (requested : list nat) (j : nat) (s : submesh) : list nat :=
  if j =? rank then [] else filter (fun e => memb e (elements s)) requested.
Lemma wanted_app rank l x j s : wanted rank (l ++ [x]) j s = wanted rank l j s ++ (if j =? rank then [] else if memb x (elements s) then [x] else []).
Proof. unfold wanted. destruct (j =? rank); [reflexivity|]. rewrite filter_app. cbn. reflexivity. Qed.

Section Search.
Variables (top : nat) (system : list submesh) (rank : nat) (old : list (nat * list nat)).
Definition col (done : list nat) (j : nat) (st : searching) : Prop :=
  exists s b rest its pl np, nth_error system j = Some s /\ st = (its, pl, np) /\
    nth_error its j = Some (drop_below b (block top s) ++ rest) /\ (b = 0 \/ In b done) /\
    nth_error np j = Some (wanted rank done j s) /\ entry pl j = entry old j ++ wanted rank done j s.
Definition frame (st : searching) : Prop :=
  length (fst (fst st)) = length system /\ length (snd st) = length system /\ (forall k, length system <= k -> entry (snd (fst st)) k = entry old k) /\ (kept old -> kept (snd (fst st))).

Lemma requestFrom_ok done id i st : i < length system -> id < top -> (forall x, In x done -> x < id) -> frame st -> col done i st ->
  (forall s, nth_error system i = Some s -> forall e, In e (elements s) -> e < top) ->
  exists st', requestFrom rank id i st = Some st' /\ frame st' /\ col (done ++ [id]) i st' /\ forall j d, j <> i -> col d j st -> col d j st'.
Proof.
  intros Hi Ht Hd (F1 & F2 & F3 & F4) (s & b & rest & its & pl & np & Hs & -> & Hit & Hb & Hnp & Hpl) Hel. specialize (Hel s Hs). cbn [fst snd] in F1, F2, F3, F4.
  unfold requestFrom. destruct (Nat.eqb_spec i rank) as [Er|Nr].
  { eexists. split; [reflexivity|]. split; [unfold frame; splits; assumption|]. split; [|auto].
    exists s, b, rest, its, pl, np. rewrite wanted_app. apply Nat.eqb_eq in Er. rewrite Er, app_nil_r. splits; auto.
    destruct Hb as [->|Hb]; [left; reflexivity|right; apply in_or_app; left; exact Hb]. }
  rewrite Hit.
  assert (Hbi : b <= id) by (destruct Hb as [->|Hb]; [lia|specialize (Hd b Hb); lia]).
  assert (It : In top (drop_below b (block top s))).
  { apply drop_in; [lia|]. unfold block. apply sort_in, in_or_app. right. left. reflexivity. }
  rewrite (advance_ok _ _ id top It) by lia. rewrite drop_drop by exact Hbi.
  destruct (write_ok its i (drop_below id (block top s) ++ rest)) as (its' & W & LW & NW); [lia|]. rewrite W.
  assert (Other : forall j d pl' np', j <> i -> (forall k, k <> i -> nth_error np' k = nth_error np k) -> (forall k, k <> i -> entry pl' k = entry pl k) ->
    col d j (its, pl, np) -> col d j (its', pl', np')).
  { intros j d pl' np' Nj HN HP (s2 & b2 & r2 & a1 & a2 & a3 & A1 & A2 & A3 & A4 & A5 & A6). injection A2 as <- <- <-.
    exists s2, b2, r2, its', pl', np'. splits; auto.
    - rewrite NW. destruct (Nat.eqb_spec j i); [contradiction|exact A3].
    - rewrite HN by exact Nj. exact A5.
    - rewrite HP by exact Nj. exact A6. }
  assert (It2 : In top (drop_below id (block top s))).
  { apply drop_in; [lia|]. unfold block. apply sort_in, in_or_app. right. left. reflexivity. }
  destruct (drop_below id (block top s)) as [|x r] eqn:Edrop; [destruct It2|]. cbn [app].
  assert (Head : (x =? id) = memb id (elements s)).
  { destruct (memb id (elements s)) eqn:Em.
    - apply memb_in in Em. destruct (drop_head id (block top s) 0 (sort_sorted _)) as (r' & Er').
      { unfold block. apply sort_in, in_or_app. left. exact Em. }
      rewrite Er' in Edrop. injection Edrop as <- <-. apply Nat.eqb_refl.
    - apply Nat.eqb_neq. intros ->. assert (I : In id (block top s)) by (apply (drop_in_inv id); rewrite Edrop; left; reflexivity).
      unfold block in I. apply (proj1 (sort_in _ _)) in I. apply in_app_or in I. destruct I as [I|[I|[]]]; [|lia]. apply memb_in in I. congruence. }
  rewrite Head. assert (Wd : wanted rank (done ++ [id]) i s = wanted rank done i s ++ if memb id (elements s) then [id] else []).
  { rewrite wanted_app. destruct (Nat.eqb_spec i rank); [contradiction|reflexivity]. }
  assert (Hit' : nth_error its' i = Some (drop_below id (block top s) ++ rest)) by (rewrite NW, Nat.eqb_refl, Edrop; reflexivity).
  destruct (memb id (elements s)).
  - rewrite Hnp. destruct (write_ok np i (wanted rank done i s ++ [id])) as (np' & W2 & LW2 & NW2); [lia|]. rewrite W2.
    eexists. split; [reflexivity|]. split.
    { split; [cbn; lia|]. split; [cbn; lia|]. cbn. split; [|intros K; apply kept_push_back, F4, K].
      intros k Hk. rewrite entry_push_back. destruct (Nat.eqb_spec k i); [lia|]. apply F3, Hk. }
    split.
    { exists s, id, rest, its', (push_back pl i id), np'. splits; auto.
      - right. apply in_or_app. right. left. reflexivity.
      - rewrite NW2, Nat.eqb_refl. f_equal. symmetry. exact Wd.
      - rewrite entry_push_back, Nat.eqb_refl, Wd, Hpl, app_assoc. reflexivity. }
    { intros j d Nj. apply Other; [exact Nj| |].
      - intros k Hk. rewrite NW2. destruct (Nat.eqb_spec k i); [contradiction|reflexivity].
      - intros k Hk. rewrite entry_push_back. destruct (Nat.eqb_spec k i); [contradiction|reflexivity]. }
  - eexists. split; [reflexivity|]. split.
    { split; [cbn; lia|]. split; [cbn; lia|]. split; [exact F3|exact F4]. }
    split.
    { exists s, id, rest, its', pl, np. rewrite Wd, app_nil_r. splits; auto. right. apply in_or_app. right. left. reflexivity. }
    { intros j d Nj. apply Other; auto. }
Qed.

Hypothesis below : forall i s, nth_error system i = Some s -> forall e, In e (elements s) -> e < top.

Lemma request_ok done id st : id < top -> (forall x, In x done -> x < id) -> frame st -> (forall j, j < length system -> col done j st) ->
  exists st', for_loop (length system) (requestFrom rank id) st = Some st' /\ frame st' /\ forall j, j < length system -> col (done ++ [id]) j st'.
Proof.
  intros Ht Hd F C.
  destruct (for_loop_inv (fun i st => frame st /\ forall j, j < length system -> col (if j <? i then done ++ [id] else done) j st)
    (requestFrom rank id) (length system) st) as (st' & E & F' & C').
  - split; [exact F|]. exact C.
  - intros i st1 Hi (F1 & C1). pose proof (C1 i Hi) as Ci. rewrite Nat.ltb_irrefl in Ci.
    destruct (requestFrom_ok done id i st1 Hi Ht Hd F1 Ci (below i)) as (st2 & E2 & F2 & Ci' & O). exists st2. split; [exact E2|]. split; [exact F2|].
    intros j Hj. destruct (Nat.eq_dec j i) as [->|N].
    + replace (i <? S i) with true by (symmetry; apply Nat.ltb_lt; lia). exact Ci'.
    + apply O; [exact N|]. specialize (C1 j Hj). destruct (Nat.ltb_spec j i), (Nat.ltb_spec j (S i)); try exact C1; lia.
  - exists st'. split; [exact E|]. split; [exact F'|]. intros j Hj. specialize (C' j Hj). destruct (Nat.ltb_spec j (length system)); [exact C'|lia].
Qed.

Lemma requests_ok requested st : (forall x, In x requested -> x < top) -> StronglySorted lt requested -> frame st -> (forall j, j < length system -> col [] j st) ->
  exists st', for_loop (length requested) (fun k st => id <- nth_error requested k; for_loop (length system) (requestFrom rank id) st) st = Some st' /\
    frame st' /\ forall j, j < length system -> col requested j st'.
Proof.
  intros Ht Hs F C.
  destruct (for_loop_inv (fun k st => frame st /\ forall j, j < length system -> col (firstn k requested) j st)
    (fun k st => id <- nth_error requested k; for_loop (length system) (requestFrom rank id) st) (length requested) st) as (st' & E & F' & C').
  - split; assumption.
  - intros k st1 Hk (F1 & C1). destruct (nth_error requested k) as [id|] eqn:Ek; [|apply nth_error_None in Ek; lia].
    destruct (nth_error_split _ _ Ek) as (a & b & Eab & La). subst k.
    assert (Fa : firstn (length a) requested = a) by (rewrite Eab, firstn_app, Nat.sub_diag, firstn_all; apply app_nil_r).
    assert (Fb : firstn (S (length a)) requested = a ++ [id]).
    { rewrite Eab, firstn_app. replace (S (length a) - length a) with 1 by lia. rewrite firstn_all2 by lia. reflexivity. }
    rewrite Fa in C1. rewrite Fb. apply request_ok; [apply Ht; rewrite Eab; apply in_or_app; right; left; reflexivity| |exact F1|exact C1].
    intros x Hx. rewrite Eab in Hs. clear -Hs Hx. induction a as [|y a IH]; [destruct Hx|]. cbn in Hs. inversion Hs as [|? ? S2 S3]; subst.
    destruct Hx as [->|Hx]; [|apply IH; assumption]. rewrite Forall_forall in S3. apply S3, in_or_app. right. left. reflexivity.
  - exists st'. rewrite firstn_all in C'. auto.
Qed.
End Search.

Definition sendable (top : nat) (system : list submesh) : Prop :=
  forall i s, nth_error system i = Some s -> (forall e, In e (elements s) -> e < top) /\ (forall e, In e (otherPulls s) -> e < top) /\ StronglySorted lt (otherPulls s).

(** the lists of all processes after the search *)
Record found (system : list submesh) (r : nat) (s : submesh) (pl : list (nat * list nat)) (np : list (list nat)) : Prop := {
  f_length : length np = length system;
  f_np : forall j t, nth_error system j = Some t -> nth_error np j = Some (wanted r (otherPulls s) j t);
  f_pulls : forall j t, nth_error system j = Some t -> entry pl j = entry (pullElements s) j ++ wanted r (otherPulls s) j t;
  f_beyond : forall k, length system <= k -> entry pl k = entry (pullElements s) k;
  f_kept : kept (pullElements s) -> kept pl }.

Lemma insertPullRequests_ok top system r s : sendable top system -> nth_error system r = Some s ->
  exists pl np, insertPullRequests (List.concat (map (block top) system)) system r s = Some (pl, np) /\ found system r s pl np.
Proof.
  intros Hs Hr. unfold insertPullRequests, numberOfElements. fold (counts system).
  assert (LC : length (counts system) = length system) by apply map_length.
  rewrite (collect_ok _ _ (fun i => skipn (list_sum (firstn i (counts system))) (List.concat (map (block top) system)))).
  2:{ intros i Hi. rewrite sums_nth by lia. reflexivity. }
  set (its := map _ _).
  assert (Li : length its = length system) by (unfold its; rewrite map_length, seq_length; reflexivity).
  destruct (Hs r s Hr) as (_ & Ho & So).
  destruct (requests_ok top system r (pullElements s)) with (requested := otherPulls s) (st := (its, pullElements s, repeat (@nil nat) (length system)))
    as ([[its' pl] np] & E & (F1 & F2 & F3 & F4) & C).
  - intros i t Ht. exact (proj1 (Hs i t Ht)).
  - exact Ho.
  - exact So.
  - split; [exact Li|]. split; [apply repeat_length|]. split; [reflexivity|auto].
  - intros j Hj. destruct (nth_error system j) as [t|] eqn:Et; [|apply nth_error_None in Et; lia].
    destruct (skipn_blocks top system j t Et) as (rest & Er).
    exists t, 0, rest, its, (pullElements s), (repeat [] (length system)). splits.
    + exact Et.
    + reflexivity.
    + unfold its. rewrite nth_error_map_seq by exact Hj. rewrite Er, drop_0. reflexivity.
    + left. reflexivity.
    + unfold wanted. cbn. rewrite (nth_error_nth' _ []) by (rewrite repeat_length; exact Hj). rewrite nth_repeat. destruct (j =? r); reflexivity.
    + unfold wanted. cbn. destruct (j =? r); symmetry; apply app_nil_r.
  - rewrite E. exists pl, np. split; [reflexivity|]. cbn in F2, F3. split; [exact F2| | |exact F3|exact F4];
      intros j t Ht; destruct (C j) as (t' & b & rest & a1 & a2 & a3 & A1 & A2 & A3 & A4 & A5 & A6);
      try (apply nth_error_Some; congruence); injection A2 as <- <- <-; assert (t' = t) by congruence; subst; assumption.
Qed.

(** * Receiving *)
Section Receive.
Variables (all : list (list (list nat))) (q : nat) (s : submesh).
Hypothesis square : forall p np, nth_error all p = Some np -> q < length np.
Let parts := map (fun np => nth q np []) all.

Lemma numberOfRecieveElements_ok : numberOfRecieveElements all q = Some (0 :: map (@length nat) parts).
Proof.
  unfold numberOfRecieveElements. rewrite (collect_map all _ (fun np => length (nth q np []))).
  - unfold parts. rewrite map_map. reflexivity.
  - intros p np H. rewrite H. cbn. rewrite nth_error_map, (nth_error_nth' _ []) by exact (square p np H). reflexivity.
Qed.
Lemma recieveBuffer_ok : recieveBuffer all q = Some (List.concat parts).
Proof.
  unfold recieveBuffer. rewrite (collect_map all _ (fun np => nth q np [])); [reflexivity|].
  intros p np H. rewrite H. pose proof (square p np H) as Hq. unfold numberOfSendElements. rewrite sums_nth by (rewrite map_length; lia).
  assert (E : nth_error np q = Some (nth q np [])) by (apply nth_error_nth'; exact Hq).
  cbn [nth_error]. rewrite nth_error_map, E. cbn [option_map]. unfold sendBuffer. apply slice_concat, E.
Qed.

Lemma push_all (l : list nat) i buffer start : forall pushes,
  (forall k, k < length l -> nth_error buffer (start + k) = nth_error l k) -> (forall e, In e l -> In e (elements s)) ->
  exists pushes', for_from start (length l) (fun j pushes => id <- nth_error buffer j; if existsb (Nat.eqb id) (elements s) then Some (push_back pushes i id) else None) pushes = Some pushes' /\
    (forall k, entry pushes' k = if k =? i then entry pushes i ++ l else entry pushes k) /\ (kept pushes -> kept pushes').
Proof.
  revert start. induction l as [|x l IH]; intros start pushes HB HE.
  - exists pushes. split; [reflexivity|]. split; [|auto]. intros k. destruct (Nat.eqb_spec k i) as [->|N]; [symmetry; apply app_nil_r|reflexivity].
  - cbn [length for_from]. pose proof (HB 0 ltac:(cbn; lia)) as H0. rewrite Nat.add_0_r in H0. rewrite H0. cbn [nth_error].
    replace (existsb (Nat.eqb x) (elements s)) with true by (symmetry; apply (memb_in x), HE; left; reflexivity).
    destruct (IH (S start) (push_back pushes i x)) as (p' & E & H & HK).
    + intros k Hk. specialize (HB (S k) ltac:(cbn; lia)). cbn [nth_error] in HB. rewrite <- HB. f_equal. lia.
    + intros e He. apply HE. right. exact He.
    + exists p'. split; [exact E|]. split; [|intros K; apply HK, kept_push_back, K]. intros k. rewrite H, !entry_push_back, Nat.eqb_refl, <- app_assoc. destruct (Nat.eqb_spec k i); reflexivity.
Qed.

Lemma insertPushes_ok : (forall l e, In l parts -> In e l -> In e (elements s)) ->
  exists pushes, insertPushes all q s = Some pushes /\
    (forall i l, nth_error parts i = Some l -> entry pushes i = entry (pushElements s) i ++ l) /\
    (forall k, length all <= k -> entry pushes k = entry (pushElements s) k) /\ (kept (pushElements s) -> kept pushes).
Proof.
  intros HE. unfold insertPushes. rewrite numberOfRecieveElements_ok, recieveBuffer_ok.
  assert (LP : length parts = length all) by (unfold parts; apply map_length).
  match goal with |- context [for_loop ?n ?b ?st0] =>
    destruct (for_loop_inv (fun i st => fst st = list_sum (firstn i (map (@length nat) parts)) /\
      (forall k, entry (snd st) k = entry (pushElements s) k ++ if k <? i then nth k parts [] else []) /\ (kept (pushElements s) -> kept (snd st))) b n st0) as ([k pushes] & E & H) end.
  - split; [reflexivity|]. split; [|auto]. intros k. symmetry. apply app_nil_r.
  - intros i [k pushes] Hi (Hk & HP & HQ). cbn [fst snd] in Hk, HP, HQ.
    assert (El : nth_error parts i = Some (nth i parts [])) by (apply nth_error_nth'; lia). set (l := nth i parts []) in *.
    assert (EL : nth_error (map (@length nat) parts) i = Some (length l)) by (rewrite nth_error_map, El; reflexivity).
    rewrite sums_nth by (rewrite map_length; lia). rewrite (list_sum_firstn_S _ _ _ EL), <- Hk. replace (k + length l - k) with (length l) by lia.
    destruct (push_all l i (List.concat parts) k pushes) as (p' & E & H & HK).
    + intros j Hj. pose proof (slice_concat parts i l El) as Sl. rewrite <- Hk in Sl. unfold slice in Sl.
      destruct (_ <=? _) in Sl; [|discriminate]. injection Sl as Sl. rewrite <- nth_error_skipn.
      transitivity (nth_error (firstn (length l) (skipn k (List.concat parts))) j); [|rewrite Sl; reflexivity].
      rewrite nth_error_firstn. replace (j <? length l) with true by (symmetry; apply Nat.ltb_lt; exact Hj). reflexivity.
    + intros e He. apply (HE l e); [eapply nth_error_In; exact El|exact He].
    + rewrite E. eexists. split; [reflexivity|]. cbn [fst snd]. split; [reflexivity|]. split; [|auto].
      intros j. rewrite H. destruct (Nat.eqb_spec j i) as [->|N].
      * rewrite HP, Nat.ltb_irrefl, app_nil_r. replace (i <? S i) with true by (symmetry; apply Nat.ltb_lt; lia). reflexivity.
      * rewrite HP. destruct (Nat.ltb_spec j i), (Nat.ltb_spec j (S i)); try reflexivity; lia.
  - rewrite E. destruct H as (_ & H & HK). exists pushes. split; [reflexivity|]. cbn [snd] in H, HK. splits; [| |exact HK].
    + intros i l Hl. rewrite H. assert (i < length parts) by (apply nth_error_Some; congruence).
      replace (i <? length all) with true by (symmetry; apply Nat.ltb_lt; lia). rewrite (nth_error_nth parts i [] Hl). reflexivity.
    + intros i Hi. rewrite H. replace (i <? length all) with false by (symmetry; apply Nat.ltb_ge; lia). apply app_nil_r.
Qed.
End Receive.

(** * The whole function *)
Record processed (system system' : list submesh) : Prop := {
  p_length : length system' = length system;
  p_elements : forall r s, nth_error system r = Some s -> exists s', nth_error system' r = Some s' /\ elements s' = elements s /\ otherPulls s' = [];
  p_pulls : forall p q s t, nth_error system p = Some s -> nth_error system q = Some t -> pulls system' p q = pulls system p q ++ wanted p (otherPulls s) q t;
  p_pushes : forall p q s t, nth_error system p = Some s -> nth_error system q = Some t -> pushes system' q p = pushes system q p ++ wanted p (otherPulls s) q t;
  p_beyond : forall p q, length system <= q -> pulls system' p q = pulls system p q /\ pushes system' p q = pushes system p q;
  p_kept : (forall r s, nth_error system r = Some s -> kept (pullElements s) /\ kept (pushElements s)) ->
    forall r s, nth_error system' r = Some s -> kept (pullElements s) /\ kept (pushElements s) }.

Lemma collect_exists {A B} (l : list A) (f : nat -> option B) (P : nat -> A -> B -> Prop) : (forall i x, nth_error l i = Some x -> exists y, f i = Some y /\ P i x y) ->
  exists ys, collect (length l) f = Some ys /\ length ys = length l /\ forall i x, nth_error l i = Some x -> exists y, nth_error ys i = Some y /\ P i x y.
Proof.
  intros H.
  destruct (for_loop_inv (fun k acc => length acc = k /\ forall i x, i < k -> nth_error l i = Some x -> exists y, nth_error acc i = Some y /\ P i x y)
    (fun i acc => match f i with None => None | Some x => Some (acc ++ [x]) end) (length l) []) as (ys & E & L & I).
  - split; [reflexivity|]. intros; lia.
  - intros k acc Hk (L & I). destruct (nth_error l k) as [x|] eqn:Ex; [|apply nth_error_None in Ex; lia].
    destruct (H k x Ex) as (y & Ey & Py). rewrite Ey. eexists. split; [reflexivity|]. split; [rewrite app_length; cbn; lia|].
    intros i x' Hi Hx'. destruct (Nat.eq_dec i k) as [->|N].
    + assert (x' = x) by congruence. subst. exists y. split; [rewrite nth_error_app2 by lia; rewrite Nat.sub_diag; reflexivity|exact Py].
    + destruct (I i x' ltac:(lia) Hx') as (y' & Ey' & Py'). exists y'. split; [rewrite nth_error_app1 by lia; exact Ey'|exact Py'].
  - exists ys. split; [exact E|]. split; [exact L|]. intros i x Hx. apply (I i x); [apply nth_error_Some; congruence|exact Hx].
Qed.

Lemma wanted_nil p q t : wanted p [] q t = [].
Proof. unfold wanted. destruct (_ =? _); reflexivity. Qed.

Lemma processPullRequests_ok top system : sendable top system -> exists system', processPullRequests top system = Some system' /\ processed system system'.
Proof.
  intros Hs. unfold processPullRequests.
  destruct (existsb (fun s => negb (length (otherPulls s) =? 0)) system) eqn:Ework.
  2:{ assert (Z : forall r s, nth_error system r = Some s -> otherPulls s = []).
      { intros r s H. destruct (otherPulls s) as [|x l] eqn:E; [reflexivity|]. exfalso. rewrite <- not_true_iff_false in Ework. apply Ework.
        apply existsb_exists. exists s. split; [eapply nth_error_In; exact H|]. rewrite E. reflexivity. }
      exists system. split; [reflexivity|]. split.
      - reflexivity.
      - intros r s H. exists s. rewrite (Z r s H). auto.
      - intros p q s t H _. rewrite (Z p s H), wanted_nil, app_nil_r. reflexivity.
      - intros p q s t H _. rewrite (Z p s H), wanted_nil, app_nil_r. reflexivity.
      - auto.
      - auto. }
  rewrite elementIDs_ok.
  destruct (collect_exists system (fun r => s <- nth_error system r; insertPullRequests (List.concat (map (block top) system)) system r s)
    (fun r s y => found system r s (fst y) (snd y))) as (fs & E & LF & HF).
  { intros r s H. rewrite H. destruct (insertPullRequests_ok top system r s Hs H) as (pl & np & E & F). exists (pl, np). auto. }
  rewrite E. set (all := map snd fs).
  assert (LA : length all = length system) by (unfold all; rewrite map_length; exact LF).
  assert (HA : forall p np, nth_error all p = Some np -> exists s pl, nth_error system p = Some s /\ nth_error fs p = Some (pl, np) /\ found system p s pl np).
  { intros p np H. assert (Hp : p < length system) by (rewrite <- LA; apply nth_error_Some; congruence).
    destruct (nth_error system p) as [s|] eqn:Es; [|apply nth_error_None in Es; lia]. destruct (HF p s Es) as ([pl np'] & Ef & F).
    unfold all in H. rewrite nth_error_map, Ef in H. injection H as <-. exists s, pl. auto. }
  assert (Square : forall q, q < length system -> forall p np, nth_error all p = Some np -> q < length np).
  { intros q Hq p np H. destruct (HA p np H) as (s & pl & _ & _ & F). rewrite (f_length _ _ _ _ _ F). exact Hq. }
  assert (Parts : forall q t, nth_error system q = Some t -> forall p s, nth_error system p = Some s -> nth_error (map (fun np => nth q np []) all) p = Some (wanted p (otherPulls s) q t)).
  { intros q t Ht p s Hp. destruct (HF p s Hp) as ([pl np] & Ef & F). rewrite nth_error_map. unfold all. rewrite nth_error_map, Ef. cbn.
    f_equal. apply nth_error_nth. exact (f_np _ _ _ _ _ F q t Ht). }
  destruct (collect_exists system (fun r => s <- nth_error system r; new <- nth_error fs r; pushes <- insertPushes all r s;
      Some (Submesh (elements s) (fst new) pushes []))
    (fun r s s' => elements s' = elements s /\ otherPulls s' = [] /\
      (forall j t, nth_error system j = Some t -> entry (pullElements s') j = entry (pullElements s) j ++ wanted r (otherPulls s) j t) /\
      (forall k, length system <= k -> entry (pullElements s') k = entry (pullElements s) k) /\
      (forall p t, nth_error system p = Some t -> entry (pushElements s') p = entry (pushElements s) p ++ wanted p (otherPulls t) r s) /\
      (forall k, length system <= k -> entry (pushElements s') k = entry (pushElements s) k) /\
      (kept (pullElements s) -> kept (pullElements s')) /\ (kept (pushElements s) -> kept (pushElements s')))) as (system' & E' & L' & H').
  { intros r s Hr. rewrite Hr. destruct (HF r s Hr) as ([pl np] & Ef & F). rewrite Ef.
    destruct (insertPushes_ok all r s) as (ps & Ep & HP & HB & HK).
    - apply Square. apply nth_error_Some. congruence.
    - intros l e Hl He. apply In_nth_error in Hl. destruct Hl as (p & Hl).
      assert (Hp : p < length system) by (rewrite <- LA, <- (map_length (fun np => nth r np []) all); apply nth_error_Some; congruence).
      destruct (nth_error system p) as [t|] eqn:Et; [|apply nth_error_None in Et; lia]. rewrite (Parts r s Hr p t Et) in Hl. injection Hl as <-.
      unfold wanted in He. destruct (r =? p); [destruct He|]. apply filter_In in He. apply memb_in, He.
    - rewrite Ep. eexists. split; [reflexivity|]. cbn [elements otherPulls pullElements pushElements fst]. splits.
      + reflexivity.
      + reflexivity.
      + intros j t Ht. exact (f_pulls _ _ _ _ _ F j t Ht).
      + exact (f_beyond _ _ _ _ _ F).
      + intros p t Ht. apply HP. apply (Parts r s Hr p t Ht).
      + rewrite <- LA. exact HB.
      + exact (f_kept _ _ _ _ _ F).
      + exact HK. }
  exists system'. split; [exact E'|]. split.
  - exact L'.
  - intros r s Hr. destruct (H' r s Hr) as (s' & A & B & C & _). exists s'. auto.
  - intros p q s t Hp Hq. destruct (H' p s Hp) as (s' & A & B). unfold pulls. rewrite A, Hp. apply B, Hq.
  - intros p q s t Hp Hq. destruct (H' q t Hq) as (s' & A & B). unfold pushes. rewrite A, Hq. apply B, Hp.
  - intros p q Hq. unfold pulls, pushes. destruct (nth_error system p) as [s|] eqn:Hp.
    + destruct (H' p s Hp) as (s' & A & B). rewrite A. split; apply B, Hq.
    + replace (nth_error system' p) with (@None submesh); [split; reflexivity|]. symmetry. apply nth_error_None. rewrite L'. apply nth_error_None, Hp.
  - intros K r s' Hs'. assert (Hr : r < length system) by (rewrite <- L'; apply nth_error_Some; congruence).
    destruct (nth_error system r) as [s|] eqn:Es; [|apply nth_error_None in Es; lia]. destruct (H' r s Es) as (s2 & A & B).
    assert (s2 = s') by congruence. subst. destruct (K r s Es) as (K1 & K2). split; apply B; assumption.
Qed.
