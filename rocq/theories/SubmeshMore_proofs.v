From Coq Require Import List Arith Bool Lia Sorted Permutation.
From Verif Require Import Loop_model Loop_proofs Std_model Std_proofs StdMap_model StdMap_proofs Submesh_model Submesh_spec Submesh_proofs.
Import ListNotations.

(** * Reading the mesh *)
Fixpoint select (f : line -> bool) (first : nat) (lines : list line) : list nat :=
  match lines with [] => [] | l :: r => (if f l then [first] else []) ++ select f (S first) r end.
Lemma select_in f lines : forall first e, In e (select f first lines) <-> exists i l, nth_error lines i = Some l /\ e = first + i /\ f l = true.
Proof.
  induction lines as [|l r IH]; intros first e; cbn [select].
  - split; [intros []|]. intros ([|i] & l & H & _); discriminate.
  - rewrite in_app_iff, IH. split.
    + intros [H|(i & l' & A & B & C)]; [destruct (f l) eqn:E; [destruct H as [<-|[]]|destruct H]; exists 0, l; splits; auto|exists (S i), l'; splits; auto; lia].
    + intros ([|i] & l' & A & B & C).
      * left. cbn in A. injection A as <-. rewrite C. left. lia.
      * right. exists i, l'. splits; auto. lia.
Qed.
Lemma select_ext f g lines : (forall l, In l lines -> f l = g l) -> forall first, select f first lines = select g first lines.
Proof. induction lines as [|l r IH]; intros H first; [reflexivity|]. cbn [select]. rewrite (H l) by (left; reflexivity). rewrite IH by (intros; apply H; right; assumption). reflexivity. Qed.
Lemma select_none f lines : (forall l, In l lines -> f l = false) -> forall first, select f first lines = [].
Proof. induction lines as [|l r IH]; intros H first; [reflexivity|]. cbn [select]. rewrite (H l) by (left; reflexivity). rewrite IH by (intros; apply H; right; assumption). reflexivity. Qed.
Lemma select_nodup f lines : forall first, NoDup (select f first lines).
Proof.
  induction lines as [|l r IH]; intros first; cbn [select]; [constructor|]. destruct (f l); [|apply IH]. cbn. constructor; [|apply IH].
  rewrite select_in. intros (i & l' & _ & E & _). lia.
Qed.

Lemma addPushes l id : forall s, NoDup l ->
  elements (fold_left (fun s sp => addPush s id sp) l s) = elements s /\ pullElements (fold_left (fun s sp => addPush s id sp) l s) = pullElements s /\
  otherPulls (fold_left (fun s sp => addPush s id sp) l s) = otherPulls s /\
  (forall k, entry (pushElements (fold_left (fun s sp => addPush s id sp) l s)) k = entry (pushElements s) k ++ if memb k l then [id] else []) /\
  (kept (pushElements s) -> kept (pushElements (fold_left (fun s sp => addPush s id sp) l s))).
Proof.
  induction l as [|x l IH]; intros s ND; cbn [fold_left].
  - splits; auto. intros k. symmetry. apply app_nil_r.
  - inversion ND as [|? ? Nx ND']; subst. destruct (IH (addPush s id x) ND') as (A & B & C & D & E). cbn [addPush elements pullElements pushElements otherPulls] in *.
    splits; auto.
    + intros k. rewrite D, entry_push_back. unfold memb at 2. cbn [existsb]. fold (memb k l). destruct (Nat.eqb_spec k x) as [->|N].
      * replace (memb x l) with false; [cbn; apply app_nil_r|]. symmetry. apply not_true_iff_false. rewrite memb_in. exact Nx.
      * reflexivity.
    + intros K. apply E, kept_push_back, K.
Qed.

Lemma readElements_ok p lines : (forall l, In l lines -> NoDup (shadowPartitions l)) -> forall first s,
  elements (readElements p first lines s) = elements s ++ select (fun l => partition l =? p) first lines /\
  otherPulls (readElements p first lines s) = otherPulls s /\
  (forall q, entry (pullElements (readElements p first lines s)) q = entry (pullElements s) q ++
    select (fun l => negb (partition l =? p) && memb p (shadowPartitions l) && (partition l =? q)) first lines) /\
  (forall q, entry (pushElements (readElements p first lines s)) q = entry (pushElements s) q ++
    select (fun l => (partition l =? p) && memb q (shadowPartitions l)) first lines) /\
  (kept (pullElements s) -> kept (pullElements (readElements p first lines s))) /\ (kept (pushElements s) -> kept (pushElements (readElements p first lines s))).
Proof.
  induction lines as [|l r IH]; intros HN first s; cbn [readElements select].
  - splits; auto; [|intros q|intros q]; symmetry; apply app_nil_r.
  - destruct (IH (fun l' H => HN l' (or_intror H)) (S first) (readElement p first l s)) as (A & B & C & D & E & F). unfold readElement in *.
    destruct (partition l =? p) eqn:Ep.
    + destruct (addPushes (shadowPartitions l) first (add s first) (HN l (or_introl eq_refl))) as (A' & B' & C' & D' & E'). cbn [add elements pullElements pushElements otherPulls] in *.
      rewrite A, A', <- app_assoc. splits; auto.
      * congruence.
      * intros q. rewrite C, B'. reflexivity.
      * intros q. rewrite D, D', <- app_assoc. reflexivity.
      * rewrite B' in E. exact E.
    + rewrite A. cbn [negb andb]. destruct (existsb (Nat.eqb p) (shadowPartitions l)) eqn:Em; unfold memb; rewrite ?Em; cbn [addPull elements pullElements pushElements otherPulls] in *.
      * splits; auto. intros q. rewrite C, entry_push_back. rewrite (Nat.eqb_sym q). cbn [andb]. destruct (Nat.eqb_spec (partition l) q) as [<-|N]; [rewrite <- app_assoc; reflexivity|reflexivity].
        intros K. apply E, kept_push_back, K.
      * splits; auto.
Qed.

(** * Histories *)
Record good (n top first : nat) (lines : list line) (system : list submesh) : Prop := {
  g_length : length system = n;
  g_sendable : sendable top system;
  g_elements : forall p s, nth_error system p = Some s -> elements s = select (fun l => partition l =? p) first lines;
  g_symmetric : forall p q, pulls system p q = pushes system q p;
  g_owned : forall p q e, In e (pulls system p q) -> p <> q /\ owns system q e;
  g_kept : forall r s, nth_error system r = Some s -> kept (pullElements s) /\ kept (pushElements s) }.

Lemma read_nth n first lines p : nth_error (read n first lines) p = if p <? n then Some (readMesh first lines p) else None.
Proof.
  unfold read. destruct (Nat.ltb_spec p n) as [H|H]; [apply nth_error_map_seq, H|]. apply nth_error_None. rewrite map_length, seq_length. exact H.
Qed.
Lemma read_good n top first lines : valid_file n lines -> first + length lines <= top -> good n top first lines (read n first lines).
Proof.
  intros V Ht. assert (HN : forall l, In l lines -> NoDup (shadowPartitions l)) by (intros l H; apply (V l H)).
  assert (R := fun p => readElements_ok p lines HN first (Submesh [] [] [] [])). cbn [elements pullElements pushElements otherPulls] in R. fold (readMesh first lines) in R.
  assert (EL : forall p s, nth_error (read n first lines) p = Some s -> p < n /\ elements s = select (fun l => partition l =? p) first lines /\ s = readMesh first lines p).
  { intros p s. rewrite read_nth. destruct (Nat.ltb_spec p n) as [H|H]; [|discriminate]. intros E. injection E as <-. splits; auto. apply (R p). }
  assert (PU : forall p q, pulls (read n first lines) p q = if p <? n then select (fun l => (partition l =? q) && memb p (shadowPartitions l)) first lines else []).
  { intros p q. unfold pulls. rewrite read_nth. destruct (p <? n); [|reflexivity]. destruct (R p) as (_ & _ & C & _). unfold readMesh. rewrite C. cbn [entry mfind app].
    apply select_ext. intros l Hl. destruct (V l Hl) as (_ & _ & V3 & _). destruct (memb p (shadowPartitions l)) eqn:Em; [|rewrite !andb_false_r; reflexivity].
    apply memb_in in Em. destruct (Nat.eqb_spec (partition l) p) as [E|N]; [exfalso; apply V3; rewrite E; exact Em|]. cbn. rewrite andb_true_r. reflexivity. }
  split.
  - unfold read. rewrite map_length, seq_length. reflexivity.
  - intros p s H. destruct (EL p s H) as (Hp & E & ->). splits.
    + intros e He. rewrite E in He. apply select_in in He. destruct He as (i & l & Hi & -> & _). assert (i < length lines) by (apply nth_error_Some; congruence). lia.
    + destruct (R p) as (_ & B & _). unfold readMesh. rewrite B. intros e [].
    + destruct (R p) as (_ & B & _). unfold readMesh. rewrite B. constructor.
  - intros p s H. apply (EL p s H).
  - intros p q. rewrite PU. unfold pushes. rewrite read_nth. destruct (R q) as (_ & _ & _ & D & _).
    assert (Dq : entry (pushElements (readMesh first lines q)) p = select (fun l => (partition l =? q) && memb p (shadowPartitions l)) first lines) by apply D.
    destruct (Nat.ltb_spec p n) as [Hp|Hp], (Nat.ltb_spec q n) as [Hq|Hq]; rewrite ?Dq; try reflexivity.
    + apply select_none. intros l Hl. destruct (V l Hl) as (V1 & _). destruct (Nat.eqb_spec (partition l) q); [lia|reflexivity].
    + symmetry. apply select_none. intros l Hl. destruct (V l Hl) as (_ & _ & _ & V4). destruct (memb p (shadowPartitions l)) eqn:Em; [|apply andb_false_r].
      apply memb_in in Em. specialize (V4 p Em). lia.
  - intros p q e. rewrite PU. destruct (Nat.ltb_spec p n) as [Hp|Hp]; [|intros []]. intros He. apply select_in in He. destruct He as (i & l & Hi & -> & E).
    apply andb_prop in E. destruct E as (E1 & E2). apply Nat.eqb_eq in E1. apply memb_in in E2. apply nth_error_In in Hi as Hl. destruct (V l Hl) as (V1 & _ & V3 & _).
    split; [congruence|]. exists (readMesh first lines q). rewrite read_nth. replace (q <? n) with true by (symmetry; apply Nat.ltb_lt; lia). split; [reflexivity|].
    destruct (R q) as (A & _). unfold readMesh. rewrite A. cbn [app]. apply select_in. exists i, l. splits; auto. apply Nat.eqb_eq, E1.
  - intros r s H. destruct (EL r s H) as (_ & _ & ->). destruct (R r) as (_ & _ & _ & _ & E & F). split; [apply E|apply F]; constructor.
Qed.

Lemma merge_last_in l x e : In e (merge_last l x) <-> e = x \/ In e l.
Proof.
  induction l as [|y l IH]; cbn [merge_last]; [cbn; intuition congruence|]. destruct (x <? y); cbn; [intuition congruence|]. rewrite IH. intuition congruence.
Qed.
Lemma merge_last_sorted l x : StronglySorted lt l -> ~ In x l -> StronglySorted lt (merge_last l x).
Proof.
  induction l as [|y l IH]; intros S N; cbn [merge_last]; [repeat constructor|]. inversion S as [|? ? S1 S2]; subst. rewrite Forall_forall in S2.
  destruct (Nat.ltb_spec x y) as [H|H].
  - constructor; [exact S|]. apply Forall_forall. intros z [<-|Hz]; [exact H|]. specialize (S2 z Hz). lia.
  - constructor; [apply IH; [exact S1|intros Hx; apply N; right; exact Hx]|]. apply Forall_forall. intros z Hz. apply merge_last_in in Hz.
    destruct Hz as [->|Hz]; [|apply S2, Hz]. assert (x <> y) by (intros ->; apply N; left; reflexivity). lia.
Qed.
Lemma addPullElement_ok s e : elements (addPullElement s e) = elements s /\ pullElements (addPullElement s e) = pullElements s /\ pushElements (addPullElement s e) = pushElements s /\
  (forall x, In x (otherPulls (addPullElement s e)) <-> x = e \/ In x (otherPulls s)) /\ (StronglySorted lt (otherPulls s) -> StronglySorted lt (otherPulls (addPullElement s e))).
Proof.
  unfold addPullElement. fold (memb e (otherPulls s)). destruct (memb e (otherPulls s)) eqn:E.
  - apply memb_in in E. splits; auto. intros x. split; [auto|intros [->|H]; assumption].
  - cbn [elements pullElements pushElements otherPulls]. splits; auto.
    + apply merge_last_in.
    + intros S. apply merge_last_sorted; [exact S|]. rewrite <- memb_in, E. discriminate.
Qed.

Lemma request_ok2 system p e s system' : nth_error system p = Some s -> write system p (addPullElement s e) = Some system' ->
  length system' = length system /\
  (forall r t, nth_error system' r = Some t -> exists t0, nth_error system r = Some t0 /\ elements t = elements t0 /\ pullElements t = pullElements t0 /\ pushElements t = pushElements t0 /\
    (forall x, In x (otherPulls t) <-> (x = e /\ r = p) \/ In x (otherPulls t0)) /\ (StronglySorted lt (otherPulls t0) -> StronglySorted lt (otherPulls t))) /\
  (forall r t0, nth_error system r = Some t0 -> exists t, nth_error system' r = Some t).
Proof.
  intros Hs W. apply write_inv in W. destruct W as (Hp & L & N). split; [exact L|]. split.
  - intros r t Ht. rewrite N in Ht. destruct (Nat.eqb_spec r p) as [->|Nr].
    + injection Ht as <-. exists s. destruct (addPullElement_ok s e) as (A & B & C & D & E). splits; auto. intros x. rewrite D. intuition congruence.
    + exists t. splits; auto. intros x. intuition congruence.
  - intros r t0 Ht. rewrite N. destruct (r =? p); eexists; [reflexivity|exact Ht].
Qed.
Lemma same_lists system system' : length system' = length system ->
  (forall r t, nth_error system' r = Some t -> exists t0, nth_error system r = Some t0 /\ elements t = elements t0 /\ pullElements t = pullElements t0 /\ pushElements t = pushElements t0) ->
  (forall p q, pulls system' p q = pulls system p q /\ pushes system' p q = pushes system p q) /\ forall q e, owns system' q e <-> owns system q e.
Proof.
  intros L H. split.
  - intros p q. unfold pulls, pushes. destruct (nth_error system' p) as [t|] eqn:Et.
    + destruct (H p t Et) as (t0 & -> & _ & -> & ->). split; reflexivity.
    + replace (nth_error system p) with (@None submesh); [split; reflexivity|]. symmetry. apply nth_error_None. rewrite <- L. apply nth_error_None, Et.
  - intros q e. unfold owns. split.
    + intros (t & Ht & He). destruct (H q t Ht) as (t0 & E & F & _). exists t0. split; [exact E|]. rewrite <- F. exact He.
    + intros (t0 & Ht & He). assert (Hq : q < length system') by (rewrite L; apply nth_error_Some; congruence).
      destruct (nth_error system' q) as [t|] eqn:Et; [|apply nth_error_None in Et; lia]. destruct (H q t Et) as (t1 & E & F & _). exists t. split; [reflexivity|].
      rewrite F. congruence.
Qed.

Lemma process_good n top first lines system : good n top first lines system ->
  exists system', processPullRequests top system = Some system' /\ processed system system' /\ good n top first lines system'.
Proof.
  intros [G1 G2 G3 G4 G5 G6]. destruct (processPullRequests_ok top system G2) as (system' & E & P). exists system'. split; [exact E|]. split; [exact P|].
  destruct P as [P1 P2 P3 P4 P5 P6].
  assert (Back : forall r t, nth_error system' r = Some t -> exists t0, nth_error system r = Some t0 /\ elements t = elements t0 /\ otherPulls t = []).
  { intros r t Ht. assert (Hr : r < length system) by (rewrite <- P1; apply nth_error_Some; congruence).
    destruct (nth_error system r) as [t0|] eqn:E0; [|apply nth_error_None in E0; lia]. destruct (P2 r t0 E0) as (t1 & A & B & C). exists t0.
    assert (t1 = t) by congruence. subst. auto. }
  assert (Out : forall p q, length system <= p -> pulls system' p q = [] /\ pushes system' p q = []).
  { intros p q Hp. unfold pulls, pushes. replace (nth_error system' p) with (@None submesh); [split; reflexivity|]. symmetry. apply nth_error_None. lia. }
  assert (Out0 : forall p q, length system <= p -> pulls system p q = [] /\ pushes system p q = []).
  { intros p q Hp. unfold pulls, pushes. replace (nth_error system p) with (@None submesh); [split; reflexivity|]. symmetry. apply nth_error_None. lia. }
  split.
  - congruence.
  - intros r t Ht. destruct (Back r t Ht) as (t0 & A & B & C). rewrite B, C. splits; [apply (G2 r t0 A)|intros e []|constructor].
  - intros r t Ht. destruct (Back r t Ht) as (t0 & A & B & C). rewrite B. apply (G3 r t0 A).
  - intros p q. destruct (lt_dec p (length system)) as [Hp|Hp], (lt_dec q (length system)) as [Hq|Hq].
    + destruct (nth_error system p) as [s|] eqn:Ep; [|apply nth_error_None in Ep; lia]. destruct (nth_error system q) as [t|] eqn:Eq; [|apply nth_error_None in Eq; lia].
      rewrite (P3 p q s t Ep Eq), (P4 p q s t Ep Eq), G4. reflexivity.
    + rewrite (proj1 (P5 p q ltac:(lia))), (proj2 (Out q p ltac:(lia))), G4. apply Out0. lia.
    + rewrite (proj1 (Out p q ltac:(lia))), (proj2 (P5 q p ltac:(lia))), <- G4. symmetry. apply Out0. lia.
    + rewrite (proj1 (Out p q ltac:(lia))), (proj2 (Out q p ltac:(lia))). reflexivity.
  - intros p q e He.
    assert (Own : forall x, owns system q x -> owns system' q x).
    { intros x (t & Ht & Hx). destruct (P2 q t Ht) as (t' & A & B & _). exists t'. split; [exact A|]. rewrite B. exact Hx. }
    destruct (lt_dec p (length system)) as [Hp|Hp]; [|rewrite (proj1 (Out p q ltac:(lia))) in He; destruct He].
    destruct (lt_dec q (length system)) as [Hq|Hq]; [|rewrite (proj1 (P5 p q ltac:(lia))) in He; destruct (G5 p q e He); auto].
    destruct (nth_error system p) as [s|] eqn:Ep; [|apply nth_error_None in Ep; lia]. destruct (nth_error system q) as [t|] eqn:Eq; [|apply nth_error_None in Eq; lia].
    rewrite (P3 p q s t Ep Eq) in He. apply in_app_or in He. destruct He as [He|He]; [destruct (G5 p q e He); auto|].
    unfold wanted in He. destruct (Nat.eqb_spec q p) as [->|N]; [destruct He|]. apply filter_In in He. destruct He as (_ & He). apply memb_in in He.
    split; [congruence|]. apply Own. exists t. auto.
  - apply P6, G6.
Qed.

Lemma request_good n top first lines system p e : good n top first lines system -> p < n -> e < top ->
  exists s system', nth_error system p = Some s /\ perform top (Request p e) system = Some system' /\ good n top first lines system' /\
    (forall p q, pulls system' p q = pulls system p q /\ pushes system' p q = pushes system p q) /\ (forall q x, owns system' q x <-> owns system q x).
Proof.
  intros [G1 G2 G3 G4 G5 G6] Hp He. destruct (nth_error system p) as [s|] eqn:Es; [|apply nth_error_None in Es; lia].
  destruct (write_ok system p (addPullElement s e)) as (system' & W & _); [lia|]. exists s, system'. split; [reflexivity|].
  cbn [perform]. rewrite Es. split; [exact W|]. destruct (request_ok2 system p e s system' Es W) as (L & B & _).
  destruct (same_lists system system' L) as (S1 & S2).
  { intros r t Ht. destruct (B r t Ht) as (t0 & B1 & B2 & B3 & B4 & _). exists t0. auto. }
  split; [|split; assumption]. split.
  - congruence.
  - intros r t Ht. destruct (B r t Ht) as (t0 & B1 & B2 & B3 & B4 & B5 & B6). destruct (G2 r t0 B1) as (D1 & D2 & D3). splits.
    + rewrite B2. exact D1.
    + intros x Hx. apply B5 in Hx. destruct Hx as [(-> & _)|Hx]; [exact He|apply D2, Hx].
    + apply B6, D3.
  - intros r t Ht. destruct (B r t Ht) as (t0 & B1 & B2 & _). rewrite B2. apply (G3 r t0 B1).
  - intros a b. rewrite (proj1 (S1 a b)), (proj2 (S1 b a)). apply G4.
  - intros a b x Hx. rewrite (proj1 (S1 a b)) in Hx. destruct (G5 a b x Hx) as (A1 & A2). split; [exact A1|]. apply S2, A2.
  - intros r t Ht. destruct (B r t Ht) as (t0 & B1 & B2 & B3 & B4 & _). rewrite B3, B4. apply (G6 r t0 B1).
Qed.

Lemma history_good n top first lines : forall ops system, good n top first lines system -> valid_ops n top ops ->
  exists system', history top ops system = Some system' /\ good n top first lines system'.
Proof.
  induction ops as [|o ops IH]; intros system G V; cbn [history]; [exists system; auto|].
  assert (V' : valid_ops n top ops) by (intros p e H; apply V; right; exact H).
  destruct o as [p e|].
  - destruct (V p e (or_introl eq_refl)) as (Hp & He). destruct (request_good n top first lines system p e G Hp He) as (s & system' & _ & E & G' & _).
    rewrite E. apply IH; assumption.
  - destruct (process_good n top first lines system G) as (system' & E & _ & G'). cbn [perform]. rewrite E. apply IH; assumption.
Qed.

Lemma exchange_symmetric n top first lines ops : valid_file n lines -> first + length lines <= top -> valid_ops n top ops ->
  exists system, history top ops (read n first lines) = Some system /\
    forall p q, pulls system p q = pushes system q p /\ forall e, In e (pulls system p q) -> p <> q /\ owns system q e.
Proof.
  intros V T O. destruct (history_good n top first lines ops _ (read_good n top first lines V T) O) as (system & E & [G1 G2 G3 G4 G5 G6]).
  exists system. split; [exact E|]. intros p q. split; [apply G4|apply G5].
Qed.
Lemma good_owns n top first lines system q e : good n top first lines system -> q < n -> (owns system q e <-> exists i l, nth_error lines i = Some l /\ e = first + i /\ partition l = q).
Proof.
  intros [G1 G2 G3 G4 G5 G6] Hq. destruct (nth_error system q) as [s|] eqn:Es; [|apply nth_error_None in Es; lia]. unfold owns. split.
  - intros (s' & E & H). assert (s' = s) by congruence. subst. rewrite (G3 q s Es) in H. apply select_in in H. destruct H as (i & l & A & B & C). exists i, l. splits; auto. apply Nat.eqb_eq, C.
  - intros (i & l & A & B & C). exists s. split; [exact Es|]. rewrite (G3 q s Es). apply select_in. exists i, l. splits; auto. apply Nat.eqb_eq, C.
Qed.
Lemma exchange_owner n top first lines ops system : valid_file n lines -> first + length lines <= top -> valid_ops n top ops -> history top ops (read n first lines) = Some system ->
  forall q e, owns system q e <-> exists i l, nth_error lines i = Some l /\ e = first + i /\ partition l = q.
Proof.
  intros V T O H q e. destruct (history_good n top first lines ops _ (read_good n top first lines V T) O) as (system' & E & G).
  assert (system' = system) by congruence. subst. destruct (lt_dec q n) as [Hq|Hq]; [apply (good_owns _ _ _ _ _ _ _ G Hq)|]. split.
  - intros (s & Es & _). assert (q < length system) by (apply nth_error_Some; congruence). rewrite (g_length _ _ _ _ _ G) in *. lia.
  - intros (i & l & A & _ & C). apply nth_error_In in A. destruct (V l A) as (V1 & _). lia.
Qed.

Lemma sorted_lt_nodup l : StronglySorted lt l -> NoDup l.
Proof. induction 1 as [|x l S IH F]; [constructor|]. constructor; [|exact IH]. intros I. rewrite Forall_forall in F. specialize (F x I). lia. Qed.
Lemma wanted_in p s q t e : In e (wanted p (otherPulls s) q t) <-> q <> p /\ In e (otherPulls s) /\ In e (elements t).
Proof.
  unfold wanted. destruct (Nat.eqb_spec q p) as [->|N].
  - split; [intros []|intros (F & _); congruence].
  - rewrite filter_In, memb_in. tauto.
Qed.
Lemma process_requests n top first lines system : good n top first lines system ->
  exists system', processPullRequests top system = Some system' /\
    (forall p e, ~ requests system' p e) /\ (forall q e, owns system' q e <-> owns system q e) /\
    forall p q, exists new, pulls system' p q = pulls system p q ++ new /\ NoDup new /\
      forall e, In e new <-> p <> q /\ requests system p e /\ owns system q e.
Proof.
  intros G. destruct (process_good n top first lines system G) as (system' & E & P & G'). exists system'. split; [exact E|]. destruct G as [G1 G2 G3 G4 G5 G6]. destruct P as [P1 P2 P3 P4 P5 P6].
  splits.
  - intros p e (s & Hs & He). assert (Hp : p < length system) by (rewrite <- P1; apply nth_error_Some; congruence).
    destruct (nth_error system p) as [t|] eqn:Et; [|apply nth_error_None in Et; lia]. destruct (P2 p t Et) as (t' & A & B & C). assert (t' = s) by congruence. subst. rewrite C in He. destruct He.
  - intros q e. unfold owns. split.
    + intros (s & Hs & He). assert (Hp : q < length system) by (rewrite <- P1; apply nth_error_Some; congruence).
      destruct (nth_error system q) as [t|] eqn:Et; [|apply nth_error_None in Et; lia]. destruct (P2 q t Et) as (t' & A & B & C). exists t. split; [reflexivity|]. assert (t' = s) by congruence. subst. congruence.
    + intros (s & Hs & He). destruct (P2 q s Hs) as (t' & A & B & C). exists t'. split; [exact A|]. congruence.
  - intros p q.
    assert (Nothing : (length system <= p \/ length system <= q) -> pulls system' p q = pulls system p q /\ forall e, ~ (p <> q /\ requests system p e /\ owns system q e)).
    { intros H. split.
      - destruct H as [H|H]; [|apply P5, H]. unfold pulls. rewrite (proj2 (nth_error_None system p)) by lia. rewrite (proj2 (nth_error_None system' p)) by lia. reflexivity.
      - intros e (_ & (s & Hs & _) & (t & Ht & _)). assert (p < length system) by (apply nth_error_Some; congruence). assert (q < length system) by (apply nth_error_Some; congruence). lia. }
    destruct (lt_dec p (length system)) as [Hp|Hp].
    2:{ destruct Nothing as (A & B); [left; lia|]. exists []. rewrite A, app_nil_r. splits; auto; [constructor|]. intros e. split; [intros []|]. intros F. destruct (B e F). }
    destruct (lt_dec q (length system)) as [Hq|Hq].
    2:{ destruct Nothing as (A & B); [right; lia|]. exists []. rewrite A, app_nil_r. splits; auto; [constructor|]. intros e. split; [intros []|]. intros F. destruct (B e F). }
    destruct (nth_error system p) as [s|] eqn:Ep; [|apply nth_error_None in Ep; lia]. destruct (nth_error system q) as [t|] eqn:Eq; [|apply nth_error_None in Eq; lia].
    exists (wanted p (otherPulls s) q t). split; [apply (P3 p q s t Ep Eq)|]. split.
    + unfold wanted. destruct (q =? p); [constructor|]. apply NoDup_filter, sorted_lt_nodup, (G2 p s Ep).
    + intros e. rewrite wanted_in. unfold requests, owns. split.
      * intros (A & B & C). splits; [congruence|exists s; auto|exists t; auto].
      * intros (A & (s' & B & C) & (t' & D & F)). assert (s' = s) by congruence. assert (t' = t) by congruence. subst. splits; auto.
Qed.

Lemma partition_unique n top first lines system q q' e : good n top first lines system -> owns system q e -> owns system q' e -> q = q'.
Proof.
  intros G A B.
  assert (H : forall r, owns system r e -> r < n) by (intros r (s & Hs & _); rewrite <- (g_length _ _ _ _ _ G); apply nth_error_Some; congruence).
  apply (good_owns _ _ _ _ _ _ _ G (H q A)) in A as (i & l & A1 & A2 & A3).
  apply (good_owns _ _ _ _ _ _ _ G (H q' B)) in B as (i' & l' & B1 & B2 & B3). assert (i' = i) by lia. subst i'. congruence.
Qed.
Lemma nodup_app {A} (l l' : list A) : NoDup l -> NoDup l' -> (forall x, In x l -> ~ In x l') -> NoDup (l ++ l').
Proof.
  intros H H' D. induction H as [|x l N H IH]; [exact H'|]. cbn. constructor.
  - rewrite in_app_iff. intros [I|I]; [contradiction|]. apply (D x (or_introl eq_refl) I).
  - apply IH. intros y Hy. apply D. right. exact Hy.
Qed.
Lemma careful_ok n top first lines system : valid_file n lines -> first + length lines <= top -> careful n top first lines system ->
  good n top first lines system /\ (forall p q, NoDup (pulls system p q)) /\ forall p e q, requests system p e -> ~ In e (pulls system p q).
Proof.
  intros V T C. induction C as [|system p e system' C (G & ND & NR) Hp He Hf E|system system' C (G & ND & NR) E].
  - assert (HN : forall l, In l lines -> NoDup (shadowPartitions l)) by (intros l H; apply (V l H)). splits.
    + apply read_good; assumption.
    + intros p q. unfold pulls. rewrite read_nth. destruct (p <? n); [|constructor].
      destruct (readElements_ok p lines HN first (Submesh [] [] [] [])) as (_ & _ & Cq & _). unfold readMesh. rewrite Cq. apply select_nodup.
    + intros p e q (s & Hs & Hr). rewrite read_nth in Hs. destruct (p <? n); [|discriminate]. injection Hs as <-.
      destruct (readElements_ok p lines HN first (Submesh [] [] [] [])) as (_ & B & _). unfold readMesh in Hr. rewrite B in Hr. destruct Hr.
  - destruct (request_good n top first lines system p e G Hp He) as (s & system2 & Hs & E2 & G' & S1 & S2). assert (system2 = system') by congruence. subst.
    splits; [exact G'| |].
    + intros a b. rewrite (proj1 (S1 a b)). apply ND.
    + intros a x b (t & Ht & Hx). rewrite (proj1 (S1 a b)). cbn [perform] in E. rewrite Hs in E.
      destruct (request_ok2 system p e s system' Hs E) as (_ & B & _). destruct (B a t Ht) as (t0 & B1 & _ & _ & _ & B5 & _). apply B5 in Hx.
      destruct Hx as [(-> & ->)|Hx]; [apply Hf|]. apply NR. exists t0. auto.
  - cbn [perform] in E. destruct (process_requests n top first lines system G) as (system2 & E2 & R & S & P). assert (system2 = system') by congruence. subst.
    destruct (process_good n top first lines system G) as (system3 & E3 & _ & G'). assert (system3 = system') by congruence. subst.
    splits; [exact G'| |intros p e q Hr; destruct (R p e Hr)].
    intros p q. destruct (P p q) as (new & -> & Nn & Hn). apply nodup_app; [apply ND|exact Nn|]. intros x Hx Hx'. apply Hn in Hx'. destruct Hx' as (_ & Hx' & _).
    apply (NR p x q Hx' Hx).
Qed.
Lemma careful_once n top first lines system : valid_file n lines -> first + length lines <= top -> careful n top first lines system ->
  forall p q, NoDup (pulls system p q) /\ forall q' e, In e (pulls system p q) -> In e (pulls system p q') -> q = q'.
Proof.
  intros V T C p q. destruct (careful_ok n top first lines system V T C) as (G & ND & _). split; [apply ND|]. intros q' e A B.
  apply (g_owned _ _ _ _ _ G) in A, B. apply (partition_unique _ _ _ _ _ q q' e G); [apply A|apply B].
Qed.
