From Coq Require Import List Arith Bool Lia Sorting.Sorted.
From Verif Require Import StdMap_model StdMap_proofs Loop_proofs GlobalIndexing_model GlobalIndexing_spec GlobalIndexing_proofs
  IndexExchange_model IndexExchange_spec.
Import ListNotations.

Lemma tag_mod k x : tagOf k x mod 4 = kindCode k.
Proof. unfold tagOf. rewrite Nat.mul_comm, Nat.add_comm, Nat.mod_add by lia. destruct k; reflexivity. Qed.
Lemma tag_div k x : tagOf k x / 4 = x.
Proof. unfold tagOf. rewrite Nat.mul_comm, Nat.add_comm, Nat.div_add by lia. destruct k; reflexivity. Qed.
Lemma tag_inj k x k' x' : tagOf k x = tagOf k' x' -> k = k' /\ x = x'.
Proof.
  intros E. pose proof (tag_mod k x) as M. pose proof (tag_div k x) as D. rewrite E, tag_mod in M. rewrite E, tag_div in D.
  split; [|congruence]. destruct k, k'; (reflexivity || discriminate M).
Qed.
Lemma memb_in t s : memb t s = true <-> In t s.
Proof.
  unfold memb. rewrite existsb_exists. split.
  - intros (y & Hy & E). apply Nat.eqb_eq in E. subst. exact Hy.
  - intros H. exists t. split; [exact H|apply Nat.eqb_refl].
Qed.

Lemma filter_length_le' {A} (h : A -> bool) l : length (filter h l) <= length l.
Proof. induction l as [|x l IH]; [cbn; lia|]. cbn. destruct (h x); cbn; lia. Qed.

Section Encode.
Variables (us : list nat) (val : Kind -> nat -> nat -> nat).
Hypothesis NDus : NoDup us.
Definition encode (o : object) : list nat := tagOf (fst o) (snd o) :: map (val (fst o) (snd o)) us.
Definition enc (os : list object) : list nat := flat_map encode os.
Definition knows (g : GlobalIndexing) (o : object) : Prop :=
  forall u, In u us -> mfind Nat.ltb (snd o) (table (offsets_ g u) (fst o)) = Some (val (fst o) (snd o) u).
Lemma enc_app a b : enc (a ++ b) = enc a ++ enc b.
Proof. apply flat_map_app. Qed.
Lemma enc_length os : length (enc os) = length os * (1 + length us).
Proof. induction os as [|o os IH]; [reflexivity|]. cbn. rewrite app_length, map_length. change (flat_map encode os) with (enc os). rewrite IH. cbn. lia. Qed.

Lemma objectMessage_ok g o message : includedUnknowns_ g = us -> knows g o ->
  objectMessage g (fst o) (snd o) message = Some (message ++ enc [o]).
Proof.
  intros E K. unfold objectMessage. rewrite E.
  assert (H : forall l, incl l us -> offsetsOf g (fst o) (snd o) l = Some (map (val (fst o) (snd o)) l)).
  { induction l as [|u l IH]; intros Hl; [reflexivity|]. cbn [offsetsOf map].
    rewrite K by (apply Hl; left; reflexivity). rewrite IH by (intros v Hv; apply Hl; right; exact Hv). reflexivity. }
  rewrite H by apply incl_refl. cbn. rewrite app_nil_r. reflexivity.
Qed.

(** same as [g] except for numbers of objects *)
Definition like (g g' : GlobalIndexing) : Prop :=
  totalNumberOfUnknowns_ g' = totalNumberOfUnknowns_ g /\
  globalNumberOfBasisFunctions_ g' = globalNumberOfBasisFunctions_ g /\
  localNumberOfBasisFunctions_ g' = localNumberOfBasisFunctions_ g /\
  includedUnknowns_ g' = includedUnknowns_ g /\
  (forall u, includedInIndex_ (offsets_ g' u) = includedInIndex_ (offsets_ g u)) /\
  (forall u, ~ In u us -> offsets_ g' u = offsets_ g u) /\
  (forall u, blockStart_ (offsets_ g' u) = blockStart_ (offsets_ g u) /\ localOffset_ (offsets_ g' u) = localOffset_ (offsets_ g u) /\
             numberOfBasisFunctionsInBlock_ (offsets_ g' u) = numberOfBasisFunctionsInBlock_ (offsets_ g u)).
Lemma like_refl g : like g g.
Proof. repeat split. Qed.
Lemma like_trans a b c : like a b -> like b c -> like a c.
Proof.
  intros (A1 & A2 & A3 & A4 & A5 & A6 & A7) (B1 & B2 & B3 & B4 & B5 & B6 & B7).
  split; [congruence|]. split; [congruence|]. split; [congruence|]. split; [congruence|].
  split; [intros u; rewrite B5; apply A5|]. split; [intros u Hu; rewrite B6 by exact Hu; apply A6; exact Hu|].
  intros u. destruct (A7 u) as (P & Q & R), (B7 u) as (P' & Q' & R'). repeat split; congruence.
Qed.

Lemma store_ok k id l : NoDup l -> forall o, exists o',
  storeOffsets k id l (map (val k id) l) o = Some o' /\
  (forall u, In u l -> o' u = putOffset (o u) k id (val k id u)) /\
  (forall u, ~ In u l -> o' u = o u).
Proof.
  induction 1 as [|u l Hu ND IH]; intros o; cbn [storeOffsets map].
  - exists o. repeat split. intros u [].
  - destruct (IH (upd o u (putOffset (o u) k id (val k id u)))) as (o' & E & A & B). exists o'. split; [exact E|]. split.
    + intros v [<-|Hv]; [rewrite B by exact Hu; apply upd_same|]. rewrite A by exact Hv. rewrite upd_other by (intros ->; contradiction). reflexivity.
    + intros v Hv. rewrite B by (intros H; apply Hv; right; exact H). apply upd_other. intros ->. apply Hv. left. reflexivity.
Qed.

Lemma parts_ok os : forall fuel g, includedUnknowns_ g = us -> length (enc os) <= fuel ->
  exists g', processParts fuel (enc os) g = Some g' /\ like g g' /\
  (forall o, In o os -> knows g' o) /\ (forall o, knows g o -> knows g' o).
Proof.
  induction os as [|[k x] os IH]; intros fuel g Eg Hf.
  - exists g. destruct fuel; (split; [reflexivity|]); (split; [apply like_refl|]); (split; [intros o []|tauto]).
  - rewrite enc_length in Hf. cbn in Hf. destruct fuel as [|fuel]; [lia|].
    cbn -[tagOf Nat.modulo Nat.div]. change (flat_map encode os) with (enc os). rewrite Eg, tag_mod, tag_div.
    replace (match kindCode k with 0 => KElement | 1 => KFace | 2 => KEdge | _ => KNode end) with k by (destruct k; reflexivity).
    rewrite firstn_app, skipn_app, map_length, Nat.sub_diag. cbn [firstn skipn]. rewrite app_nil_r.
    rewrite firstn_all2 by (rewrite map_length; lia). rewrite skipn_all2 by (rewrite map_length; lia). cbn [app].
    destruct (store_ok k x us NDus (offsets_ g)) as (o' & E & A & B). rewrite E.
    destruct (IH fuel (withOffsets g o')) as (g' & E' & L & K & P); [exact Eg|rewrite enc_length; lia|].
    exists g'. split; [exact E'|].
    assert (Lg : like g (withOffsets g o')).
    { split; [reflexivity|]. split; [reflexivity|]. split; [reflexivity|]. split; [reflexivity|]. cbn [withOffsets offsets_].
      split; [|split].
      - intros u. destruct (in_dec Nat.eq_dec u us); [rewrite A by assumption|rewrite B by assumption]; reflexivity.
      - exact B.
      - intros u. destruct (in_dec Nat.eq_dec u us); [rewrite A by assumption|rewrite B by assumption]; repeat split. }
    assert (Kn : knows (withOffsets g o') (k, x)).
    { intros u Hu. cbn [withOffsets offsets_ fst snd]. rewrite A by exact Hu. cbn. destruct (kind_eqb_spec k k); [|congruence].
      apply (mfind_put_same _ nat_strict_total). }
    split; [apply (like_trans _ _ _ Lg L)|]. split.
    + intros o [<-|Ho]; [apply P; exact Kn|apply K; exact Ho].
    + intros o Ho. apply P. intros u Hu. cbn [withOffsets offsets_]. rewrite A by exact Hu. cbn.
      destruct (kind_eqb_spec (fst o) k) as [<-|]; [|apply Ho; exact Hu].
      destruct (Nat.eq_dec x (snd o)) as [->|Hx].
      * apply (mfind_put_same _ nat_strict_total).
      * rewrite (mfind_put_other _ nat_strict_total) by exact Hx. apply Ho. exact Hu.
Qed.
Lemma process_ok os g : includedUnknowns_ g = us ->
  exists g', processMessage (enc os) g = Some g' /\ like g g' /\
  (forall o, In o os -> knows g' o) /\ (forall o, knows g o -> knows g' o).
Proof.
  intros Eg. unfold processMessage. rewrite Eg, enc_length. rewrite Nat.mod_mul by lia. cbn [Nat.eqb].
  rewrite <- enc_length. apply parts_ok; [exact Eg|lia].
Qed.

Definition untag (t : nat) : object :=
  (match t mod 4 with 0 => KElement | 1 => KFace | 2 => KEdge | _ => KNode end, t / 4).
Lemma untag_tag k x : untag (tagOf k x) = (k, x).
Proof. unfold untag. rewrite tag_mod, tag_div. destruct k; reflexivity. Qed.
Lemma second_ok g tags : includedUnknowns_ g = us ->
  (forall t, In t tags -> exists k x, t = tagOf k x /\ k <> KElement /\ knows g (k, x)) ->
  forall os, createSecondMessage g tags (enc os) = Some (enc (os ++ map untag tags)).
Proof.
  intros Eg. induction tags as [|t tags IH]; intros H os; cbn [createSecondMessage map].
  - rewrite app_nil_r. reflexivity.
  - destruct (H t (or_introl eq_refl)) as (k & x & -> & Hk & K). rewrite untag_tag, tag_mod, tag_div.
    assert (E : objectMessage g k x (enc os) = Some (enc (os ++ [(k, x)]))).
    { rewrite (objectMessage_ok g (k, x) _ Eg K), enc_app. reflexivity. }
    assert (E2 : createSecondMessage g tags (enc (os ++ [(k, x)])) = Some (enc ((os ++ [(k, x)]) ++ map untag tags))).
    { apply IH. intros t Ht. apply H. right. exact Ht. }
    rewrite <- app_assoc in E2. destruct k; [congruence| | |]; cbn [kindCode]; rewrite E; cbn [bind]; exact E2.
Qed.
End Encode.

Section Exchange.
Variables (m : Mesh) (n : nat) (r : nat -> GlobalIndexing) (us : list nat) (val : Kind -> nat -> nat -> nat) (N : nat).
Hypothesis VM : valid_mesh n m.
Hypothesis NDus : NoDup us.
Hypothesis r_us : forall p, p < n -> includedUnknowns_ (r p) = us.
Hypothesis r_own : forall p k x u, p < n -> In (k, x) (objs m p) -> In u us ->
  mfind Nat.ltb x (table (offsets_ (r p) u) k) = Some (val k x u).
Notation knows := (knows us val).
Notation enc := (enc us val).
Notation like := (like us).

Lemma own_known p k x : p < n -> In (k, x) (objs m p) -> knows (r p) (k, x).
Proof. intros Hp Ho u Hu. apply r_own; assumption. Qed.

(** the first element of an object next to an own element *)
Lemma first_full p k x e : k <> KElement -> In e (elementsOf m k x) -> owner m e = p ->
  filter (visible m p) (elementsOf m k x) = elementsOf m k x.
Proof. intros Hk He <-. apply filter_all. intros e' He'. apply (vm_shadow _ _ VM k x e e'); assumption. Qed.
Lemma first_head p k x e : k <> KElement -> In e (elementsOf m k x) -> owner m e = p ->
  exists f, hd_error (elementsOf m k x) = Some f /\ firstElement m p k x = Some f /\ In f (elementsOf m k x) /\ In f (elements m).
Proof.
  intros Hk He Ho. unfold firstElement. rewrite (first_full p k x e Hk He Ho).
  destruct (elementsOf m k x) as [|f l] eqn:E; [destruct He|]. exists f. repeat split; [left; reflexivity|].
  apply (vm_adjacent_exist _ _ VM k f x Hk). rewrite E. left. reflexivity.
Qed.
Lemma adjacent_ne k x : k <> KElement -> adjacent m k x = elementsOf m k x.
Proof. destruct k; (reflexivity || congruence). Qed.
Lemma own_object k x f : k <> KElement -> carries m k -> hd_error (elementsOf m k x) = Some f ->
  In (k, x) (objs m (owner m f)).
Proof.
  intros Hk C Hf. assert (Hin : In f (elementsOf m k x)) by (destruct (elementsOf m k x); [discriminate|inversion Hf; left; reflexivity]).
  apply (in_objs m n VM). split.
  - split; [exact C|]. exists f. rewrite adjacent_ne by exact Hk. split; [apply (vm_adjacent_exist _ _ VM k f x Hk Hin)|exact Hin].
  - exists f. rewrite adjacent_ne by exact Hk. split; [exact Hf|reflexivity].
Qed.
Lemma own_element e : In e (elements m) -> In (KElement, e) (objs m (owner m e)).
Proof.
  intros He. apply (in_objs m n VM). split.
  - split; [exact I|]. exists e. split; [exact He|left; reflexivity].
  - exists e. split; reflexivity.
Qed.

(** the objects of an element *)
Lemma in_objects e k x : In (k, x) (objects_of_element m e) <->
  (k = KElement /\ x = e) \/ (k <> KElement /\ carries m k /\ In x (objectsOf m k e)).
Proof.
  unfold objects_of_element. cbn [In]. rewrite !in_app_iff, !in_map_iff.
  assert (HN : In (k, x) (if 1 <? dimension m then map (pair KNode) (objectsOf m KNode e) else []) <->
     1 < dimension m /\ k = KNode /\ In x (objectsOf m k e)).
  { destruct (Nat.ltb_spec 1 (dimension m)); [|cbn; lia]. rewrite in_map_iff. split.
    - intros (y & E & Hy). inversion E; subst. tauto.
    - intros (_ & -> & H2). exists x. tauto. }
  rewrite HN. split.
  - intros [E|[(y & E & Hy)|[(y & E & Hy)|(H1 & -> & H2)]]].
    + inversion E. left. split; reflexivity.
    + inversion E; subst. right. cbn. intuition congruence.
    + inversion E; subst. right. cbn. intuition congruence.
    + right. cbn. intuition congruence.
  - intros [(-> & ->)|(Hk & C & H)]; [left; reflexivity|]. right. destruct k; [congruence| | |]; cbn in C.
    + left. exists x. split; [reflexivity|exact H].
    + right. left. exists x. split; [reflexivity|exact H].
    + right. right. repeat split; assumption.
Qed.

Lemma push_in p q e : In e (pushElements m p q) <-> p <> q /\ In e (elements m) /\ owner m e = p /\ visible m q e = true.
Proof.
  unfold pushElements. destruct (Nat.eqb_spec p q) as [->|Hne]; [cbn; tauto|].
  rewrite filter_In, andb_true_iff, Nat.eqb_eq. tauto.
Qed.

(** * The first message *)
Section First.
Variables (p q : nat).
Hypothesis (Hp : p < n).
Notation g := (r p).
Definition els := pushElements m p q.
Lemma els_in e : In e els <-> p <> q /\ In e (elements m) /\ owner m e = p /\ visible m q e = true.
Proof. exact (push_in p q e). Qed.

Record abs := { a_os : list object; a_sent : list nat; a_second : list nat }.
Definition conc (a : abs) : Building := (enc (a_os a), a_sent a, a_second a).
Record inv (a : abs) : Prop := {
  i_sent : forall t, In t (a_sent a) -> exists k x, t = tagOf k x /\ In (k, x) (a_os a);
  i_known : forall o, In o (a_os a) -> knows g o;
  i_second : forall t, In t (a_second a) -> exists k x e, t = tagOf k x /\ k <> KElement /\
     In e els /\ In (k, x) (objects_of_element m e)
}.
Definition ext (a b : abs) : Prop := incl (a_os a) (a_os b) /\ incl (a_second a) (a_second b).
Lemma ext_refl a : ext a a. Proof. split; apply incl_refl. Qed.
Lemma ext_trans a b c : ext a b -> ext b c -> ext a c.
Proof. intros (A & B) (C & D). split; eapply incl_tran; eassumption. Qed.

Lemma addAll_ok (add : nat -> Building -> option Building) (Q : nat -> abs -> Prop) xs :
  (forall x a b, Q x a -> ext a b -> Q x b) ->
  (forall x a, In x xs -> inv a -> exists a', add x (conc a) = Some (conc a') /\ inv a' /\ ext a a' /\ Q x a') ->
  forall a, inv a -> exists a', addAll add xs (conc a) = Some (conc a') /\ inv a' /\ ext a a' /\ forall x, In x xs -> Q x a'.
Proof.
  intros Mono. induction xs as [|x xs IH]; intros Step a Ha; cbn [addAll].
  - exists a. split; [reflexivity|]. split; [exact Ha|]. split; [apply ext_refl|]. intros x [].
  - destruct (Step x a (or_introl eq_refl) Ha) as (a1 & E1 & I1 & X1 & Q1). rewrite E1.
    destruct (IH (fun y b Hy => Step y b (or_intror Hy)) a1 I1) as (a2 & E2 & I2 & X2 & Q2).
    exists a2. split; [exact E2|]. split; [exact I2|]. split; [apply (ext_trans _ _ _ X1 X2)|].
    intros y [<-|Hy]; [apply (Mono _ _ _ Q1 X2)|apply Q2; exact Hy].
Qed.

Lemma sendOnce_ok k x a : inv a -> knows g (k, x) ->
  exists a', sendOnce g k x (conc a) = Some (conc a') /\ inv a' /\ ext a a' /\ In (k, x) (a_os a').
Proof.
  intros Ha K. unfold sendOnce, conc. destruct (memb (tagOf k x) (a_sent a)) eqn:E.
  - apply memb_in in E. apply (i_sent _ Ha) in E. destruct E as (k' & x' & E & Hin). apply tag_inj in E. destruct E as (<- & <-).
    exists a. split; [reflexivity|]. split; [exact Ha|]. split; [apply ext_refl|exact Hin].
  - rewrite (objectMessage_ok us val g (k, x) _ (r_us p Hp) K : objectMessage g k x _ = _). rewrite <- enc_app.
    exists {| a_os := a_os a ++ [(k, x)]; a_sent := sinsert Nat.ltb (tagOf k x) (a_sent a); a_second := a_second a |}.
    split; [reflexivity|]. split; [|split].
    + constructor; cbn [a_os a_sent a_second].
      * intros t Ht. apply (sinsert_in _ nat_strict_total) in Ht. destruct Ht as [->|Ht].
        -- exists k, x. split; [reflexivity|]. apply in_app_iff. right. left. reflexivity.
        -- destruct (i_sent _ Ha t Ht) as (k' & x' & E' & Hin). exists k', x'. split; [exact E'|]. apply in_app_iff. left. exact Hin.
      * intros o Ho. apply in_app_iff in Ho. destruct Ho as [Ho|[<-|[]]]; [apply (i_known _ Ha); exact Ho|exact K].
      * apply (i_second _ Ha).
    + split; cbn; [apply incl_appl|]; apply incl_refl.
    + cbn. apply in_app_iff. right. left. reflexivity.
Qed.
Lemma later_ok k x e a : inv a -> k <> KElement -> In e els -> In (k, x) (objects_of_element m e) ->
  exists a', laterRound k x (conc a) = conc a' /\ inv a' /\ ext a a' /\ In (tagOf k x) (a_second a').
Proof.
  intros Ha Hk He Hx.
  exists {| a_os := a_os a; a_sent := a_sent a; a_second := sinsert Nat.ltb (tagOf k x) (a_second a) |}.
  split; [reflexivity|]. split; [|split].
  - constructor; cbn [a_os a_sent a_second]; [apply (i_sent _ Ha)|apply (i_known _ Ha)|].
    intros t Ht. apply (sinsert_in _ nat_strict_total) in Ht. destruct Ht as [->|Ht]; [|apply (i_second _ Ha); exact Ht].
    exists k, x, e. repeat split; assumption.
  - split; cbn; [apply incl_refl|]. intros t Ht. apply (sinsert_in _ nat_strict_total). right. exact Ht.
  - cbn. apply (sinsert_in _ nat_strict_total). left. reflexivity.
Qed.

(** What the message and the tags have to provide for an object on a pushed element *)
Definition provided (k : Kind) (x : nat) (a : abs) : Prop :=
  (owned_by m p k x -> In (k, x) (a_os a)) /\
  (k <> KElement -> ~ owned_by m p k x -> ~ owned_by m q k x ->
   (forall e, In e (elementsOf m k x) -> owner m e <> q) -> In (tagOf k x) (a_second a)) /\
  (k = KFace -> ~ owned_by m p k x -> ~ owned_by m q k x -> In (tagOf k x) (a_second a)).
Lemma provided_mono k x a b : provided k x a -> ext a b -> provided k x b.
Proof.
  intros (A & B & C) (X & Y). split; [intros H; apply X, A, H|]. split.
  - intros H1 H2 H3 H4. apply Y, B; assumption.
  - intros H1 H2 H3. apply Y, C; assumption.
Qed.

Lemma el_adj e k x : In e els -> k <> KElement -> In x (objectsOf m k e) -> In e (elementsOf m k x).
Proof. intros He Hk Hx. apply els_in in He. apply (vm_adjacency _ _ VM); tauto. Qed.
Lemma owned_head k x f : k <> KElement -> hd_error (elementsOf m k x) = Some f -> forall s, owned_by m s k x <-> owner m f = s.
Proof.
  intros Hk Hf s. unfold owned_by. rewrite adjacent_ne by exact Hk. split.
  - intros (f' & Hf' & E). congruence.
  - intros E. exists f. split; assumption.
Qed.

Lemma addFace_ok e x a : In e els -> In x (objectsOf m KFace e) -> inv a ->
  exists a', addFace m p g q x (conc a) = Some (conc a') /\ inv a' /\ ext a a' /\ provided KFace x a'.
Proof.
  intros He Hx Ha. assert (Hk : KFace <> KElement) by discriminate.
  pose proof (el_adj e KFace x He Hk Hx) as Hadj.
  destruct (first_head p KFace x e Hk Hadj (proj1 (proj2 (proj2 (proj1 (els_in e) He))))) as (f & Hf & Ef & Hin & Hfe).
  pose proof (owned_head KFace x f Hk Hf) as OW.
  unfold addFace. rewrite Ef. destruct (Nat.eqb_spec (owner m f) p) as [Ho|Ho].
  - destruct (sendOnce_ok KFace x a Ha) as (a' & E & I1 & X & Hin').
    { apply own_known; [exact Hp|]. rewrite <- Ho. apply own_object; [exact Hk|exact I|exact Hf]. }
    exists a'. split; [exact E|]. split; [exact I1|]. split; [exact X|]. split; [intros _; exact Hin'|].
    split; intros _ H; exfalso; apply H, OW; exact Ho.
  - destruct (Nat.eqb_spec (owner m f) q) as [Hq|Hq]; cbn [negb].
    + exists a. split; [reflexivity|]. split; [exact Ha|]. split; [apply ext_refl|]. split.
      * intros H. apply OW in H. contradiction.
      * split; intros _ _ H; exfalso; apply H, OW; exact Hq.
    + destruct (later_ok KFace x e a Ha Hk He) as (a' & E & I1 & X & Hin').
      { apply in_objects. right. repeat split; [exact Hk|exact Hx]. }
      rewrite E. exists a'. split; [reflexivity|]. split; [exact I1|]. split; [exact X|]. split.
      * intros H. apply OW in H. contradiction.
      * split; intros; exact Hin'.
Qed.
Lemma addEdgeOrNode_ok k e x a : k = KEdge \/ (k = KNode /\ 1 < dimension m) -> In e els -> In x (objectsOf m k e) -> inv a ->
  exists a', addEdgeOrNode m p g q k x (conc a) = Some (conc a') /\ inv a' /\ ext a a' /\ provided k x a'.
Proof.
  intros Hkk He Hx Ha.
  assert (Hk : k <> KElement) by (destruct Hkk as [->|(-> & _)]; discriminate).
  assert (HF : k <> KFace) by (destruct Hkk as [->|(-> & _)]; discriminate).
  assert (C : carries m k) by (destruct Hkk as [->|(-> & H)]; [exact I|exact H]).
  pose proof (el_adj e k x He Hk Hx) as Hadj.
  pose proof (proj1 (proj2 (proj2 (proj1 (els_in e) He)))) as Hoe.
  destruct (first_head p k x e Hk Hadj Hoe) as (f & Hf & Ef & Hin & Hfe).
  pose proof (owned_head k x f Hk Hf) as OW.
  unfold addEdgeOrNode. rewrite Ef. destruct (Nat.eqb_spec (owner m f) p) as [Ho|Ho].
  - destruct (sendOnce_ok k x a Ha) as (a' & E & I1 & X & Hin').
    { apply own_known; [exact Hp|]. rewrite <- Ho. apply own_object; [exact Hk|exact C|exact Hf]. }
    exists a'. split; [exact E|]. split; [exact I1|]. split; [exact X|]. split; [intros _; exact Hin'|].
    split; intros _ H; exfalso; apply H, OW; exact Ho.
  - rewrite (first_full p k x e Hk Hadj Hoe).
    destruct (existsb (fun e => owner m e =? q) (elementsOf m k x)) eqn:EX.
    + exists a. split; [reflexivity|]. split; [exact Ha|]. split; [apply ext_refl|]. split.
      * intros H. apply OW in H. contradiction.
      * split; [|intros H; congruence]. intros _ _ _ H. apply existsb_exists in EX. destruct EX as (e' & He' & E).
        apply Nat.eqb_eq in E. exfalso. apply (H e' He' E).
    + destruct (later_ok k x e a Ha Hk He) as (a' & E & I1 & X & Hin').
      { apply in_objects. right. repeat split; assumption. }
      rewrite E. exists a'. split; [reflexivity|]. split; [exact I1|]. split; [exact X|]. split.
      * intros H. apply OW in H. contradiction.
      * split; intros; exact Hin'.
Qed.
Definition el_provided (e : nat) (a : abs) : Prop := forall k x, In (k, x) (objects_of_element m e) -> provided k x a.
Lemma addElement_ok e a : In e els -> inv a ->
  exists a', addElement m p g q e (conc a) = Some (conc a') /\ inv a' /\ ext a a' /\ el_provided e a'.
Proof.
  intros He Ha. pose proof (proj1 (els_in e) He) as (Hpq & Hel & Hoe & Hv).
  set (b := {| a_os := a_os a ++ [(KElement, e)]; a_sent := a_sent a; a_second := a_second a |}).
  assert (Ke : knows g (KElement, e)) by (apply own_known; [exact Hp|]; rewrite <- Hoe; apply own_element; exact Hel).
  assert (Ib : inv b).
  { constructor; cbn [a_os a_sent a_second b].
    - intros t Ht. destruct (i_sent _ Ha t Ht) as (k & x & E & Hin). exists k, x. split; [exact E|]. apply in_app_iff. left. exact Hin.
    - intros o Ho. apply in_app_iff in Ho. destruct Ho as [Ho|[<-|[]]]; [apply (i_known _ Ha); exact Ho|exact Ke].
    - apply (i_second _ Ha). }
  assert (Xb : ext a b) by (split; cbn; [apply incl_appl|]; apply incl_refl).
  assert (Pb : provided KElement e b).
  { split; [intros _; cbn; apply in_app_iff; right; left; reflexivity|]. split; intros; congruence. }
  destruct (addAll_ok (addFace m p g q) (provided KFace) (objectsOf m KFace e) (provided_mono KFace)
    (fun x a Hx => addFace_ok e x a He Hx) b Ib) as (c & Ec & Ic & Xc & Pc).
  destruct (addAll_ok (addEdgeOrNode m p g q KEdge) (provided KEdge) (objectsOf m KEdge e) (provided_mono KEdge)
    (fun x a Hx => addEdgeOrNode_ok KEdge e x a (or_introl eq_refl) He Hx) c Ic) as (d & Ed & Id & Xd & Pd).
  unfold addElement. cbn [conc a_os a_sent a_second].
  rewrite (objectMessage_ok us val g (KElement, e) _ (r_us p Hp) Ke : objectMessage g KElement e _ = _). rewrite <- enc_app.
  cbn [bind]. change (enc (a_os a ++ [(KElement, e)]), a_sent a, a_second a) with (conc b).
  rewrite Ec. cbn [bind]. rewrite Ed. cbn [bind].
  destruct (Nat.ltb_spec 1 (dimension m)) as [Hd|Hd].
  - destruct (addAll_ok (addEdgeOrNode m p g q KNode) (provided KNode) (objectsOf m KNode e) (provided_mono KNode)
      (fun x a Hx => addEdgeOrNode_ok KNode e x a (or_intror (conj eq_refl Hd)) He Hx) d Id) as (f & Ef & If & Xf & Pf).
    exists f. split; [exact Ef|]. split; [exact If|].
    split; [apply (ext_trans _ _ _ Xb), (ext_trans _ _ _ Xc), (ext_trans _ _ _ Xd), Xf|].
    intros k x Ho. apply in_objects in Ho. destruct Ho as [(-> & ->)|(Hk & C & Hx)].
    + apply (provided_mono _ _ _ _ Pb), (ext_trans _ _ _ Xc), (ext_trans _ _ _ Xd), Xf.
    + destruct k; [congruence| | |].
      * apply (provided_mono _ _ _ _ (Pc x Hx)), (ext_trans _ _ _ Xd), Xf.
      * apply (provided_mono _ _ _ _ (Pd x Hx)), Xf.
      * apply Pf. exact Hx.
  - exists d. split; [reflexivity|]. split; [exact Id|].
    split; [apply (ext_trans _ _ _ Xb), (ext_trans _ _ _ Xc), Xd|].
    intros k x Ho. apply in_objects in Ho. destruct Ho as [(-> & ->)|(Hk & C & Hx)].
    + apply (provided_mono _ _ _ _ Pb), (ext_trans _ _ _ Xc), Xd.
    + destruct k; [congruence| | |].
      * apply (provided_mono _ _ _ _ (Pc x Hx)), Xd.
      * apply Pd. exact Hx.
      * cbn in C. lia.
Qed.
Lemma initial_ok : exists a, createInitialMessage m p g q els = Some (enc (a_os a), a_second a) /\ inv a /\
  forall e k x, In e els -> In (k, x) (objects_of_element m e) -> provided k x a.
Proof.
  set (a0 := {| a_os := []; a_sent := []; a_second := [] |}).
  destruct (addAll_ok (addElement m p g q) el_provided els) with (a := a0) as (a & E & Ia & _ & P).
  - intros e a b H X k x Hx. apply (provided_mono _ _ _ _ (H k x Hx) X).
  - intros e a He Ha. apply addElement_ok; assumption.
  - constructor; cbn; intros ? [].
  - exists a. unfold createInitialMessage. change ([], [], []) with (conc a0). rewrite E. split; [reflexivity|].
    split; [exact Ia|]. intros e k x He Hx. apply P with (1 := He). exact Hx.
Qed.
End First.

(** The contents of the messages *)
Definition init (p q : nat) : option (list nat * list nat) := createInitialMessage m p (r p) q (pushElements m p q).
Definition tags1 (p q : nat) : list nat := match init p q with Some (_, t) => t | None => [] end.
Definition body1 (p q : nat) : list nat := match init p q with Some (b, _) => b | None => [] end.
Lemma init_ok p q : p < n -> exists os,
  init p q = Some (enc os, tags1 p q) /\ body1 p q = enc os /\
  (forall t, In t (tags1 p q) -> exists k x e, t = tagOf k x /\ k <> KElement /\
     In e (pushElements m p q) /\ In (k, x) (objects_of_element m e)) /\
  (forall e k x, In e (pushElements m p q) -> In (k, x) (objects_of_element m e) -> owned_by m p k x -> In (k, x) os) /\
  (forall e k x, In e (pushElements m p q) -> In (k, x) (objects_of_element m e) -> k <> KElement ->
     ~ owned_by m p k x -> ~ owned_by m q k x ->
     In (tagOf k x) (tags1 p q) \/ exists e, In e (elementsOf m k x) /\ owner m e = q).
Proof.
  intros Hp. destruct (initial_ok p q Hp) as (a & E & Ia & P). exists (a_os a).
  assert (E0 : init p q = Some (enc (a_os a), a_second a)) by exact E.
  assert (ET : tags1 p q = a_second a) by (unfold tags1; rewrite E0; reflexivity).
  split; [rewrite ET; exact E0|]. split; [unfold body1; rewrite E0; reflexivity|]. rewrite ET.
  split; [apply (i_second _ _ _ Ia)|]. split.
  - intros e k x He Hx. apply (P e k x He Hx).
  - intros e k x He Hx Hk H1 H2. destruct (P e k x He Hx) as (_ & A & _).
    destruct (existsb (fun e => owner m e =? q) (elementsOf m k x)) eqn:EX.
    + right. apply existsb_exists in EX. destruct EX as (e' & He' & Eo). apply Nat.eqb_eq in Eo. exists e'. split; assumption.
    + left. apply A; [assumption|assumption|assumption|]. intros e' He' Eo.
      assert (T : existsb (fun e => owner m e =? q) (elementsOf m k x) = true).
      { apply existsb_exists. exists e'. split; [exact He'|]. apply Nat.eqb_eq. exact Eo. }
      congruence.
Qed.
Definition pushes (p q : nat) : bool := negb (isEmpty (pushElements m p q)).
Definition pushes2 (p q : nat) : bool := pushes p q && negb (isEmpty (tags1 p q)).
Definition msg1 (p q : nat) : list nat := body1 p q ++ [if isEmpty (tags1 p q) then 0 else 1].
Definition msg2 (p q : nat) : list nat := enc (map untag (tags1 p q)).

Lemma push_pushes p q e : In e (pushElements m p q) -> pushes p q = true.
Proof. unfold pushes. destruct (pushElements m p q); [intros []|reflexivity]. Qed.

(** * Who tells whom *)
Definition tells1 (q p : nat) (o : object) : Prop :=
  exists e, In e (pushElements m q p) /\ In o (objects_of_element m e) /\ owned_by m q (fst o) (snd o).
Definition tells2 (q p : nat) (o : object) : Prop := exists t, In t (tags1 q p) /\ untag t = o.
Lemma obj_adj e k x : In e (elements m) -> k <> KElement -> In (k, x) (objects_of_element m e) -> carries m k /\ In e (elementsOf m k x).
Proof.
  intros He Hk Ho. apply in_objects in Ho. destruct Ho as [(-> & _)|(_ & C & H)]; [congruence|]. split; [exact C|].
  apply (vm_adjacency _ _ VM); assumption.
Qed.
Lemma touches_own p k x e : p < n -> k <> KElement -> carries m k -> In e (elementsOf m k x) -> owner m e = p ->
  In (k, x) (objs m p) \/ exists q, q < n /\ q <> p /\ tells1 q p (k, x).
Proof.
  intros Hp Hk C He Ho. destruct (first_head p k x e Hk He Ho) as (f & Hf & _ & Hin & Hfe).
  pose proof (own_object k x f Hk C Hf) as OO.
  destruct (Nat.eq_dec (owner m f) p) as [E|E]; [left; rewrite <- E; exact OO|]. right. exists (owner m f).
  split; [apply (vm_owner _ _ VM); exact Hfe|]. split; [exact E|]. exists f. cbn [fst snd]. split; [|split].
  - apply push_in. repeat split; [exact E|exact Hfe|]. rewrite <- Ho. apply (vm_shadow _ _ VM k x e f); assumption.
  - apply in_objects. right. repeat split; [exact Hk|exact C|]. apply (vm_adjacency _ _ VM); assumption.
  - apply (owned_head k x f Hk Hf). reflexivity.
Qed.
Lemma knows_for_second p q t : p < n -> In t (tags1 p q) -> exists k x, t = tagOf k x /\ k <> KElement /\
  (In (k, x) (objs m p) \/ exists s, s < n /\ s <> p /\ tells1 s p (k, x)).
Proof.
  intros Hp Ht. destruct (init_ok p q Hp) as (os & _ & _ & S & _). destruct (S t Ht) as (k & x & e & E & Hk & He & Ho).
  exists k, x. split; [exact E|]. split; [exact Hk|]. apply push_in in He. destruct He as (_ & He & Hoe & _).
  destruct (obj_adj e k x He Hk Ho) as (C & Hadj). apply (touches_own p k x e); assumption.
Qed.
Lemma covered p e k x : p < n -> In e (elements m) -> visible m p e = true -> In (k, x) (objects_of_element m e) ->
  In (k, x) (objs m p) \/ exists q, q < n /\ q <> p /\ (tells1 q p (k, x) \/ tells2 q p (k, x)).
Proof.
  intros Hp He Hv Ho. destruct (kind_eq_dec k KElement) as [->|Hk].
  - pose proof Ho as Ho'. apply in_objects in Ho'. destruct Ho' as [(_ & ->)|(F & _)]; [|congruence].
    destruct (Nat.eq_dec (owner m e) p) as [E|E]; [left; rewrite <- E; apply own_element; exact He|].
    right. exists (owner m e). split; [apply (vm_owner _ _ VM); exact He|]. split; [exact E|]. left. exists e. cbn [fst snd].
    split; [apply push_in; repeat split; assumption|]. split; [exact Ho|]. exists e. split; reflexivity.
  - destruct (obj_adj e k x He Hk Ho) as (C & Hadj).
    destruct (Nat.eq_dec (owner m e) p) as [E|E].
    { destruct (touches_own p k x e Hp Hk C Hadj E) as [H|(q & Hq & Hne & H)]; [left; exact H|].
      right. exists q. repeat split; [exact Hq|exact Hne|left; exact H]. }
    set (s := owner m e). assert (Hs : s < n) by (apply (vm_owner _ _ VM); exact He).
    assert (Hpush : In e (pushElements m s p)) by (apply push_in; repeat split; assumption).
    destruct (first_head s k x e Hk Hadj eq_refl) as (f & Hf & _ & Hin & Hfe).
    pose proof (owned_head k x f Hk Hf) as OW.
    destruct (Nat.eq_dec (owner m f) s) as [Es|Es].
    { right. exists s. split; [exact Hs|]. split; [exact E|]. left. exists e. cbn [fst snd].
      split; [exact Hpush|]. split; [exact Ho|]. apply OW. exact Es. }
    destruct (Nat.eq_dec (owner m f) p) as [Ep|Ep].
    { left. rewrite <- Ep. apply own_object; assumption. }
    destruct (init_ok s p Hs) as (os & _ & _ & _ & _ & T).
    destruct (T e k x Hpush Ho Hk) as [Ht|(e' & He' & Ee')].
    { intros H. apply OW in H. contradiction. }
    { intros H. apply OW in H. contradiction. }
    + right. exists s. split; [exact Hs|]. split; [exact E|]. right. exists (tagOf k x). split; [exact Ht|apply untag_tag].
    + destruct (touches_own p k x e' Hp Hk C He' Ee') as [H|(q & Hq & Hne & H)]; [left; exact H|].
      right. exists q. repeat split; [exact Hq|exact Hne|left; exact H].
Qed.

(** * The state of the system *)
Inductive status := Unsent | Flying | Received.
Definition isR (s : status) : bool := match s with Received => true | _ => false end.
Definition chg (f : nat -> nat -> status) (a b : nat) (s : status) : nat -> nat -> status :=
  fun c d => if (c =? a) && (d =? b) then s else f c d.
Definition second (done : list (nat * list nat)) (p : nat) : list (nat * list nat) :=
  filter (fun e : nat * list nat => negb (isEmpty (snd e))) (map (fun e => (fst e, tags1 p (fst e))) done).
Definition sources (p : nat) : list nat := filter (fun q => pushes q p) (procs n).
Definition sources2 (p : nat) : list nat := filter (fun q => pushes2 q p) (procs n).
Definition open (f : nat -> nat -> status) (p : nat) (l : list nat) : nat := length (filter (fun q => negb (isR (f q p))) l).

(** what a process knows: its own numbers and what it has been told *)
Definition informedBy (f1 f2 : nat -> nat -> status) (p : nat) (g : GlobalIndexing) : Prop :=
  like (r p) g /\ (forall o, In o (objs m p) -> knows g o) /\
  (forall q o, f1 q p = Received -> tells1 q p o -> knows g o) /\
  (forall q o, f2 q p = Received -> tells2 q p o -> knows g o).
Definition all1 (f1 : nat -> nat -> status) : Prop := forall a b, a < n -> b < n -> pushes a b = true -> f1 a b = Received.

Definition sentAll1 (f1 : nat -> nat -> status) p := forall q, q < n -> pushes p q = true -> f1 p q <> Unsent.
Definition sentAll2 (f2 : nat -> nat -> status) p := forall q, q < n -> pushes2 p q = true -> f2 p q <> Unsent.
Definition none2 (f2 : nat -> nat -> status) p := forall q, f2 p q = Unsent /\ f2 q p <> Received.
Definition got2 (f1 : nat -> nat -> status) p := length (filter (fun q => isR (f1 q p)) (sources2 p)).
Definition phaseOk (f1 f2 : nat -> nat -> status) (p : nat) (x : Proc) : Prop :=
  match phase x with
  | Send1 todo => indexing_ x = r p /\ secondRoundReceives x = 0 /\ (forall q, f1 q p <> Received) /\ none2 f2 p /\
      exists done, pushMap m n p = done ++ todo /\ secondRound x = second done p /\
        (forall q, In q (map fst done) -> f1 p q <> Unsent) /\ (forall q, In q (map fst todo) -> f1 p q = Unsent)
  | Recv1 l => sentAll1 f1 p /\ secondRound x = second (pushMap m n p) p /\ none2 f2 p /\
      l = open f1 p (sources p) /\ secondRoundReceives x = got2 f1 p
  | Waitall1 | Barrier1 => sentAll1 f1 p /\ secondRound x = second (pushMap m n p) p /\ none2 f2 p /\
      open f1 p (sources p) = 0 /\ secondRoundReceives x = got2 f1 p
  | Send2 todo => all1 f1 /\ secondRoundReceives x = length (sources2 p) /\
      exists done, second (pushMap m n p) p = done ++ todo /\
        (forall q, In q (map fst done) -> f2 p q <> Unsent) /\ (forall q, In q (map fst todo) -> f2 p q = Unsent) /\
        (forall q, f2 q p <> Received)
  | Recv2 l => all1 f1 /\ sentAll2 f2 p /\ l = open f2 p (sources2 p)
  | Waitall2 | Barrier2 | Done => all1 f1 /\ sentAll2 f2 p /\ open f2 p (sources2 p) = 0
  | Failed => False
  end.
Definition rank (ph : Phase) : nat :=
  match ph with Send1 _ => 0 | Recv1 _ => 1 | Waitall1 => 2 | Barrier1 => 3 | Send2 _ => 4 | Recv2 _ => 5
  | Waitall2 => 6 | Barrier2 => 7 | Done => 8 | Failed => 9 end.

Record Inv (s : System) (f1 f2 : nat -> nat -> status) : Prop := {
  v_dom1 : forall a b, f1 a b <> Unsent -> a < n /\ b < n /\ pushes a b = true;
  v_dom2 : forall a b, f2 a b <> Unsent -> a < n /\ b < n /\ pushes2 a b = true;
  v_net : forall a b d, In (a, b, d) (network s) <-> (f1 a b = Flying /\ d = msg1 a b) \/ (f2 a b = Flying /\ d = msg2 a b);
  v_nodup : NoDup (map fst (network s));
  v_ph : forall p, p < n -> phaseOk f1 f2 p (proc s p);
  v_know : forall p, p < n -> informedBy f1 f2 p (indexing_ (proc s p));
  v_b1 : forall p q, p < n -> q < n -> 4 <= rank (phase (proc s p)) -> 3 <= rank (phase (proc s q));
  v_b2 : forall p q, p < n -> q < n -> 8 <= rank (phase (proc s p)) -> 7 <= rank (phase (proc s q))
}.

(** ** Lists and maps *)
Lemma mput_last {V} k (v : V) l : Forall (fun e : nat * V => fst e < k) l -> mput Nat.ltb k v l = l ++ [(k, v)].
Proof.
  induction 1 as [|[k' v'] l H _ IH]; [reflexivity|]. cbn -[Nat.ltb]. cbn in H.
  rewrite (proj2 (Nat.ltb_ge k k')) by lia. rewrite (proj2 (Nat.ltb_lt k' k)) by lia. f_equal. exact IH.
Qed.
Lemma merase_last {V} k (v : V) l : Forall (fun e : nat * V => fst e < k) l -> merase Nat.ltb k (l ++ [(k, v)]) = l.
Proof.
  induction 1 as [|[k' v'] l H _ IH]; cbn -[Nat.ltb].
  - rewrite Nat.ltb_irrefl. reflexivity.
  - cbn in H. rewrite (proj2 (Nat.ltb_ge k k')) by lia. rewrite (proj2 (Nat.ltb_lt k' k)) by lia. f_equal. exact IH.
Qed.
Lemma pushMap_in p q e : In (q, e) (pushMap m n p) <-> q < n /\ pushes p q = true /\ e = pushElements m p q.
Proof.
  unfold pushMap. rewrite filter_In, in_map_iff. unfold procs. split.
  - intros ((q' & E & Hq) & H). inversion E; subst. apply in_seq in Hq. cbn in H. repeat split; [lia|exact H].
  - intros (Hq & H & ->). split; [|exact H]. exists q. split; [reflexivity|]. apply in_seq. lia.
Qed.
Lemma pushMap_keys p : map fst (pushMap m n p) = filter (fun q => pushes p q) (seq 0 n).
Proof.
  unfold pushMap, procs. induction (seq 0 n) as [|q l IH]; [reflexivity|]. cbn [map filter snd]. fold (pushes p q).
  destruct (pushes p q); cbn [map fst]; [f_equal|]; exact IH.
Qed.
Lemma pullMap_length p : length (pullMap m n p) = length (sources p).
Proof.
  unfold pullMap, sources. induction (procs n) as [|q l IH]; [reflexivity|]. cbn [map filter snd]. fold (pushes q p).
  destruct (pushes q p); cbn [length]; [f_equal|]; exact IH.
Qed.
Lemma filter_sorted {A} (R : A -> A -> Prop) (h : A -> bool) l : StronglySorted R l -> StronglySorted R (filter h l).
Proof.
  induction 1 as [|a l S IH F]; cbn; [constructor|]. destruct (h a); [|exact IH]. constructor; [exact IH|].
  rewrite Forall_forall in *. intros b Hb. apply filter_In in Hb. apply F. tauto.
Qed.
Lemma pushMap_sorted p : StronglySorted lt (map fst (pushMap m n p)).
Proof. rewrite pushMap_keys. apply filter_sorted, seq_sorted. Qed.
Lemma sorted_app_lt (a : list nat) b l : StronglySorted lt (a ++ b :: l) -> Forall (fun x => x < b) a /\ ~ In b l /\ ~ In b a.
Proof.
  induction a as [|x a IH]; cbn; intros H; inversion H as [|y z S F]; subst.
  - split; [constructor|]. split; [|intros []]. intros Hb. rewrite Forall_forall in F. specialize (F b Hb). lia.
  - destruct (IH S) as (A & B & C). rewrite Forall_forall in F.
    assert (x < b) by (apply F, in_app_iff; right; left; reflexivity).
    split; [constructor; assumption|]. split; [exact B|]. intros [->|Hb]; [lia|contradiction].
Qed.
Lemma second_app a b p : second (a ++ b) p = second a p ++ second b p.
Proof. unfold second. rewrite map_app, filter_app. reflexivity. Qed.
Lemma second_keys_incl a p q : In q (map fst (second a p)) -> In q (map fst a).
Proof.
  unfold second. intros H. apply in_map_iff in H. destruct H as ((q' & t) & <- & H). apply filter_In in H. destruct H as (H & _).
  apply in_map_iff in H. destruct H as (e & E & H). inversion E; subst. cbn [fst]. apply in_map. exact H.
Qed.
Lemma second_sorted p : StronglySorted lt (map fst (second (pushMap m n p) p)).
Proof.
  pose proof (pushMap_sorted p) as H. induction (pushMap m n p) as [|e l IH]; [constructor|]. cbn [map] in H.
  inversion H as [|y z S F]; subst. specialize (IH S). unfold second in *. cbn [map filter snd].
  destruct (negb (isEmpty (tags1 p (fst e)))); [|exact IH]. cbn [map fst]. constructor; [exact IH|].
  rewrite Forall_forall in *. intros q Hq. apply F. apply (second_keys_incl l p). exact Hq.
Qed.
Lemma second_in p q t : In (q, t) (second (pushMap m n p) p) <-> q < n /\ pushes2 p q = true /\ t = tags1 p q.
Proof.
  unfold second. rewrite filter_In, in_map_iff. cbn [snd]. unfold pushes2. split.
  - intros (((q' & e) & E & H) & T). inversion E; subst. apply pushMap_in in H. cbn [fst] in *. destruct H as (Hq & Hp & _).
    rewrite Hp, T. repeat split. exact Hq.
  - intros (Hq & H & ->). apply andb_true_iff in H. destruct H as (H & T). split; [|exact T].
    exists (q, pushElements m p q). split; [reflexivity|]. apply pushMap_in. repeat split; assumption.
Qed.
Lemma second_length p : length (second (pushMap m n p) p) <= n.
Proof.
  unfold second. eapply Nat.le_trans; [apply filter_length_le'|]. rewrite map_length, <- (map_length fst), pushMap_keys.
  eapply Nat.le_trans; [apply filter_length_le'|]. rewrite seq_length. lia.
Qed.

(** ** Other processes do not notice *)
Definition sim (p : nat) (f f' : nat -> nat -> status) : Prop :=
  (forall q, isR (f' q p) = isR (f q p)) /\ (forall q, f' p q = Unsent <-> f p q = Unsent).
Lemma sim_refl p f : sim p f f.
Proof. split; [reflexivity|tauto]. Qed.
Lemma isR_iff (f f' : nat -> nat -> status) q p : isR (f' q p) = isR (f q p) -> (f' q p = Received <-> f q p = Received).
Proof. destruct (f' q p), (f q p); cbn; intros; split; congruence. Qed.
Lemma open_sim p f f' l : sim p f f' -> open f' p l = open f p l.
Proof. intros (A & _). unfold open. f_equal. apply filter_ext. intros q. rewrite A. reflexivity. Qed.
Lemma phaseOk_sim p x f1 f2 f1' f2' : sim p f1 f1' -> sim p f2 f2' -> (all1 f1 -> all1 f1') ->
  phaseOk f1 f2 p x -> phaseOk f1' f2' p x.
Proof.
  intros S1 S2 HA. pose proof (proj2 S1) as U1. pose proof (proj2 S2) as U2.
  assert (R1 : forall q, f1' q p = Received <-> f1 q p = Received) by (intros q; apply isR_iff, S1).
  assert (R2 : forall q, f2' q p = Received <-> f2 q p = Received) by (intros q; apply isR_iff, S2).
  assert (A1 : sentAll1 f1 p -> sentAll1 f1' p) by (intros H q Hq P; rewrite U1; apply H; assumption).
  assert (A2 : sentAll2 f2 p -> sentAll2 f2' p) by (intros H q Hq P; rewrite U2; apply H; assumption).
  assert (N2 : none2 f2 p -> none2 f2' p) by (intros H q; rewrite U2, R2; apply H).
  assert (G : got2 f1' p = got2 f1 p) by (unfold got2; f_equal; apply filter_ext; intros q; apply S1).
  unfold phaseOk. rewrite !(open_sim p f1 f1' _ S1), !(open_sim p f2 f2' _ S2), G.
  destruct (phase x); try tauto.
  - intros (H1 & H2 & H3 & H4 & done & H5 & H6 & H7 & H8). split; [exact H1|]. split; [exact H2|].
    split; [intros q; rewrite R1; apply H3|]. split; [apply N2; exact H4|]. exists done. split; [exact H5|]. split; [exact H6|].
    split; intros q Hq; rewrite U1; auto.
  - intros (H1 & H2 & done & H3 & H4 & H5 & H6). split; [apply HA; exact H1|]. split; [exact H2|]. exists done.
    split; [exact H3|]. split; [|split]; intros q; rewrite ?U2, ?R2; auto.
Qed.
Lemma informed_sim p g f1 f2 f1' f2' : sim p f1 f1' -> sim p f2 f2' -> informedBy f1 f2 p g -> informedBy f1' f2' p g.
Proof.
  intros S1 S2 (A & B & C & D). split; [exact A|]. split; [exact B|]. split.
  - intros q o H. apply C. apply (isR_iff f1 f1' q p); [apply S1|exact H].
  - intros q o H. apply D. apply (isR_iff f2 f2' q p); [apply S2|exact H].
Qed.

Lemma Inv_update s s' f1 f2 f1' f2' p :
  Inv s f1 f2 -> p < n ->
  (forall q, q <> p -> proc s' q = proc s q) ->
  (forall q, q <> p -> sim q f1 f1' /\ sim q f2 f2') -> (all1 f1 -> all1 f1') ->
  (forall a b, f1' a b <> Unsent -> a < n /\ b < n /\ pushes a b = true) ->
  (forall a b, f2' a b <> Unsent -> a < n /\ b < n /\ pushes2 a b = true) ->
  (forall a b d, In (a, b, d) (network s') <-> (f1' a b = Flying /\ d = msg1 a b) \/ (f2' a b = Flying /\ d = msg2 a b)) ->
  NoDup (map fst (network s')) ->
  phaseOk f1' f2' p (proc s' p) -> informedBy f1' f2' p (indexing_ (proc s' p)) ->
  rank (phase (proc s p)) <= rank (phase (proc s' p)) ->
  (4 <= rank (phase (proc s' p)) -> 4 <= rank (phase (proc s p)) \/ forall q, q < n -> 3 <= rank (phase (proc s q))) ->
  (8 <= rank (phase (proc s' p)) -> 8 <= rank (phase (proc s p)) \/ forall q, q < n -> 7 <= rank (phase (proc s q))) ->
  Inv s' f1' f2'.
Proof.
  intros V Hp Hproc Hsim HA D1 D2 HN HD Hph Hk Hr H4 H8. constructor; try assumption.
  - intros q Hq. destruct (Nat.eq_dec q p) as [->|Hne]; [exact Hph|]. rewrite Hproc by exact Hne.
    destruct (Hsim q Hne) as (S1 & S2). apply (phaseOk_sim q _ f1 f2); [exact S1|exact S2|exact HA|]. apply (v_ph _ _ _ V). exact Hq.
  - intros q Hq. destruct (Nat.eq_dec q p) as [->|Hne]; [exact Hk|]. rewrite Hproc by exact Hne.
    destruct (Hsim q Hne) as (S1 & S2). apply (informed_sim q _ f1 f2); [exact S1|exact S2|]. apply (v_know _ _ _ V). exact Hq.
  - assert (Hge : forall q, rank (phase (proc s q)) <= rank (phase (proc s' q))).
    { intros q. destruct (Nat.eq_dec q p) as [->|Hne]; [exact Hr|rewrite Hproc by exact Hne; lia]. }
    intros a b Ha Hb H. specialize (Hge b). apply (Nat.le_trans _ (rank (phase (proc s b)))); [|exact Hge].
    destruct (Nat.eq_dec a p) as [->|Hne].
    + destruct (H4 H) as [H'|H']; [apply (v_b1 _ _ _ V p b Hp Hb H')|apply H'; exact Hb].
    + rewrite Hproc in H by exact Hne. apply (v_b1 _ _ _ V a b Ha Hb H).
  - assert (Hge : forall q, rank (phase (proc s q)) <= rank (phase (proc s' q))).
    { intros q. destruct (Nat.eq_dec q p) as [->|Hne]; [exact Hr|rewrite Hproc by exact Hne; lia]. }
    intros a b Ha Hb H. specialize (Hge b). apply (Nat.le_trans _ (rank (phase (proc s b)))); [|exact Hge].
    destruct (Nat.eq_dec a p) as [->|Hne].
    + destruct (H8 H) as [H'|H']; [apply (v_b2 _ _ _ V p b Hp Hb H')|apply H'; exact Hb].
    + rewrite Hproc in H by exact Hne. apply (v_b2 _ _ _ V a b Ha Hb H).
Qed.

Lemma proc_set s p x q : proc (setProc s p x) q = if q =? p then x else proc s q.
Proof. reflexivity. Qed.
(** a step that changes only the phase *)
Lemma Inv_phase s f1 f2 p ph : Inv s f1 f2 -> p < n ->
  phaseOk f1 f2 p (setPhase (proc s p) ph) ->
  rank (phase (proc s p)) <= rank ph ->
  (4 <= rank ph -> 4 <= rank (phase (proc s p)) \/ forall q, q < n -> 3 <= rank (phase (proc s q))) ->
  (8 <= rank ph -> 8 <= rank (phase (proc s p)) \/ forall q, q < n -> 7 <= rank (phase (proc s q))) ->
  Inv (setProc s p (setPhase (proc s p) ph)) f1 f2.
Proof.
  intros V Hp Hph Hr H4 H8.
  apply (Inv_update s _ f1 f2 f1 f2 p V Hp); try (rewrite proc_set, Nat.eqb_refl); try assumption.
  - intros q Hq. rewrite proc_set. apply Nat.eqb_neq in Hq. rewrite Hq. reflexivity.
  - intros q _. split; apply sim_refl.
  - tauto.
  - apply (v_dom1 _ _ _ V).
  - apply (v_dom2 _ _ _ V).
  - apply (v_net _ _ _ V).
  - apply (v_nodup _ _ _ V).
  - cbn. apply (v_know _ _ _ V). exact Hp.
Qed.

(** ** Sending and receiving *)
Lemma chg_same f a b x : chg f a b x a b = x.
Proof. unfold chg. rewrite !Nat.eqb_refl. reflexivity. Qed.
Lemma chg_other f a b x c d : (c, d) <> (a, b) -> chg f a b x c d = f c d.
Proof.
  intros H. unfold chg. destruct (Nat.eqb_spec c a) as [->|]; [|reflexivity]. destruct (Nat.eqb_spec d b) as [->|]; [congruence|reflexivity].
Qed.
Lemma chg_cases f a b x c d : (c = a /\ d = b /\ chg f a b x c d = x) \/ ((c, d) <> (a, b) /\ chg f a b x c d = f c d).
Proof.
  destruct (Nat.eq_dec c a) as [->|Hc]; [destruct (Nat.eq_dec d b) as [->|Hd]|].
  - left. rewrite chg_same. repeat split.
  - right. rewrite chg_other by congruence. split; [congruence|reflexivity].
  - right. rewrite chg_other by congruence. split; [congruence|reflexivity].
Qed.
Lemma sim_send p t q f : f p t = Unsent -> q <> p -> sim q f (chg f p t Flying).
Proof.
  intros H Hq. split; intros c.
  - destruct (chg_cases f p t Flying c q) as [(-> & -> & E)|(_ & E)]; rewrite E; [rewrite H|]; reflexivity.
  - rewrite chg_other by congruence. tauto.
Qed.
Lemma sim_recv a p q f : f a p = Flying -> q <> p -> sim q f (chg f a p Received).
Proof.
  intros H Hq. split; intros c.
  - rewrite chg_other by congruence. reflexivity.
  - destruct (chg_cases f a p Received q c) as [(-> & -> & E)|(_ & E)]; rewrite E; [rewrite H; split; congruence|tauto].
Qed.
Lemma open_recv f a p l : NoDup l -> In a l -> f a p <> Received -> open f p l = S (open (chg f a p Received) p l).
Proof.
  intros ND Hin Hf. unfold open. induction ND as [|b l Hb ND IH]; [destruct Hin|]. cbn [filter].
  destruct (Nat.eq_dec b a) as [->|Hne].
  - rewrite chg_same. cbn [isR negb]. replace (isR (f a p)) with false by (destruct (f a p); [| |congruence]; reflexivity). cbn [negb length].
    do 2 f_equal. apply filter_ext_in. intros c Hc. rewrite chg_other; [reflexivity|]. intros E. inversion E; subst. contradiction.
  - destruct Hin as [E|Hin]; [contradiction|]. rewrite chg_other by congruence. specialize (IH Hin).
    destruct (isR (f b p)); cbn [negb length]; lia.
Qed.
Lemma got_recv f a p l : NoDup l -> f a p <> Received ->
  length (filter (fun q => isR (chg f a p Received q p)) l) = length (filter (fun q => isR (f q p)) l) + (if in_dec Nat.eq_dec a l then 1 else 0).
Proof.
  intros ND Hf. induction ND as [|b l Hb ND IH]; [reflexivity|]. cbn [filter].
  destruct (Nat.eq_dec b a) as [->|Hne].
  - rewrite chg_same. cbn [isR]. replace (isR (f a p)) with false by (destruct (f a p); [| |congruence]; reflexivity). cbn [length].
    destruct (in_dec Nat.eq_dec a (a :: l)) as [|F]; [|exfalso; apply F; left; reflexivity].
    rewrite Nat.add_1_r. do 2 f_equal. apply filter_ext_in. intros c Hc. rewrite chg_other; [reflexivity|]. intros E. inversion E; subst. contradiction.
  - rewrite chg_other by congruence.
    assert (E : (if in_dec Nat.eq_dec a (b :: l) then 1 else 0) = (if in_dec Nat.eq_dec a l then 1 else 0)).
    { destruct (in_dec Nat.eq_dec a (b :: l)) as [[F|F]|F], (in_dec Nat.eq_dec a l) as [G|G]; try reflexivity; try contradiction.
      exfalso. apply F. right. exact G. }
    rewrite E. destruct (isR (f b p)); cbn [length]; lia.
Qed.
Lemma sources_nodup p : NoDup (sources p).
Proof. apply NoDup_filter, seq_NoDup. Qed.
Lemma sources2_nodup p : NoDup (sources2 p).
Proof. apply NoDup_filter, seq_NoDup. Qed.
Lemma sources_in p q : In q (sources p) <-> q < n /\ pushes q p = true.
Proof. unfold sources, procs. rewrite filter_In, in_seq. intuition lia. Qed.
Lemma sources2_in p q : In q (sources2 p) <-> q < n /\ pushes2 q p = true.
Proof. unfold sources2, procs. rewrite filter_In, in_seq. intuition lia. Qed.
Lemma open_zero f p l : open f p l = 0 -> forall q, In q l -> f q p = Received.
Proof.
  unfold open. intros H q Hq. destruct (f q p) eqn:E; [exfalso|exfalso|reflexivity].
  - assert (F : In q (filter (fun q => negb (isR (f q p))) l)) by (apply filter_In; rewrite E; split; [exact Hq|reflexivity]).
    destruct (filter (fun q => negb (isR (f q p))) l); [destruct F|discriminate].
  - assert (F : In q (filter (fun q => negb (isR (f q p))) l)) by (apply filter_In; rewrite E; split; [exact Hq|reflexivity]).
    destruct (filter (fun q => negb (isR (f q p))) l); [destruct F|discriminate].
Qed.
Lemma open_pos f p l k : open f p l = S k -> exists q, In q l /\ f q p <> Received.
Proof.
  unfold open. intros H. destruct (filter (fun q => negb (isR (f q p))) l) as [|q t] eqn:E; [discriminate|].
  assert (F : In q (filter (fun q => negb (isR (f q p))) l)) by (rewrite E; left; reflexivity).
  apply filter_In in F. exists q. split; [tauto|]. intros G. rewrite G in F. destruct F. discriminate.
Qed.
Lemma open_all f p l : (forall q, f q p <> Received) -> open f p l = length l.
Proof. intros H. unfold open. rewrite filter_all; [reflexivity|]. intros q _. specialize (H q). destruct (f q p); [| |congruence]; reflexivity. Qed.

Lemma net_remove (A B : list Message) src p data : NoDup (map fst (A ++ (src, p, data) :: B)) ->
  forall x y d, In (x, y, d) (A ++ B) <-> In (x, y, d) (A ++ (src, p, data) :: B) /\ (x, y) <> (src, p).
Proof.
  intros ND x y d. rewrite map_app in ND. cbn [map fst] in ND. apply NoDup_remove_2 in ND. rewrite !in_app_iff. cbn [In]. split.
  - intros H. split; [tauto|]. intros E. apply ND. rewrite <- E. rewrite in_app_iff, !in_map_iff.
    destruct H as [H|H]; [left|right]; exists (x, y, d); (split; [reflexivity|exact H]).
  - intros ([H|[H|H]] & Hne); [left; exact H| |right; exact H]. inversion H; subst. congruence.
Qed.
Lemma net_remove_nodup (A B : list Message) x : NoDup (map fst (A ++ x :: B)) -> NoDup (map fst (A ++ B)).
Proof. rewrite !map_app. cbn. apply NoDup_remove_1. Qed.

Lemma rank_f2 s f1 f2 a b : Inv s f1 f2 -> f2 a b <> Unsent -> 4 <= rank (phase (proc s a)).
Proof.
  intros V H. destruct (v_dom2 _ _ _ V a b H) as (Ha & _). pose proof (v_ph _ _ _ V a Ha) as P. unfold phaseOk in P.
  destruct (phase (proc s a)); cbn [rank]; try lia.
  - destruct P as (_ & _ & _ & P & _). destruct (P b). contradiction.
  - destruct P as (_ & _ & P & _). destruct (P b). contradiction.
  - destruct P as (_ & _ & P & _). destruct (P b). contradiction.
  - destruct P as (_ & _ & P & _). destruct (P b). contradiction.
Qed.
Lemma rank4_all1 s f1 f2 a : Inv s f1 f2 -> a < n -> 4 <= rank (phase (proc s a)) -> all1 f1.
Proof.
  intros V Ha H. pose proof (v_ph _ _ _ V a Ha) as P. unfold phaseOk in P.
  destruct (phase (proc s a)); cbn [rank] in H; try lia; tauto.
Qed.
Lemma rank1_sent s f1 f2 a : Inv s f1 f2 -> a < n -> 1 <= rank (phase (proc s a)) -> sentAll1 f1 a.
Proof.
  intros V Ha H. pose proof (v_ph _ _ _ V a Ha) as P. unfold phaseOk in P.
  assert (Q : all1 f1 -> sentAll1 f1 a) by (intros Q q Hq Hpu; rewrite (Q a q Ha Hq Hpu); discriminate).
  destruct (phase (proc s a)); cbn [rank] in H; try lia; tauto.
Qed.
Lemma f2_f1 s f1 f2 a b : Inv s f1 f2 -> f2 a b <> Unsent -> f1 a b = Received.
Proof.
  intros V H. pose proof (v_dom2 _ _ _ V a b H) as (Ha & Hb & Hp). unfold pushes2 in Hp. apply andb_true_iff in Hp.
  apply (rank4_all1 s f1 f2 a V Ha (rank_f2 s f1 f2 a b V H)); tauto.
Qed.

Lemma all1_mono f a b x : (f a b = Unsent -> pushes a b = true /\ a < n /\ b < n) -> (f a b = Received -> x = Received) -> (f a b = Flying -> x = Received) ->
  all1 f -> all1 (chg f a b x).
Proof.
  intros H1 H2 H3 H c d Hc Hd Hp. destruct (chg_cases f a b x c d) as [(-> & -> & E)|(_ & E)]; rewrite E; [|apply H; assumption].
  apply H2. apply H; assumption.
Qed.

(** posting a message of the first round *)
Lemma post1_net s f1 f2 p t : Inv s f1 f2 -> f1 p t = Unsent -> forall a b d,
  In (a, b, d) (network s ++ [(p, t, msg1 p t)]) <->
  (chg f1 p t Flying a b = Flying /\ d = msg1 a b) \/ (f2 a b = Flying /\ d = msg2 a b).
Proof.
  intros V HU a b d. rewrite in_app_iff, (v_net _ _ _ V). cbn [In].
  destruct (chg_cases f1 p t Flying a b) as [(-> & -> & E)|(Hne & E)]; rewrite E.
  - split.
    + intros [[(F & _)|H]|[H|[]]]; [congruence|right; exact H|]. inversion H. left. split; reflexivity.
    + intros [(_ & ->)|H]; [right; left; reflexivity|left; right; exact H].
  - split; [|tauto]. intros [H|[H|[]]]; [exact H|]. inversion H; subst. congruence.
Qed.
Lemma post2_net s f1 f2 p t : Inv s f1 f2 -> f2 p t = Unsent -> forall a b d,
  In (a, b, d) (network s ++ [(p, t, msg2 p t)]) <->
  (f1 a b = Flying /\ d = msg1 a b) \/ (chg f2 p t Flying a b = Flying /\ d = msg2 a b).
Proof.
  intros V HU a b d. rewrite in_app_iff, (v_net _ _ _ V). cbn [In].
  destruct (chg_cases f2 p t Flying a b) as [(-> & -> & E)|(Hne & E)]; rewrite E.
  - split.
    + intros [[H|(F & _)]|[H|[]]]; [left; exact H|congruence|]. inversion H. right. split; reflexivity.
    + intros [H|(_ & ->)]; [left; left; exact H|right; left; reflexivity].
  - split; [|tauto]. intros [H|[H|[]]]; [exact H|]. inversion H; subst. congruence.
Qed.
Lemma post_nodup s f1 f2 p t d : Inv s f1 f2 -> f1 p t <> Flying -> f2 p t <> Flying -> NoDup (map fst (network s ++ [(p, t, d)])).
Proof.
  intros V H1 H2. rewrite map_app. cbn [map fst]. apply NoDup_app; [apply (v_nodup _ _ _ V)|repeat constructor; intros []|].
  intros x Hx [<-|[]]. apply in_map_iff in Hx. destruct Hx as (((a, b), d') & E & Hin). cbn in E. inversion E; subst.
  apply (v_net _ _ _ V) in Hin. tauto.
Qed.

Lemma send1_ok s f1 f2 p t e rest : Inv s f1 f2 -> p < n -> phase (proc s p) = Send1 ((t, e) :: rest) ->
  exists x, sendFirst m p (proc s p) t e rest = Some (x, msg1 p t) /\
  Inv (post (setProc s p x) (p, t, msg1 p t)) (chg f1 p t Flying) f2.
Proof.
  intros V Hp Ep. pose proof (v_ph _ _ _ V p Hp) as P. unfold phaseOk in P. rewrite Ep in P.
  destruct P as (Eg & E0 & HnR & Hn2 & done & Epm & Esr & Hd & Ht).
  assert (Hin : In (t, e) (pushMap m n p)) by (rewrite Epm; apply in_app_iff; right; left; reflexivity).
  apply pushMap_in in Hin. destruct Hin as (Htn & Hpush & ->).
  pose proof (Ht t (or_introl eq_refl)) as HU.
  pose proof (pushMap_sorted p) as Srt. rewrite Epm, map_app in Srt. cbn [map fst] in Srt.
  destruct (sorted_app_lt _ _ _ Srt) as (Flt & Hnr & Hnd).
  destruct (init_ok p t Hp) as (os & Ei & Eb & _).
  unfold sendFirst. rewrite Eg. fold (init p t). rewrite Ei.
  assert (FS : Forall (fun e : nat * list nat => fst e < t) (secondRound (proc s p))).
  { rewrite Esr. apply Forall_forall. intros (q & l) Hq. rewrite Forall_forall in Flt. apply Flt.
    apply (second_keys_incl done p). apply (in_map fst) in Hq. exact Hq. }
  eexists. split.
  { rewrite <- Eb. unfold msg1.
    replace (if negb (isEmpty (tags1 p t)) then 1 else 0) with (if isEmpty (tags1 p t) then 0 else 1) by (destruct (isEmpty (tags1 p t)); reflexivity).
    reflexivity. }
  set (x := {| phase := _ |}).
  apply (Inv_update s _ f1 f2 (chg f1 p t Flying) f2 p V Hp); cbn [post setProc proc network]; rewrite ?Nat.eqb_refl.
  - intros q Hq. apply Nat.eqb_neq in Hq. rewrite Hq. reflexivity.
  - intros q Hq. split; [apply sim_send; assumption|apply sim_refl].
  - intros HA. rewrite (HA p t Hp Htn Hpush) in HU. discriminate.
  - intros a b H. destruct (chg_cases f1 p t Flying a b) as [(-> & -> & _)|(_ & E)]; [tauto|]. rewrite E in H. apply (v_dom1 _ _ _ V). exact H.
  - apply (v_dom2 _ _ _ V).
  - apply (post1_net s f1 f2); assumption.
  - apply (post_nodup s f1 f2); [exact V|congruence|]. destruct (Hn2 t). congruence.
  - unfold phaseOk. cbn [x phase indexing_ secondRound secondRoundReceives].
    split; [reflexivity|]. split; [exact E0|].
    split. { intros q. destruct (chg_cases f1 p t Flying q p) as [(_ & _ & E)|(_ & E)]; rewrite E; [discriminate|apply HnR]. }
    split; [exact Hn2|]. exists (done ++ [(t, pushElements m p t)]).
    split; [rewrite <- app_assoc; exact Epm|]. split; [|split].
    + rewrite second_app, <- Esr. unfold second at 1. cbn [map filter fst snd].
      rewrite mput_last by exact FS. destruct (isEmpty (tags1 p t)); cbn [negb]; [|reflexivity].
      rewrite merase_last by exact FS. rewrite app_nil_r. reflexivity.
    + intros q Hq. rewrite map_app, in_app_iff in Hq. destruct Hq as [Hq|[<-|[]]]; [|cbn [fst]; rewrite chg_same; discriminate].
      rewrite chg_other; [apply Hd; exact Hq|]. intros F. inversion F; subst. contradiction.
    + intros q Hq. rewrite chg_other; [apply Ht; right; exact Hq|]. intros F. inversion F; subst. contradiction.
  - cbn [x indexing_]. destruct (v_know _ _ _ V p Hp) as (A & B & C & D). rewrite Eg in *.
    split; [exact A|]. split; [exact B|]. split; [|exact D]. intros q o Hr. exfalso.
    destruct (chg_cases f1 p t Flying q p) as [(_ & _ & E)|(_ & E)]; rewrite E in Hr; [discriminate|apply (HnR q Hr)].
  - rewrite Ep. cbn. lia.
  - cbn. lia.
  - cbn. lia.
Qed.

Lemma recv1_ok s f1 f2 p l A B src data : Inv s f1 f2 -> p < n -> phase (proc s p) = Recv1 (S l) ->
  network s = A ++ (src, p, data) :: B ->
  exists x f1', receiveFirst (proc s p) l data = Some x /\ Inv (without (setProc s p x) A B) f1' f2.
Proof.
  intros V Hp Ep En. pose proof (v_ph _ _ _ V p Hp) as P. unfold phaseOk in P. rewrite Ep in P.
  destruct P as (Hs & Esr & Hn2 & El & E2).
  assert (HN : In (src, p, data) (network s)) by (rewrite En; apply in_app_iff; right; left; reflexivity).
  apply (v_net _ _ _ V) in HN. destruct HN as [(HF & ->)|(HF & _)].
  2:{ exfalso. assert (H2 : f2 src p <> Unsent) by congruence. pose proof (rank_f2 _ _ _ _ _ V H2) as R4.
      destruct (v_dom2 _ _ _ V src p H2) as (Hsrc & _). pose proof (v_b1 _ _ _ V src p Hsrc Hp R4) as R. rewrite Ep in R. cbn in R. lia. }
  assert (HU : f1 src p <> Unsent) by congruence.
  destruct (v_dom1 _ _ _ V src p HU) as (Hsrc & _ & Hpush).
  destruct (init_ok src p Hsrc) as (os & Ei & Eb & _ & Hos & _).
  destruct (v_know _ _ _ V p Hp) as (KA & KB & KC & KD).
  assert (Eus : includedUnknowns_ (indexing_ (proc s p)) = us).
  { destruct KA as (_ & _ & _ & E & _). rewrite E. apply r_us. exact Hp. }
  destruct (process_ok us val NDus os (indexing_ (proc s p)) Eus) as (g & Eg & Lg & Kos & Kp).
  unfold receiveFirst, msg1. rewrite rev_app_distr. cbn [rev app]. rewrite rev_involutive, Eb, Eg.
  eexists. exists (chg f1 src p Received). split; [reflexivity|].
  assert (Hnet0 : f2 src p = Unsent).
  { destruct (f2 src p) eqn:F; [reflexivity| |]; exfalso; assert (H2 : f2 src p <> Unsent) by congruence;
      rewrite (f2_f1 _ _ _ _ _ V H2) in HF; discriminate. }
  match goal with |- Inv (without (setProc s p ?y) _ _) _ _ => set (x := y) end.
  apply (Inv_update s _ f1 f2 (chg f1 src p Received) f2 p V Hp); cbn [without setProc proc network]; rewrite ?Nat.eqb_refl.
  - intros q Hq. apply Nat.eqb_neq in Hq. rewrite Hq. reflexivity.
  - intros q Hq. split; [apply sim_recv; assumption|apply sim_refl].
  - apply all1_mono; congruence.
  - intros a b H. destruct (chg_cases f1 src p Received a b) as [(-> & -> & _)|(_ & E)]; [tauto|]. rewrite E in H. apply (v_dom1 _ _ _ V). exact H.
  - apply (v_dom2 _ _ _ V).
  - intros a b d. pose proof (v_nodup _ _ _ V) as ND. rewrite En in ND.
    assert (NR : In (a, b, d) (A ++ B) <-> In (a, b, d) (network s) /\ (a, b) <> (src, p)) by (rewrite En; exact (net_remove A B src p _ ND a b d)).
    rewrite (v_net _ _ _ V) in NR. rewrite NR. clear NR.
    destruct (chg_cases f1 src p Received a b) as [(-> & -> & E)|(Hne & E)]; rewrite E.
    + split; [intros (_ & F); congruence|]. intros [(F & _)|(F & _)]; congruence.
    + tauto.
  - pose proof (v_nodup _ _ _ V) as ND. rewrite En in ND. apply (net_remove_nodup A B _ ND).
  - unfold phaseOk. cbn [x phase indexing_ secondRound secondRoundReceives].
    split; [|split; [exact Esr|split; [exact Hn2|split]]].
    + intros q Hq Hpu. destruct (chg_cases f1 src p Received p q) as [(_ & _ & E)|(_ & E)]; rewrite E; [discriminate|apply Hs; assumption].
    + rewrite (open_recv f1 src p (sources p)) in El; [congruence|apply sources_nodup| |congruence].
      apply sources_in. split; assumption.
    + unfold got2 in *. rewrite (got_recv f1 src p (sources2 p)) by (apply sources2_nodup || congruence). rewrite <- E2.
      destruct (in_dec Nat.eq_dec src (sources2 p)) as [Hi|Hi].
      * apply sources2_in in Hi. destruct Hi as (_ & Hi). unfold pushes2 in Hi. apply andb_true_iff in Hi. destruct Hi as (_ & Hi).
        destruct (isEmpty (tags1 src p)); [discriminate|]. cbn. lia.
      * destruct (isEmpty (tags1 src p)) eqn:ET; [cbn; lia|]. exfalso. apply Hi. apply sources2_in. split; [exact Hsrc|].
        unfold pushes2. rewrite Hpush, ET. reflexivity.
  - cbn [x indexing_]. split; [apply (like_trans _ _ _ _ KA Lg)|]. split; [intros o Ho; apply Kp, KB, Ho|]. split.
    + intros q o Hr Ht. destruct (chg_cases f1 src p Received q p) as [(-> & _ & E)|(_ & E)].
      * apply Kos. destruct o as (k, y). destruct Ht as (e & He & Ho & Hw). apply (Hos e k y He Ho Hw).
      * rewrite E in Hr. apply Kp. apply (KC q o Hr Ht).
    + intros q o Hr Ht. apply Kp. apply (KD q o Hr Ht).
  - rewrite Ep. cbn. lia.
  - cbn. lia.
  - cbn. lia.
Qed.

Lemma send2_ok s f1 f2 p t tags rest : Inv s f1 f2 -> p < n -> phase (proc s p) = Send2 ((t, tags) :: rest) ->
  sendSecond (proc s p) tags = Some (msg2 p t) /\
  Inv (post (setProc s p (setPhase (proc s p) (Send2 rest))) (p, t, msg2 p t)) f1 (chg f2 p t Flying).
Proof.
  intros V Hp Ep. pose proof (v_ph _ _ _ V p Hp) as P. unfold phaseOk in P. rewrite Ep in P.
  destruct P as (HA & E0 & done & Epm & Hd & Ht & HnR).
  assert (Hin : In (t, tags) (second (pushMap m n p) p)) by (rewrite Epm; apply in_app_iff; right; left; reflexivity).
  apply second_in in Hin. destruct Hin as (Htn & Hpush & ->).
  pose proof (Ht t (or_introl eq_refl)) as HU.
  pose proof (second_sorted p) as Srt. rewrite Epm, map_app in Srt. cbn [map fst] in Srt.
  destruct (sorted_app_lt _ _ _ Srt) as (Flt & Hnr & Hnd).
  destruct (v_know _ _ _ V p Hp) as (KA & KB & KC & KD).
  assert (Eus : includedUnknowns_ (indexing_ (proc s p)) = us).
  { destruct KA as (_ & _ & _ & E & _). rewrite E. apply r_us. exact Hp. }
  split.
  { unfold sendSecond, msg2. apply (second_ok us val (indexing_ (proc s p)) (tags1 p t) Eus) with (os := []).
    intros u Hu. destruct (knows_for_second p t u Hp Hu) as (k & x & E & Hk & H). exists k, x. split; [exact E|]. split; [exact Hk|].
    destruct H as [H|(q & Hq & Hne & H)]; [apply KB; exact H|]. apply (KC q); [|exact H].
    apply HA; [exact Hq|exact Hp|]. destruct H as (e & He & _). apply (push_pushes q p e He). }
  assert (Hpush1 : pushes p t = true) by (unfold pushes2 in Hpush; apply andb_true_iff in Hpush; tauto).
  apply (Inv_update s _ f1 f2 f1 (chg f2 p t Flying) p V Hp); cbn [post setProc proc network]; rewrite ?Nat.eqb_refl.
  - intros q Hq. apply Nat.eqb_neq in Hq. rewrite Hq. reflexivity.
  - intros q Hq. split; [apply sim_refl|apply sim_send; assumption].
  - tauto.
  - apply (v_dom1 _ _ _ V).
  - intros a b H. destruct (chg_cases f2 p t Flying a b) as [(-> & -> & _)|(_ & E)]; [tauto|]. rewrite E in H. apply (v_dom2 _ _ _ V). exact H.
  - apply (post2_net s f1 f2); assumption.
  - apply (post_nodup s f1 f2); [exact V| |congruence]. rewrite (HA p t Hp Htn Hpush1). discriminate.
  - unfold phaseOk. cbn [setPhase phase indexing_ secondRound secondRoundReceives].
    split; [exact HA|]. split; [exact E0|]. exists (done ++ [(t, tags1 p t)]).
    split; [rewrite <- app_assoc; exact Epm|]. split; [|split].
    + intros q Hq. rewrite map_app, in_app_iff in Hq. destruct Hq as [Hq|[<-|[]]]; [|cbn [fst]; rewrite chg_same; discriminate].
      rewrite chg_other; [apply Hd; exact Hq|]. intros F. inversion F; subst. contradiction.
    + intros q Hq. rewrite chg_other; [apply Ht; right; exact Hq|]. intros F. inversion F; subst. contradiction.
    + intros q. destruct (chg_cases f2 p t Flying q p) as [(_ & _ & E)|(_ & E)]; rewrite E; [discriminate|apply HnR].
  - cbn [setPhase indexing_]. split; [exact KA|]. split; [exact KB|]. split; [exact KC|]. intros q o Hr. exfalso.
    destruct (chg_cases f2 p t Flying q p) as [(_ & _ & E)|(_ & E)]; rewrite E in Hr; [discriminate|apply (HnR q Hr)].
  - rewrite Ep. cbn. lia.
  - rewrite Ep. cbn. lia.
  - cbn. lia.
Qed.

Lemma recv2_ok s f1 f2 p l A B src data : Inv s f1 f2 -> p < n -> phase (proc s p) = Recv2 (S l) ->
  network s = A ++ (src, p, data) :: B ->
  exists x f2', receiveSecond (proc s p) l data = Some x /\ Inv (without (setProc s p x) A B) f1 f2'.
Proof.
  intros V Hp Ep En. pose proof (v_ph _ _ _ V p Hp) as P. unfold phaseOk in P. rewrite Ep in P.
  destruct P as (HA & Hs & El).
  assert (HN : In (src, p, data) (network s)) by (rewrite En; apply in_app_iff; right; left; reflexivity).
  apply (v_net _ _ _ V) in HN. destruct HN as [(HF & _)|(HF & ->)].
  { exfalso. assert (H1 : f1 src p <> Unsent) by congruence. destruct (v_dom1 _ _ _ V src p H1) as (Hsrc & _ & Hpu).
    rewrite (HA src p Hsrc Hp Hpu) in HF. discriminate. }
  assert (HU : f2 src p <> Unsent) by congruence.
  destruct (v_dom2 _ _ _ V src p HU) as (Hsrc & _ & Hpush).
  pose proof (f2_f1 _ _ _ _ _ V HU) as HR1.
  destruct (v_know _ _ _ V p Hp) as (KA & KB & KC & KD).
  assert (Eus : includedUnknowns_ (indexing_ (proc s p)) = us).
  { destruct KA as (_ & _ & _ & E & _). rewrite E. apply r_us. exact Hp. }
  destruct (process_ok us val NDus (map untag (tags1 src p)) (indexing_ (proc s p)) Eus) as (g & Eg & Lg & Kos & Kp).
  unfold receiveSecond, msg2. rewrite Eg.
  eexists. exists (chg f2 src p Received). split; [reflexivity|].
  match goal with |- Inv (without (setProc s p ?y) _ _) _ _ => set (x := y) end.
  apply (Inv_update s _ f1 f2 f1 (chg f2 src p Received) p V Hp); cbn [without setProc proc network]; rewrite ?Nat.eqb_refl.
  - intros q Hq. apply Nat.eqb_neq in Hq. rewrite Hq. reflexivity.
  - intros q Hq. split; [apply sim_refl|apply sim_recv; assumption].
  - tauto.
  - apply (v_dom1 _ _ _ V).
  - intros a b H. destruct (chg_cases f2 src p Received a b) as [(-> & -> & _)|(_ & E)]; [tauto|]. rewrite E in H. apply (v_dom2 _ _ _ V). exact H.
  - intros a b d. pose proof (v_nodup _ _ _ V) as ND. rewrite En in ND.
    assert (NR : In (a, b, d) (A ++ B) <-> In (a, b, d) (network s) /\ (a, b) <> (src, p)) by (rewrite En; exact (net_remove A B src p _ ND a b d)).
    rewrite (v_net _ _ _ V) in NR. rewrite NR. clear NR.
    destruct (chg_cases f2 src p Received a b) as [(-> & -> & E)|(Hne & E)]; rewrite E.
    + split; [intros (_ & F); congruence|]. intros [(F & _)|(F & _)]; congruence.
    + tauto.
  - pose proof (v_nodup _ _ _ V) as ND. rewrite En in ND. apply (net_remove_nodup A B _ ND).
  - unfold phaseOk. cbn [x phase indexing_ secondRound secondRoundReceives].
    split; [exact HA|split].
    + intros q Hq Hpu. destruct (chg_cases f2 src p Received p q) as [(_ & _ & E)|(_ & E)]; rewrite E; [discriminate|apply Hs; assumption].
    + rewrite (open_recv f2 src p (sources2 p)) in El; [congruence|apply sources2_nodup| |congruence].
      apply sources2_in. split; assumption.
  - cbn [x indexing_]. split; [apply (like_trans _ _ _ _ KA Lg)|]. split; [intros o Ho; apply Kp, KB, Ho|]. split.
    + intros q o Hr Ht. apply Kp. apply (KC q o Hr Ht).
    + intros q o Hr Ht. destruct (chg_cases f2 src p Received q p) as [(-> & _ & E)|(_ & E)].
      * apply Kos. destruct Ht as (t & Ht & <-). apply in_map. exact Ht.
      * rewrite E in Hr. apply Kp. apply (KD q o Hr Ht).
  - rewrite Ep. cbn. lia.
  - rewrite Ep. cbn. lia.
  - cbn. lia.
Qed.

(** ** The whole exchange *)
Hypothesis r_total : forall p, p < n -> totalNumberOfUnknowns_ (r p) = numberOfUnknowns m.
Hypothesis us_range : forall u, In u us -> u < numberOfUnknowns m.
Hypothesis r_inc : forall p u, p < n -> In u us -> includedInIndex_ (offsets_ (r p) u) = true.
Hypothesis r_excl : forall p u, p < n -> u < numberOfUnknowns m -> ~ In u us ->
  blockStart_ (offsets_ (r p) u) = 0 /\ numberOfBasisFunctionsInBlock_ (offsets_ (r p) u) = 0 /\
  forall k, table (offsets_ (r p) u) k = [].
Hypothesis r_N : forall p, p < n -> globalNumberOfBasisFunctions_ (r p) = N.
Hypothesis val_bound : forall k x u, mesh_object m k x -> In u us -> localNumberOfBasisFunctions m k x u + val k x u <= N.

Definition complete (p : nat) (g : GlobalIndexing) : Prop :=
  like (r p) g /\ forall e k x, In e (elements m) -> visible m p e = true -> In (k, x) (objects_of_element m e) -> knows g (k, x).
Lemma get_known p g k x u : p < n -> like (r p) g -> knows g (k, x) -> In u us -> getGlobalIndex g k x u = Some (val k x u).
Proof.
  intros Hp (L1 & L2 & L3 & L4 & L5 & L6 & L7) K Hu. unfold getGlobalIndex. rewrite L1, L5, (r_total p Hp), (r_inc p u Hp Hu).
  rewrite (proj2 (Nat.ltb_lt _ _) (us_range u Hu)). cbn [andb]. apply (K u Hu).
Qed.
Lemma verify_ok p g : p < n -> complete p g -> verifyCompleteIndex m p g = true.
Proof.
  intros Hp (L & K). pose proof L as (L1 & L2 & L3 & L4 & L5 & L6 & L7). unfold verifyCompleteIndex.
  apply andb_true_iff. split.
  - apply forallb_forall. intros u Hu. apply in_seq in Hu. rewrite L1, (r_total p Hp) in Hu.
    destruct (in_dec Nat.eq_dec u us) as [Hi|Hi].
    + rewrite L5, (r_inc p u Hp Hi). reflexivity.
    + apply orb_true_iff. right. rewrite L6 by exact Hi. destruct (r_excl p u Hp (proj2 Hu) Hi) as (E1 & E2 & E3).
      rewrite E1, E2, !E3. reflexivity.
  - apply forallb_forall. intros e He. apply filter_In in He. destruct He as (He & Hv).
    assert (CK : forall k x, In (k, x) (objects_of_element m e) -> checkOne m g k x = true).
    { intros k x Ho. unfold checkOne. apply forallb_forall. intros u Hu. rewrite L4, (r_us p Hp) in Hu.
      rewrite (get_known p g k x u Hp L (K e k x He Hv Ho) Hu). apply Nat.leb_le. rewrite L2, (r_N p Hp). apply val_bound; [|exact Hu].
      pose proof Ho as Ho'. apply in_objects in Ho'. destruct Ho' as [(-> & ->)|(Hk & C & Hx)].
      - split; [exact I|]. exists e. split; [exact He|left; reflexivity].
      - split; [exact C|]. exists e. split; [exact He|]. rewrite adjacent_ne by exact Hk. apply (vm_adjacency _ _ VM); assumption. }
    rewrite !andb_true_iff. repeat split.
    + apply CK. apply in_objects. left. split; reflexivity.
    + apply forallb_forall. intros x Hx. apply CK. apply in_objects. right. repeat split; [discriminate|exact Hx].
    + apply forallb_forall. intros x Hx. apply CK. apply in_objects. right. repeat split; [discriminate|exact Hx].
    + destruct (Nat.ltb_spec 1 (dimension m)); [|reflexivity].
      apply forallb_forall. intros x Hx. apply CK. apply in_objects. right. repeat split; [discriminate|assumption|exact Hx].
Qed.
Lemma complete_of s f1 f2 p : Inv s f1 f2 -> p < n -> 6 <= rank (phase (proc s p)) -> complete p (indexing_ (proc s p)).
Proof.
  intros V Hp HR. pose proof (v_ph _ _ _ V p Hp) as P. unfold phaseOk in P.
  assert (H : all1 f1 /\ open f2 p (sources2 p) = 0).
  { destruct (phase (proc s p)); cbn [rank] in HR; try lia; tauto. }
  destruct H as (HA & HO). destruct (v_know _ _ _ V p Hp) as (KA & KB & KC & KD). split; [exact KA|].
  intros e k x He Hv Ho. destruct (covered p e k x Hp He Hv Ho) as [H|(q & Hq & Hne & [H|H])]; [apply KB; exact H| |].
  - apply (KC q); [|exact H]. apply HA; [exact Hq|exact Hp|]. destruct H as (e' & He' & _). apply (push_pushes q p e' He').
  - apply (KD q); [|exact H]. apply (open_zero f2 p (sources2 p) HO). apply sources2_in. split; [exact Hq|].
    destruct H as (t & Ht & _). destruct (init_ok q p Hq) as (os & _ & _ & S & _). destruct (S t Ht) as (k' & x' & e' & _ & _ & He' & _).
    unfold pushes2. rewrite (push_pushes q p e' He'). destruct (tags1 q p); [destruct Ht|reflexivity].
Qed.

Lemma Inv_initial : Inv (initial m n r) (fun _ _ => Unsent) (fun _ _ => Unsent).
Proof.
  constructor; cbn [initial proc network phase indexing_].
  - congruence.
  - congruence.
  - intros a b d. split; [intros []|]. intros [(F & _)|(F & _)]; discriminate.
  - constructor.
  - intros p Hp. unfold phaseOk. cbn [phase indexing_ secondRound secondRoundReceives].
    split; [reflexivity|]. split; [reflexivity|]. split; [discriminate|]. split; [split; [reflexivity|discriminate]|].
    exists []. split; [reflexivity|]. split; [reflexivity|]. split; [intros q []|reflexivity].
  - intros p Hp. split; [apply like_refl|]. split; [intros [k x] Ho; apply own_known; assumption|]. split; discriminate.
  - cbn. lia.
  - cbn. lia.
Qed.

Lemma all_at1 s f1 f2 : Inv s f1 f2 -> (forall q, q < n -> 3 <= rank (phase (proc s q))) -> all1 f1.
Proof.
  intros V H a b Ha Hb Hpu. specialize (H b Hb). pose proof (v_ph _ _ _ V b Hb) as P. unfold phaseOk in P.
  destruct (phase (proc s b)); cbn [rank] in H; try lia; try (apply P; assumption); try tauto.
  apply (open_zero f1 b (sources b)); [tauto|]. apply sources_in. split; assumption.
Qed.
Lemma atBarrier1_rank ph : atBarrier1 ph -> 3 <= rank ph.
Proof. destruct ph; cbn; intros; (lia || contradiction). Qed.
Lemma atBarrier2_rank ph : atBarrier2 ph -> 7 <= rank ph.
Proof. destruct ph; cbn; intros; (lia || contradiction). Qed.

Lemma step_Inv eager s t f1 f2 : Inv s f1 f2 -> step m n eager s t -> exists f1' f2', Inv t f1' f2'.
Proof.
  intros V ST. destruct ST as [s p target els rest x data Hp Ep E|s p target els rest Hp Ep E|s p Hp Ep
    |s p l A B src data x Hp Ep En E|s p l A B src data Hp Ep En E|s p Hp Ep|s p Hp Ep Hw|s p Hp Ep Hb
    |s p target tags rest data Hp Ep E|s p target tags rest Hp Ep E|s p Hp Ep
    |s p l A B src data x Hp Ep En E|s p l A B src data Hp Ep En E|s p Hp Ep|s p Hp Ep Hw|s p Hp Ep Hb].
  - destruct (send1_ok s f1 f2 p target els rest V Hp Ep) as (y & Ey & I1). rewrite Ey in E. inversion E; subst. eauto.
  - destruct (send1_ok s f1 f2 p target els rest V Hp Ep) as (y & Ey & I1). congruence.
  - exists f1, f2. apply Inv_phase; [exact V|exact Hp| | |cbn; lia|cbn; lia]; [|rewrite Ep; cbn; lia].
    pose proof (v_ph _ _ _ V p Hp) as P. unfold phaseOk in *. rewrite Ep in P. cbn [setPhase phase indexing_ secondRound secondRoundReceives].
    destruct P as (Eg & E0 & HnR & Hn2 & done & Epm & Esr & Hd & Ht). rewrite app_nil_r in Epm. subst done.
    split; [|split; [exact Esr|split; [exact Hn2|split]]].
    + intros q Hq Hpu. apply Hd. rewrite pushMap_keys. apply filter_In. split; [apply in_seq; lia|exact Hpu].
    + rewrite open_all by exact HnR. apply pullMap_length.
    + rewrite E0. unfold got2. induction (sources2 p) as [|q l IH]; [reflexivity|]. cbn. specialize (HnR q).
      destruct (f1 q p); cbn; [exact IH|exact IH|congruence].
  - destruct (recv1_ok s f1 f2 p l A B src data V Hp Ep En) as (y & f1' & Ey & I1). rewrite Ey in E. inversion E; subst. eauto.
  - destruct (recv1_ok s f1 f2 p l A B src data V Hp Ep En) as (y & f1' & Ey & I1). congruence.
  - exists f1, f2. apply Inv_phase; [exact V|exact Hp| | |cbn; lia|cbn; lia]; [|rewrite Ep; cbn; lia].
    pose proof (v_ph _ _ _ V p Hp) as P. unfold phaseOk in *. rewrite Ep in P. cbn [setPhase phase indexing_ secondRound secondRoundReceives].
    destruct P as (H1 & H2 & H3 & H4 & H5). repeat split; (assumption || (symmetry; assumption) || apply H3).
  - exists f1, f2. apply Inv_phase; [exact V|exact Hp| | |cbn; lia|cbn; lia]; [|rewrite Ep; cbn; lia].
    pose proof (v_ph _ _ _ V p Hp) as P. unfold phaseOk in *. rewrite Ep in P. exact P.
  - assert (H3 : forall q, q < n -> 3 <= rank (phase (proc s q))) by (intros q Hq; apply atBarrier1_rank, Hb, Hq).
    pose proof (all_at1 s f1 f2 V H3) as HA.
    exists f1, f2. apply Inv_phase; [exact V|exact Hp| |rewrite Ep; cbn; lia|intros _; right; exact H3|cbn; lia].
    pose proof (v_ph _ _ _ V p Hp) as P. unfold phaseOk in *. rewrite Ep in P. cbn [setPhase phase indexing_ secondRound secondRoundReceives].
    destruct P as (Hs & Esr & Hn2 & HO & E2). split; [exact HA|]. split.
    + rewrite E2. unfold got2. rewrite filter_all; [reflexivity|]. intros q Hq. apply sources2_in in Hq. destruct Hq as (Hq & Hpu).
      unfold pushes2 in Hpu. apply andb_true_iff in Hpu. rewrite (HA q p Hq Hp (proj1 Hpu)). reflexivity.
    + exists []. split; [symmetry; exact Esr|]. split; [intros q []|]. split; intros q; [intros _|]; apply Hn2.
  - destruct (send2_ok s f1 f2 p target tags rest V Hp Ep) as (Ey & I1). rewrite Ey in E. inversion E; subst. eauto.
  - destruct (send2_ok s f1 f2 p target tags rest V Hp Ep) as (Ey & I1). congruence.
  - exists f1, f2. apply Inv_phase; [exact V|exact Hp| | |rewrite Ep; cbn; lia|cbn; lia]; [|rewrite Ep; cbn; lia].
    pose proof (v_ph _ _ _ V p Hp) as P. unfold phaseOk in *. rewrite Ep in P. cbn [setPhase phase indexing_ secondRound secondRoundReceives].
    destruct P as (HA & E0 & done & Epm & Hd & Ht & HnR). rewrite app_nil_r in Epm. subst done.
    split; [exact HA|]. split.
    + intros q Hq Hpu. apply Hd. apply in_map_iff. exists (q, tags1 p q). split; [reflexivity|]. apply second_in. repeat split; assumption.
    + rewrite open_all by exact HnR. exact E0.
  - destruct (recv2_ok s f1 f2 p l A B src data V Hp Ep En) as (y & f2' & Ey & I1). rewrite Ey in E. inversion E; subst. eauto.
  - destruct (recv2_ok s f1 f2 p l A B src data V Hp Ep En) as (y & f2' & Ey & I1). congruence.
  - exists f1, f2. apply Inv_phase; [exact V|exact Hp| | |rewrite Ep; cbn; lia|cbn; lia]; [|rewrite Ep; cbn; lia].
    pose proof (v_ph _ _ _ V p Hp) as P. unfold phaseOk in *. rewrite Ep in P. cbn [setPhase phase indexing_ secondRound secondRoundReceives].
    destruct P as (H1 & H2 & H3). repeat split; (assumption || symmetry; assumption).
  - exists f1, f2. apply Inv_phase; [exact V|exact Hp| | |rewrite Ep; cbn; lia|cbn; lia]; [|rewrite Ep; cbn; lia].
    pose proof (v_ph _ _ _ V p Hp) as P. unfold phaseOk in *. rewrite Ep in P. exact P.
  - rewrite (verify_ok p _ Hp (complete_of s f1 f2 p V Hp ltac:(rewrite Ep; cbn; lia))).
    exists f1, f2. apply Inv_phase; [exact V|exact Hp| |rewrite Ep; cbn; lia|rewrite Ep; cbn; lia|].
    + pose proof (v_ph _ _ _ V p Hp) as P. unfold phaseOk in *. rewrite Ep in P. exact P.
    + intros _. right. intros q Hq. apply atBarrier2_rank, Hb, Hq.
Qed.
Lemma reach_Inv eager s : reachable m n eager r s -> exists f1 f2, Inv s f1 f2.
Proof.
  induction 1 as [|s t _ (f1 & f2 & V) ST]; [eexists _, _; apply Inv_initial|]. apply (step_Inv eager s t f1 f2 V ST).
Qed.

Lemma never_fails eager s p : reachable m n eager r s -> p < n -> phase (proc s p) <> Failed.
Proof.
  intros R Hp E. destruct (reach_Inv eager s R) as (f1 & f2 & V). pose proof (v_ph _ _ _ V p Hp) as P. unfold phaseOk in P. rewrite E in P. exact P.
Qed.

(** ** Progress *)
Lemma min_rank (h : nat -> nat) k : 0 < k -> exists p, p < k /\ forall q, q < k -> h p <= h q.
Proof.
  induction k as [|k IH]; [lia|]. intros _. destruct k as [|k].
  - exists 0. split; [lia|]. intros q Hq. replace q with 0 by lia. lia.
  - destruct IH as (p & Hp & H); [lia|]. destruct (le_lt_dec (h p) (h (S k))) as [L|L].
    + exists p. split; [lia|]. intros q Hq. destruct (Nat.eq_dec q (S k)) as [->|]; [exact L|]. apply H. lia.
    + exists (S k). split; [lia|]. intros q Hq. destruct (Nat.eq_dec q (S k)) as [->|]; [lia|]. specialize (H q ltac:(lia)). lia.
Qed.
Lemma net_split s f1 f2 a b : Inv s f1 f2 -> f1 a b = Flying \/ f2 a b = Flying -> exists A d B, network s = A ++ (a, b, d) :: B.
Proof.
  intros V H. assert (E : exists d, In (a, b, d) (network s)).
  { destruct H as [H|H]; [exists (msg1 a b)|exists (msg2 a b)]; apply (v_net _ _ _ V); tauto. }
  destruct E as (d & Hin). apply in_split in Hin. destruct Hin as (A & B & E). eauto.
Qed.
Lemma some_receive1 eager s f1 f2 p l a : Inv s f1 f2 -> p < n -> phase (proc s p) = Recv1 (S l) -> f1 a p = Flying ->
  exists t, step m n eager s t.
Proof.
  intros V Hp Ep Hf. destruct (net_split s f1 f2 a p V (or_introl Hf)) as (A & d & B & En).
  destruct (recv1_ok s f1 f2 p l A B a d V Hp Ep En) as (x & f1' & E & _). eexists. eapply do_recv1; eassumption.
Qed.
Lemma some_receive2 eager s f1 f2 p l a : Inv s f1 f2 -> p < n -> phase (proc s p) = Recv2 (S l) -> f2 a p = Flying ->
  exists t, step m n eager s t.
Proof.
  intros V Hp Ep Hf. destruct (net_split s f1 f2 a p V (or_intror Hf)) as (A & d & B & En).
  destruct (recv2_ok s f1 f2 p l A B a d V Hp Ep En) as (x & f1' & E & _). eexists. eapply do_recv2; eassumption.
Qed.
Lemma rank5_sent2 s f1 f2 a : Inv s f1 f2 -> a < n -> 5 <= rank (phase (proc s a)) -> sentAll2 f2 a.
Proof.
  intros V Ha H. pose proof (v_ph _ _ _ V a Ha) as P. unfold phaseOk in P.
  destruct (phase (proc s a)); cbn [rank] in H; try lia; tauto.
Qed.
Lemma progress eager s : reachable m n eager r s -> finished n s \/ exists t, step m n eager s t.
Proof.
  intros R. destruct (reach_Inv eager s R) as (f1 & f2 & V).
  destruct (Nat.eq_dec n 0) as [Hn|Hn]; [left; intros p Hp; lia|].
  destruct (min_rank (fun p => rank (phase (proc s p))) n ltac:(lia)) as (p & Hp & Hmin).
  pose proof (v_ph _ _ _ V p Hp) as P. unfold phaseOk in P.
  destruct (phase (proc s p)) as [todo|l| | |todo|l| | | |] eqn:Ep; cbn [rank] in Hmin.
  - right. destruct todo as [|(t, e) rest]; [eexists; eapply sent1; eassumption|].
    destruct (send1_ok s f1 f2 p t e rest V Hp Ep) as (x & E & _). eexists. eapply do_send1; eassumption.
  - right. destruct l as [|l]; [eexists; eapply received1; eassumption|].
    destruct P as (_ & _ & _ & El & _). symmetry in El. destruct (open_pos _ _ _ _ El) as (q & Hq & Hf). apply sources_in in Hq. destruct Hq as (Hq & Hpu).
    apply (some_receive1 eager s f1 f2 p l q V Hp Ep).
    pose proof (rank1_sent s f1 f2 q V Hq (Hmin q Hq) p Hp Hpu). destruct (f1 q p); congruence.
  - right. eexists. eapply waited1; [exact Hp|exact Ep|]. right. intros t d Hin. apply (v_net _ _ _ V) in Hin.
    destruct Hin as [(F & _)|(F & _)].
    + assert (HU : f1 p t <> Unsent) by congruence. destruct (v_dom1 _ _ _ V p t HU) as (_ & Ht & Hpu).
      pose proof (Hmin t Ht) as Hrt. pose proof (v_ph _ _ _ V t Ht) as Q. unfold phaseOk in Q.
      assert (HR : f1 p t = Received); [|congruence].
      destruct (phase (proc s t)); cbn [rank] in Hrt; try lia; try tauto; try (apply Q; assumption);
        apply (open_zero f1 t (sources t)); (tauto || (apply sources_in; split; assumption)).
    + destruct P as (_ & _ & P & _). destruct (P t). congruence.
  - right. eexists. eapply barrier1; [exact Hp|exact Ep|]. intros q Hq. pose proof (Hmin q Hq) as H. pose proof (v_ph _ _ _ V q Hq) as Q.
    unfold phaseOk in Q. destruct (phase (proc s q)); cbn in *; (lia || exact I || contradiction).
  - right. destruct todo as [|(t, tags) rest]; [eexists; eapply sent2; eassumption|].
    destruct (send2_ok s f1 f2 p t tags rest V Hp Ep) as (E & _). eexists. eapply do_send2; eassumption.
  - right. destruct l as [|l]; [eexists; eapply received2; eassumption|].
    destruct P as (_ & _ & El). symmetry in El. destruct (open_pos _ _ _ _ El) as (q & Hq & Hf). apply sources2_in in Hq. destruct Hq as (Hq & Hpu).
    apply (some_receive2 eager s f1 f2 p l q V Hp Ep).
    pose proof (rank5_sent2 s f1 f2 q V Hq (Hmin q Hq) p Hp Hpu). destruct (f2 q p); congruence.
  - right. eexists. eapply waited2; [exact Hp|exact Ep|]. right. intros t d Hin. apply (v_net _ _ _ V) in Hin.
    destruct Hin as [(F & _)|(F & _)].
    + assert (HU : f1 p t <> Unsent) by congruence. destruct (v_dom1 _ _ _ V p t HU) as (_ & Ht & Hpu).
      destruct P as (HA & _). rewrite (HA p t Hp Ht Hpu) in F. discriminate.
    + assert (HU : f2 p t <> Unsent) by congruence. destruct (v_dom2 _ _ _ V p t HU) as (_ & Ht & Hpu).
      pose proof (Hmin t Ht) as Hrt. pose proof (v_ph _ _ _ V t Ht) as Q. unfold phaseOk in Q.
      assert (HR : f2 p t = Received); [|congruence].
      destruct (phase (proc s t)); cbn [rank] in Hrt; try lia; try tauto;
        apply (open_zero f2 t (sources2 t)); (tauto || (apply sources2_in; split; assumption)).
  - right. eexists. eapply barrier2; [exact Hp|exact Ep|]. intros q Hq. pose proof (Hmin q Hq) as H. pose proof (v_ph _ _ _ V q Hq) as Q.
    unfold phaseOk in Q. destruct (phase (proc s q)); cbn in *; (lia || exact I || contradiction).
  - left. intros q Hq. pose proof (Hmin q Hq) as H. pose proof (v_ph _ _ _ V q Hq) as Q. unfold phaseOk in Q.
    destruct (phase (proc s q)); cbn in *; (lia || reflexivity || contradiction).
  - destruct P.
Qed.

(** ** Termination *)
Definition weight (ph : Phase) : nat :=
  match ph with Send1 t => length t + 3 * n + 9 | Recv1 l => l + 2 * n + 8 | Waitall1 => 2 * n + 7 | Barrier1 => 2 * n + 6
  | Send2 t => length t + n + 5 | Recv2 l => l + 4 | Waitall2 => 3 | Barrier2 => 2 | Done => 1 | Failed => 0 end.
Definition total (s : System) : nat := fold_right Nat.add 0 (map (fun p => weight (phase (proc s p))) (seq 0 n)).
Lemma total_lt_at s t p a k : (forall q, q <> p -> phase (proc t q) = phase (proc s q)) -> a <= p < a + k ->
  weight (phase (proc t p)) < weight (phase (proc s p)) ->
  fold_right Nat.add 0 (map (fun p => weight (phase (proc t p))) (seq a k)) <
  fold_right Nat.add 0 (map (fun p => weight (phase (proc s p))) (seq a k)).
Proof.
  intros H. revert a. induction k as [|k IH]; intros a Hp HW; [lia|]. cbn [seq map fold_right].
  destruct (Nat.eq_dec a p) as [->|Hne].
  - assert (E : map (fun q => weight (phase (proc t q))) (seq (S p) k) = map (fun q => weight (phase (proc s q))) (seq (S p) k)).
    { apply map_ext_in. intros q Hq. apply in_seq in Hq. rewrite H by lia. reflexivity. }
    rewrite E. lia.
  - rewrite (H a Hne). specialize (IH (S a) ltac:(lia) HW). lia.
Qed.
Lemma total_lt s t p : p < n -> (forall q, q <> p -> phase (proc t q) = phase (proc s q)) ->
  weight (phase (proc t p)) < weight (phase (proc s p)) -> total t < total s.
Proof. intros Hp H HW. apply (total_lt_at s t p 0 n H); [lia|exact HW]. Qed.
Lemma sources_length p : length (sources p) <= n.
Proof. unfold sources. eapply Nat.le_trans; [apply filter_length_le'|]. unfold procs. rewrite seq_length. lia. Qed.
Lemma sources2_length p : length (sources2 p) <= n.
Proof. unfold sources2. eapply Nat.le_trans; [apply filter_length_le'|]. unfold procs. rewrite seq_length. lia. Qed.
Lemma step_decreases eager s t : reachable m n eager r s -> step m n eager s t -> total t < total s.
Proof.
  intros R ST. destruct (reach_Inv eager s R) as (f1 & f2 & V).
  assert (SE : forall p x q, q <> p -> phase (proc (setProc s p x) q) = phase (proc s q)).
  { intros p x q Hq. rewrite proc_set. apply Nat.eqb_neq in Hq. rewrite Hq. reflexivity. }
  assert (SP : forall p x, proc (setProc s p x) p = x) by (intros; rewrite proc_set, Nat.eqb_refl; reflexivity).
  destruct ST as [s p target els rest x data Hp Ep E|s p target els rest Hp Ep E|s p Hp Ep
    |s p l A B src data x Hp Ep En E|s p l A B src data Hp Ep En E|s p Hp Ep|s p Hp Ep Hw|s p Hp Ep Hb
    |s p target tags rest data Hp Ep E|s p target tags rest Hp Ep E|s p Hp Ep
    |s p l A B src data x Hp Ep En E|s p l A B src data Hp Ep En E|s p Hp Ep|s p Hp Ep Hw|s p Hp Ep Hb];
    pose proof (v_ph _ _ _ V p Hp) as P; unfold phaseOk in P; rewrite Ep in P;
    (apply (total_lt s _ p Hp); [intros q Hq; cbn [post without proc]; exact (SE p _ q Hq)|]); cbn [post without proc]; rewrite Nat.eqb_refl || idtac;
    rewrite ?SP, ?Ep; cbn [setPhase phase weight length]; try lia.
  - unfold sendFirst in E. destruct (createInitialMessage _ _ _ _ _) as [(b, t)|]; inversion E; subst. cbn. lia.
  - rewrite pullMap_length. pose proof (sources_length p). lia.
  - unfold receiveFirst in E. destruct (rev data); [discriminate|]. destruct (processMessage _ _); inversion E; subst. cbn. lia.
  - destruct P as (_ & -> & _). pose proof (second_length p). lia.
  - destruct P as (_ & -> & _). pose proof (sources2_length p). lia.
  - unfold receiveSecond in E. destruct (processMessage _ _); inversion E; subst. cbn. lia.
  - destruct (verifyCompleteIndex _ _ _); cbn; lia.
Qed.
Lemma run_reachable eager k s : run m n eager k (initial m n r) s -> reachable m n eager r s.
Proof.
  remember (initial m n r) as i eqn:Ei. induction 1 as [|k s t u RN IH ST]; subst; [constructor|].
  apply (reach_step m n eager r t u); [apply IH; reflexivity|exact ST].
Qed.
Lemma run_bound eager k s : run m n eager k (initial m n r) s -> k + total s <= total (initial m n r).
Proof.
  remember (initial m n r) as i eqn:Ei. induction 1 as [|k s t u RN IH ST]; [lia|]. specialize (IH Ei). subst.
  pose proof (step_decreases eager t u (run_reachable eager k t RN) ST). lia.
Qed.
Lemma total_initial : total (initial m n r) <= n * (4 * n + 9).
Proof.
  unfold total. cbn [initial proc phase]. assert (H : forall l, fold_right Nat.add 0 (map (fun p => weight (Send1 (pushMap m n p))) l) <= length l * (4 * n + 9)).
  { induction l as [|p l IH]; [cbn; lia|]. cbn [map fold_right length]. cbn [weight] in *.
    assert (L : length (pushMap m n p) <= n).
    { rewrite <- (map_length fst), pushMap_keys. eapply Nat.le_trans; [apply filter_length_le'|]. rewrite seq_length. lia. }
    lia. }
  specialize (H (seq 0 n)). rewrite seq_length in H. exact H.
Qed.
Lemma terminates eager k s : run m n eager k (initial m n r) s -> k <= n * (4 * n + 9).
Proof. intros H. pose proof (run_bound eager k s H). pose proof total_initial. lia. Qed.

Lemma done_complete eager s p : reachable m n eager r s -> p < n -> phase (proc s p) = Done -> complete p (indexing_ (proc s p)).
Proof. intros R Hp E. destruct (reach_Inv eager s R) as (f1 & f2 & V). apply (complete_of s f1 f2 p V Hp). rewrite E. cbn. lia. Qed.
Lemma complete_answers p g : p < n -> complete p g ->
  forall e k x u, In e (elements m) -> visible m p e = true -> In (k, x) (objects_of_element m e) -> In u (includedUnknowns_ (r p)) ->
  exists q i, owned_by m q k x /\ getGlobalIndex (r q) k x u = Some i /\ getGlobalIndex g k x u = Some i.
Proof.
  intros Hp (L & K) e k x u He Hv Ho Hu. rewrite (r_us p Hp) in Hu.
  assert (HM : mesh_object m k x).
  { pose proof Ho as Ho'. apply in_objects in Ho'. destruct Ho' as [(-> & ->)|(Hk & C & Hx)].
    - split; [exact I|]. exists e. split; [exact He|left; reflexivity].
    - split; [exact C|]. exists e. split; [exact He|]. rewrite adjacent_ne by exact Hk. apply (vm_adjacency _ _ VM); assumption. }
  destruct (owned_exists m n VM k x HM) as (q & Hq & OW). exists q, (val k x u). split; [exact OW|]. split.
  - apply (get_known q (r q)); [exact Hq|apply like_refl| |exact Hu]. apply own_known; [exact Hq|]. apply (in_objs m n VM). split; assumption.
  - apply (get_known p g); [exact Hp|exact L| |exact Hu]. apply (K e k x He Hv Ho).
Qed.
End Exchange.

(** * The exchange after reset() *)
Lemma excluded_untouched m n layout unk r : valid_mesh n m -> NoDup (included m unk) -> valid_unknowns m unk ->
  indexing m n layout unk r -> forall p u, p < n -> ~ In u (sortedUnknowns m unk) -> offsets_ (r p) u = startOffsets unk u.
Proof.
  intros VM ND VU IX p u Hp Hu. pose proof (IX p Hp) as E. rewrite reset_eq in E by exact VU.
  pose proof (sorted_nodup _ (sortedUnknowns_sorted m unk ND)) as NDus.
  destruct (localBlocked_ok m p (sortedUnknowns m unk) NDus (startOffsets unk) (objs_nodup m n VM p) (start_empty unk)) as (B1 & _ & B3 & _).
  destruct layout.
  - unfold constructUnblocked in E. rewrite localUnblocked_ok in E.
    destruct (nth_error _ p); [|discriminate]. destruct (nth_error _ n); [|discriminate]. inversion E. cbn [offsets_].
    assert (ES : fst (steps m (withU (sortedUnknowns m unk) (objs m p)) (startOffsets unk, 0)) u = startOffsets unk u).
    { rewrite steps_other; [reflexivity|]. intros ((k, x), v) Hi. apply in_withU in Hi. cbn. intros ->. tauto. }
    rewrite ES. destruct (Nat.ltb_spec u (numberOfUnknowns m)) as [Hr|Hr]; [|reflexivity].
    destruct (includedInIndex_ (startOffsets unk u)) eqn:EI; [|reflexivity]. apply (start_inc m unk u Hr) in EI. contradiction.
  - unfold constructBlocked in E. destruct (nth_error _ p); [|discriminate]. destruct (nth_error _ n); [|discriminate].
    rewrite B1 in E.
    destruct (blockedProcessor_ok (fun u => tot (w m) (onU u (objs m p))) n0 (sortedUnknowns m unk) 0
      (fst (localBlocked m p (sortedUnknowns m unk) (startOffsets unk))) NDus) as (o' & E1 & E2 & _).
    rewrite E1 in E. inversion E. cbn [offsets_]. rewrite E2 by exact Hu. apply B3. exact Hu.
  - unfold constructBlocked in E.
    set (cnt := fun q u => tot (w m) (onU u (objs m q))).
    set (col := fun j => map (fun c => nth j c 0) (map (fun q => snd (localBlocked m q (sortedUnknowns m unk) (startOffsets unk))) (procs n))) in *.
    destruct (blockedGlobal_ok n p cnt Hp (sortedUnknowns m unk) 0 col 0 0 0
      (fst (localBlocked m p (sortedUnknowns m unk) (startOffsets unk))) NDus) as (o' & N' & E1 & _ & E2 & _).
    { intros i v Hi. unfold col. rewrite map_map. apply map_ext. intros q. cbn [Nat.add].
      destruct (localBlocked_ok m q (sortedUnknowns m unk) NDus (startOffsets unk) (objs_nodup m n VM q) (start_empty unk)) as (Q1 & _).
      rewrite Q1. apply nth_error_nth. rewrite nth_error_map, Hi. reflexivity. }
    rewrite E1 in E. inversion E. cbn [offsets_]. rewrite E2 by exact Hu. apply B3. exact Hu.
Qed.

Section AfterReset.
Variables (m : Mesh) (n : nat) (layout : Layout) (unk : option (list nat)) (r : nat -> GlobalIndexing).
Hypothesis VM : valid_mesh n m.
Hypothesis ND : NoDup (included m unk).
Hypothesis VU : valid_unknowns m unk.
Hypothesis IX : indexing m n layout unk r.
Notation us := (sortedUnknowns m unk).
Record setting (val : Kind -> nat -> nat -> nat) (N : nat) : Prop := {
  st_nd : NoDup us;
  st_us : forall p, p < n -> includedUnknowns_ (r p) = us;
  st_own : forall p k x u, p < n -> In (k, x) (objs m p) -> In u us ->
    mfind Nat.ltb x (table (offsets_ (r p) u) k) = Some (val k x u);
  st_total : forall p, p < n -> totalNumberOfUnknowns_ (r p) = numberOfUnknowns m;
  st_range : forall u, In u us -> u < numberOfUnknowns m;
  st_inc : forall p u, p < n -> In u us -> includedInIndex_ (offsets_ (r p) u) = true;
  st_excl : forall p u, p < n -> u < numberOfUnknowns m -> ~ In u us ->
    blockStart_ (offsets_ (r p) u) = 0 /\ numberOfBasisFunctionsInBlock_ (offsets_ (r p) u) = 0 /\
    forall k, table (offsets_ (r p) u) k = [];
  st_N : forall p, p < n -> globalNumberOfBasisFunctions_ (r p) = N;
  st_bound : forall k x u, mesh_object m k x -> In u us -> localNumberOfBasisFunctions m k x u + val k x u <= N
}.
Lemma the_setting : exists val N, setting val N.
Proof.
  destruct (any_layout m n unk r VM ND VU layout IX) as (G & Lp & D & F).
  exists (fun k x u => off item_eq_dec (w m) G (k, x, u)), (tot (w m) G). constructor.
  - apply sorted_nodup, sortedUnknowns_sorted, ND.
  - intros p Hp. apply (fa_us _ _ _ _ _ _ _ F p Hp).
  - intros p k x u Hp Ho Hu. destruct (get_own m n unk r G Lp D F p k x u Hp Hu Ho) as (E & _).
    unfold getGlobalIndex in E. destruct (_ && _); [exact E|discriminate].
  - intros p Hp. apply (fa_total _ _ _ _ _ _ _ F p Hp).
  - intros u Hu. apply (fa_range _ _ _ _ _ _ _ F u Hu).
  - intros p u Hp Hu. apply (fa_inc _ _ _ _ _ _ _ F p u Hp); [|exact Hu]. apply (fa_range _ _ _ _ _ _ _ F u Hu).
  - intros p u Hp Hr Hu. rewrite (excluded_untouched m n layout unk r VM ND VU IX p u Hp Hu).
    destruct unk; (split; [reflexivity|split; [reflexivity|intros k; reflexivity]]).
  - intros p Hp. apply (fa_N _ _ _ _ _ _ _ F p Hp).
  - intros k x u HM Hu. rewrite Nat.add_comm. apply (off_bound item_eq_dec (w m) G (k, x, u)).
    apply (fa_G _ _ _ _ _ _ _ F). split; assumption.
Qed.

Lemma exchange_no_error eager s p : reachable m n eager r s -> p < n -> phase (proc s p) <> Failed.
Proof. destruct the_setting as (val & N & []). eapply never_fails; eassumption. Qed.
Lemma exchange_progress eager s : reachable m n eager r s -> finished n s \/ exists t, step m n eager s t.
Proof. destruct the_setting as (val & N & []). eapply progress; eassumption. Qed.
Lemma exchange_terminates eager k s : run m n eager k (initial m n r) s -> k <= n * (4 * n + 9).
Proof. destruct the_setting as (val & N & []). eapply terminates; eassumption. Qed.
Lemma exchange_agree eager s p : reachable m n eager r s -> p < n -> phase (proc s p) = Done -> agree m r s p.
Proof.
  intros R Hp E. destruct the_setting as (val & N & ST). destruct ST.
  intros e k x u He Hv Ho Hu.
  eapply (complete_answers m n r us val); try eassumption.
  eapply (done_complete m n r us val); eassumption.
Qed.
Lemma exchange_informed eager s p : reachable m n eager r s -> p < n -> phase (proc s p) = Done ->
  informed m r p (indexing_ (proc s p)).
Proof.
  intros R Hp E. pose proof (exchange_agree eager s p R Hp E) as A. destruct the_setting as (val & N & ST). destruct ST.
  assert (C : complete m r us val p (indexing_ (proc s p))) by (eapply (done_complete m n r us val); eassumption).
  destruct C as ((L1 & _ & _ & L4 & L5 & _) & _). split; [exact L1|]. split; [exact L4|]. split; [exact L5|].
  intros e k x u He Hv Ho Hu. destruct (A e k x u He Hv Ho Hu) as (q & i & OW & E1 & E2). exists q. split; [exact OW|congruence].
Qed.
Lemma exchange_element eager s p total e old : reachable m n eager r s -> p < n -> phase (proc s p) = Done ->
  counts_all m total -> In e (elements m) -> visible m p e = true ->
  exists indices, getGlobalIndicesOfElement m (indexing_ (proc s p)) total e old = Some indices /\ NoDup indices /\
    exists us, StronglySorted lt us /\ (forall u, In u us <-> In u (included m unk)) /\
      Forall2 (numbered m r) (dofs_of_element m us e) indices.
Proof.
  intros R Hp E CA He Hv. apply (element_indices m n layout unk r p); try assumption. apply (exchange_informed eager); assumption.
Qed.
Lemma exchange_finishes eager s : reachable m n eager r s -> exists t, reachable m n eager r t /\ finished n t.
Proof.
  destruct the_setting as (val & N & ST). destruct ST.
  remember (total n s) as k eqn:Ek. revert s Ek. induction k as [k IH] using lt_wf_ind. intros s -> R.
  destruct (exchange_progress eager s R) as [F|(t & ST)]; [exists s; split; assumption|].
  assert (L : total n t < total n s) by (eapply (step_decreases m n r us val); eassumption).
  apply (IH _ L t eq_refl). eapply reach_step; eassumption.
Qed.
End AfterReset.

Lemma three_valid : valid_mesh 3 threeIntervals.
Proof.
  constructor.
  - cbn. intros e [<-|[<-|[<-|[]]]]; cbn; lia.
  - intros p e. cbn. destruct p as [|[|[|p]]]; cbn; split; intuition lia.
  - intros p. destruct p as [|[|[|p]]]; cbn; repeat constructor; cbn; intuition lia.
  - intros k e He. cbn in He. destruct k; cbn; try constructor.
    destruct He as [<-|[<-|[<-|[]]]]; repeat constructor; cbn; intuition lia.
  - intros k e x Hk He. cbn in He. destruct k; [congruence| |cbn; tauto|cbn; tauto].
    destruct He as [<-|[<-|[<-|[]]]]; destruct x as [|[|[|[|x]]]]; cbn; intuition lia.
  - intros k e x Hk He. destruct k; [congruence| |destruct He|destruct He].
    destruct x as [|[|[|[|x]]]]; cbn in *; intuition lia.
  - intros e He. cbn in He. destruct He as [<-|[<-|[<-|[]]]]; reflexivity.
  - intros k x e e' Hk He He'. destruct k; [congruence| |destruct He|destruct He].
    destruct x as [|[|[|[|x]]]]; cbn in He, He'; intuition (subst; reflexivity).
Qed.
Lemma three_indexing : indexing threeIntervals 3 SEQUENTIAL None (answer threeIntervals 3 SEQUENTIAL None).
Proof.
  intros p Hp. destruct p as [|[|[|p]]]; [| | |lia]; unfold answer;
    (destruct (reset _ _ _ _ _) eqn:E; [reflexivity|vm_compute in E; discriminate]).
Qed.
Lemma three_example :
  let r := answer threeIntervals 3 SEQUENTIAL None in
  valid_mesh 3 threeIntervals /\ NoDup (included threeIntervals None) /\ valid_unknowns threeIntervals None /\
  indexing threeIntervals 3 SEQUENTIAL None r /\
  createInitialMessage threeIntervals 1 (r 1) 2 (pushElements threeIntervals 1 2) =
    Some ([tagOf KElement 1; 4; tagOf KFace 2; 6], [tagOf KFace 1]) /\
  getGlobalIndex (r 2) KFace 1 0 = None /\
  forall eager, exists s, reachable threeIntervals 3 eager r s /\ finished 3 s /\
    getGlobalIndex (indexing_ (proc s 2)) KFace 1 0 = Some 3.
Proof.
  cbn zeta. set (r := answer threeIntervals 3 SEQUENTIAL None).
  assert (ND : NoDup (included threeIntervals None)) by (repeat constructor; intros []).
  split; [exact three_valid|]. split; [exact ND|]. split; [exact I|]. split; [exact three_indexing|].
  split; [vm_compute; reflexivity|]. split; [vm_compute; reflexivity|]. intros eager.
  destruct (exchange_finishes threeIntervals 3 SEQUENTIAL None r three_valid ND I three_indexing eager _ (reach_initial _ _ _ _)) as (s & R & F).
  exists s. split; [exact R|]. split; [exact F|].
  destruct (exchange_agree threeIntervals 3 SEQUENTIAL None r three_valid ND I three_indexing eager s 2 R ltac:(lia) (F 2 ltac:(lia))
    1 KFace 1 0) as (q & i & OW & E1 & E2).
  - cbn. tauto.
  - reflexivity.
  - cbn. tauto.
  - vm_compute. tauto.
  - destruct OW as (e & Eh & Eo). cbn in Eh, Eo. inversion Eh; subst. rewrite E2. rewrite <- E1. vm_compute. reflexivity.
Qed.
