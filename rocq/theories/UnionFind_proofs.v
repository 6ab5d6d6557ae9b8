From Coq Require Import List Arith Bool Lia Permutation Sorted.
From Verif Require Import Loop_model Loop_proofs StdMap_model StdMap_proofs UnionFind_model UnionFind_spec.
Import ListNotations.

Local Notation ST := nat_strict_total.
Notation sorted s := (ksorted Nat.ltb s).
Lemma find_put x e (s : storage) y : sfind y (sput x e s) = if x =? y then Some e else sfind y s.
Proof.
  destruct (Nat.eqb_spec x y) as [->|H]; [apply (mfind_put_same _ ST)|apply (mfind_put_other _ ST); exact H].
Qed.
Lemma at_present s x e : sfind x s = Some e -> at_ s x = (s, e).
Proof. unfold at_. intros ->. reflexivity. Qed.

Definition wf (s : storage) := forall x p k, sfind x s = Some (p, k) -> p <> x ->
  exists p' k', sfind p s = Some (p', k') /\ k < k'.
Definition bounded (s : storage) (M : nat) := forall x p k, sfind x s = Some (p, k) -> k <= M.

Inductive Root (s : storage) : nat -> nat -> Prop :=
| root_here x k : sfind x s = Some (x, k) -> Root s x x
| root_up x p k r : sfind x s = Some (p, k) -> p <> x -> Root s p r -> Root s x r.

Lemma root_fun s x r r' : Root s x r -> Root s x r' -> r = r'.
Proof.
  intros H. revert r'. induction H as [x k E|x p k r E Hp H IH]; intros r' H'; inversion H' as [? k' E'|? p' k' ? E' Hp' H'']; subst.
  - reflexivity.
  - congruence.
  - congruence.
  - apply IH. congruence.
Qed.
Lemma root_is_root s x r : Root s x r -> exists k, sfind r s = Some (r, k).
Proof. induction 1; eauto. Qed.
Lemma root_rank s x r : wf s -> Root s x r -> x <> r -> forall p k, sfind x s = Some (p, k) ->
  exists k', sfind r s = Some (r, k') /\ k < k'.
Proof.
  intros W H. induction H as [x k E|x p k r E Hp H IH]; intros Hx q l F; [congruence|].
  assert (q = p /\ l = k) as (-> & ->) by (split; congruence).
  destruct (W _ _ _ E Hp) as (p' & k' & E' & Hk).
  destruct (Nat.eq_dec p r) as [->|Hne].
  - destruct (root_is_root _ _ _ H) as (k'' & E''). exists k''. split; [exact E''|]. congruence || (assert (k'' = k') by congruence; lia).
  - destruct (IH Hne _ _ E') as (k'' & E'' & Hk''). exists k''. split; [exact E''|lia].
Qed.
Lemma root_ex s M : wf s -> bounded s M -> forall x p k, sfind x s = Some (p, k) -> exists r, Root s x r.
Proof.
  intros W B. intros x p k. remember (M - k) as d eqn:Hd. revert x p k Hd.
  induction d as [d IH] using lt_wf_ind; intros x p k Hd E.
  destruct (Nat.eq_dec p x) as [->|Hp]; [eexists; eapply root_here; eassumption|].
  destruct (W _ _ _ E Hp) as (p' & k' & E' & Hk). pose proof (B _ _ _ E').
  destruct (IH (M - k') ltac:(lia) p p' k' eq_refl E') as (r & Hr). exists r. eapply root_up; eassumption.
Qed.

(** the representative, also of items that are not stored *)
Definition Rep (s : storage) (x r : nat) := match sfind x s with None => r = x | Some _ => Root s x r end.
Lemma rep_fun s x r r' : Rep s x r -> Rep s x r' -> r = r'.
Proof. unfold Rep. destruct (sfind x s); [apply root_fun|congruence]. Qed.
Lemma rep_ex s M x : wf s -> bounded s M -> exists r, Rep s x r.
Proof.
  intros W B. unfold Rep. destruct (sfind x s) as [(p, k)|] eqn:E; [|eauto]. eapply root_ex; eassumption.
Qed.

(** same content up to shorter paths *)
Definition sim (M : nat) (s s' : storage) :=
  (sorted s' /\ items s' = items s) /\ wf s' /\ bounded s' M /\
  (forall y, option_map snd (sfind y s') = option_map snd (sfind y s)) /\
  (forall y r, Root s y r -> Root s' y r).
Definition good (M : nat) (s : storage) := sorted s /\ wf s /\ bounded s M.

Lemma sim_refl M s : good M s -> sim M s s.
Proof. intros (S & W & B). repeat split; auto. Qed.
Lemma sim_trans M s1 s2 s3 : sim M s1 s2 -> sim M s2 s3 -> sim M s1 s3.
Proof.
  intros ((S2 & I2) & W2 & B2 & R2 & T2) ((S3 & I3) & W3 & B3 & R3 & T3). repeat split; auto.
  - congruence.
  - intros y. rewrite R3. apply R2.
Qed.
Lemma sim_good M s s' : sim M s s' -> good M s'.
Proof. intros ((S & I) & W & B & _). repeat split; auto. Qed.

Lemma set_parent_find s x p q k y : sfind x s = Some (q, k) ->
  sfind y (set_parent s x p) = if x =? y then Some (p, k) else sfind y s.
Proof. intros E. unfold set_parent. rewrite (at_present _ _ _ E). apply find_put. Qed.
Lemma set_parent_keys s x p q k : sorted s -> sfind x s = Some (q, k) ->
  sorted (set_parent s x p) /\ items (set_parent s x p) = items s.
Proof.
  intros S E. unfold set_parent. rewrite (at_present _ _ _ E). split; [apply (mput_sorted _ ST); exact S|].
  unfold items. apply (mput_keys_same _ ST); [congruence|exact S].
Qed.

Lemma shortcut M s x p k r : good M s -> sfind x s = Some (p, k) -> Root s x r -> sim M s (set_parent s x r).
Proof.
  intros (S & W & B) E HR.
  destruct (root_is_root _ _ _ HR) as (kr & Er).
  split; [eapply set_parent_keys; eassumption|].
  assert (F := fun y => set_parent_find s x r p k y E).
  destruct (Nat.eq_dec r x) as [Hrx|Hrx].
  - (* x is a root: nothing changes *)
    subst r. assert (p = x /\ kr = k) as (-> & ->) by (split; congruence).
    assert (G : forall y, sfind y (set_parent s x x) = sfind y s).
    { intros y. rewrite F. destruct (Nat.eqb_spec x y) as [->|]; congruence. }
    repeat split.
    + intros y q l Hy Hq. rewrite G in Hy. rewrite G. eapply W; eassumption.
    + intros y q l Hy. rewrite G in Hy. eapply B; eassumption.
    + intros y. rewrite G. reflexivity.
    + intros y r. clear -G. induction 1 as [y l Hy|y q l r Hy Hq H IH].
      * eapply root_here. rewrite G. eassumption.
      * eapply root_up; [rewrite G; eassumption|assumption|assumption].
  - assert (Hpx : p <> x). { intros ->. inversion HR as [? ? E'|? ? ? ? E' Hp']; subst; congruence. }
    repeat split.
    + intros y q l Hy Hq. rewrite F in Hy. rewrite F.
      destruct (Nat.eqb_spec x y) as [->|Hxy].
      * injection Hy as <- <-. destruct (root_rank _ _ _ W HR) with (p := p) (k := k) as (k' & Ek' & Hk'); [congruence|exact E|].
        destruct (Nat.eqb_spec y r); [congruence|]. eauto.
      * destruct (W _ _ _ Hy Hq) as (p' & k' & E' & Hk').
        destruct (Nat.eqb_spec x q) as [->|]; [|eauto].
        exists r, k. split; [reflexivity|]. assert (k' = k) by congruence. lia.
    + intros y q l Hy. rewrite F in Hy. destruct (x =? y); [injection Hy as <- <-; eapply B; eassumption|eapply B; eassumption].
    + intros y. rewrite F. destruct (Nat.eqb_spec x y) as [->|]; [rewrite E|]; reflexivity.
    + assert (Rr : Root (set_parent s x r) r r).
      { eapply root_here. rewrite F. destruct (Nat.eqb_spec x r); [congruence|exact Er]. }
      intros y r'. induction 1 as [y l Hy|y q l r' Hy Hq H IH].
      * destruct (Nat.eq_dec x y) as [->|Hxy]; [congruence|]. eapply root_here. rewrite F. apply Nat.eqb_neq in Hxy. rewrite Hxy. exact Hy.
      * destruct (Nat.eq_dec x y) as [->|Hxy].
        -- assert (r' = r). { eapply root_fun; [|exact HR]. eapply root_up; eassumption. } subst r'.
           eapply root_up with (p := r); [rewrite F, Nat.eqb_refl; reflexivity|exact Hrx|exact Rr].
        -- eapply root_up; [rewrite F; apply Nat.eqb_neq in Hxy; rewrite Hxy; eassumption|assumption|assumption].
Qed.

Lemma findSetPresent_ok M : forall fuel s x p k, good M s -> sfind x s = Some (p, k) -> M - k < fuel ->
  exists s' r, findSetPresent fuel s x = Some (s', r) /\ Root s x r /\ sim M s s'.
Proof.
  induction fuel as [|fuel IH]; intros s x p k G E Hf; [lia|].
  cbn [findSetPresent]. rewrite (at_present _ _ _ E).
  destruct (Nat.eqb_spec p x) as [->|Hp].
  - exists s, x. split; [reflexivity|]. split; [eapply root_here; eassumption|apply sim_refl; exact G].
  - pose proof G as (S & W & B). destruct (W _ _ _ E Hp) as (p' & k' & E' & Hk). pose proof (B _ _ _ E').
    destruct (IH s p p' k' G E') as (s' & r & -> & HR & HS); [lia|].
    exists (set_parent s' x r), r. split; [reflexivity|].
    assert (HRx : Root s x r) by (eapply root_up; eassumption). split; [exact HRx|].
    eapply sim_trans; [exact HS|]. pose proof HS as (_ & _ & _ & Hrk & HT).
    specialize (Hrk x). rewrite E in Hrk. destruct (sfind x s') as [(q, l)|] eqn:Ex; [|discriminate].
    eapply shortcut; [eapply sim_good; exact HS|exact Ex|apply HT, HRx].
Qed.

Lemma sim_root_iff M s s' y r : good M s -> sim M s s' -> (Root s' y r <-> Root s y r).
Proof.
  intros (S & W & B) HS. pose proof HS as (_ & _ & _ & Hrk & HT). split; [|apply HT]. intros H.
  assert (exists e, sfind y s = Some e) as ((p, k) & E).
  { specialize (Hrk y). destruct (sfind y s); [eauto|]. inversion H; subst; rewrite H0 in Hrk; discriminate. }
  destruct (root_ex s M W B _ _ _ E) as (r' & Hr'). rewrite (root_fun _ _ _ _ H (HT _ _ Hr')). exact Hr'.
Qed.
Lemma sim_rep M s s' y r : good M s -> sim M s s' -> (Rep s' y r <-> Rep s y r).
Proof.
  intros G HS. unfold Rep. pose proof HS as (_ & _ & _ & Hrk & _). specialize (Hrk y).
  destruct (sfind y s) as [(p, k)|] eqn:E, (sfind y s') as [(p', k')|] eqn:E'; try discriminate; [|reflexivity].
  eapply sim_root_iff; eassumption.
Qed.
Lemma sim_present M s s' y : sim M s s' -> (sfind y s' <> None <-> sfind y s <> None).
Proof.
  intros (_ & _ & _ & Hrk & _). specialize (Hrk y). destruct (sfind y s), (sfind y s'); try discriminate; intuition congruence.
Qed.

Lemma findSet_ok M fuel s x : good M s -> M < fuel ->
  exists s' r, findSet fuel s x = Some (s', r) /\ Rep s x r /\ sim M s s'.
Proof.
  intros G Hf. unfold findSet, Rep. destruct (sfind x s) as [(p, k)|] eqn:E.
  - pose proof G as (S & W & B).
    assert (exists q l, sfind p s = Some (q, l)) as (q & l & Ep).
    { destruct (Nat.eq_dec p x) as [->|Hp]; [eauto|]. destruct (W _ _ _ E Hp) as (p' & k' & E' & _). eauto. }
    destruct (findSetPresent_ok M fuel s p q l G Ep) as (s' & r & -> & HR & HS); [lia|].
    exists (set_parent s' x r), r. split; [reflexivity|].
    assert (HRx : Root s x r).
    { destruct (Nat.eq_dec p x) as [->|Hp]; [exact HR|eapply root_up; eassumption]. }
    split; [exact HRx|]. eapply sim_trans; [exact HS|]. pose proof HS as (_ & _ & _ & Hrk & HT).
    specialize (Hrk x). rewrite E in Hrk. destruct (sfind x s') as [(q', l')|] eqn:Ex; [|discriminate].
    eapply shortcut; [eapply sim_good; exact HS|exact Ex|apply HT, HRx].
  - exists s, x. split; [reflexivity|]. split; [reflexivity|apply sim_refl; exact G].
Qed.

(** ** connectivity *)
Lemma connected_mono P Q a b : incl P Q -> connected P a b -> connected Q a b.
Proof.
  intros HI. induction 1.
  - apply conn_pair. auto.
  - apply conn_refl.
  - apply conn_sym. assumption.
  - eapply conn_trans; eassumption.
Qed.
Lemma connected_add P a b x y : connected (P ++ [(a, b)]) x y <->
  connected P x y \/ (connected P x a /\ connected P b y) \/ (connected P x b /\ connected P a y).
Proof.
  split.
  - induction 1 as [c d H|c|c d H IH|c d e H1 IH1 H2 IH2].
    + apply in_app_or in H as [H|[H|[]]]; [left; apply conn_pair; exact H|]. injection H as <- <-.
      right. left. split; apply conn_refl.
    + left. apply conn_refl.
    + destruct IH as [IH|[(IH1 & IH2)|(IH1 & IH2)]].
      * left. apply conn_sym. exact IH.
      * right. right. split; apply conn_sym; assumption.
      * right. left. split; apply conn_sym; assumption.
    + destruct IH1 as [A|[(A1 & A2)|(A1 & A2)]], IH2 as [B|[(B1 & B2)|(B1 & B2)]].
      * left. eapply conn_trans; eassumption.
      * right. left. split; [eapply conn_trans; eassumption|assumption].
      * right. right. split; [eapply conn_trans; eassumption|assumption].
      * right. left. split; [assumption|eapply conn_trans; eassumption].
      * right. left. split; assumption.
      * left. eapply conn_trans; [exact A1|]. assumption.
      * right. right. split; [assumption|eapply conn_trans; eassumption].
      * left. eapply conn_trans; [exact A1|]. assumption.
      * right. right. split; assumption.
  - assert (I : forall u v, connected P u v -> connected (P ++ [(a, b)]) u v).
    { intros u v. apply connected_mono. intros z Hz. apply in_or_app. left. exact Hz. }
    assert (AB : connected (P ++ [(a, b)]) a b) by (apply conn_pair, in_or_app; right; left; reflexivity).
    intros [H|[(H1 & H2)|(H1 & H2)]].
    + apply I, H.
    + eapply conn_trans; [apply I, H1|]. eapply conn_trans; [exact AB|apply I, H2].
    + eapply conn_trans; [apply I, H1|]. eapply conn_trans; [apply conn_sym, AB|apply I, H2].
Qed.

(** a set whose root has rank k has at least 2^k members *)
Definition sized (s : storage) := forall r k, sfind r s = Some (r, k) ->
  exists l, NoDup l /\ 2 ^ k <= length l /\ forall x, In x l -> Rep s x r.

Definition Inv (P : list (nat * nat)) (s : storage) :=
  (good (depth (length P)) s /\ sized s) /\
  (forall x, sfind x s <> None <-> exists y, y <> x /\ connected P x y) /\
  (forall x y rx ry, Rep s x rx -> Rep s y ry -> (rx = ry <-> connected P x y)).

Lemma connected_nil x y : connected [] x y -> x = y.
Proof. induction 1; [contradiction|reflexivity|congruence|congruence]. Qed.
Lemma Inv_nil : Inv [] [].
Proof.
  split; [|split].
  - repeat split; [constructor| | |]; intros x p; discriminate.
  - intros x. cbn. split; [congruence|]. intros (y & Hy & H). apply connected_nil in H. congruence.
  - intros x y rx ry. unfold Rep. cbn. intros -> ->. split; [intros ->; apply conn_refl|apply connected_nil].
Qed.

Lemma sim_sized M s s' : good M s -> sized s -> sim M s s' -> sized s'.
Proof.
  intros G Z HS r k E. pose proof HS as (_ & _ & _ & Hrk & _).
  assert (HR : Root s r r) by (apply (sim_root_iff _ _ _ _ _ G HS); eapply root_here; exact E).
  destruct (root_is_root _ _ _ HR) as (k' & E'). specialize (Hrk r). rewrite E, E' in Hrk. cbn in Hrk.
  assert (k' = k) by congruence. subst. destruct (Z _ _ E') as (l & N & L & HL). exists l. repeat split; auto.
  intros x Hx. apply (sim_rep _ _ _ _ _ G HS), HL, Hx.
Qed.
Lemma Inv_sim P s s' : Inv P s -> sim (depth (length P)) s s' -> Inv P s'.
Proof.
  intros ((G & Z) & A & B) HS. split; [split; [eapply sim_good; exact HS|eapply sim_sized; eassumption]|]. split.
  - intros x. rewrite (sim_present _ _ _ _ HS). apply A.
  - intros x y rx ry H1 H2. eapply (sim_rep _ _ _ _ _ G HS) in H1. eapply (sim_rep _ _ _ _ _ G HS) in H2. apply B; assumption.
Qed.

Definition alloc (s : storage) (x : nat) : storage := match sfind x s with None => sput x (x, 0) s | Some _ => s end.
Lemma alloc_good M s x : good M s -> good M (alloc s x).
Proof.
  intros (S & W & B). unfold alloc. destruct (sfind x s) as [e|] eqn:E; [repeat split; assumption|].
  repeat split.
  - apply (mput_sorted _ ST). exact S.
  - intros y p k Hy Hp. rewrite find_put in Hy. rewrite find_put.
    destruct (Nat.eqb_spec x y) as [->|Hxy]; [congruence|].
    destruct (W _ _ _ Hy Hp) as (p' & k' & E' & Hk). destruct (Nat.eqb_spec x p) as [->|]; [congruence|eauto].
  - intros y p k Hy. rewrite find_put in Hy. destruct (x =? y); [injection Hy as <- <-; lia|eapply B; eassumption].
Qed.
Lemma alloc_present s x y : sfind y (alloc s x) <> None <-> sfind y s <> None \/ y = x.
Proof.
  unfold alloc. destruct (sfind x s) as [e|] eqn:E.
  - split; [tauto|]. intros [H| ->]; congruence.
  - rewrite find_put. destruct (Nat.eqb_spec x y) as [->|Hxy]; intuition congruence.
Qed.
Lemma alloc_rep M s x y r : good M s -> Rep (alloc s x) y r <-> Rep s y r.
Proof.
  intros (S & W & B). unfold alloc. destruct (sfind x s) as [e|] eqn:E; [reflexivity|].
  assert (T : forall z r, Root s z r -> Root (sput x (x, 0) s) z r).
  { induction 1 as [z l Hz|z q l r' Hz Hq H IH].
    - eapply root_here. rewrite find_put. destruct (Nat.eqb_spec x z) as [->|]; [congruence|eassumption].
    - eapply root_up; [rewrite find_put; destruct (Nat.eqb_spec x z) as [->|]; [congruence|eassumption]|assumption|assumption]. }
  unfold Rep. rewrite find_put. destruct (Nat.eqb_spec x y) as [->|Hxy].
  - rewrite E. assert (H0 : Root (sput y (y, 0) s) y y).
    { eapply root_here. rewrite find_put, Nat.eqb_refl. reflexivity. }
    split; [intros H; eapply root_fun; eassumption|intros ->; exact H0].
  - destruct (sfind y s) as [(p, k)|] eqn:Ey; [|reflexivity]. split; [|apply T]. intros H.
    destruct (root_ex s M W B _ _ _ Ey) as (r' & Hr'). rewrite (root_fun _ _ _ _ H (T _ _ Hr')). exact Hr'.
Qed.

Lemma alloc_sized M s x : good M s -> sized s -> sized (alloc s x).
Proof.
  intros G Z r k E. destruct (sfind x s) as [e|] eqn:Ex.
  - unfold alloc in *. rewrite Ex in *. apply Z, E.
  - assert (E' := E). unfold alloc in E'. rewrite Ex, find_put in E'. destruct (Nat.eqb_spec x r) as [<-|Hxr].
    + injection E' as <-. exists [x]. split; [repeat constructor; intros []|]. split; [cbn; lia|].
      intros y [<-|[]]. unfold Rep. rewrite E. eapply root_here. exact E.
    + destruct (Z _ _ E') as (l & N & L & HL). exists l. repeat split; auto. intros y Hy. apply (alloc_rep _ _ _ _ _ G), HL, Hy.
Qed.

(** linking root [a] below root [b] *)
Lemma link_ok M s s' a b ka kb : good M s -> sfind a s = Some (a, ka) -> sfind b s = Some (b, kb) -> a <> b -> ka <= kb ->
  (forall y, sfind y s' = if a =? y then Some (b, ka) else if b =? y then Some (b, if ka =? kb then S kb else kb) else sfind y s) ->
  sorted s' ->
  good (S M) s' /\ (forall y, sfind y s' <> None <-> sfind y s <> None) /\
  (forall y r, Rep s y r -> Rep s' y (if r =? a then b else r)).
Proof.
  intros (S & W & B) Ea Eb Hab Hk F S'.
  assert (Fb : exists kb', sfind b s' = Some (b, kb') /\ ka < kb' /\ kb <= kb').
  { exists (if ka =? kb then Datatypes.S kb else kb). rewrite F. destruct (Nat.eqb_spec a b); [congruence|].
    rewrite Nat.eqb_refl. split; [reflexivity|]. destruct (Nat.eqb_spec ka kb); lia. }
  destruct Fb as (kb' & Fb & Hk1 & Hk2).
  split; [split; [exact S'|split]|split].
  - intros y p k Hy Hp. rewrite F in Hy. destruct (Nat.eqb_spec a y) as [<-|Hay].
    + injection Hy as <- <-. eauto.
    + destruct (Nat.eqb_spec b y) as [<-|Hby]; [congruence|].
      destruct (W _ _ _ Hy Hp) as (p' & k' & E' & Hk').
      destruct (Nat.eq_dec p b) as [->|Hpb]; [exists b, kb'; split; [exact Fb|]; assert (k' = kb) by congruence; lia|].
      rewrite F. destruct (Nat.eqb_spec a p) as [<-|Hap].
      * exists b, ka. split; [reflexivity|]. assert (k' = ka) by congruence. lia.
      * destruct (Nat.eqb_spec b p); [congruence|]. eauto.
  - intros y p k Hy. rewrite F in Hy. destruct (a =? y); [injection Hy as <- <-; pose proof (B _ _ _ Ea); lia|].
    destruct (b =? y).
    + injection Hy as <- <-. pose proof (B _ _ _ Eb). destruct (ka =? kb); lia.
    + pose proof (B _ _ _ Hy). lia.
  - intros y. rewrite F. destruct (Nat.eqb_spec a y) as [<-|]; [rewrite Ea; intuition congruence|].
    destruct (Nat.eqb_spec b y) as [<-|]; [rewrite Eb; intuition congruence|reflexivity].
  - assert (Rb : Root s' b b) by (eapply root_here; exact Fb).
    assert (Ra : Root s' a b).
    { eapply root_up; [rewrite F, Nat.eqb_refl; reflexivity|congruence|exact Rb]. }
    assert (T : forall y r, Root s y r -> Root s' y (if r =? a then b else r)).
    { induction 1 as [y l Hy|y q l r' Hy Hq H IH].
      - destruct (Nat.eqb_spec y a) as [->|Hya]; [exact Ra|].
        destruct (Nat.eq_dec b y) as [<-|Hby]; [exact Rb|].
        eapply root_here. rewrite F. destruct (Nat.eqb_spec a y); [congruence|]. destruct (Nat.eqb_spec b y); [congruence|]. exact Hy.
      - eapply root_up; [|exact Hq|exact IH]. rewrite F.
        destruct (Nat.eqb_spec a y); [congruence|]. destruct (Nat.eqb_spec b y); [congruence|]. exact Hy. }
    intros y r. unfold Rep. destruct (sfind y s) as [e|] eqn:Ey.
    + intros HR. rewrite F. destruct (Nat.eqb_spec a y) as [->|]; [apply T, HR|].
      destruct (Nat.eqb_spec b y) as [->|]; [apply T, HR|]. rewrite Ey. apply T, HR.
    + intros ->. destruct (Nat.eqb_spec y a) as [->|Hya]; [congruence|].
      rewrite F. destruct (Nat.eqb_spec a y); [congruence|]. destruct (Nat.eqb_spec b y); [congruence|]. rewrite Ey. reflexivity.
Qed.

Lemma nodup_app {X} (l m : list X) : NoDup l -> NoDup m -> (forall x, In x l -> ~ In x m) -> NoDup (l ++ m).
Proof.
  induction 1 as [|x l Hx N IH]; cbn; intros Nm Hd; [exact Nm|]. constructor.
  - rewrite in_app_iff. intros [H|H]; [contradiction|]. eapply Hd; [left; reflexivity|exact H].
  - apply IH; [exact Nm|]. intros y Hy. apply Hd. right. exact Hy.
Qed.
Lemma link_sized s s' a b ka kb : sized s -> sfind a s = Some (a, ka) -> sfind b s = Some (b, kb) -> a <> b -> ka <= kb ->
  (forall y, sfind y s' = if a =? y then Some (b, ka) else if b =? y then Some (b, if ka =? kb then S kb else kb) else sfind y s) ->
  (forall y r, Rep s y r -> Rep s' y (if r =? a then b else r)) -> sized s'.
Proof.
  intros Z Ea Eb Hab Hk F T r k E. rewrite F in E. destruct (Nat.eqb_spec a r) as [<-|Har]; [congruence|].
  assert (T' : forall y q, q <> a -> Rep s y q -> Rep s' y q).
  { intros y q Hq HR. specialize (T _ _ HR). destruct (Nat.eqb_spec q a); [contradiction|exact T]. }
  destruct (Nat.eqb_spec b r) as [<-|Hbr].
  - injection E as <-. destruct (Z _ _ Eb) as (lb & Nb & Lb & HLb). destruct (Z _ _ Ea) as (la & Na & La & HLa).
    destruct (Nat.eqb_spec ka kb) as [->|Hne].
    + exists (la ++ lb). split; [|split].
      * apply nodup_app; [exact Na|exact Nb|]. intros x Hx Hx'. apply Hab. eapply rep_fun; [apply HLa, Hx|apply HLb, Hx'].
      * rewrite app_length. cbn. lia.
      * intros x Hx. apply in_app_or in Hx as [Hx|Hx]; [|apply T'; [congruence|apply HLb, Hx]].
        specialize (T _ _ (HLa _ Hx)). rewrite Nat.eqb_refl in T. exact T.
    + exists lb. repeat split; auto.
  - destruct (Z _ _ E) as (l & N & L & HL). exists l. repeat split; auto.
Qed.

Lemma connected_mentioned P x y : connected P x y -> x = y \/
  (In x (flat_map (fun p => [fst p; snd p]) P) /\ In y (flat_map (fun p => [fst p; snd p]) P)).
Proof.
  induction 1 as [a b H|a|a b H IH|a b c H1 IH1 H2 IH2].
  - right. split; apply in_flat_map; exists (a, b); cbn; auto.
  - left. reflexivity.
  - intuition congruence.
  - destruct IH1 as [->|(? & ?)], IH2 as [->|(? & ?)]; auto.
Qed.
(** ranks, and so paths, are at most logarithmic: this follows from the sizes of the sets *)
Lemma sized_good P M s : good M s -> sized s ->
  (forall x, sfind x s <> None <-> exists y, y <> x /\ connected P x y) -> good (depth (length P)) s.
Proof.
  intros (S & W & B) Z A. split; [exact S|]. split; [exact W|].
  assert (LI : length (items s) <= 2 * length P).
  { replace (2 * length P) with (length (flat_map (fun p : nat * nat => [fst p; snd p]) P)).
    - apply NoDup_incl_length; [apply (ksorted_nodup _ ST), S|]. intros x Hx.
      apply (in_keys _ ST) in Hx. apply A in Hx as (y & Hy & Hc). apply connected_mentioned in Hc as [->|(H & _)]; [congruence|exact H].
    - clear. induction P as [|(a, b) P IH]; cbn in *; [reflexivity|]. lia. }
  assert (BR : forall r k, sfind r s = Some (r, k) -> k <= depth (length P)).
  { intros r k E. destruct (Z _ _ E) as (l & N & L & HL).
    assert (length l <= length (items s)).
    { apply NoDup_incl_length; [exact N|]. intros x Hx. apply (in_keys _ ST). specialize (HL _ Hx). unfold Rep in HL.
      destruct (sfind x s) eqn:Ex; [congruence|]. subst. congruence. }
    unfold depth. apply Nat.log2_le_pow2; [|lia].
    pose proof (Nat.pow_nonzero 2 k). lia. }
  intros x p k E. destruct (root_ex s M W B _ _ _ E) as (r & Hr).
  destruct (Nat.eq_dec x r) as [<-|Hxr].
  - destruct (root_is_root _ _ _ Hr) as (k' & E'). assert (k' = k) by congruence. subst. eapply BR; eassumption.
  - destruct (root_rank _ _ _ W Hr Hxr _ _ E) as (k' & E' & Hk). specialize (BR _ _ E'). lia.
Qed.

Lemma good_mono M N s : M <= N -> good M s -> good N s.
Proof. intros H (S & W & B). repeat split; auto. intros x p k E. specialize (B _ _ _ E). lia. Qed.

Lemma depth_mono m n : m <= n -> depth m <= depth n.
Proof. intros H. apply Nat.log2_le_mono. lia. Qed.

Lemma union_ok P fuel s a b : Inv P s -> depth (length P) < fuel ->
  exists s', unionSets fuel s a b = Some s' /\ Inv (P ++ [(a, b)]) s'.
Proof.
  intros ((G & Z) & A & B) Hf. unfold unionSets.
  destruct (Nat.eqb_spec a b) as [<-|Hab].
  - exists s. split; [reflexivity|].
    assert (C : forall x y, connected (P ++ [(a, a)]) x y <-> connected P x y).
    { intros x y. rewrite connected_add. split; [|tauto].
      intros [H|[(H1 & H2)|(H1 & H2)]]; [exact H| |]; eapply conn_trans; eassumption. }
    split; [split; [eapply good_mono; [|exact G]; apply depth_mono; rewrite app_length; lia|exact Z]|]. split.
    + intros x. rewrite A. split; intros (y & Hy & H); exists y; split; auto; apply C; exact H.
    + intros x y rx ry H1 H2. rewrite C. apply B; assumption.
  - fold (alloc s a). set (s1 := alloc s a). fold (alloc s1 b). set (s2 := alloc s1 b).
    assert (G1 : good (depth (length P)) s1) by apply alloc_good, G.
    assert (G2 : good (depth (length P)) s2) by apply alloc_good, G1.
    assert (Z2 : sized s2) by (eapply alloc_sized; [exact G1|]; eapply alloc_sized; eassumption).
    assert (P2 : forall y, sfind y s2 <> None <-> sfind y s <> None \/ y = a \/ y = b).
    { intros y. unfold s2. rewrite alloc_present. unfold s1. rewrite alloc_present. tauto. }
    assert (R2 : forall y r, Rep s2 y r <-> Rep s y r).
    { intros y r. unfold s2. rewrite (alloc_rep _ _ _ _ _ G1). apply (alloc_rep _ _ _ _ _ G). }
    assert (A' : forall x, sfind x s2 <> None <-> exists y, y <> x /\ connected (P ++ [(a, b)]) x y).
    { intros x. rewrite P2, A. split.
      - intros [(y & Hy & H)|[->| ->]].
        + exists y. split; [exact Hy|]. apply connected_add. left. exact H.
        + exists b. split; [congruence|]. apply conn_pair, in_or_app. right. left. reflexivity.
        + exists a. split; [congruence|]. apply conn_sym, conn_pair, in_or_app. right. left. reflexivity.
      - intros (y & Hy & H). apply connected_add in H as [H|[(H1 & H2)|(H1 & H2)]].
        + left. eauto.
        + destruct (Nat.eq_dec x a) as [->|Hxa]; [tauto|]. left. exists a. split; [congruence|exact H1].
        + destruct (Nat.eq_dec x b) as [->|Hxb]; [tauto|]. left. exists b. split; [congruence|exact H1]. }
    assert (exists ea, sfind a s2 = Some ea) as ((pa, ka) & Ea).
    { destruct (sfind a s2) eqn:E; [eauto|]. exfalso. apply (proj2 (P2 a)); tauto. }
    destruct (findSetPresent_ok _ fuel s2 a pa ka G2 Ea) as (s3 & ra & -> & HRa & HS3); [lia|].
    assert (G3 := sim_good _ _ _ HS3).
    assert (exists eb, sfind b s3 = Some eb) as ((pb, kb) & Eb).
    { destruct (sfind b s3) eqn:E; [eauto|]. exfalso. apply (proj2 (sim_present _ _ _ b HS3)); [|exact E]. apply P2. tauto. }
    destruct (findSetPresent_ok _ fuel s3 b pb kb G3 Eb) as (s4 & rb & -> & HRb & HS4); [lia|].
    assert (G4 := sim_good _ _ _ HS4).
    assert (HS : sim (depth (length P)) s2 s4) by (eapply sim_trans; eassumption).
    assert (Z4 : sized s4) by (eapply sim_sized; [exact G2|exact Z2|exact HS]).
    assert (R4 : forall y r, Rep s4 y r <-> Rep s y r).
    { intros y r. rewrite (sim_rep _ _ _ _ _ G2 HS). apply R2. }
    assert (Ra : Rep s a ra). { apply R2. unfold Rep. rewrite Ea. exact HRa. }
    assert (Rb : Rep s b rb).
    { apply R2. apply (sim_rep _ _ _ _ _ G2 HS3). unfold Rep. rewrite Eb. exact HRb. }
    assert (P4 : forall x, sfind x s4 <> None <-> exists y, y <> x /\ connected (P ++ [(a, b)]) x y).
    { intros x. rewrite (sim_present _ _ _ _ HS). apply A'. }
    assert (RG : exists kra, sfind ra s4 = Some (ra, kra)).
    { apply root_is_root with (x := a). apply (sim_root_iff _ _ _ _ _ G2 HS). exact HRa. }
    assert (RH : exists krb, sfind rb s4 = Some (rb, krb)).
    { apply root_is_root with (x := b). apply (sim_root_iff _ _ _ _ _ G3 HS4). exact HRb. }
    destruct RG as (kra & Era), RH as (krb & Erb).
    destruct (Nat.eqb_spec ra rb) as [Heq|Hne].
    + exists s4. split; [reflexivity|].
      assert (Hc : connected P a b) by (apply (B a b ra rb Ra Rb), Heq).
      split; [split; [eapply sized_good; [exact G4|exact Z4|exact P4]|exact Z4]|]. split; [exact P4|].
      intros x y rx ry Hx Hy. apply R4 in Hx, Hy. rewrite (B x y rx ry Hx Hy), connected_add. split; [tauto|].
      intros [H|[(H1 & H2)|(H1 & H2)]]; [exact H| |].
      * eapply conn_trans; [exact H1|]. eapply conn_trans; [exact Hc|exact H2].
      * eapply conn_trans; [exact H1|]. eapply conn_trans; [apply conn_sym, Hc|exact H2].
    + rewrite (at_present _ _ _ Era), (at_present _ _ _ Erb).
      assert (Hfin : forall s5 u v, (forall y, sfind y s5 <> None <-> sfind y s4 <> None) -> good (S (depth (length P))) s5 -> sized s5 ->
                ((u = ra /\ v = rb) \/ (u = rb /\ v = ra)) ->
                (forall y r, Rep s4 y r -> Rep s5 y (if r =? u then v else r)) -> Inv (P ++ [(a, b)]) s5).
      { intros s5 u v Hp5 G5 Z5 Huv T5. assert (P5 : forall x, sfind x s5 <> None <-> exists y, y <> x /\ connected (P ++ [(a, b)]) x y) by (intros x; rewrite Hp5; apply P4).
        split; [split; [eapply sized_good; eassumption|exact Z5]|]. split; [exact P5|].
        intros x y rx ry Hx Hy. destruct G as (S0 & W0 & B0).
        destruct (rep_ex s _ x W0 B0) as (qx & Hqx). destruct (rep_ex s _ y W0 B0) as (qy & Hqy).
        rewrite (rep_fun _ _ _ _ Hx (T5 _ _ (proj2 (R4 _ _) Hqx))).
        rewrite (rep_fun _ _ _ _ Hy (T5 _ _ (proj2 (R4 _ _) Hqy))).
        rewrite connected_add, <- (B x y qx qy Hqx Hqy), <- (B x a qx ra Hqx Ra), <- (B b y rb qy Rb Hqy),
          <- (B x b qx rb Hqx Rb), <- (B a y ra qy Ra Hqy).
        destruct Huv as [(-> & ->)|(-> & ->)];
          [destruct (Nat.eqb_spec qx ra), (Nat.eqb_spec qy ra)|destruct (Nat.eqb_spec qx rb), (Nat.eqb_spec qy rb)];
          subst; intuition congruence. }
      destruct (Nat.ltb_spec krb kra) as [Hlt|Hge].
      * destruct (link_ok (depth (length P)) s4 (set_parent s4 rb ra) rb ra krb kra G4 Erb Era) as (G5 & Hp5 & T5); [congruence|lia| | |].
        -- intros y. rewrite (set_parent_find _ _ _ _ _ _ Erb). destruct (rb =? y); [reflexivity|].
           destruct (Nat.eqb_spec ra y) as [<-|]; [|reflexivity]. destruct (Nat.eqb_spec krb kra); [lia|exact Era].
        -- eapply set_parent_keys; [apply G4|exact Erb].
        -- eexists. split; [reflexivity|]. eapply (Hfin _ rb ra); eauto.
           eapply (link_sized s4 _ rb ra krb kra); eauto; [lia|]. intros y. rewrite (set_parent_find _ _ _ _ _ _ Erb). destruct (rb =? y); [reflexivity|].
           destruct (Nat.eqb_spec ra y) as [<-|]; [|reflexivity]. destruct (Nat.eqb_spec krb kra); [lia|exact Era].
      * set (s5 := set_parent s4 ra rb).
        assert (F5 : forall y, sfind y s5 = if ra =? y then Some (rb, kra) else sfind y s4).
        { intros y. apply (set_parent_find _ _ _ _ _ _ Era). }
        assert (S5 : sorted s5) by (eapply set_parent_keys; [apply G4|exact Era]).
        assert (E5 : sfind rb s5 = Some (rb, krb)).
        { rewrite F5. destruct (Nat.eqb_spec ra rb); [congruence|exact Erb]. }
        set (s6 := if kra =? krb then inc_rank s5 rb else s5).
        assert (E6 : (if kra =? krb then Some (inc_rank s5 rb) else Some s5) = Some s6).
        { unfold s6. destruct (kra =? krb); reflexivity. }
        rewrite E6. exists s6. split; [reflexivity|].
        assert (F6 : forall y, sfind y s6 = if ra =? y then Some (rb, kra) else if rb =? y then Some (rb, if kra =? krb then S krb else krb) else sfind y s4).
        { intros y. unfold s6. destruct (Nat.eqb_spec kra krb) as [->|Hkk].
          - unfold inc_rank. rewrite (at_present _ _ _ E5), find_put, F5.
            destruct (Nat.eqb_spec rb y) as [<-|]; [|destruct (ra =? y); reflexivity].
            destruct (Nat.eqb_spec ra rb); [congruence|reflexivity].
          - rewrite F5. destruct (ra =? y); [reflexivity|]. destruct (Nat.eqb_spec rb y) as [<-|]; [exact Erb|reflexivity]. }
        destruct (link_ok (depth (length P)) s4 s6 ra rb kra krb G4 Era Erb) as (G7 & Hp7 & T7); [congruence|lia|exact F6| |].
        -- unfold s6. destruct (kra =? krb); [|exact S5]. unfold inc_rank. rewrite (at_present _ _ _ E5).
           apply (mput_sorted _ ST). exact S5.
        -- eapply (Hfin _ ra rb); eauto. eapply (link_sized s4 s6 ra rb kra krb); eauto.
Qed.

Lemma same_ok P fuel s a b : Inv P s -> depth (length P) < fuel ->
  exists s' r, inSameSet fuel s a b = Some (s', r) /\ Inv P s' /\ (r = true <-> connected P a b).
Proof.
  intros I Hf. pose proof I as ((G & Z) & A & B). unfold inSameSet.
  destruct (findSet_ok _ fuel s a G Hf) as (s1 & r1 & -> & R1 & HS1).
  destruct (findSet_ok _ fuel s1 b (sim_good _ _ _ HS1) Hf) as (s2 & r2 & -> & R2 & HS2).
  exists s2, (r1 =? r2). split; [reflexivity|]. split; [eapply Inv_sim; [eapply Inv_sim; eassumption|exact HS2]|].
  rewrite Nat.eqb_eq. apply B; [exact R1|]. apply (sim_rep _ _ _ _ _ G HS1). exact R2.
Qed.

Lemma history_ok fuel : forall h P s, Inv P s -> depth (length P + length (merged h)) < fuel ->
  exists s', history fuel s h = Some s' /\ Inv (P ++ merged h) s'.
Proof.
  induction h as [|o h IH]; intros P s I Hf.
  - exists s. split; [reflexivity|]. cbn. rewrite app_nil_r. exact I.
  - destruct o as [a b|a|a b]; cbn [history merged flat_map app] in *.
    + fold (merged h) in *. cbn [length] in Hf.
      destruct (union_ok P fuel s a b I) as (s1 & -> & I1); [eapply Nat.le_lt_trans; [|exact Hf]; apply depth_mono; lia|].
      destruct (IH _ _ I1) as (s2 & E & I2); [rewrite app_length; cbn [length]; rewrite <- Nat.add_assoc; exact Hf|].
      exists s2. split; [exact E|]. rewrite <- app_assoc in I2. exact I2.
    + destruct (findSet_ok _ fuel s a (proj1 (proj1 I))) as (s1 & r & -> & _ & HS); [eapply Nat.le_lt_trans; [|exact Hf]; apply depth_mono; lia|].
      apply IH; [eapply Inv_sim; eassumption|exact Hf].
    + destruct (same_ok P fuel s a b I) as (s1 & r & -> & I1 & _); [eapply Nat.le_lt_trans; [|exact Hf]; apply depth_mono; lia|]. apply IH; assumption.
Qed.

(** ** statements *)
Lemma history_returns h fuel : depth (length (merged h)) < fuel -> exists s, history fuel [] h = Some s.
Proof. intros H. destruct (history_ok fuel h [] [] Inv_nil) as (s & E & _); [exact H|eauto]. Qed.

Lemma history_inv h fuel s : depth (length (merged h)) < fuel -> history fuel [] h = Some s -> Inv (merged h) s.
Proof.
  intros H E. destruct (history_ok fuel h [] [] Inv_nil) as (s' & E' & I); [exact H|]. cbn in I. congruence.
Qed.

Lemma same_set_correct h fuel s a b : depth (length (merged h)) < fuel -> history fuel [] h = Some s ->
  exists s' r, inSameSet fuel s a b = Some (s', r) /\ (r = true <-> connected (merged h) a b).
Proof.
  intros Hf E. destruct (same_ok _ fuel s a b (history_inv _ _ _ Hf E) Hf) as (s' & r & H1 & _ & H2). eauto.
Qed.
Lemma find_correct h fuel s : depth (length (merged h)) < fuel -> history fuel [] h = Some s ->
  forall a, exists s' r, findSet fuel s a = Some (s', r) /\ connected (merged h) a r /\
    (forall b s'' q, connected (merged h) a b -> findSet fuel s b = Some (s'', q) -> q = r) /\
    (forall b s'' q, findSet fuel s' b = Some (s'', q) -> (q = r <-> connected (merged h) a b)).
Proof.
  intros Hf E a. pose proof (history_inv _ _ _ Hf E) as I. pose proof I as ((G & Z) & A & B).
  destruct (findSet_ok _ fuel s a G Hf) as (s1 & r & -> & R1 & HS1).
  exists s1, r. split; [reflexivity|].
  assert (Rr : Rep s r r).
  { unfold Rep in R1. destruct (sfind a s) as [e|] eqn:Ea.
    - destruct (root_is_root _ _ _ R1) as (k & Hk). unfold Rep. rewrite Hk. eapply root_here. exact Hk.
    - subst. unfold Rep. rewrite Ea. reflexivity. }
  split; [apply (B a r r r R1 Rr); reflexivity|]. split.
  - intros b s'' q Hc Eq. destruct (findSet_ok _ fuel s b G Hf) as (s2 & q' & E2 & R2 & _).
    assert (q' = q) by congruence. subst. symmetry. apply (B a b r q R1 R2). exact Hc.
  - intros b s'' q Eq. destruct (findSet_ok _ fuel s1 b (sim_good _ _ _ HS1) Hf) as (s2 & q' & E2 & R2 & _).
    assert (q' = q) by congruence. subst. apply (sim_rep _ _ _ _ _ G HS1) in R2. rewrite <- (B a b r q R1 R2). split; congruence.
Qed.
Lemma items_correct h fuel s : depth (length (merged h)) < fuel -> history fuel [] h = Some s ->
  StronglySorted lt (items s) /\ forall a, In a (items s) <-> exists b, b <> a /\ connected (merged h) a b.
Proof.
  intros Hf E. pose proof (history_inv _ _ _ Hf E) as (((S & _) & _) & A & B). split.
  - unfold ksorted in S. unfold items. clear -S. induction S; constructor; auto.
    eapply Forall_impl; [|eassumption]. intros x Hx. apply Nat.ltb_lt. exact Hx.
  - intros a. rewrite <- A. apply (in_keys _ ST).
Qed.
Lemma findSet_items h fuel s a s' r : depth (length (merged h)) < fuel -> history fuel [] h = Some s ->
  findSet fuel s a = Some (s', r) -> items s' = items s.
Proof.
  intros Hf E F. pose proof (history_inv _ _ _ Hf E) as ((G & Z) & A & B).
  destruct (findSet_ok _ fuel s a G Hf) as (s1 & r1 & E1 & _ & HS). assert (s1 = s') by congruence. subst.
  apply HS.
Qed.

(** ** groupMerges *)
Lemma unionAll_history fuel : forall pairs s,
  unionAll fuel s pairs = history fuel s (map (fun p => Union (fst p) (snd p)) pairs).
Proof.
  induction pairs as [|(a, b) r IH]; intros s; [reflexivity|]. cbn.
  destruct (unionSets fuel s a b); [apply IH|reflexivity].
Qed.
Lemma merged_unions pairs : merged (map (fun p => Union (fst p) (snd p)) pairs) = pairs.
Proof. induction pairs as [|(a, b) r IH]; [reflexivity|]. cbn. f_equal. exact IH. Qed.

Definition members (rep : nat -> nat) (l : list nat) (r : nat) := filter (fun x => rep x =? r) l.
Lemma members_app rep l x r : members rep (l ++ [x]) r = members rep l r ++ (if rep x =? r then [x] else []).
Proof. unfold members. rewrite filter_app. cbn. destruct (rep x =? r); reflexivity. Qed.

Lemma groupLoop_ok P fuel s0 rep : Inv P s0 -> depth (length P) < fuel -> (forall x, Rep s0 x (rep x)) ->
  forall todo s done rs mg, sim (depth (length P)) s0 s -> NoDup rs ->
  (forall r, In r rs <-> exists x, In x done /\ rep x = r) ->
  (forall r i, mfind Nat.ltb r mg = Some i <-> nth_error rs i = Some r) ->
  exists rs', groupLoop fuel s todo (map (members rep done) rs) mg = Some (map (members rep (done ++ todo)) rs') /\
    NoDup rs' /\ (forall r, In r rs' <-> exists x, In x (done ++ todo) /\ rep x = r).
Proof.
  intros I Hf HR. pose proof I as ((G & _) & _).
  induction todo as [|e todo IH]; intros s done rs mg HS ND Hrs Hmg.
  - exists rs. cbn. rewrite app_nil_r. auto.
  - cbn [groupLoop].
    destruct (findSet_ok _ fuel s e (sim_good _ _ _ HS) Hf) as (s' & r & -> & Hr & HS').
    apply (sim_rep _ _ _ _ _ G HS) in Hr. assert (r = rep e) by (eapply rep_fun; [exact Hr|apply HR]). subst r.
    assert (HS'' := sim_trans _ _ _ _ HS HS').
    replace (done ++ e :: todo) with ((done ++ [e]) ++ todo) by (rewrite <- app_assoc; reflexivity).
    destruct (mfind Nat.ltb (rep e) mg) as [i|] eqn:E.
    + apply Hmg in E.
      assert (Hi : i < length rs) by (apply nth_error_Some; congruence).
      rewrite nth_error_map, E. cbn [option_map].
      destruct (write_ok (map (members rep done) rs) i (members rep done (rep e) ++ [e])) as (v & -> & Lv & Nv);
        [rewrite map_length; exact Hi|].
      replace v with (map (members rep (done ++ [e])) rs).
      * apply IH; [exact HS''|exact ND| |exact Hmg].
        intros r. rewrite Hrs. split; intros (x & Hx & Hxr).
        -- exists x. split; [apply in_or_app; left; exact Hx|exact Hxr].
        -- apply in_app_or in Hx as [Hx|[<-|[]]]; [eauto|]. apply Hrs. subst r. eapply nth_error_In, E.
      * apply nth_error_ext_le; [rewrite Lv, !map_length; reflexivity|]. intros j Hj. rewrite map_length in Hj.
        rewrite Nv, !nth_error_map. destruct (Nat.eqb_spec j i) as [->|Hji].
        -- rewrite E. cbn. rewrite members_app, Nat.eqb_refl. reflexivity.
        -- destruct (nth_error rs j) as [q|] eqn:Eq; [|reflexivity]. cbn. rewrite members_app.
           destruct (Nat.eqb_spec (rep e) q) as [Hq|]; [|rewrite app_nil_r; reflexivity].
           exfalso. apply Hji. apply (proj1 (NoDup_nth_error rs) ND); [exact Hj|congruence].
    + assert (Hnew : ~ In (rep e) rs).
      { intros Hin. apply In_nth_error in Hin as (i & Hi). apply Hmg in Hi. congruence. }
      replace (map (members rep done) rs ++ [[e]]) with (map (members rep (done ++ [e])) (rs ++ [rep e])).
      * apply IH; [exact HS''| | |].
        -- (rewrite <- (rev_involutive (rs ++ [rep e])); apply NoDup_rev; rewrite rev_app_distr; cbn;
             constructor; [rewrite <- in_rev; exact Hnew|apply NoDup_rev; exact ND]).
        -- intros r. rewrite in_app_iff, Hrs. split.
           ++ intros [(x & Hx & Hxr)|[<-|[]]]; [exists x|exists e]; (split; [apply in_or_app; cbn; tauto|assumption || reflexivity]).
           ++ intros (x & Hx & Hxr). apply in_app_or in Hx as [Hx|[<-|[]]]; [left; eauto|right; left; exact Hxr].
        -- intros r i. rewrite map_length.
           destruct (Nat.eq_dec (rep e) r) as [<-|Hne].
           ++ rewrite (mfind_put_same _ ST). split.
              ** intros H. injection H as <-. rewrite nth_error_app2, Nat.sub_diag by lia. reflexivity.
              ** intros H. destruct (Nat.lt_trichotomy i (length rs)) as [Hlt|[->|Hgt]]; [|reflexivity|].
                 --- rewrite nth_error_app1 in H by exact Hlt. exfalso. apply Hnew. eapply nth_error_In, H.
                 --- assert (nth_error (rs ++ [rep e]) i = None) as F; [|congruence].
                     apply nth_error_None. rewrite app_length. cbn. lia.
           ++ rewrite (mfind_put_other _ ST) by exact Hne. rewrite Hmg. split; intros H.
              ** rewrite nth_error_app1; [exact H|]. apply nth_error_Some. congruence.
              ** destruct (Nat.lt_trichotomy i (length rs)) as [Hlt|[->|Hgt]].
                 --- rewrite nth_error_app1 in H by exact Hlt. exact H.
                 --- rewrite nth_error_app2, Nat.sub_diag in H by lia. cbn in H. congruence.
                 --- assert (nth_error (rs ++ [rep e]) i = None) as F; [|congruence].
                     apply nth_error_None. rewrite app_length. cbn. lia.
      * rewrite map_app. f_equal.
        -- apply map_ext_in. intros q Hq. rewrite members_app. destruct (Nat.eqb_spec (rep e) q) as [<-|]; [contradiction|apply app_nil_r].
        -- cbn. rewrite members_app, Nat.eqb_refl.
           replace (members rep done (rep e)) with (@nil nat); [reflexivity|].
           destruct (members rep done (rep e)) as [|z zs] eqn:Ez; [reflexivity|]. exfalso. apply Hnew, Hrs.
           assert (Hz : In z (members rep done (rep e))) by (rewrite Ez; left; reflexivity).
           apply filter_In in Hz as (Hz & Hzr). apply Nat.eqb_eq in Hzr. eauto.
Qed.

Lemma nodup_concat_members rep l rs : NoDup l -> NoDup rs -> NoDup (List.concat (map (members rep l) rs)).
Proof.
  intros Hl. induction rs as [|r rs IH]; intros H; cbn; [constructor|]. inversion H; subst.
  assert (Hd : forall x, In x (members rep l r) -> ~ In x (List.concat (map (members rep l) rs))).
  { intros x Hx Hc. apply in_concat in Hc as (g & Hg & Hxg). apply in_map_iff in Hg as (q & <- & Hq).
    apply filter_In in Hx as (_ & Hx). apply filter_In in Hxg as (_ & Hxg). apply Nat.eqb_eq in Hx, Hxg. congruence. }
  assert (Hn : NoDup (members rep l r)) by (apply NoDup_filter; exact Hl).
  specialize (IH H3). revert Hd Hn. generalize (members rep l r). intros m. induction m as [|x m IHm]; cbn; intros Hd Hn; [exact IH|].
  inversion Hn; subst. constructor.
  - rewrite in_app_iff. intros [Hx|Hx]; [contradiction|]. eapply Hd; [left; reflexivity|exact Hx].
  - apply IHm; [intros y Hy; apply Hd; right; exact Hy|assumption].
Qed.

Lemma sorted_filter f l : StronglySorted lt l -> StronglySorted lt (filter f l).
Proof.
  induction 1 as [|x l H IH HF]; cbn; [constructor|]. destruct (f x); [|exact IH]. constructor; [exact IH|].
  apply Forall_forall. intros y Hy. apply filter_In in Hy as (Hy & _). rewrite Forall_forall in HF. apply HF, Hy.
Qed.

Lemma groupMerges_ok pairs fuel : depth (length pairs) < fuel ->
  exists gs, groupMerges fuel pairs = Some gs /\ NoDup (List.concat gs) /\
    (forall g, In g gs -> 2 <= length g /\ StronglySorted lt g) /\
    (forall a b, a <> b -> ((exists g, In g gs /\ In a g /\ In b g) <-> connected pairs a b)).
Proof.
  intros Hf. unfold groupMerges. rewrite unionAll_history.
  set (h := map (fun p => Union (fst p) (snd p)) pairs).
  assert (Hm : merged h = pairs) by apply merged_unions.
  destruct (history_returns h fuel) as (s & E); [rewrite Hm; exact Hf|]. rewrite E.
  assert (I : Inv pairs s) by (rewrite <- Hm; eapply history_inv; [rewrite Hm; exact Hf|exact E]).
  destruct (items_correct h fuel s) as (SI & II); [rewrite Hm; exact Hf|exact E|]. rewrite Hm in II.
  pose proof I as ((G & Z) & A & B).
  set (rep := fun x => match findSet fuel s x with Some (_, r) => r | None => x end).
  assert (HR : forall x, Rep s x (rep x)).
  { intros x. unfold rep. destruct (findSet_ok _ fuel s x G Hf) as (s' & r & -> & Hr & _). exact Hr. }
  destruct (groupLoop_ok pairs fuel s rep I Hf HR (items s) s [] [] []) as (rs & Eg & ND & Hrs).
  - apply sim_refl, G.
  - constructor.
  - intros r. split; [intros []|]. intros (x & [] & _).
  - intros r i. split; [discriminate|]. destruct i; discriminate.
  - cbn [map app] in Eg, Hrs. exists (map (members rep (items s)) rs). split; [exact Eg|].
    assert (NDi : NoDup (items s)).
    { clear -SI. induction SI as [|x l H IH HF]; constructor; [|exact IH]. intros Hx. rewrite Forall_forall in HF. specialize (HF _ Hx). lia. }
    split; [apply nodup_concat_members; assumption|]. split.
    + intros g Hg. apply in_map_iff in Hg as (r & <- & Hr). split; [|apply sorted_filter, SI].
      apply Hrs in Hr as (x & Hx & Hxr). apply II in Hx as (y & Hyx & Hc).
      assert (Hmx : In x (members rep (items s) r)).
      { apply filter_In. split; [apply II; eauto|apply Nat.eqb_eq, Hxr]. }
      assert (Hmy : In y (members rep (items s) r)).
      { apply filter_In. split; [apply II; exists x; split; [congruence|apply conn_sym, Hc]|].
        apply Nat.eqb_eq. rewrite <- Hxr. symmetry. apply (B x y _ _ (HR x) (HR y)), Hc. }
      destruct (members rep (items s) r) as [|u [|v m]]; cbn in *; [contradiction| |lia].
      destruct Hmx as [->|[]], Hmy as [->|[]]. congruence.
    + intros a b Hab. split.
      * intros (g & Hg & Ha & Hb). apply in_map_iff in Hg as (r & <- & Hr).
        apply filter_In in Ha as (_ & Ha). apply filter_In in Hb as (_ & Hb). apply Nat.eqb_eq in Ha, Hb.
        apply (B a b _ _ (HR a) (HR b)). congruence.
      * intros Hc. exists (members rep (items s) (rep a)).
        assert (Hia : In a (items s)) by (apply II; exists b; split; [congruence|exact Hc]).
        assert (Hib : In b (items s)) by (apply II; exists a; split; [congruence|apply conn_sym, Hc]).
        split; [apply in_map, Hrs; eauto|]. split; apply filter_In; (split; [assumption|]); apply Nat.eqb_eq; [reflexivity|].
        symmetry. apply (B a b _ _ (HR a) (HR b)), Hc.
Qed.
