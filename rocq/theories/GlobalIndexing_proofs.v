From Coq Require Import List Arith ZArith Bool Lia Permutation Sorted FinFun.
From Verif Require Import Loop_model Loop_proofs StdMap_model StdMap_proofs GlobalIndexing_model GlobalIndexing_spec.
Import ListNotations.

(** * Prefix sums over a list of weighted items *)
Section Off.
Context {T : Type} (eqd : forall a b : T, {a = b} + {a <> b}) (w : T -> nat).
Fixpoint tot (l : list T) : nat := match l with [] => 0 | t :: r => w t + tot r end.
Fixpoint off (l : list T) (t : T) : nat :=
  match l with [] => 0 | a :: r => if eqd a t then 0 else w a + off r t end.
Lemma tot_app a b : tot (a ++ b) = tot a + tot b.
Proof. induction a as [|x a IH]; cbn; [reflexivity|]. rewrite IH. lia. Qed.
Lemma off_app_l a b t : In t a -> off (a ++ b) t = off a t.
Proof.
  induction a as [|x a IH]; cbn; [intros []|]. intros H. destruct (eqd x t); [reflexivity|].
  rewrite IH; [reflexivity|]. destruct H; [contradiction|assumption].
Qed.
Lemma off_app_r a b t : ~ In t a -> off (a ++ b) t = tot a + off b t.
Proof.
  induction a as [|x a IH]; cbn; [reflexivity|]. intros H. destruct (eqd x t); [exfalso; apply H; left; assumption|].
  rewrite IH; [lia|]. intros Hi. apply H. right. exact Hi.
Qed.
Lemma off_bound l t : In t l -> off l t + w t <= tot l.
Proof.
  induction l as [|x l IH]; cbn; [intros []|]. intros H. destruct (eqd x t) as [->|]; [lia|].
  destruct H; [contradiction|]. specialize (IH H). lia.
Qed.
Lemma off_inj l t t' i j : In t l -> In t' l -> i < w t -> j < w t' -> off l t + i = off l t' + j -> t = t' /\ i = j.
Proof.
  induction l as [|x l IH]; cbn; [intros []|]. intros H H' Hi Hj E.
  destruct (eqd x t) as [E1|N], (eqd x t') as [E2|N'].
  - split; [congruence|lia].
  - subst. lia.
  - subst. lia.
  - destruct H; [contradiction|]. destruct H'; [contradiction|]. apply IH; try assumption. lia.
Qed.
Lemma off_surj l g : NoDup l -> g < tot l -> exists t i, In t l /\ i < w t /\ off l t + i = g.
Proof.
  intros ND; revert g; induction ND as [|x l Hx ND IH]; cbn; intros g H; [lia|].
  destruct (Nat.lt_ge_cases g (w x)) as [L|L].
  - exists x, g. split; [left; reflexivity|]. split; [exact L|]. destruct (eqd x x); [reflexivity|contradiction].
  - destruct (IH (g - w x) ltac:(lia)) as (t & i & Ht & Hi & E). exists t, i.
    split; [right; exact Ht|]. split; [exact Hi|]. destruct (eqd x t) as [->|]; [contradiction|]. lia.
Qed.
Lemma tot_flat_map {B} (f : B -> list T) bs : tot (flat_map f bs) = fold_right Nat.add 0 (map (fun b => tot (f b)) bs).
Proof. induction bs as [|b bs IH]; cbn; [reflexivity|]. rewrite tot_app, IH. reflexivity. Qed.
End Off.

Definition item := (Kind * nat * nat)%type.
Lemma kind_eq_dec (a b : Kind) : {a = b} + {a <> b}.
Proof. decide equality. Defined.
Lemma item_eq_dec (a b : item) : {a = b} + {a <> b}.
Proof. decide equality; [apply Nat.eq_dec|]. decide equality; [apply Nat.eq_dec|apply kind_eq_dec]. Defined.
Lemma kind_eqb_spec a b : reflect (a = b) (kind_eqb a b).
Proof. destruct a, b; constructor; congruence. Qed.

Section M.
Variable m : Mesh.
Definition w (it : item) : nat := localNumberOfBasisFunctions m (fst (fst it)) (snd (fst it)) (snd it).
Notation tot := (tot w).
Notation off := (off item_eq_dec w).

Definition steps (l : list item) (s : (nat -> Offsets) * nat) : (nat -> Offsets) * nat :=
  fold_left (fun s (it : item) => assign m (fst (fst it)) (snd (fst it)) s (snd it)) l s.

Lemma steps_snd l : forall s, snd (steps l s) = snd s + tot l.
Proof.
  induction l as [|it l IH]; intros s; [cbn; lia|].
  change (steps (it :: l) s) with (steps l (assign m (fst (fst it)) (snd (fst it)) s (snd it))). rewrite IH.
  cbn [GlobalIndexing_proofs.tot assign snd]. change (w it) with (localNumberOfBasisFunctions m (fst (fst it)) (snd (fst it)) (snd it)). lia.
Qed.
Lemma steps_meta l : forall s u, let o := fst (steps l s) u in let o0 := fst s u in
  includedInIndex_ o = includedInIndex_ o0.
Proof.
  induction l as [|((k, x), v) l IH]; intros s u; [reflexivity|].
  cbn -[assign]. change (fold_left _ l ?s0) with (steps l s0). cbn zeta in IH. rewrite IH. cbn. unfold upd.
  destruct (Nat.eqb_spec u v) as [->|]; reflexivity.
Qed.
Lemma steps_table l : forall s k x u, NoDup l ->
  mfind Nat.ltb x (table (fst (steps l s) u) k) =
  if in_dec item_eq_dec (k, x, u) l then Some (snd s + off l (k, x, u))
  else mfind Nat.ltb x (table (fst s u) k).
Proof.
  induction l as [|((k0, x0), u0) l IH]; intros s k x u ND; [reflexivity|].
  inversion ND as [|a b Hn ND' E]; subst.
  change (steps ((k0, x0, u0) :: l) s) with (steps l (assign m k0 x0 s u0)). rewrite IH by exact ND'.
  destruct (in_dec item_eq_dec (k, x, u) l) as [Hi|Hi].
  - match goal with |- _ = (if ?d then _ else _) => destruct d as [|H] end; [|exfalso; apply H; right; exact Hi].
    cbn [GlobalIndexing_proofs.off]. destruct (item_eq_dec (k0, x0, u0) (k, x, u)) as [E|]; [rewrite <- E in Hi; contradiction|].
    cbn [assign snd]. change (w (k0, x0, u0)) with (localNumberOfBasisFunctions m k0 x0 u0). f_equal. lia.
  - match goal with |- _ = (if ?d then _ else _) => destruct d as [[E|H]|H] end.
    + inversion E; subst. cbn [GlobalIndexing_proofs.off]. destruct (item_eq_dec (k, x, u) (k, x, u)); [|congruence].
      cbn. unfold upd. rewrite Nat.eqb_refl. cbn. destruct (kind_eqb_spec k k); [|congruence].
      rewrite (mfind_put_same _ nat_strict_total), Nat.add_0_r. reflexivity.
    + contradiction.
    + cbn. unfold upd. destruct (Nat.eqb_spec u u0) as [->|]; [|reflexivity]. cbn.
      destruct (kind_eqb_spec k k0) as [->|]; [|reflexivity].
      apply (mfind_put_other _ nat_strict_total). intros ->. apply H. left. reflexivity.
Qed.
Lemma steps_other l : forall s u, (forall it, In it l -> snd it <> u) -> fst (steps l s) u = fst s u.
Proof.
  induction l as [|((k0, x0), u0) l IH]; intros s u H; [reflexivity|].
  change (steps ((k0, x0, u0) :: l) s) with (steps l (assign m k0 x0 s u0)).
  rewrite IH by (intros it Hi; apply H; right; exact Hi). cbn. unfold upd.
  destruct (Nat.eqb_spec u u0) as [->|]; [|reflexivity]. exfalso. apply (H (k0, x0, u0)); [left|]; reflexivity.
Qed.

Lemma setOffset_find g l c o k x : mfind Nat.ltb x (table (setOffset g l c o) k) =
  option_map (fun i => i + g) (mfind Nat.ltb x (table o k)).
Proof.
  cbn. destruct (Nat.eqb_spec g 0) as [->|].
  - destruct (mfind Nat.ltb x (table o k)); cbn; [f_equal; lia|reflexivity].
  - induction (table o k) as [|(a, b) t IH]; [reflexivity|]. cbn [map mfind fst snd].
    destruct (x <? a); [exact IH|]. destruct (a <? x); [exact IH|]. reflexivity.
Qed.

(** * The objects a process numbers *)
Definition kindObjs (p e : nat) (k : Kind) : list object :=
  map (pair k) (filter (isFirst m p k e) (objectsOf m k e)).
Definition elemObjs (p e : nat) : list object :=
  (KElement, e) :: kindObjs p e KFace ++ kindObjs p e KEdge ++
  (if 1 <? dimension m then kindObjs p e KNode else []).
Definition objs (p : nat) : list object := flat_map (elemObjs p) (localElements m p).
Definition withU (us : list nat) (os : list object) : list item :=
  flat_map (fun o : object => map (fun u => (o, u)) us) os.
Definition onU (u : nat) (os : list object) : list item := map (fun o : object => (o, u)) os.

Section Visit.
Variable visit : Kind -> nat -> (nat -> Offsets) * nat -> (nat -> Offsets) * nat.
Variable vis : object -> list item.
Hypothesis visit_ok : forall k x s, visit k x s = steps (vis (k, x)) s.
Lemma steps_app a b s : steps (a ++ b) s = steps b (steps a s).
Proof. unfold steps. apply fold_left_app. Qed.
Lemma numberKind_ok p e s k : numberKind m p visit e s k = steps (flat_map vis (kindObjs p e k)) s.
Proof.
  unfold numberKind, kindObjs. revert s. induction (objectsOf m k e) as [|x l IH]; intros s; [reflexivity|].
  cbn. destruct (isFirst m p k e x); cbn; [|apply IH]. rewrite steps_app, IH, visit_ok. reflexivity.
Qed.
Lemma numberElement_ok p s e : numberElement m p visit s e = steps (flat_map vis (elemObjs p e)) s.
Proof.
  unfold numberElement, elemObjs. cbn [flat_map]. rewrite !flat_map_app, !steps_app.
  destruct (1 <? dimension m); rewrite !numberKind_ok, visit_ok; reflexivity.
Qed.
Lemma numberAll_ok p es : forall s, fold_left (numberElement m p visit) es s = steps (flat_map vis (flat_map (elemObjs p) es)) s.
Proof.
  induction es as [|e es IH]; intros s; [reflexivity|]. cbn [fold_left flat_map].
  rewrite flat_map_app, steps_app, IH, numberElement_ok. reflexivity.
Qed.
End Visit.

Lemma flat_map_single {A B} (f : A -> B) l : flat_map (fun x => [f x]) l = map f l.
Proof. induction l as [|x l IH]; cbn; [reflexivity|]. rewrite IH. reflexivity. Qed.
Lemma localUnblocked_ok p us o : localUnblocked m p us o = steps (withU us (objs p)) (o, 0).
Proof.
  unfold localUnblocked, withU. rewrite (numberAll_ok _ (fun ob : object => map (fun u => (ob, u)) us)); [reflexivity|].
  intros k x s. revert s. induction us as [|u us IH]; intros s; [reflexivity|]. cbn -[assign]. rewrite IH. reflexivity.
Qed.
Lemma localBlocked_one p u o : fold_left (numberElement m p (fun k x s => assign m k x s u)) (localElements m p) (o, 0)
  = steps (onU u (objs p)) (o, 0).
Proof.
  rewrite (numberAll_ok _ (fun ob : object => [(ob, u)])).
  - unfold onU, objs. rewrite flat_map_single. reflexivity.
  - intros k x s. reflexivity.
Qed.

Lemma localBlocked_ok p us : NoDup us -> forall o, NoDup (objs p) ->
  (forall k u, table (o u) k = []) ->
  let r := localBlocked m p us o in
  snd r = map (fun u => tot (onU u (objs p))) us /\
  (forall u, includedInIndex_ (fst r u) = includedInIndex_ (o u)) /\
  (forall u, ~ In u us -> fst r u = o u) /\
  (forall k x u, In u us -> In (k, x) (objs p) ->
     mfind Nat.ltb x (table (fst r u) k) = Some (off (onU u (objs p)) (k, x, u))) /\
  (forall k x u, In u us -> ~ In (k, x) (objs p) -> mfind Nat.ltb x (table (fst r u) k) = None).
Proof.
  intros NDu. assert (G : forall o, NoDup (objs p) ->
  (forall u, In u us -> forall k, table (o u) k = []) ->
  let r := localBlocked m p us o in
  snd r = map (fun u => tot (onU u (objs p))) us /\
  (forall u, includedInIndex_ (fst r u) = includedInIndex_ (o u)) /\
  (forall u, ~ In u us -> fst r u = o u) /\
  (forall k x u, In u us -> In (k, x) (objs p) ->
     mfind Nat.ltb x (table (fst r u) k) = Some (off (onU u (objs p)) (k, x, u))) /\
  (forall k x u, In u us -> ~ In (k, x) (objs p) -> mfind Nat.ltb x (table (fst r u) k) = None)).
  2:{ intros o ND H. apply G; [exact ND|]. intros u _ k. apply H. }
  induction NDu as [|v us Hv NDu IH]; intros o ND Hemp; cbn zeta.
  - cbn. repeat split; try tauto.
  - cbn [localBlocked fst snd]. rewrite localBlocked_one.
    set (s := steps (onU v (objs p)) (o, 0)).
    assert (Hs : forall u, u <> v -> fst s u = o u).
    { intros u N. unfold s. rewrite steps_other; [reflexivity|]. intros it Hi. unfold onU in Hi.
      apply in_map_iff in Hi. destruct Hi as (ob & <- & _). cbn. congruence. }
    destruct (IH (fst s) ND) as (I1 & I2 & I3 & I4 & I5).
    { intros u Hu k. rewrite Hs by (intros ->; contradiction). apply Hemp. right. exact Hu. }
    assert (ND2 : NoDup (onU v (objs p))).
    { apply Injective_map_NoDup; [|exact ND]. intros a b E. congruence. }
    repeat split.
    + cbn [map]. rewrite I1. f_equal. unfold s. rewrite steps_snd. reflexivity.
    + intros u. rewrite I2. unfold s. apply (steps_meta (onU v (objs p)) (o, 0) u).
    + intros u Hu. rewrite I3 by (intros H; apply Hu; right; exact H). apply Hs. intros ->. apply Hu. left. reflexivity.
    + intros k x u [<-|Hu] Ho; [|apply I4; assumption].
      rewrite I3 by exact Hv. unfold s. rewrite steps_table by exact ND2.
      destruct (in_dec item_eq_dec (k, x, v) (onU v (objs p))) as [|F]; [reflexivity|]. exfalso. apply F.
      unfold onU. apply in_map_iff. exists (k, x). split; [reflexivity|exact Ho].
    + intros k x u [<-|Hu] Ho; [|apply I5; assumption].
      rewrite I3 by exact Hv. unfold s. rewrite steps_table by exact ND2.
      destruct (in_dec item_eq_dec (k, x, v) (onU v (objs p))) as [F|].
      * exfalso. apply Ho. unfold onU in F. apply in_map_iff in F. destruct F as (ob & E & Hin). inversion E; subst. exact Hin.
      * cbn [fst]. rewrite Hemp by (left; reflexivity). reflexivity.
Qed.

(** * Which objects a process numbers *)
Section Valid.
Variable n : nat.
Hypothesis VM : valid_mesh n m.

Lemma filter_all {A} (f : A -> bool) l : (forall x, In x l -> f x = true) -> filter f l = l.
Proof.
  induction l as [|x l IH]; cbn; intros H; [reflexivity|]. rewrite (H x) by (left; reflexivity). f_equal.
  apply IH. intros y Hy. apply H. right. exact Hy.
Qed.
Lemma isFirst_ok k e x : k <> KElement -> In e (elementsOf m k x) ->
  isFirst m (owner m e) k e x = true <-> hd_error (elementsOf m k x) = Some e.
Proof.
  intros Hk He. unfold isFirst, firstElement. rewrite filter_all.
  2:{ intros e' He'. apply (vm_shadow _ _ VM k x e e'); assumption. }
  destruct (hd_error (elementsOf m k x)) as [e'|] eqn:E; [|destruct (elementsOf m k x); [destruct He|discriminate]].
  rewrite Nat.eqb_eq. split; congruence.
Qed.
Lemma in_kindObjs p e k0 k x : In (k, x) (kindObjs p e k0) <-> k = k0 /\ In x (objectsOf m k e) /\ isFirst m p k e x = true.
Proof.
  unfold kindObjs. rewrite in_map_iff. split.
  - intros (y & E & Hy). inversion E; subst. apply filter_In in Hy. tauto.
  - intros (-> & H). exists x. split; [reflexivity|]. apply filter_In. exact H.
Qed.
Lemma in_elemObjs p e k x : In (k, x) (elemObjs p e) <->
  (k = KElement /\ x = e) \/ (k <> KElement /\ carries m k /\ In x (objectsOf m k e) /\ isFirst m p k e x = true).
Proof.
  unfold elemObjs. cbn [In]. rewrite !in_app_iff, !in_kindObjs.
  assert (HN : In (k, x) (if 1 <? dimension m then kindObjs p e KNode else []) <->
     1 < dimension m /\ k = KNode /\ In x (objectsOf m k e) /\ isFirst m p k e x = true).
  { destruct (Nat.ltb_spec 1 (dimension m)); [rewrite in_kindObjs; tauto|]. cbn. lia. }
  rewrite HN. split.
  - intros [E|[(-> & H)|[(-> & H)|(H1 & -> & H)]]].
    + inversion E. left. split; reflexivity.
    + right. cbn. intuition congruence.
    + right. cbn. intuition congruence.
    + right. cbn. intuition congruence.
  - intros [(-> & ->)|(H & C & R)]; [left; reflexivity|]. right. destruct k; cbn in C; tauto.
Qed.
Lemma in_objs p k x : In (k, x) (objs p) <-> mesh_object m k x /\ owned_by m p k x.
Proof.
  unfold objs. rewrite in_flat_map. split.
  - intros (e & He & H). apply (vm_local _ _ VM) in He. destruct He as (He & <-).
    apply in_elemObjs in H. destruct H as [(-> & ->)|(Hk & C & Hx & HF)].
    + split; [split; [exact I|]; exists e; split; [exact He|left; reflexivity]|]. exists e. split; reflexivity.
    + apply (vm_adjacency _ _ VM) in Hx; [|assumption|assumption].
      apply isFirst_ok in HF; [|assumption|assumption].
      assert (A : adjacent m k x = elementsOf m k x) by (destruct k; try reflexivity; congruence).
      split; [split; [exact C|]; exists e; rewrite A; split; assumption|].
      exists e. rewrite A. split; [exact HF|reflexivity].
  - intros ((C & e0 & He0 & Ha) & e & Hh & Ho). exists e.
    destruct (kind_eq_dec k KElement) as [->|Hk].
    + cbn in Hh, Ha. inversion Hh; subst. destruct Ha as [<-|[]]. split.
      * apply (vm_local _ _ VM). split; [exact He0|reflexivity].
      * apply in_elemObjs. left. split; reflexivity.
    + assert (A : adjacent m k x = elementsOf m k x) by (destruct k; try reflexivity; congruence).
      rewrite A in *. assert (Hin : In e (elementsOf m k x)).
      { destruct (elementsOf m k x); [discriminate|]. inversion Hh. left. reflexivity. }
      assert (He : In e (elements m)) by (apply (vm_adjacent_exist _ _ VM) in Hin; assumption).
      split; [apply (vm_local _ _ VM); split; assumption|].
      apply in_elemObjs. right. split; [exact Hk|]. split; [exact C|]. split.
      * apply (vm_adjacency _ _ VM); assumption.
      * rewrite <- Ho. apply isFirst_ok; assumption.
Qed.
Lemma NoDup_app {A} (a b : list A) : NoDup a -> NoDup b -> (forall x, In x a -> In x b -> False) -> NoDup (a ++ b).
Proof.
  induction 1 as [|x a Hx Ha IH]; intros Hb D; cbn; [exact Hb|]. constructor.
  - rewrite in_app_iff. intros [H|H]; [contradiction|]. apply (D x); [left; reflexivity|exact H].
  - apply IH; [exact Hb|]. intros y H1 H2. apply (D y); [right; exact H1|exact H2].
Qed.
Lemma NoDup_flat_map {A B} (f : A -> list B) l : NoDup l -> (forall x, In x l -> NoDup (f x)) ->
  (forall x y z, In x l -> In y l -> In z (f x) -> In z (f y) -> x = y) -> NoDup (flat_map f l).
Proof.
  induction 1 as [|x l Hx Hl IH]; intros H1 H2; cbn; [constructor|]. apply NoDup_app.
  - apply H1. left. reflexivity.
  - apply IH; [intros y Hy; apply H1; right; exact Hy|].
    intros a b z Ha Hb. apply H2; right; assumption.
  - intros z Hz Hf. apply in_flat_map in Hf. destruct Hf as (y & Hy & Hzy).
    assert (x = y) by (apply (H2 x y z); [left; reflexivity|right; exact Hy|exact Hz|exact Hzy]). subst. contradiction.
Qed.
Lemma NoDup_filter {A} (f : A -> bool) l : NoDup l -> NoDup (filter f l).
Proof.
  induction 1 as [|x l Hx Hl IH]; cbn; [constructor|]. destruct (f x); [|exact IH]. constructor; [|exact IH].
  rewrite filter_In. tauto.
Qed.
Lemma kindObjs_nodup p e k : In e (elements m) -> NoDup (kindObjs p e k).
Proof.
  intros He. unfold kindObjs. apply Injective_map_NoDup; [intros a b E; congruence|].
  apply NoDup_filter, (vm_objects_distinct _ _ VM), He.
Qed.
Lemma elemObjs_nodup p e : In e (elements m) -> NoDup (elemObjs p e).
Proof.
  intros He. unfold elemObjs. constructor.
  - rewrite !in_app_iff, !in_kindObjs. destruct (1 <? dimension m); [rewrite in_kindObjs|cbn]; intuition congruence.
  - apply NoDup_app; [apply kindObjs_nodup, He| |].
    + apply NoDup_app; [apply kindObjs_nodup, He| |].
      * destruct (1 <? dimension m); [apply kindObjs_nodup, He|constructor].
      * intros (k, x). rewrite in_kindObjs. destruct (1 <? dimension m); [rewrite in_kindObjs|cbn]; intuition congruence.
    + intros (k, x). rewrite in_app_iff, !in_kindObjs. destruct (1 <? dimension m); [rewrite in_kindObjs|cbn]; intuition congruence.
Qed.
Lemma objs_nodup p : NoDup (objs p).
Proof.
  unfold objs. apply NoDup_flat_map.
  - apply (vm_local_distinct _ _ VM).
  - intros e He. apply elemObjs_nodup. apply (vm_local _ _ VM) in He. tauto.
  - intros e e' (k, x) _ _. rewrite !in_elemObjs. intros [(-> & ->)|(Hk & _ & _ & H1)] [(E & ->)|(Hk' & _ & _ & H2)];
      try congruence.
    unfold isFirst in H1, H2. destruct (firstElement m p k x) as [f|]; [|discriminate].
    apply Nat.eqb_eq in H1, H2. congruence.
Qed.
Lemma owned_unique p q k x : owned_by m p k x -> owned_by m q k x -> p = q.
Proof. intros (e & H & <-) (e' & H' & <-). congruence. Qed.
Lemma owned_exists k x : mesh_object m k x -> exists p, p < n /\ owned_by m p k x.
Proof.
  intros (C & e & He & Ha). destruct (adjacent m k x) as [|f l] eqn:E; [destruct Ha|].
  exists (owner m f). split; [|exists f; rewrite E; split; reflexivity].
  apply (vm_owner _ _ VM). destruct (kind_eq_dec k KElement) as [->|Hk].
  - cbn in E. inversion E; subst. destruct Ha as [<-|[]]. exact He.
  - apply (vm_adjacent_exist _ _ VM k f x Hk). destruct k; cbn in E; try congruence; rewrite E; left; reflexivity.
Qed.
End Valid.

(** * Sums *)
Definition sum (l : list nat) : nat := fold_right Nat.add 0 l.
Lemma partial_sum_nth l : forall acc i, i < length l -> nth_error (partial_sum acc l) i = Some (acc + sum (firstn (S i) l)).
Proof.
  induction l as [|x l IH]; cbn [length]; intros acc i H; [lia|]. destruct i as [|i]; cbn.
  - f_equal. lia.
  - rewrite IH by lia. cbn. f_equal. lia.
Qed.
Lemma gatherOffsets_nth b l i : i <= length l -> nth_error (gatherOffsets b l) i = Some (b + sum (firstn i l)).
Proof. intros H. unfold gatherOffsets. rewrite partial_sum_nth by (cbn; lia). cbn. reflexivity. Qed.
Lemma firstn_map_seq {B} (f : nat -> B) n i : i <= n -> firstn i (map f (seq 0 n)) = map f (seq 0 i).
Proof.
  intros H. replace n with (i + (n - i)) by lia. rewrite seq_app, map_app, firstn_app, map_length, seq_length.
  rewrite firstn_all2 by (rewrite map_length, seq_length; lia). rewrite Nat.sub_diag. cbn. apply app_nil_r.
Qed.
Lemma gather_map b (f : nat -> nat) n i : i <= n -> nth_error (gatherOffsets b (map f (procs n))) i = Some (b + sum (map f (seq 0 i))).
Proof.
  intros H. rewrite gatherOffsets_nth by (unfold procs; rewrite map_length, seq_length; exact H).
  unfold procs. rewrite firstn_map_seq by exact H. reflexivity.
Qed.

Lemma sum_app a b : sum (a ++ b) = sum a + sum b.
Proof. unfold sum. induction a as [|x a IH]; cbn; [reflexivity|]. rewrite IH. lia. Qed.
Lemma upd_same f u o : upd f u o u = o.
Proof. unfold upd. rewrite Nat.eqb_refl. reflexivity. Qed.
Lemma upd_other f u o v : v <> u -> upd f u o v = f v.
Proof. intros H. unfold upd. destruct (Nat.eqb_spec v u); [contradiction|reflexivity]. Qed.

Lemma blockedGlobal_ok n p (cnt : nat -> nat -> nat) (Hp : p < n) us : forall j column base lb N o,
  NoDup us ->
  (forall i u, nth_error us i = Some u -> column (j + i) = map (fun q => cnt q u) (procs n)) ->
  exists o' N', blockedGlobal n p us j column base lb N o = Some (o', N') /\
  N' = (match us with [] => N | _ => base + sum (map (fun u => sum (map (fun q => cnt q u) (procs n))) us) end) /\
  (forall u, ~ In u us -> o' u = o u) /\
  (forall pre u post, us = pre ++ u :: post -> o' u = setOffset
     (base + sum (map (fun v => sum (map (fun q => cnt q v) (procs n))) pre) + sum (map (fun q => cnt q u) (seq 0 p)))
     (lb + sum (map (cnt p) pre)) (cnt p u) (o u)).
Proof.
  induction us as [|u us IH]; intros j column base lb N o ND Hc.
  - exists o, N. repeat split. intros pre u post E. destruct pre; discriminate.
  - inversion ND as [|a b Hu ND' E]; subst. cbn [blockedGlobal].
    pose proof (Hc 0 u eq_refl) as Hj. rewrite Nat.add_0_r in Hj. rewrite Hj.
    rewrite !gather_map by lia.
    assert (Hm : nth_error (map (fun q => cnt q u) (procs n)) p = Some (cnt p u)).
    { unfold procs. apply (nth_error_map_seq (fun q => cnt q u)). exact Hp. }
    rewrite Hm.
    destruct (IH (S j) column (base + sum (map (fun q => cnt q u) (seq 0 n))) (lb + cnt p u)
      (base + sum (map (fun q => cnt q u) (seq 0 n)))
      (upd o u (setOffset (base + sum (map (fun q => cnt q u) (seq 0 p))) lb (cnt p u) (o u))) ND') as (o' & N' & E1 & E2 & E3 & E4).
    { intros i v Hi. replace (S j + i) with (j + S i) by lia. apply Hc. exact Hi. }
    exists o', N'. split; [exact E1|]. split; [|split].
    + rewrite E2. cbn [map]. change (sum (?a :: ?l)) with (a + sum l). unfold procs.
      destruct us as [|v us]; [cbn; lia|]. lia.
    + intros v Hv. rewrite E3 by (intros H; apply Hv; right; exact H). apply upd_other. intros ->. apply Hv. left. reflexivity.
    + intros pre v post E. destruct pre as [|v0 pre]; inversion E; subst.
      * rewrite E3 by exact Hu. rewrite upd_same. cbn. rewrite !Nat.add_0_r. reflexivity.
      * rewrite (E4 pre v post eq_refl). rewrite upd_other by (intros ->; apply Hu; rewrite in_app_iff; right; left; reflexivity).
        cbn [map]. change (sum (?a :: ?l)) with (a + sum l). unfold procs. f_equal; lia.
Qed.
Lemma blockedProcessor_ok (cnt : nat -> nat) start us : forall lo o, NoDup us ->
  exists o', blockedProcessor us (map cnt us) start lo o = Some o' /\
  (forall u, ~ In u us -> o' u = o u) /\
  (forall pre u post, us = pre ++ u :: post -> o' u = setOffset
     (start + (lo + sum (map cnt pre))) (lo + sum (map cnt pre)) (cnt u) (o u)).
Proof.
  induction us as [|u us IH]; intros lo o ND; cbn [blockedProcessor map].
  - exists o. repeat split. intros pre u post E. destruct pre; discriminate.
  - inversion ND as [|a b Hu ND' E]; subst.
    destruct (IH (lo + cnt u) (upd o u (setOffset (start + lo) lo (cnt u) (o u))) ND') as (o' & E1 & E3 & E4).
    exists o'. split; [exact E1|]. split.
    + intros v Hv. rewrite E3 by (intros H; apply Hv; right; exact H). apply upd_other. intros ->. apply Hv. left. reflexivity.
    + intros pre v post E. destruct pre as [|v0 pre]; inversion E; subst.
      * rewrite E3 by exact Hu. rewrite upd_same. cbn. rewrite !Nat.add_0_r. reflexivity.
      * rewrite (E4 pre v post eq_refl). rewrite upd_other by (intros ->; apply Hu; rewrite in_app_iff; right; left; reflexivity).
        cbn [map]. change (sum (?a :: ?l)) with (a + sum l). f_equal; lia.
Qed.
Lemma nth_map_seq {B} (f : nat -> B) d n j : j < n -> nth j (map f (seq 0 n)) d = f j.
Proof.
  intros H. rewrite (nth_indep _ d (f 0)) by (rewrite map_length, seq_length; exact H).
  rewrite (map_nth f). rewrite seq_nth by exact H. reflexivity.
Qed.

(** * What every layout provides *)
Record facts (n : nat) (us : list nat) (r : nat -> GlobalIndexing) (G : list item) (Lp : nat -> list item)
    (D : nat -> nat -> list item) : Prop := {
  fa_G_nodup : NoDup G;
  fa_G : forall k x u, In (k, x, u) G <-> mesh_object m k x /\ In u us;
  fa_L_nodup : forall p, p < n -> NoDup (Lp p);
  fa_L : forall p k x u, p < n -> (In (k, x, u) (Lp p) <-> In (k, x) (objs p) /\ In u us);
  fa_N : forall p, p < n -> globalNumberOfBasisFunctions_ (r p) = tot G;
  fa_local : forall p, p < n -> localNumberOfBasisFunctions_ (r p) = tot (Lp p);
  fa_total : forall p, p < n -> totalNumberOfUnknowns_ (r p) = numberOfUnknowns m;
  fa_us : forall p, p < n -> includedUnknowns_ (r p) = us;
  fa_inc : forall p u, p < n -> u < numberOfUnknowns m -> (includedInIndex_ (offsets_ (r p) u) = true <-> In u us);
  fa_range : forall u, In u us -> u < numberOfUnknowns m;
  fa_blockG : forall p u, p < n -> In u us -> exists pre post, G = pre ++ D p u ++ post /\ tot pre = blockStart_ (offsets_ (r p) u);
  fa_blockL : forall p u, p < n -> In u us -> exists pre post, Lp p = pre ++ D p u ++ post /\ tot pre = localOffset_ (offsets_ (r p) u);
  fa_size : forall p u, p < n -> In u us -> numberOfBasisFunctionsInBlock_ (offsets_ (r p) u) = tot (D p u);
  fa_D : forall p k x u, p < n -> In u us -> In (k, x) (objs p) -> In (k, x, u) (D p u);
  fa_find : forall p k x u, p < n -> In u us ->
    mfind Nat.ltb x (table (offsets_ (r p) u) k) =
    if in_dec item_eq_dec (k, x, u) (D p u) then Some (blockStart_ (offsets_ (r p) u) + off (D p u) (k, x, u)) else None;
  fa_order : forall p u v, p < n -> In u us -> In v us ->
    (D p u = D p v /\ blockStart_ (offsets_ (r p) u) = blockStart_ (offsets_ (r p) v) /\
     localOffset_ (offsets_ (r p) u) = localOffset_ (offsets_ (r p) v)) \/
    (blockStart_ (offsets_ (r p) u) + tot (D p u) <= blockStart_ (offsets_ (r p) v) /\
     localOffset_ (offsets_ (r p) u) + tot (D p u) <= localOffset_ (offsets_ (r p) v)) \/
    (blockStart_ (offsets_ (r p) v) + tot (D p v) <= blockStart_ (offsets_ (r p) u) /\
     localOffset_ (offsets_ (r p) v) + tot (D p v) <= localOffset_ (offsets_ (r p) u))
}.

Section Layouts.
Variables (n : nat) (us : list nat) (o0 : nat -> Offsets).
Hypothesis VM : valid_mesh n m.
Hypothesis NDus : NoDup us.
Hypothesis o0_empty : forall k u, table (o0 u) k = [].
Hypothesis o0_inc : forall u, u < numberOfUnknowns m -> (includedInIndex_ (o0 u) = true <-> In u us).
Hypothesis us_range : forall u, In u us -> u < numberOfUnknowns m.

Definition Lu (p u : nat) : list item := onU u (objs p).
Lemma in_Lu p u k x v : In (k, x, v) (Lu p u) <-> In (k, x) (objs p) /\ v = u.
Proof.
  unfold Lu, onU. rewrite in_map_iff. split.
  - intros (ob & E & H). inversion E; subst. tauto.
  - intros (H & ->). exists (k, x). tauto.
Qed.
Lemma Lu_nodup p u : NoDup (Lu p u).
Proof. apply Injective_map_NoDup; [intros a b E; congruence|]. eapply objs_nodup; eassumption. Qed.
Lemma in_withU k x u os : In (k, x, u) (withU us os) <-> In (k, x) os /\ In u us.
Proof.
  unfold withU. rewrite in_flat_map. split.
  - intros (ob & H & Hi). apply in_map_iff in Hi. destruct Hi as (v & E & Hv). inversion E; subst. tauto.
  - intros (H & Hu). exists (k, x). split; [exact H|]. apply in_map_iff. exists u. tauto.
Qed.
Lemma withU_nodup os : NoDup os -> NoDup (withU us os).
Proof.
  intros H. unfold withU. apply NoDup_flat_map; [exact H| |].
  - intros ob _. apply Injective_map_NoDup; [intros a b E; congruence|exact NDus].
  - intros a b z _ _ H1 H2. apply in_map_iff in H1, H2. destruct H1 as (v & <- & _), H2 as (v' & E & _). congruence.
Qed.
Lemma in_objs_disjoint p q k x : In (k, x) (objs p) -> In (k, x) (objs q) -> p = q.
Proof.
  intros H1 H2. apply (in_objs n VM) in H1, H2. apply (owned_unique p q k x); tauto.
Qed.
Lemma all_objs k x : (exists p, p < n /\ In (k, x) (objs p)) <-> mesh_object m k x.
Proof.
  split.
  - intros (p & _ & H). apply (in_objs n VM) in H. tauto.
  - intros H. destruct (owned_exists n VM k x H) as (p & Hp & Ho). exists p. split; [exact Hp|]. apply (in_objs n VM). tauto.
Qed.
Lemma split_seq p : p < n -> seq 0 n = seq 0 p ++ p :: seq (S p) (n - S p).
Proof.
  intros H. replace n with (p + S (n - S p)) at 1 by lia. rewrite seq_app. reflexivity.
Qed.

(** the layouts in which each process has one contiguous range *)
Lemma facts_contiguous r Lp D :
  (forall p, p < n -> NoDup (Lp p)) ->
  (forall p k x u, p < n -> (In (k, x, u) (Lp p) <-> In (k, x) (objs p) /\ In u us)) ->
  NoDup (flat_map Lp (seq 0 n)) /\
  (forall k x u, In (k, x, u) (flat_map Lp (seq 0 n)) <-> mesh_object m k x /\ In u us) /\
  (forall p u, p < n -> (exists pre post, Lp p = pre ++ D p u ++ post /\ tot pre = localOffset_ (offsets_ (r p) u)) ->
     blockStart_ (offsets_ (r p) u) = sum (map (fun q => tot (Lp q)) (seq 0 p)) + localOffset_ (offsets_ (r p) u) ->
     exists pre post, flat_map Lp (seq 0 n) = pre ++ D p u ++ post /\ tot pre = blockStart_ (offsets_ (r p) u)).
Proof.
  intros H1 H2. split; [|split].
  - apply NoDup_flat_map; [apply seq_NoDup|intros p Hp; apply H1; apply in_seq in Hp; lia|].
    intros p q ((k, x), u) Hp Hq Hx Hy. apply in_seq in Hp, Hq.
    apply H2 in Hx; [|lia]. apply H2 in Hy; [|lia]. apply (in_objs_disjoint p q k x); tauto.
  - intros k x u. rewrite in_flat_map, <- all_objs. split.
    + intros (p & Hp & H). apply in_seq in Hp. apply H2 in H; [|lia]. split; [|tauto]. exists p. split; [lia|tauto].
    + intros ((p & Hp & H) & Hu). exists p. split; [apply in_seq; lia|]. apply H2; tauto.
  - intros p u Hp (pre & post & E & T) Hb.
    exists (flat_map Lp (seq 0 p) ++ pre), (post ++ flat_map Lp (seq (S p) (n - S p))). split.
    + rewrite (split_seq p Hp) at 1. rewrite flat_map_app. cbn [flat_map]. rewrite E, <- !app_assoc. reflexivity.
    + rewrite tot_app, tot_flat_map, T, Hb. reflexivity.
Qed.

Lemma unblocked_facts : exists r, (forall p, p < n -> constructUnblocked m n p (numberOfUnknowns m) us o0 = Some (r p)) /\
  let Lp := fun p => withU us (objs p) in
  facts n us r (flat_map Lp (seq 0 n)) Lp (fun p _ => Lp p) /\
  forall p u, p < n -> In u us -> localOffset_ (offsets_ (r p) u) = 0 /\
    blockStart_ (offsets_ (r p) u) = sum (map (fun q => tot (Lp q)) (seq 0 p)).
Proof.
  set (Lp := fun p => withU us (objs p)).
  set (st := fun p => localUnblocked m p us o0).
  set (start := fun p => sum (map (fun q => tot (Lp q)) (seq 0 p))).
  exists (fun p => {| offsets_ := fun u => if (u <? numberOfUnknowns m) && includedInIndex_ (fst (st p) u)
                                   then setOffset (start p) 0 (snd (st p)) (fst (st p) u) else fst (st p) u;
              totalNumberOfUnknowns_ := numberOfUnknowns m;
              localNumberOfBasisFunctions_ := snd (st p);
              globalNumberOfBasisFunctions_ := start n;
              includedUnknowns_ := us |}).
  assert (Hst : forall p, st p = steps (Lp p) (o0, 0)) by (intros p; apply localUnblocked_ok).
  assert (Hsnd : forall p, snd (st p) = tot (Lp p)) by (intros p; rewrite Hst, steps_snd; reflexivity).
  split.
  - intros p Hp. unfold constructUnblocked. fold (st p).
    replace (map (fun q => snd (localUnblocked m q us o0)) (procs n)) with (map (fun q => tot (Lp q)) (procs n)).
    2:{ apply map_ext. intros q. symmetry. apply Hsnd. }
    rewrite !gather_map by lia. reflexivity.
  - cbn zeta.
    assert (Hinc : forall p u, In u us -> (u <? numberOfUnknowns m) && includedInIndex_ (fst (st p) u) = true).
    { intros p u Hu. apply andb_true_intro. split; [apply Nat.ltb_lt, us_range, Hu|]. rewrite Hst, steps_meta.
      apply o0_inc; [apply us_range, Hu|exact Hu]. }
    assert (ND : forall p, NoDup (Lp p)) by (intros p; apply withU_nodup; apply (objs_nodup n VM)).
    assert (HL : forall p k x u, p < n -> (In (k, x, u) (Lp p) <-> In (k, x) (objs p) /\ In u us)) by (intros; apply in_withU).
    match goal with |- facts _ _ ?r _ _ _ /\ _ => set (r0 := r) end.
    assert (Hb : forall p u, p < n -> In u us -> localOffset_ (offsets_ (r0 p) u) = 0 /\ blockStart_ (offsets_ (r0 p) u) = start p).
    { intros p u Hp Hu. unfold r0. cbn [offsets_]. rewrite Hinc by exact Hu. split; reflexivity. }
    split; [|exact Hb].
    assert (HbL : forall p u, p < n -> In u us -> exists pre post, Lp p = pre ++ Lp p ++ post /\ tot pre = localOffset_ (offsets_ (r0 p) u)).
    { intros p u Hp Hu. exists [], []. rewrite app_nil_r. split; [reflexivity|]. destruct (Hb p u Hp Hu) as (-> & _). reflexivity. }
    destruct (facts_contiguous r0 Lp (fun p _ => Lp p) (fun p _ => ND p) HL) as (F1 & F2 & F3).
    constructor; try (intros; reflexivity).
    + exact F1.
    + exact F2.
    + intros p _. apply ND.
    + exact HL.
    + intros p Hp. unfold r0. cbn. rewrite tot_flat_map. reflexivity.
    + intros p Hp. unfold r0. cbn. apply Hsnd.
    + intros p u Hp Hu. unfold r0. cbn [offsets_]. transitivity (includedInIndex_ (fst (st p) u) = true).
      { destruct ((u <? numberOfUnknowns m) && includedInIndex_ (fst (st p) u)); reflexivity. }
      rewrite Hst, steps_meta. apply o0_inc, Hu.
    + exact us_range.
    + intros p u Hp Hu. apply F3; [exact Hp|apply HbL; assumption|].
      destruct (Hb p u Hp Hu) as (-> & ->). unfold start. lia.
    + exact HbL.
    + intros p u Hp Hu. unfold r0. cbn [offsets_]. rewrite Hinc by exact Hu. cbn. apply Hsnd.
    + intros p k x u Hp Hu Ho. apply in_withU. tauto.
    + intros p k x u Hp Hu. destruct (Hb p u Hp Hu) as (_ & ->). unfold r0. cbn [offsets_]. rewrite Hinc by exact Hu.
      rewrite setOffset_find, Hst, steps_table by apply ND.
      destruct (in_dec item_eq_dec (k, x, u) (Lp p)); cbn; [f_equal; lia|]. rewrite o0_empty. reflexivity.
    + intros p u v Hp Hu Hv. left. destruct (Hb p u Hp Hu) as (-> & ->), (Hb p v Hp Hv) as (-> & ->). repeat split.
Qed.

Lemma split_order u v : In u us -> In v us -> u = v \/
  (exists a b c, us = a ++ u :: b ++ v :: c) \/ (exists a b c, us = a ++ v :: b ++ u :: c).
Proof.
  intros Hu Hv. apply in_split in Hu. destruct Hu as (a & b & E). rewrite E in Hv.
  apply in_app_iff in Hv. destruct Hv as [Hv|[Hv|Hv]].
  - right. right. apply in_split in Hv. destruct Hv as (c & d & ->). exists c, d, b. rewrite E, <- app_assoc. reflexivity.
  - left. exact Hv.
  - right. left. apply in_split in Hv. destruct Hv as (c & d & ->). exists a, c, d. exact E.
Qed.
Lemma tot_Lu_map p l : sum (map (fun u => tot (Lu p u)) l) = tot (flat_map (Lu p) l).
Proof. rewrite tot_flat_map. reflexivity. Qed.
Lemma in_locals p k x u : In (k, x, u) (flat_map (Lu p) us) <-> In (k, x) (objs p) /\ In u us.
Proof.
  rewrite in_flat_map. split.
  - intros (v & Hv & H). apply in_Lu in H. destruct H as (H & ->). tauto.
  - intros (H & Hu). exists u. split; [exact Hu|]. apply in_Lu. tauto.
Qed.
Lemma locals_nodup p : NoDup (flat_map (Lu p) us).
Proof.
  apply NoDup_flat_map; [exact NDus|intros; apply Lu_nodup|].
  intros a b ((k, x), v) _ _ H1 H2. apply in_Lu in H1, H2. destruct H1, H2. congruence.
Qed.
Definition bl (p : nat) := localBlocked m p us o0.
Definition cnt (p u : nat) := tot (Lu p u).
Lemma bl_ok p : snd (bl p) = map (cnt p) us /\
  (forall u, includedInIndex_ (fst (bl p) u) = includedInIndex_ (o0 u)) /\
  (forall k x u, In u us -> mfind Nat.ltb x (table (fst (bl p) u) k) =
     if in_dec item_eq_dec (k, x, u) (Lu p u) then Some (off (Lu p u) (k, x, u)) else None).
Proof.
  destruct (localBlocked_ok p us NDus o0 (objs_nodup n VM p) o0_empty) as (H1 & H2 & H3 & H4 & H5).
  split; [exact H1|]. split; [exact H2|]. intros k x u Hu.
  destruct (in_dec item_eq_dec (k, x, u) (Lu p u)) as [H|H].
  - apply in_Lu in H. apply H4; tauto.
  - apply H5; [exact Hu|]. intros Ho. apply H. apply in_Lu. tauto.
Qed.

Lemma processor_facts : exists r, (forall p, p < n -> constructBlocked m n false p (numberOfUnknowns m) us o0 = Some (r p)) /\
  let Lp := fun p => flat_map (Lu p) us in
  facts n us r (flat_map Lp (seq 0 n)) Lp Lu /\
  (forall p u, p < n -> In u us -> blockStart_ (offsets_ (r p) u) = sum (map (fun q => tot (Lp q)) (seq 0 p)) + localOffset_ (offsets_ (r p) u)) /\
  (forall p a u b, p < n -> us = a ++ u :: b -> localOffset_ (offsets_ (r p) u) = sum (map (cnt p) a)).
Proof.
  set (Lp := fun p => flat_map (Lu p) us).
  set (start := fun p => sum (map (fun q => tot (Lp q)) (seq 0 p))).
  assert (HP : forall p, exists o', blockedProcessor us (map (cnt p) us) (start p) 0 (fst (bl p)) = Some o' /\
    (forall u, ~ In u us -> o' u = fst (bl p) u) /\
    (forall pre u post, us = pre ++ u :: post -> o' u = setOffset
     (start p + (0 + sum (map (cnt p) pre))) (0 + sum (map (cnt p) pre)) (cnt p u) (fst (bl p) u))).
  { intros p. apply blockedProcessor_ok, NDus. }
  set (fin := fun p => match blockedProcessor us (map (cnt p) us) (start p) 0 (fst (bl p)) with Some o => o | None => o0 end).
  assert (HF : forall p, (forall u, ~ In u us -> fin p u = fst (bl p) u) /\ (forall pre u post, us = pre ++ u :: post -> fin p u = setOffset
     (start p + sum (map (cnt p) pre)) (sum (map (cnt p) pre)) (cnt p u) (fst (bl p) u))).
  { intros p. unfold fin. destruct (HP p) as (o' & -> & A & B). split; [exact A|exact B]. }
  exists (fun p => {| offsets_ := fin p; totalNumberOfUnknowns_ := numberOfUnknowns m;
                      localNumberOfBasisFunctions_ := fold_right Nat.add 0 (snd (bl p));
                      globalNumberOfBasisFunctions_ := start n; includedUnknowns_ := us |}).
  assert (Hcnt : forall q, fold_right Nat.add 0 (snd (bl q)) = tot (Lp q)).
  { intros q. destruct (bl_ok q) as (-> & _). apply tot_Lu_map. }
  split.
  - intros p Hp. unfold constructBlocked. fold (bl p).
    rewrite map_map.
    replace (map (fun q => fold_right Nat.add 0 (snd (localBlocked m q us o0))) (procs n)) with (map (fun q => tot (Lp q)) (procs n)).
    2:{ apply map_ext. intros q. symmetry. apply Hcnt. }
    rewrite !gather_map by lia. cbn [Nat.add]. fold (start p). fold (start n).
    unfold fin. destruct (bl_ok p) as (E & _). rewrite E at 1. destruct (HP p) as (o' & -> & _). reflexivity.
  - cbn zeta.
    match goal with |- facts _ _ ?r _ _ _ /\ _ => set (r0 := r) end.
    assert (HS : forall p u, In u us -> exists a b, us = a ++ u :: b /\ offsets_ (r0 p) u = setOffset
     (start p + sum (map (cnt p) a)) (sum (map (cnt p) a)) (cnt p u) (fst (bl p) u)).
    { intros p u Hu. apply in_split in Hu. destruct Hu as (a & b & E). exists a, b. split; [exact E|]. apply (HF p) in E. exact E. }
    assert (Hb : forall p u, p < n -> In u us -> blockStart_ (offsets_ (r0 p) u) = start p + localOffset_ (offsets_ (r0 p) u)).
    { intros p u Hp Hu. destruct (HS p u Hu) as (a & b & E & ->). reflexivity. }
    assert (HbL : forall p u, p < n -> In u us -> exists pre post, Lp p = pre ++ Lu p u ++ post /\ tot pre = localOffset_ (offsets_ (r0 p) u)).
    { intros p u Hp Hu. destruct (HS p u Hu) as (a & b & E & ->). exists (flat_map (Lu p) a), (flat_map (Lu p) b).
      split; [unfold Lp; rewrite E, flat_map_app; reflexivity|]. cbn. symmetry. apply tot_Lu_map. }
    destruct (facts_contiguous r0 Lp Lu (fun p _ => locals_nodup p) (fun p k x u _ => in_locals p k x u)) as (F1 & F2 & F3).
    split; [|split; [exact Hb|]].
    2:{ intros p a u b Hp E. unfold r0. cbn [offsets_]. destruct (HF p) as (_ & H). rewrite (H a u b E). reflexivity. }
    constructor; try (intros; reflexivity).
    + exact F1.
    + exact F2.
    + intros p _. apply locals_nodup.
    + intros p k x u _. apply in_locals.
    + intros p Hp. unfold r0. cbn. rewrite tot_flat_map. reflexivity.
    + intros p Hp. unfold r0. cbn. apply Hcnt.
    + intros p u Hp Hu. unfold r0. cbn [offsets_]. rewrite <- o0_inc by exact Hu.
      destruct (bl_ok p) as (_ & E & _). rewrite <- (E u). destruct (in_dec Nat.eq_dec u us) as [Hi|Hi].
      * destruct (HS p u Hi) as (a & b & Es & Eo). unfold r0 in Eo. cbn [offsets_] in Eo. rewrite Eo. reflexivity.
      * destruct (HF p) as (A & _). rewrite A by exact Hi. reflexivity.
    + exact us_range.
    + intros p u Hp Hu. apply F3; [exact Hp|apply HbL; assumption|]. apply Hb; assumption.
    + exact HbL.
    + intros p u Hp Hu. destruct (HS p u Hu) as (a & b & E & ->). reflexivity.
    + intros p k x u Hp Hu Ho. apply in_Lu. tauto.
    + intros p k x u Hp Hu. destruct (HS p u Hu) as (a & b & E & ->). rewrite setOffset_find.
      destruct (bl_ok p) as (_ & _ & H). rewrite H by exact Hu.
      destruct (in_dec item_eq_dec (k, x, u) (Lu p u)); cbn; [f_equal; lia|reflexivity].
    + intros p u v Hp Hu Hv. destruct (split_order u v Hu Hv) as [->|[(a & b & c & E)|(a & b & c & E)]]; [left; repeat split| |].
      * right. left. destruct (HF p) as (_ & H). unfold r0. cbn [offsets_]. rewrite (H a u _ E). 
        assert (E' : us = (a ++ u :: b) ++ v :: c) by (rewrite E, <- app_assoc; reflexivity).
        rewrite (H _ v c E'). cbn. rewrite map_app, sum_app. cbn [map]. change (sum (?a :: ?l)) with (a + sum l).
        unfold cnt. lia.
      * right. right. destruct (HF p) as (_ & H). unfold r0. cbn [offsets_]. rewrite (H a v _ E). 
        assert (E' : us = (a ++ v :: b) ++ u :: c) by (rewrite E, <- app_assoc; reflexivity).
        rewrite (H _ u c E'). cbn. rewrite map_app, sum_app. cbn [map]. change (sum (?a :: ?l)) with (a + sum l).
        unfold cnt. lia.
Qed.

Lemma global_facts : exists r, (forall p, p < n -> constructBlocked m n true p (numberOfUnknowns m) us o0 = Some (r p)) /\
  facts n us r (flat_map (fun u => flat_map (fun p => Lu p u) (seq 0 n)) us) (fun p => flat_map (Lu p) us) Lu /\
  (forall p a u b, p < n -> us = a ++ u :: b -> blockStart_ (offsets_ (r p) u) =
     sum (map (fun v => sum (map (fun q => cnt q v) (seq 0 n))) a) + sum (map (fun q => cnt q u) (seq 0 p))).
Proof.
  set (Lp := fun p => flat_map (Lu p) us).
  set (col := fun j => map (fun c => nth j c 0) (map (fun q => snd (localBlocked m q us o0)) (procs n))).
  assert (Hcol : forall i u, nth_error us i = Some u -> col (0 + i) = map (fun q => cnt q u) (procs n)).
  { intros i u Hi. unfold col. rewrite map_map. apply map_ext. intros q. fold (bl q). destruct (bl_ok q) as (-> & _).
    cbn [Nat.add]. apply (map_nth_error (cnt q)) in Hi. apply nth_error_nth. exact Hi. }
  set (tail := fun l : list nat => sum (map (fun v => sum (map (fun q => cnt q v) (seq 0 n))) l)).
  assert (HP : forall p, p < n -> exists o', blockedGlobal n p us 0 col 0 0 0 (fst (bl p)) = Some (o', tail us) /\
    (forall u, ~ In u us -> o' u = fst (bl p) u) /\
    (forall pre u post, us = pre ++ u :: post -> o' u = setOffset
     (tail pre + sum (map (fun q => cnt q u) (seq 0 p))) (sum (map (cnt p) pre)) (cnt p u) (fst (bl p) u))).
  { intros p Hp. destruct (blockedGlobal_ok n p cnt Hp us 0 col 0 0 0 (fst (bl p)) NDus Hcol) as (o' & N' & E & EN & A & B).
    exists o'. split; [|split; [exact A|exact B]]. rewrite E, EN. unfold tail, procs. destruct us; reflexivity. }
  set (fin := fun p => match blockedGlobal n p us 0 col 0 0 0 (fst (bl p)) with Some (o, _) => o | None => o0 end).
  assert (HF : forall p, p < n -> (forall u, ~ In u us -> fin p u = fst (bl p) u) /\ (forall pre u post, us = pre ++ u :: post -> fin p u = setOffset
     (tail pre + sum (map (fun q => cnt q u) (seq 0 p))) (sum (map (cnt p) pre)) (cnt p u) (fst (bl p) u))).
  { intros p Hp. unfold fin. destruct (HP p Hp) as (o' & -> & A & B). split; [exact A|exact B]. }
  exists (fun p => {| offsets_ := fin p; totalNumberOfUnknowns_ := numberOfUnknowns m;
                      localNumberOfBasisFunctions_ := fold_right Nat.add 0 (snd (bl p));
                      globalNumberOfBasisFunctions_ := tail us; includedUnknowns_ := us |}).
  assert (Hcnt : forall q, fold_right Nat.add 0 (snd (bl q)) = tot (Lp q)).
  { intros q. destruct (bl_ok q) as (-> & _). apply tot_Lu_map. }
  split.
  - intros p Hp. unfold constructBlocked. fold (bl p). fold col. unfold fin.
    destruct (HP p Hp) as (o' & -> & _). reflexivity.
  - match goal with |- facts _ _ ?r _ _ _ /\ _ => set (r0 := r) end.
    assert (HS : forall p u, p < n -> In u us -> exists a b, us = a ++ u :: b /\ offsets_ (r0 p) u = setOffset
     (tail a + sum (map (fun q => cnt q u) (seq 0 p))) (sum (map (cnt p) a)) (cnt p u) (fst (bl p) u)).
    { intros p u Hp Hu. apply in_split in Hu. destruct Hu as (a & b & E). exists a, b. split; [exact E|].
      destruct (HF p Hp) as (_ & H). apply H in E. exact E. }
    assert (HbL : forall p u, p < n -> In u us -> exists pre post, Lp p = pre ++ Lu p u ++ post /\ tot pre = localOffset_ (offsets_ (r0 p) u)).
    { intros p u Hp Hu. destruct (HS p u Hp Hu) as (a & b & E & ->). exists (flat_map (Lu p) a), (flat_map (Lu p) b).
      split; [unfold Lp; rewrite E, flat_map_app; reflexivity|]. cbn. symmetry. apply tot_Lu_map. }
    assert (Htail : forall l, tot (flat_map (fun u => flat_map (fun p => Lu p u) (seq 0 n)) l) = tail l).
    { intros l. rewrite tot_flat_map. unfold tail, sum. f_equal. apply map_ext. intros u. rewrite tot_flat_map. reflexivity. }
    assert (Hmono : forall q u p, q <= p -> sum (map (fun i => cnt i u) (seq 0 q)) <= sum (map (fun i => cnt i u) (seq 0 p))).
    { intros q u p H. replace p with (q + (p - q)) by lia. rewrite seq_app, map_app, sum_app. lia. }
    assert (Hlast : forall p u, p < n -> sum (map (fun i => cnt i u) (seq 0 p)) + cnt p u <= sum (map (fun i => cnt i u) (seq 0 n))).
    { intros p u Hp. etransitivity; [|apply (Hmono (S p)); lia]. replace (S p) with (p + 1) by lia. rewrite seq_app, map_app, sum_app. cbn. lia. }
    split.
    2:{ intros p a u b Hp E. unfold r0. cbn [offsets_]. destruct (HF p Hp) as (_ & H). rewrite (H a u b E). reflexivity. }
    constructor; try (intros; reflexivity).
    + apply NoDup_flat_map; [exact NDus| |].
      * intros u _. apply NoDup_flat_map; [apply seq_NoDup|intros; apply Lu_nodup|].
        intros a b ((k, x), v) _ _ H1 H2. apply in_Lu in H1, H2. apply (in_objs_disjoint a b k x); tauto.
      * intros u v ((k, x), w0) _ _ H1 H2. apply in_flat_map in H1, H2. destruct H1 as (p & _ & H1), H2 as (q & _ & H2).
        apply in_Lu in H1, H2. destruct H1, H2. congruence.
    + intros k x u. rewrite in_flat_map, <- all_objs. split.
      * intros (v & Hv & H). apply in_flat_map in H. destruct H as (p & Hp & H). apply in_seq in Hp. apply in_Lu in H. destruct H as (H & ->).
        split; [exists p; split; [lia|exact H]|exact Hv].
      * intros ((p & Hp & H) & Hu). exists u. split; [exact Hu|]. apply in_flat_map. exists p. split; [apply in_seq; lia|]. apply in_Lu. tauto.
    + intros p _. apply locals_nodup.
    + intros p k x u _. apply in_locals.
    + intros p Hp. unfold r0. cbn. symmetry. apply Htail.
    + intros p Hp. unfold r0. cbn. apply Hcnt.
    + intros p u Hp Hu. unfold r0. cbn [offsets_]. rewrite <- o0_inc by exact Hu.
      destruct (bl_ok p) as (_ & E & _). rewrite <- (E u). destruct (in_dec Nat.eq_dec u us) as [Hi|Hi].
      * destruct (HS p u Hp Hi) as (a & b & Es & Eo). unfold r0 in Eo. cbn [offsets_] in Eo. rewrite Eo. reflexivity.
      * destruct (HF p Hp) as (A & _). rewrite A by exact Hi. reflexivity.
    + exact us_range.
    + intros p u Hp Hu. destruct (HS p u Hp Hu) as (a & b & E & ->).
      exists (flat_map (fun u => flat_map (fun p => Lu p u) (seq 0 n)) a ++ flat_map (fun p => Lu p u) (seq 0 p)),
             (flat_map (fun p => Lu p u) (seq (S p) (n - S p)) ++ flat_map (fun u => flat_map (fun p => Lu p u) (seq 0 n)) b).
      split.
      * rewrite E at 1. rewrite flat_map_app. cbn [flat_map].
        rewrite (split_seq p Hp). rewrite flat_map_app. cbn [flat_map]. rewrite <- !app_assoc. reflexivity.
      * rewrite tot_app, Htail. rewrite tot_flat_map. reflexivity.
    + exact HbL.
    + intros p u Hp Hu. destruct (HS p u Hp Hu) as (a & b & E & ->). reflexivity.
    + intros p k x u Hp Hu Ho. apply in_Lu. tauto.
    + intros p k x u Hp Hu. destruct (HS p u Hp Hu) as (a & b & E & ->). rewrite setOffset_find.
      destruct (bl_ok p) as (_ & _ & H). rewrite H by exact Hu.
      destruct (in_dec item_eq_dec (k, x, u) (Lu p u)); cbn; [f_equal; lia|reflexivity].
    + intros p u v Hp Hu Hv. destruct (split_order u v Hu Hv) as [->|[(a & b & c & E)|(a & b & c & E)]]; [left; repeat split| |].
      * right. left. destruct (HF p Hp) as (_ & H). unfold r0. cbn [offsets_]. rewrite (H a u _ E). 
        assert (E' : us = (a ++ u :: b) ++ v :: c) by (rewrite E, <- app_assoc; reflexivity).
        rewrite (H _ v c E'). cbn [blockStart_ localOffset_ setOffset]. unfold tail. rewrite !map_app, !sum_app. cbn [map]. change (sum (?a :: ?l)) with (a + sum l).
        specialize (Hlast p u Hp). unfold cnt in *. lia.
      * right. right. destruct (HF p Hp) as (_ & H). unfold r0. cbn [offsets_]. rewrite (H a v _ E). 
        assert (E' : us = (a ++ v :: b) ++ u :: c) by (rewrite E, <- app_assoc; reflexivity).
        rewrite (H _ u c E'). cbn [blockStart_ localOffset_ setOffset]. unfold tail. rewrite !map_app, !sum_app. cbn [map]. change (sum (?a :: ?l)) with (a + sum l).
        specialize (Hlast p v Hp). unfold cnt in *. lia.
Qed.
End Layouts.
End M.

(** * The unknowns *)
Definition sortedUnknowns (m : Mesh) (unknowns : option (list nat)) : list nat :=
  match unknowns with None => seq 0 (numberOfUnknowns m) | Some us => sort us end.
Definition startOffsets (unknowns : option (list nat)) : nat -> Offsets :=
  match unknowns with None => fun _ => noOffsets true | Some us => fun u => noOffsets (existsb (Nat.eqb u) us) end.
Lemma insert_perm x l : Permutation (x :: l) (insert_sorted x l).
Proof.
  induction l as [|y l IH]; cbn; [reflexivity|]. destruct (x <=? y); [reflexivity|].
  rewrite perm_swap. constructor. exact IH.
Qed.
Lemma sort_perm l : Permutation l (sort l).
Proof. induction l as [|x l IH]; cbn; [reflexivity|]. rewrite <- insert_perm. constructor. exact IH. Qed.
Lemma insert_sorted_ok x l : StronglySorted lt l -> ~ In x l -> StronglySorted lt (insert_sorted x l).
Proof.
  induction 1 as [|y l Hl IH Hy]; cbn; intros N; [repeat constructor|].
  destruct (Nat.leb_spec x y) as [L|L].
  - constructor; [constructor; assumption|]. constructor; [lia|].
    rewrite Forall_forall in *. intros z Hz. specialize (Hy z Hz). lia.
  - constructor; [apply IH; tauto|]. rewrite Forall_forall in *. intros z Hz.
    apply (Permutation_in z (Permutation_sym (insert_perm x l))) in Hz. destruct Hz as [<-|Hz]; [lia|]. apply Hy, Hz.
Qed.
Lemma sort_ok l : NoDup l -> StronglySorted lt (sort l).
Proof.
  induction 1 as [|x l Hx Hl IH]; cbn; [constructor|]. apply insert_sorted_ok; [exact IH|].
  intros H. apply Hx. apply (Permutation_in x (Permutation_sym (sort_perm l))). exact H.
Qed.
Lemma seq_sorted a n : StronglySorted lt (seq a n).
Proof.
  revert a; induction n as [|n IH]; intros a; cbn; constructor; [apply IH|]. rewrite Forall_forall. intros x Hx.
  apply in_seq in Hx. lia.
Qed.
Lemma sortedUnknowns_sorted m unk : NoDup (included m unk) -> StronglySorted lt (sortedUnknowns m unk).
Proof. destruct unk as [us|]; cbn; intros H; [apply sort_ok, H|apply seq_sorted]. Qed.
Lemma sortedUnknowns_in m unk u : In u (sortedUnknowns m unk) <-> In u (included m unk).
Proof.
  destruct unk as [us|]; cbn; [|tauto]. split; apply Permutation_in; [symmetry|]; apply sort_perm.
Qed.
Lemma sorted_nodup l : StronglySorted lt l -> NoDup l.
Proof.
  induction 1 as [|x l Hl IH Hx]; constructor; [|exact IH]. intros H. rewrite Forall_forall in Hx. specialize (Hx x H). lia.
Qed.
Lemma sorted_ltb (l : list nat) : StronglySorted lt l -> ssorted Nat.ltb l.
Proof.
  unfold ssorted. induction 1 as [|a l _ IH Ha]; constructor; [exact IH|].
  eapply Forall_impl; [|exact Ha]. intros b Hb. apply Nat.ltb_lt, Hb.
Qed.
Lemma sorted_ext (s t : list nat) : StronglySorted lt s -> StronglySorted lt t -> (forall x, In x s <-> In x t) -> s = t.
Proof.
  intros Hs Ht H. apply (ssorted_ext Nat.ltb nat_strict_total); [apply sorted_ltb, Hs|apply sorted_ltb, Ht|exact H].
Qed.
Lemma sorted_split l u v : StronglySorted lt l -> In u l -> In v l -> u < v -> exists a b c, l = a ++ u :: b ++ v :: c.
Proof.
  intros S Hu Hv L. destruct (split_order l u v Hu Hv) as [->|[H|(a & b & c & ->)]]; [lia|exact H|]. exfalso. clear Hu Hv.
  induction a as [|y a IH]; cbn in S; inversion S as [|z t S' F E]; subst.
  - rewrite Forall_forall in F. assert (v < u) by (apply F; rewrite in_app_iff; right; left; reflexivity). lia.
  - apply IH. exact S'.
Qed.

Lemma reset_eq m n layout unk p : valid_unknowns m unk ->
  reset m n layout unk p = match layout with
    | SEQUENTIAL => constructUnblocked m n p (numberOfUnknowns m) (sortedUnknowns m unk) (startOffsets unk)
    | BLOCKED_GLOBAL => constructBlocked m n true p (numberOfUnknowns m) (sortedUnknowns m unk) (startOffsets unk)
    | BLOCKED_PROCESSOR => constructBlocked m n false p (numberOfUnknowns m) (sortedUnknowns m unk) (startOffsets unk)
    end.
Proof.
  destruct unk as [us|]; intros V; [|destruct layout; reflexivity]. cbn in V. destruct V as (V1 & V2).
  unfold reset. assert (E : (0 <? length us) && forallb (fun u => u <? numberOfUnknowns m) us = true).
  { apply andb_true_intro. split; [apply Nat.ltb_lt; destruct us; [congruence|cbn; lia]|].
    apply forallb_forall. intros u Hu. apply Nat.ltb_lt, V2, Hu. }
  rewrite E. destruct layout; reflexivity.
Qed.
Lemma reset_invalid m n layout unk p : ~ valid_unknowns m unk -> reset m n layout unk p = None.
Proof.
  destruct unk as [us|]; cbn; intros V; [|tauto]. unfold reset.
  destruct ((0 <? length us) && forallb (fun u => u <? numberOfUnknowns m) us) eqn:E; [|reflexivity]. exfalso. apply V.
  apply andb_prop in E. destruct E as (E1 & E2). split; [destruct us; [discriminate|congruence]|].
  intros u Hu. rewrite forallb_forall in E2. apply Nat.ltb_lt, E2, Hu.
Qed.
Lemma start_empty unk k u : table (startOffsets unk u) k = [].
Proof. destruct unk; reflexivity. Qed.
Lemma start_inc m unk u : u < numberOfUnknowns m -> (includedInIndex_ (startOffsets unk u) = true <-> In u (sortedUnknowns m unk)).
Proof.
  intros Hu. rewrite sortedUnknowns_in. destruct unk as [us|]; cbn.
  - rewrite existsb_exists. split; [intros (v & Hv & E); apply Nat.eqb_eq in E; congruence|].
    intros H. exists u. rewrite Nat.eqb_refl. tauto.
  - rewrite in_seq. split; [lia|reflexivity].
Qed.
Lemma unknowns_range m unk : valid_unknowns m unk -> forall u, In u (sortedUnknowns m unk) -> u < numberOfUnknowns m.
Proof.
  intros V u. rewrite sortedUnknowns_in. destruct unk as [us|]; cbn in *; [apply V|]. rewrite in_seq. lia.
Qed.

Lemma facts_ext m n us r r' G Lp D : (forall p, p < n -> r p = r' p) -> facts m n us r G Lp D -> facts m n us r' G Lp D.
Proof.
  intros H F. destruct F. constructor; try assumption; intros; rewrite <- ?H by assumption; eauto.
Qed.

Section Main.
Variables (m : Mesh) (n : nat) (unk : option (list nat)) (r : nat -> GlobalIndexing).
Hypothesis VM : valid_mesh n m.
Hypothesis ND : NoDup (included m unk).
Hypothesis VU : valid_unknowns m unk.
Notation us := (sortedUnknowns m unk).
Notation tot := (tot (w m)).
Notation off := (off item_eq_dec (w m)).
Let NDus : NoDup us := sorted_nodup _ (sortedUnknowns_sorted m unk ND).

Definition seqL p := withU us (objs m p).
Lemma seq_layout : indexing m n SEQUENTIAL unk r ->
  facts m n us r (flat_map seqL (seq 0 n)) seqL (fun p _ => seqL p) /\
  forall p u, p < n -> In u us -> localOffset_ (offsets_ (r p) u) = 0 /\
    blockStart_ (offsets_ (r p) u) = sum (map (fun q => tot (seqL q)) (seq 0 p)).
Proof.
  intros H. destruct (unblocked_facts m n us (startOffsets unk) VM NDus (start_empty unk) (start_inc m unk) (unknowns_range m unk VU))
    as (r' & Hr & F & E).
  assert (Er : forall p, p < n -> r' p = r p).
  { intros p Hp. specialize (H p Hp). rewrite reset_eq in H by exact VU. rewrite Hr in H by exact Hp. congruence. }
  split; [apply (facts_ext _ _ _ _ _ _ _ _ Er F)|]. intros p u Hp Hu. rewrite <- Er by exact Hp. apply E; assumption.
Qed.
Definition blkL p := flat_map (Lu m p) us.
Lemma proc_layout : indexing m n BLOCKED_PROCESSOR unk r ->
  facts m n us r (flat_map blkL (seq 0 n)) blkL (Lu m) /\
  (forall p u, p < n -> In u us -> blockStart_ (offsets_ (r p) u) = sum (map (fun q => tot (blkL q)) (seq 0 p)) + localOffset_ (offsets_ (r p) u)) /\
  (forall p a u b, p < n -> us = a ++ u :: b -> localOffset_ (offsets_ (r p) u) = sum (map (cnt m p) a)).
Proof.
  intros H. destruct (processor_facts m n us (startOffsets unk) VM NDus (start_empty unk) (start_inc m unk) (unknowns_range m unk VU))
    as (r' & Hr & F & E & E').
  assert (Er : forall p, p < n -> r' p = r p).
  { intros p Hp. specialize (H p Hp). rewrite reset_eq in H by exact VU. rewrite Hr in H by exact Hp. congruence. }
  split; [apply (facts_ext _ _ _ _ _ _ _ _ Er F)|]. split.
  - intros p u Hp Hu. rewrite <- Er by exact Hp. apply E; assumption.
  - intros p a u b Hp Hu. rewrite <- Er by exact Hp. apply (E' p a u b); assumption.
Qed.
Lemma glob_layout : indexing m n BLOCKED_GLOBAL unk r ->
  facts m n us r (flat_map (fun u => flat_map (fun p => Lu m p u) (seq 0 n)) us) blkL (Lu m) /\
  (forall p a u b, p < n -> us = a ++ u :: b -> blockStart_ (offsets_ (r p) u) =
     sum (map (fun v => sum (map (fun q => cnt m q v) (seq 0 n))) a) + sum (map (fun q => cnt m q u) (seq 0 p))).
Proof.
  intros H. destruct (global_facts m n us (startOffsets unk) VM NDus (start_empty unk) (start_inc m unk) (unknowns_range m unk VU))
    as (r' & Hr & F & E).
  assert (Er : forall p, p < n -> r' p = r p).
  { intros p Hp. specialize (H p Hp). rewrite reset_eq in H by exact VU. rewrite Hr in H by exact Hp. congruence. }
  split; [apply (facts_ext _ _ _ _ _ _ _ _ Er F)|].
  intros p a u b Hp Hu. rewrite <- Er by exact Hp. apply (E p a u b); assumption.
Qed.
Lemma any_layout layout : indexing m n layout unk r -> exists G Lp D, facts m n us r G Lp D.
Proof.
  destruct layout; intros H.
  - destruct (seq_layout H) as (F & _). eauto.
  - destruct (proc_layout H) as (F & _). eauto.
  - destruct (glob_layout H) as (F & _). eauto.
Qed.

Section Facts.
Variables (G : list item) (Lp : nat -> list item) (D : nat -> nat -> list item).
Hypothesis F : facts m n us r G Lp D.
Definition it (d : dof) : item := (d_kind d, d_id d, d_unknown d).

Lemma dof_in d : is_dof m (included m unk) d <-> In (it d) G /\ d_fn d < w m (it d).
Proof.
  unfold is_dof, it. rewrite (fa_G _ _ _ _ _ _ _ F), <- sortedUnknowns_in. unfold w. cbn. tauto.
Qed.
Lemma owned_lt p d : is_dof m (included m unk) d -> dof_owned_by m p d -> p < n.
Proof.
  intros (H & _) Ho. destruct (owned_exists m n VM _ _ H) as (q & Hq & Hoq). rewrite (owned_unique _ _ _ _ _ Ho Hoq). exact Hq.
Qed.
Lemma app_off A B C t : NoDup (A ++ B ++ C) -> In t B -> off (A ++ B ++ C) t = tot A + off B t.
Proof.
  intros H Ht. rewrite off_app_r.
  - rewrite off_app_l by exact Ht. reflexivity.
  - intros Hi. clear -H Hi Ht. induction A as [|a A IH]; [destruct Hi|].
    cbn in H. inversion H; subst. destruct Hi as [->|Hi]; [|apply IH; assumption].
    apply H2. rewrite !in_app_iff. tauto.
Qed.

Lemma D_in_L p u t : p < n -> In u us -> In t (D p u) -> In t (Lp p).
Proof.
  intros Hp Hu Ht. destruct (fa_blockL _ _ _ _ _ _ _ F p u Hp Hu) as (a & b & E & _). rewrite E, !in_app_iff. tauto.
Qed.
Lemma D_nodup p u : p < n -> In u us -> NoDup (D p u).
Proof.
  intros Hp Hu. pose proof (fa_L_nodup _ _ _ _ _ _ _ F p Hp) as H. destruct (fa_blockL _ _ _ _ _ _ _ F p u Hp Hu) as (a & b & E & _).
  rewrite E in H. clear -H. induction a as [|x a IH]; cbn in H; [|inversion H; auto].
  induction (D p u) as [|x l IH]; [constructor|]. cbn in H. inversion H; subst. constructor; [|auto].
  intros Hi. apply H2. rewrite in_app_iff. tauto.
Qed.
Lemma off_G p u t : p < n -> In u us -> In t (D p u) -> off G t = blockStart_ (offsets_ (r p) u) + off (D p u) t.
Proof.
  intros Hp Hu Ht. pose proof (fa_G_nodup _ _ _ _ _ _ _ F) as H. destruct (fa_blockG _ _ _ _ _ _ _ F p u Hp Hu) as (a & b & E & <-).
  rewrite E in *. apply app_off; assumption.
Qed.
Lemma off_L p u t : p < n -> In u us -> In t (D p u) -> off (Lp p) t = localOffset_ (offsets_ (r p) u) + off (D p u) t.
Proof.
  intros Hp Hu Ht. pose proof (fa_L_nodup _ _ _ _ _ _ _ F p Hp) as H. destruct (fa_blockL _ _ _ _ _ _ _ F p u Hp Hu) as (a & b & E & <-).
  rewrite E in *. apply app_off; assumption.
Qed.
Lemma get_own p k x u : p < n -> In u us -> In (k, x) (objs m p) ->
  getGlobalIndex (r p) k x u = Some (off G (k, x, u)) /\
  off G (k, x, u) + localOffset_ (offsets_ (r p) u) = off (Lp p) (k, x, u) + blockStart_ (offsets_ (r p) u) /\
  In (k, x, u) (D p u).
Proof.
  intros Hp Hu Ho. pose proof (fa_D _ _ _ _ _ _ _ F p k x u Hp Hu Ho) as HD.
  pose proof (fa_range _ _ _ _ _ _ _ F u Hu) as HR.
  unfold getGlobalIndex. rewrite (fa_total _ _ _ _ _ _ _ F p Hp).
  rewrite (proj2 (fa_inc _ _ _ _ _ _ _ F p u Hp HR) Hu). rewrite (proj2 (Nat.ltb_lt _ _) HR). cbn [andb].
  rewrite (fa_find _ _ _ _ _ _ _ F p k x u Hp Hu). destruct (in_dec item_eq_dec (k, x, u) (D p u)); [|contradiction].
  rewrite (off_G p u) by assumption. rewrite (off_L p u) by assumption. split; [reflexivity|]. split; [lia|exact HD].
Qed.
Lemma own_obj p d : dof_owned_by m p d -> is_dof m (included m unk) d -> p < n /\ In (d_unknown d) us /\ In (d_kind d, d_id d) (objs m p).
Proof.
  intros Ho H. split; [apply (owned_lt p d); assumption|]. destruct H as (H1 & H2 & _). split; [apply sortedUnknowns_in, H2|].
  apply (in_objs m n VM). split; assumption.
Qed.
Lemma index_own p d : dof_owned_by m p d -> is_dof m (included m unk) d -> index_of (r p) d = Some (off G (it d) + d_fn d).
Proof.
  intros Ho H. destruct (own_obj p d Ho H) as (Hp & Hu & Hi). destruct (get_own p _ _ _ Hp Hu Hi) as (E & _).
  unfold index_of. rewrite E. reflexivity.
Qed.
Lemma local_own p d : dof_owned_by m p d -> is_dof m (included m unk) d ->
  local_index_of (r p) d = Some (Z.of_nat (off (Lp p) (it d) + d_fn d)).
Proof.
  intros Ho H. destruct (own_obj p d Ho H) as (Hp & Hu & Hi). destruct (get_own p _ _ _ Hp Hu Hi) as (E & E2 & _).
  unfold local_index_of, getProcessorLocalIndex. rewrite E. cbn. f_equal. unfold it. lia.
Qed.
Lemma numbered_iff d i : is_dof m (included m unk) d -> (numbered m r d i <-> i = off G (it d) + d_fn d).
Proof.
  intros H. split.
  - intros (p & Ho & E). rewrite (index_own p d Ho H) in E. congruence.
  - intros ->. destruct H as (H1 & H2). destruct (owned_exists m n VM _ _ H1) as (p & Hp & Ho). exists p. split; [exact Ho|].
    apply index_own; [exact Ho|split; assumption].
Qed.
Definition mk (t : item) (i : nat) : dof := {| d_kind := fst (fst t); d_id := snd (fst t); d_unknown := snd t; d_fn := i |}.
Lemma it_mk t i : it (mk t i) = t.
Proof. destruct t as ((k, x), u). reflexivity. Qed.
Lemma dof_ext d d' : it d = it d' -> d_fn d = d_fn d' -> d = d'.
Proof. destruct d, d'. unfold it. cbn. intros E ->. inversion E. reflexivity. Qed.

Lemma global_bijection : exists N,
  (forall p, p < n -> globalNumberOfBasisFunctions_ (r p) = N) /\
  (forall d, is_dof m (included m unk) d -> exists i, numbered m r d i /\ i < N) /\
  (forall d i j, is_dof m (included m unk) d -> numbered m r d i -> numbered m r d j -> i = j) /\
  (forall d d' i, is_dof m (included m unk) d -> is_dof m (included m unk) d' -> numbered m r d i -> numbered m r d' i -> d = d') /\
  (forall i, i < N -> exists d, is_dof m (included m unk) d /\ numbered m r d i).
Proof.
  exists (tot G). split; [|split; [|split; [|split]]].
  - intros p Hp. apply (fa_N _ _ _ _ _ _ _ F p Hp).
  - intros d H. exists (off G (it d) + d_fn d). split; [apply numbered_iff; [exact H|reflexivity]|].
    apply dof_in in H. destruct H as (H & L). pose proof (off_bound item_eq_dec (w m) G (it d) H). lia.
  - intros d i j H Hi Hj. apply numbered_iff in Hi, Hj; try assumption. congruence.
  - intros d d' i H H' Hi Hj. apply numbered_iff in Hi, Hj; try assumption. apply dof_in in H, H'.
    destruct (off_inj item_eq_dec (w m) G (it d) (it d') (d_fn d) (d_fn d')) as (E1 & E2); try tauto; [congruence|].
    apply dof_ext; assumption.
  - intros i Hi. destruct (off_surj item_eq_dec (w m) G i (fa_G_nodup _ _ _ _ _ _ _ F) Hi) as (t & j & Ht & Hj & E).
    assert (Hd : is_dof m (included m unk) (mk t j)) by (apply dof_in; rewrite it_mk; split; assumption).
    exists (mk t j). split; [exact Hd|]. apply numbered_iff; [exact Hd|]. rewrite it_mk. symmetry. exact E.
Qed.

Lemma dof_in_L p d : p < n -> (is_dof m (included m unk) d /\ dof_owned_by m p d <-> In (it d) (Lp p) /\ d_fn d < w m (it d)).
Proof.
  intros Hp. unfold it at 1. rewrite (fa_L _ _ _ _ _ _ _ F _ _ _ _ Hp), (in_objs m n VM), sortedUnknowns_in.
  unfold is_dof, dof_owned_by, w, it. cbn. tauto.
Qed.
Lemma order_preserved p t t' i j : p < n -> In t (Lp p) -> In t' (Lp p) -> i < w m t -> j < w m t' ->
  off G t + i < off G t' + j -> off (Lp p) t + i < off (Lp p) t' + j.
Proof.
  intros Hp Ht Ht' Hi Hj H. destruct t as ((k, x), u), t' as ((k', x'), u').
  pose proof Ht as H1. pose proof Ht' as H2. apply (fa_L _ _ _ _ _ _ _ F _ _ _ _ Hp) in H1, H2.
  destruct H1 as (Ho & Hu), H2 as (Ho' & Hu').
  pose proof (fa_D _ _ _ _ _ _ _ F p k x u Hp Hu Ho) as HD. pose proof (fa_D _ _ _ _ _ _ _ F p k' x' u' Hp Hu' Ho') as HD'.
  rewrite (off_G p u) in H by assumption. rewrite (off_G p u') in H by assumption.
  rewrite (off_L p u), (off_L p u') by assumption.
  pose proof (off_bound item_eq_dec (w m) _ _ HD). pose proof (off_bound item_eq_dec (w m) _ _ HD').
  destruct (fa_order _ _ _ _ _ _ _ F p u u' Hp Hu Hu') as [(E1 & E2 & E3)|[(E1 & E2)|(E1 & E2)]].
  - rewrite E2, E3 in *. lia.
  - lia.
  - lia.
Qed.
Lemma owns_ok p u z : p < n -> u < numberOfUnknowns m -> owns (offsets_ (r p) u) z = true ->
  exists d, is_dof m (included m unk) d /\ dof_owned_by m p d /\ z = Z.of_nat (off G (it d) + d_fn d) /\
  (z - Z.of_nat (blockStart_ (offsets_ (r p) u)) + Z.of_nat (localOffset_ (offsets_ (r p) u)))%Z = Z.of_nat (off (Lp p) (it d) + d_fn d).
Proof.
  intros Hp Hl H. unfold owns in H. apply andb_prop in H. destruct H as (H & H3). apply andb_prop in H. destruct H as (H1 & H2).
  apply Z.leb_le in H2. apply Z.ltb_lt in H3. apply (fa_inc _ _ _ _ _ _ _ F p u Hp Hl) in H1. rename H1 into Hu.
  rewrite (fa_size _ _ _ _ _ _ _ F p u Hp Hu) in H3.
  destruct (off_surj item_eq_dec (w m) (D p u) (Z.to_nat (z - Z.of_nat (blockStart_ (offsets_ (r p) u)))) (D_nodup p u Hp Hu)) as (t & i & Ht & Hi & E); [lia|].
  exists (mk t i). rewrite it_mk. cbn [d_fn mk].
  pose proof (D_in_L p u t Hp Hu Ht) as HL.
  assert (Hd : is_dof m (included m unk) (mk t i) /\ dof_owned_by m p (mk t i)) by (apply (dof_in_L p); [exact Hp|]; rewrite it_mk; split; assumption).
  split; [apply Hd|]. split; [apply Hd|]. rewrite (off_G p u), (off_L p u) by assumption. lia.
Qed.
Lemma owns_own p d : is_dof m (included m unk) d -> dof_owned_by m p d ->
  owns (offsets_ (r p) (d_unknown d)) (Z.of_nat (off G (it d) + d_fn d)) = true.
Proof.
  intros H Ho. destruct (own_obj p d Ho H) as (Hp & Hu & Hi). destruct (get_own p _ _ _ Hp Hu Hi) as (_ & _ & HD).
  change (d_kind d, d_id d, d_unknown d) with (it d) in HD.
  rewrite (off_G p (d_unknown d)) by assumption. apply dof_in in H. destruct H as (_ & HF).
  pose proof (off_bound item_eq_dec (w m) _ _ HD). pose proof (fa_range _ _ _ _ _ _ _ F _ Hu) as HR.
  unfold owns. rewrite (proj2 (fa_inc _ _ _ _ _ _ _ F p _ Hp HR) Hu), (fa_size _ _ _ _ _ _ _ F p _ Hp Hu).
  cbn [andb]. apply andb_true_intro. split; [apply Z.leb_le|apply Z.ltb_lt]; lia.
Qed.
Lemma findOwner_ok p z l : p < n -> (forall u, In u l -> u < numberOfUnknowns m) ->
  (exists d, is_dof m (included m unk) d /\ dof_owned_by m p d /\ z = Z.of_nat (off G (it d) + d_fn d) /\
     findOwner (r p) l z = Z.of_nat (off (Lp p) (it d) + d_fn d)) \/
  (findOwner (r p) l z = (-1)%Z /\ forall u, In u l -> owns (offsets_ (r p) u) z = false).
Proof.
  intros Hp. induction l as [|u l IH]; cbn; intros H.
  - right. split; [reflexivity|]. intros u [].
  - destruct (owns (offsets_ (r p) u) z) eqn:E.
    + left. destruct (owns_ok p u z Hp (H u (or_introl eq_refl)) E) as (d & H1 & H2 & H3 & H4). exists d. tauto.
    + destruct IH as [IH|(IH1 & IH2)]; [intros v Hv; apply H; right; exact Hv|left; exact IH|].
      right. split; [exact IH1|]. intros v [<-|Hv]; [exact E|apply IH2, Hv].
Qed.
Lemma toLocal_ok p d : is_dof m (included m unk) d -> dof_owned_by m p d ->
  globalToProcessorLocalIndex (r p) (Z.of_nat (off G (it d) + d_fn d)) = Z.of_nat (off (Lp p) (it d) + d_fn d).
Proof.
  intros H Ho. destruct (own_obj p d Ho H) as (Hp & Hu & Hi). unfold globalToProcessorLocalIndex.
  rewrite (fa_total _ _ _ _ _ _ _ F p Hp).
  destruct (findOwner_ok p (Z.of_nat (off G (it d) + d_fn d)) (seq 0 (numberOfUnknowns m)) Hp) as [(d' & H1 & H2 & H3 & H4)|(H1 & H2)].
  - intros u Hin. apply in_seq in Hin. lia.
  - rewrite H4. apply Nat2Z.inj in H3. apply dof_in in H, H1.
    destruct (off_inj item_eq_dec (w m) G (it d) (it d') (d_fn d) (d_fn d')) as (E1 & E2); try tauto. rewrite E1, E2. reflexivity.
  - exfalso. pose proof (owns_own p d H Ho) as E. rewrite H2 in E; [discriminate|]. apply in_seq.
    pose proof (fa_range _ _ _ _ _ _ _ F _ Hu). lia.
Qed.

Lemma local_bijection p : p < n ->
  (forall d, is_dof m (included m unk) d -> dof_owned_by m p d -> exists i l, index_of (r p) d = Some i /\
     local_index_of (r p) d = Some (Z.of_nat l) /\ l < localNumberOfBasisFunctions_ (r p) /\
     globalToProcessorLocalIndex (r p) (Z.of_nat i) = Z.of_nat l) /\
  (forall d d' l, is_dof m (included m unk) d -> dof_owned_by m p d -> is_dof m (included m unk) d' -> dof_owned_by m p d' ->
     local_index_of (r p) d = Some l -> local_index_of (r p) d' = Some l -> d = d') /\
  (forall l, l < localNumberOfBasisFunctions_ (r p) ->
     exists d, is_dof m (included m unk) d /\ dof_owned_by m p d /\ local_index_of (r p) d = Some (Z.of_nat l)) /\
  (forall d d' i i' l l', is_dof m (included m unk) d -> dof_owned_by m p d -> is_dof m (included m unk) d' -> dof_owned_by m p d' ->
     index_of (r p) d = Some i -> index_of (r p) d' = Some i' ->
     local_index_of (r p) d = Some l -> local_index_of (r p) d' = Some l' -> (i < i' <-> (l < l')%Z)) /\
  (forall z, globalToProcessorLocalIndex (r p) z = (-1)%Z <->
     ~ exists d i, is_dof m (included m unk) d /\ dof_owned_by m p d /\ index_of (r p) d = Some i /\ z = Z.of_nat i).
Proof.
  intros Hp. split; [|split; [|split; [|split]]].
  - intros d H Ho. exists (off G (it d) + d_fn d), (off (Lp p) (it d) + d_fn d).
    split; [apply index_own; assumption|]. split; [apply local_own; assumption|]. split; [|apply toLocal_ok; assumption].
    rewrite (fa_local _ _ _ _ _ _ _ F p Hp). destruct (proj1 (dof_in_L p d Hp) (conj H Ho)) as (Hi & Hf).
    pose proof (off_bound item_eq_dec (w m) _ _ Hi). lia.
  - intros d d' l H Ho H' Ho' E E'. rewrite local_own in E, E' by assumption.
    destruct (proj1 (dof_in_L p d Hp) (conj H Ho)) as (Hi & Hf). destruct (proj1 (dof_in_L p d' Hp) (conj H' Ho')) as (Hi' & Hf').
    destruct (off_inj item_eq_dec (w m) (Lp p) (it d) (it d') (d_fn d) (d_fn d')) as (E1 & E2); try tauto; [|apply dof_ext; assumption].
    assert (X : Z.of_nat (off (Lp p) (it d) + d_fn d) = Z.of_nat (off (Lp p) (it d') + d_fn d')) by congruence. lia.
  - intros l Hl. rewrite (fa_local _ _ _ _ _ _ _ F p Hp) in Hl.
    destruct (off_surj item_eq_dec (w m) (Lp p) l (fa_L_nodup _ _ _ _ _ _ _ F p Hp) Hl) as (t & j & Ht & Hj & E).
    assert (Hd : is_dof m (included m unk) (mk t j) /\ dof_owned_by m p (mk t j)) by (apply (dof_in_L p); [exact Hp|]; rewrite it_mk; split; assumption).
    exists (mk t j). split; [apply Hd|]. split; [apply Hd|]. rewrite local_own by apply Hd. rewrite it_mk. cbn [d_fn mk]. rewrite E. reflexivity.
  - intros d d' i i' l l' H Ho H' Ho' E1 E2 E3 E4. rewrite index_own in E1, E2 by assumption. rewrite local_own in E3, E4 by assumption.
    destruct (proj1 (dof_in_L p d Hp) (conj H Ho)) as (Hi & Hf). destruct (proj1 (dof_in_L p d' Hp) (conj H' Ho')) as (Hi' & Hf').
    assert (i = off G (it d) + d_fn d) by congruence. assert (i' = off G (it d') + d_fn d') by congruence.
    assert (l = Z.of_nat (off (Lp p) (it d) + d_fn d)) by congruence. assert (l' = Z.of_nat (off (Lp p) (it d') + d_fn d')) by congruence.
    clear E1 E2 E3 E4. subst. split; intros X.
    + apply Nat2Z.inj_lt. apply order_preserved; assumption.
    + apply Nat2Z.inj_lt in X. destruct (Nat.lt_trichotomy (off G (it d) + d_fn d) (off G (it d') + d_fn d')) as [Y|[Y|Y]]; [exact Y| |].
      * exfalso. apply dof_in in H, H'. destruct (off_inj item_eq_dec (w m) G (it d) (it d') (d_fn d) (d_fn d')) as (A & B); try tauto.
        rewrite A, B in X. lia.
      * exfalso. pose proof (order_preserved p (it d') (it d) (d_fn d') (d_fn d) Hp Hi' Hi Hf' Hf Y). lia.
  - intros z. split.
    + intros E (d & i & H & Ho & Ei & ->). rewrite index_own in Ei by assumption.
      assert (i = off G (it d) + d_fn d) by congruence. subst. rewrite toLocal_ok in E by assumption. lia.
    + intros N. unfold globalToProcessorLocalIndex.
      destruct (findOwner_ok p z (seq 0 (totalNumberOfUnknowns_ (r p))) Hp) as [(d & H & Ho & Ez & _)|(E & _)]; [|  |exact E].
      * intros u Hin. apply in_seq in Hin. rewrite (fa_total _ _ _ _ _ _ _ F p Hp) in Hin. lia.
      * exfalso. apply N. exists d, (off G (it d) + d_fn d). split; [exact H|]. split; [exact Ho|]. split; [apply index_own; assumption|exact Ez].
Qed.
End Facts.

Lemma reset_succeeds layout p : p < n -> exists g, reset m n layout unk p = Some g.
Proof.
  intros Hp. rewrite reset_eq by exact VU. destruct layout.
  - destruct (unblocked_facts m n us (startOffsets unk) VM NDus (start_empty unk) (start_inc m unk) (unknowns_range m unk VU)) as (r' & Hr & _).
    exists (r' p). apply Hr, Hp.
  - destruct (processor_facts m n us (startOffsets unk) VM NDus (start_empty unk) (start_inc m unk) (unknowns_range m unk VU)) as (r' & Hr & _).
    exists (r' p). apply Hr, Hp.
  - destruct (global_facts m n us (startOffsets unk) VM NDus (start_empty unk) (start_inc m unk) (unknowns_range m unk VU)) as (r' & Hr & _).
    exists (r' p). apply Hr, Hp.
Qed.

(** * Contiguity *)
Definition previous (p : nat) : nat := sum (map (fun q => localNumberOfBasisFunctions_ (r q)) (seq 0 p)).
Lemma map_local G Lp D p : facts m n us r G Lp D -> p <= n -> sum (map (fun q => tot (Lp q)) (seq 0 p)) = previous p.
Proof.
  intros F Hp. unfold previous. f_equal. apply map_ext_in. intros q Hq. apply in_seq in Hq.
  symmetry. apply (fa_local _ _ _ _ _ _ _ F). lia.
Qed.
Lemma contiguous_of G Lp D p : facts m n us r G Lp D -> p < n ->
  (forall u, In u us -> blockStart_ (offsets_ (r p) u) = previous p + localOffset_ (offsets_ (r p) u)) ->
  forall i, (exists d, is_dof m (included m unk) d /\ dof_owned_by m p d /\ numbered m r d i) <->
    previous p <= i < previous p + localNumberOfBasisFunctions_ (r p).
Proof.
  intros F Hp Hb i. rewrite (fa_local _ _ _ _ _ _ _ F p Hp).
  assert (K : forall d, is_dof m (included m unk) d -> dof_owned_by m p d -> off G (it d) = previous p + off (Lp p) (it d)).
  { intros d H Ho. destruct (own_obj p d Ho H) as (_ & Hu & Hi). destruct (get_own _ _ _ F p _ _ _ Hp Hu Hi) as (_ & E & _).
    rewrite Hb in E by exact Hu. unfold it. lia. }
  split.
  - intros (d & H & Ho & Hn). apply (numbered_iff _ _ _ F) in Hn; [|exact H]. rewrite K in Hn by assumption.
    destruct (proj1 (dof_in_L _ _ _ F p d Hp) (conj H Ho)) as (Hi & Hf).
    pose proof (off_bound item_eq_dec (w m) _ _ Hi). lia.
  - intros Hi. destruct (off_surj item_eq_dec (w m) (Lp p) (i - previous p) (fa_L_nodup _ _ _ _ _ _ _ F p Hp)) as (t & j & Ht & Hj & E); [lia|].
    assert (Hd : is_dof m (included m unk) (mk t j) /\ dof_owned_by m p (mk t j)) by (apply (dof_in_L _ _ _ F p); [exact Hp|]; rewrite it_mk; split; assumption).
    exists (mk t j). split; [apply Hd|]. split; [apply Hd|]. apply (numbered_iff _ _ _ F); [apply Hd|]. rewrite K by apply Hd.
    rewrite it_mk. cbn [d_fn mk]. lia.
Qed.
Lemma process_contiguous layout p : (layout = SEQUENTIAL \/ layout = BLOCKED_PROCESSOR) -> indexing m n layout unk r -> p < n ->
  forall i, (exists d, is_dof m (included m unk) d /\ dof_owned_by m p d /\ numbered m r d i) <->
    previous p <= i < previous p + localNumberOfBasisFunctions_ (r p).
Proof.
  intros [->| ->] H Hp.
  - destruct (seq_layout H) as (F & E). eapply contiguous_of; [exact F|exact Hp|]. intros u Hu.
    destruct (E p u Hp Hu) as (E1 & E2). rewrite E1, E2, (map_local _ _ _ p F) by lia. lia.
  - destruct (proc_layout H) as (F & E & _). eapply contiguous_of; [exact F|exact Hp|]. intros u Hu.
    rewrite (E p u Hp Hu), (map_local _ _ _ p F) by lia. reflexivity.
Qed.
Lemma sum_mono f a b : a <= b -> sum (map f (seq 0 a)) <= sum (map f (seq 0 b)).
Proof. intros H. replace b with (a + (b - a)) by lia. rewrite seq_app, map_app, sum_app. lia. Qed.
Lemma sum_next f a b : a < b -> sum (map f (seq 0 a)) + f a <= sum (map f (seq 0 b)).
Proof.
  intros H. etransitivity; [|apply (sum_mono f (S a) b); lia]. replace (S a) with (a + 1) by lia.
  rewrite seq_app, map_app, sum_app. cbn. lia.
Qed.
Lemma in_block G Lp D d i : facts m n us r G Lp D -> is_dof m (included m unk) d -> numbered m r d i ->
  exists p, p < n /\ dof_owned_by m p d /\ In (d_unknown d) us /\ blockStart_ (offsets_ (r p) (d_unknown d)) <= i <
     blockStart_ (offsets_ (r p) (d_unknown d)) + tot (D p (d_unknown d)).
Proof.
  intros F H Hn. pose proof Hn as (p & Ho & _). destruct (own_obj p d Ho H) as (Hp & Hu & Hi). exists p.
  apply (numbered_iff _ _ _ F) in Hn; [|exact H]. destruct (get_own _ _ _ F p _ _ _ Hp Hu Hi) as (_ & _ & HD).
  change (d_kind d, d_id d, d_unknown d) with (it d) in HD. rewrite (off_G _ _ _ F p _ _ Hp Hu HD) in Hn.
  pose proof (off_bound item_eq_dec (w m) _ _ HD). apply (dof_in _ _ _ F) in H. split; [exact Hp|]. split; [exact Ho|]. split; [exact Hu|]. lia.
Qed.
Lemma unknowns_ordered_global : indexing m n BLOCKED_GLOBAL unk r -> forall d d' i i',
  is_dof m (included m unk) d -> is_dof m (included m unk) d' -> numbered m r d i -> numbered m r d' i' ->
  d_unknown d < d_unknown d' -> i < i'.
Proof.
  intros HI d d' i i' H H' Hn Hn' L. destruct (glob_layout HI) as (F & E).
  destruct (in_block _ _ _ d i F H Hn) as (p & Hp & _ & Hu & B). destruct (in_block _ _ _ d' i' F H' Hn') as (q & Hq & _ & Hu' & B').
  destruct (sorted_split us _ _ (sortedUnknowns_sorted m unk ND) Hu Hu' L) as (a & b & c & Es).
  rewrite (E p a _ _ Hp Es) in B. rewrite (E q (a ++ d_unknown d :: b) (d_unknown d') c Hq) in B' by (rewrite <- app_assoc; exact Es).
  rewrite map_app, sum_app in B'. cbn [map] in B'. change (sum (?a :: ?l)) with (a + sum l) in B'.
  pose proof (sum_next (fun q => cnt m q (d_unknown d)) p n Hp) as X. cbn beta in X. unfold cnt at 2 in X. lia.
Qed.
Lemma processes_ordered_global : indexing m n BLOCKED_GLOBAL unk r -> forall d d' i i' p q,
  is_dof m (included m unk) d -> is_dof m (included m unk) d' -> numbered m r d i -> numbered m r d' i' ->
  d_unknown d = d_unknown d' -> dof_owned_by m p d -> dof_owned_by m q d' -> p < q -> i < i'.
Proof.
  intros HI d d' i i' p q H H' Hn Hn' L Ho Ho' Hpq. destruct (glob_layout HI) as (F & E).
  destruct (in_block _ _ _ d i F H Hn) as (p' & Hp & HO & Hu & B). destruct (in_block _ _ _ d' i' F H' Hn') as (q' & Hq & HO' & Hu' & B').
  assert (p' = p) by (eapply owned_unique; eassumption). assert (q' = q) by (eapply owned_unique; eassumption). subst p' q'.
  rewrite <- L in *. apply in_split in Hu. destruct Hu as (a & b & Es).
  rewrite (E p a _ _ Hp Es) in B. rewrite (E q a _ _ Hq Es) in B'.
  pose proof (sum_next (fun q => cnt m q (d_unknown d)) p q Hpq) as X. cbn beta in X. unfold cnt at 2 in X. lia.
Qed.
Lemma unknowns_ordered_processor : indexing m n BLOCKED_PROCESSOR unk r -> forall p d d' i i',
  is_dof m (included m unk) d -> is_dof m (included m unk) d' -> dof_owned_by m p d -> dof_owned_by m p d' ->
  numbered m r d i -> numbered m r d' i' -> d_unknown d < d_unknown d' -> i < i'.
Proof.
  intros HI p d d' i i' H H' Ho Ho' Hn Hn' L. destruct (proc_layout HI) as (F & E & E').
  destruct (in_block _ _ _ d i F H Hn) as (p' & Hp & HO & Hu & B). destruct (in_block _ _ _ d' i' F H' Hn') as (q' & Hq & HO' & Hu' & B').
  assert (p' = p) by (eapply owned_unique; eassumption). assert (q' = p) by (eapply owned_unique; eassumption). subst p' q'.
  destruct (sorted_split us _ _ (sortedUnknowns_sorted m unk ND) Hu Hu' L) as (a & b & c & Es).
  rewrite (E p _ Hp Hu), (E' p a _ _ Hp Es) in B. rewrite (E p _ Hp Hu'), (E' p (a ++ d_unknown d :: b) (d_unknown d') c Hq) in B' by (rewrite <- app_assoc; exact Es).
  rewrite map_app, sum_app in B'. cbn [map] in B'. change (sum (?a :: ?l)) with (a + sum l) in B'. unfold cnt in *. lia.
Qed.
Lemma off_withU k x a b c u e : NoDup (a ++ (k, x) :: b) -> NoDup us -> us = c ++ u :: e ->
  off (withU us (a ++ (k, x) :: b)) (k, x, u) = tot (withU us a) + sum (map (fun v => w m (k, x, v)) c).
Proof.
  intros Na Nu E. unfold withU. rewrite flat_map_app. cbn [flat_map]. rewrite off_app_r.
  - f_equal. rewrite off_app_l.
    + rewrite E, map_app, off_app_r.
      * cbn [map GlobalIndexing_proofs.off]. match goal with |- context [if ?d then _ else _] => destruct d as [_|Hne]; [|exfalso; apply Hne; reflexivity] end. rewrite Nat.add_0_r.
        clear. induction c as [|v c IH]; cbn; [reflexivity|]. rewrite IH. reflexivity.
      * intros Hi. apply in_map_iff in Hi. destruct Hi as (v & Ev & Hv). inversion Ev; subst v. rewrite E in Nu.
        clear -Nu Hv. induction c as [|y c IH]; [destruct Hv|]. cbn in Nu. inversion Nu; subst. destruct Hv as [->|Hv]; [|auto].
        apply H1. rewrite in_app_iff. right. left. reflexivity.
    + apply in_map_iff. exists u. split; [reflexivity|]. rewrite E, in_app_iff. right. left. reflexivity.
  - intros Hi. apply in_flat_map in Hi. destruct Hi as (ob & Hob & Hi). apply in_map_iff in Hi. destruct Hi as (v & Ev & Hv).
    inversion Ev; subst. clear -Na Hob. induction a as [|y a IH]; [destruct Hob|]. cbn in Na. inversion Na; subst. destruct Hob as [->|Hob]; [|auto].
    apply H1. rewrite in_app_iff. right. left. reflexivity.
Qed.
Lemma sequential_object : indexing m n SEQUENTIAL unk r -> forall p k x u v,
  mesh_object m k x -> owned_by m p k x -> In u (included m unk) -> In v (included m unk) -> u < v ->
  (forall t, In t (included m unk) -> u < t -> v <= t) ->
  exists i, getGlobalIndex (r p) k x u = Some i /\
            getGlobalIndex (r p) k x v = Some (i + localNumberOfBasisFunctions m k x u).
Proof.
  intros HI p k x u v HM Ho Hu Hv L Hn. destruct (seq_layout HI) as (F & E).
  destruct (owned_exists m n VM k x HM) as (q & Hq & Hoq). assert (q = p) by (eapply owned_unique; eassumption). subst q.
  apply sortedUnknowns_in in Hu. apply sortedUnknowns_in in Hv.
  assert (Hi : In (k, x) (objs m p)) by (apply (in_objs m n VM); split; assumption).
  destruct (get_own _ _ _ F p k x u Hq Hu Hi) as (E1 & _ & D1). destruct (get_own _ _ _ F p k x v Hq Hv Hi) as (E2 & _ & D2).
  exists (off (flat_map seqL (seq 0 n)) (k, x, u)). split; [exact E1|]. rewrite E2. f_equal.
  rewrite (off_G _ _ _ F p u) by assumption. rewrite (off_G _ _ _ F p v) by assumption.
  destruct (E p u Hq Hu) as (_ & ->). destruct (E p v Hq Hv) as (_ & ->).
  destruct (sorted_split us u v (sortedUnknowns_sorted m unk ND) Hu Hv L) as (a & b & c & Es).
  assert (b = []) as ->.
  { destruct b as [|t b]; [reflexivity|]. exfalso. pose proof (sortedUnknowns_sorted m unk ND) as S. rewrite Es in S.
    assert (Ht : In t us) by (rewrite Es, in_app_iff; right; right; left; reflexivity).
    clear -S Ht Hn. induction a as [|y a IH]; cbn in S; inversion S as [|z l S' HF Ez]; subst; [|auto].
    rewrite Forall_forall in HF. assert (u < t) by (apply HF; left; reflexivity).
    apply sortedUnknowns_in in Ht. specialize (Hn t Ht H). inversion S' as [|z' l' S'' HF' Ez']; subst. rewrite Forall_forall in HF'.
    assert (t < v) by (apply HF'; rewrite in_app_iff; right; left; reflexivity). lia. }
  pose proof (objs_nodup m n VM p) as No. apply in_split in Hi. destruct Hi as (o1 & o2 & Eo). unfold seqL. rewrite Eo in *.
  rewrite (off_withU k x o1 o2 a u _ No NDus Es).
  rewrite (off_withU k x o1 o2 (a ++ [u]) v c No NDus) by (rewrite <- app_assoc; exact Es).
  rewrite map_app, sum_app. cbn. unfold w. cbn. lia.
Qed.
End Main.

(** * Index lists of elements and faces *)
Definition writes (op : list nat * nat -> option (list nat * nat)) (X : list nat) : Prop :=
  forall A R, length X <= length R -> op (A ++ R, length A) = Some ((A ++ X) ++ skipn (length X) R, length (A ++ X)).
Lemma write_app (A : list nat) y R x : write (A ++ y :: R) (length A) x = Some (A ++ x :: R).
Proof. induction A as [|a A IH]; cbn; [reflexivity|]. rewrite IH. reflexivity. Qed.
Lemma writes_nil : writes Some [].
Proof. intros A R _. cbn. rewrite app_nil_r. reflexivity. Qed.
Lemma skipn_skipn' {A} a : forall b (l : list A), skipn a (skipn b l) = skipn (b + a) l.
Proof.
  induction b as [|b IH]; intros [|x l]; cbn; try reflexivity; [destruct a; reflexivity|apply IH].
Qed.
Lemma writes_bind f g X Y : writes f X -> writes g Y -> writes (fun s => bind (f s) g) (X ++ Y).
Proof.
  intros HX HY A R L. rewrite app_length in L. rewrite HX by lia. cbn [bind]. rewrite HY by (rewrite skipn_length; lia).
  rewrite skipn_skipn', !app_length, <- !app_assoc, <- Nat.add_assoc. reflexivity.
Qed.
Lemma writes_ext f g X : (forall s, f s = g s) -> writes f X -> writes g X.
Proof. intros E H A R L. rewrite <- E. apply H, L. Qed.
Lemma writes_one x : writes (fun s => match write (fst s) (snd s) x with None => None | Some v => Some (v, S (snd s)) end) [x].
Proof.
  intros A R L. destruct R as [|y R]; [cbn in L; lia|]. cbn [fst snd]. rewrite write_app. cbn. rewrite <- app_assoc, app_length.
  cbn. do 2 f_equal. lia.
Qed.
Lemma for_from_writes b c : forall start, writes (for_from start c
  (fun i s => match write (fst s) (snd s) (b + i) with None => None | Some v => Some (v, S (snd s)) end)) (map (fun i => b + i) (seq start c)).
Proof.
  induction c as [|c IH]; intros start; cbn [for_from seq map]; [apply writes_nil|].
  change ((b + start) :: ?l) with ([b + start] ++ l).
  eapply writes_ext; [|apply writes_bind; [apply (writes_one (b + start))|apply (IH (S start))]].
  intros s. cbn [bind]. destruct (write (fst s) (snd s) (b + start)); reflexivity.
Qed.
Section Lists.
Variables (m : Mesh) (g : GlobalIndexing) (get : Kind -> nat -> nat -> nat).
Definition rangeOf (k : Kind) (u x : nat) : list nat := map (fun i => get k x u + i) (seq 0 (localNumberOfBasisFunctions m k x u)).
Lemma writeRange_ok k u x : getGlobalIndex g k x u = Some (get k x u) -> writes (writeRange m g k u x) (rangeOf k u x).
Proof. intros E A R L. unfold writeRange. rewrite E. apply for_from_writes. exact L. Qed.
Lemma writeRanges_ok k u xs : (forall x, In x xs -> getGlobalIndex g k x u = Some (get k x u)) ->
  writes (writeRanges m g k u xs) (flat_map (rangeOf k u) xs).
Proof.
  induction xs as [|x xs IH]; intros H; cbn [writeRanges flat_map]; [apply writes_nil|].
  eapply writes_ext; [|apply writes_bind; [apply writeRange_ok; apply H; left; reflexivity|apply IH; intros y Hy; apply H; right; exact Hy]].
  intros s. unfold bind. destruct (writeRange m g k u x s); reflexivity.
Qed.
Definition unknownList (e u : nat) : list nat := flat_map (fun o : object => rangeOf (fst o) u (snd o)) (objects_of_element m e).
Lemma flat_map_pair k u xs : flat_map (fun o : object => rangeOf (fst o) u (snd o)) (map (pair k) xs) = flat_map (rangeOf k u) xs.
Proof. induction xs as [|x xs IH]; cbn; [reflexivity|]. rewrite IH. reflexivity. Qed.
Lemma writeUnknown_ok e u : (forall k x, In (k, x) (objects_of_element m e) -> getGlobalIndex g k x u = Some (get k x u)) ->
  writes (writeUnknown m g e u) (unknownList e u).
Proof.
  intros H. unfold unknownList, objects_of_element. cbn [flat_map fst snd]. rewrite !flat_map_app, !flat_map_pair.
  unfold objects_of_element in H.
  eapply writes_ext with (f := fun s => bind (writeRange m g KElement u e s) (fun s => bind (writeRanges m g KFace u (objectsOf m KFace e) s) (fun s =>
    bind (writeRanges m g KEdge u (objectsOf m KEdge e) s) (fun s => if 1 <? dimension m then writeRanges m g KNode u (objectsOf m KNode e) s else Some s)))); [reflexivity|].
  apply writes_bind; [apply writeRange_ok, H; left; reflexivity|].
  apply writes_bind; [apply writeRanges_ok; intros x Hx; apply H; right; rewrite in_app_iff; left; apply in_map, Hx|].
  apply writes_bind; [apply writeRanges_ok; intros x Hx; apply H; right; rewrite !in_app_iff; right; left; apply in_map, Hx|].
  destruct (1 <? dimension m).
  - rewrite flat_map_pair. apply writeRanges_ok. intros x Hx. apply H. right. rewrite !in_app_iff. right. right. apply in_map, Hx.
  - apply writes_nil.
Qed.
Lemma loop_ok e (inc : nat -> bool) nu : forall start,
  (forall u, start <= u < start + nu -> inc u = true -> forall k x, In (k, x) (objects_of_element m e) -> getGlobalIndex g k x u = Some (get k x u)) ->
  writes (for_from start nu (fun u s => if inc u then writeUnknown m g e u s else Some s))
         (flat_map (unknownList e) (filter inc (seq start nu))).
Proof.
  induction nu as [|nu IH]; intros start H; cbn [for_from seq filter]; [apply writes_nil|].
  specialize (IH (S start)). destruct (inc start) eqn:E.
  - cbn [flat_map]. eapply writes_ext; [|apply writes_bind; [apply writeUnknown_ok; apply H; [lia|exact E]|apply IH; intros u Hu; apply H; lia]].
    intros s. unfold bind. destruct (writeUnknown m g e start s); reflexivity.
  - apply IH. intros u Hu. apply H. lia.
Qed.
Lemma unknownList_length e u : length (unknownList e u) = length (dofs_of_element m [u] e).
Proof.
  unfold unknownList, dofs_of_element. cbn [flat_map]. rewrite app_nil_r.
  induction (objects_of_element m e) as [|o l IH]; cbn; [reflexivity|]. rewrite !app_length, IH. f_equal.
  unfold rangeOf. rewrite !map_length. reflexivity.
Qed.
Lemma unknownsList_length e us : length (flat_map (unknownList e) us) = sum (map (fun u => length (dofs_of_element m [u] e)) us).
Proof.
  induction us as [|u us IH]; [reflexivity|]. cbn [flat_map map]. rewrite app_length, IH, unknownList_length. reflexivity.
Qed.
End Lists.

Lemma fold_cond (inc : nat -> bool) (f : nat -> nat) l : forall a, fold_left (fun acc u => if inc u then acc + f u else acc) l a = a + sum (map f (filter inc l)).
Proof.
  induction l as [|u l IH]; intros a; cbn; [lia|]. rewrite IH. destruct (inc u); cbn; [unfold sum; lia|reflexivity].
Qed.
Lemma fold_plain (f : nat -> nat) l : forall a, fold_left (fun acc u => acc + f u) l a = a + sum (map f l).
Proof. induction l as [|u l IH]; intros a; cbn; [lia|]. rewrite IH. unfold sum. lia. Qed.

Section Lists2.
Variables (m : Mesh) (n : nat) (unk : option (list nat)) (r : nat -> GlobalIndexing) (layout : Layout).
Hypothesis VM : valid_mesh n m.
Hypothesis ND : NoDup (included m unk).
Hypothesis VU : valid_unknowns m unk.
Hypothesis HI : indexing m n layout unk r.
Notation us := (sortedUnknowns m unk).
Variables (p : nat) (g : GlobalIndexing) (total : nat -> nat -> nat).
Hypothesis Hp : p < n.
Hypothesis Hinf : informed m r p g.
Hypothesis Htot : counts_all m total.

Lemma object_of_mesh e k x : In e (elements m) -> In (k, x) (objects_of_element m e) -> mesh_object m k x.
Proof.
  intros He H. unfold objects_of_element in H. destruct H as [H|H].
  - inversion H; subst. split; [exact I|]. exists x. split; [exact He|left; reflexivity].
  - assert (K : forall k', k' <> KElement -> In (k, x) (map (pair k') (objectsOf m k' e)) -> carries m k' -> mesh_object m k x).
    { intros k' Hk Hi C. apply in_map_iff in Hi. destruct Hi as (y & E & Hy). inversion E; subst. split; [exact C|]. exists e.
      split; [exact He|]. apply (vm_adjacency _ _ VM) in Hy; try assumption. destruct k; try exact Hy. congruence. }
    rewrite !in_app_iff in H. destruct H as [H|[H|H]].
    + apply (K KFace); [discriminate|exact H|exact I].
    + apply (K KEdge); [discriminate|exact H|exact I].
    + destruct (Nat.ltb_spec 1 (dimension m)); [|destruct H]. apply (K KNode); [discriminate|exact H|exact H0].
Qed.
Lemma filter_inc : filter (fun u => includedInIndex_ (offsets_ g u)) (seq 0 (totalNumberOfUnknowns_ g)) = us /\
  totalNumberOfUnknowns_ g = numberOfUnknowns m /\ includedUnknowns_ g = us.
Proof.
  destruct (any_layout m n unk r VM ND VU layout HI) as (G & Lp & D & F). destruct Hinf as (E1 & E2 & E3 & _).
  rewrite (fa_total _ _ _ _ _ _ _ F p Hp) in E1. rewrite (fa_us _ _ _ _ _ _ _ F p Hp) in E2.
  split; [|split; assumption]. rewrite E1. apply sorted_ext; [| |].
  - assert (S : forall l, StronglySorted lt l -> StronglySorted lt (filter (fun u => includedInIndex_ (offsets_ g u)) l)).
    { induction 1 as [|a l Hl IH Ha]; cbn; [constructor|]. destruct (includedInIndex_ (offsets_ g a)); [|exact IH]. constructor; [exact IH|].
      rewrite Forall_forall in *. intros b Hb. apply Ha. apply filter_In in Hb. tauto. }
    apply S, seq_sorted.
  - apply sortedUnknowns_sorted, ND.
  - intros u. rewrite filter_In, in_seq, E3. split.
    + intros (Hu & Hin). apply (fa_inc _ _ _ _ _ _ _ F p u Hp); [lia|exact Hin].
    + intros Hu. pose proof (fa_range _ _ _ _ _ _ _ F u Hu). split; [lia|]. apply (fa_inc _ _ _ _ _ _ _ F p u Hp); assumption.
Qed.
Definition getv (k : Kind) (x u : nat) : nat := match getGlobalIndex g k x u with Some i => i | None => 0 end.
Lemma get_visible e k x u : In e (elements m) -> visible m p e = true -> In (k, x) (objects_of_element m e) -> In u us ->
  getGlobalIndex g k x u = Some (getv k x u) /\ exists q, owned_by m q k x /\ getGlobalIndex (r q) k x u = Some (getv k x u).
Proof.
  intros He Hv Ho Hu. destruct (any_layout m n unk r VM ND VU layout HI) as (G & Lp & D & F). destruct Hinf as (_ & _ & _ & E4).
  destruct (E4 e k x u He Hv Ho) as (q & Hq & E).
  { rewrite (fa_us _ _ _ _ _ _ _ F p Hp). exact Hu. }
  pose proof (object_of_mesh e k x He Ho) as HM. destruct (owned_exists m n VM k x HM) as (q' & Hq' & Ho').
  assert (q' = q) by (eapply owned_unique; eassumption). subst q'.
  destruct (get_own m n unk r _ _ _ F q k x u Hq' Hu) as (E' & _ & _).
  { apply (in_objs m n VM). split; assumption. }
  unfold getv. rewrite E, E'. split; [reflexivity|]. exists q. split; [exact Hq|exact E'].
Qed.
Definition elemList (e : nat) : list nat := flat_map (unknownList m getv e) us.
Lemma atOffset_ok e offset old : In e (elements m) -> visible m p e = true -> offset <= length old ->
  exists rest, getGlobalIndicesAt m g total e offset old = Some ((firstn offset old ++ elemList e) ++ rest, offset + length (elemList e)).
Proof.
  intros He Hv L. destruct filter_inc as (E1 & E2 & E3).
  assert (Len : length (elemList e) = sum (map (total e) us)).
  { unfold elemList. rewrite unknownsList_length. f_equal. apply map_ext. intros u. symmetry. apply Htot, He. }
  unfold getGlobalIndicesAt.
  rewrite (fold_cond (fun u => includedInIndex_ (offsets_ g u)) (total e)), E1, E3, fold_plain, <- Len. cbn [Nat.add].
  set (v := if length old <? offset + length (elemList e) then _ else _).
  assert (Hvv : firstn offset v = firstn offset old /\ offset + length (elemList e) <= length v).
  { unfold v. destruct (Nat.ltb_spec (length old) (offset + length (elemList e))); [|split; [reflexivity|lia]].
    rewrite vresize_length. split; [|lia]. unfold vresize. rewrite firstn_app, firstn_firstn, firstn_length.
    rewrite Nat.min_l by lia. replace (offset - _) with 0 by lia. cbn. apply app_nil_r. }
  destruct Hvv as (V1 & V2).
  pose proof (loop_ok m g getv e (fun u => includedInIndex_ (offsets_ g u)) (totalNumberOfUnknowns_ g) 0) as HW.
  rewrite E1 in HW.
  assert (HW' : writes (for_from 0 (totalNumberOfUnknowns_ g) (fun u s => if includedInIndex_ (offsets_ g u) then writeUnknown m g e u s else Some s)) (elemList e)).
  { apply HW. intros u Hu Hin k x Ho. apply (get_visible e); try assumption.
    rewrite <- E1. apply filter_In. split; [apply in_seq; lia|exact Hin]. }
  clear HW. specialize (HW' (firstn offset v) (skipn offset v)). rewrite firstn_skipn in HW'.
  assert (Lf : length (firstn offset v) = offset) by (rewrite firstn_length; lia). rewrite Lf in HW'.
  unfold for_loop. rewrite HW' by (rewrite skipn_length; lia).
  rewrite app_length, Lf, Nat.eqb_refl. rewrite V1. eexists. reflexivity.
Qed.
Lemma vresize_exact {A} (a b : list A) x : vresize (a ++ b) (length a) x = a.
Proof.
  unfold vresize. rewrite firstn_app, firstn_all, Nat.sub_diag. cbn. rewrite app_nil_r.
  replace (length a - length (a ++ b)) with 0 by (rewrite app_length; lia). cbn. apply app_nil_r.
Qed.
Lemma element_ok e old : In e (elements m) -> visible m p e = true ->
  getGlobalIndicesOfElement m g total e old = Some (elemList e).
Proof.
  intros He Hv. unfold getGlobalIndicesOfElement. destruct (atOffset_ok e 0 old He Hv) as (rest & ->); [lia|].
  cbn [firstn app Nat.add]. rewrite vresize_exact. reflexivity.
Qed.
Lemma face_ok l ri old : In l (elements m) -> visible m p l = true ->
  (forall e, ri = Some e -> In e (elements m) /\ visible m p e = true) ->
  getGlobalIndicesOfFace m g total l ri old = Some (elemList l ++ match ri with None => [] | Some e => elemList e end).
Proof.
  intros He Hv Hr. unfold getGlobalIndicesOfFace. destruct (atOffset_ok l 0 old He Hv) as (rest & ->); [lia|].
  cbn [firstn app Nat.add]. destruct ri as [e|]; [|rewrite vresize_exact, app_nil_r; reflexivity].
  destruct (Hr e eq_refl) as (He' & Hv'). destruct (atOffset_ok e (length (elemList l)) (elemList l ++ rest) He' Hv') as (rest' & ->).
  { rewrite app_length. lia. }
  rewrite firstn_app, firstn_all, Nat.sub_diag. cbn [firstn]. rewrite app_nil_r, <- app_length, vresize_exact. reflexivity.
Qed.
Lemma Forall2_flat_map {A B C} (R : B -> C -> Prop) (f : A -> list B) (h : A -> list C) l :
  (forall a, In a l -> Forall2 R (f a) (h a)) -> Forall2 R (flat_map f l) (flat_map h l).
Proof.
  induction l as [|a l IH]; cbn; intros H; [constructor|]. apply Forall2_app; [apply H; left; reflexivity|].
  apply IH. intros b Hb. apply H. right. exact Hb.
Qed.
Lemma elemList_numbered e : In e (elements m) -> visible m p e = true -> Forall2 (numbered m r) (dofs_of_element m us e) (elemList e).
Proof.
  intros He Hv. unfold dofs_of_element, elemList. apply Forall2_flat_map. intros u Hu. unfold unknownList.
  apply Forall2_flat_map. intros (k, x) Ho. unfold rangeOf. cbn [fst snd].
  destruct (get_visible e k x u He Hv Ho Hu) as (_ & q & Hq & E).
  induction (seq 0 (localNumberOfBasisFunctions m k x u)) as [|i l IH]; cbn; constructor; [|exact IH].
  exists q. split; [exact Hq|]. unfold index_of. cbn. rewrite E. reflexivity.
Qed.
Lemma objects_nodup e : In e (elements m) -> NoDup (objects_of_element m e).
Proof.
  intros He. unfold objects_of_element.
  assert (K : forall k, NoDup (map (pair k) (objectsOf m k e))).
  { intros k. apply Injective_map_NoDup; [intros a b E; congruence|]. apply (vm_objects_distinct _ _ VM), He. }
  assert (I : forall k k' x, In (k, x) (map (pair k') (objectsOf m k' e)) -> k = k').
  { intros k k' x H. apply in_map_iff in H. destruct H as (y & E & _). congruence. }
  assert (IN : forall k x, In (k, x) (if 1 <? dimension m then map (pair KNode) (objectsOf m KNode e) else []) -> k = KNode).
  { intros k x. destruct (1 <? dimension m); [apply I|intros []]. }
  constructor.
  - rewrite !in_app_iff. intros [H|[H|H]]; [apply I in H|apply I in H|apply IN in H]; discriminate.
  - apply NoDup_app; [apply K| |].
    + apply NoDup_app; [apply K|destruct (1 <? dimension m); [apply K|constructor]|].
      intros (k, x) H1 H2. apply I in H1. apply IN in H2. congruence.
    + intros (k, x) H1 H2. apply I in H1. apply in_app_iff in H2. destruct H2 as [H2|H2]; [apply I in H2|apply IN in H2]; congruence.
Qed.
Lemma dofs_nodup e : In e (elements m) -> NoDup (dofs_of_element m us e).
Proof.
  intros He. unfold dofs_of_element. apply NoDup_flat_map; [apply sorted_nodup, sortedUnknowns_sorted, ND| |].
  - intros u _. apply NoDup_flat_map; [apply objects_nodup, He| |].
    + intros (k, x) _. apply Injective_map_NoDup; [intros a b E; inversion E; reflexivity|apply seq_NoDup].
    + intros (k, x) (k', x') z _ _ H1 H2. apply in_map_iff in H1, H2. destruct H1 as (i & <- & _), H2 as (j & E & _). inversion E. reflexivity.
  - intros u v z _ _ H1 H2. apply in_flat_map in H1, H2. destruct H1 as ((k, x) & _ & H1), H2 as ((k', x') & _ & H2).
    apply in_map_iff in H1, H2. destruct H1 as (i & <- & _), H2 as (j & E & _). inversion E. reflexivity.
Qed.
Lemma dofs_are_dofs e d : In e (elements m) -> In d (dofs_of_element m us e) -> is_dof m (included m unk) d.
Proof.
  intros He H. unfold dofs_of_element in H. apply in_flat_map in H. destruct H as (u & Hu & H). apply in_flat_map in H.
  destruct H as ((k, x) & Ho & H). apply in_map_iff in H. destruct H as (i & <- & Hi). apply in_seq in Hi. cbn in Hi.
  split; [cbn; apply (object_of_mesh e); assumption|]. split; [apply sortedUnknowns_in, Hu|cbn; lia].
Qed.
Lemma elemList_nodup e : In e (elements m) -> visible m p e = true -> NoDup (elemList e).
Proof.
  intros He Hv. destruct (any_layout m n unk r VM ND VU layout HI) as (G & Lp & D & F).
  destruct (global_bijection m n unk r VM _ _ _ F) as (N & _ & _ & _ & Inj & _).
  pose proof (elemList_numbered e He Hv) as H2. pose proof (dofs_nodup e He) as Nd.
  assert (Hd : forall d, In d (dofs_of_element m us e) -> is_dof m (included m unk) d) by (intros d; apply dofs_are_dofs, He).
  induction H2 as [|d i ds is Hdi H2 IH]; constructor.
  - inversion Nd as [|a b Hn Nd' Eq]; subst. intros Hi. apply Hn.
    clear IH Nd. assert (exists d', In d' ds /\ numbered m r d' i) as (d' & Hd' & Hn').
    { clear -H2 Hi. induction H2 as [|d' j ds is Hj H2 IH]; [destruct Hi|]. destruct Hi as [->|Hi].
      - exists d'. split; [left; reflexivity|exact Hj].
      - destruct (IH Hi) as (x & Hx & Hxn). exists x. split; [right; exact Hx|exact Hxn]. }
    assert (d = d') as ->; [|exact Hd']. apply (Inj d d' i); try assumption; apply Hd; [left; reflexivity|right; exact Hd'].
  - inversion Nd; subst. apply IH; [assumption|]. intros d' Hd'. apply Hd. right. exact Hd'.
Qed.
End Lists2.

(** * Examples and refutations *)
Lemma two_valid : valid_mesh 2 twoElements.
Proof.
  constructor; cbn.
  - intros e [<-|[<-|[]]]; cbn; lia.
  - intros p e. destruct p as [|[|p]]; cbn; split; intuition (subst; try lia; auto).
  - intros [|[|p]]; repeat constructor; cbn; intuition discriminate.
  - intros k e [<-|[<-|[]]]; destruct k; repeat constructor; cbn; intuition discriminate.
  - intros k e x Hk [<-|[<-|[]]]; destruct k; try congruence; do 6 (destruct x as [|x]; [cbn; intuition congruence|]); cbn; intuition congruence.
  - intros k e x Hk H. destruct k; try contradiction; do 6 (destruct x as [|x]; [cbn in H; intuition congruence|]); cbn in H; contradiction.
  - reflexivity.
  - reflexivity.
Qed.
Lemma answer_indexing m n layout unk : valid_mesh n m -> NoDup (included m unk) -> valid_unknowns m unk ->
  indexing m n layout unk (answer m n layout unk).
Proof.
  intros VM ND VU p Hp. destruct (reset_succeeds m n unk VM ND VU layout p Hp) as (g & E). unfold answer. rewrite E. reflexivity.
Qed.
Lemma two_example layout : valid_mesh 2 twoElements /\ NoDup (included twoElements (Some [1; 0])) /\ valid_unknowns twoElements (Some [1; 0]) /\
  indexing twoElements 2 layout (Some [1; 0]) (answer twoElements 2 layout (Some [1; 0])) /\
  globalNumberOfBasisFunctions_ (answer twoElements 2 layout (Some [1; 0]) 0) = 17.
Proof.
  assert (A : NoDup [1; 0]) by (repeat constructor; cbn; intuition discriminate).
  assert (B : valid_unknowns twoElements (Some [1; 0])) by (split; [discriminate|]; cbn; intuition lia).
  split; [apply two_valid|]. split; [exact A|]. split; [exact B|]. split; [|destruct layout; reflexivity].
  apply answer_indexing; [apply two_valid|exact A|exact B].
Qed.
Lemma self_not_bijective layout : ~ bijective selfNeighbour 1 [0] (answer selfNeighbour 1 layout None).
Proof.
  intros (N & HN & H1 & H2 & H3 & H4).
  assert (N = 2) as -> by (rewrite <- (HN 0) by lia; destruct layout; reflexivity).
  assert (D : forall d i, is_dof selfNeighbour [0] d -> numbered selfNeighbour (answer selfNeighbour 1 layout None) d i -> i = 1).
  { intros (k, x, u, f) i (Hm & Hu & Hf) (p & Ho & Hi). cbn in *. destruct Hu as [<-|[]].
    destruct k; cbn in Hf; try lia. assert (f = 0) by lia. subst f. destruct Hm as (_ & e & He & Ha). cbn in Ha.
    destruct x as [|x]; [|destruct Ha]. destruct Ho as (e' & Hh & Hp). cbn in Hh, Hp. subst p.
    destruct layout; cbn in Hi; inversion Hi; reflexivity. }
  destruct (H4 0) as (d & Hd & Hn); [lia|]. specialize (D d 0 Hd Hn). discriminate.
Qed.
Definition oneElement : Mesh := {|
  dimension := 2; numberOfUnknowns := 1; elements := [0]; owner := fun _ => 0;
  localElements := fun p => match p with 0 => [0] | _ => [] end;
  objectsOf := fun _ _ => []; elementsOf := fun _ _ => []; visible := fun _ _ => true;
  localNumberOfBasisFunctions := fun k _ _ => match k with KElement => 1 | _ => 0 end
|}.
Lemma one_valid : valid_mesh 1 oneElement.
Proof.
  constructor; cbn.
  - intros; lia.
  - intros p e. destruct p; cbn; intuition lia.
  - intros [|p]; repeat constructor; cbn; tauto.
  - intros; constructor.
  - tauto.
  - tauto.
  - reflexivity.
  - reflexivity.
Qed.
Lemma duplicate_not_bijective layout : ~ bijective oneElement 1 [0; 0] (answer oneElement 1 layout (Some [0; 0])).
Proof.
  intros (N & HN & H1 & H2 & H3 & H4).
  assert (N = 2) as -> by (rewrite <- (HN 0) by lia; destruct layout; reflexivity).
  assert (D : forall d i, is_dof oneElement [0; 0] d -> numbered oneElement (answer oneElement 1 layout (Some [0; 0])) d i -> i = 1).
  { intros (k, x, u, f) i (Hm & Hu & Hf) (p & Ho & Hi). cbn in *. destruct Hm as (_ & e & He & Ha). cbn in He, Ha.
    destruct k; cbn in Hf; try lia. assert (f = 0) by lia. subst f. destruct He as [<-|[]]. destruct Ha as [Ha|[]]. subst x.
    assert (u = 0) by intuition. subst u. destruct Ho as (e' & Hh & Hp). cbn in Hp. subst p.
    destruct layout; cbn in Hi; inversion Hi; reflexivity. }
  destruct (H4 0) as (d & Hd & Hn); [lia|]. specialize (D d 0 Hd Hn). discriminate.
Qed.
Lemma self_rest : (forall k e x, k <> KElement -> In e (elements selfNeighbour) ->
    (In x (objectsOf selfNeighbour k e) <-> In e (elementsOf selfNeighbour k x))) /\
  exists g, reset selfNeighbour 1 SEQUENTIAL None 0 = Some g.
Proof.
  split; [|eexists; reflexivity]. intros k e x Hk [<-|[]]. destruct k; cbn; try tauto. destruct x; cbn; intuition congruence.
Qed.
Lemma informed_one_process m layout unk r : valid_mesh 1 m -> NoDup (included m unk) -> valid_unknowns m unk ->
  indexing m 1 layout unk r -> informed m r 0 (r 0).
Proof.
  intros VM ND VU HI. repeat split. intros e k x u He Hv Ho Hu. pose proof (object_of_mesh m 1 VM e k x He Ho) as HM.
  destruct (owned_exists m 1 VM k x HM) as (q & Hq & Hoq). assert (q = 0) by lia. subst q. exists 0. split; [exact Hoq|reflexivity].
Qed.
Lemma one_unknowns : valid_unknowns oneElement (Some [0; 0]).
Proof. split; [discriminate|]. cbn. intuition lia. Qed.
Lemma reset_valid m n layout us p g : reset m n layout (Some us) p = Some g -> valid_unknowns m (Some us).
Proof.
  intros H. unfold reset in H.
  destruct ((0 <? length us) && forallb (fun u => u <? numberOfUnknowns m) us) eqn:E; [|discriminate].
  apply andb_prop in E. destruct E as (E1 & E2). split; [destruct us; [discriminate|congruence]|].
  intros u Hu. rewrite forallb_forall in E2. apply Nat.ltb_lt, E2, Hu.
Qed.
Lemma bijection m n layout unk r : valid_mesh n m -> NoDup (included m unk) -> valid_unknowns m unk ->
  indexing m n layout unk r -> bijective m n (included m unk) r.
Proof.
  intros VM ND VU HI. destruct (any_layout m n unk r VM ND VU layout HI) as (G & Lp & D & F).
  exact (global_bijection m n unk r VM _ _ _ F).
Qed.
Lemma local_indices m n layout unk r p : valid_mesh n m -> NoDup (included m unk) -> valid_unknowns m unk ->
  indexing m n layout unk r -> p < n ->
  let mine d := is_dof m (included m unk) d /\ dof_owned_by m p d in
  (forall d, mine d -> exists i l, index_of (r p) d = Some i /\ local_index_of (r p) d = Some (Z.of_nat l) /\
     l < localNumberOfBasisFunctions_ (r p) /\ globalToProcessorLocalIndex (r p) (Z.of_nat i) = Z.of_nat l) /\
  (forall d d' l, mine d -> mine d' -> local_index_of (r p) d = Some l -> local_index_of (r p) d' = Some l -> d = d') /\
  (forall l, l < localNumberOfBasisFunctions_ (r p) -> exists d, mine d /\ local_index_of (r p) d = Some (Z.of_nat l)).
Proof.
  intros VM ND VU HI Hp. destruct (any_layout m n unk r VM ND VU layout HI) as (G & Lp & D & F).
  destruct (local_bijection m n unk r VM _ _ _ F p Hp) as (H1 & H2 & H3 & _). cbn zeta. split; [|split].
  - intros d (A & B). apply H1; assumption.
  - intros d d' l (A & B) (A' & B'). apply H2; assumption.
  - intros l Hl. destruct (H3 l Hl) as (d & A & B & C). exists d. tauto.
Qed.
Lemma not_owned m n layout unk r p : valid_mesh n m -> NoDup (included m unk) -> valid_unknowns m unk ->
  indexing m n layout unk r -> p < n ->
  forall z, globalToProcessorLocalIndex (r p) z = (-1)%Z <->
    ~ exists d i, is_dof m (included m unk) d /\ dof_owned_by m p d /\ index_of (r p) d = Some i /\ z = Z.of_nat i.
Proof.
  intros VM ND VU HI Hp. destruct (any_layout m n unk r VM ND VU layout HI) as (G & Lp & D & F).
  apply (local_bijection m n unk r VM _ _ _ F p Hp).
Qed.
Lemma same_order m n layout unk r p : valid_mesh n m -> NoDup (included m unk) -> valid_unknowns m unk ->
  indexing m n layout unk r -> p < n ->
  forall d d' i i' l l',
    is_dof m (included m unk) d -> dof_owned_by m p d -> is_dof m (included m unk) d' -> dof_owned_by m p d' ->
    index_of (r p) d = Some i -> index_of (r p) d' = Some i' ->
    local_index_of (r p) d = Some l -> local_index_of (r p) d' = Some l' -> (i < i' <-> (l < l')%Z).
Proof.
  intros VM ND VU HI Hp. destruct (any_layout m n unk r VM ND VU layout HI) as (G & Lp & D & F).
  apply (local_bijection m n unk r VM _ _ _ F p Hp).
Qed.
Lemma element_indices m n layout unk r p g total e old :
  valid_mesh n m -> NoDup (included m unk) -> valid_unknowns m unk ->
  indexing m n layout unk r -> p < n -> informed m r p g -> counts_all m total ->
  In e (elements m) -> visible m p e = true ->
  exists indices, getGlobalIndicesOfElement m g total e old = Some indices /\ NoDup indices /\
    exists us, StronglySorted lt us /\ (forall u, In u us <-> In u (included m unk)) /\
      Forall2 (numbered m r) (dofs_of_element m us e) indices.
Proof.
  intros VM ND VU HI Hp Hinf Ht He Hv. exists (elemList m unk g e).
  split; [apply (element_ok m n unk r layout VM ND VU HI p g total Hp Hinf Ht); assumption|].
  split; [apply (elemList_nodup m n unk r layout VM ND VU HI p g Hp Hinf); assumption|].
  exists (sortedUnknowns m unk). split; [apply sortedUnknowns_sorted, ND|]. split; [apply sortedUnknowns_in|].
  apply (elemList_numbered m n unk r layout VM ND VU HI p g Hp Hinf); assumption.
Qed.
Lemma face_indices m n layout unk r p g total l rt old old1 old2 :
  valid_mesh n m -> NoDup (included m unk) -> valid_unknowns m unk ->
  indexing m n layout unk r -> p < n -> informed m r p g -> counts_all m total ->
  In l (elements m) -> visible m p l = true -> In rt (elements m) -> visible m p rt = true ->
  exists left right, getGlobalIndicesOfElement m g total l old1 = Some left /\
    getGlobalIndicesOfElement m g total rt old2 = Some right /\
    getGlobalIndicesOfFace m g total l (Some rt) old = Some (left ++ right) /\
    getGlobalIndicesOfFace m g total l None old = Some left.
Proof.
  intros VM ND VU HI Hp Hinf Ht He Hv He' Hv'. exists (elemList m unk g l), (elemList m unk g rt).
  split; [apply (element_ok m n unk r layout VM ND VU HI p g total Hp Hinf Ht); assumption|].
  split; [apply (element_ok m n unk r layout VM ND VU HI p g total Hp Hinf Ht); assumption|].
  split.
  - rewrite (face_ok m n unk r layout VM ND VU HI p g total Hp Hinf Ht) by (try assumption; intros e E; inversion E; subst; split; assumption). reflexivity.
  - rewrite (face_ok m n unk r layout VM ND VU HI p g total Hp Hinf Ht) by (try assumption; intros e E; discriminate). rewrite app_nil_r. reflexivity.
Qed.
Lemma blocked_global m n unk r : valid_mesh n m -> NoDup (included m unk) -> valid_unknowns m unk ->
  indexing m n BLOCKED_GLOBAL unk r ->
  forall d d' i i', is_dof m (included m unk) d -> is_dof m (included m unk) d' ->
    numbered m r d i -> numbered m r d' i' ->
    (d_unknown d < d_unknown d' -> i < i') /\
    (forall p q, d_unknown d = d_unknown d' -> dof_owned_by m p d -> dof_owned_by m q d' -> p < q -> i < i').
Proof.
  intros VM ND VU HI d d' i i' H H' Hn Hn'. split.
  - apply (unknowns_ordered_global m n unk r VM ND VU HI d d' i i' H H' Hn Hn').
  - intros p q. apply (processes_ordered_global m n unk r VM ND VU HI d d' i i' p q H H' Hn Hn').
Qed.
Lemma local_example :
  let r := answer twoElements 2 BLOCKED_GLOBAL (Some [1; 0]) in
  let d := {| d_kind := KElement; d_id := 1; d_unknown := 1; d_fn := 2 |} in
  is_dof twoElements [1; 0] d /\ dof_owned_by twoElements 1 d /\
  index_of (r 1) d = Some 16 /\ local_index_of (r 1) d = Some 8%Z /\
  globalToProcessorLocalIndex (r 1) 16 = 8%Z /\ globalToProcessorLocalIndex (r 1) 12 = (-1)%Z.
Proof.
  cbn zeta. split; [|split; [|vm_compute; repeat split]].
  - split; [split; [exact I|]; exists 1; cbn; tauto|]. cbn. split; [tauto|lia].
  - exists 1. split; reflexivity.
Qed.
Lemma twoOnOne_valid : valid_mesh 1 twoOnOne.
Proof.
  pose proof two_valid as V. constructor; cbn.
  - intros; lia.
  - intros p e. destruct p; cbn; intuition lia.
  - intros [|p]; repeat constructor; cbn; intuition discriminate.
  - apply (vm_objects_distinct _ _ V).
  - apply (vm_adjacency _ _ V).
  - apply (vm_adjacent_exist _ _ V).
  - reflexivity.
  - reflexivity.
Qed.
Lemma element_example :
  let r := answer twoOnOne 1 SEQUENTIAL None in
  valid_mesh 1 twoOnOne /\ indexing twoOnOne 1 SEQUENTIAL None r /\ informed twoOnOne r 0 (r 0) /\
  getGlobalIndicesOfElement twoOnOne (r 0) (fun e u => length (dofs_of_element twoOnOne [u] e)) 0 [7; 7] = Some [0; 12; 13; 4; 5; 6; 7; 1; 2; 3] /\
  getGlobalIndicesOfElement twoOnOne (r 0) (fun e u => length (dofs_of_element twoOnOne [u] e)) 1 [] = Some [8; 12; 13; 14; 15; 7; 16; 9; 10; 11].
Proof.
  cbn zeta. assert (A : indexing twoOnOne 1 SEQUENTIAL None (answer twoOnOne 1 SEQUENTIAL None)).
  { apply answer_indexing; [apply twoOnOne_valid|apply seq_NoDup|exact I]. }
  split; [apply twoOnOne_valid|]. split; [exact A|].
  split; [apply (informed_one_process _ _ None _ twoOnOne_valid (seq_NoDup _ _) I A)|]. vm_compute. split; reflexivity.
Qed.
Lemma reset_succeeds_iff m n layout unk p : valid_mesh n m -> NoDup (included m unk) -> p < n ->
  ((exists g, reset m n layout unk p = Some g) <-> valid_unknowns m unk).
Proof.
  intros VM ND Hp. split; [|intros V; apply (reset_succeeds m n unk VM ND V layout p Hp)].
  intros (g & E). destruct unk as [us|]; [apply (reset_valid m n layout us p g E)|exact I].
Qed.
