From Coq Require Import List Arith Lia.
From Verif Require Import Eigenpairs_model Eigenpairs_spec.
Import ListNotations.

Lemma set_length {A} k (x : A) l : k < length l -> length (set k x l) = length l.
Proof. intros H. unfold set. rewrite app_length. cbn [length]. rewrite firstn_length, skipn_length. lia. Qed.
Lemma set_nth {A} k (x : A) l j : k < length l -> nth_error (set k x l) j = if j =? k then Some x else nth_error l j.
Proof.
  intros H. unfold set. assert (Lf : length (firstn k l) = k) by (rewrite firstn_length; lia).
  destruct (Nat.eqb_spec j k) as [->|Ne].
  - rewrite nth_error_app2 by lia. now rewrite Lf, Nat.sub_diag.
  - destruct (Nat.lt_ge_cases j k) as [Hj|Hj].
    + rewrite nth_error_app1 by lia. rewrite <- (firstn_skipn k l) at 2. now rewrite nth_error_app1 by lia.
    + rewrite nth_error_app2 by lia. rewrite Lf. replace (j - k) with (S (j - S k)) by lia. cbn [nth_error].
      rewrite <- (firstn_skipn (S k) l) at 2. assert (L2 : length (firstn (S k) l) = S k) by (rewrite firstn_length; lia).
      rewrite nth_error_app2 by lia. now rewrite L2.
Qed.
Lemma nth_lt {A} (l : list A) k x : nth_error l k = Some x -> k < length l.
Proof. intros H. apply nth_error_Some. congruence. Qed.
Lemma snoc_nth {A} (l : list A) x j : nth_error (l ++ [x]) j = if j =? length l then Some x else nth_error l j.
Proof.
  destruct (Nat.eqb_spec j (length l)) as [->|N]; [rewrite nth_error_app2, Nat.sub_diag; auto|].
  destruct (Nat.lt_ge_cases j (length l)); [now rewrite nth_error_app1|].
  rewrite nth_error_app2 by lia. destruct (j - length l) as [|[|d]] eqn:E; [lia|..]; symmetry; apply nth_error_None; lia.
Qed.

Lemma nth_ext_error {A} (l m : list A) : (forall i, nth_error l i = nth_error m i) -> l = m.
Proof.
  revert m. induction l as [|x l IH]; intros [|y m] H; [reflexivity|specialize (H 0); discriminate|specialize (H 0); discriminate|].
  pose proof (H 0) as H0. cbn in H0. injection H0 as ->. f_equal. apply IH. intros i. exact (H (S i)).
Qed.

Section Proofs.
Context {K V : Type}.

(** the object stands for the list *)
Definition stands (h : heap V) (o : object K) (p : list (K * V)) : Prop :=
  length (eigenvalues o) = length p /\ length (ordering o) = length p /\
  forall i k v, nth_error p i = Some (k, v) -> exists q a arr, nth_error (ordering o) i = Some q /\ nth_error (eigenvalues o) q = Some k /\
    owns o a /\ nth_error h a = Some (Some arr) /\ nth_error arr q = Some (Some v).
Definition sound (h : heap V) (o : object K) : Prop :=
  (numberOfEigenvectors o = 0 /\ eigenvectors o = None) \/
  (exists a arr, owns o a /\ nth_error h a = Some (Some arr) /\ length arr = numberOfEigenvectors o).

Record good (w : world K V) (l : list (option (list (K * V)))) : Prop := {
  g_same : length (objects w) = length l;
  g_gone : forall k, nth_error (objects w) k = Some None <-> nth_error l k = Some None;
  g_sound : forall k o, nth_error (objects w) k = Some (Some o) -> sound (arrays w) o;
  g_stands : forall k o p, nth_error (objects w) k = Some (Some o) -> nth_error l k = Some (Some p) -> stands (arrays w) o p;
  g_one : forall k k' o o' a, nth_error (objects w) k = Some (Some o) -> nth_error (objects w) k' = Some (Some o') -> owns o a -> owns o' a -> k = k';
  g_owned : forall a arr, nth_error (arrays w) a = Some (Some arr) -> exists k o, nth_error (objects w) k = Some (Some o) /\ owns o a }.

Lemma at_object w l k p : good w l -> nth_error l k = Some (Some p) -> exists o, nth_error (objects w) k = Some (Some o) /\ object_at k w = Some o.
Proof.
  intros G H. unfold object_at. destruct (nth_error (objects w) k) as [[o|]|] eqn:E; [now exists o| |].
  - apply (g_gone _ _ G) in E. congruence.
  - apply nth_error_None in E. apply nth_lt in H. rewrite (g_same _ _ G) in E. lia.
Qed.

Lemma owns_det (o : object K) a b : owns o a -> owns o b -> a = b.
Proof. intros [_ H1] [_ H2]. congruence. Qed.

(** replacing one object and changing only its own arrays *)
Lemma stands_other h h' o p : stands h o p -> (forall a, owns o a -> nth_error h' a = nth_error h a) -> stands h' o p.
Proof.
  intros [S1 [S2 S3]] H. split; [exact S1|]. split; [exact S2|]. intros i k v Hi. destruct (S3 i k v Hi) as [q [a [arr [X1 [X2 [X3 [X4 X5]]]]]]].
  exists q, a, arr. rewrite (H a X3). auto.
Qed.
Lemma sound_other h h' (o : object K) : sound h o -> (forall a, owns o a -> nth_error h' a = nth_error h a) -> sound h' o.
Proof. intros [S|[a [arr [X1 [X2 X3]]]]] H; [now left|right]. exists a, arr. rewrite (H a X1). auto. Qed.

Lemma good_set w l k o p o' p' h' : good w l -> nth_error (objects w) k = Some (Some o) -> nth_error l k = Some (Some p) ->
  sound h' o' -> stands h' o' p' ->
  (forall a, ~ owns o a -> a < length (arrays w) -> nth_error h' a = nth_error (arrays w) a) ->
  (forall a, owns o' a -> owns o a \/ length (arrays w) <= a) ->
  (forall a arr, nth_error h' a = Some (Some arr) -> owns o' a \/ (~ owns o a /\ a < length (arrays w))) ->
  good (World (set k (Some o') (objects w)) h') (set k (Some p') l).
Proof.
  intros G Ho Hp Sn St Keep Own Live. pose proof (nth_lt _ _ _ Ho) as Lo. pose proof (nth_lt _ _ _ Hp) as Lp.
  assert (Other : forall j q a, nth_error (objects w) j = Some (Some q) -> j <> k -> owns q a -> nth_error h' a = nth_error (arrays w) a /\ a < length (arrays w)).
  { intros j q a Hj N Hq. assert (A : a < length (arrays w)).
    { destruct (g_sound _ _ G j q Hj) as [[Z _]|[b [arr [X1 [X2 _]]]]]; [destruct Hq; lia|]. rewrite (owns_det q a b Hq X1). exact (nth_lt _ _ _ X2). }
    split; [|exact A]. apply Keep; [|exact A]. intros X. apply N. exact (g_one _ _ G j k q o a Hj Ho Hq X). }
  constructor; cbn [objects arrays].
  - rewrite !set_length by assumption. apply (g_same _ _ G).
  - intros j. rewrite !set_nth by assumption. destruct (j =? k); [split; discriminate|apply (g_gone _ _ G)].
  - intros j q. rewrite set_nth by assumption. destruct (Nat.eqb_spec j k) as [->|N]; intros H; [injection H as <-; exact Sn|].
    apply (sound_other (arrays w)); [exact (g_sound _ _ G j q H)|]. intros a Ha. apply (Other j q a H N Ha).
  - intros j q x. rewrite !set_nth by assumption. destruct (Nat.eqb_spec j k) as [->|N]; intros H X; [injection H as <-; injection X as <-; exact St|].
    apply (stands_other (arrays w)); [exact (g_stands _ _ G j q x H X)|]. intros a Ha. apply (Other j q a H N Ha).
  - intros j j' q q' a. rewrite !set_nth by assumption. destruct (Nat.eqb_spec j k) as [->|N], (Nat.eqb_spec j' k) as [->|N']; intros H H' X X'; try reflexivity.
    + injection H as <-. destruct (Other j' q' a H' N' X') as [_ A]. destruct (Own a X) as [Y|Y]; [|lia]. exact (g_one _ _ G k j' o q' a Ho H' Y X').
    + injection H' as <-. destruct (Other j q a H N X) as [_ A]. destruct (Own a X') as [Y|Y]; [|lia]. exact (g_one _ _ G j k q o a H Ho X Y).
    + exact (g_one _ _ G j j' q q' a H H' X X').
  - intros a arr Ha. destruct (Live a arr Ha) as [X|[X A]].
    + exists k, o'. rewrite set_nth, Nat.eqb_refl by assumption. auto.
    + rewrite Keep in Ha by assumption. destruct (g_owned _ _ G a arr Ha) as [j [q [Hj Hq]]]. exists j, q. split; [|exact Hq].
      rewrite set_nth by assumption. destruct (Nat.eqb_spec j k) as [->|N]; [|exact Hj]. rewrite Ho in Hj. injection Hj as <-. contradiction.
Qed.

Lemma good_start : good start [].
Proof.
  constructor; cbn; auto.
  - intros k. destruct k; split; discriminate.
  - intros [|k]; discriminate.
  - intros [|k]; discriminate.
  - intros [|k]; discriminate.
  - intros [|a]; discriminate.
Qed.
Lemma stands_empty h : stands h (@empty K) [].
Proof. repeat split. intros [|i]; discriminate. Qed.

(** an object that owns no array comes at the end *)
Lemma good_new w l : good w l -> good (World (objects w ++ [Some empty]) (arrays w)) (l ++ [Some []]).
Proof.
  intros G. pose proof (g_same _ _ G) as L. constructor; cbn [objects arrays].
  - rewrite !app_length. cbn. lia.
  - intros k. rewrite !snoc_nth, L. destruct (k =? length l); [split; discriminate|apply (g_gone _ _ G)].
  - intros k o. rewrite snoc_nth. destruct (k =? _); intros H; [injection H as <-; left; split; reflexivity|exact (g_sound _ _ G k o H)].
  - intros k o p. rewrite !snoc_nth, L. destruct (k =? _); intros H X; [injection H as <-; injection X as <-; apply stands_empty|exact (g_stands _ _ G k o p H X)].
  - intros k k' o o' a. rewrite !snoc_nth. destruct (Nat.eqb_spec k (length (objects w))) as [->|], (Nat.eqb_spec k' (length (objects w))) as [->|]; intros H H' X X'; try reflexivity.
    + injection H as <-. destruct X; cbn in *; lia.
    + injection H' as <-. destruct X'; cbn in *; lia.
    + exact (g_one _ _ G k k' o o' a H H' X X').
  - intros a arr H. destruct (g_owned _ _ G a arr H) as [k [o [X Y]]]. exists k, o. split; [|exact Y]. rewrite snoc_nth.
    destruct (Nat.eqb_spec k (length (objects w))) as [->|]; [apply nth_lt in X; lia|exact X].
Qed.

(** two objects change places *)
Lemma good_swap w l k j o q p r : good w l -> nth_error (objects w) k = Some (Some o) -> nth_error (objects w) j = Some (Some q) ->
  nth_error l k = Some (Some p) -> nth_error l j = Some (Some r) ->
  good (World (set j (Some o) (set k (Some q) (objects w))) (arrays w)) (set j (Some p) (set k (Some r) l)).
Proof.
  intros G Hk Hj Pk Pj. pose proof (nth_lt _ _ _ Hk). pose proof (nth_lt _ _ _ Hj). pose proof (nth_lt _ _ _ Pk). pose proof (nth_lt _ _ _ Pj).
  assert (N : forall {A} (m : list (option A)) x y i, k < length m -> j < length m -> nth_error m k = Some x -> nth_error m j = Some y ->
     nth_error (set j x (set k y m)) i = nth_error m (if i =? j then k else if i =? k then j else i)).
  { intros A m x y i Lk Lj Mk Mj. rewrite set_nth by (rewrite set_length; assumption). rewrite set_nth by assumption.
    destruct (i =? j); [now rewrite Mk|]. destruct (i =? k); [now rewrite Mj|reflexivity]. }
  set (f := fun i => if i =? j then k else if i =? k then j else i).
  assert (Fi : forall i i', f i = f i' -> i = i').
  { intros i i'. unfold f. destruct (Nat.eqb_spec i j), (Nat.eqb_spec i' j), (Nat.eqb_spec i k), (Nat.eqb_spec i' k); lia. }
  assert (Fs : forall i, f (f i) = i).
  { intros i. unfold f. destruct (Nat.eqb_spec i j) as [->|]; [destruct (Nat.eqb_spec k j); [auto|now rewrite Nat.eqb_refl]|].
    destruct (Nat.eqb_spec i k) as [->|]; [now rewrite Nat.eqb_refl|]. destruct (Nat.eqb_spec i j); [lia|]. destruct (Nat.eqb_spec i k); [lia|reflexivity]. }
  constructor; cbn [objects arrays].
  - rewrite !set_length; try (rewrite set_length); try assumption. apply (g_same _ _ G).
  - intros i. rewrite !N by assumption. apply (g_gone _ _ G).
  - intros i x. rewrite N by assumption. apply (g_sound _ _ G).
  - intros i x y. rewrite !N by assumption. apply (g_stands _ _ G).
  - intros i i' x x' a. rewrite !N by assumption. intros A A' B B'. apply Fi. exact (g_one _ _ G _ _ x x' a A A' B B').
  - intros a arr H3. destruct (g_owned _ _ G a arr H3) as [i [x [X Y]]]. exists (f i), x. split; [|exact Y]. rewrite N by assumption. fold (f (f i)). now rewrite Fs.
Qed.

(** destroying the vectors of an object *)
Lemma destroy_ok w l k o : good w l -> nth_error (objects w) k = Some (Some o) ->
  exists h, VecDestroyVecs (numberOfEigenvectors o) (eigenvectors o) (arrays w) = Some h /\ length h = length (arrays w) /\
    (forall a, ~ owns o a -> nth_error h a = nth_error (arrays w) a) /\ (forall a, owns o a -> nth_error h a = Some None).
Proof.
  intros G Ho. destruct (g_sound _ _ G k o Ho) as [[Z E]|[a [arr [[N E] [Ha La]]]]].
  - rewrite Z. exists (arrays w). repeat split. intros a [X _]. lia.
  - rewrite E. pose proof (nth_lt _ _ _ Ha) as L. exists (set a None (arrays w)). split; [unfold VecDestroyVecs; destruct (numberOfEigenvectors o); [lia|now rewrite Ha]|].
    split; [now apply set_length|]. split.
    + intros b Hb. rewrite set_nth by exact L. destruct (Nat.eqb_spec b a) as [->|]; [|reflexivity]. exfalso. apply Hb. split; assumption.
    + intros b [_ Hb]. rewrite E in Hb. injection Hb as <-. now rewrite set_nth, Nat.eqb_refl by exact L.
Qed.
Lemma owns_dec (o : object K) a : owns o a \/ ~ owns o a.
Proof.
  unfold owns. destruct (Nat.eq_dec (numberOfEigenvectors o) 0); [right; intros [? _]; lia|].
  destruct (eigenvectors o) as [b|]; [|right; intros [_ ?]; discriminate]. destruct (Nat.eq_dec b a) as [->|N]; [left; split; [lia|reflexivity]|right; intros [_ H]; congruence].
Qed.

Lemma reserve_ok w l k o n : good w l -> nth_error (objects w) k = Some (Some o) ->
  exists o' h, reserve n o (arrays w) = Some (o', h) /\ eigenvalues o' = eigenvalues o /\ ordering o' = ordering o /\ sound h o' /\ n <= numberOfEigenvectors o' /\
    (forall a, ~ owns o a -> a < length (arrays w) -> nth_error h a = nth_error (arrays w) a) /\
    (forall a, owns o' a -> owns o a \/ length (arrays w) <= a) /\
    (forall a arr, nth_error h a = Some (Some arr) -> owns o' a \/ (~ owns o a /\ a < length (arrays w))).
Proof.
  intros G Ho. unfold reserve. destruct (Nat.leb_spec n (numberOfEigenvectors o)).
  - exists o, (arrays w). repeat split; auto; [exact (g_sound _ _ G k o Ho)|]. intros a arr Ha. destruct (owns_dec o a); [now left|right]. split; [assumption|exact (nth_lt _ _ _ Ha)].
  - destruct (destroy_ok w l k o G Ho) as [h [E [L [D1 D2]]]]. rewrite E. unfold VecDuplicateVecs. rewrite L.
    exists (Object n (Some (length (arrays w))) (eigenvalues o) (ordering o)), (h ++ [Some (repeat None n)]).
    split; [reflexivity|]. split; [reflexivity|]. split; [reflexivity|]. split; [|split; [cbn; lia|split; [|split]]].
    + right. exists (length (arrays w)), (repeat None n). split; [split; [cbn; lia|reflexivity]|]. split; [|apply repeat_length]. rewrite snoc_nth, L. now rewrite Nat.eqb_refl.
    + intros a Na La. rewrite snoc_nth, L. destruct (Nat.eqb_spec a (length (arrays w))); [lia|]. now apply D1.
    + intros a [_ Ha]. cbn in Ha. injection Ha as <-. right. lia.
    + intros a arr. rewrite snoc_nth, L. destruct (Nat.eqb_spec a (length (arrays w))) as [->|N]; intros Ha.
      * left. split; [cbn; lia|reflexivity].
      * right. pose proof (nth_lt _ _ _ Ha) as La. rewrite L in La. split; [|exact La]. intros X. rewrite (D2 a X) in Ha. discriminate.
Qed.

Lemma getEigenpairs_ok (s : list (K * V)) : forall i arr, i + length s <= length arr ->
  exists arr', getEigenpairs i s arr = Some arr' /\ length arr' = length arr /\
    forall j, nth_error arr' j = if j <? i then nth_error arr j else match nth_error s (j - i) with Some (_, v) => Some (Some v) | None => nth_error arr j end.
Proof.
  induction s as [|[k v] s IH]; intros i arr L.
  - exists arr. split; [reflexivity|]. split; [reflexivity|]. intros j. destruct (j <? i); [reflexivity|]. destruct (j - i); reflexivity.
  - cbn [length] in L. cbn [getEigenpairs]. destruct (Nat.ltb_spec i (length arr)); [|lia].
    destruct (IH (S i) (set i (Some v) arr)) as [arr' [E1 [E2 E3]]]; [rewrite set_length; lia|].
    exists arr'. split; [exact E1|]. rewrite set_length in E2 by lia. split; [exact E2|]. intros j. rewrite E3, set_nth by lia.
    destruct (Nat.ltb_spec j (S i)), (Nat.ltb_spec j i), (Nat.eqb_spec j i) as [->|]; try lia; try reflexivity.
    + now rewrite Nat.sub_diag.
    + replace (j - i) with (S (j - S i)) by lia. reflexivity.
Qed.

Lemma step_good w l p l' : good w l -> does l p l' -> exists w', step w p = Some w' /\ good w' l'.
Proof.
  intros G D. destruct D as [l|l k p Hp|l k p s Hp|l k n Hp|l k p new q Hp L F|l k p Hp|l k j p q Hp Hq].
  - eexists. split; [reflexivity|]. now apply good_new.
  - destruct (at_object w l k p G Hp) as [o [Ho Ao]]. unfold step. rewrite Ao. unfold destroy.
    destruct (destroy_ok w l k o G Ho) as [h [E [Lh [D1 D2]]]].
    assert (E' : (if 0 <? numberOfEigenvectors o then VecDestroyVecs (numberOfEigenvectors o) (eigenvectors o) (arrays w) else Some (arrays w)) = Some h).
    { destruct (Nat.ltb_spec 0 (numberOfEigenvectors o)) as [|Z]; [exact E|]. replace (numberOfEigenvectors o) with 0 in E by lia. exact E. }
    rewrite E'. eexists. split; [reflexivity|]. pose proof (nth_lt _ _ _ Ho) as Lo. pose proof (nth_lt _ _ _ Hp) as Lp.
    assert (Other : forall j q a, nth_error (objects w) j = Some (Some q) -> j <> k -> owns q a -> nth_error h a = nth_error (arrays w) a).
    { intros j q a Hj N Hq. apply D1. intros X. apply N. exact (g_one _ _ G j k q o a Hj Ho Hq X). }
    constructor; cbn [objects arrays].
    + rewrite !set_length by assumption. apply (g_same _ _ G).
    + intros j. rewrite !set_nth by assumption. destruct (j =? k); [tauto|apply (g_gone _ _ G)].
    + intros j q. rewrite set_nth by assumption. destruct (Nat.eqb_spec j k) as [->|N]; [discriminate|]. intros H.
      apply (sound_other (arrays w)); [exact (g_sound _ _ G j q H)|]. intros a. now apply Other with j.
    + intros j q x. rewrite !set_nth by assumption. destruct (Nat.eqb_spec j k) as [->|N]; [discriminate|]. intros H X.
      apply (stands_other (arrays w)); [exact (g_stands _ _ G j q x H X)|]. intros a. now apply Other with j.
    + intros j j' q q' a. rewrite !set_nth by assumption. destruct (j =? k); [discriminate|]. destruct (j' =? k); [discriminate|]. apply (g_one _ _ G).
    + intros a arr Ha. destruct (owns_dec o a) as [X|X]; [rewrite (D2 a X) in Ha; discriminate|]. rewrite (D1 a X) in Ha.
      destruct (g_owned _ _ G a arr Ha) as [j [q [Hj Hq]]]. exists j, q. split; [|exact Hq]. rewrite set_nth by assumption.
      destruct (Nat.eqb_spec j k) as [->|]; [|exact Hj]. rewrite Ho in Hj. injection Hj as <-. contradiction.
  - destruct (at_object w l k p G Hp) as [o [Ho Ao]]. unfold step. rewrite Ao. unfold loadEigenpairs.
    destruct (reserve_ok w l k o (length s) G Ho) as [o1 [h [E [_ [_ [Sn [Cap [K1 [K2 K3]]]]]]]]]. rewrite E.
    destruct s as [|[x v] s'] eqn:Es.
    + eexists. split; [reflexivity|]. apply (good_set w l k o p); try assumption.
      repeat split. intros [|i]; discriminate.
    + rewrite <- Es in *. assert (Pos : 0 < length s) by (rewrite Es; cbn; lia). clear Es x v s'.
      destruct Sn as [[Z _]|[a [arr [Oa [Ha La]]]]]; [lia|]. destruct Oa as [On Oe]. rewrite Oe, Ha.
      destruct (getEigenpairs_ok s 0 arr ltac:(lia)) as [arr' [P1 [P2 P3]]]. rewrite P1. pose proof (nth_lt _ _ _ Ha) as Lh.
      eexists. split; [reflexivity|].
      assert (Same : forall b, owns (Object (numberOfEigenvectors o1) (Some a) (map fst s) (seq 0 (length s))) b <-> owns o1 b).
      { intros b. unfold owns. cbn. now rewrite Oe. }
      apply (good_set w l k o p); try assumption.
      * right. exists a, arr'. split; [split; [cbn; lia|reflexivity]|]. rewrite set_nth, Nat.eqb_refl by exact Lh. cbn. split; [reflexivity|congruence].
      * split; [apply map_length|]. split; [apply seq_length|]. intros i x v Hi. pose proof (nth_lt _ _ _ Hi) as Li.
        exists i, a, arr'. cbn [ordering eigenvalues]. split; [|split; [|split; [|split]]].
        -- rewrite (nth_error_nth' _ 0) by (rewrite seq_length; exact Li). now rewrite seq_nth by exact Li.
        -- exact (map_nth_error fst i s Hi).
        -- split; [cbn; lia|reflexivity].
        -- now rewrite set_nth, Nat.eqb_refl by exact Lh.
        -- rewrite P3. cbn [Nat.ltb Nat.leb]. rewrite Nat.sub_0_r, Hi. reflexivity.
      * intros b Nb Lb. rewrite set_nth by exact Lh. destruct (Nat.eqb_spec b a) as [->|]; [|now apply K1].
        destruct (K2 a (conj On Oe)) as [X|X]; [contradiction|lia].
      * intros b Hb. apply K2. now apply Same.
      * intros b ar. rewrite set_nth by exact Lh. destruct (Nat.eqb_spec b a) as [->|]; intros Hb; [left; apply Same; split; assumption|].
        destruct (K3 b ar Hb) as [X|X]; [left; now apply Same|now right].
  - destruct (at_object w l k [] G Hp) as [o [Ho Ao]]. unfold step. rewrite Ao.
    destruct (reserve_ok w l k o n G Ho) as [o1 [h [E [Ev [Eo [Sn [Cap [K1 [K2 K3]]]]]]]]]. rewrite E. eexists. split; [reflexivity|].
    assert (Sl : set k (Some []) l = l).
    { apply nth_ext_error. intros i. rewrite set_nth by exact (nth_lt _ _ _ Hp). destruct (Nat.eqb_spec i k) as [->|]; [now rewrite Hp|reflexivity]. }
    rewrite <- Sl. apply (good_set w l k o []); try assumption.
    destruct (g_stands _ _ G k o [] Ho Hp) as [S1 [S2 _]]. split; [congruence|]. split; [congruence|]. intros [|i]; discriminate.
  - destruct (at_object w l k p G Hp) as [o [Ho Ao]]. unfold step. rewrite Ao. unfold reorder.
    destruct (g_stands _ _ G k o p Ho Hp) as [S1 [S2 S3]]. rewrite S1, <- L, Nat.eqb_refl.
    assert (Lk : exists qs, lookups (ordering o) new = Some qs /\ length qs = length new /\ forall i j, nth_error new i = Some j -> nth_error qs i = nth_error (ordering o) j).
    { clear - F S2. induction F as [|i x new q Hi _ [qs [I1 [I2 I3]]]]; [exists []; repeat split; intros [|i]; discriminate|].
      cbn [lookups]. destruct (nth_error (ordering o) i) as [y|] eqn:Ey; [|apply nth_error_None in Ey; apply nth_lt in Hi; lia].
      rewrite I1. exists (y :: qs). split; [reflexivity|]. split; [cbn; congruence|]. intros [|m] j; cbn [nth_error]; [intros Hj; injection Hj as <-; now rewrite Ey|apply I3]. }
    destruct Lk as [qs [Q1 [Q2 Q3]]]. rewrite Q1. eexists. split; [reflexivity|].
    assert (Lq : length q = length new) by (symmetry; clear - F; induction F; cbn; congruence).
    apply (good_set w l k o p); try assumption.
    + destruct (g_sound _ _ G k o Ho) as [X|X]; [now left|now right].
    + split; [cbn; congruence|]. split; [cbn; congruence|]. intros i x v Hi.
      assert (N : exists j, nth_error new i = Some j /\ nth_error p j = Some (x, v)).
      { clear - F Hi. revert i Hi. induction F as [|m y new q Hm _ IH]; intros [|i] Hi; cbn in *; try discriminate; [injection Hi as ->; now exists m|apply IH, Hi]. }
      destruct N as [j [N1 N2]]. destruct (S3 j x v N2) as [c [a [arr [X1 [X2 [X3 [X4 X5]]]]]]].
      exists c, a, arr. cbn [ordering eigenvalues]. rewrite (Q3 i j N1). auto.
    + auto.
    + intros a Ha. now left.
    + intros a arr Ha. destruct (owns_dec o a) as [X|X]; [now left|right]. split; [exact X|exact (nth_lt _ _ _ Ha)].
  - destruct (at_object w l k p G Hp) as [o [Ho Ao]]. unfold step. rewrite Ao. eexists. split; [reflexivity|].
    pose proof (good_new w l G) as G2. pose proof (nth_lt _ _ _ Ho) as Lo. pose proof (nth_lt _ _ _ Hp) as Lp.
    assert (Sw := good_swap _ _ k (length (objects w)) o empty p [] G2). cbn [objects arrays] in Sw.
    rewrite !snoc_nth, Nat.eqb_refl, (g_same _ _ G), Nat.eqb_refl in Sw.
    unfold pairs in *. replace (k =? length l) with false in Sw by (symmetry; apply Nat.eqb_neq; lia). specialize (Sw Ho eq_refl Hp eq_refl).
    replace (set k (Some empty) (objects w) ++ [Some o]) with (set (length l) (Some o) (set k (Some empty) (objects w ++ [Some empty]))).
    2:{ apply nth_ext_error. intros i. rewrite set_nth by (rewrite set_length; rewrite app_length; cbn; rewrite (g_same _ _ G); lia).
        rewrite set_nth by (rewrite app_length; lia). rewrite !snoc_nth, set_length by exact Lo. rewrite set_nth by exact Lo. rewrite (g_same _ _ G).
        destruct (Nat.eqb_spec i (length l)), (Nat.eqb_spec i k); try reflexivity. }
    replace (set k (Some []) l ++ [Some p]) with (set (length l) (Some p) (set k (Some []) (l ++ [Some []]))).
    2:{ apply nth_ext_error. intros i. rewrite set_nth by (rewrite set_length; rewrite app_length; cbn; lia).
        rewrite set_nth by (rewrite app_length; lia). rewrite !snoc_nth, set_length by exact Lp. rewrite set_nth by exact Lp.
        destruct (Nat.eqb_spec i (length l)), (Nat.eqb_spec i k); try reflexivity. }
    exact Sw.
  - destruct (at_object w l k p G Hp) as [o [Ho Ao]]. destruct (at_object w l j q G Hq) as [r [Hr Ar]]. unfold step. rewrite Ao, Ar.
    eexists. split; [reflexivity|]. now apply good_swap.
Qed.

Lemma history_good ps l : history ps l -> exists w, run start ps = Some w /\ good w l.
Proof.
  induction 1 as [|ps l p l' H [w [R G]] D]; [exists start; split; [reflexivity|apply good_start]|].
  destruct (step_good w l p l' G D) as [w' [S' G']]. exists w'. split; [|exact G'].
  assert (A : forall ps (w0 w1 : world K V), run w0 ps = Some w1 -> run w0 (ps ++ [p]) = step w1 p).
  { clear. induction ps as [|x ps IH]; intros w0 w1; cbn [run app].
    - intros H. injection H as ->. destruct (step w1 p); reflexivity.
    - destruct (step w0 x); [apply IH|discriminate]. }
  now rewrite (A _ _ _ R).
Qed.
Lemma answers w l k o p i x v : good w l -> nth_error (objects w) k = Some (Some o) -> nth_error l k = Some (Some p) -> nth_error p i = Some (x, v) ->
  getEigenvalue i o = Some x /\ getEigenvector i o (arrays w) = Some (Some v).
Proof.
  intros G Ho Hp Hi. destruct (g_stands _ _ G k o p Ho Hp) as [S1 [S2 S3]]. destruct (S3 i x v Hi) as [q [a [arr [X1 [X2 [[_ X3] [X4 X5]]]]]]].
  unfold getEigenvalue, getEigenvector. rewrite S1. pose proof (nth_lt _ _ _ Hi). destruct (Nat.ltb_spec i (length p)); [|lia].
  rewrite X1, X3, X4, X5. auto.
Qed.
End Proofs.
