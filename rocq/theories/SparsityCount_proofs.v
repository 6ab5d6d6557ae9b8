(** The sparsity estimate counts the coupled degrees of freedom. *)
From Coq Require Import List Arith ZArith Lia Bool.
From Verif Require Import Loop_model Loop_proofs StdMap_model StdMap_proofs GlobalIndexing_model GlobalIndexing_spec GlobalIndexing_proofs
  Sparsity_model Sparsity_spec Sparsity_proofs SparsityLoop_proofs.
Import ListNotations.

Lemma choose {A B} (f : B -> A) (P : B -> Prop) (s : list A) : (forall c, In c s -> exists t, P t /\ c = f t) ->
  exists B, map f B = s /\ forall t, In t B -> P t.
Proof.
  induction s as [|c s IH]; intros H; [exists []; split; [reflexivity|intros t []]|].
  destruct (H c (or_introl eq_refl)) as (t & Ht & ->). destruct IH as (B0 & <- & HB); [intros c' Hc; apply H; right; exact Hc|].
  exists (t :: B0). split; [reflexivity|]. intros t' [<-|Ht']; [exact Ht|apply HB, Ht'].
Qed.
Lemma count_intervals (w : item -> nat) (iv : item -> interval) (P : item -> Prop) (s : intervals) : NoDup s ->
  (forall t, snd (iv t) = w t) ->
  (forall c, In c s <-> exists t, (P t /\ w t <> 0) /\ c = iv t) ->
  (forall t t', P t -> w t <> 0 -> P t' -> w t' <> 0 -> iv t = iv t' -> t = t') ->
  count (fun d => P (it d) /\ d_fn d < w (it d)) (sizes s).
Proof.
  intros NDs Hw Hs Hinj. destruct (choose iv (fun t => P t /\ w t <> 0) s) as (B & EB & HB); [intros c Hc; apply Hs, Hc|].
  exists (flat_map (fun t => map (mk t) (seq 0 (w t))) B). split; [|split].
  - apply NoDup_flat_map.
    + rewrite <- EB in NDs. apply NoDup_map_inv in NDs. exact NDs.
    + intros t _. apply FinFun.Injective_map_NoDup; [|apply seq_NoDup]. intros a b E. unfold mk in E. injection E. tauto.
    + intros t t' d _ _ H1 H2. apply in_map_iff in H1, H2. destruct H1 as (i & <- & _), H2 as (j & E & _).
      apply (f_equal it) in E. rewrite !it_mk in E. congruence.
  - intros d. rewrite in_flat_map. split.
    + intros (t & Ht & Hd). apply in_map_iff in Hd. destruct Hd as (i & <- & Hi). apply in_seq in Hi. rewrite it_mk. cbn [mk d_fn].
      split; [apply (HB t Ht)|lia].
    + intros (HP & Hf). assert (W : w (it d) <> 0) by lia.
      assert (Hi : In (iv (it d)) s) by (apply Hs; exists (it d); split; [split; assumption|reflexivity]).
      rewrite <- EB in Hi. apply in_map_iff in Hi. destruct Hi as (t & Et & Ht). destruct (HB t Ht) as (HPt & HWt).
      assert (t = it d) by (apply Hinj; assumption). subst t. exists (it d). split; [exact Ht|].
      apply in_map_iff. exists (d_fn d). split; [|apply in_seq; lia]. apply dof_ext; [apply it_mk|reflexivity].
  - rewrite <- EB. clear -Hw. induction B as [|t B IH]; [reflexivity|]. unfold sizes in *. cbn [flat_map map]. rewrite app_length, map_length, seq_length, IH.
    change (list_sum (snd (iv t) :: map snd (map iv B))) with (snd (iv t) + list_sum (map snd (map iv B))). rewrite Hw. reflexivity.
Qed.

Section Main.
Variables (m : Mesh) (n p : nat) (lr lc : Layout) (ur uc : option (list nat)) (rr rc : nat -> GlobalIndexing) (gr gc : GlobalIndexing)
  (faceCoupling : nat -> nat -> bool) (allElements faces : list nat).
Hypothesis VM : valid_mesh n m.
Hypothesis NDr : NoDup (included m ur).
Hypothesis NDc : NoDup (included m uc).
Hypothesis VUr : valid_unknowns m ur.
Hypothesis VUc : valid_unknowns m uc.
Hypothesis IXr : indexing m n lr ur rr.
Hypothesis IXc : indexing m n lc uc rc.
Hypothesis Hp : p < n.
Hypothesis INr : informed m rr p gr.
Hypothesis INc : informed m rc p gc.
Hypothesis KL : keeps_local (rr p) gr.
Hypothesis TS : two_sided m.
Hypothesis LL : local_lists m p allElements faces.
Notation usr := (sortedUnknowns m ur).
Notation usc := (sortedUnknowns m uc).
Notation may := (allowed (includedUnknowns_ gr) (includedUnknowns_ gc) faceCoupling).
Notation size := (localNumberOfBasisFunctions m).

Section Facts.
Variables (Gr Gc : list item) (Lr Lc : nat -> list item) (Dr Dc : nat -> nat -> list item).
Hypothesis Fr : facts m n usr rr Gr Lr Dr.
Hypothesis Fc : facts m n usc rc Gc Lc Dc.
Notation offL := (off item_eq_dec (w m) (Lr p)).
Notation offG := (off item_eq_dec (w m) Gc).
Definition idr (k : Kind) (x u : nat) : nat := offL (k, x, u).
Definition idc (k : Kind) (x u : nat) : nat := offG (k, x, u).

Lemma gr_us : includedUnknowns_ gr = usr.
Proof. destruct INr as (_ & -> & _). apply (fa_us _ _ _ _ _ _ _ Fr p Hp). Qed.
Lemma gc_us : includedUnknowns_ gc = usc.
Proof. destruct INc as (_ & -> & _). apply (fa_us _ _ _ _ _ _ _ Fc p Hp). Qed.
Lemma own_item k x u : mesh_object m k x -> owned_by m p k x -> In u usr -> In (k, x, u) (Lr p).
Proof. intros HM HO Hu. apply (fa_L _ _ _ _ _ _ _ Fr _ _ _ _ Hp). split; [|exact Hu]. apply (in_objs m n VM). split; assumption. Qed.
Lemma r_index k x u e : In e (elements m) -> visible m p e = true -> In (k, x) (objects_of_element m e) -> In u usr -> owned_by m p k x ->
  getProcessorLocalIndex gr k x u = Some (Z.of_nat (idr k x u)).
Proof.
  intros He Hv Ho Hu HO. destruct INr as (_ & _ & _ & HI).
  destruct (HI e k x u He Hv Ho) as (q & OQ & EQ); [rewrite (fa_us _ _ _ _ _ _ _ Fr p Hp); exact Hu|].
  rewrite (owned_unique m q p k x OQ HO) in EQ. unfold getProcessorLocalIndex. rewrite EQ.
  assert (Hob : In (k, x) (objs m p)) by (apply (in_objs m n VM); split; [apply (on_object m n VM e); assumption|exact HO]).
  destruct (get_own m n ur rr Gr Lr Dr Fr p k x u Hp Hu Hob) as (E & E2 & _). rewrite E.
  destruct KL as (_ & K). destruct (K u) as (K1 & K2). rewrite K1, K2. f_equal. unfold idr. lia.
Qed.
Lemma c_index k x u e : In e (elements m) -> visible m p e = true -> In (k, x) (objects_of_element m e) -> In u usc ->
  getGlobalIndex gc k x u = Some (idc k x u).
Proof.
  intros He Hv Ho Hu. destruct INc as (_ & _ & _ & HI).
  destruct (HI e k x u He Hv Ho) as (q & OQ & EQ); [rewrite (fa_us _ _ _ _ _ _ _ Fc p Hp); exact Hu|]. rewrite EQ.
  pose proof (on_object m n VM e k x He Ho) as HM. destruct (owned_exists m n VM k x HM) as (q' & Hq & OQ').
  rewrite (owned_unique m q q' k x OQ OQ'). clear EQ.
  assert (Hob : In (k, x) (objs m q')) by (apply (in_objs m n VM); split; assumption).
  apply (get_own m n uc rc Gc Lc Dc Fc q' k x u Hq Hu Hob).
Qed.
Notation isRow := (isRow m p usr idr).
Lemma row_item row : isRow row -> exists t, In t (Lr p) /\ w m t <> 0 /\ row = (offL t, w m t).
Proof.
  intros (e & k & x & u & He & Hv & Ho & Hu & Hs & HO & ->). exists (k, x, u). split; [|split; [exact Hs|reflexivity]].
  apply own_item; [apply (on_object m n VM e); assumption| |exact Hu]. apply (isOwned_ok m n p VM e); assumption.
Qed.
Lemma row_bound row : isRow row -> fst row + snd row <= tot (w m) (Lr p).
Proof. intros H. destruct (row_item row H) as (t & Ht & _ & ->). apply (off_bound item_eq_dec (w m) _ _ Ht). Qed.
Lemma row_disjoint row row' j : isRow row -> isRow row' -> fst row <= j < fst row + snd row -> fst row' <= j < fst row' + snd row' -> row = row'.
Proof.
  intros H H' Hj Hj'. destruct (row_item row H) as (t & Ht & Wt & ->). destruct (row_item row' H') as (t' & Ht' & Wt' & ->). cbn [fst snd] in *.
  destruct (off_inj item_eq_dec (w m) (Lr p) t t' (j - offL t) (j - offL t')) as (-> & _); try assumption; try lia. reflexivity.
Qed.

Lemma gr_total : localNumberOfBasisFunctions_ gr = tot (w m) (Lr p).
Proof. destruct KL as (-> & _). apply (fa_local _ _ _ _ _ _ _ Fr p Hp). Qed.

Notation QAll := (QAll m p usr usc idr idc faceCoupling).
Definition row_of (d : dof) : interval := (offL (it d), w m (it d)).
Definition col_of (t : item) : interval := (offG t, w m t).

Lemma owned_row d : is_dof m (included m ur) d -> dof_owned_by m p d -> In (it d) (Lr p) /\ d_fn d < w m (it d) /\ In (d_unknown d) usr.
Proof.
  intros H Ho. destruct (proj1 (dof_in_L m n ur rr VM Gr Lr Dr Fr p d Hp) (conj H Ho)) as (A & B). split; [exact A|]. split; [exact B|].
  apply sortedUnknowns_in. apply H.
Qed.
Lemma QEr_inv e u d : In e (elements m) -> is_dof m (included m ur) d -> dof_owned_by m p d -> QE m p true usr idr e (inr (true, u, row_of d)) ->
  u = d_unknown d /\ on_element m e d.
Proof.
  intros He Hd HO ((k, x) & Ho & v & Hu & Hs & -> & Hb & _ & E). cbn [fst snd] in *.
  destruct (owned_row d Hd HO) as (Hi & Hf & Hud). unfold row_of in E. injection E as E1 E2.
  assert (Hkx : In (k, x, v) (Lr p)).
  { apply own_item; [apply (on_object m n VM e); assumption| |exact Hu]. apply (isOwned_ok m n p VM e); [assumption|assumption|symmetry; exact Hb]. }
  destruct (off_inj item_eq_dec (w m) (Lr p) (it d) (k, x, v) 0 0) as (ET & _); try assumption; try lia.
  { change (w m (k, x, v)) with (size k x v). lia. }
  { unfold idr in E1. lia. }
  unfold it in ET. injection ET as E3 E4 E5. subst k x v. split; [reflexivity|exact Ho].
Qed.
Lemma QEr_intro e d : is_dof m (included m ur) d -> dof_owned_by m p d -> In e (elements m) -> on_element m e d ->
  QE m p true usr idr e (inr (true, d_unknown d, row_of d)).
Proof.
  intros Hd HO He H. destruct (owned_row d Hd HO) as (Hi & Hf & Hud). exists (d_kind d, d_id d). split; [exact H|].
  exists (d_unknown d). split; [exact Hud|]. cbn [fst snd]. split; [change (w m (it d) <> 0); lia|]. split; [reflexivity|].
  split; [symmetry; apply (isOwned_ok m n p VM e); assumption|]. split; [reflexivity|]. reflexivity.
Qed.
Lemma QEc_inv e b v c : In e (elements m) -> visible m p e = true -> QE m p false usc idc e (inr (b, v, c)) ->
  exists k x, In (k, x) (objects_of_element m e) /\ In v usc /\ size k x v <> 0 /\ c = col_of (k, x, v) /\ (b = true <-> owned_by m p k x).
Proof.
  intros He Hv ((k, x) & Ho & v' & Hu & Hs & -> & -> & _ & ->). cbn [fst snd] in *. exists k, x. split; [exact Ho|]. split; [exact Hu|].
  split; [exact Hs|]. split; [reflexivity|]. apply (isOwned_ok m n p VM e); assumption.
Qed.
Lemma QEc_intro e b k x v : In e (elements m) -> In (k, x) (objects_of_element m e) -> In v usc -> size k x v <> 0 -> (b = true <-> owned_by m p k x) ->
  QE m p false usc idc e (inr (b, v, col_of (k, x, v))).
Proof.
  intros He Ho Hu Hs Hb. exists (k, x). split; [exact Ho|]. exists v. split; [exact Hu|]. cbn [fst snd]. split; [exact Hs|]. split; [reflexivity|].
  split; [|split; [discriminate|reflexivity]]. pose proof (isOwned_ok m n p VM e k x He Ho) as HI.
  destruct b, (isOwned m p k x); try reflexivity.
  - symmetry. apply HI, Hb. reflexivity.
  - apply Hb, HI. reflexivity.
Qed.

(** items as columns of row [d] *)
Definition colItem (b : bool) (d : dof) (t : item) : Prop :=
  mesh_object m (fst (fst t)) (snd (fst t)) /\ In (snd t) (included m uc) /\ (b = true <-> owned_by m p (fst (fst t)) (snd (fst t))) /\
  coupled m may d (mk t 0).
Lemma columns_ok b d c : is_dof m (included m ur) d -> dof_owned_by m p d -> sees_coupled m p may ->
  QAll (Coupled b (row_of d) c) <-> exists t, (colItem b d t /\ w m t <> 0) /\ c = col_of t.
Proof.
  intros Hd HO SC. destruct (owned_row d Hd HO) as (Hi & Hf & Hud). split.
  - intros [(e & He & Hv & u & v & Hu & Hv' & A & B)|(_ & x & (e0 & He0 & Hv0) & i & j & u & v & Hui & Hvj & FC & (e & He & Hv & A) & (e' & He' & Hv' & B))].
    + destruct (QEr_inv e u d He Hd HO A) as (-> & On). destruct (QEc_inv e b v c He Hv B) as (k & x & Ho & Hvc & Hs & -> & Hb).
      exists (k, x, v). split; [split; [|exact Hs]|reflexivity]. split; [apply (on_object m n VM e); assumption|].
      split; [apply sortedUnknowns_in; exact Hvc|]. split; [exact Hb|]. left. exists e. split; [exact He|]. split; [exact On|exact Ho].
    + pose proof (face_elements m n VM x e He) as He1. pose proof (face_elements m n VM x e' He') as He2.
      destruct (QEr_inv e u d He1 Hd HO A) as (-> & On). destruct (QEc_inv e' b v c He2 Hv' B) as (k & y & Ho & Hvc & Hs & -> & Hb).
      exists (k, y, v). split; [split; [|exact Hs]|reflexivity]. split; [apply (on_object m n VM e'); assumption|].
      split; [apply sortedUnknowns_in; exact Hvc|]. split; [exact Hb|]. right. split.
      * exists i, j. rewrite gr_us, gc_us. split; [exact Hui|]. split; [exact Hvj|exact FC].
      * exists x, e, e'. split; [exact He|]. split; [exact He'|]. split; [exact On|exact Ho].
  - intros (((k, y), v) & ((HM & Hvc & Hb & HC) & Hs) & ->). cbn [fst snd] in *. apply sortedUnknowns_in in Hvc.
    assert (See : forall e, In e (elements m) -> on_element m e d -> visible m p e = true).
    { intros e He On. destruct (on_adjacent m n VM e _ _ He On) as (_ & HA). apply (owned_sees m n p VM (d_kind d) (d_id d)); assumption. }
    destruct HC as [(e & He & On & On')|(HMay & x & e & e' & He & He' & On & On')].
    + left. exists e. split; [exact He|]. split; [apply See; assumption|]. exists (d_unknown d), v. split; [exact Hud|]. split; [exact Hvc|].
      split; [apply QEr_intro; assumption|apply QEc_intro; assumption].
    + pose proof (face_elements m n VM x e He) as He1. pose proof (face_elements m n VM x e' He') as He2. right.
      cbn [mk d_unknown] in HMay. cbn [snd] in HMay.
      pose proof HMay as (i & j & Hui & Hvj & FC). rewrite gr_us in Hui. rewrite gc_us in Hvj. split.
      { exists i, j. split; [apply nth_error_Some; congruence|]. split; [apply nth_error_Some; congruence|exact FC]. }
      assert (V' : visible m p e' = true).
      { apply (SC (d_unknown d) v (d_kind d) (d_id d) x e e' HMay HO); [change (0 < w m (it d)); lia|exact On|exact He|exact He']. }
      exists x. split; [exists e'; split; assumption|]. exists i, j, (d_unknown d), v. split; [exact Hui|]. split; [exact Hvj|]. split; [exact FC|]. split.
      * exists e. split; [exact He|]. split; [apply See; assumption|]. apply QEr_intro; assumption.
      * exists e'. split; [exact He'|]. split; [exact V'|]. apply QEc_intro; assumption.
Qed.
Lemma coupled_fn d d' d1 : it d' = it d1 -> coupled m may d d' -> coupled m may d d1.
Proof. unfold coupled, on_element, it. destruct d' as [k x u i], d1 as [k1 x1 u1 i1]. cbn. intros E. injection E as -> -> ->. tauto. Qed.
Lemma col_dof b d d' : (colItem b d (it d') /\ d_fn d' < w m (it d')) <->
  is_dof m (included m uc) d' /\ (b = true <-> dof_owned_by m p d') /\ coupled m may d d'.
Proof.
  unfold colItem, is_dof, dof_owned_by. split.
  - intros ((A & B & C & E) & F). split; [split; [exact A|]; split; [exact B|exact F]|]. split; [exact C|]. apply (coupled_fn d _ d' (it_mk (it d') 0) E).
  - intros ((A & B & F) & C & E). split; [|exact F]. split; [exact A|]. split; [exact B|]. split; [exact C|].
    apply (coupled_fn d d'); [symmetry; apply it_mk|exact E].
Qed.
Lemma col_injective d b t t' : colItem b d t -> w m t <> 0 -> colItem b d t' -> w m t' <> 0 -> col_of t = col_of t' -> t = t'.
Proof.
  intros (A & B & _) W (A' & B' & _) W' E. unfold col_of in E. injection E as E1 _.
  destruct (off_inj item_eq_dec (w m) Gc t t' 0 0) as (ET & _); try lia; [| |exact ET].
  - destruct t as ((k, x), u). apply (fa_G _ _ _ _ _ _ _ Fc). split; [exact A|apply sortedUnknowns_in; exact B].
  - destruct t' as ((k, x), u). apply (fa_G _ _ _ _ _ _ _ Fc). split; [exact A'|apply sortedUnknowns_in; exact B'].
Qed.
Lemma count_ext (P Q : dof -> Prop) k : (forall d, P d <-> Q d) -> count P k -> count Q k.
Proof. intros H (l & A & B & C). exists l. split; [exact A|]. split; [intros d; rewrite B; apply H|exact C]. Qed.

Definition rejects : Prop := exists i j, i < length usr /\ j < length usc /\ faceCoupling i j = true /\ QAll Distributed /\ QAll (Flag i).
Lemma estimate_exact :
  match computeSparsityEstimate m p gr gc (length (includedUnknowns_ gr)) (length (includedUnknowns_ gc)) faceCoupling allElements faces with
  | None => rejects
  | Some est => (localNumberOfBasisFunctions_ gr <> 0 -> ~ rejects) /\
      ((localNumberOfBasisFunctions_ gr <> 0 -> sees_coupled m p may) -> exact_estimate m p may (included m ur) (included m uc) gr est)
  end.
Proof.
  replace (length (includedUnknowns_ gr)) with (length usr) by (rewrite gr_us; reflexivity).
  replace (length (includedUnknowns_ gc)) with (length usc) by (rewrite gc_us; reflexivity).
  destruct (estimate_ok m n p VM gr gc usr usc idr idc faceCoupling gr_us gc_us) with (allElements := allElements) (faces := faces) (total := tot (w m) (Lr p))
    as (o & no & HR & G1 & G2 & H).
  - intros e k x u He Hv Ho Hu Hs HO. rewrite (r_index k x u e) by (try assumption; apply (isOwned_ok m n p VM e); assumption).
    destruct (Z.ltb_spec (Z.of_nat (idr k x u)) 0); [lia|]. rewrite Nat2Z.id. reflexivity.
  - intros e k x u He Hv Ho Hu Hs. apply (c_index k x u e); assumption.
  - exact TS.
  - exact LL.
  - apply gr_total.
  - apply row_bound.
  - apply row_disjoint.
  - destruct (computeSparsityEstimate _ _ _ _ _ _ _ _ _) as [est|]; [|exact H].
    destruct H as (L1 & L2 & HC & HV). rewrite gr_total. split.
    + intros HT (i & j & Hi & Hj & FC & HD & HFl). apply (HC HT i j Hi Hj FC HD HFl).
    + intros SC. unfold exact_estimate. rewrite gr_total. split; [exact L1|]. split; [exact L2|]. intros d Hd HO.
      destruct (owned_row d Hd HO) as (Hi & Hf & Hud).
      assert (HT : tot (w m) (Lr p) <> 0) by (pose proof (off_bound item_eq_dec (w m) _ _ Hi); lia).
      specialize (SC HT).
      destruct Hd as (HM & Hu' & Hf'). pose proof (conj HM (conj Hu' Hf')) as Hd. fold (is_dof m (included m ur) d) in Hd.
      destruct HM as (C & e & He & Ha).
      pose proof (adjacent_on m n VM e _ _ He C Ha) as Ho. pose proof (owned_sees m n p VM _ _ e He Ha HO) as Hv.
      assert (IR : isRow (row_of d)).
      { exists e, (d_kind d), (d_id d), (d_unknown d). split; [exact He|]. split; [exact Hv|]. split; [exact Ho|]. split; [exact Hud|].
        split; [change (w m (it d) <> 0); lia|]. split; [apply (isOwned_ok m n p VM e); assumption|reflexivity]. }
      destruct (HV (row_of d) (offL (it d) + d_fn d) IR) as (V1 & V2); [unfold row_of; cbn [fst snd]; lia|].
      exists (offL (it d) + d_fn d), (sizes (lookup (row_of d) o)), (sizes (lookup (row_of d) no)). split.
      { unfold local_index_of. rewrite (r_index _ _ _ e) by assumption. cbn [option_map]. f_equal. unfold idr, it. lia. }
      split; [exact V1|]. split; [|split; [exact V2|]].
      * refine (count_ext _ _ _ _ (count_intervals (w m) col_of (colItem true d) (lookup (row_of d) o) _ _ _ _)).
        -- intros d'. rewrite col_dof. split; intros (A & B & E).
           ++ split; [exact A|]. split; [apply B; reflexivity|exact E].
           ++ split; [exact A|]. split; [|exact E]. split; [intros _; exact B|reflexivity].
        -- apply (ssorted_nodup _ interval_total), (lookup_sorted isRow o), G1.
        -- intros t. reflexivity.
        -- intros c. rewrite <- (columns_ok true d c Hd HO SC). apply (HR true (row_of d) c).
        -- apply (col_injective d true).
      * refine (count_ext _ _ _ _ (count_intervals (w m) col_of (colItem false d) (lookup (row_of d) no) _ _ _ _)).
        -- intros d'. rewrite col_dof. split; intros (A & B & E).
           ++ split; [exact A|]. split; [|exact E]. intros X. apply B in X. discriminate.
           ++ split; [exact A|]. split; [|exact E]. split; [discriminate|contradiction].
        -- apply (ssorted_nodup _ interval_total), (lookup_sorted isRow no), G2.
        -- intros t. reflexivity.
        -- intros c. rewrite <- (columns_ok false d c Hd HO SC). apply (HR false (row_of d) c).
        -- apply (col_injective d false).
Qed.
End Facts.
End Main.
