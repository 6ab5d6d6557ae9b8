From Coq Require Import List Arith Bool Reals Lia Lra.
From Verif Require Import PhaseShift_model PhaseShift_spec.
Import ListNotations.

(** complex numbers *)
Lemma isZero_spec a : isZero a = true <-> a = zero.
Proof.
  destruct a as [x y]. unfold isZero, zero. cbn [fst snd]. destruct (Req_EM_T x 0) as [->|N]; [destruct (Req_EM_T y 0) as [->|N]|]; split; intros H; try reflexivity; try discriminate; congruence.
Qed.
Lemma cmul_zero t : cmul zero (expi t) = zero.
Proof. unfold cmul, zero, expi. cbn [fst snd]. f_equal; ring. Qed.
Lemma back v t : cmul (cmul v (expi t)) (expi (- t)) = v.
Proof.
  destruct v as [x y]. unfold cmul, expi. cbn [fst snd]. rewrite cos_neg, sin_neg. pose proof (sin2_cos2 t) as E. unfold Rsqr in E. f_equal.
  - transitivity (x * (sin t * sin t + cos t * cos t))%R; [ring|rewrite E; ring].
  - transitivity (y * (sin t * sin t + cos t * cos t))%R; [ring|rewrite E; ring].
Qed.
Lemma shifted_zero v t : isZero (cmul v (expi t)) = true <-> v = zero.
Proof.
  rewrite isZero_spec. split; [|intros ->; apply cmul_zero]. intros H. rewrite <- (back v t), H. apply cmul_zero.
Qed.
Lemma conj_shift v t : conj (cmul v (expi t)) = cmul (conj v) (expi (- t)).
Proof. destruct v as [x y]. unfold conj, cmul, expi. cbn [fst snd]. rewrite cos_neg, sin_neg. f_equal; ring. Qed.
Lemma conj_conj v : conj (conj v) = v. Proof. destruct v as [x y]. unfold conj. cbn. now rewrite Ropp_involutive. Qed.
Lemma conj_zero v : conj v = zero -> v = zero.
Proof. intros H. rewrite <- (conj_conj v), H. unfold conj, zero. cbn. now rewrite Ropp_0. Qed.
Lemma shift_0 v : cmul v (expi 0) = v.
Proof. destruct v as [x y]. unfold cmul, expi. cbn [fst snd]. rewrite cos_0, sin_0. f_equal; ring. Qed.
Lemma dot_neg k : forall x, dot k (neg x) = (- dot k x)%R.
Proof.
  unfold dot, neg. induction k as [|a k IH]; intros [|b x]; cbn; try (symmetry; apply Ropp_0). rewrite IH. ring.
Qed.
Lemma neg_neg x : neg (neg x) = x.
Proof. unfold neg. rewrite map_map. rewrite (map_ext _ (fun a => a)) by (intros; apply Ropp_involutive). apply map_id. Qed.
Lemma dot_0 k : Forall (fun a => a = 0%R) k -> forall x, dot k x = 0%R.
Proof.
  unfold dot. induction 1 as [|a k -> F IH]; intros [|b x]; cbn; try reflexivity. rewrite IH. ring.
Qed.

(** the storage *)
Lemma all_entries {A} (l : list A) d : map (fun i => nth i l d) (seq 0 (length l)) = l.
Proof.
  induction l as [|a l IH]; [reflexivity|]. cbn [length seq map nth]. f_equal. rewrite <- seq_shift, map_map. exact IH.
Qed.
Lemma firstn_exact {A} (a b : list A) n : length a = n -> firstn n (a ++ b) = a.
Proof. intros <-. rewrite firstn_app, Nat.sub_diag, firstn_all. cbn. apply app_nil_r. Qed.
Lemma skipn_exact {A} (a b : list A) n : length a = n -> skipn n (a ++ b) = b.
Proof. intros <-. rewrite skipn_app, Nat.sub_diag, skipn_all. reflexivity. Qed.
Lemma skipn_two {A} (a b c : list A) n : length a = n -> length b = n -> skipn (2 * n) (a ++ b ++ c) = c.
Proof. intros Ha Hb. rewrite app_assoc. apply skipn_exact. rewrite app_length. lia. Qed.

Lemma copy_fits a v l : a + length v <= length l -> copy a v l = firstn a l ++ v ++ skipn (a + length v) l.
Proof.
  intros H. unfold copy. apply firstn_all2. rewrite !app_length, firstn_length, skipn_length. lia.
Qed.
Lemma enough {A} (st : list A) m d : m <= length (if length st <? m then st ++ repeat d (m - length st) else st).
Proof. destruct (Nat.ltb_spec (length st) m); [rewrite app_length, repeat_length|]; lia. Qed.
Lemma storage_first s k st : sized s -> exists t, fst (applyBlock s k st) = map (fun x => cmul x (expi (dot k (dx s)))) (block1 (shiftBlocks s)) ++ t /\
  forall b2, block2 (shiftBlocks s) = Some b2 -> exists t', t = map (fun x => cmul x (expi (- dot k (dx s)))) b2 ++ t'.
Proof.
  intros [L1 L2]. unfold applyBlock. cbn [fst]. set (b := shiftBlocks s) in *. fold (getBlockSize b) in L1. set (n := getBlockSize b) in *.
  unfold loadBlocks. fold n. pose proof (enough st (if isPair b then 2 * n else n) zero) as En. set (st1 := if length st <? _ then _ else st) in *. clearbody st1. assert (A1 : map (fun i => nth i (block1 b) zero) (seq 0 n) = block1 b) by (rewrite <- L1; apply all_entries). rewrite A1. unfold isPair in *. destruct (block2 b) as [b2|] eqn:E2.
  - specialize (L2 b2 eq_refl). assert (L2' : length b2 = n) by (rewrite L2; unfold n, getBlockSize; apply Nat.mul_comm).
    assert (A2 : map (fun i => nth i b2 zero) (seq 0 n) = b2) by (rewrite <- L2'; apply all_entries). rewrite A2.
    rewrite (copy_fits 0 (block1 b) st1) by lia. cbn [firstn app Nat.add]. rewrite L1. rewrite (copy_fits n b2) by (rewrite app_length, skipn_length; lia). rewrite L2'. replace (n + n) with (2 * n) by lia.
    rewrite (firstn_exact (block1 b)) by assumption. set (rest := skipn (2 * n) (block1 b ++ skipn n st1)).
    rewrite (firstn_exact (block1 b)), (skipn_exact (block1 b)) by assumption.
    set (p1 := map _ (block1 b)). assert (Lp : length p1 = n) by (unfold p1; now rewrite map_length).
    rewrite (firstn_exact p1), (skipn_exact p1) by assumption. rewrite (firstn_exact b2) by assumption. rewrite (skipn_two p1 b2) by assumption.
    eexists. split; [reflexivity|]. intros b2' H. injection H as <-. eexists. reflexivity.
  - rewrite (copy_fits 0 (block1 b) st1) by lia. cbn [firstn app Nat.add]. rewrite L1. rewrite (firstn_exact (block1 b)), (skipn_exact (block1 b)) by assumption. eexists. split; [reflexivity|]. discriminate.
Qed.

(** what is written *)
Lemma insert_in b st h w : In w (insertBlock b st h) <-> exists i j, i < length (rowIndices b) /\ j < length (columnIndices b) /\ isZero (snd w) = false /\
  w = (if h then (nth j (columnIndices b) 0, nth i (rowIndices b) 0, nth (getBlockSize b + length (columnIndices b) * i + j) st zero)
       else (nth i (rowIndices b) 0, nth j (columnIndices b) 0, nth (length (rowIndices b) * j + i) st zero)).
Proof.
  unfold insertBlock. split.
  - intros H. apply in_flat_map in H as [i [Hi H]]. apply in_flat_map in H as [j [Hj H]]. apply in_seq in Hi, Hj. exists i, j.
    set (x := if h then _ else _) in *. destruct (isZero (snd x)) eqn:Z; [contradiction|]. destruct H as [<-|[]]. repeat split; try lia; try assumption.
  - intros [i [j [Hi [Hj [Z ->]]]]]. apply in_flat_map. exists i. split; [apply in_seq; lia|]. apply in_flat_map. exists j. split; [apply in_seq; lia|].
    rewrite Z. now left.
Qed.
Lemma nth_some {A} (l : list A) i d : i < length l -> nth_error l i = Some (nth i l d).
Proof. intros H. now apply nth_error_nth'. Qed.
Lemma some_nth {A} (l : list A) i x d : nth_error l i = Some x -> i < length l /\ nth i l d = x.
Proof. intros H. split; [apply nth_error_Some; congruence|]. now apply nth_error_nth. Qed.
Lemma index_fits n m i j : i < n -> j < m -> n * j + i < n * m.
Proof. nia. Qed.
Lemma nth_phase l t u idx : idx < length l -> nth idx (map (fun x => cmul x (expi t)) l ++ u) zero = cmul (nth idx l zero) (expi t).
Proof.
  intros H. rewrite app_nth1 by now rewrite map_length. rewrite <- (cmul_zero t) at 1. apply (map_nth (fun x => cmul x (expi t))).
Qed.

(** one block writes exactly its entries that are not 0, shifted *)
Lemma block_writes s k st r c x : sized s ->
  (In (r, c, x) (snd (applyBlock s k st)) <-> exists v y, shifted [s] r c v y /\ x = cmul v (expi (dot k y))).
Proof.
  intros S. destruct (storage_first s k st S) as [t [E1 E2]]. destruct S as [L1 L2].
  change (snd (applyBlock s k st)) with (insertBlocks (shiftBlocks s) (fst (applyBlock s k st))). rewrite E1. set (b := shiftBlocks s) in *.
  assert (P1 : In (r, c, x) (insertBlock b (map (fun x => cmul x (expi (dot k (dx s)))) (block1 b) ++ t) false) <->
    exists v, has (rowIndices b) (columnIndices b) (block1 b) r c v /\ v <> zero /\ x = cmul v (expi (dot k (dx s)))).
  { rewrite insert_in. split.
    - intros [i [j [Hi [Hj [Z E]]]]]. injection E as -> -> ->. pose proof (index_fits _ _ i j Hi Hj) as F. rewrite <- L1 in F. cbn [snd] in Z.
      rewrite nth_phase in * by assumption. eexists. split; [|split; [|reflexivity]].
      + exists i, j. repeat split; now apply nth_some.
      + intros H. apply (shifted_zero _ (dot k (dx s))) in H. congruence.
    - intros [v [[i [j [Hr [Hc Hv]]]] [Nz ->]]]. destruct (some_nth _ _ _ 0 Hr) as [Lr <-]. destruct (some_nth _ _ _ 0 Hc) as [Lc <-]. destruct (some_nth _ _ _ zero Hv) as [Lv Ev].
      exists i, j. repeat split; try assumption.
      + cbn [snd]. destruct (isZero _) eqn:Z; [|reflexivity]. apply shifted_zero in Z. contradiction.
      + rewrite nth_phase by assumption. now rewrite Ev. }
  unfold insertBlocks, isPair. fold b. destruct (block2 b) as [b2|] eqn:B2.
  - destruct (E2 b2 eq_refl) as [t' ->]. specialize (L2 b2 eq_refl).
    assert (Lm : length (map (fun x => cmul x (expi (dot k (dx s)))) (block1 b)) = getBlockSize b) by (rewrite map_length; exact L1).
    assert (P2 : In (r, c, x) (insertBlock b (map (fun x => cmul x (expi (dot k (dx s)))) (block1 b) ++ map (fun x => cmul x (expi (- dot k (dx s)))) b2 ++ t') true) <->
      exists v, has (columnIndices b) (rowIndices b) b2 r c v /\ v <> zero /\ x = cmul v (expi (- dot k (dx s)))).
    { rewrite insert_in. split.
      - intros [i [j [Hi [Hj [Z E]]]]]. injection E as -> -> ->. pose proof (index_fits _ _ j i Hj Hi) as F. rewrite <- L2 in F. cbn [snd] in Z.
        rewrite <- Nat.add_assoc, <- Lm in *. rewrite app_nth2_plus in *. rewrite nth_phase in * by assumption. eexists. split; [|split; [|reflexivity]].
        + exists j, i. repeat split; now apply nth_some.
        + intros H. apply (shifted_zero _ (- dot k (dx s))) in H. congruence.
      - intros [v [[j [i [Hc [Hr Hv]]]] [Nz ->]]]. destruct (some_nth _ _ _ 0 Hr) as [Lr <-]. destruct (some_nth _ _ _ 0 Hc) as [Lc <-]. destruct (some_nth _ _ _ zero Hv) as [Lv Ev].
        exists i, j. repeat split; try assumption.
        + cbn [snd]. destruct (isZero _) eqn:Z; [|reflexivity]. apply shifted_zero in Z. contradiction.
        + rewrite <- Nat.add_assoc, <- Lm. rewrite app_nth2_plus, nth_phase by assumption. now rewrite Ev. }
    rewrite in_app_iff, P1, P2. split.
    + intros [[v [H [N ->]]]|[v [H [N ->]]]].
      * exists v, (dx s). split; [|reflexivity]. now apply (shifted_first _ _ _ _ _ s); [left| | |].
      * exists v, (neg (dx s)). rewrite dot_neg. split; [|reflexivity]. apply (shifted_second _ _ _ _ _ s b2); auto. now left.
    + intros [v [y [[s' I H N ->|s' b' I B H N ->] ->]]]; destruct I as [<-|[]]; fold b in H; try fold b in B.
      * left. exists v. auto.
      * right. exists v. assert (b' = b2) by congruence. subst b'. rewrite dot_neg. auto.
  - rewrite app_nil_r, P1. split.
    + intros [v [H [N ->]]]. exists v, (dx s). split; [|reflexivity]. now apply (shifted_first _ _ _ _ _ s); [left| | |].
    + intros [v [y [[s' I H N ->|s' b' I B H N ->] ->]]]; destruct I as [<-|[]]; fold b in H; try fold b in B; [|congruence]. exists v. auto.
Qed.
Lemma shifted_cons s l r c v y : shifted (s :: l) r c v y <-> shifted [s] r c v y \/ shifted l r c v y.
Proof.
  split.
  - intros [s' [<-|I] H N E|s' b' [<-|I] B H N E].
    + left. apply (shifted_first _ _ _ _ _ s); auto; now left.
    + right. apply (shifted_first _ _ _ _ _ s'); auto.
    + left. apply (shifted_second _ _ _ _ _ s b'); auto; now left.
    + right. apply (shifted_second _ _ _ _ _ s' b'); auto.
  - intros [[s' [<-|[]] H N E|s' b' [<-|[]] B H N E]|[s' I H N E|s' b' I B H N E]].
    + apply (shifted_first _ _ _ _ _ s); auto; now left.
    + apply (shifted_second _ _ _ _ _ s b'); auto; now left.
    + apply (shifted_first _ _ _ _ _ s'); auto; now right.
    + apply (shifted_second _ _ _ _ _ s' b'); auto; now right.
Qed.
Lemma all_writes l k : Forall sized l -> forall st r c x,
  (In (r, c, x) (writes l k st) <-> exists v y, shifted l r c v y /\ x = cmul v (expi (dot k y))).
Proof.
  induction 1 as [|s l S F IH]; intros st r c x.
  - cbn. split; [contradiction|]. intros [v [y [[? []|? ? []] _]]].
  - cbn [writes]. destruct (applyBlock s k st) as [st' w] eqn:A. rewrite in_app_iff, IH. assert (W : w = snd (applyBlock s k st)) by now rewrite A. rewrite W, block_writes by assumption. split.
    + intros [[v [y [H ->]]]|[v [y [H ->]]]]; exists v, y; (split; [apply shifted_cons; auto|reflexivity]).
    + intros [v [y [H ->]]]. apply shifted_cons in H as [H|H]; [left|right]; exists v, y; auto.
Qed.

(** what the matrix has then *)
Lemma set_here m r c x : MatSetValue m (r, c, x) r c = x.
Proof. unfold MatSetValue. cbn. now rewrite !Nat.eqb_refl. Qed.
Lemma set_other m r c x r' c' : (r, c) <> (r', c') -> MatSetValue m (r, c, x) r' c' = m r' c'.
Proof.
  intros H. unfold MatSetValue. cbn. destruct (Nat.eqb_spec r' r) as [->|]; [|reflexivity]. destruct (Nat.eqb_spec c' c) as [->|]; [congruence|reflexivity].
Qed.
Lemma not_written ws : forall m r c, (forall x, ~ In (r, c, x) ws) -> fold_left MatSetValue ws m r c = m r c.
Proof.
  induction ws as [|[[r' c'] x'] ws IH]; intros m r c H; [reflexivity|]. cbn [fold_left]. rewrite IH.
  - apply set_other. intros E. injection E as -> ->. apply (H x'). now left.
  - intros x I. apply (H x). now right.
Qed.
Lemma written ws : forall m r c x, In (r, c, x) ws -> exists x', In (r, c, x') ws /\ fold_left MatSetValue ws m r c = x'.
Proof.
  induction ws as [|w ws IH] using rev_ind; intros m r c x H; [contradiction|]. rewrite fold_left_app. cbn [fold_left]. destruct w as [[r' c'] y].
  destruct (Nat.eq_dec r' r) as [->|Nr]; [destruct (Nat.eq_dec c' c) as [->|Nc]|].
  - exists y. rewrite set_here. split; [apply in_or_app; right; now left|reflexivity].
  - apply in_app_or in H as [H|[H|[]]]; [|congruence]. destruct (IH m r c x H) as [x' [I E]]. exists x'. rewrite set_other by congruence. split; [apply in_or_app; now left|exact E].
  - apply in_app_or in H as [H|[H|[]]]; [|congruence]. destruct (IH m r c x H) as [x' [I E]]. exists x'. rewrite set_other by congruence. split; [apply in_or_app; now left|exact E].
Qed.
Lemma covered ws : forall m m' r c x, In (r, c, x) ws -> fold_left MatSetValue ws m r c = fold_left MatSetValue ws m' r c.
Proof.
  induction ws as [|w ws IH] using rev_ind; intros m m' r c x H; [contradiction|]. rewrite !fold_left_app. cbn [fold_left]. destruct w as [[r' c'] y].
  destruct (Nat.eq_dec r' r) as [->|Nr]; [destruct (Nat.eq_dec c' c) as [->|Nc]|].
  - now rewrite !set_here.
  - apply in_app_or in H as [H|[H|[]]]; [|congruence]. rewrite !set_other by congruence. exact (IH m m' r c x H).
  - apply in_app_or in H as [H|[H|[]]]; [|congruence]. rewrite !set_other by congruence. exact (IH m m' r c x H).
Qed.
Lemma shifted_or_not l r c : Forall sized l -> (exists v y, shifted l r c v y) \/ (forall v y, ~ shifted l r c v y).
Proof.
  intros S. set (k := @nil R). assert (D : (exists x, In (r, c, x) (writes l k [])) \/ (forall x, ~ In (r, c, x) (writes l k []))).
  { induction (writes l k []) as [|[[r' c'] y] ws [[x H]|IH]]; [right; intros x []|left; exists x; now right|].
    destruct (Nat.eq_dec r' r) as [->|Nr]; [destruct (Nat.eq_dec c' c) as [->|Nc]|]; [left; exists y; now left|right|right]; intros x [H|H]; try congruence; exact (IH x H). }
  destruct D as [[x H]|H].
  - left. apply all_writes in H as [v [y [H _]]]; [|exact S]. eauto.
  - right. intros v y Hs. apply (H (cmul v (expi (dot k y)))). apply all_writes; [exact S|]. eauto.
Qed.
