From Coq Require Import List NArith Arith Bool Permutation Lia.
From Verif Require Import Std_model Std_proofs LocalIndexing_model LocalIndexing_spec.
Import ListNotations.
Open Scope N_scope.

(** ** list facts *)
Lemma set_at_some l i x : (i < length l)%nat -> exists l', set_at l i x = Some l'.
Proof.
  revert i; induction l as [|y l IH]; intros [|i] H; simpl in *; try lia; eauto.
  destruct (IH i) as [l' ->]; [lia|eauto].
Qed.
Lemma set_at_length l i x l' : set_at l i x = Some l' -> length l' = length l.
Proof.
  revert i l'; induction l as [|y l IH]; intros [|i] l' H; simpl in *; try discriminate.
  - inversion H; reflexivity.
  - destruct (set_at l i x) eqn:E; [|discriminate]. inversion H; subst; simpl. f_equal; eauto.
Qed.
Lemma set_at_nth l i x l' j d : set_at l i x = Some l' ->
  nth j l' d = if Nat.eqb j i then x else nth j l d.
Proof.
  revert i l' j; induction l as [|y l IH]; intros [|i] l' j H; simpl in *; try discriminate.
  - inversion H; subst. destruct j; reflexivity.
  - destruct (set_at l i x) eqn:E; [|discriminate]. inversion H; subst.
    destruct j; simpl; [reflexivity|]. eauto.
Qed.
Lemma nth_repeat_any (x d : N) n u : nth u (repeat x n) d = if (u <? n)%nat then x else d.
Proof.
  revert u; induction n; intros [|u]; simpl; auto. rewrite IHn. reflexivity.
Qed.
Lemma nth_grow l n x u : nth u (grow l n x) x = nth u l x.
Proof.
  unfold grow. destruct (Nat.lt_ge_cases u (length l)) as [H|H].
  - apply app_nth1, H.
  - rewrite app_nth2 by exact H. rewrite nth_repeat_any.
    rewrite (nth_overflow l) by exact H. destruct (_ <? _)%nat; reflexivity.
Qed.
Lemma grow_length l n x : (length l <= n)%nat -> length (grow l n x) = n.
Proof. intros. unfold grow. rewrite app_length, repeat_length. lia. Qed.
Lemma nth_map_const (l : list N) (x : N) u : nth u (map (fun _ => x) l) x = x.
Proof. revert u; induction l; intros [|u]; simpl; auto. Qed.

Lemma existsb_in u us : existsb (Nat.eqb u) us = true <-> In u us.
Proof.
  rewrite existsb_exists. split.
  - intros [x [H E]]. apply Nat.eqb_eq in E. subst. exact H.
  - intros H. exists u. split; [exact H|]. apply Nat.eqb_refl.
Qed.
Lemma existsb_perm u us us' : Permutation us us' -> existsb (Nat.eqb u) us = existsb (Nat.eqb u) us'.
Proof.
  intros P. destruct (existsb (Nat.eqb u) us) eqn:E; symmetry.
  - apply existsb_in. apply existsb_in in E. eapply Permutation_in; eauto.
  - apply not_true_is_false. intros H. apply existsb_in in H.
    apply (Permutation_in _ (Permutation_sym P)) in H. apply existsb_in in H. congruence.
Qed.

Lemma sum_app a b : sum (a ++ b) = sum a + sum b.
Proof. induction a; simpl; auto. rewrite IHa. lia. Qed.
Lemma sum_perm a b : Permutation a b -> sum a = sum b.
Proof. induction 1; simpl; lia. Qed.
Lemma filter_perm {A} (f : A -> bool) a b : Permutation a b -> Permutation (filter f a) (filter f b).
Proof.
  induction 1; simpl; auto.
  - destruct (f x); auto.
  - destruct (f x), (f y); auto. constructor.
  - etransitivity; eauto.
Qed.
Lemma dofs_before_perm e us us' u : Permutation us us' -> dofs_before e us u = dofs_before e us' u.
Proof. intros P. apply sum_perm, Permutation_map, filter_perm, P. Qed.
Lemma dofs_total_perm e us us' : Permutation us us' -> dofs_total e us = dofs_total e us'.
Proof. intros P. apply sum_perm, Permutation_map, P. Qed.

Lemma dofs_before_le e us u : dofs_before e us u <= dofs_total e us.
Proof.
  unfold dofs_before, dofs_total. induction us as [|v us IH]; [apply N.le_refl|].
  cbn [filter]. destruct (v <? u)%nat; cbn [map sum fold_right]; unfold sum in *; lia.
Qed.

(** strictly increasing lists *)
Fixpoint incr_from (p : nat) (l : list nat) : Prop :=
  match l with [] => True | x :: r => (p <= x)%nat /\ incr_from (S x) r end.
Lemma sorted_nodup_incr l : forall p, sorted_from p l -> NoDup l -> incr_from p l.
Proof.
  induction l as [|x l IH]; intros p H Hn; simpl in *; auto.
  inversion Hn; subst. destruct H as [Ha Hb]. split; [exact Ha|].
  apply IH; [|assumption]. destruct l as [|y l]; [exact I|]. simpl in *.
  split; [|tauto]. assert (x <> y) by (intros ->; tauto). lia.
Qed.
Lemma incr_in l : forall p x, incr_from p l -> In x l -> (p <= x)%nat.
Proof.
  induction l as [|y l IH]; intros p x H Hx; simpl in *; [tauto|].
  destruct Hx as [->|Hx]; [tauto|]. destruct H as [H1 H2]. specialize (IH _ _ H2 Hx). lia.
Qed.
Lemma incr_last l p d : incr_from p l -> forall x, In x l -> (x <= last l d)%nat.
Proof.
  revert p; induction l as [|y l IH]; intros p H x Hx; [destruct Hx|].
  simpl in H. destruct l as [|z l].
  - destruct Hx as [->|[]]. simpl. lia.
  - change (last (y :: z :: l) d) with (last (z :: l) d).
    destruct H as [H1 H2]. destruct Hx as [->|Hx]; [|eapply IH; eauto].
    assert (z <= last (z :: l) d)%nat by (eapply IH; [exact H2|left; reflexivity]).
    simpl in H2. lia.
Qed.
Lemma filter_none l : forall p u, incr_from p l -> (u <= p)%nat -> filter (fun v => (v <? u)%nat) l = [].
Proof.
  induction l as [|y l IH]; intros p u H Hu; simpl in *; auto.
  destruct H as [H1 H2]. replace (y <? u)%nat with false by (symmetry; apply Nat.ltb_ge; lia).
  apply (IH (S y)); [exact H2|lia].
Qed.

(** ** the loop in reinit(element) *)
Lemma fill_ok e us : forall p total offs szs,
  incr_from p us -> length szs = length offs ->
  (forall u, In u us -> (u < length e)%nat /\ (u < length offs)%nat) ->
  exists offs' szs', fill e us total offs szs = Some (offs', szs') /\
    length offs' = length offs /\ length szs' = length szs /\
    (forall u d, nth u offs' d = if existsb (Nat.eqb u) us then total + dofs_before e us u else nth u offs d) /\
    (forall u d, nth u szs' d = if existsb (Nat.eqb u) us then count e u else nth u szs d).
Proof.
  induction us as [|x us IH]; intros p total offs szs Hi Hl Hr; cbn [fill].
  - exists offs, szs. repeat split; auto.
  - destruct (Hr x (or_introl eq_refl)) as [He Ho].
    destruct (nth_error e x) as [n|] eqn:En.
    2:{ apply nth_error_None in En. lia. }
    destruct (set_at_some offs x total Ho) as [o1 Eo].
    destruct (set_at_some szs x n) as [z1 Ez]; [lia|].
    rewrite Eo, Ez. destruct Hi as [Hi1 Hi2].
    pose proof (set_at_length _ _ _ _ Eo) as Lo. pose proof (set_at_length _ _ _ _ Ez) as Lz.
    destruct (IH (S x) (total + n) o1 z1) as (o2 & z2 & E & L1 & L2 & N1 & N2); auto.
    { lia. }
    { intros u Hu. rewrite Lo. apply Hr. right. exact Hu. }
    assert (Hcx : count e x = n).
    { unfold count. erewrite nth_error_nth; [|exact En]. reflexivity. }
    exists o2, z2. split; [exact E|]. split; [lia|]. split; [lia|]. split.
    + intros u d. rewrite N1. cbn [existsb].
      rewrite (set_at_nth _ _ _ _ u d Eo).
      destruct (existsb (Nat.eqb u) us) eqn:Eu.
      * rewrite orb_true_r. apply existsb_in in Eu.
        pose proof (incr_in _ _ _ Hi2 Eu) as Hu.
        unfold dofs_before. cbn [filter].
        replace (x <? u)%nat with true by (symmetry; apply Nat.ltb_lt; lia).
        cbn [map sum fold_right]. rewrite Hcx. unfold sum. lia.
      * rewrite orb_false_r. destruct (Nat.eqb u x) eqn:Ex; [|reflexivity].
        apply Nat.eqb_eq in Ex; subst u. unfold dofs_before. cbn [filter].
        rewrite Nat.ltb_irrefl. rewrite (filter_none us (S x) x Hi2) by lia. cbn. lia.
    + intros u d. rewrite N2. cbn [existsb]. rewrite (set_at_nth _ _ _ _ u d Ez).
      destruct (existsb (Nat.eqb u) us) eqn:Eu.
      * rewrite orb_true_r. reflexivity.
      * rewrite orb_false_r. destruct (Nat.eqb u x) eqn:Ex; [|reflexivity].
        apply Nat.eqb_eq in Ex; subst u. symmetry. exact Hcx.
Qed.

(** ** invariant *)
Definition inv (us : list nat) (e : option elem) (s : eli) : Prop :=
  element s = e /\ NoDup us /\ included s = sort us /\ length (sizes s) = length (offsets s) /\
  (forall u, In u us -> (u < length (offsets s))%nat) /\
  (forall u, nth u (offsets s) NOT_INCLUDED = expected_offset e us u) /\
  (forall u, nth u (sizes s) 0 = expected_size e us u).

Lemma inv_new : inv [] None eli_new.
Proof.
  repeat split; auto; cbn; try tauto; try (intros u; destruct u; reflexivity). constructor.
Qed.

Lemma sort_incr us : NoDup us -> incr_from 0 (sort us).
Proof.
  intros H. apply sorted_nodup_incr; [apply sort_sorted|].
  eapply Permutation_NoDup; [apply Permutation_sym, sort_perm|exact H].
Qed.

Lemma inv_element us e0 s e : inv us e0 s -> covers us e ->
  (* either the entries of excluded unknowns are clear already *)
  exists s', reinitElement e s = Some s' /\ inv us e s'.
Proof.
  intros (H1 & H2 & H3 & H4 & H5 & H6 & H7) Hc. destruct e as [el|]; cbn [reinitElement].
  - destruct (fill_ok el (included s) 0 0 (offsets s) (sizes s)) as (o & z & E & L1 & L2 & N1 & N2); auto.
    + rewrite H3. apply sort_incr, H2.
    + intros u Hu. rewrite H3 in Hu. apply (proj1 (sort_in _ _)) in Hu. split; [apply Hc, Hu|apply H5, Hu].
    + rewrite E. eexists. split; [reflexivity|]. cbn in *.
      repeat split; auto; cbn.
      * lia.
      * intros u Hu. rewrite L1. apply H5, Hu.
      * intros u. rewrite N1, H3. rewrite (existsb_perm _ _ _ (sort_perm us)).
        destruct (existsb (Nat.eqb u) us) eqn:Eu.
        -- rewrite (dofs_before_perm _ _ _ _ (sort_perm us)). apply N.add_0_l.
        -- rewrite H6. unfold expected_offset. destruct e0; [rewrite Eu|]; reflexivity.
      * intros u. rewrite N2, H3. rewrite (existsb_perm _ _ _ (sort_perm us)).
        destruct (existsb (Nat.eqb u) us) eqn:Eu; [reflexivity|].
        rewrite H7. unfold expected_size. destruct e0; [rewrite Eu|]; reflexivity.
  - eexists. split; [reflexivity|]. unfold clearUnknownVectors. cbn.
    repeat split; auto; cbn.
    + rewrite !map_length. exact H4.
    + intros u Hu. rewrite map_length. apply H5, Hu.
    + intros u. apply (nth_map_const _ NOT_INCLUDED).
    + intros u. apply (nth_map_const _ 0).
Qed.

Lemma duplicate_check_ok asserts us : NoDup us -> (asserts = true -> us <> []) ->
  duplicate_check asserts (sort us) = true.
Proof.
  intros Hn Hne. unfold duplicate_check. destruct asserts; [|reflexivity].
  destruct (sort us) as [|x l] eqn:E.
  - exfalso. apply Hne; [reflexivity|].
    pose proof (sort_perm us) as P. rewrite E in P. apply Permutation_nil in P. exact P.
  - rewrite <- E. assert (H : incr_from 0 (sort us)) by (apply sort_incr, Hn).
    rewrite E in *. clear E. revert x H. generalize 0%nat.
    induction l as [|y l IH]; intros p x H; [reflexivity|].
    cbn [has_adjacent_duplicate]. simpl in H. destruct H as [_ [H1 H2]].
    replace (Nat.eqb x y) with false by (symmetry; apply Nat.eqb_neq; lia).
    cbn [orb]. apply (IH (S x)). simpl. auto.
Qed.

Lemma inv_unknowns asserts us0 e s us : inv us0 e s -> NoDup us -> covers us e ->
  (asserts = true -> us <> []) ->
  exists s', reinitUnknowns asserts us s = Some s' /\ inv us e s'.
Proof.
  intros (H1 & H2 & H3 & H4 & H5 & H6 & H7) Hn Hc Ha. unfold reinitUnknowns.
  rewrite duplicate_check_ok by assumption.
  set (s1 := match sort us with [] => _ | _ => _ end).
  assert (P : element s1 = e /\ included s1 = sort us /\ length (sizes s1) = length (offsets s1) /\
              (forall u, In u us -> (u < length (offsets s1))%nat) /\
              (forall u, nth u (offsets s1) NOT_INCLUDED = nth u (offsets s) NOT_INCLUDED) /\
              (forall u, nth u (sizes s1) 0 = nth u (sizes s) 0)).
  { assert (Hlast : forall u, In u us -> (u <= last (sort us) 0)%nat).
    { intros u Hu. eapply incr_last; [apply sort_incr, Hn|]. apply sort_in, Hu. }
    unfold s1. destruct (sort us) as [|x l] eqn:E.
    - cbn. repeat split; auto. intros u Hu. exfalso.
      apply (proj2 (sort_in _ _)) in Hu. rewrite E in Hu. destruct Hu.
    - rewrite <- E in *.
      destruct (Nat.leb (length (sizes s)) (last (sort us) 0%nat)) eqn:El; cbn.
      + apply Nat.leb_le in El. repeat split; auto.
        * rewrite !grow_length by lia. reflexivity.
        * intros u Hu. rewrite grow_length by lia. specialize (Hlast u Hu). lia.
        * intros u. apply nth_grow.
        * intros u. apply nth_grow.
      + apply Nat.leb_gt in El. repeat split; auto.
        intros u Hu. specialize (Hlast u Hu). lia. }
  destruct P as (P1 & P2 & P3 & P4 & P5 & P6). rewrite P1.
  destruct e as [el|].
  - (* cleared, then refilled *)
    assert (Hi : inv us None (clearUnknownVectors s1) \/ True) by tauto. clear Hi.
    destruct (inv_element us None
                {| element := None; offsets := map (fun _ => NOT_INCLUDED) (offsets s1);
                   sizes := map (fun _ => 0) (sizes s1); included := included s1 |} (Some el))
      as (s' & E & Hi).
    + repeat split; auto; cbn.
      * rewrite !map_length. exact P3.
      * intros u Hu. rewrite map_length. apply P4, Hu.
      * intros u. apply (nth_map_const _ NOT_INCLUDED).
      * intros u. apply (nth_map_const _ 0).
    + exact Hc.
    + exists s'. split; [|exact Hi]. exact E.
  - exists s1. split; [reflexivity|]. repeat split; auto.
    + intros u. rewrite P5, H6. reflexivity.
    + intros u. rewrite P6, H7. reflexivity.
Qed.

Lemma fold_left_snoc {A B} (f : A -> B -> A) l x a : fold_left f (l ++ [x]) a = f (fold_left f l a) x.
Proof. rewrite fold_left_app. reflexivity. Qed.

Lemma legal_prefix h1 h2 : legal (h1 ++ h2) -> legal h1.
Proof.
  intros [A B]. split.
  - intros us H. apply A, in_or_app. left. exact H.
  - intros a b E. apply (B a (b ++ h2)). rewrite E, <- app_assoc. reflexivity.
Qed.

Lemma calls_snoc asserts h : forall s c,
  calls asserts s (h ++ [c]) =
  match calls asserts s h with None => None | Some s' => do_call asserts s' c end.
Proof.
  induction h as [|x h IH]; intros s c; cbn.
  - destruct (do_call asserts s c); reflexivity.
  - destruct (do_call asserts s x); auto.
Qed.

Lemma calls_inv asserts h : legal h -> (asserts = true -> nonempty_lists h) ->
  exists s, calls asserts eli_new h = Some s /\ inv (unknowns_after h) (element_after h) s.
Proof.
  induction h as [|c h IH] using rev_ind; intros Hl Ha.
  - exists eli_new. split; [reflexivity|exact inv_new].
  - destruct IH as (s & E & Hi).
    { eapply legal_prefix; eauto. }
    { intros Hx Hin. apply (Ha Hx). apply in_or_app. left. exact Hin. }
    rewrite calls_snoc, E.
    pose proof (proj2 Hl (h ++ [c]) [] (eq_sym (app_nil_r _))) as Hc.
    unfold unknowns_after, element_after in *. rewrite !fold_left_snoc in *.
    destruct c as [us|e]; cbn [do_call].
    + eapply inv_unknowns; eauto.
      * apply (proj1 Hl). apply in_or_app. right. left. reflexivity.
      * intros Hx ->. apply (Ha Hx). apply in_or_app. right. left. reflexivity.
    + eapply inv_element; eauto.
Qed.

Lemma total_of_ok (szs : list N) us :
  (forall u, In u us -> (u < length szs)%nat) ->
  total_of szs us = Some (sum (map (fun u => nth u szs 0) us)).
Proof.
  induction us as [|u us IH]; intros H; cbn [total_of map sum fold_right]; [reflexivity|].
  rewrite IH by (intros v Hv; apply H; right; exact Hv).
  rewrite (nth_error_nth' szs 0) by (apply H; left; reflexivity). reflexivity.
Qed.

Lemma inv_total us e s : inv us e s -> getTotalDoFs s = Some (expected_total e us).
Proof.
  intros (H1 & H2 & H3 & H4 & H5 & H6 & H7). unfold getTotalDoFs.
  rewrite total_of_ok.
  - f_equal. rewrite H3.
    rewrite (sum_perm _ (map (fun u => nth u (sizes s) 0) us)) by (apply Permutation_map, sort_perm).
    destruct e as [el|]; cbn [expected_total].
    + unfold dofs_total. f_equal. apply map_ext_in. intros u Hu. rewrite H7. cbn.
      rewrite (proj2 (existsb_in u us) Hu). reflexivity.
    + transitivity (sum (map (fun _ : nat => 0) us)).
      * f_equal. apply map_ext. intros u. rewrite H7. reflexivity.
      * clear. induction us; simpl; auto.
  - intros u Hu. rewrite H3 in Hu. apply (proj1 (sort_in _ _)) in Hu. rewrite H4. apply H5, Hu.
Qed.

Lemma element_history asserts h : legal h -> (asserts = true -> nonempty_lists h) ->
  exists s, calls asserts eli_new h = Some s /\
    (forall u, getDoFOffset s u = expected_offset (element_after h) (unknowns_after h) u) /\
    (forall u, getNumberOfDoFs s u = expected_size (element_after h) (unknowns_after h) u) /\
    getTotalDoFs s = Some (expected_total (element_after h) (unknowns_after h)) /\
    Permutation (included s) (unknowns_after h) /\ sorted_from 0 (included s).
Proof.
  intros Hl Ha. destruct (calls_inv asserts h Hl Ha) as (s & E & Hi).
  exists s. split; [exact E|]. pose proof (inv_total _ _ _ Hi) as Ht.
  destruct Hi as (H1 & H2 & H3 & H4 & H5 & H6 & H7).
  repeat split; auto.
  - rewrite H3. apply sort_perm.
  - rewrite H3. apply sort_sorted.
Qed.

(** ** the ranges tile 0..total-1 *)
Definition range (start len : N) : list N := map (fun i => start + N.of_nat i) (seq 0 (N.to_nat len)).

Lemma range_app s a b : range s (a + b) = range s a ++ range (s + a) b.
Proof.
  unfold range. rewrite N2Nat.inj_add, seq_app, map_app. f_equal.
  rewrite Nat.add_0_l. replace (seq (N.to_nat a) (N.to_nat b)) with (map (fun i => (N.to_nat a + i)%nat) (seq 0 (N.to_nat b))).
  - rewrite map_map. apply map_ext. intros i. lia.
  - generalize (N.to_nat a). clear. generalize (N.to_nat b). intros n m.
    revert m; induction n; intros m; simpl; [reflexivity|]. rewrite Nat.add_0_r. f_equal.
    rewrite <- seq_shift, map_map. transitivity (map (fun i => (S m + i)%nat) (seq 0 n)).
    + apply map_ext. intros; lia.
    + apply IHn.
Qed.

Lemma tile_incr e l : forall p start,
  incr_from p l ->
  concat (map (fun u => range (start + dofs_before e l u) (count e u)) l) = range start (dofs_total e l).
Proof.
  induction l as [|x l IH]; intros p start H.
  - reflexivity.
  - destruct H as [H1 H2]. cbn [map concat]. unfold dofs_total. cbn [map sum fold_right].
    rewrite range_app. f_equal.
    + f_equal. unfold dofs_before. cbn [filter]. rewrite Nat.ltb_irrefl.
      rewrite (filter_none l (S x) x H2) by lia. cbn. lia.
    + change (fold_right N.add 0 (map (count e) l)) with (dofs_total e l).
      rewrite <- (IH (S x) (start + count e x) H2). f_equal. apply map_ext_in. intros u Hu.
      pose proof (incr_in _ _ _ H2 Hu). f_equal. unfold dofs_before. cbn [filter].
      replace (x <? u)%nat with true by (symmetry; apply Nat.ltb_lt; lia).
      cbn [map sum fold_right]. unfold sum. lia.
Qed.

Lemma concat_perm {A} (a b : list (list A)) : Permutation a b -> Permutation (concat a) (concat b).
Proof.
  induction 1; cbn; auto.
  - apply Permutation_app_head. assumption.
  - rewrite !app_assoc. apply Permutation_app_tail, Permutation_app_comm.
  - etransitivity; eauto.
Qed.

Lemma tile e us start : NoDup us ->
  Permutation (concat (map (fun u => range (start + dofs_before e us u) (count e u)) us))
              (range start (dofs_total e us)).
Proof.
  intros H. rewrite (dofs_total_perm e _ _ (Permutation_sym (sort_perm us))).
  rewrite <- (tile_incr e (sort us) 0 start (sort_incr us H)).
  transitivity (concat (map (fun u => range (start + dofs_before e us u) (count e u)) (sort us))).
  - apply concat_perm, Permutation_map, Permutation_sym, sort_perm.
  - erewrite map_ext; [reflexivity|]. intros u. cbn.
    rewrite (dofs_before_perm e _ _ u (sort_perm us)). reflexivity.
Qed.

Lemma range_iota s n : iota s n = range s n.
Proof. reflexivity. Qed.
Lemma range_numbers n : range 0 n = numbers n.
Proof. unfold range, numbers. apply map_ext. intros; lia. Qed.

Lemma element_tiles asserts h e : legal h -> (asserts = true -> nonempty_lists h) ->
  element_after h = Some e ->
  exists s t, calls asserts eli_new h = Some s /\ getTotalDoFs s = Some t /\
    Permutation (concat (map (fun u => iota (getDoFOffset s u) (getNumberOfDoFs s u)) (unknowns_after h)))
                (numbers t).
Proof.
  intros Hl Ha He. destruct (element_history asserts h Hl Ha) as (s & E & O & Z & T & _).
  rewrite He in *. exists s, (dofs_total e (unknowns_after h)). split; [exact E|].
  split; [exact T|].
  assert (Hn : NoDup (unknowns_after h)).
  { destruct (calls_inv asserts h Hl Ha) as (s' & _ & _ & Hn & _). exact Hn. }
  rewrite <- range_numbers. rewrite <- (tile e (unknowns_after h) 0 Hn).
  erewrite map_ext_in; [reflexivity|].
  intros u Hu. cbv beta. rewrite O, Z. cbn [expected_offset expected_size].
  rewrite (proj2 (existsb_in u _) Hu). rewrite N.add_0_l. reflexivity.
Qed.

(** ** faces *)
Lemma fcalls_split asserts h : forall s,
  fcalls asserts s h =
  match calls asserts (left_ s) (left_calls h), calls asserts (right_ s) (right_calls h) with
  | Some l, Some r => Some {| left_ := l; right_ := r |}
  | _, _ => None
  end.
Proof.
  induction h as [|c h IH]; intros s; cbn.
  - destruct s; reflexivity.
  - destruct c as [us|l r]; cbn.
    + unfold freinitUnknowns. destruct (reinitUnknowns asserts us (left_ s)); [|reflexivity].
      destruct (reinitUnknowns asserts us (right_ s)); [apply IH|].
      destruct (calls asserts _ _); reflexivity.
    + unfold freinitFace.
      change (match fill l (included (left_ s)) 0 (offsets (left_ s)) (sizes (left_ s)) with
              | Some (offs, szs) =>
                  Some {| element := Some l; offsets := offs; sizes := szs; included := included (left_ s) |}
              | None => None
              end) with (reinitElement (Some l) (left_ s)).
      destruct (reinitElement (Some l) (left_ s)); [|reflexivity].
      destruct (reinitElement r (right_ s)); [apply IH|].
      destruct (calls asserts _ _); reflexivity.
Qed.

Lemma unknowns_after_lr h : unknowns_after (left_calls h) = unknowns_after (right_calls h).
Proof.
  unfold unknowns_after. generalize (@nil nat). induction h as [|c h IH]; intros us; [reflexivity|].
  cbn. destruct c; cbn; apply IH.
Qed.

Lemma face_offsets asserts h el er :
  legal (left_calls h) -> legal (right_calls h) ->
  (asserts = true -> nonempty_lists (left_calls h)) ->
  element_after (left_calls h) = Some el -> element_after (right_calls h) = Some er ->
  let us := unknowns_after (left_calls h) in
  dofs_total el us + dofs_total er us < 2 ^ 64 ->
  exists s, fcalls asserts fli_new h = Some s /\
    (forall u, In u us -> fDoFOffset s u LEFT = Some (dofs_before el us u) /\
       fDoFOffset s u RIGHT = Some (dofs_total el us + dofs_before er us u)) /\
    (forall u, fNumberOfDoFs s u LEFT = Some (if existsb (Nat.eqb u) us then count el u else 0) /\
               fNumberOfDoFs s u RIGHT = Some (if existsb (Nat.eqb u) us then count er u else 0)) /\
    fTotalDoFs s = Some (dofs_total el us + dofs_total er us) /\
    element (right_ s) = Some er /\ NoDup us /\
    (forall u, ~ In u us -> fDoFOffset s u LEFT = Some (2 ^ 64 - 1) /\
       fDoFOffset s u RIGHT = Some ((dofs_total el us + (2 ^ 64 - 1)) mod 2 ^ 64)).
Proof.
  intros Hl Hr Ha El Er us Hb.
  assert (Hne : asserts = true -> nonempty_lists (right_calls h)).
  { intros Hx Hin. apply (Ha Hx). clear -Hin. unfold left_calls, right_calls in *.
    apply in_map_iff in Hin as [c [Hc Hin]]. apply in_map_iff. exists c.
    destruct c; [|discriminate]. split; auto. }
  destruct (calls_inv asserts _ Hl Ha) as (sl & Esl & Il).
  destruct (calls_inv asserts _ Hr Hne) as (sr & Esr & Ir).
  pose proof (inv_total _ _ _ Il) as Tl. pose proof (inv_total _ _ _ Ir) as Tr.
  rewrite <- unknowns_after_lr in Ir, Tr. rewrite El in Il, Tl. rewrite Er in Ir, Tr.
  change (unknowns_after (left_calls h)) with us in Il, Ir, Tl, Tr.
  destruct Il as (L1 & L2 & L3 & L4 & L5 & L6 & L7).
  destruct Ir as (R1 & R2 & R3 & R4 & R5 & R6 & R7).
  exists {| left_ := sl; right_ := sr |}.
  split; [rewrite fcalls_split; cbn [left_ right_ fli_new]; rewrite Esl, Esr; reflexivity|].
  unfold fDoFOffset, fNumberOfDoFs, fTotalDoFs, getDoFOffset, getNumberOfDoFs. cbn [left_ right_].
  rewrite R1, Tl, Tr. cbn [expected_total].
  split; [|split; [|split; [reflexivity|split; [reflexivity|split; [exact L2|]]]]].
  - intros u Hu. rewrite L6, R6. cbn [expected_offset]. rewrite (proj2 (existsb_in u us) Hu).
    split; [reflexivity|]. f_equal. apply N.mod_small.
    assert (dofs_before er us u <= dofs_total er us).
    { apply dofs_before_le. }
    lia.
  - intros u. rewrite L7, R7. split; reflexivity.
  - intros u Hu. rewrite L6, R6. cbn [expected_offset].
    assert (Ef : existsb (Nat.eqb u) us = false).
    { apply not_true_is_false. intros Hx. apply existsb_in in Hx. contradiction. }
    rewrite Ef. split; reflexivity.
Qed.

Lemma concat_map_app {A B} (f g : A -> list B) l :
  Permutation (concat (map (fun x => f x ++ g x) l)) (concat (map f l) ++ concat (map g l)).
Proof.
  induction l as [|x l IH]; cbn; auto. rewrite IH, <- !app_assoc.
  apply Permutation_app_head. rewrite !app_assoc. apply Permutation_app_tail, Permutation_app_comm.
Qed.

Lemma face_mapping asserts h el er :
  legal (left_calls h) -> legal (right_calls h) ->
  (asserts = true -> nonempty_lists (left_calls h)) ->
  element_after (left_calls h) = Some el -> element_after (right_calls h) = Some er ->
  let us := unknowns_after (left_calls h) in
  dofs_total el us + dofs_total er us < 2 ^ 64 ->
  exists s maps, fcalls asserts fli_new h = Some s /\
    map (getDoFMapping s) us = map Some maps /\
    Permutation (concat maps) (numbers (dofs_total el us + dofs_total er us)) /\
    fTotalDoFs s = Some (dofs_total el us + dofs_total er us) /\
    (forall u, ~ In u us -> getDoFMapping s u = Some []).
Proof.
  intros Hl Hr Ha El Er us Hb.
  destruct (face_offsets asserts h el er Hl Hr Ha El Er Hb) as (s & E & O & Z & T & Re & Hn & Oex).
  fold us in O, Z, T, Hn, Oex.
  exists s, (map (fun u => range (dofs_before el us u) (count el u) ++
                     range (dofs_total el us + dofs_before er us u) (count er u)) us).
  split; [exact E|]. split; [|split; [|split; [exact T|]]].
  - rewrite map_map. apply map_ext_in. intros u Hu. unfold getDoFMapping.
    destruct (O u Hu) as [O1 O2]. destruct (Z u) as [Z1 Z2].
    rewrite (proj2 (existsb_in u us) Hu) in Z1, Z2. rewrite O1, Z1, Re, O2, Z2. reflexivity.
  - rewrite concat_map_app. rewrite <- range_numbers, range_app, N.add_0_l.
    apply Permutation_app.
    + rewrite <- (tile el us 0 Hn). apply Permutation_refl'. reflexivity.
    + apply tile, Hn.
  - intros u Hu. unfold getDoFMapping.
    destruct (Oex u Hu) as [O1 O2]. destruct (Z u) as [Z1 Z2].
    assert (Ef : existsb (Nat.eqb u) us = false).
    { apply not_true_is_false. intros Hx. apply existsb_in in Hx. contradiction. }
    rewrite Ef in Z1, Z2. rewrite O1, Z1, Re, O2, Z2. reflexivity.
Qed.

(** boundary faces *)
Lemma face_boundary asserts h el :
  legal (left_calls h) -> legal (right_calls h) ->
  (asserts = true -> nonempty_lists (left_calls h)) ->
  element_after (left_calls h) = Some el -> element_after (right_calls h) = None ->
  let us := unknowns_after (left_calls h) in
  exists s, fcalls asserts fli_new h = Some s /\
    fTotalDoFs s = Some (dofs_total el us) /\
    (forall u, getDoFMapping s u =
       Some (if existsb (Nat.eqb u) us then iota (dofs_before el us u) (count el u) else [])).
Proof.
  intros Hl Hr Ha El Er us.
  assert (Hne : asserts = true -> nonempty_lists (right_calls h)).
  { intros Hx Hin. apply (Ha Hx). clear -Hin. unfold left_calls, right_calls in *.
    apply in_map_iff in Hin as [c [Hc Hin]]. apply in_map_iff. exists c.
    destruct c; [|discriminate]. split; auto. }
  destruct (calls_inv asserts _ Hl Ha) as (sl & Esl & Il).
  destruct (calls_inv asserts _ Hr Hne) as (sr & Esr & Ir).
  pose proof (inv_total _ _ _ Il) as Tl. pose proof (inv_total _ _ _ Ir) as Tr.
  rewrite El in Il, Tl. rewrite Er in Ir, Tr.
  change (unknowns_after (left_calls h)) with us in Il, Tl.
  destruct Il as (L1 & L2 & L3 & L4 & L5 & L6 & L7).
  destruct Ir as (R1 & R2 & R3 & R4 & R5 & R6 & R7).
  exists {| left_ := sl; right_ := sr |}.
  split; [rewrite fcalls_split; cbn [left_ right_ fli_new]; rewrite Esl, Esr; reflexivity|].
  unfold fTotalDoFs, getDoFMapping, fDoFOffset, fNumberOfDoFs, getDoFOffset, getNumberOfDoFs.
  cbn [left_ right_]. rewrite Tl, Tr, R1. cbn [expected_total]. split; [f_equal; apply N.add_0_r|].
  intros u. rewrite L6, L7. cbn [expected_offset expected_size]. fold us.
  destruct (existsb (Nat.eqb u) us); reflexivity.
Qed.
