From Coq Require Import List Arith Bool Permutation Lia.
From Verif Require Import Std_model Std_proofs Reorder_model Reorder_spec.
Import ListNotations.

(** ** writes *)
Lemma set_nth_some {A} (v : list A) i x :
  i < length v -> exists v', set_nth v i x = Some v'.
Proof.
  revert i; induction v as [|y v IH]; intros [|i] H; simpl in *; try lia; eauto.
  destruct (IH i) as [v' E]; [lia|]. rewrite E. eauto.
Qed.

Lemma set_nth_length {A} (v v' : list A) i x : set_nth v i x = Some v' -> length v' = length v.
Proof.
  revert i v'; induction v as [|y v IH]; intros [|i] v' H; simpl in *; try discriminate.
  - inversion H; reflexivity.
  - destruct (set_nth v i x) as [r|] eqn:E; [|discriminate]. inversion H; subst; simpl.
    f_equal. eapply IH; eauto.
Qed.

Lemma set_nth_same {A} (v v' : list A) i x : set_nth v i x = Some v' -> nth_error v' i = Some x.
Proof.
  revert i v'; induction v as [|y v IH]; intros [|i] v' H; simpl in *; try discriminate.
  - inversion H; reflexivity.
  - destruct (set_nth v i x) as [r|] eqn:E; [|discriminate]. inversion H; subst; simpl. eauto.
Qed.

Lemma set_nth_other {A} (v v' : list A) i j x :
  set_nth v i x = Some v' -> i <> j -> nth_error v' j = nth_error v j.
Proof.
  revert i j v'; induction v as [|y v IH]; intros [|i] j v' H Hn; simpl in *; try discriminate.
  - inversion H; subst. destruct j; [lia|reflexivity].
  - destruct (set_nth v i x) as [r|] eqn:E; [|discriminate]. inversion H; subst.
    destruct j; simpl; [reflexivity|]. eapply IH; eauto.
Qed.

(** ** the loops *)
Lemma to_loop_ok {A} (copy : list A) order n :
  forall i ind,
    length ind = length copy -> length order = length copy ->
    Forall (fun o => o < length copy) order ->
    i + n = length copy ->
    exists r, to_loop copy order i n ind = Some r /\ length r = length copy /\
      (forall j, j < i -> nth_error r j = nth_error ind j) /\
      (forall j o, i <= j -> nth_error order j = Some o -> nth_error r j = nth_error copy o).
Proof.
  induction n as [|n IH]; intros i ind Hl Ho Hr Hi; cbn [to_loop].
  - exists ind. repeat split; auto.
    intros j o Hj Hn. assert (j < length order) by (apply nth_error_Some; congruence). lia.
  - destruct (nth_error order i) as [o|] eqn:Eo.
    2:{ apply nth_error_None in Eo. lia. }
    assert (Hol : o < length copy).
    { rewrite Forall_forall in Hr. apply Hr. eapply nth_error_In; eauto. }
    destruct (nth_error copy o) as [x|] eqn:Ex.
    2:{ apply nth_error_None in Ex. lia. }
    destruct (set_nth_some ind i x) as [ind' E]; [lia|]. rewrite E.
    pose proof (set_nth_length _ _ _ _ E) as Hl'.
    destruct (IH (S i) ind') as [r [E1 [E2 [E3 E4]]]]; try lia; auto.
    exists r. split; [exact E1|split; [exact E2|split]].
    + intros j Hj. rewrite E3 by lia. eapply set_nth_other; eauto. lia.
    + intros j o' Hj Hn. destruct (Nat.eq_dec j i) as [->|Hne].
      * rewrite E3 by lia. rewrite (set_nth_same _ _ _ _ E). congruence.
      * apply E4; [lia|exact Hn].
Qed.

Lemma from_loop_ok {A} (copy : list A) order n :
  forall i ind,
    length ind = length copy -> length order = length copy ->
    Forall (fun o => o < length copy) order -> NoDup order ->
    i + n = length copy ->
    (forall j o, j < i -> nth_error order j = Some o -> nth_error ind o = nth_error copy j) ->
    exists r, from_loop copy order i n ind = Some r /\ length r = length copy /\
      (forall j o, nth_error order j = Some o -> nth_error r o = nth_error copy j).
Proof.
  induction n as [|n IH]; intros i ind Hl Ho Hr Hnd Hi Hinv; cbn [from_loop].
  - exists ind. repeat split; auto.
    intros j o Hn. apply Hinv; [|exact Hn].
    assert (j < length order) by (apply nth_error_Some; congruence). lia.
  - destruct (nth_error order i) as [o|] eqn:Eo.
    2:{ apply nth_error_None in Eo. lia. }
    assert (Hol : o < length copy).
    { rewrite Forall_forall in Hr. apply Hr. eapply nth_error_In; eauto. }
    destruct (nth_error copy i) as [x|] eqn:Ex.
    2:{ apply nth_error_None in Ex. lia. }
    destruct (set_nth_some ind o x) as [ind' E]; [lia|]. rewrite E.
    pose proof (set_nth_length _ _ _ _ E) as Hl'.
    apply IH; try lia; auto.
    intros j o' Hj Hn. destruct (Nat.eq_dec j i) as [->|Hne].
    + replace o' with o by congruence. rewrite (set_nth_same _ _ _ _ E). congruence.
    + assert (o <> o').
      { intros ->. apply Hne. eapply (proj1 (NoDup_nth_error order)); eauto; [|congruence].
        apply nth_error_Some. congruence. }
      rewrite (set_nth_other _ _ _ _ _ E) by assumption.
      apply Hinv; [lia|exact Hn].
Qed.

(** ** permutations *)
Lemma is_permutation_range order :
  is_permutation order -> Forall (fun o => o < length order) order /\ NoDup order /\
  (forall o, o < length order -> exists i, nth_error order i = Some o).
Proof.
  intros H. split; [|split].
  - apply Forall_forall. intros o Ho.
    assert (In o (seq 0 (length order))) by (eapply Permutation_in; eauto).
    apply in_seq in H0. lia.
  - eapply Permutation_NoDup; [apply Permutation_sym; exact H|apply seq_NoDup].
  - intros o Ho. assert (In o order).
    { eapply Permutation_in; [apply Permutation_sym; exact H|]. apply in_seq. lia. }
    apply In_nth_error in H0. exact H0.
Qed.

Lemma nth_error_ext {A} (a b : list A) : (forall i, nth_error a i = nth_error b i) -> a = b.
Proof.
  revert b; induction a as [|x a IH]; intros [|y b] H; auto.
  - specialize (H 0); discriminate.
  - specialize (H 0); discriminate.
  - f_equal; [specialize (H 0); simpl in H; congruence|].
    apply IH. intros i. apply (H (S i)).
Qed.

Lemma rearranged_unique_fwd {A} order (f h1 h2 : list A) :
  length order = length f -> rearranged order f h1 -> rearranged order f h2 -> h1 = h2.
Proof.
  intros Hl [L1 H1] [L2 H2]. apply nth_error_ext. intros i.
  destruct (nth_error order i) as [o|] eqn:E.
  - rewrite (H1 _ _ E), (H2 _ _ E). reflexivity.
  - apply nth_error_None in E.
    rewrite (proj2 (nth_error_None h1 i)), (proj2 (nth_error_None h2 i)); lia || reflexivity.
Qed.

Lemma rearranged_unique_bwd {A} order (f1 f2 h : list A) :
  is_permutation order -> length order = length h ->
  rearranged order f1 h -> rearranged order f2 h -> f1 = f2.
Proof.
  intros Hp Hl [L1 H1] [L2 H2]. apply nth_error_ext. intros o.
  destruct (Nat.lt_ge_cases o (length order)) as [Ho|Ho].
  - destruct (proj2 (proj2 (is_permutation_range _ Hp)) o Ho) as [i E].
    rewrite <- (H1 _ _ E), <- (H2 _ _ E). reflexivity.
  - rewrite (proj2 (nth_error_None f1 o)), (proj2 (nth_error_None f2 o)); lia || reflexivity.
Qed.

Lemma map_nth_error_seq {A} (l : list A) : map Some l = map (nth_error l) (seq 0 (length l)).
Proof.
  induction l as [|x l IH]; simpl; auto.
  f_equal. rewrite IH, <- seq_shift, map_map. reflexivity.
Qed.

Lemma rearranged_map {A} order (f h : list A) :
  length order = length f -> rearranged order f h -> map Some h = map (nth_error f) order.
Proof.
  intros Hl [Hn H]. apply nth_error_ext. intros i.
  rewrite !nth_error_map.
  destruct (nth_error order i) as [o|] eqn:E; cbn [option_map].
  - specialize (H _ _ E). assert (i < length h).
    { rewrite Hn, <- Hl. apply nth_error_Some. congruence. }
    destruct (nth_error h i) as [x|] eqn:Ex; cbn [option_map].
    + congruence.
    + apply nth_error_None in Ex. lia.
  - apply nth_error_None in E. rewrite (proj2 (nth_error_None h i)) by lia. reflexivity.
Qed.

Lemma rearranged_permutation {A} order (f h : list A) :
  is_permutation order -> length order = length f -> rearranged order f h -> Permutation f h.
Proof.
  intros Hp Hl Hr.
  assert (Permutation (map Some f) (map Some h)).
  { rewrite (rearranged_map _ _ _ Hl Hr), map_nth_error_seq, <- Hl.
    apply Permutation_map. apply Permutation_sym. exact Hp. }
  apply Permutation_map_inv in H as [l [E P]].
  assert (f = l).
  { clear -E. revert l E; induction f as [|x f IH]; intros [|y l] E; cbn [map] in *; try discriminate; auto.
    injection E as -> E. f_equal. apply IH, E. }
  subst. apply Permutation_sym. exact P.
Qed.

(** ** the registry *)
Lemma find_unique r dim order :
  find (matches dim (length order)) r = None ->
  find (matches dim (length order)) (r ++ [{| e_dim := dim; e_order := order |}]) =
  Some {| e_dim := dim; e_order := order |}.
Proof.
  induction r as [|e r IH]; simpl; intros H.
  - unfold matches; simpl. rewrite !Nat.eqb_refl. reflexivity.
  - destruct (matches dim (length order) e) eqn:E; [discriminate|auto].
Qed.

Lemma find_app_some {A} (f : A -> bool) l1 l2 x : find f l1 = Some x -> find f (l1 ++ l2) = Some x.
Proof. induction l1; simpl; intros H; [discriminate|]. destruct (f a); auto. Qed.

Lemma add_keeps r r' d o dim n e :
  addElementType r d o = Some r' -> FindElement r dim n = Some e -> FindElement r' dim n = Some e.
Proof.
  unfold addElementType, FindElement. intros H Hf.
  destruct (find _ r) in H; [discriminate|]. destruct (checkOrder o) as [[]|]; try discriminate.
  inversion H; subst. apply find_app_some, Hf.
Qed.

Lemma register_keeps hist : forall r r' dim n e,
  register_all r hist = Some r' -> FindElement r dim n = Some e -> FindElement r' dim n = Some e.
Proof.
  induction hist as [|[d o] hist IH]; intros r r' dim n e H Hf; simpl in H.
  - inversion H; subst; exact Hf.
  - destruct (addElementType r d o) as [r1|] eqn:E; [|discriminate].
    eapply IH; eauto. eapply add_keeps; eauto.
Qed.

Lemma register_find hist : forall r r' dim order,
  register_all r hist = Some r' -> In (dim, order) hist ->
  FindElement r' dim (length order) = Some {| e_dim := dim; e_order := order |}.
Proof.
  induction hist as [|[d o] hist IH]; intros r r' dim order H Hin; simpl in *; [contradiction|].
  destruct (addElementType r d o) as [r1|] eqn:E; [|discriminate].
  destruct Hin as [Heq|Hin].
  - inversion Heq; subst. eapply register_keeps; [exact H|].
    unfold addElementType in E. unfold FindElement.
    destruct (find _ r) eqn:Ef in E; [discriminate|].
    destruct (checkOrder order) as [[]|]; try discriminate. inversion E; subst.
    apply find_unique. exact Ef.
  - eapply IH; eauto.
Qed.

(** ** main lemmas *)
Lemma reorder_to_spec {A} hist r dim order (ind : list A) :
  register_all [] hist = Some r -> In (dim, order) hist -> length order = length ind ->
  Forall (fun o => o < length order) order ->
  exists h, reorderToHpGem r dim ind = Some h /\ rearranged order ind h.
Proof.
  intros H Hin Hl Hr. unfold reorderToHpGem. rewrite <- Hl.
  rewrite (register_find _ _ _ _ _ H Hin). cbn [e_order].
  rewrite Hl in Hr.
  destruct (to_loop_ok ind order (length order) 0 ind) as [h [E1 [E2 [_ E4]]]]; auto.
  exists h. split; [exact E1|]. split; [exact E2|].
  intros i o Hi. apply E4; [lia|exact Hi].
Qed.

Lemma reorder_from_spec {A} hist r dim order (ind : list A) :
  register_all [] hist = Some r -> In (dim, order) hist -> length order = length ind ->
  is_permutation order ->
  exists f, reorderFromHpGem r dim ind = Some f /\ rearranged order f ind.
Proof.
  intros H Hin Hl Hp. unfold reorderFromHpGem. rewrite <- Hl.
  rewrite (register_find _ _ _ _ _ H Hin). cbn [e_order].
  destruct (is_permutation_range _ Hp) as [Hr [Hnd _]]. rewrite Hl in Hr.
  destruct (from_loop_ok ind order (length order) 0 ind) as [f [E1 [E2 E3]]]; auto; try lia.
  exists f. split; [exact E1|]. split; [symmetry; exact E2|].
  intros i o Hi. symmetry. apply E3, Hi.
Qed.

Lemma reorder_roundtrip {A} hist r dim order (ind : list A) :
  register_all [] hist = Some r -> In (dim, order) hist -> length order = length ind ->
  is_permutation order ->
  exists hp fo,
    reorderToHpGem r dim ind = Some hp /\ rearranged order ind hp /\ Permutation ind hp /\
    reorderFromHpGem r dim hp = Some ind /\
    reorderFromHpGem r dim ind = Some fo /\ rearranged order fo ind /\ Permutation ind fo /\
    reorderToHpGem r dim fo = Some ind.
Proof.
  intros H Hin Hl Hp. destruct (is_permutation_range _ Hp) as [Hr [Hnd _]].
  destruct (reorder_to_spec _ _ _ _ _ H Hin Hl Hr) as [hp [E1 R1]].
  destruct (reorder_from_spec _ _ _ _ _ H Hin Hl Hp) as [fo [E2 R2]].
  exists hp, fo.
  assert (L1 : length order = length hp) by (destruct R1; lia).
  assert (L2 : length order = length fo) by (destruct R2; lia).
  destruct (reorder_from_spec _ _ _ _ hp H Hin L1 Hp) as [f' [E3 R3]].
  destruct (reorder_to_spec _ _ _ _ fo H Hin L2 Hr) as [h' [E4 R4]].
  assert (f' = ind) by (eapply rearranged_unique_bwd; [exact Hp|exact L1|exact R3|exact R1]).
  assert (h' = ind) by (eapply rearranged_unique_fwd; [exact L2|exact R4|exact R2]).
  subst. repeat split; auto.
  - apply R1. - apply R1.
  - eapply rearranged_permutation; eauto.
  - apply R2. - apply R2.
  - apply Permutation_sym. eapply rearranged_permutation; eauto.
Qed.

(** ** what the registration check does guarantee: all indices are in range *)
Lemma diff_sum l : forall p, sorted_from p l ->
  forall y, In y l -> y <= p + list_sum (adjacent_difference_from p l).
Proof.
  induction l as [|x l IH]; intros p Hs y Hy; simpl in *; [contradiction|].
  destruct Hs as [H1 H2]. destruct Hy as [<-|Hy]; [lia|].
  specialize (IH _ H2 _ Hy). lia.
Qed.

Lemma adj_length p l : length (adjacent_difference_from p l) = length l.
Proof. revert p; induction l; simpl; auto. Qed.

Lemma checkOrder_range order : checkOrder order = Some true -> Forall (fun o => o < length order) order.
Proof.
  unfold checkOrder. intros H. pose proof (sort_sorted order) as Hs.
  pose proof (sort_length order) as Hlen.
  destruct (sort order) as [|x l] eqn:E; cbn [adjacent_difference] in H; [discriminate|].
  injection H as H. apply andb_prop in H as [H1 H2]. apply Nat.eqb_eq in H1, H2. subst x.
  cbn [list_sum length] in H2. rewrite adj_length in H2.
  apply Forall_forall. intros o Ho.
  assert (In o (sort order)) by (apply sort_in; exact Ho).
  rewrite E in H. simpl in Hlen, H, H2, Hs.
  destruct H as [<-|H]; [lia|].
  pose proof (diff_sum l 0 (proj2 Hs) o H). simpl in H0. unfold list_sum in *. lia.
Qed.

Lemma register_checked hist : forall r r' dim order,
  register_all r hist = Some r' -> In (dim, order) hist -> checkOrder order = Some true.
Proof.
  induction hist as [|[d o] hist IH]; intros r r' dim order H Hin; simpl in *; [contradiction|].
  destruct (addElementType r d o) as [r1|] eqn:E; [|discriminate].
  destruct Hin as [Heq|Hin]; [|eapply IH; eauto].
  inversion Heq; subst. unfold addElementType in E.
  destruct (find _ r) in E; [discriminate|]. destruct (checkOrder order) as [[]|]; congruence.
Qed.

Lemma reorder_in_range {A} hist r dim order (ind : list A) :
  register_all [] hist = Some r -> In (dim, order) hist -> length order = length ind ->
  exists hp, reorderToHpGem r dim ind = Some hp /\ rearranged order ind hp.
Proof.
  intros H Hin Hl. eapply reorder_to_spec; eauto.
  apply checkOrder_range. eapply register_checked; eauto.
Qed.

Lemma permutation_accepted order : order <> [] -> is_permutation order -> checkOrder order = Some true.
Proof.
  intros Hne Hp.
  assert (Hs : sort order = seq 0 (length order)).
  { apply (sorted_unique _ _ 0); [apply sort_sorted|apply seq_sorted|].
    rewrite sort_perm. exact Hp. }
  unfold checkOrder. rewrite Hs. destruct (length order) as [|n] eqn:E.
  { destruct order; [congruence|discriminate]. }
  cbn [seq adjacent_difference]. f_equal.
  assert (Hsum : forall k p, list_sum (adjacent_difference_from p (seq (S p) k)) = k /\
                             length (adjacent_difference_from p (seq (S p) k)) = k).
  { induction k; intros p; cbn [seq adjacent_difference_from list_sum fold_right length];
      [split; reflexivity|].
    destruct (IHk (S p)) as [A B]. unfold list_sum in *. split; lia. }
  destruct (Hsum n 0) as [A B]. cbn [list_sum fold_right length]. unfold list_sum in A.
  rewrite A, B. rewrite Nat.sub_succ, Nat.sub_0_r, Nat.add_0_l, !Nat.eqb_refl. reflexivity.
Qed.
