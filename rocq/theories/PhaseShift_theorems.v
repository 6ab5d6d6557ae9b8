(** C74: the matrix of a periodic mesh with phase shifts. *)
From Coq Require Import List Arith Bool Reals Lia Lra.
From Verif Require Import PhaseShift_model PhaseShift_spec PhaseShift_proofs.
Import ListNotations.

(** For every wave vector, an entry that is shifted in one way is the stored entry with the phase of its jump, and an
    entry that is not shifted is as before. *)
Theorem C74_entries : forall l k m r c, Forall sized l ->
  (forall v x, shifted l r c v x -> (forall v' x', shifted l r c v' x' -> v' = v /\ x' = x) -> apply l k m r c = cmul v (expi (dot k x))) /\
  ((forall v x, ~ shifted l r c v x) -> apply l k m r c = m r c).
Proof.
  intros l k m r c S. unfold apply. split.
  - intros v x H U. destruct (written (writes l k []) m r c (cmul v (expi (dot k x)))) as [y [I E]]; [apply all_writes; eauto|].
    apply all_writes in I as [v' [x' [H' ->]]]; [|exact S]. destruct (U v' x' H') as [-> ->]. exact E.
  - intros N. apply not_written. intros y I. apply all_writes in I as [v [x [H _]]]; [|exact S]. exact (N v x H).
Qed.
Print Assumptions C74_entries.

(** After any history of wave vectors the matrix is as if only the last one had been applied: no phase is left behind. *)
Theorem C74_history : forall l m ks k r c, Forall sized l ->
  apply l k (fold_left (fun m k => apply l k m) ks m) r c = apply l k m r c.
Proof.
  intros l m ks k r c S. destruct (shifted_or_not l r c S) as [[v [x H]]|N].
  - unfold apply at 1 3. apply (covered _ _ _ r c (cmul v (expi (dot k x)))). apply all_writes; eauto.
  - assert (K : forall k m, apply l k m r c = m r c) by (intros; now apply C74_entries). rewrite !K.
    revert m. induction ks as [|k' ks IH]; intros m; [reflexivity|]. cbn [fold_left]. now rewrite IH, K.
Qed.
Print Assumptions C74_history.

(** With no wave vector the matrix is the one that the blocks are taken from. *)
Theorem C74_zero : forall l k m, Forall sized l -> Forall (fun a => a = 0%R) k ->
  (forall r c v x, shifted l r c v x -> m r c = v) -> forall r c, apply l k m r c = m r c.
Proof.
  intros l k m S Z H r c. destruct (shifted_or_not l r c S) as [[v [x Hs]]|N]; [|now apply C74_entries].
  unfold apply. destruct (written (writes l k []) m r c (cmul v (expi (dot k x)))) as [y [I E]]; [apply all_writes; eauto|].
  apply all_writes in I as [v' [x' [H' ->]]]; [|exact S]. rewrite E, dot_0 by exact Z. rewrite shift_0. symmetry. exact (H _ _ _ _ H').
Qed.
Print Assumptions C74_zero.

(** A Hermitian matrix stays Hermitian for every wave vector, if no entry is shifted in two ways. *)
Theorem C74_hermitian : forall l k m, Forall sized l -> one_way l -> mirrored l -> hermitian m -> hermitian (apply l k m).
Proof.
  intros l k m S O M H r c.
  assert (Mi : forall r c v x, shifted l r c v x -> shifted l c r (conj v) (neg x)).
  { intros r0 c0 v x [s I Hs N ->|s b2 I B Hs N ->]; destruct (M s I) as [b2' [B' E]].
    - apply (shifted_second _ _ _ _ _ s b2'); auto; [now apply E|intros Z; apply N; now apply conj_zero].
    - assert (b2' = b2) by congruence. subst b2'. apply (shifted_first _ _ _ _ _ s); auto.
      + apply E. now rewrite conj_conj.
      + intros Z; apply N; now apply conj_zero.
      + apply neg_neg. }
  destruct (shifted_or_not l r c S) as [[v [x Hs]]|N].
  - destruct (C74_entries l k m r c S) as [E1 _]. destruct (C74_entries l k m c r S) as [E2 _].
    rewrite (E1 v x Hs), (E2 _ _ (Mi _ _ _ _ Hs)).
    + rewrite dot_neg. symmetry. apply conj_shift.
    + intros v' x' H'. now destruct (O _ _ _ _ _ _ H' (Mi _ _ _ _ Hs)).
    + intros v' x' H'. now destruct (O _ _ _ _ _ _ H' Hs).
  - destruct (C74_entries l k m r c S) as [_ E1]. destruct (C74_entries l k m c r S) as [_ E2].
    rewrite (E1 N), E2; [apply H|]. intros v x Hs. exact (N _ _ (Mi _ _ _ _ Hs)).
Qed.
Print Assumptions C74_hermitian.

(** A face that belongs to two processors: together they shift what one processor with both elements would shift, and
    each only the rows of its own element. *)
Theorem C74_processors : forall lf rt j b1 b2 r c v x,
  let one := build [Face lf rt true true j b1 b2] in
  let left := build [Face lf rt true false j b1 b2] in
  let right := build [Face lf rt false true j b1 b2] in
  (shifted one r c v x <-> shifted left r c v x \/ shifted right r c v x) /\
  (shifted left r c v x -> In r lf) /\ (shifted right r c v x -> In r rt) /\ ~ shifted (build [Face lf rt false false j b1 b2]) r c v x.
Proof.
  intros lf rt j b1 b2 r c v x one left right. unfold one, left, right. cbn. split; [|split; [|split]].
  - split.
    + intros [s [<-|[]] H N ->|s b [<-|[]] B H N ->].
      * left. eapply shifted_first; [left; reflexivity|exact H|exact N|reflexivity].
      * right. injection B as <-. eapply shifted_first; [left; reflexivity|exact H|exact N|reflexivity].
    + intros [[s [<-|[]] H N ->|s b [<-|[]] B H N ->]|[s [<-|[]] H N ->|s b [<-|[]] B H N ->]]; try discriminate.
      * eapply shifted_first; [left; reflexivity|exact H|exact N|reflexivity].
      * eapply shifted_second; [left; reflexivity|reflexivity|exact H|exact N|reflexivity].
  - intros [s [<-|[]] [i [k [H _]]] N ->|s b [<-|[]] B H N ->]; [|discriminate]. now apply nth_error_In in H.
  - intros [s [<-|[]] [i [k [H _]]] N ->|s b [<-|[]] B H N ->]; [|discriminate]. now apply nth_error_In in H.
  - intros [s [] H N E|s b [] B H N E].
Qed.
Print Assumptions C74_processors.

(** Two elements with one basis function each, and a face between them. *)
Definition pair : list shift := build [Face [0] [1] true true [1; 0]%R [(2, 3)]%R [(2, -3)]%R].
Example C74_nonvacuous : Forall sized pair /\ one_way pair /\ mirrored pair /\ shifted pair 0 1 (2, 3)%R [1; 0]%R.
Proof.
  assert (Only : forall r c v x, shifted pair r c v x -> (r = 0 /\ c = 1 /\ v = (2, 3)%R /\ x = [1; 0]%R) \/ (r = 1 /\ c = 0 /\ v = (2, -3)%R /\ x = neg [1; 0]%R)).
  { intros r c v x [s [<-|[]] H N ->|s b [<-|[]] B H N ->]; [left|right].
    - destruct H as [[|[|i]] [[|[|j]] [Hr [Hc Hv]]]]; cbn in Hr, Hc, Hv; try discriminate. injection Hr as <-. injection Hc as <-. injection Hv as <-. auto.
    - injection B as <-. destruct H as [[|[|i]] [[|[|j]] [Hr [Hc Hv]]]]; cbn in Hr, Hc, Hv; try discriminate. injection Hr as <-. injection Hc as <-. injection Hv as <-. auto. }
  split; [|split; [|split]].
  - repeat constructor. intros b2 H. injection H as <-. reflexivity.
  - intros r c v v' x x' H H'. apply Only in H as [[-> [-> [-> ->]]]|[-> [-> [-> ->]]]]; apply Only in H' as [[E1 [E2 [-> ->]]]|[E1 [E2 [-> ->]]]]; try discriminate; auto.
  - intros s [<-|[]]. eexists. split; [reflexivity|]. intros r c v. cbn. split; intros [[|[|i]] [[|[|j]] [Hr [Hc Hv]]]]; cbn in Hr, Hc, Hv; try discriminate;
      injection Hr as <-; injection Hc as <-; exists 0, 0; repeat split; cbn.
    + injection Hv as H1 H2. f_equal. destruct v as [a b]. cbn in H1, H2. f_equal; lra.
    + injection Hv as <-. unfold conj. cbn. repeat f_equal; lra.
  - eapply shifted_first; [left; reflexivity| | |reflexivity].
    + exists 0, 0. repeat split.
    + unfold zero. intros E. injection E as E _. lra.
Qed.

(** Refuted: every mesh can be shifted.  If an element is its own neighbour across the periodic boundary, the second
    block replaces the first, and the matrix is not Hermitian. *)
Theorem C74_own_neighbour_refuted : exists k, let f := Face [0] [0] true true [1%R] [(1, 0)%R] [(1, 0)%R] in
  Forall sized (build [f]) /\ mirrored (build [f]) /\ hermitian (fun _ _ => (2, 0)%R) /\ ~ hermitian (apply (build [f]) k (fun _ _ => (2, 0)%R)).
Proof.
  exists [(PI / 2)%R]. cbv zeta. split; [|split; [|split]].
  - repeat constructor. intros b2 H. injection H as <-. reflexivity.
  - intros s [<-|[]]. eexists. split; [reflexivity|]. intros r c v. cbn. split; intros [[|[|i]] [[|[|j]] [Hr [Hc Hv]]]]; cbn in Hr, Hc, Hv; try discriminate;
      injection Hr as <-; injection Hc as <-; exists 0, 0; repeat split; cbn.
    + injection Hv as H1 H2. f_equal. destruct v as [a b]. cbn in H1, H2. f_equal; lra.
    + injection Hv as <-. unfold conj. cbn. repeat f_equal; lra.
  - intros r c. unfold conj. cbn. f_equal. lra.
  - intros H. specialize (H 0 0). set (l := build [Face [0] [0] true true [1%R] [(1, 0)%R] [(1, 0)%R]]) in H.
    assert (S : Forall sized l). { repeat constructor. intros b2 B. injection B as <-. reflexivity. }
    assert (F : shifted l 0 0 (1, 0)%R [1%R]).
    { eapply shifted_first; [left; reflexivity|exists 0, 0; repeat split| |reflexivity]. unfold zero. intros E. injection E as E. lra. }
    destruct (written (writes l [(PI / 2)%R] []) (fun _ _ => (2, 0)%R) 0 0 (cmul (1, 0)%R (expi (dot [(PI / 2)%R] [1%R])))) as [y [I E]]; [apply all_writes; eauto|].
    apply all_writes in I as [v [x [G ->]]]; [|exact S]. unfold apply in H. rewrite E in H.
    assert (V : v = (1, 0)%R /\ (x = [1%R] \/ x = neg [1%R])).
    { destruct G as [s [<-|[]] G N ->|s b [<-|[]] B G N ->]; [|injection B as <-]; cbn in G; destruct G as [[|[|a]] [[|[|b]] [G1 [G2 G3]]]]; try discriminate; cbn in G3;
        injection G3 as <-; auto. }
    assert (T : dot [(PI / 2)%R] [1%R] = (PI / 2)%R) by (unfold dot; cbn; ring).
    destruct V as [-> [-> | ->]]; rewrite ?dot_neg, T in H; unfold conj, cmul, expi in H; cbn [fst snd] in H; rewrite ?cos_neg, ?sin_neg, cos_PI2, sin_PI2 in H; injection H as H1; lra.
Qed.
Print Assumptions C74_own_neighbour_refuted.

(** Refuted: the same for two elements that are neighbours in the mesh and across the periodic boundary.  What the inner
    face contributes to their entries is lost, even without a wave vector. *)
Theorem C74_two_faces_refuted : forall lf rt j b1 b2 (inner : complex) r c v m,
  let l := build [Face [lf] [rt] true true j b1 b2] in
  Forall sized l -> lf <> rt -> r = lf -> c = rt -> has [lf] [rt] b1 r c v -> v <> zero -> inner <> zero ->
  m r c = (fst inner + fst v, snd inner + snd v)%R -> apply l [0%R] m r c = v /\ apply l [0%R] m r c <> m r c.
Proof.
  intros lf rt j b1 b2 inner r c v m l S D -> -> Hb N Ni M.
  assert (A : apply l [0%R] m lf rt = cmul v (expi (dot [0%R] j))).
  { apply C74_entries; [exact S|eapply shifted_first; [left; reflexivity|exact Hb|exact N|reflexivity]|].
    intros v' x' [s [<-|[]] H' N' ->|s b [<-|[]] B H' N' ->].
    - split; [|reflexivity]. cbn in H'. destruct H' as [[|[|i]] [[|[|k]] [H1 [H2 H3]]]]; try discriminate. destruct Hb as [[|[|i']] [[|[|k']] [G1 [G2 G3]]]]; try discriminate.
      cbn in H3, G3. congruence.
    - exfalso. cbn in H'. destruct H' as [[|[|i]] [k [H1 _]]]; cbn in H1; [congruence|discriminate|discriminate]. }
  rewrite dot_0, shift_0 in A by (repeat constructor). split; [exact A|]. rewrite A, M. intros E. apply Ni. destruct inner as [a b], v as [x y]. cbn in E. injection E as E1 E2. unfold zero. f_equal; lra.
Qed.
Print Assumptions C74_two_faces_refuted.
