(** Independence of the conforming functions of one element, whatever the orientations of its faces and edges. *)
From Coq Require Import List Arith Lia ZArith Reals Lra Bool.
From Verif Require Import Legendre_model RefGeometry_model RefGeometry_spec RefGeometry_proofs BasisFunctions_model BasisSets_model BasisSets_proofs
  BasisSizes_spec FreeFamilies_proofs Independence_spec Independence_proofs IndependenceSets_proofs IndependenceDG_proofs.
Import ListNotations.
Local Open Scope nat_scope.

Definition characteristic (J : list nat) : list nat := filter (fun n => if in_dec Nat.eq_dec n J then true else false) (seq 0 4).
(** an index for all shapes, and the part of the element that it belongs to *)
Definition index (s : shape) (f : basis_function) : list nat * list nat :=
  match s with
  | Line => ([], [line_index f])
  | Square => ([], [fst (square_index f); snd (square_index f)])
  | Cube => ([], [fst (cube_index f); fst (snd (cube_index f)); snd (snd (cube_index f))])
  | _ => simplex_index f
  end.
Definition key_of_index (i : list nat * list nat) : list nat := match fst i with [] => map level (snd i) | J => characteristic J end.
Definition key (s : shape) (f : basis_function) : list nat := key_of_index (index s f).
Definition good (s : shape) (f : basis_function) : bool :=
  match s with Line => line_good f | Square => square_good f | Cube => cube_good f | Triangle => triangle_good f | Tetrahedron => tetrahedron_good f | _ => false end.
Definition list_eqb (a b : list nat) : bool := if list_eq_dec Nat.eq_dec a b then true else false.
Lemma list_eqb_true : forall a b, list_eqb a b = true -> a = b.
Proof. intros a b. unfold list_eqb. destruct (list_eq_dec Nat.eq_dec a b); [auto|discriminate]. Qed.

(** the functions of a part *)
Definition group (s : shape) (k : list nat) (g : list basis_function) : bool :=
  forallb (fun f => good s f && list_eqb (key s f) k && list_eqb (fst (index s f)) (match g with [] => [] | f0 :: _ => fst (index s f0) end)
    && (match s with Triangle | Tetrahedron => partb 3 (fst (index s f)) && (length (fst (index s f)) =? length k) | _ => true end)) g
  && nodupb index_dec (map (index s) g).

Lemma groups_nodup : forall s ks gs, NoDup ks -> Forall2 (fun k g => group s k g = true) ks gs -> NoDup (map (index s) (List.concat gs)).
Proof.
  intros s ks gs N F. induction F as [|k g ks gs H F IH]; [constructor|]. apply NoDup_cons_iff in N. destruct N as [Nk N]. cbn [List.concat].
  specialize (IH N). rewrite map_app.
  assert (B : forall i, In i (map (index s) g) -> ~ In i (map (index s) (List.concat gs))).
  { intros i Hi Hj. apply in_map_iff in Hi. destruct Hi as [f [Ef Hf]]. apply in_map_iff in Hj. destruct Hj as [f' [Ef' Hf']].
    apply in_concat in Hf'. destruct Hf' as [g' [Hg' Hf']].
    assert (exists k', In k' ks /\ group s k' g' = true) as [k' [Hk' G']].
    { clear - F Hg'. induction F as [|k0 g0 ks gs H F IH]; [destruct Hg'|]. destruct Hg' as [->|Hg']; [exists k0; split; [left; reflexivity|exact H]|].
      destruct (IH Hg') as [k' [A B]]. exists k'. split; [right; exact A|exact B]. }
    unfold group in H, G'. apply andb_true_iff in H. apply andb_true_iff in G'. destruct H as [H _]. destruct G' as [G' _].
    rewrite forallb_forall in H, G'. specialize (H f Hf). specialize (G' f' Hf'). bools.
    repeat match goal with H : list_eqb _ _ = true |- _ => apply list_eqb_true in H end.
    apply Nk. replace k with k'; [exact Hk'|]. unfold key in *. congruence. }
  assert (C : NoDup (map (index s) g)) by (unfold group in H; bools; eapply nodupb_true; eassumption).
  revert IH B C. generalize (map (index s) (List.concat gs)). clear. induction (map (index s) g) as [|i l IHl]; intros m A B C; [exact A|].
  apply NoDup_cons_iff in C. cbn. constructor.
  - intros H. apply in_app_or in H. destruct H as [H|H]; [tauto|]. apply (B i); [left; reflexivity|exact H].
  - apply IHl; [exact A|intros; apply B; right; assumption|tauto].
Qed.
Lemma groups_good : forall s ks gs, Forall2 (fun k g => group s k g = true) ks gs -> forallb (good s) (List.concat gs) = true.
Proof.
  intros s ks gs F. induction F as [|k g ks gs H F IH]; [reflexivity|]. cbn [List.concat]. rewrite forallb_app, IH, andb_true_r.
  unfold group in H. apply andb_true_iff in H. destruct H as [H _]. rewrite forallb_forall in *. intros f Hf. specialize (H f Hf). bools. assumption.
Qed.
Lemma groups_in : forall s ks gs f, Forall2 (fun k g => group s k g = true) ks gs -> In f (List.concat gs) ->
  exists k g, In (k, g) (combine ks gs) /\ group s k g = true /\ In f g.
Proof.
  intros s ks gs f F H. induction F as [|k g ks gs G F IH]; [destruct H|]. cbn [List.concat] in H. apply in_app_or in H. destruct H as [H|H].
  - exists k, g. split; [left; reflexivity|auto].
  - destruct (IH H) as [k' [g' [A B]]]. exists k', g'. split; [right; exact A|exact B].
Qed.
Lemma characteristic_in : forall J n, (forall m, In m J -> m <= 3) -> (In n (characteristic J) <-> In n J).
Proof.
  intros J n H. unfold characteristic. rewrite filter_In. destruct (in_dec Nat.eq_dec n J) as [I|I]; [|intuition discriminate].
  split; [tauto|]. intros _. split; [|reflexivity]. apply in_seq. specialize (H n I). lia.
Qed.
Lemma combine_unique : forall {A B} (l : list A) (m : list B) a b b', NoDup l -> In (a, b) (combine l m) -> In (a, b') (combine l m) -> b = b'.
Proof.
  induction l as [|x l IH]; intros [|y m] a b b' N H H'; cbn in *; try contradiction. apply NoDup_cons_iff in N. destruct N as [N1 N2].
  destruct H as [H|H], H' as [H'|H'].
  - congruence.
  - injection H as -> ->. exfalso. apply N1. eapply in_combine_l. exact H'.
  - injection H' as -> ->. exfalso. apply N1. eapply in_combine_l. exact H.
  - eapply IH; eassumption.
Qed.
Lemma groups_parts : forall s d ks gs, s = Triangle /\ d = 2 \/ s = Tetrahedron /\ d = 3 -> NoDup ks ->
  forallb (fun k => forallb (apartb k) ks && nodes_below d k) ks = true ->
  Forall2 (fun k g => group s k g = true) ks gs -> proper_parts d (parts_of (List.concat gs)).
Proof.
  intros s d ks gs Hs N A F.
  assert (Q : forall f, In f (List.concat gs) -> exists k g, In (k, g) (combine ks gs) /\ group s k g = true /\ In f g /\
    partb 3 (fst (simplex_index f)) = true /\ length (fst (simplex_index f)) = length k /\ characteristic (fst (simplex_index f)) = k).
  { intros f Hf. destruct (groups_in s ks gs f F Hf) as [k [g [H1 [H2 H3]]]]. exists k, g. split; [exact H1|]. split; [exact H2|]. split; [exact H3|].
    unfold group in H2. apply andb_true_iff in H2. destruct H2 as [H2 _]. rewrite forallb_forall in H2. specialize (H2 f H3).
    destruct Hs as [[-> ->]|[-> ->]]; bools; repeat match goal with H : (_ =? _) = true |- _ => apply Nat.eqb_eq in H end;
      unfold key, key_of_index in *; cbn [index] in *;
      (split; [assumption|]); (split; [assumption|]); match goal with H : list_eqb (match _ with _ => _ end) k = true |- _ => apply list_eqb_true in H; rewrite <- H end;
      (destruct (fst (simplex_index f)); [match goal with H : partb 3 [] = true |- _ => discriminate H end|reflexivity]). }
  rewrite forallb_forall in A.
  assert (M : forall f, In f (List.concat gs) -> forall m, In m (fst (simplex_index f)) -> m <= 3).
  { intros f Hf. destruct (Q f Hf) as [k [g [_ [_ [_ [P _]]]]]]. apply partb_true in P. apply P. }
  split.
  - intros J HJ. apply in_map_iff in HJ. destruct HJ as [f [<- Hf]]. destruct (Q f Hf) as [k [g [H1 [_ [_ [P [L C]]]]]]].
    apply partb_true in P. destruct P as [P1 [P2 P3]]. split; [exact P1|]. split; [exact P2|].
    intros n Hn. apply (characteristic_in _ _ P3) in Hn. rewrite C in Hn. apply in_combine_l in H1. apply A in H1. bools.
    match goal with H : nodes_below _ _ = true |- _ => unfold nodes_below in H; rewrite forallb_forall in H; apply H in Hn end. apply Nat.leb_le. exact Hn.
  - intros J K HJ HK. apply in_map_iff in HJ. destruct HJ as [f [<- Hf]]. apply in_map_iff in HK. destruct HK as [f' [<- Hf']].
    destruct (Q f Hf) as [k [g [H1 [G [I1 [P [L C]]]]]]]. destruct (Q f' Hf') as [k' [g' [H1' [G' [I1' [P' [L' C']]]]]]].
    assert (Ak := A k (in_combine_l _ _ _ _ H1)). apply andb_true_iff in Ak. destruct Ak as [Ak _]. rewrite forallb_forall in Ak.
    specialize (Ak k' (in_combine_l _ _ _ _ H1')). apply apartb_true in Ak. destruct Ak as [E|[E|[n [E1 E2]]]].
    + left. subst k'. rewrite <- E in *. assert (g = g') by (eapply combine_unique; eassumption). subst g'.
      unfold group in G. apply andb_true_iff in G. destruct G as [G _]. rewrite forallb_forall in G.
      assert (X := G f I1). assert (Y := G f' I1'). bools. repeat match goal with H : list_eqb (fst _) _ = true |- _ => apply list_eqb_true in H end.
      destruct Hs as [[-> _]|[-> _]]; cbn [index] in *; congruence.
    + right; left. lia.
    + right; right. exists n. rewrite <- C in E1. rewrite <- C' in E2.
      rewrite (characteristic_in _ _ (M f Hf)) in E1. rewrite (characteristic_in _ _ (M f' Hf')) in E2. auto.
Qed.

Lemma groups_independent : forall s ks gs, nodupb (list_eq_dec Nat.eq_dec) ks = true ->
  match s with
  | Line | Square | Cube => true
  | Triangle => forallb (fun k => forallb (apartb k) ks && nodes_below 2 k) ks
  | Tetrahedron => forallb (fun k => forallb (apartb k) ks && nodes_below 3 k) ks
  | _ => false
  end = true ->
  Forall2 (fun k g => group s k g = true) ks gs -> independent s (List.concat gs).
Proof.
  intros s ks gs N A F. apply nodupb_true in N. assert (G := groups_good s ks gs F). assert (D := groups_nodup s ks gs N F).
  destruct s; try discriminate; cbn [good index] in *.
  - apply line_independent; [exact G|]. apply (NoDup_map_inv (fun i => (@nil nat, [i]))). rewrite map_map. exact D.
  - apply triangle_independent; [exact G| |exact D]. apply (groups_parts Triangle 2 ks); auto.
  - apply square_independent; [exact G|]. apply (NoDup_map_inv (fun i => (@nil nat, [fst i; snd i]))). rewrite map_map. exact D.
  - apply tetrahedron_independent; [exact G| |exact D]. apply (groups_parts Tetrahedron 3 ks); auto.
  - apply cube_independent; [exact G|]. apply (NoDup_map_inv (fun i => (@nil nat, [fst i; fst (snd i); snd (snd i)]))). rewrite map_map. exact D.
Qed.

(** the keys of the parts *)
Definition node_keys (s : shape) : list (list nat) :=
  match s with
  | Square => [[0;0]; [1;0]; [0;1]; [1;1]]
  | Triangle => [[0]; [1]; [2]]
  | Tetrahedron => [[0]; [1]; [2]; [3]]
  | Cube => [[0;0;0]; [1;0;0]; [0;1;0]; [1;1;0]; [0;0;1]; [1;0;1]; [0;1;1]; [1;1;1]]
  | _ => []
  end.
Definition face_keys (s : shape) : list (list nat) :=
  match s with
  | Line => [[0]; [1]]
  | Square => [[2;0]; [0;2]; [1;2]; [2;1]]
  | Triangle => [[0;1]; [0;2]; [1;2]]
  | Tetrahedron => [[0;2;3]; [0;1;3]; [0;1;2]; [1;2;3]]
  | Cube => [[2;2;0]; [2;0;2]; [0;2;2]; [1;2;2]; [2;1;2]; [2;2;1]]
  | _ => []
  end.
Definition edge_keys (s : shape) : list (list nat) :=
  match s with
  | Tetrahedron => [[0;1]; [0;2]; [0;3]; [2;3]; [1;3]; [1;2]]
  | Cube => [[2;0;0]; [2;1;0]; [2;0;1]; [2;1;1]; [0;2;0]; [1;2;0]; [0;2;1]; [1;2;1]; [0;0;2]; [1;0;2]; [0;1;2]; [1;1;2]]
  | _ => []
  end.
Definition interior_key (s : shape) : list nat :=
  match s with Line => [2] | Square => [2;2] | Cube => [2;2;2] | Triangle => [0;1;2] | _ => [0;1;2;3] end.
Definition keys (s : shape) : list (list nat) := interior_key s :: face_keys s ++ edge_keys s ++ node_keys s.

Definition some_group (s : shape) (k : list nat) (g : option (list basis_function)) : bool := match g with Some g => group s k g | None => true end.
Definition supported (s : shape) : bool := match s with Line | Square | Cube | Triangle | Tetrahedron => true | _ => false end.
Lemma keys_good : forall s, supported s = true -> nodupb (list_eq_dec Nat.eq_dec) (keys s) = true /\
  match s with
  | Line | Square | Cube => true
  | Triangle => forallb (fun k => forallb (apartb k) (keys s) && nodes_below 2 k) (keys s)
  | Tetrahedron => forallb (fun k => forallb (apartb k) (keys s) && nodes_below 3 k) (keys s)
  | _ => false
  end = true.
Proof. intros s H. destruct s; try discriminate; split; vm_compute; reflexivity. Qed.

Ltac orders order := destruct order as [|[|[|[|[|[|[|order]]]]]]]; try lia.
Lemma face_groups : forall asserts s order o i, order <= 6 -> supported s = true -> i < faces_of s ->
  some_group s (nth i (face_keys s) []) (face_functions asserts s order o i) = true.
Proof.
  intros asserts s order o i L S Hi. destruct (le_lt_dec 8 o) as [Ho|Ho].
  - replace (face_functions asserts s order o i) with (@None (list basis_function)); [reflexivity|].
    do 8 (destruct o as [|o]; [lia|]). orders order; (destruct s; try discriminate); destruct asserts; vm_compute; reflexivity.
  - assert (forallb (fun i => forallb (fun o => some_group s (nth i (face_keys s) []) (face_functions asserts s order o i)) (seq 0 8)) (seq 0 (faces_of s)) = true) as C.
    { clear - L S. orders order; (destruct s; try discriminate); destruct asserts; vm_compute; reflexivity. }
    rewrite forallb_forall in C. assert (Ii : In i (seq 0 (faces_of s))) by (apply in_seq; lia). specialize (C i Ii). cbv beta in C. rewrite forallb_forall in C. apply C. apply in_seq. lia.
Qed.
Lemma edge_groups : forall asserts s order o i, order <= 6 -> supported s = true -> i < edges_of s ->
  some_group s (nth i (edge_keys s) []) (edge_functions asserts s order o i) = true.
Proof.
  intros asserts s order o i L S Hi. destruct (le_lt_dec 2 o) as [Ho|Ho].
  - replace (edge_functions asserts s order o i) with (@None (list basis_function)); [reflexivity|].
    do 2 (destruct o as [|o]; [lia|]). orders order; (destruct s; try discriminate); destruct asserts; vm_compute; reflexivity.
  - assert (forallb (fun i => forallb (fun o => some_group s (nth i (edge_keys s) []) (edge_functions asserts s order o i)) (seq 0 2)) (seq 0 (edges_of s)) = true) as C.
    { clear - L S. orders order; (destruct s; try discriminate); destruct asserts; vm_compute; reflexivity. }
    rewrite forallb_forall in C. assert (Ii : In i (seq 0 (edges_of s))) by (apply in_seq; lia). specialize (C i Ii). cbv beta in C. rewrite forallb_forall in C. apply C. apply in_seq. lia.
Qed.
Lemma node_groups : forall asserts s order i, order <= 6 -> supported s = true -> i < nodes_of s ->
  some_group s (nth i (node_keys s) []) (node_functions asserts s order i) = true.
Proof.
  intros asserts s order i L S Hi.
  assert (forallb (fun i => some_group s (nth i (node_keys s) []) (node_functions asserts s order i)) (seq 0 (length (node_keys s))) = true) as C.
  { clear - L S. orders order; (destruct s; try discriminate); destruct asserts; vm_compute; reflexivity. }
  rewrite forallb_forall in C. apply C. apply in_seq. destruct s; try discriminate; cbn in *; lia.
Qed.
Lemma interior_group : forall asserts s order sets, order <= 6 -> supported s = true -> default_conforming_sets asserts s order = Some sets ->
  group s (interior_key s) (interior_set sets) = true.
Proof.
  intros asserts s order sets L S E.
  assert (match default_conforming_sets asserts s order with Some sets => group s (interior_key s) (interior_set sets) | None => true end = true) as C;
    [|rewrite E in C; exact C].
  clear E. orders order; (destruct s; try discriminate); destruct asserts; vm_compute; reflexivity.
Qed.
Lemma joined_groups : forall s L ks l, joined L = Some l -> Forall2 (fun k g => some_group s k g = true) ks L ->
  exists gs, l = List.concat gs /\ Forall2 (fun k g => group s k g = true) ks gs.
Proof.
  intros s L. induction L as [|[a|] L IH]; intros ks l E F; inversion F as [|k ? ks' ? F1 F2]; subst; cbn in E; try discriminate.
  - injection E as <-. exists []. split; [reflexivity|constructor].
  - destruct (joined L) as [b|]; [|discriminate]. injection E as <-. destruct (IH ks' b eq_refl F2) as [gs [-> G]].
    exists (a :: gs). split; [reflexivity|]. constructor; assumption.
Qed.
Lemma forall2_seq : forall s (ks : list (list nat)) (h : nat -> option (list basis_function)) n, length ks = n ->
  (forall i, i < n -> some_group s (nth i ks []) (h i) = true) -> Forall2 (fun k g => some_group s k g = true) ks (map h (seq 0 n)).
Proof.
  intros s ks h n L H.
  assert (G : forall ks m, (forall i, i < length ks -> some_group s (nth i ks []) (h (m + i)) = true) ->
    Forall2 (fun k g => some_group s k g = true) ks (map h (seq m (length ks)))).
  { clear. induction ks as [|k ks IH]; intros m H; [constructor|]. cbn [length seq map]. constructor.
    - specialize (H 0). cbn in H. rewrite Nat.add_0_r in H. apply H. lia.
    - apply IH. intros i Hi. specialize (H (S i)). cbn in H. replace (S m + i) with (m + S i) by lia. apply H. lia. }
  rewrite <- L. apply G. rewrite L. exact H.
Qed.
Lemma conforming_independent : forall asserts s order of oe l, order <= 6 -> supported s = true ->
  conforming_basis asserts s order of oe = Some l -> independent s l.
Proof.
  intros asserts s order of oe l L S E. unfold conforming_basis in E.
  destruct (default_conforming_sets asserts s order) as [sets|] eqn:Es; [|discriminate].
  destruct (joined_groups s _ (keys s) l E) as [gs [-> G]].
  - constructor; [apply (interior_group asserts s order); assumption|]. apply Forall2_app; [|apply Forall2_app]; apply forall2_seq.
    + destruct s; try discriminate; reflexivity.
    + intros i Hi. apply face_groups; assumption.
    + destruct s; try discriminate; reflexivity.
    + intros i Hi. apply edge_groups; assumption.
    + destruct s; try discriminate; reflexivity.
    + intros i Hi. apply node_groups; assumption.
  - destruct (keys_good s S) as [K1 K2]. apply (groups_independent s (keys s)); assumption.
Qed.
Lemma conforming_independent_all : forall asserts s order of oe l, order <= 6 ->
  match s with Line | Triangle | Square | Tetrahedron | Cube => true | _ => false end = true ->
  conforming_basis asserts s order of oe = Some l -> independent s l.
Proof. intros asserts s order of oe l L S. apply conforming_independent; [exact L|]. destruct s; exact S. Qed.
