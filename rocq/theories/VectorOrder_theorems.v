(** C71: vectors and points can be keys of maps and sets. *)
From Coq Require Import List Bool Arith Lia ZArith.
From Verif Require Import VectorOrder_model VectorOrder_spec VectorOrder_proofs.
Import ListNotations.

(** On vectors of one size without NaN, with real or with complex entries, == is equality and < is a strict total order. *)
Theorem C71_small : forall (D : Type) (ltb eqb : D -> D -> bool),
  (forall a b, eqb a b = true <-> a = b) -> strict_total (fun _ => True) (fun a b => ltb a b = true) -> forall n,
  (forall l r, length l = n -> length r = n -> ~ In None l -> ~ In None r -> (smallEqual eqb l r = true <-> l = r)) /\
  strict_total (fun l => length l = n /\ ~ In None l) (fun l r => smallLess ltb eqb l r = true) /\
  (forall l r, length l = n -> length r = n -> ~ In None (map fst l ++ map snd l) -> ~ In None (map fst r ++ map snd r) ->
     (smallEqualC eqb l r = true <-> l = r)) /\
  strict_total (fun l => length l = n /\ ~ In None (map fst l ++ map snd l)) (fun l r => smallLessC ltb eqb l r = true).
Proof.
  intros D ltb eqb Eq Lt n.
  assert (P1 : forall l, length l = n /\ ~ In None l -> sized (@number D) n l).
  { intros l [L N]. split; [exact L|]. apply Forall_forall. intros [x|] H; [discriminate|contradiction]. }
  assert (P2 : forall l : list (option D * option D), length l = n /\ ~ In None (map fst l ++ map snd l) -> sized numberC n l).
  { intros l [L N]. split; [exact L|]. apply Forall_forall. intros [a b] H. split; cbn; intros ->; apply N, in_or_app; [left|right]; apply in_map_iff; eexists; (split; [|exact H]); reflexivity. }
  destruct (lex_ordered _ _ _ (doubles_ordered ltb eqb Eq Lt) n) as [Q [I [T C]]].
  destruct (lex_ordered _ _ _ (complex_ordered ltb eqb Eq Lt) n) as [Q' [I' [T' C']]].
  split; [|split; [|split]].
  - intros l r Ll Lr Nl Nr. apply Q; apply P1; auto.
  - split; [|split].
    + intros x Hx. now apply I, P1.
    + intros x y z Hx Hy Hz. apply T; now apply P1.
    + intros x y Hx Hy. apply C; now apply P1.
  - intros l r Ll Lr Nl Nr. apply Q'; apply P2; auto.
  - split; [|split].
    + intros x Hx. now apply I', P2.
    + intros x y z Hx Hy Hz. apply T'; now apply P2.
    + intros x y Hx Hy. apply C'; now apply P2.
Qed.
Print Assumptions C71_small.

(** So it is for vectors of which the size is not in the type, as long as it is the same, in both builds. *)
Theorem C71_middle : forall (D : Type) (ltb eqb : D -> D -> bool),
  (forall a b, eqb a b = true <-> a = b) -> strict_total (fun _ => True) (fun a b => ltb a b = true) -> forall n,
  strict_total (fun l => length l = n /\ ~ In None l) (fun l r => middleLess ltb l r = true) /\
  strict_total (fun l => length l = n /\ ~ In None (map fst l ++ map snd l)) (fun l r => middleLessC ltb l r = true).
Proof.
  intros D ltb eqb Eq Lt n.
  assert (P1 : forall l, length l = n /\ ~ In None l -> sized (@number D) n l).
  { intros l [L N]. split; [exact L|]. apply Forall_forall. intros [x|] H; [discriminate|contradiction]. }
  assert (P2 : forall l : list (option D * option D), length l = n /\ ~ In None (map fst l ++ map snd l) -> sized numberC n l).
  { intros l [L N]. split; [exact L|]. apply Forall_forall. intros [a b] H. split; cbn; intros ->; apply N, in_or_app; [left|right]; apply in_map_iff; eexists; (split; [|exact H]); reflexivity. }
  destruct (lex_ordered _ _ _ (doubles_ordered ltb eqb Eq Lt) n) as [Q [I [T C]]]. destruct (middle_complex ltb eqb Eq Lt n) as [I' [T' C']].
  assert (M : forall l r, length l = n /\ ~ In None l -> length r = n /\ ~ In None r -> middleLess ltb l r = smallLess ltb eqb l r).
  { intros l r Hl Hr. apply (middle_small ltb eqb Eq Lt l r n); now apply P1. }
  split; (split; [|split]).
  - intros x Hx. rewrite M by assumption. now apply I, P1.
  - intros x y z Hx Hy Hz. rewrite !M by assumption. apply T; now apply P1.
  - intros x y Hx Hy. rewrite !M by assumption. apply C; now apply P1.
  - intros x Hx. now apply I', P2.
  - intros x y z Hx Hy Hz. apply T'; now apply P2.
  - intros x y Hx Hy. apply C'; now apply P2.
Qed.
Print Assumptions C71_middle.

Lemma integers : (forall a b, Z.eqb a b = true <-> a = b) /\ strict_total (fun _ => True) (fun a b => Z.ltb a b = true).
Proof.
  split; [exact Z.eqb_eq|]. split; [|split]; intros; rewrite ?Z.ltb_lt in *; lia.
Qed.
Example C71_small_nonvacuous :
  (forall a b, Z.eqb a b = true <-> a = b) /\ strict_total (fun _ => True) (fun a b => Z.ltb a b = true) /\
  smallLess Z.ltb Z.eqb [Some 1; Some 2]%Z [Some 1; Some 3]%Z = true /\ smallLess Z.ltb Z.eqb [Some 1; Some 3]%Z [Some 1; Some 2]%Z = false /\
  smallLessC Z.ltb Z.eqb [(Some 1, Some 5)]%Z [(Some 1, Some 6)]%Z = true /\ smallEqual Z.eqb [Some 1; Some 2]%Z [Some 1; Some 2]%Z = true.
Proof. split; [apply integers|]. split; [apply integers|]. repeat split. Qed.
Example C71_middle_nonvacuous :
  middleLess Z.ltb [Some 1; Some 2]%Z [Some 1; Some 3]%Z = true /\ middleLessC Z.ltb [(Some 1, Some 9); (Some 2, Some 0)]%Z [(Some 1, Some 3); (Some 3, Some 0)]%Z = true.
Proof. split; reflexivity. Qed.

(** Refuted: vectors of any sizes can be keys together.  Only the entries that both have are compared, and a vector is
    like all its continuations. *)
Theorem C71_sizes_refuted : forall (D : Type) (ltb : D -> D -> bool) x a b, ltb a b = true -> ltb x x = false ->
  ~ strict_weak (fun l => ~ In None l) (fun l r => middleLess ltb l r = true).
Proof.
  intros D ltb x a b H X [_ [_ W]].
  destruct (W [Some x; Some a] [Some x] [Some x; Some b]) as [N _]; try (cbn; intuition congruence); try (unfold middleLess; cbn; rewrite X; discriminate).
  apply N. unfold middleLess. cbn. rewrite X, H. reflexivity.
Qed.
Print Assumptions C71_sizes_refuted.
(** Refuted: vectors with NaN can be keys. *)
Theorem C71_nan_refuted : forall (D : Type) (ltb eqb : D -> D -> bool) a b, ltb a b = true -> eqb a b = false ->
  ~ strict_weak (fun l => length l = 1) (fun l r => smallLess ltb eqb l r = true).
Proof.
  intros D ltb eqb a b H E [_ [_ W]]. destruct (W [Some a] [None] [Some b]) as [N _]; try reflexivity; try (cbn; discriminate).
  apply N. cbn. unfold less. cbn. now rewrite E.
Qed.
Print Assumptions C71_nan_refuted.
Example C71_refuted_nonvacuous : Z.ltb 1 2 = true /\ Z.ltb 0 0 = false /\ Z.eqb 1 2 = false. Proof. repeat split. Qed.
