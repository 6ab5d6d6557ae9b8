(** The grid that the reader of structured meshes walks through. *)
From Coq Require Import String Ascii List Arith Bool ZArith Reals Lia Lra.
From Verif Require Import Loop_model Loop_proofs Gmsh_model Structured_model Structured_spec.
Import ListNotations.

(** * Walking through a grid *)
Fixpoint unrank (count : axis -> nat) (xs : list axis) (e : nat) : list nat :=
  match xs with [] => [] | x :: xs => e mod count x :: unrank count xs (e / count x) end.
Fixpoint rank (count : axis -> nat) (xs : list axis) (l : list nat) : nat :=
  match xs, l with x :: xs, k :: l => k + count x * rank count xs l | _, _ => 0 end.
Fixpoint prod (count : axis -> nat) (xs : list axis) : nat :=
  match xs with [] => 1 | x :: xs => count x * prod count xs end.
Lemma total_prod_gen : forall count xs a, fold_left (fun a x => a * count x) xs a = a * prod count xs.
Proof. induction xs as [|x xs IH]; intros a; cbn; [lia|]. rewrite IH. lia. Qed.
Lemma total_prod : forall count xs, total count xs = prod count xs.
Proof. intros. unfold total. rewrite total_prod_gen. lia. Qed.
Lemma unrank_length : forall count xs e, length (unrank count xs e) = length xs.
Proof. induction xs as [|x xs IH]; intros e; cbn; [reflexivity|now rewrite IH]. Qed.
Lemma unrank_zero : forall count xs, Forall (fun x => 0 < count x) xs -> unrank count xs 0 = map (fun _ => 0) xs.
Proof.
  induction xs as [|x xs IH]; intros H; cbn [unrank map]; [reflexivity|]. inversion H; subst.
  rewrite Nat.mod_0_l, Nat.div_0_l by lia. now rewrite IH.
Qed.
Lemma advance_unrank : forall count xs e, Forall (fun x => 0 < count x) xs ->
  advance count xs (unrank count xs e) = unrank count xs (S e).
Proof.
  induction xs as [|x xs IH]; intros e H; [reflexivity|]. inversion H; subst. cbn [unrank advance].
  pose proof (Nat.div_mod e (count x) ltac:(lia)) as D. pose proof (Nat.mod_upper_bound e (count x) ltac:(lia)) as U.
  destruct (Nat.ltb_spec (S (e mod count x)) (count x)) as [L|L].
  - rewrite (Nat.mod_unique (S e) (count x) (e / count x) (S (e mod count x))) by lia.
    rewrite (Nat.div_unique (S e) (count x) (e / count x) (S (e mod count x))) by lia. reflexivity.
  - rewrite IH by assumption.
    assert (E : S e = count x * S (e / count x) + 0) by nia.
    rewrite (Nat.mod_unique (S e) (count x) (S (e / count x)) 0) by lia.
    rewrite (Nat.div_unique (S e) (count x) (S (e / count x)) 0) at 1 by lia. 
    rewrite <- (Nat.div_unique (S e) (count x) (S (e / count x)) 0) by lia. reflexivity.
Qed.
Lemma rank_unrank : forall count xs e, Forall (fun x => 0 < count x) xs -> e < prod count xs ->
  rank count xs (unrank count xs e) = e.
Proof.
  induction xs as [|x xs IH]; intros e H L; cbn in *; [lia|]. inversion H; subst.
  rewrite IH; [|assumption|apply Nat.div_lt_upper_bound; lia]. pose proof (Nat.div_mod e (count x) ltac:(lia)). lia.
Qed.
Definition below (count : axis -> nat) (xs : list axis) (l : list nat) : Prop := Forall2 (fun x k => k < count x) xs l.
Lemma unrank_rank : forall count xs l, below count xs l -> unrank count xs (rank count xs l) = l.
Proof.
  intros count xs l H. induction H as [|x k xs l K H IH]; [reflexivity|]. cbn [rank unrank].
  f_equal; [symmetry; apply (Nat.mod_unique _ _ (rank count xs l)); lia|].
  rewrite <- IH at 2. f_equal. symmetry. apply (Nat.div_unique _ _ _ k); lia.
Qed.
Lemma rank_bound : forall count xs l, below count xs l -> rank count xs l < prod count xs.
Proof. intros count xs l H. induction H as [|x k xs l K H IH]; cbn; [lia|nia]. Qed.
Lemma unrank_below : forall count xs e, Forall (fun x => 0 < count x) xs -> below count xs (unrank count xs e).
Proof.
  induction xs as [|x xs IH]; intros e H; cbn; constructor; inversion H; subst.
  - apply Nat.mod_upper_bound. lia.
  - now apply IH.
Qed.
Lemma prod_pos : forall count xs, Forall (fun x => 0 < count x) xs -> 0 < prod count xs.
Proof. intros count xs H. induction H; cbn; [lia|nia]. Qed.

Lemma produce_seq : forall {St A} (step : St -> option (A * St)) (st : nat -> St) (out : nat -> A) n k,
  (forall e, k <= e < k + n -> step (st e) = Some (out e, st (S e))) ->
  produce n step (st k) = Some (map out (seq k n), st (k + n)).
Proof.
  intros St A step st out. induction n as [|n IH]; intros k H; cbn [produce seq map].
  - now rewrite Nat.add_0_r.
  - rewrite (H k) by lia. cbn [bind fst snd]. rewrite IH by (intros e He; apply H; lia). cbn [bind fst snd].
    now rewrite <- Nat.add_succ_comm.
Qed.

(** * Nodes *)
Definition good (x : axis) : Prop :=
  0 < numberOfElements x /\ numberOfNodes x = numberOfElements x + (if isPeriodic x then 0 else 1).
Definition point (xs : list axis) (g : list nat) : Prop := Forall2 (fun x k => k <= numberOfElements x) xs g.
Fixpoint fold (xs : list axis) (g : list nat) : list nat :=
  match xs, g with x :: xs, k :: g => (if k =? numberOfNodes x then 0 else k) :: fold xs g | _, _ => [] end.
Fixpoint subs (xs : list axis) (g : list nat) (st : nat * nat) : nat * nat :=
  match xs, g with
  | x :: xs, k :: g =>
      subs xs g (if k =? numberOfNodes x then (fst st + 2 ^ snd st, S (snd st))
                 else if (isPeriodic x && (k =? 0))%bool then (fst st, S (snd st)) else st)
  | _, _ => st
  end.
Fixpoint shifted {A} (shift : nat -> axis -> A -> A) (i : nat) (xs : list axis) (g : list nat) (a : A) : A :=
  match xs, g with
  | x :: xs, k :: g => shifted shift (S i) xs g (if k =? numberOfNodes x then shift i x a else a)
  | _, _ => a
  end.
Lemma good_nodes : forall xs, Forall good xs -> Forall (fun x => 0 < numberOfNodes x) xs.
Proof. intros xs H. eapply Forall_impl; [|exact H]. intros x (A & B). lia. Qed.
Lemma good_elements : forall xs, Forall good xs -> Forall (fun x => 0 < numberOfElements x) xs.
Proof. intros xs H. eapply Forall_impl; [|exact H]. intros x (A & B). lia. Qed.
Lemma good_top : forall x k, good x -> k <= numberOfElements x -> k = numberOfNodes x ->
  isPeriodic x = true /\ k = numberOfElements x.
Proof. intros x k (A & B) K E. destruct (isPeriodic x); [split; [reflexivity|lia]|lia]. Qed.

Lemma fold_below : forall xs g, Forall good xs -> point xs g -> below numberOfNodes xs (fold xs g).
Proof.
  intros xs g G H. induction H as [|x k xs g K H IH]; [constructor|]. inversion G as [|? ? (A & B) G']; subst. cbn [fold].
  constructor; [|now apply IH]. destruct (Nat.eqb_spec k (numberOfNodes x)); [lia|]. destruct (isPeriodic x); lia.
Qed.

Lemma copies_at : forall {A} (shift : nat -> axis -> A -> A) xs g, Forall good xs -> point xs g ->
  forall i cs sub previous a, length cs = 2 ^ previous -> nth_error cs sub = Some a ->
  nth_error (copies shift i xs (fold xs g) cs) (fst (subs xs g (sub, previous))) = Some (shifted shift i xs g a).
Proof.
  intros A shift xs g G H. induction H as [|x k xs g K H IH]; intros i cs sub previous a L N; [exact N|].
  inversion G as [|? ? Gx G']; subst. cbn [fold copies subs shifted fst snd].
  destruct (Nat.eqb_spec k (numberOfNodes x)) as [E|E].
  - destruct (good_top x k Gx K E) as (P & _). rewrite P. cbn [andb Nat.eqb].
    apply IH; [assumption| |].
    + rewrite app_length, map_length, L. cbn [Nat.pow]. lia.
    + rewrite nth_error_app2 by lia. replace (sub + 2 ^ previous - length cs) with sub by lia.
      now rewrite nth_error_map, N.
  - destruct (isPeriodic x && (k =? 0))%bool eqn:P.
    + apply IH; [assumption| |].
      * rewrite app_length, map_length, L. cbn [Nat.pow]. lia.
      * rewrite nth_error_app1 by (apply nth_error_Some; congruence). exact N.
    + now apply IH.
Qed.
Lemma copies_length : forall {A} (shift : nat -> axis -> A -> A) xs g, Forall good xs -> point xs g ->
  forall i cs sub previous, length cs = 2 ^ previous ->
  length (copies shift i xs (fold xs g) cs) = 2 ^ snd (subs xs g (sub, previous)).
Proof.
  intros A shift xs g G H. induction H as [|x k xs g K H IH]; intros i cs sub previous L; [exact L|].
  inversion G as [|? ? Gx G']; subst. cbn [fold copies subs fst snd].
  destruct (Nat.eqb_spec k (numberOfNodes x)) as [E|E].
  - destruct (good_top x k Gx K E) as (P & _). rewrite P. cbn [andb Nat.eqb].
    apply IH; [assumption|]. rewrite app_length, map_length, L. cbn [Nat.pow]. lia.
  - destruct (isPeriodic x && (k =? 0))%bool eqn:P.
    + apply IH; [assumption|]. rewrite app_length, map_length, L. cbn [Nat.pow]. lia.
    + now apply IH.
Qed.
(** every copy belongs to a point *)
Lemma copies_point : forall {A} (shift : nat -> axis -> A -> A) xs v, Forall good xs -> below numberOfNodes xs v ->
  forall i (cs : list A) previous s, length cs = 2 ^ previous -> s < length (copies shift i xs v cs) ->
  exists g sub, point xs g /\ fold xs g = v /\ sub < length cs /\ fst (subs xs g (sub, previous)) = s.
Proof.
  intros A shift xs v G H. induction H as [|x k xs v K H IH]; intros i cs previous s L Hs.
  - exists [], s. split; [constructor|]. now repeat split.
  - inversion G as [|? ? (A1 & A2) G']; subst. cbn [copies] in Hs.
    assert (K' : k <= numberOfElements x) by (destruct (isPeriodic x); lia).
    destruct (isPeriodic x && (k =? 0))%bool eqn:P.
    + apply andb_true_iff in P. destruct P as (P & Q). apply Nat.eqb_eq in Q. subst k.
      destruct (IH G' (S i) (cs ++ map (shift i x) cs) (S previous) s) as (g & sub & B1 & B2 & B3 & B4).
      { rewrite app_length, map_length, L. cbn [Nat.pow]. lia. } { exact Hs. }
      rewrite app_length, map_length in B3.
      destruct (Nat.ltb_spec sub (2 ^ previous)) as [C|C].
      * exists (0 :: g), sub. split; [constructor; [lia|exact B1]|]. cbn [fold subs fst snd].
        destruct (Nat.eqb_spec 0 (numberOfNodes x)); [lia|]. rewrite P. cbn [andb Nat.eqb].
        split; [now rewrite B2|]. split; [lia|exact B4].
      * exists (numberOfNodes x :: g), (sub - 2 ^ previous). rewrite P in A2.
        split; [constructor; [lia|exact B1]|]. cbn [fold subs fst snd]. rewrite Nat.eqb_refl.
        split; [now rewrite B2|]. split; [lia|]. replace (sub - 2 ^ previous + 2 ^ previous) with sub by lia. exact B4.
    + destruct (IH G' (S i) cs previous s L Hs) as (g & sub & B1 & B2 & B3 & B4).
      exists (k :: g), sub. split; [constructor; assumption|]. cbn [fold subs fst snd].
      destruct (Nat.eqb_spec k (numberOfNodes x)); [lia|]. rewrite P. split; [now rewrite B2|]. now split.
Qed.

(** the positions *)
Fixpoint placed (xs : list axis) (g : list nat) : list R :=
  match xs, g with
  | x :: xs, k :: g => (lowerLeft x + INR k * size x / INR (numberOfElements x))%R :: placed xs g
  | _, _ => []
  end.
Lemma move_app : forall pre y c s, move (length pre) s (pre ++ y :: c) = pre ++ (y + s)%R :: c.
Proof. induction pre as [|z pre IH]; intros; cbn; [reflexivity|now rewrite IH]. Qed.
Lemma shifted_place : forall xs g, Forall good xs -> point xs g -> forall pre,
  shifted shiftPlace (length pre) xs g (pre ++ place xs (fold xs g)) = pre ++ placed xs g.
Proof.
  intros xs g G H. induction H as [|x k xs g K H IH]; intros pre; [reflexivity|].
  inversion G as [|? ? Gx G']; subst. cbn [fold shifted place placed].
  destruct (Nat.eqb_spec k (numberOfNodes x)) as [E|E].
  - destruct (good_top x k Gx K E) as (P & F). unfold shiftPlace at 2. rewrite move_app.
    replace (S (length pre)) with (length (pre ++ [(lowerLeft x + INR k * size x / INR (numberOfElements x))%R]))
      by (rewrite app_length; cbn; lia).
    specialize (IH G' (pre ++ [(lowerLeft x + INR k * size x / INR (numberOfElements x))%R])).
    rewrite <- !app_assoc in IH. cbn [app] in IH. rewrite <- IH. do 3 f_equal. rewrite F. cbn [INR].
    field. apply not_0_INR. destruct Gx. lia.
  - replace (S (length pre)) with (length (pre ++ [(lowerLeft x + INR k * size x / INR (numberOfElements x))%R]))
      by (rewrite app_length; cbn; lia).
    specialize (IH G' (pre ++ [(lowerLeft x + INR k * size x / INR (numberOfElements x))%R])).
    rewrite <- !app_assoc in IH. cbn [app] in IH. exact IH.
Qed.
(** copies of grid points, to tell them apart *)
Definition setTop (i : nat) (x : axis) (g : list nat) : list nat := firstn i g ++ numberOfNodes x :: skipn (S i) g.
Lemma shifted_top : forall xs g, point xs g -> forall pre,
  shifted setTop (length pre) xs g (pre ++ fold xs g) = pre ++ g.
Proof.
  intros xs g H. induction H as [|x k xs g K H IH]; intros pre; [reflexivity|].
  cbn [fold shifted].
  assert (E : forall z, pre ++ z :: fold xs g = (pre ++ [z]) ++ fold xs g) by (intros; now rewrite <- app_assoc).
  assert (L : S (length pre) = length (pre ++ [k])) by (rewrite app_length; cbn; lia).
  destruct (Nat.eqb_spec k (numberOfNodes x)) as [F|F].
  - unfold setTop at 2. rewrite firstn_app, firstn_all, Nat.sub_diag. cbn [firstn].
    rewrite app_nil_r, skipn_app, skipn_all2 by lia. replace (S (length pre) - length pre) with 1 by lia. cbn [app skipn].
    rewrite E, <- F, L, IH, <- app_assoc. reflexivity.
  - rewrite E, L, IH, <- app_assoc. reflexivity.
Qed.

Lemma fold_subs_inj : forall xs g g', Forall good xs -> point xs g -> point xs g' ->
  fold xs g = fold xs g' -> fst (subs xs g (0, 0)) = fst (subs xs g' (0, 0)) -> g = g'.
Proof.
  intros xs g g' G H H' F S.
  pose proof (copies_at setTop xs g G H 0 [fold xs g] 0 0 (fold xs g) eq_refl eq_refl) as A.
  pose proof (copies_at setTop xs g' G H' 0 [fold xs g'] 0 0 (fold xs g') eq_refl eq_refl) as B.
  rewrite F, S in A. rewrite B in A. injection A as A.
  pose proof (shifted_top xs g H []) as C. pose proof (shifted_top xs g' H' []) as D. cbn [length app] in C, D.
  rewrite F in C. congruence.
Qed.

(** all nodes *)
Section Nodes.
  Variable xs : list axis.
  Hypothesis G : Forall good xs.
  Definition nodeCopies (e : nat) : list (list R) :=
    copies shiftPlace 0 xs (unrank numberOfNodes xs e) [place xs (unrank numberOfNodes xs e)].
  Fixpoint start (e : nat) : nat := match e with 0 => 0 | S e => start e + length (nodeCopies e) end.
  Definition row (e : nat) : list nat := seq (start e) (length (nodeCopies e)).
  Definition rows (n e : nat) : list (list nat) := map row (seq 0 e) ++ repeat [] (n - e).
  Lemma rows_length : forall n e, e <= n -> length (rows n e) = n.
  Proof. intros. unfold rows. rewrite app_length, map_length, seq_length, repeat_length. lia. Qed.
  Lemma rows_nth : forall n e k, e <= n -> k < n -> nth_error (rows n e) k = Some (if k <? e then row k else []).
  Proof.
    intros n e k E K. unfold rows. destruct (Nat.ltb_spec k e).
    - rewrite nth_error_app1 by (rewrite map_length, seq_length; lia). now apply nth_error_map_seq.
    - rewrite nth_error_app2 by (rewrite map_length, seq_length; lia). rewrite map_length, seq_length.
      rewrite (nth_error_nth' _ []) by (rewrite repeat_length; lia). f_equal. apply nth_repeat.
  Qed.
  Lemma nodeStep_ok : forall n e, e < n ->
    nodeStep xs (Walk (unrank numberOfNodes xs e) e (start e) (rows n e)) =
    Some (nodeCopies e, Walk (unrank numberOfNodes xs (S e)) (S e) (start (S e)) (rows n (S e))).
  Proof.
    intros n e E. unfold nodeStep. cbn [w_loop w_node w_next w_ids]. fold (nodeCopies e).
    rewrite rows_nth by lia. rewrite Nat.ltb_irrefl. cbn [bind app].
    destruct (write_ok (rows n e) e (seq (start e) (length (nodeCopies e)))) as (v & W & L & N); [rewrite rows_length; lia|].
    rewrite W. cbn [bind]. rewrite advance_unrank by now apply good_nodes. do 3 f_equal.
    apply nth_error_ext_le. 
    all: rewrite ?rows_length in * by lia.
    - now rewrite L.
    - intros k K. rewrite N. rewrite !rows_nth by lia. destruct (Nat.eqb_spec k e) as [->|Q].
      + now rewrite (proj2 (Nat.ltb_lt e (S e))) by lia.
      + destruct (Nat.ltb_spec k e), (Nat.ltb_spec k (S e)); try lia; reflexivity.
  Qed.
  Lemma nodes_ok : forall t, getNodeCoordinates (Reader xs t) =
    Some (map nodeCopies (seq 0 (prod numberOfNodes xs)), map row (seq 0 (prod numberOfNodes xs))).
  Proof.
    intros t. unfold getNodeCoordinates. cbn [axes]. rewrite total_prod.
    pose proof (prod_pos numberOfNodes xs (good_nodes xs G)) as P. set (n := prod numberOfNodes xs) in *.
    rewrite Nat.max_r by lia.
    rewrite <- (unrank_zero numberOfNodes) by now apply good_nodes.
    replace (repeat [] n) with (rows n 0) by (unfold rows; now rewrite Nat.sub_0_r).
    change (Walk (unrank numberOfNodes xs 0) 0 0 (rows n 0))
      with ((fun e => Walk (unrank numberOfNodes xs e) e (start e) (rows n e)) 0).
    rewrite (produce_seq _ _ nodeCopies); [|intros e E; apply nodeStep_ok; lia].
    cbn [bind fst snd w_ids Nat.add]. unfold rows. rewrite Nat.sub_diag. cbn [repeat]. now rewrite app_nil_r.
  Qed.

  (** the coordinates as they are numbered *)
  Lemma numbered_nth : forall n k e s c, k <= e < k + n -> nth_error (nodeCopies e) s = Some c ->
    nth_error (numbered k (map nodeCopies (seq k n))) (start e - start k + s) = Some (e, c).
  Proof.
    induction n as [|n IH]; intros k e s c E N; [lia|]. cbn [seq map numbered].
    destruct (Nat.eq_dec e k) as [->|Q].
    - rewrite Nat.sub_diag. cbn [Nat.add]. rewrite nth_error_app1; [now rewrite nth_error_map, N|].
      rewrite map_length. apply nth_error_Some. congruence.
    - assert (M : start (S k) <= start e).
      { assert (X : forall a b, a <= b -> start a <= start b) by (intros a b L; induction L; cbn [start]; lia). apply X. lia. }
      cbn [start] in M. rewrite nth_error_app2 by (rewrite map_length; lia). rewrite map_length.
      replace (start e - start k + s - length (nodeCopies k)) with (start e - start (S k) + s) by (cbn [start]; lia).
      apply IH; [lia|exact N].
  Qed.
  Lemma numbered_length : forall n k, length (numbered k (map nodeCopies (seq k n))) = start (k + n) - start k.
  Proof.
    assert (X : forall a b, a <= b -> start a <= start b) by (intros a b L; induction L; cbn [start]; lia).
    induction n as [|n IH]; intros k; cbn [seq map numbered]; [rewrite Nat.add_0_r; cbn; lia|].
    rewrite app_length, map_length, IH. pose proof (X (S k) (S k + n) ltac:(lia)). rewrite <- Nat.add_succ_comm.
    cbn [start Nat.add] in *. lia.
  Qed.
  Lemma start_split : forall n c, c < start n -> exists e s, e < n /\ s < length (nodeCopies e) /\ c = start e + s.
  Proof.
    induction n as [|n IH]; intros c H; cbn [start] in H; [lia|].
    destruct (Nat.ltb_spec c (start n)) as [L|L].
    - destruct (IH c L) as (e & s & A & B & C). exists e, s. split; [lia|]. now split.
    - exists n, (c - start n). split; [lia|]. split; lia.
  Qed.

  Definition nodeOf (g : list nat) : nat := rank numberOfNodes xs (fold xs g).
  Definition idOf (g : list nat) : nat := start (nodeOf g) + fst (subs xs g (0, 0)).
  Lemma nodeOf_bound : forall g, point xs g -> nodeOf g < prod numberOfNodes xs.
  Proof. intros g H. apply rank_bound. now apply fold_below. Qed.
  Lemma nodeCopies_at : forall g, point xs g -> nth_error (nodeCopies (nodeOf g)) (fst (subs xs g (0, 0))) = Some (placed xs g).
  Proof.
    intros g H. unfold nodeCopies, nodeOf. rewrite unrank_rank by now apply fold_below.
    rewrite (copies_at shiftPlace xs g G H 0 [place xs (fold xs g)] 0 0 (place xs (fold xs g)) eq_refl eq_refl).
    f_equal. exact (shifted_place xs g G H []).
  Qed.
  Lemma id_numbered : forall g, point xs g ->
    nth_error (numbered 0 (map nodeCopies (seq 0 (prod numberOfNodes xs)))) (idOf g) = Some (nodeOf g, placed xs g).
  Proof.
    intros g H. pose proof (numbered_nth (prod numberOfNodes xs) 0 (nodeOf g) (fst (subs xs g (0, 0))) (placed xs g)) as A.
    cbn [start] in A. rewrite Nat.sub_0_r in A. apply A; [|now apply nodeCopies_at]. pose proof (nodeOf_bound g H). lia.
  Qed.
  Lemma node_fold : forall g g', point xs g -> point xs g' -> nodeOf g = nodeOf g' -> fold xs g = fold xs g'.
  Proof.
    intros g g' H H' E. rewrite <- (unrank_rank numberOfNodes xs (fold xs g)) by now apply fold_below.
    rewrite <- (unrank_rank numberOfNodes xs (fold xs g')) by now apply fold_below. unfold nodeOf in E. now rewrite E.
  Qed.
  Lemma id_inj : forall g g', point xs g -> point xs g' -> idOf g = idOf g' -> g = g'.
  Proof.
    intros g g' H H' E. pose proof (id_numbered g H) as A. pose proof (id_numbered g' H') as B. rewrite E, B in A.
    injection A as A _. apply (fold_subs_inj xs g g' G H H'); [now apply node_fold|].
    unfold idOf in E. rewrite A in E. lia.
  Qed.
  Lemma id_surj : forall c, c < length (numbered 0 (map nodeCopies (seq 0 (prod numberOfNodes xs)))) ->
    exists g, point xs g /\ idOf g = c.
  Proof.
    intros c H. rewrite numbered_length in H. cbn [start Nat.add] in H. rewrite Nat.sub_0_r in H.
    destruct (start_split _ c H) as (e & s & E & S & ->).
    destruct (copies_point shiftPlace xs (unrank numberOfNodes xs e) G (unrank_below _ _ _ (good_nodes xs G)) 0
                [place xs (unrank numberOfNodes xs e)] 0 s eq_refl S) as (g & sub & A & B & C & D).
    cbn in C. replace sub with 0 in D by lia. exists g. split; [exact A|]. unfold idOf, nodeOf. rewrite B.
    rewrite rank_unrank; [now rewrite D|now apply good_nodes|exact E].
  Qed.
  Lemma node_surj : forall n, n < prod numberOfNodes xs -> exists g, point xs g /\ nodeOf g = n.
  Proof.
    intros n H. 
    destruct (copies_point shiftPlace xs (unrank numberOfNodes xs n) G (unrank_below _ _ _ (good_nodes xs G)) 0
                [place xs (unrank numberOfNodes xs n)] 0 0 eq_refl) as (g & sub & A & B & C & D).
    { change (0 < length (nodeCopies n)). destruct (nodeCopies n) eqn:E; [|cbn; lia].
      exfalso. assert (X : forall ys l i (cs : list (list R)), cs <> [] -> copies shiftPlace i ys l cs <> []).
      { induction ys as [|y ys IH]; intros [|k l] i cs N; cbn [copies]; try assumption. apply IH.
        destruct (_ && _)%bool; [|assumption]. destruct cs; [congruence|discriminate]. }
      apply (X xs (unrank numberOfNodes xs n) 0 [place xs (unrank numberOfNodes xs n)] ltac:(discriminate) E). }
    exists g. split; [exact A|]. unfold nodeOf. rewrite B. apply rank_unrank; [now apply good_nodes|exact H].
  Qed.

  (** * Corners *)
  Fixpoint cornerFrom (i : nat) (l : list nat) (j : nat) : list nat :=
    match l with [] => [] | k :: l => (k + Nat.b2n (Nat.testbit j i)) :: cornerFrom (S i) l j end.
  Fixpoint dot (g ms : list nat) : nat := match g, ms with k :: g, m :: ms => k * m + dot g ms | _, _ => 0 end.
End Nodes.

Lemma corner_from : forall l j i, map (fun p => snd p + Nat.b2n (Nat.testbit j (fst p))) (combine (seq i (length l)) l) = cornerFrom i l j.
Proof. induction l as [|k l IH]; intros j i; cbn; [reflexivity|now rewrite IH]. Qed.
Lemma corner_cornerFrom : forall l j, corner l j = cornerFrom 0 l j.
Proof. intros. apply corner_from. Qed.
Lemma cornerFrom_point : forall xs l j i, below numberOfElements xs l -> point xs (cornerFrom i l j).
Proof.
  intros xs l j i H. revert i. induction H as [|x k xs l K H IH]; intros i; cbn [cornerFrom]; constructor; [|apply IH].
  destruct (Nat.testbit j i); cbn; lia.
Qed.
Lemma mod_pow_S : forall j i, j mod 2 ^ S i = j mod 2 ^ i + 2 ^ i * Nat.b2n (Nat.testbit j i).
Proof.
  intros j i. rewrite Nat.testbit_spec', Nat.pow_succ_r', (Nat.mul_comm 2). rewrite Nat.mod_mul_r; [reflexivity|apply Nat.pow_nonzero; lia|lia].
Qed.
Lemma unwrapped_at : forall xs l ms, length l = length xs -> length ms = length xs ->
  forall i ids j c, length ids = 2 ^ i -> j < 2 ^ (i + length xs) -> nth_error ids (j mod 2 ^ i) = Some c ->
  nth_error (unwrapped xs l ms ids) j = Some (c + dot (cornerFrom i l j) ms).
Proof.
  induction xs as [|x xs IH]; intros [|k l] [|m ms] Ll Lm i ids j c Li J N; try discriminate.
  - cbn [length] in J. rewrite Nat.add_0_r in J. rewrite Nat.mod_small in N by exact J. cbn. rewrite Nat.add_0_r. exact N.
  - cbn [unwrapped cornerFrom dot].
    set (moved := map (fun c => c + k * m) ids).
    assert (Lmv : length moved = 2 ^ i) by (unfold moved; now rewrite map_length).
    assert (Nm : nth_error moved (j mod 2 ^ i) = Some (c + k * m)) by (unfold moved; now rewrite nth_error_map, N).
    rewrite (IH l ms ltac:(cbn in Ll; lia) ltac:(cbn in Lm; lia) (S i) _ j (c + (k + Nat.b2n (Nat.testbit j i)) * m)).
    + f_equal. lia.
    + rewrite app_length, map_length, Lmv. cbn [Nat.pow]. lia.
    + cbn [length] in J. now replace (S i + length xs) with (i + S (length xs)) by lia.
    + rewrite mod_pow_S. pose proof (Nat.mod_upper_bound j (2 ^ i) ltac:(apply Nat.pow_nonzero; lia)) as U.
      destruct (Nat.testbit j i); cbn [Nat.b2n].
      * rewrite nth_error_app2 by lia. rewrite nth_error_map. replace (j mod 2 ^ i + 2 ^ i * 1 - length moved) with (j mod 2 ^ i) by lia.
        rewrite Nm. cbn [option_map]. f_equal. lia.
      * rewrite Nat.mul_0_r, Nat.add_0_r. rewrite nth_error_app1 by lia. rewrite Nm. f_equal. lia.
Qed.
Lemma unwrapped_length : forall xs l ms ids, length l = length xs -> length ms = length xs ->
  length (unwrapped xs l ms ids) = length ids * 2 ^ length xs.
Proof.
  induction xs as [|x xs IH]; intros [|k l] [|m ms] ids Ll Lm; try discriminate; [cbn; lia|].
  cbn [unwrapped]. rewrite IH by (cbn in *; lia). rewrite app_length, !map_length. cbn [length Nat.pow]. lia.
Qed.
Lemma wrap_at : forall xs l, Forall good xs -> below numberOfElements xs l -> forall ms, length ms = length xs ->
  forall j i c sub previous,
  wrap j i xs l ms (c + dot (cornerFrom i l j) ms, sub, previous) =
  Some (c + dot (fold xs (cornerFrom i l j)) ms, fst (subs xs (cornerFrom i l j) (sub, previous)), snd (subs xs (cornerFrom i l j) (sub, previous))).
Proof.
  intros xs l G H. induction H as [|x k xs l K H IH]; intros [|m ms] Lm j i c sub previous; try discriminate; [reflexivity|].
  inversion G as [|? ? Gx G']; subst. destruct Gx as (A & B).
  cbn [wrap cornerFrom fold subs dot fst snd].
  destruct (Nat.testbit j i) eqn:T; cbn [Nat.b2n andb negb].
  - replace (k + 1) with (S k) by lia. rewrite !andb_false_r.
    destruct (Nat.eqb_spec (S k) (numberOfNodes x)) as [E|E].
    + rewrite <- E. destruct (Nat.ltb_spec (c + (S k * m + dot (cornerFrom (S i) l j) ms)) (S k * m)); [lia|].
      cbn [bind]. replace (c + (S k * m + dot (cornerFrom (S i) l j) ms) - S k * m) with (c + dot (cornerFrom (S i) l j) ms) by lia.
      rewrite (IH G' ms ltac:(cbn in Lm; lia)). cbn [Nat.mul Nat.add]. reflexivity.
    + cbn [bind]. replace (c + (S k * m + dot (cornerFrom (S i) l j) ms)) with ((c + S k * m) + dot (cornerFrom (S i) l j) ms) by lia.
      rewrite (IH G' ms ltac:(cbn in Lm; lia)). cbn [Nat.eqb]. rewrite ?andb_false_r. do 3 f_equal. lia.
  - rewrite Nat.add_0_r, !andb_true_r. cbn [bind].
    destruct (Nat.eqb_spec k (numberOfNodes x)) as [E|E]; [destruct (isPeriodic x); lia|].
    replace (c + (k * m + dot (cornerFrom (S i) l j) ms)) with ((c + k * m) + dot (cornerFrom (S i) l j) ms) by lia.
    rewrite (IH G' ms ltac:(cbn in Lm; lia)). destruct (isPeriodic x && (k =? 0))%bool; do 3 f_equal; lia.
Qed.
Lemma multiplied_length : forall xs m, length (multiplied m xs) = length xs.
Proof. induction xs as [|x xs IH]; intros m; cbn; [reflexivity|now rewrite IH]. Qed.
Lemma dot_multiplied : forall xs v m, length v = length xs -> dot v (multiplied m xs) = m * rank numberOfNodes xs v.
Proof.
  induction xs as [|x xs IH]; intros [|k v] m L; try discriminate; cbn; [lia|]. rewrite IH by (cbn in L; lia). lia.
Qed.
Lemma fold_length : forall xs g, length g = length xs -> length (fold xs g) = length xs.
Proof. induction xs as [|x xs IH]; intros [|k g] L; try discriminate; cbn; [reflexivity|]. rewrite IH; [reflexivity|cbn in L; lia]. Qed.
Lemma cornerFrom_length : forall l j i, length (cornerFrom i l j) = length l.
Proof. induction l as [|k l IH]; intros; cbn; [reflexivity|now rewrite IH]. Qed.

Lemma collect_seq : forall {A} n (f : nat -> option A) (v : nat -> A), (forall j, j < n -> f j = Some (v j)) ->
  collect n f = Some (map v (seq 0 n)).
Proof.
  intros A n f v H. unfold collect, for_loop.
  assert (X : forall m k acc, k + m <= n -> for_from k m (fun i acc => match f i with None => None | Some x => Some (acc ++ [x]) end) acc
                               = Some (acc ++ map v (seq k m))).
  { induction m as [|m IH]; intros k acc L; cbn [for_from seq map]; [now rewrite app_nil_r|].
    rewrite H by lia. rewrite IH by lia. now rewrite <- app_assoc. }
  now rewrite X.
Qed.
Lemma corners_ok : forall xs l, Forall good xs -> below numberOfElements xs l ->
  corners xs (map (row xs) (seq 0 (prod numberOfNodes xs))) l = Some (map (fun j => idOf xs (corner l j)) (seq 0 (2 ^ length xs))).
Proof.
  intros xs l G H. unfold corners.
  assert (Ll : length l = length xs) by (clear G; induction H; cbn; congruence).
  rewrite unwrapped_length by (try exact Ll; apply multiplied_length). cbn [length Nat.mul]. rewrite Nat.add_0_r.
  apply collect_seq. intros j J.
  rewrite (unwrapped_at xs l (multiplied 1 xs) Ll (multiplied_length xs 1) 0 [0] j 0) by (try reflexivity; try exact J; now rewrite Nat.mod_1_r).
  cbn [bind]. rewrite (wrap_at xs l G H (multiplied 1 xs) (multiplied_length xs 1)). cbn [bind fst snd Nat.add].
  rewrite corner_cornerFrom. pose proof (cornerFrom_point xs l j 0 H) as P. set (g := cornerFrom 0 l j) in *.
  rewrite dot_multiplied; [|apply fold_length; unfold g; rewrite cornerFrom_length; exact Ll].
  rewrite Nat.mul_1_l. fold (nodeOf xs g). unfold lookup.
  rewrite nth_error_map_seq by now apply nodeOf_bound. cbn [bind].
  unfold row. pose proof (nodeCopies_at xs G g P) as N.
  assert (S : fst (subs xs g (0, 0)) < length (nodeCopies xs (nodeOf xs g))) by (apply nth_error_Some; congruence).
  rewrite (nth_error_nth' _ 0) by (rewrite seq_length; exact S). rewrite seq_nth by exact S. reflexivity.
Qed.
