(** How the cells of structured meshes are cut. *)
From Coq Require Import String Ascii List Arith Bool ZArith Reals Lia Lra.
From Verif Require Import Loop_model Loop_proofs Gmsh_model Structured_model Structured_spec Structured_proofs StructuredCells_proofs.
Import ListNotations.

Definition flat : list (list nat) := [[0; 1; 2]; [1; 3; 2]].
Definition solid : list (list nat) := [[1; 2; 4; 7]; [0; 1; 2; 4]; [1; 3; 2; 7]; [1; 4; 5; 7]; [2; 6; 4; 7]].
Ltac expand := cbv [rsum map orientation coordinate combine fst snd Nat.testbit Nat.odd Nat.even Nat.div2 negb Nat.b2n INR fact Nat.iter nat_rect
  turn flat solid nth rotate Nat.mul Nat.add].
Ltac vertices := expand; repeat apply Forall_cons; try apply Forall_nil;
  (split; [reflexivity|split; [repeat constructor|lra]]).
Ltac volume := expand; lra.
Ltac weights := split; [reflexivity|]; split; [repeat apply Forall_cons; try apply Forall_nil; lra|]; split; [cbn [rsum]; lra|];
  intros i Hi; destruct i as [|[|[|i]]]; try lia; expand; lra.
Local Open Scope R_scope.
Lemma cut2_0 : cut 2 (Nat.iter 0 turn flat).
Proof.
  split; [vertices|]. split; [volume|]. intros x H. pose proof (H 0%nat ltac:(lia)) as H0. pose proof (H 1%nat ltac:(lia)) as H1.
  destruct (Rle_dec 0 ((- 1/1) * x 0%nat + (- 1/1) * x 1%nat + (1/1))) as [L0|L0].
  { exists [0; 1; 2]%nat; split; [cbn; tauto|]; exists [((- 1/1) * x 0%nat + (- 1/1) * x 1%nat + (1/1))%R; ((1/1) * x 0%nat)%R; ((1/1) * x 1%nat)%R]; weights. }
  exists [1; 3; 2]%nat; split; [cbn; tauto|]; exists [((- 1/1) * x 1%nat + (1/1))%R; ((1/1) * x 0%nat + (1/1) * x 1%nat + (- 1/1))%R; ((- 1/1) * x 0%nat + (1/1))%R]; weights.
Qed.
Lemma cut2_1 : cut 2 (Nat.iter 1 turn flat).
Proof.
  split; [vertices|]. split; [volume|]. intros x H. pose proof (H 0%nat ltac:(lia)) as H0. pose proof (H 1%nat ltac:(lia)) as H1.
  destruct (Rle_dec 0 ((- 1/1) * x 0%nat + (1/1) * x 1%nat)) as [L0|L0].
  { exists [2; 0; 3]%nat; split; [cbn; tauto|]; exists [((- 1/1) * x 0%nat + (1/1) * x 1%nat)%R; ((- 1/1) * x 1%nat + (1/1))%R; ((1/1) * x 0%nat)%R]; weights. }
  exists [0; 1; 3]%nat; split; [cbn; tauto|]; exists [((- 1/1) * x 0%nat + (1/1))%R; ((1/1) * x 0%nat + (- 1/1) * x 1%nat)%R; ((1/1) * x 1%nat)%R]; weights.
Qed.
Lemma cut2_2 : cut 2 (Nat.iter 2 turn flat).
Proof.
  split; [vertices|]. split; [volume|]. intros x H. pose proof (H 0%nat ltac:(lia)) as H0. pose proof (H 1%nat ltac:(lia)) as H1.
  destruct (Rle_dec 0 ((1/1) * x 0%nat + (1/1) * x 1%nat + (- 1/1))) as [L0|L0].
  { exists [3; 2; 1]%nat; split; [cbn; tauto|]; exists [((1/1) * x 0%nat + (1/1) * x 1%nat + (- 1/1))%R; ((- 1/1) * x 0%nat + (1/1))%R; ((- 1/1) * x 1%nat + (1/1))%R]; weights. }
  exists [2; 0; 1]%nat; split; [cbn; tauto|]; exists [((1/1) * x 1%nat)%R; ((- 1/1) * x 0%nat + (- 1/1) * x 1%nat + (1/1))%R; ((1/1) * x 0%nat)%R]; weights.
Qed.
Lemma cut2_3 : cut 2 (Nat.iter 3 turn flat).
Proof.
  split; [vertices|]. split; [volume|]. intros x H. pose proof (H 0%nat ltac:(lia)) as H0. pose proof (H 1%nat ltac:(lia)) as H1.
  destruct (Rle_dec 0 ((1/1) * x 0%nat + (- 1/1) * x 1%nat)) as [L0|L0].
  { exists [1; 3; 0]%nat; split; [cbn; tauto|]; exists [((1/1) * x 0%nat + (- 1/1) * x 1%nat)%R; ((1/1) * x 1%nat)%R; ((- 1/1) * x 0%nat + (1/1))%R]; weights. }
  exists [3; 2; 0]%nat; split; [cbn; tauto|]; exists [((1/1) * x 0%nat)%R; ((- 1/1) * x 0%nat + (1/1) * x 1%nat)%R; ((- 1/1) * x 1%nat + (1/1))%R]; weights.
Qed.
Lemma cut3_0 : cut 3 (Nat.iter 0 turn solid).
Proof.
  split; [vertices|]. split; [volume|]. intros x H. pose proof (H 0%nat ltac:(lia)) as H0. pose proof (H 1%nat ltac:(lia)) as H1. pose proof (H 2%nat ltac:(lia)) as H2.
  destruct (Rle_dec 0 ((- 1/1) * x 0%nat + (- 1/1) * x 1%nat + (- 1/1) * x 2%nat + (1/1))) as [L0|L0].
  { exists [0; 1; 2; 4]%nat; split; [cbn; tauto|]; exists [((- 1/1) * x 0%nat + (- 1/1) * x 1%nat + (- 1/1) * x 2%nat + (1/1))%R; ((1/1) * x 0%nat)%R; ((1/1) * x 1%nat)%R; ((1/1) * x 2%nat)%R]; weights. }
  destruct (Rle_dec 0 ((1/1) * x 0%nat + (1/1) * x 1%nat + (- 1/1) * x 2%nat + (- 1/1))) as [L1|L1].
  { exists [1; 3; 2; 7]%nat; split; [cbn; tauto|]; exists [((- 1/1) * x 1%nat + (1/1))%R; ((1/1) * x 0%nat + (1/1) * x 1%nat + (- 1/1) * x 2%nat + (- 1/1))%R; ((- 1/1) * x 0%nat + (1/1))%R; ((1/1) * x 2%nat)%R]; weights. }
  destruct (Rle_dec 0 ((1/1) * x 0%nat + (- 1/1) * x 1%nat + (1/1) * x 2%nat + (- 1/1))) as [L2|L2].
  { exists [1; 4; 5; 7]%nat; split; [cbn; tauto|]; exists [((- 1/1) * x 2%nat + (1/1))%R; ((- 1/1) * x 0%nat + (1/1))%R; ((1/1) * x 0%nat + (- 1/1) * x 1%nat + (1/1) * x 2%nat + (- 1/1))%R; ((1/1) * x 1%nat)%R]; weights. }
  destruct (Rle_dec 0 ((- 1/1) * x 0%nat + (1/1) * x 1%nat + (1/1) * x 2%nat + (- 1/1))) as [L3|L3].
  { exists [2; 6; 4; 7]%nat; split; [cbn; tauto|]; exists [((- 1/1) * x 2%nat + (1/1))%R; ((- 1/1) * x 0%nat + (1/1) * x 1%nat + (1/1) * x 2%nat + (- 1/1))%R; ((- 1/1) * x 1%nat + (1/1))%R; ((1/1) * x 0%nat)%R]; weights. }
  exists [1; 2; 4; 7]%nat; split; [cbn; tauto|]; exists [((1/2) * x 0%nat + (- 1/2) * x 1%nat + (- 1/2) * x 2%nat + (1/2))%R; ((- 1/2) * x 0%nat + (1/2) * x 1%nat + (- 1/2) * x 2%nat + (1/2))%R; ((- 1/2) * x 0%nat + (- 1/2) * x 1%nat + (1/2) * x 2%nat + (1/2))%R; ((1/2) * x 0%nat + (1/2) * x 1%nat + (1/2) * x 2%nat + (- 1/2))%R]; weights.
Qed.
Lemma cut3_1 : cut 3 (Nat.iter 1 turn solid).
Proof.
  split; [vertices|]. split; [volume|]. intros x H. pose proof (H 0%nat ltac:(lia)) as H0. pose proof (H 1%nat ltac:(lia)) as H1. pose proof (H 2%nat ltac:(lia)) as H2.
  destruct (Rle_dec 0 ((- 1/1) * x 0%nat + (1/1) * x 1%nat + (- 1/1) * x 2%nat)) as [L0|L0].
  { exists [2; 0; 3; 6]%nat; split; [cbn; tauto|]; exists [((- 1/1) * x 0%nat + (1/1) * x 1%nat + (- 1/1) * x 2%nat)%R; ((- 1/1) * x 1%nat + (1/1))%R; ((1/1) * x 0%nat)%R; ((1/1) * x 2%nat)%R]; weights. }
  destruct (Rle_dec 0 ((1/1) * x 0%nat + (- 1/1) * x 1%nat + (- 1/1) * x 2%nat)) as [L1|L1].
  { exists [0; 1; 3; 5]%nat; split; [cbn; tauto|]; exists [((- 1/1) * x 0%nat + (1/1))%R; ((1/1) * x 0%nat + (- 1/1) * x 1%nat + (- 1/1) * x 2%nat)%R; ((1/1) * x 1%nat)%R; ((1/1) * x 2%nat)%R]; weights. }
  destruct (Rle_dec 0 ((- 1/1) * x 0%nat + (- 1/1) * x 1%nat + (1/1) * x 2%nat)) as [L2|L2].
  { exists [0; 6; 4; 5]%nat; split; [cbn; tauto|]; exists [((- 1/1) * x 2%nat + (1/1))%R; ((1/1) * x 1%nat)%R; ((- 1/1) * x 0%nat + (- 1/1) * x 1%nat + (1/1) * x 2%nat)%R; ((1/1) * x 0%nat)%R]; weights. }
  destruct (Rle_dec 0 ((1/1) * x 0%nat + (1/1) * x 1%nat + (1/1) * x 2%nat + (- 2/1))) as [L3|L3].
  { exists [3; 7; 6; 5]%nat; split; [cbn; tauto|]; exists [((- 1/1) * x 2%nat + (1/1))%R; ((1/1) * x 0%nat + (1/1) * x 1%nat + (1/1) * x 2%nat + (- 2/1))%R; ((- 1/1) * x 0%nat + (1/1))%R; ((- 1/1) * x 1%nat + (1/1))%R]; weights. }
  exists [0; 3; 6; 5]%nat; split; [cbn; tauto|]; exists [((- 1/2) * x 0%nat + (- 1/2) * x 1%nat + (- 1/2) * x 2%nat + (1/1))%R; ((1/2) * x 0%nat + (1/2) * x 1%nat + (- 1/2) * x 2%nat)%R; ((- 1/2) * x 0%nat + (1/2) * x 1%nat + (1/2) * x 2%nat)%R; ((1/2) * x 0%nat + (- 1/2) * x 1%nat + (1/2) * x 2%nat)%R]; weights.
Qed.
Lemma cut3_2 : cut 3 (Nat.iter 2 turn solid).
Proof.
  split; [vertices|]. split; [volume|]. intros x H. pose proof (H 0%nat ltac:(lia)) as H0. pose proof (H 1%nat ltac:(lia)) as H1. pose proof (H 2%nat ltac:(lia)) as H2.
  destruct (Rle_dec 0 ((1/1) * x 0%nat + (1/1) * x 1%nat + (- 1/1) * x 2%nat + (- 1/1))) as [L0|L0].
  { exists [3; 2; 1; 7]%nat; split; [cbn; tauto|]; exists [((1/1) * x 0%nat + (1/1) * x 1%nat + (- 1/1) * x 2%nat + (- 1/1))%R; ((- 1/1) * x 0%nat + (1/1))%R; ((- 1/1) * x 1%nat + (1/1))%R; ((1/1) * x 2%nat)%R]; weights. }
  destruct (Rle_dec 0 ((- 1/1) * x 0%nat + (- 1/1) * x 1%nat + (- 1/1) * x 2%nat + (1/1))) as [L1|L1].
  { exists [2; 0; 1; 4]%nat; split; [cbn; tauto|]; exists [((1/1) * x 1%nat)%R; ((- 1/1) * x 0%nat + (- 1/1) * x 1%nat + (- 1/1) * x 2%nat + (1/1))%R; ((1/1) * x 0%nat)%R; ((1/1) * x 2%nat)%R]; weights. }
  destruct (Rle_dec 0 ((- 1/1) * x 0%nat + (1/1) * x 1%nat + (1/1) * x 2%nat + (- 1/1))) as [L2|L2].
  { exists [2; 7; 6; 4]%nat; split; [cbn; tauto|]; exists [((- 1/1) * x 2%nat + (1/1))%R; ((1/1) * x 0%nat)%R; ((- 1/1) * x 0%nat + (1/1) * x 1%nat + (1/1) * x 2%nat + (- 1/1))%R; ((- 1/1) * x 1%nat + (1/1))%R]; weights. }
  destruct (Rle_dec 0 ((1/1) * x 0%nat + (- 1/1) * x 1%nat + (1/1) * x 2%nat + (- 1/1))) as [L3|L3].
  { exists [1; 5; 7; 4]%nat; split; [cbn; tauto|]; exists [((- 1/1) * x 2%nat + (1/1))%R; ((1/1) * x 0%nat + (- 1/1) * x 1%nat + (1/1) * x 2%nat + (- 1/1))%R; ((1/1) * x 1%nat)%R; ((- 1/1) * x 0%nat + (1/1))%R]; weights. }
  exists [2; 1; 7; 4]%nat; split; [cbn; tauto|]; exists [((- 1/2) * x 0%nat + (1/2) * x 1%nat + (- 1/2) * x 2%nat + (1/2))%R; ((1/2) * x 0%nat + (- 1/2) * x 1%nat + (- 1/2) * x 2%nat + (1/2))%R; ((1/2) * x 0%nat + (1/2) * x 1%nat + (1/2) * x 2%nat + (- 1/2))%R; ((- 1/2) * x 0%nat + (- 1/2) * x 1%nat + (1/2) * x 2%nat + (1/2))%R]; weights.
Qed.
Lemma cut3_3 : cut 3 (Nat.iter 3 turn solid).
Proof.
  split; [vertices|]. split; [volume|]. intros x H. pose proof (H 0%nat ltac:(lia)) as H0. pose proof (H 1%nat ltac:(lia)) as H1. pose proof (H 2%nat ltac:(lia)) as H2.
  destruct (Rle_dec 0 ((1/1) * x 0%nat + (- 1/1) * x 1%nat + (- 1/1) * x 2%nat)) as [L0|L0].
  { exists [1; 3; 0; 5]%nat; split; [cbn; tauto|]; exists [((1/1) * x 0%nat + (- 1/1) * x 1%nat + (- 1/1) * x 2%nat)%R; ((1/1) * x 1%nat)%R; ((- 1/1) * x 0%nat + (1/1))%R; ((1/1) * x 2%nat)%R]; weights. }
  destruct (Rle_dec 0 ((- 1/1) * x 0%nat + (1/1) * x 1%nat + (- 1/1) * x 2%nat)) as [L1|L1].
  { exists [3; 2; 0; 6]%nat; split; [cbn; tauto|]; exists [((1/1) * x 0%nat)%R; ((- 1/1) * x 0%nat + (1/1) * x 1%nat + (- 1/1) * x 2%nat)%R; ((- 1/1) * x 1%nat + (1/1))%R; ((1/1) * x 2%nat)%R]; weights. }
  destruct (Rle_dec 0 ((1/1) * x 0%nat + (1/1) * x 1%nat + (1/1) * x 2%nat + (- 2/1))) as [L2|L2].
  { exists [3; 5; 7; 6]%nat; split; [cbn; tauto|]; exists [((- 1/1) * x 2%nat + (1/1))%R; ((- 1/1) * x 1%nat + (1/1))%R; ((1/1) * x 0%nat + (1/1) * x 1%nat + (1/1) * x 2%nat + (- 2/1))%R; ((- 1/1) * x 0%nat + (1/1))%R]; weights. }
  destruct (Rle_dec 0 ((- 1/1) * x 0%nat + (- 1/1) * x 1%nat + (1/1) * x 2%nat)) as [L3|L3].
  { exists [0; 4; 5; 6]%nat; split; [cbn; tauto|]; exists [((- 1/1) * x 2%nat + (1/1))%R; ((- 1/1) * x 0%nat + (- 1/1) * x 1%nat + (1/1) * x 2%nat)%R; ((1/1) * x 0%nat)%R; ((1/1) * x 1%nat)%R]; weights. }
  exists [3; 0; 5; 6]%nat; split; [cbn; tauto|]; exists [((1/2) * x 0%nat + (1/2) * x 1%nat + (- 1/2) * x 2%nat)%R; ((- 1/2) * x 0%nat + (- 1/2) * x 1%nat + (- 1/2) * x 2%nat + (1/1))%R; ((1/2) * x 0%nat + (- 1/2) * x 1%nat + (1/2) * x 2%nat)%R; ((- 1/2) * x 0%nat + (1/2) * x 1%nat + (1/2) * x 2%nat)%R]; weights.
Qed.
Local Close Scope R_scope.

(** * Four turns are none *)
Lemma iter_four : forall T k, Nat.iter 4 turn T = T -> Nat.iter k turn T = Nat.iter (k mod 4) turn T.
Proof.
  intros T k H. replace (Nat.iter k turn T) with (Nat.iter (k mod 4 + 4 * (k / 4)) turn T)
    by (f_equal; pose proof (Nat.div_mod k 4 ltac:(lia)); lia).
  rewrite <- iter_add. f_equal.
  generalize (k / 4). intros q. induction q as [|q IH]; [reflexivity|].
  replace (4 * S q) with (4 * q + 4) by lia. rewrite <- iter_add, H. exact IH.
Qed.
Lemma turn_small : forall T, Nat.iter 4 turn T = T -> forall k, exists q, q < 4 /\ Nat.odd q = Nat.odd k /\ Nat.iter k turn T = Nat.iter q turn T.
Proof.
  intros T H k. exists (k mod 4). split; [apply Nat.mod_upper_bound; lia|]. split; [|now apply iter_four].
  pose proof (Nat.div_mod k 4 ltac:(lia)) as D. rewrite D at 2. rewrite Nat.add_comm.
  replace (4 * (k / 4)) with (2 * (2 * (k / 4))) by lia. now rewrite Nat.odd_add_mul_2.
Qed.
Lemma flat_four : Nat.iter 4 turn flat = flat. Proof. reflexivity. Qed.
Lemma solid_four : Nat.iter 4 turn solid = solid. Proof. reflexivity. Qed.
Lemma cut_flat : forall k, cut 2 (Nat.iter k turn flat).
Proof.
  intros k. destruct (turn_small flat flat_four k) as (q & Q & _ & ->).
  destruct q as [|[|[|[|]]]]; [apply cut2_0|apply cut2_1|apply cut2_2|apply cut2_3|lia].
Qed.
Lemma cut_solid : forall k, cut 3 (Nat.iter k turn solid).
Proof.
  intros k. destruct (turn_small solid solid_four k) as (q & Q & _ & ->).
  destruct q as [|[|[|[|]]]]; [apply cut3_0|apply cut3_1|apply cut3_2|apply cut3_3|lia].
Qed.

(** * Facets in a plane between two cells *)
Definition fits (up : bool) (dim i : nat) (ss ss' : list (list nat)) : bool :=
  forallb (fun s =>
    let fs := filter (fun j => Bool.eqb (Nat.testbit j i) up) s in
    if dim <=? length fs
    then existsb (fun s' => forallb (fun j => existsb (Nat.eqb (if up then j - 2 ^ i else j + 2 ^ i)) s') fs) ss'
    else true) ss.
Lemma fits_use : forall up dim i ss ss' s, fits up dim i ss ss' = true -> In s ss ->
  dim <= length (filter (fun j => Bool.eqb (Nat.testbit j i) up) s) ->
  exists s', In s' ss' /\ forall j, In j s -> Nat.testbit j i = up -> In (if up then j - 2 ^ i else j + 2 ^ i) s'.
Proof.
  intros up dim i ss ss' s F S L. unfold fits in F. rewrite forallb_forall in F. specialize (F s S). cbv zeta in F.
  destruct (Nat.leb_spec dim (length (filter (fun j => Bool.eqb (Nat.testbit j i) up) s))) as [_|]; [|lia].
  apply existsb_exists in F. destruct F as (s' & S' & F). exists s'. split; [exact S'|]. intros j J T.
  rewrite forallb_forall in F. specialize (F j). rewrite filter_In in F.
  assert (E : existsb (Nat.eqb (if up then j - 2 ^ i else j + 2 ^ i)) s' = true) by (apply F; split; [exact J|now rewrite T, Bool.eqb_reflx]).
  apply existsb_exists in E. destruct E as (v & V & E). apply Nat.eqb_eq in E. now rewrite E.
Qed.

Lemma corner_nth : forall l j q, nth_error (corner l j) q = option_map (fun k => k + Nat.b2n (Nat.testbit j q)) (nth_error l q).
Proof.
  intros l j q. rewrite corner_cornerFrom. 
  assert (X : forall l i q, nth_error (cornerFrom i l j) q = option_map (fun k => k + Nat.b2n (Nat.testbit j (i + q))) (nth_error l q)).
  { induction l0 as [|k l0 IH]; intros i [|p]; cbn [cornerFrom nth_error option_map]; try reflexivity.
    - now rewrite Nat.add_0_r.
    - rewrite IH. now rewrite Nat.add_succ_comm. }
  apply X.
Qed.
Lemma corner_length : forall l j, length (corner l j) = length l.
Proof. intros. rewrite corner_cornerFrom. apply cornerFrom_length. Qed.
Lemma bits : forall j i q, j < 8 -> i < 3 -> q < 3 -> Nat.testbit j i = true -> Nat.testbit (j - 2 ^ i) q = if q =? i then false else Nat.testbit j q.
Proof.
  intros j i q J I Q. destruct i as [|[|[|i]]]; try lia; destruct q as [|[|[|q]]]; try lia;
    do 8 (destruct j as [|j]; [vm_compute; congruence|]); lia.
Qed.
Lemma bits_up : forall j i, j < 8 -> i < 3 -> Nat.testbit j i = false -> Nat.testbit (j + 2 ^ i) i = true.
Proof. intros j i J I. destruct i as [|[|[|i]]]; try lia; do 8 (destruct j as [|j]; [vm_compute; congruence|]); lia. Qed.
Lemma bits_up_bound : forall dim j i, dim = 2 \/ dim = 3 -> j < 2 ^ dim -> i < dim -> Nat.testbit j i = false -> j + 2 ^ i < 2 ^ dim.
Proof.
  intros dim j i D J I. destruct D as [-> | ->]; cbn in J; destruct i as [|[|[|i]]]; try lia;
    do 8 (destruct j as [|j]; [cbn; intros; first [discriminate|lia]|]); lia.
Qed.
Lemma NoDup_map_in : forall {A B} (h : A -> B) f, NoDup f -> (forall a b, In a f -> In b f -> h a = h b -> a = b) -> NoDup (map h f).
Proof.
  intros A B h f N. induction N as [|a f I N IH]; intros H; cbn [map]; constructor.
  - rewrite in_map_iff. intros (b & E & Ib). apply I. rewrite (H a b); [exact Ib|now left|now right|now symmetry].
  - apply IH. intros x y X Y. apply H; now right.
Qed.

Section Match.
  Variable dim i : nat.
  Hypothesis D : dim = 2 \/ dim = 3.
  Hypothesis I : i < dim.
  Variable l l' : list nat.
  Variable ss ss' : list (list nat).
  Hypothesis L : length l = dim.
  Hypothesis L' : length l' = dim.
  Hypothesis B : bounded (2 ^ dim) ss.
  Hypothesis B' : bounded (2 ^ dim) ss'.
  Hypothesis F1 : fits true dim i ss ss' = true.
  Hypothesis F2 : fits false dim i ss' ss = true.
  Variable h : list nat -> list nat.
  Definition plane (g : list nat) : Prop := nth_error g i = option_map S (nth_error l i).
  Hypothesis Hh : forall j, j < 2 ^ dim -> Nat.testbit j i = true -> h (corner l j) = corner l' (j - 2 ^ i).
  Hypothesis Hplane : forall g, plane g -> nth_error (h g) i = nth_error l' i.
  Hypothesis Hinj : forall g g', plane g -> plane g' -> h g = h g' -> g = g'.

  Lemma plane_bit : forall j, plane (corner l j) -> Nat.testbit j i = true.
  Proof.
    intros j P. unfold plane in P. rewrite corner_nth in P. destruct (nth_error l i) as [k|] eqn:E.
    - cbn in P. injection P as P. destruct (Nat.testbit j i); [reflexivity|cbn in P; lia].
    - apply nth_error_None in E. lia.
  Qed.
  Lemma bit_plane : forall j, Nat.testbit j i = true -> plane (corner l j).
  Proof.
    intros j T. unfold plane. rewrite corner_nth. destruct (nth_error l i) as [k|]; [|reflexivity]. cbn [option_map].
    rewrite T. cbn [Nat.b2n]. f_equal. lia.
  Qed.
  Lemma facet_match : forall f, Forall plane f -> (facet dim l ss f <-> facet dim l' ss' (map h f)).
  Proof.
    intros f P. rewrite Forall_forall in P. unfold facet. split.
    - intros (Lf & N & s & S & Inc). rewrite map_length. split; [exact Lf|].
      split; [apply NoDup_map_in; [exact N|]; intros a b A Bb; apply Hinj; now apply P|].
      assert (Inc' : incl f (map (corner l) (filter (fun j => Bool.eqb (Nat.testbit j i) true) s))).
      { intros g Gi. pose proof (Inc g Gi) as X. apply in_map_iff in X. destruct X as (j & <- & J). apply in_map.
        apply filter_In. split; [exact J|]. now rewrite (plane_bit j (P _ Gi)). }
      pose proof (NoDup_incl_length N Inc') as Le. rewrite map_length, Lf in Le.
      destruct (fits_use true dim i ss ss' s F1 S Le) as (s' & S' & U). exists s'. split; [exact S'|].
      intros g' G'. apply in_map_iff in G'. destruct G' as (g & <- & Gi). pose proof (Inc g Gi) as X. apply in_map_iff in X.
      destruct X as (j & <- & J). pose proof (plane_bit j (P _ Gi)) as T. 
      unfold bounded in B. rewrite Forall_forall in B. pose proof (B s S) as Bs. rewrite Forall_forall in Bs. specialize (Bs j J).
      rewrite Hh by assumption. apply in_map. now apply (U j J T).
    - intros (Lf & N & s' & S' & Inc). rewrite map_length in Lf. split; [exact Lf|]. split; [now apply NoDup_map_inv in N|].
      assert (Low : forall g j, In g f -> h g = corner l' j -> Nat.testbit j i = false).
      { intros g j Gi E. pose proof (Hplane g (P g Gi)) as Q. rewrite E, corner_nth in Q. destruct (nth_error l' i) as [k|] eqn:E'.
        - cbn in Q. injection Q as Q. destruct (Nat.testbit j i); [cbn in Q; lia|reflexivity].
        - apply nth_error_None in E'. lia. }
      assert (Inc' : incl (map h f) (map (corner l') (filter (fun j => Bool.eqb (Nat.testbit j i) false) s'))).
      { intros g' G'. pose proof (Inc g' G') as X. apply in_map_iff in X. destruct X as (j & E & J). rewrite <- E. apply in_map.
        apply filter_In. split; [exact J|]. apply in_map_iff in G'. destruct G' as (g & Eg & Gi). rewrite (Low g j Gi) by congruence. reflexivity. }
      pose proof (NoDup_incl_length N Inc') as Le. rewrite !map_length, Lf in Le.
      destruct (fits_use false dim i ss' ss s' F2 S' Le) as (s & S & U). exists s. split; [exact S|].
      intros g Gi. pose proof (Inc (h g) (in_map h f g Gi)) as X. apply in_map_iff in X. destruct X as (j & E & J).
      pose proof (Low g j Gi (eq_sym E)) as T. specialize (U j J T). cbv iota in U.
      unfold bounded in B'. rewrite Forall_forall in B'. pose proof (B' s' S') as Bs. rewrite Forall_forall in Bs. specialize (Bs j J).
      assert (J8 : j < 8) by (destruct D as [-> | ->]; cbn in Bs; lia). assert (I3 : i < 3) by lia.
      pose proof (bits_up j i J8 I3 T) as T'. pose proof (bits_up_bound dim j i D Bs I T) as Bu.
      assert (Eg : g = corner l (j + 2 ^ i)).
      { apply Hinj; [now apply P|now apply bit_plane|]. rewrite Hh by assumption. now replace (j + 2 ^ i - 2 ^ i) with j by lia. }
      rewrite Eg. now apply in_map.
  Qed.
End Match.

(** * Neighbouring and opposite cells *)
Lemma between : forall dim i l l' ss ss' f, dim = 2 \/ dim = 3 -> i < dim -> length l = dim ->
  bounded (2 ^ dim) ss -> bounded (2 ^ dim) ss' -> fits true dim i ss ss' = true -> fits false dim i ss' ss = true ->
  next_cell i l l' -> Forall (fun g => nth_error g i = nth_error l' i) f ->
  (facet dim l ss f <-> facet dim l' ss' f).
Proof.
  intros dim i l l' ss ss' f D I L B B' F1 F2 (Ln & N) P.
  assert (Ni : nth_error l' i = option_map S (nth_error l i)).
  { destruct (nth_error l i) as [k|] eqn:E; [|apply nth_error_None in E; lia]. rewrite (N i k E). now rewrite Nat.eqb_refl. }
  replace (facet dim l' ss' f) with (facet dim l' ss' (map (fun g => g) f)) by now rewrite map_id.
  apply (facet_match dim i D I l l' ss ss' L ltac:(lia) B B' F1 F2 (fun g => g)).
  - intros j J T. apply nth_error_ext_le; [now rewrite !corner_length|]. intros q Q. rewrite corner_length in Q.
    rewrite !corner_nth. destruct (nth_error l q) as [k|] eqn:E; [|apply nth_error_None in E; lia]. rewrite (N q k E). cbn [option_map].
    rewrite bits by (try assumption; destruct D as [-> | ->]; cbn in J; lia).
    destruct (Nat.eqb_spec q i) as [->|Hq]; [rewrite T; cbn [Nat.b2n]; f_equal; lia|reflexivity].
  - intros g Hg. unfold plane in Hg. congruence.
  - auto.
  - eapply Forall_impl; [|exact P]. intros g Hg. unfold plane. cbv beta in Hg. congruence.
Qed.
Lemma across_from : forall i g p, map (fun p => if fst p =? i then 0 else snd p) (combine (seq p (length g)) g) =
  map (fun q => if p + q =? i then 0 else nth q g 0) (seq 0 (length g)).
Proof.
  intros i g. induction g as [|k g IH]; intros p; cbn [length seq combine map]; [reflexivity|].
  rewrite IH. cbn [fst snd]. rewrite Nat.add_0_r. f_equal. rewrite <- seq_shift, map_map. apply map_ext. intros q.
  rewrite Nat.add_succ_comm. reflexivity.
Qed.
Lemma across_nth : forall i g q, nth_error (across i g) q = option_map (fun k => if q =? i then 0 else k) (nth_error g q).
Proof.
  intros i g q. unfold across. rewrite across_from. destruct (nth_error g q) as [k|] eqn:E; cbn [option_map].
  - assert (Q : q < length g) by (apply nth_error_Some; congruence).
    rewrite nth_error_map_seq by exact Q. cbn [Nat.add]. now rewrite (nth_error_nth g q 0 E).
  - apply nth_error_None. rewrite map_length, seq_length. now apply nth_error_None.
Qed.
Lemma across_length : forall i g, length (across i g) = length g.
Proof. intros. unfold across. rewrite across_from. now rewrite map_length, seq_length. Qed.
Lemma opposite_facets : forall ds dim i l l' ss ss' f, dim = 2 \/ dim = 3 -> i < dim -> length l = dim ->
  bounded (2 ^ dim) ss -> bounded (2 ^ dim) ss' -> fits true dim i ss ss' = true -> fits false dim i ss' ss = true ->
  opposite ds i l l' -> Forall (fun g => nth_error g i = option_map S (nth_error l i)) f ->
  (facet dim l ss f <-> facet dim l' ss' (map (across i) f)).
Proof.
  intros ds dim i l l' ss ss' f D I L B B' F1 F2 (Ln & N0 & (d & _ & _ & Nl) & N) P.
  apply (facet_match dim i D I l l' ss ss' L ltac:(lia) B B' F1 F2 (across i)).
  - intros j J T. apply nth_error_ext_le; [now rewrite across_length, !corner_length|]. intros q Q. rewrite across_length, corner_length in Q.
    rewrite across_nth, !corner_nth. rewrite bits by (try assumption; destruct D as [-> | ->]; cbn in J; lia).
    destruct (Nat.eqb_spec q i) as [->|Hq].
    + rewrite Nl, N0. reflexivity.
    + rewrite (N q Hq). destruct (nth_error l q); reflexivity.
  - intros g Hg. unfold plane in Hg. rewrite across_nth, Hg, Nl, N0, Nat.eqb_refl. reflexivity.
  - intros g g' Hg Hg' E. unfold plane in Hg, Hg'. apply nth_error_ext_le.
    + rewrite <- (across_length i g), <- (across_length i g'). now rewrite E.
    + intros q _. destruct (Nat.eq_dec q i) as [->|Hq]; [congruence|].
      pose proof (f_equal (fun v => nth_error v q) E) as X. cbv beta in X. rewrite !across_nth in X.
      rewrite (proj2 (Nat.eqb_neq q i) Hq) in X. destruct (nth_error g q), (nth_error g' q); cbn in X; congruence.
  - exact P.
Qed.

(** the tables fit: in the plane always, in space when one of them has been turned once more *)
Lemma flat_fits : forall up i k k', i < 2 -> fits up 2 i (Nat.iter k turn flat) (Nat.iter k' turn flat) = true.
Proof.
  intros up i k k' I. destruct (turn_small flat flat_four k) as (q & Q & _ & ->). destruct (turn_small flat flat_four k') as (q' & Q' & _ & ->).
  destruct up, i as [|[|i]], q as [|[|[|[|q]]]], q' as [|[|[|[|q']]]]; try lia; reflexivity.
Qed.
Lemma solid_fits : forall up i k k', i < 3 -> Nat.odd k <> Nat.odd k' -> fits up 3 i (Nat.iter k turn solid) (Nat.iter k' turn solid) = true.
Proof.
  intros up i k k' I. destruct (turn_small solid solid_four k) as (q & Q & <- & ->). destruct (turn_small solid solid_four k') as (q' & Q' & <- & ->).
  destruct up, i as [|[|[|i]]], q as [|[|[|[|q]]]], q' as [|[|[|[|q']]]]; try lia; cbn [Nat.odd Nat.even negb]; intros O; try (exfalso; apply O; reflexivity); reflexivity.
Qed.
