From Coq Require Import List Arith Bool Lia Reals Lra Permutation.
From Verif Require Import Loop_model Loop_proofs RefGeometry_model Curvilinear_model VTKElements_model VTKElements_spec.
Import ListNotations.
Local Open Scope nat_scope.

(** * Assignments to different entries *)
Lemma assign_ok {A} (ws : list (nat * A)) : forall array,
  NoDup (map fst ws) -> (forall w, In w ws -> fst w < length array) ->
  exists r, assign array ws = Some r /\ length r = length array /\
    (forall i v, In (i, v) ws -> nth_error r i = Some v) /\
    (forall i, ~ In i (map fst ws) -> nth_error r i = nth_error array i).
Proof.
  induction ws as [|(i, v) ws IH]; intros array N H.
  - exists array. repeat split; auto. intros i v [].
  - cbn in N. inversion N as [|? ? Ni N']; subst.
    destruct (write_ok array i v) as (a' & E & L & G). { exact (H _ (or_introl eq_refl)). }
    destruct (IH a' N') as (r & Er & Lr & Gr & Or). { intros w Hw. rewrite L. apply H. right. exact Hw. }
    exists r. unfold assign in *. cbn [fold_left fst snd]. rewrite E. split; [exact Er|]. split; [lia|].
    split.
    + intros i' v' [Ew|Hw].
      * injection Ew as <- <-. rewrite Or by exact Ni. rewrite G, Nat.eqb_refl. reflexivity.
      * apply Gr, Hw.
    + intros i' Hi. rewrite Or by (intros Hi'; apply Hi; right; exact Hi').
      rewrite G. destruct (i' =? i) eqn:Ei; [|reflexivity].
      apply Nat.eqb_eq in Ei. exfalso. apply Hi. left. cbn. congruence.
Qed.

(** a list of as many assignments as there are entries, which reaches all entries *)
Lemma assign_all {A} (ws : list (nat * A)) (d : A) (N : nat) :
  length ws = N -> (forall i, i < N -> In i (map fst ws)) ->
  exists r, assign (repeat d N) ws = Some r /\ length r = N /\ forall i v, In (i, v) ws -> nth_error r i = Some v.
Proof.
  intros L C.
  assert (I : incl (seq 0 N) (map fst ws)). { intros i Hi. apply in_seq in Hi. apply C. lia. }
  assert (Nd : NoDup (map fst ws)).
  { apply (NoDup_incl_NoDup (seq_NoDup N 0)); [|exact I]. rewrite map_length, seq_length. lia. }
  destruct (assign_ok ws (repeat d N) Nd) as (r & E & Lr & G & _).
  - intros w Hw. rewrite repeat_length.
    assert (I' : incl (map fst ws) (seq 0 N)).
    { apply NoDup_length_incl; [apply seq_NoDup| |exact I]. rewrite map_length, seq_length. lia. }
    specialize (I' (fst w) (in_map fst _ _ Hw)). apply in_seq in I'. lia.
  - exists r. rewrite repeat_length in Lr. auto.
Qed.

Lemma numbered_length {A} k (l : list A) : length (numbered k l) = length l.
Proof. unfold numbered. rewrite combine_length, seq_length. lia. Qed.
Lemma numbered_fst {A} k (l : list A) : map fst (numbered k l) = seq k (length l).
Proof.
  unfold numbered. revert k. induction l as [|x l IH]; intros k; [reflexivity|]. cbn. f_equal. apply IH.
Qed.
Lemma numbered_in {A} k (l : list A) n x : nth_error l n = Some x -> In (k + n, x) (numbered k l).
Proof.
  unfold numbered. revert k n. induction l as [|y l IH]; intros k n H; [destruct n; discriminate|].
  destruct n as [|n]; cbn in H |- *.
  - injection H as ->. left. f_equal. lia.
  - right. specialize (IH (S k) n H). replace (k + S n) with (S k + n) by lia. exact IH.
Qed.
Lemma numbered_in_inv {A} k (l : list A) i x : In (i, x) (numbered k l) -> exists n, i = k + n /\ nth_error l n = Some x.
Proof.
  unfold numbered. revert k. induction l as [|y l IH]; intros k H; [destruct H|].
  cbn in H. destruct H as [H|H].
  - injection H as <- <-. exists 0. split; [lia|reflexivity].
  - destruct (IH _ H) as (n & -> & E). exists (S n). split; [lia|exact E].
Qed.

Lemma flat_map_same_length {A B} (f : A -> list B) n l : (forall x, In x l -> length (f x) = n) -> length (flat_map f l) = length l * n.
Proof.
  intros H. induction l as [|x l IH]; [reflexivity|]. cbn. rewrite app_length, IH, H; auto using in_eq.
  intros y Hy. apply H. right. exact Hy.
Qed.
Lemma nth_error_flat_map {A B} (f : A -> list B) n : forall l i j x y,
  (forall x, In x l -> length (f x) = n) -> nth_error l i = Some x -> nth_error (f x) j = Some y ->
  nth_error (flat_map f l) (n * i + j) = Some y.
Proof.
  induction l as [|a l IH]; intros i j x y H Hx Hy; [destruct i; discriminate|].
  cbn. destruct i as [|i]; cbn in Hx.
  - injection Hx as ->. rewrite Nat.mul_0_r. cbn. rewrite nth_error_app1; [exact Hy|]. apply nth_error_Some. congruence.
  - rewrite nth_error_app2 by (rewrite (H a) by (left; reflexivity); nia).
    rewrite (H a) by (left; reflexivity). replace (n * S i + j - n) with (n * i + j) by nia.
    apply (IH i j x y); auto. intros z Hz. apply H. right. exact Hz.
Qed.
Lemma nth_error_seq k n i : i < n -> nth_error (seq k n) i = Some (k + i).
Proof. intros H. rewrite (nth_error_nth' _ 0) by (rewrite seq_length; exact H). rewrite seq_nth by exact H. reflexivity. Qed.

(** * Lattices *)
Lemma lattice_0 n : lattice n 0 = (-1)%R.
Proof. unfold lattice, Rdiv. cbn [INR]. ring. Qed.
Lemma lattice_n n : 1 <= n -> lattice n n = 1%R.
Proof. intros H. unfold lattice. assert (INR n <> 0%R) by (apply not_0_INR; lia). field_simplify; [lra|assumption]. Qed.
Lemma lattice_i n i : lattice n i = (-1 + INR i * (2 / INR n))%R.
Proof. unfold lattice, Rdiv. ring. Qed.

Lemma boundary_cases n i : 1 <= n -> i <= n ->
  (i = 0 /\ on_boundary n i = true /\ yes i = false) \/ (i = n /\ on_boundary n i = true /\ yes i = true) \/
  (exists j, i = j + 1 /\ j < n - 1 /\ on_boundary n i = false /\ yes i = true).
Proof.
  intros Hn H. unfold on_boundary, yes. destruct (Nat.eqb_spec i 0); [left; auto|].
  destruct (Nat.eqb_spec i n); [right; left; auto|].
  right. right. exists (i - 1). repeat split; lia.
Qed.

(** ** Curves *)
Lemma curve_ok n : 1 <= n -> exists pts, curve n = Some pts /\ length pts = n + 1 /\
  forall i, i <= n -> nth_error pts (vtk_curve_index n i) = Some [lattice n i].
Proof.
  intros Hn. unfold curve.
  set (ws := [set 0 _; set 1 _] ++ _).
  destruct (assign_all ws unset (1 + n)) as (r & E & L & G).
  - unfold ws. rewrite app_length, map_length, seq_length. cbn. lia.
  - intros i Hi. unfold ws. rewrite map_app, map_map. cbn.
    destruct i as [|[|i]]; auto. right. right. apply in_map_iff. exists (S i). split; [lia|]. apply in_seq. lia.
  - exists r. split; [exact E|]. split; [lia|]. intros i Hi. apply G. unfold ws, vtk_curve_index.
    destruct (Nat.eqb_spec i 0) as [->|H0]; [left; unfold set; rewrite lattice_0; reflexivity|].
    destruct (Nat.eqb_spec i n) as [->|H1]; [right; left; unfold set; rewrite lattice_n by lia; reflexivity|].
    right. right. apply in_map_iff. exists i. split; [|apply in_seq; lia]. unfold set. rewrite lattice_i. reflexivity.
Qed.

(** ** Quadrilaterals *)
Lemma quadrilateral_inner_length n : length (quadrilateral_inner n) = (n - 1) * (n - 1).
Proof.
  unfold quadrilateral_inner. rewrite (flat_map_same_length _ (n - 1)).
  - rewrite seq_length. reflexivity.
  - intros x _. rewrite map_length, seq_length. reflexivity.
Qed.
Lemma quadrilateral_inner_nth n i j : i < n - 1 -> j < n - 1 ->
  nth_error (quadrilateral_inner n) ((n - 1) * j + i) = Some [lattice n (i + 1); lattice n (j + 1)].
Proof.
  intros Hi Hj. unfold quadrilateral_inner. eapply nth_error_flat_map.
  - intros x _. rewrite map_length, seq_length. reflexivity.
  - apply nth_error_seq, Hj.
  - cbv beta zeta. rewrite nth_error_map, (nth_error_seq 0 (n - 1) i Hi). cbn [option_map Nat.add].
    rewrite !lattice_i. reflexivity.
Qed.

Lemma split_block o m k i : o <= i < o + k * m -> exists e j, e < k /\ j < m /\ i = o + e * m + j.
Proof.
  intros H. assert (Hm : m <> 0) by (intros ->; lia).
  exists ((i - o) / m), ((i - o) mod m).
  pose proof (Nat.div_mod (i - o) m Hm). pose proof (Nat.mod_upper_bound (i - o) m Hm).
  split; [apply Nat.div_lt_upper_bound; lia|]. split; [assumption|]. lia.
Qed.

Lemma quadrilateral_ok n : 1 <= n -> exists pts, quadrilateral n = Some pts /\ length pts = (n + 1) * (n + 1) /\
  forall i j, i <= n -> j <= n -> nth_error pts (vtk_quadrilateral_index n i j) = Some [lattice n i; lattice n j].
Proof.
  intros Hn. unfold quadrilateral. rewrite quadrilateral_inner_length.
  set (ws := quadrilateral_writes n ++ _).
  assert (Size : 4 * n + (n - 1) * (n - 1) = (n + 1) * (n + 1)).
  { destruct n as [|n]; [lia|]. replace (S n - 1) with n by lia. nia. }
  destruct (assign_all ws unset ((n + 1) * (n + 1))) as (r & E & L & G).
  - unfold ws, quadrilateral_writes. rewrite !app_length, numbered_length, quadrilateral_inner_length.
    rewrite (flat_map_same_length _ 4) by reflexivity. rewrite seq_length. cbn [length]. lia.
  - intros i Hi. unfold ws, quadrilateral_writes. rewrite !map_app. rewrite numbered_fst, quadrilateral_inner_length.
    destruct (Nat.lt_ge_cases i (4 * n)) as [Hi4|Hi4]; [|apply in_or_app; right; apply in_seq; lia].
    apply in_or_app. left. apply in_or_app.
    destruct (Nat.lt_ge_cases i 4) as [Hc|Hc].
    + left. cbn. destruct i as [|[|[|[|i]]]]; auto. lia.
    + right. destruct (split_block 4 (n - 1) 4 i) as (e & j & He & Hj & ->); [lia|].
      rewrite flat_map_concat_map, concat_map, map_map. rewrite <- flat_map_concat_map. apply in_flat_map.
      exists j. split; [apply in_seq; lia|]. cbn [map fst set In].
      destruct e as [|[|[|[|e]]]]; [left|right; left|right; right; left|right; right; right; left|lia]; unfold set; cbn [fst]; lia.
  - exists r. rewrite E, L. destruct (Nat.eqb_spec (4 * n + (n - 1) * (n - 1)) ((n + 1) * (n + 1))); [|lia].
    split; [reflexivity|]. split; [reflexivity|]. intros i j Hi Hj. apply G.
    unfold ws, vtk_quadrilateral_index, quadrilateral_writes.
    destruct (boundary_cases n i Hn Hi) as [(Ei & Bi & Yi)|[(Ei & Bi & Yi)|(i' & Ei & Hi' & Bi & Yi)]];
    destruct (boundary_cases n j Hn Hj) as [(Ej & Bj & Yj)|[(Ej & Bj & Yj)|(j' & Ej & Hj' & Bj & Yj)]];
    rewrite Bi, Bj, ?Yi, ?Yj, Ei, Ej, ?lattice_0, ?(lattice_n n Hn).
    1, 2, 4, 5: apply in_or_app; left; apply in_or_app; left; cbn; unfold set; auto 6.
    5: { apply in_or_app. right.
         replace (4 + 2 * (n - 1 + (n - 1)) + (i' + 1 - 1) + (n - 1) * (j' + 1 - 1)) with (4 * n + ((n - 1) * j' + i'))
           by (replace (j' + 1 - 1) with j' by lia; lia).
         apply numbered_in, quadrilateral_inner_nth; assumption. }
    all: apply in_or_app; left; apply in_or_app; right; apply in_flat_map; rewrite ?lattice_i.
    + exists j'. split; [apply in_seq; lia|]. right; right; right; left. unfold set. f_equal. lia.
    + exists j'. split; [apply in_seq; lia|]. right; left. unfold set. f_equal. lia.
    + exists i'. split; [apply in_seq; lia|]. left. unfold set. f_equal. lia.
    + exists i'. split; [apply in_seq; lia|]. right; right; left. unfold set. f_equal. lia.
Qed.

(** ** Hexahedra *)
Lemma hexahedron_inner_length n : length (hexahedron_inner n) = (n - 1) * ((n - 1) * (n - 1)).
Proof.
  unfold hexahedron_inner. rewrite (flat_map_same_length _ ((n - 1) * (n - 1))).
  - rewrite seq_length. reflexivity.
  - intros x _. rewrite (flat_map_same_length _ (n - 1)); [rewrite seq_length; reflexivity|].
    intros y _. rewrite map_length, seq_length. reflexivity.
Qed.
Lemma hexahedron_inner_nth n i j k : i < n - 1 -> j < n - 1 -> k < n - 1 ->
  nth_error (hexahedron_inner n) ((n - 1) * (n - 1) * k + ((n - 1) * j + i)) = Some [lattice n (i + 1); lattice n (j + 1); lattice n (k + 1)].
Proof.
  intros Hi Hj Hk. unfold hexahedron_inner. eapply nth_error_flat_map.
  - intros x _. rewrite (flat_map_same_length _ (n - 1)); [rewrite seq_length; reflexivity|].
    intros y _. rewrite map_length, seq_length. reflexivity.
  - apply nth_error_seq, Hk.
  - eapply nth_error_flat_map.
    + intros y _. rewrite map_length, seq_length. reflexivity.
    + apply nth_error_seq, Hj.
    + cbv beta zeta. rewrite nth_error_map, (nth_error_seq 0 (n - 1) i Hi). cbn [option_map Nat.add].
      rewrite !lattice_i. reflexivity.
Qed.
Lemma map_flat_map {A B C} (f : A -> list B) (g : B -> C) l : map g (flat_map f l) = flat_map (fun x => map g (f x)) l.
Proof. induction l as [|x l IH]; [reflexivity|]. cbn. rewrite map_app, IH. reflexivity. Qed.

Lemma hexahedron_edges_length n : length (hexahedron_edges n) = 8 + 12 * (n - 1).
Proof.
  unfold hexahedron_edges. rewrite app_length, (flat_map_same_length _ 12) by reflexivity. rewrite seq_length. cbn [length]. lia.
Qed.
Lemma hexahedron_edges_all n i : i < 8 + 12 * (n - 1) -> In i (map fst (hexahedron_edges n)).
Proof.
  intros Hi. unfold hexahedron_edges. rewrite map_app, map_flat_map. apply in_or_app.
  destruct (Nat.lt_ge_cases i 8) as [Hc|Hc].
  - left. cbn. do 8 (destruct i as [|i]; [auto 12|]). lia.
  - right. destruct (split_block 8 (n - 1) 12 i) as (e & j & He & Hj & ->); [lia|]. apply in_flat_map.
    exists j. split; [apply in_seq; lia|]. cbv zeta. cbn [map fst set In].
    do 12 (destruct e as [|e]; [auto 20|]). lia.
Qed.
Lemma hexahedron_faces_length n : length (hexahedron_faces n) = 6 * ((n - 1) * (n - 1)).
Proof.
  unfold hexahedron_faces. rewrite (flat_map_same_length _ (6 * (n - 1))).
  - rewrite seq_length. lia.
  - intros x _. rewrite (flat_map_same_length _ 6) by reflexivity. rewrite seq_length. lia.
Qed.
Lemma hexahedron_faces_all n i : 8 + 12 * (n - 1) <= i < 8 + 12 * (n - 1) + 6 * ((n - 1) * (n - 1)) -> In i (map fst (hexahedron_faces n)).
Proof.
  intros Hi. unfold hexahedron_faces. rewrite map_flat_map.
  destruct (split_block (8 + 12 * (n - 1)) ((n - 1) * (n - 1)) 6 i) as (e & j & He & Hj & Ei); [lia|].
  destruct (split_block 0 (n - 1) (n - 1) j) as (y & x & Hy & Hx & Ej); [lia|].
  apply in_flat_map. exists y. split; [apply in_seq; lia|]. rewrite map_flat_map. apply in_flat_map.
  exists x. split; [apply in_seq; lia|]. cbv zeta. cbn [map fst set In].
  rewrite Ei, Ej. cbn [Nat.add].
  do 6 (destruct e as [|e]; [repeat (try (left; unfold set; cbn [fst]; lia); right)|]). lia.
Qed.

Ltac search_write :=
  cbv zeta; cbn [In]; first [left; unfold set; apply f_equal2; [lia|reflexivity] | right; search_write].

Ltac face_write a b :=
  unfold hexahedron_faces; apply in_flat_map; exists b; (split; [apply in_seq; lia|]);
  apply in_flat_map; exists a; (split; [apply in_seq; lia|]); search_write.

Lemma hexahedron_ok n : 1 <= n -> exists pts, hexahedron n = Some pts /\ length pts = (n + 1) * (n + 1) * (n + 1) /\
  forall i j k, i <= n -> j <= n -> k <= n ->
    nth_error pts (vtk_hexahedron_index n i j k) = Some [lattice n i; lattice n j; lattice n k].
Proof.
  intros Hn. unfold hexahedron. rewrite hexahedron_inner_length.
  set (ws := hexahedron_edges n ++ _).
  assert (Size : 8 + 12 * (n - 1) + 6 * ((n - 1) * (n - 1)) + (n - 1) * ((n - 1) * (n - 1)) = (n + 1) * (n + 1) * (n + 1)).
  { destruct n as [|n]; [lia|]. replace (S n - 1) with n by lia. nia. }
  destruct (assign_all ws unset ((n + 1) * (n + 1) * (n + 1))) as (r & E & L & G).
  - unfold ws. rewrite !app_length, numbered_length, hexahedron_inner_length, hexahedron_edges_length, hexahedron_faces_length. lia.
  - intros i Hi. unfold ws. rewrite !map_app. rewrite numbered_fst, hexahedron_inner_length.
    destruct (Nat.lt_ge_cases i (8 + 12 * (n - 1))) as [H1|H1]; [apply in_or_app; left; apply hexahedron_edges_all, H1|].
    apply in_or_app; right; apply in_or_app.
    destruct (Nat.lt_ge_cases i (8 + 12 * (n - 1) + 6 * ((n - 1) * (n - 1)))) as [H2|H2].
    + left. apply hexahedron_faces_all. lia.
    + right. apply in_seq. lia.
  - exists r. rewrite E, L.
    match goal with |- context [if (?a =? ?b) then _ else _] => destruct (Nat.eqb_spec a b); [|lia] end.
    split; [reflexivity|]. split; [reflexivity|]. intros i j k Hi Hj Hk. apply G. clear G E L.
    unfold ws, vtk_hexahedron_index. clear ws.
    destruct (boundary_cases n i Hn Hi) as [(Ei & Bi & Yi)|[(Ei & Bi & Yi)|(i' & Ei & Hi' & Bi & Yi)]];
    destruct (boundary_cases n j Hn Hj) as [(Ej & Bj & Yj)|[(Ej & Bj & Yj)|(j' & Ej & Hj' & Bj & Yj)]];
    destruct (boundary_cases n k Hn Hk) as [(Ek & Bk & Yk)|[(Ek & Bk & Yk)|(k' & Ek & Hk' & Bk & Yk)]];
    rewrite Bi, Bj, Bk, ?Yi, ?Yj, ?Yk, Ei, Ej, Ek, ?lattice_0, ?(lattice_n n Hn); cbv zeta;
    rewrite ?(Nat.add_sub _ 1); clear Bi Bj Bk Yi Yj Yk Ei Ej Ek i j k Hi Hj Hk;
    match goal with
    | H1 : ?i < n - 1, H2 : ?j < n - 1, H3 : ?k < n - 1 |- _ =>
        apply in_or_app; right; apply in_or_app; right
    | H1 : ?j < n - 1, H2 : ?k < n - 1 |- _ =>
        apply in_or_app; right; apply in_or_app; left; rewrite !lattice_i; first [face_write j k | face_write k j]
    | H1 : ?i < n - 1 |- _ => apply in_or_app; left; apply in_or_app; right; apply in_flat_map; exists i; (split; [apply in_seq; lia|]);
        rewrite lattice_i; search_write
    | _ => apply in_or_app; left; apply in_or_app; left; unfold set; cbn; auto 12
    end.
    match goal with |- In (?a, _) _ =>
      replace a with (8 + 12 * (n - 1) + 6 * ((n - 1) * (n - 1)) + ((n - 1) * (n - 1) * k' + ((n - 1) * j' + i'))) by lia end.
    apply numbered_in, hexahedron_inner_nth; assumption.
Qed.
