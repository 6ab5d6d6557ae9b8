(** Proofs about the sizes of the sets of basis functions. *)
From Coq Require Import List Arith Bool Lia.
From Verif Require Import RefGeometry_model RefGeometry_spec RefGeometry_proofs BasisFunctions_model BasisSets_model BasisSets_spec BasisSets_proofs
  BasisSizes_spec.
Import ListNotations.

(** ** sums over loops *)
Definition total (f : nat -> nat) (n : nat) : nat := list_sum (map f (seq 0 n)).
Lemma total_S : forall f n, total f (S n) = total f n + f n.
Proof. intros f n. unfold total. rewrite seq_S, map_app, list_sum_app. cbn. lia. Qed.
Lemma total_first : forall f n, total f (S n) = f 0 + total (fun i => f (S i)) n.
Proof. intros f n. unfold total. cbn. now rewrite <- seq_shift, map_map. Qed.
Lemma total_ext : forall f g n, (forall i, i < n -> f i = g i) -> total f n = total g n.
Proof. intros f g n H. unfold total. f_equal. apply map_ext_in. intros i Hi. apply in_seq in Hi. apply H. lia. Qed.
Lemma total_const : forall c n, total (fun _ => c) n = n * c.
Proof. intros c n. induction n as [|n IH]; [reflexivity|]. rewrite total_S, IH. lia. Qed.
Lemma total_down : forall g n, total (fun i => g (n - i)) n = total (fun i => g (S i)) n.
Proof.
  intros g n. induction n as [|n IH]; [reflexivity|]. rewrite total_first, total_S. rewrite (total_ext _ (fun i => g (n - i))) by auto.
  rewrite IH. rewrite Nat.sub_0_r. lia.
Qed.
Lemma total_id : forall n, 2 * total S n = n * (n + 1).
Proof. induction n as [|n IH]; [reflexivity|]. rewrite total_S. lia. Qed.
Lemma total_total : forall n, 6 * total (fun i => total S (S i)) n = n * (n + 1) * (n + 2).
Proof. induction n as [|n IH]; [reflexivity|]. rewrite total_S. pose proof (total_id (S n)). lia. Qed.
Lemma flat_map_length : forall A B (f : A -> list B) l, length (flat_map f l) = list_sum (map (fun x => length (f x)) l).
Proof. intros A B f l. induction l as [|a l IH]; [reflexivity|]. cbn. rewrite app_length, IH. reflexivity. Qed.
Lemma loop_length : forall k n, length (loop k n) = S n - k.
Proof. intros. apply seq_length. Qed.
Lemma flat_loop : forall B (f : nat -> list B) k n, length (flat_map f (loop k n)) = total (fun x => length (f x)) (S n - k).
Proof. intros. now rewrite flat_map_length. Qed.
Lemma triangle_orders_length : forall n, length (triangle_orders n) = total S (n - 2).
Proof.
  intros n. unfold triangle_orders. rewrite flat_loop. rewrite (total_ext _ (fun i => (n - 2) - i)).
  - replace (S n - 3) with (n - 2) by lia. rewrite (total_down (fun i => i)). reflexivity.
  - intros i Hi. rewrite map_length, loop_length. lia.
Qed.
Lemma square_orders_length : forall n, length (square_orders n) = (n - 1) * (n - 1).
Proof.
  intros n. unfold square_orders. rewrite flat_loop. replace (S n - 2) with (n - 1) by lia.
  rewrite (total_ext _ (fun _ => n - 1)); [now rewrite total_const|]. intros i Hi. rewrite map_length, loop_length. lia.
Qed.

Lemma all_size : forall l r, all l = Some r -> length r = length l.
Proof. intros l r H. apply all_length in H. now rewrite H, map_length. Qed.

(** ** sizes of the parts *)
Definition triangle_size (n : nat) : nat := total S (n - 2).
Definition tetrahedron_size (n : nat) : nat := total (fun i => total S (S i)) (n - 3).
Definition interior_size (s : shape) (n : nat) : nat :=
  match s with
  | Line => n - 1 | Square => (n - 1) * (n - 1) | Cube => (n - 1) * ((n - 1) * (n - 1))
  | Triangle => triangle_size n | Tetrahedron => tetrahedron_size n | TriangularPrism => triangle_size n * (n - 1)
  | _ => 0
  end.
Lemma total_mult : forall f c n, total (fun i => f i * c) n = total f n * c.
Proof. intros f c n. induction n as [|n IH]; [reflexivity|]. rewrite !total_S, IH. lia. Qed.
Lemma interior_length : forall asserts s order sets, default_conforming_sets asserts s order = Some sets ->
  length (interior_set sets) = interior_size s order.
Proof.
  intros asserts s order sets H.
  destruct s; unfold default_conforming_sets in H; try discriminate H; bind_inv; injs; cbn [interior_set interior_size];
    lazymatch goal with |- length ?x = _ => match goal with H : _ = Some x |- _ => rename H into K end end;
    try (unfold_sets K; apply positive_inv, all_size in K; rewrite K, ?flat_loop, ?map_length, ?loop_length).
  - lia.
  - unfold triangle_size. replace (S order - 3) with (order - 2) by lia. rewrite (total_ext _ (fun i => (order - 2) - i)).
    + exact (total_down (fun i => i) _).
    + intros i Hi. rewrite map_length, loop_length. lia.
  - replace (S order - 2) with (order - 1) by lia. rewrite (total_ext _ (fun _ => order - 1)); [now rewrite total_const|].
    intros i Hi. rewrite map_length, loop_length. lia.
  - unfold tetrahedron_size. replace (S order - 4) with (order - 3) by lia.
    rewrite (total_ext _ (fun i => total S ((order - 3) - i))); [exact (total_down (fun k => total S k) _)|].
    intros i Hi. rewrite flat_loop. replace (S order - (i + 4)) with (order - 3 - i) by lia.
    rewrite (total_ext _ (fun j => (order - 3 - i) - j)); [exact (total_down (fun i => i) _)|].
    intros j Hj. rewrite map_length, loop_length. lia.
  - unfold createInteriorBasisFunctionSet3DH1ConformingPyramid in K. destruct (asserts && _); [discriminate|]. injection K as <-. reflexivity.
  - unfold triangle_size. replace (S order - 3) with (order - 2) by lia.
    rewrite (total_ext _ (fun i => ((order - 2) - i) * (order - 1))).
    + rewrite total_mult. f_equal. exact (total_down (fun i => i) _).
    + intros i Hi. rewrite flat_loop. rewrite (total_ext _ (fun _ => order - 1)); [rewrite total_const; lia|].
      intros j Hj. rewrite map_length, loop_length. lia.
  - replace (S order - 2) with (order - 1) by lia. rewrite (total_ext _ (fun _ => (order - 1) * (order - 1))).
    + now rewrite total_const.
    + intros i Hi. rewrite flat_loop. replace (S order - 2) with (order - 1) by lia.
      rewrite (total_ext _ (fun _ => order - 1)); [now rewrite total_const|]. intros j Hj. rewrite map_length, loop_length. lia.
Qed.

Definition face_size (s : shape) (i n : nat) : nat :=
  match getCodim1ReferenceGeometry s i with
  | Some Point => 1 | Some Line => n - 1 | Some Triangle => triangle_size n | Some Square => (n - 1) * (n - 1) | _ => 0
  end.
Lemma face_length : forall asserts s order o i l, face_functions asserts s order o i = Some l -> length l = face_size s i order.
Proof.
  intros asserts s order o i l H. unfold face_functions in H. bind_inv.
  destruct s; unfold default_conforming_sets in *; try discriminate; bind_inv; injs; cbn [face_sets] in *; try discriminate;
  lazymatch goal with H : select _ _ ?x = Some _ |- _ => 
      lazymatch goal with K : _ = Some x |- _ => rename H into S; unfold_sets K; apply positive_inv in K; rename K into A end end;
  apply select_spec in S; destruct S as (t & Hin & <- & <- & <-);
  destruct (in_all_sets _ _ _ A Hin) as (fs & E & F); apply all_size in F; rewrite F; clear F A Hin;
  explicit_sets E; repeat match type of E with _ \/ _ => destruct E as [E|E] end; try contradiction;
  injection E; clear E; intros E1 E2 E3; rewrite <- E1, <- E2; cbn [face_size getCodim1ReferenceGeometry length];
  rewrite ?map_length, ?loop_length, ?triangle_orders_length, ?square_orders_length; cbn; try reflexivity; lia.
Qed.
Lemma edge_length : forall asserts s order o i l, edge_functions asserts s order o i = Some l -> length l = order - 1.
Proof.
  intros asserts s order o i l H. unfold edge_functions in H. bind_inv.
  destruct s; unfold default_conforming_sets in *; try discriminate; bind_inv; injs; cbn [edge_sets] in *; try discriminate;
  lazymatch goal with H : select _ _ ?x = Some _ |- _ => 
      lazymatch goal with K : _ = Some x |- _ => rename H into S; unfold_sets K; apply positive_inv in K; rename K into A end end;
  apply select_spec in S; destruct S as (t & Hin & <- & <- & <-);
  destruct (in_all_sets _ _ _ A Hin) as (fs & E & F); apply all_size in F; rewrite F; clear F A Hin;
  explicit_sets E; repeat match type of E with _ \/ _ => destruct E as [E|E] end; try contradiction;
  injection E; clear E; intros E1 E2 E3; rewrite <- E1; rewrite ?map_length, ?loop_length; lia.
Qed.
Lemma node_length : forall asserts s order i l, node_functions asserts s order i = Some l -> length l = 1.
Proof.
  intros asserts s order i l H. unfold node_functions in H. bind_inv. injs.
  destruct s; unfold default_conforming_sets in *; try discriminate; bind_inv; injs; cbn [node_sets] in *; try (destruct i; discriminate);
  lazymatch goal with H : nth_error ?x _ = Some _ |- _ => 
      lazymatch goal with K : _ = Some x |- _ => rename H into S; unfold_sets K; rename K into A end end;
  try apply positive_inv in A;
  try (unfold createVertexBasisFunctionSet3DH1ConformingPyramid in A; destruct (asserts && _); [discriminate|]);
  destruct (nth_all_sets _ _ _ _ A S) as (o & f & fs & E & F); apply all_size in F; rewrite F;
  apply nth_error_In in E; apply in_map_iff in E; destruct E as (k & E & _); injection E as <- <- <-; reflexivity.
Qed.

Definition size (o : option (list basis_function)) : nat := match o with Some a => length a | None => 0 end.
Lemma joined_inv : forall l r, joined l = Some r -> (forall o, In o l -> exists a, o = Some a) /\ length r = list_sum (map size l) /\
  forall g, In g r <-> exists a, In (Some a) l /\ In g a.
Proof.
  induction l as [|[a|] l IH]; intros r H; cbn [joined] in H.
  - injection H as <-. split; [intros o []|]. split; [reflexivity|]. intros g. split; [intros []|intros (a & [] & _)].
  - destruct (joined l) as [b|] eqn:E; [|discriminate]. injection H as <-. destruct (IH b eq_refl) as (A & B & C).
    split; [intros o [<-|Ho]; [eauto|auto]|]. split; [rewrite app_length, B; reflexivity|].
    intros g. rewrite in_app_iff, C. split.
    + intros [H|(a' & H & K)]; [exists a|exists a']; split; auto; [now left|now right].
    + intros (a' & [H|H] & K); [injection H as ->; now left|right; eauto].
  - discriminate.
Qed.
Lemma joined_ok : forall l, (forall o, In o l -> exists a, o = Some a) -> exists r, joined l = Some r.
Proof.
  induction l as [|o l IH]; intros H; [eexists; reflexivity|].
  destruct (H o (or_introl eq_refl)) as [a ->]. destruct IH as [b E]; [intros o' Ho; apply H; now right|].
  cbn. rewrite E. eauto.
Qed.
Lemma list_sum_sizes : forall (f : nat -> option (list basis_function)) (g : nat -> nat) l,
  (forall i, In i l -> exists a, f i = Some a) -> (forall i a, f i = Some a -> length a = g i) ->
  list_sum (map size (map f l)) = list_sum (map g l).
Proof.
  intros f g l H K. induction l as [|i l IH]; [reflexivity|]. cbn. destruct (H i (or_introl eq_refl)) as [a E].
  rewrite E. cbn. rewrite (K i a E). f_equal. apply IH. intros j Hj. apply H. now right.
Qed.
Lemma conforming_length : forall asserts s order of oe l, (1 <= order) -> conforming_basis asserts s order of oe = Some l ->
  length l = interior_size s order + list_sum (map (fun i => face_size s i order) (seq 0 (faces_of s))) +
    edges_of s * (order - 1) + nodes_of s.
Proof.
  intros asserts s order of oe l Ho H. unfold conforming_basis in H.
  destruct (default_conforming_sets asserts s order) as [sets|] eqn:E; [|discriminate].
  destruct (joined_inv _ _ H) as (A & L & _). rewrite L. cbn [map size].
  rewrite !map_app. cbn [list_sum fold_right]. change (fold_right Nat.add 0 ?x) with (list_sum x). rewrite !list_sum_app.
  rewrite (interior_length _ _ _ _ E).
  rewrite (list_sum_sizes (fun i => face_functions asserts s order (of i) i) (fun i => face_size s i order)).
  - rewrite (list_sum_sizes (fun i => edge_functions asserts s order (oe i) i) (fun i => order - 1)).
    + rewrite (list_sum_sizes (fun i => node_functions asserts s order i) (fun i => 1)).
      * pose proof (total_const (order - 1) (edges_of s)) as T1. pose proof (total_const 1 (nodes_of s)) as T2.
        unfold total in T1, T2. rewrite T1, T2. lia.
      * intros i Hi. apply A. right. apply in_or_app. right. apply in_or_app. right. now apply in_map.
      * intros i a Ha. eapply node_length, Ha.
    + intros i Hi. apply A. right. apply in_or_app. right. apply in_or_app. left. now apply (in_map (fun i => edge_functions asserts s order (oe i) i)).
    + intros i a Ha. eapply edge_length, Ha.
  - intros i Hi. apply A. right. apply in_or_app. left. now apply (in_map (fun i => face_functions asserts s order (of i) i)).
  - intros i a Ha. eapply face_length, Ha.
Qed.
Lemma half : forall a b, 2 * a = b -> a = b / 2.
Proof. intros a b <-. rewrite Nat.mul_comm, Nat.div_mul; lia. Qed.
Lemma sixth : forall a b, 6 * a = b -> a = b / 6.
Proof. intros a b <-. rewrite Nat.mul_comm, Nat.div_mul; lia. Qed.
Lemma conforming_size : forall asserts s order of oe l, (1 <= order) -> (s = Pyramid -> order = 1) ->
  conforming_basis asserts s order of oe = Some l -> length l = space_dimension s order.
Proof.
  intros asserts s order of oe l Ho Hp H. assert (K := conforming_length _ _ _ _ _ _ Ho H). rewrite K.
  assert (Hs : s <> Point /\ s <> Hypercube) by (split; intros ->; discriminate H). destruct Hs as [Hs1 Hs2]. clear K l of oe H.
  destruct order as [|k]; [lia|].
  assert (Hn : forall i, face_size s i (S k) = match getCodim1ReferenceGeometry s i with
      | Some Point => 1 | Some Line => k | Some Triangle => total S (k - 1) | Some Square => k * k | _ => 0 end).
  { intros i. unfold face_size, triangle_size. replace (S k - 2) with (k - 1) by lia. replace (S k - 1) with k by lia. reflexivity. }
  rewrite (map_ext _ _ Hn). clear Hn.
  unfold interior_size, triangle_size, tetrahedron_size, space_dimension, simplex_dimension.
  replace (S k - 2) with (k - 1) by lia. replace (S k - 3) with (k - 2) by lia. replace (S k - 1) with k by lia.
  pose proof (total_id (k - 1)) as T1. pose proof (total_total (k - 2)) as T2.
  destruct s; try contradiction; cbn [faces_of edges_of nodes_of seq map getCodim1ReferenceGeometry nth_error list_sum fold_right points length].
  all: try (specialize (Hp eq_refl); injection Hp as ->; reflexivity).
  - lia.
  - apply half. destruct k as [|k]; [reflexivity|]. replace (S k - 1) with k in * by lia. lia.
  - lia.
  - apply sixth. destruct k as [|[|k]]; [reflexivity|reflexivity|].
    replace (S (S k) - 1) with (S k) in * by lia. replace (S (S k) - 2) with k in * by lia. nia.
  - assert (E : (S k + 1) * (S k + 2) = (3 + 3 * k + total S (k - 1)) * 2)
      by (destruct k as [|k]; [reflexivity|]; replace (S k - 1) with k in * by lia; lia).
    rewrite E, Nat.div_mul by lia. lia.
  - lia.
Qed.

Lemma nth_all_sets_ok : forall l r i, all_sets l = Some r -> i < length l ->
  exists t, nth_error r i = Some t.
Proof.
  induction l as [|[[o f] fs] l IH]; intros r i H Hn; cbn [all_sets] in H; [inversion Hn|].
  bind_inv. injs. destruct i as [|i]; [eexists; reflexivity|]. cbn [nth_error length] in *. apply Nat.succ_lt_mono in Hn. eauto.
Qed.
Lemma in_sets : forall l r o f, all_sets l = Some r -> In (o, f) (map fst l) -> exists t, In t r /\ orientation t = o /\ face t = f.
Proof.
  induction l as [|[[o f] fs] l IH]; intros r o' f' H Hn; cbn [all_sets] in H; [contradiction|]. cbn [map fst] in Hn.
  bind_inv. injs. destruct Hn as [E|Hn].
  - injection E as -> ->. eexists. split; [now left|]. split; reflexivity.
  - match goal with K : all_sets l = Some _ |- _ => destruct (IH _ _ _ K Hn) as (t & A & B) end. exists t. split; [now right|exact B].
Qed.
Lemma select_some : forall o i sets t, In t sets -> orientation t = o -> face t = i -> exists l, select o i sets = Some l.
Proof.
  intros o i sets t Hin Ho Hi. unfold select.
  enough (G : forall r, (In t sets \/ exists l, r = Some l) ->
    exists l, fold_left (fun r s => if checkOrientation o i s then Some (functions s) else r) sets r = Some l) by (apply G; now left).
  clear Hin. induction sets as [|s sets IH]; intros r H; cbn [fold_left]; [destruct H as [[]|H]; exact H|].
  apply IH. destruct (checkOrientation o i s) eqn:C; [eauto|].
  destruct H as [[->|H]|H]; [|now left|now right].
  exfalso. unfold checkOrientation in C. rewrite Ho, Hi, !Nat.eqb_refl in C. discriminate.
Qed.
Lemma node_defined : forall asserts s order sets i, default_conforming_sets asserts s order = Some sets -> i < nodes_of s ->
  exists l, node_functions asserts s order i = Some l.
Proof.
  intros asserts s order sets i H Hi. unfold node_functions. rewrite H. cbn [bind].
  enough (exists t, nth_error (node_sets sets) i = Some t) as [t ->] by (eexists; reflexivity).
  destruct s; unfold default_conforming_sets in H; try discriminate H; bind_inv; injs; cbn [node_sets];
  lazymatch goal with |- exists t, nth_error ?x _ = Some t => 
      match goal with K : _ = Some x |- _ => unfold_sets K; rename K into A | _ => idtac end end;
  try (cbn in Hi; lia); try apply positive_inv in A;
  try (unfold createVertexBasisFunctionSet3DH1ConformingPyramid in A; destruct (asserts && _); [discriminate|]);
  (eapply nth_all_sets_ok; [exact A|]; cbn [nodes_of points length] in Hi; explicit_sets A; cbn in *; lia).
Qed.
Lemma face_defined : forall asserts s order sets o i, default_conforming_sets asserts s order = Some sets -> i < faces_of s ->
  o < orientations_of s i -> exists l, face_functions asserts s order o i = Some l.
Proof.
  intros asserts s order sets o i H Hi Ho. unfold face_functions. rewrite H. cbn [bind].
  enough (exists t, In t (face_sets sets) /\ orientation t = o /\ face t = i) as (t & A & B & C) by (eapply select_some; eauto).
  destruct s; unfold default_conforming_sets in H; try discriminate H; bind_inv; injs; cbn [face_sets];
  lazymatch goal with |- exists t, In t ?x /\ _ => 
      match goal with K : _ = Some x |- _ => unfold_sets K; rename K into A | _ => idtac end end;
  try (cbn in Hi; lia); try apply positive_inv in A;
  (eapply in_sets; [exact A|]); cbn [faces_of] in Hi; explicit_sets A; cbn [flat_map map seq app oriented_sets triangle_orientations fst snd].
  all: do 6 (destruct i as [|i]; [cbn in Ho; do 8 (destruct o as [|o]; [first [exfalso; lia|cbn [In]; repeat first [left; reflexivity|right]]|]); lia|]); lia.
Qed.
Lemma edge_defined : forall asserts s order sets o i, default_conforming_sets asserts s order = Some sets -> i < edges_of s ->
  o < 2 -> exists l, edge_functions asserts s order o i = Some l.
Proof.
  intros asserts s order sets o i H Hi Ho. unfold edge_functions. rewrite H. cbn [bind].
  enough (exists t, In t (edge_sets sets) /\ orientation t = o /\ face t = i) as (t & A & B & C) by (eapply select_some; eauto).
  destruct s; unfold default_conforming_sets in H; try discriminate H; bind_inv; injs; cbn [edge_sets];
  lazymatch goal with |- exists t, In t ?x /\ _ => 
      match goal with K : _ = Some x |- _ => unfold_sets K; rename K into A | _ => idtac end end;
  try (cbn in Hi; lia); try apply positive_inv in A;
  (eapply in_sets; [exact A|]); cbn [edges_of] in Hi; explicit_sets A; cbn [flat_map map seq app fst snd].
  all: do 12 (destruct i as [|i]; [do 2 (destruct o as [|o]; [first [exfalso; lia|cbn [In]; repeat first [left; reflexivity|right]]|]); lia|]); lia.
Qed.
Lemma conforming_defined : forall asserts s order sets of oe, default_conforming_sets asserts s order = Some sets ->
  (forall i, i < faces_of s -> of i < orientations_of s i) -> (forall i, i < edges_of s -> oe i < 2) ->
  exists l, conforming_basis asserts s order of oe = Some l.
Proof.
  intros asserts s order sets of oe H Hf He. unfold conforming_basis. rewrite H. apply joined_ok.
  intros o [<-|Hin]; [eauto|]. apply in_app_or in Hin. destruct Hin as [Hin|Hin]; [|apply in_app_or in Hin; destruct Hin as [Hin|Hin]];
    apply in_map_iff in Hin; destruct Hin as (i & <- & Hi); apply in_seq in Hi.
  - eapply face_defined; [exact H|lia|apply Hf; lia].
  - eapply edge_defined; [exact H|lia|apply He; lia].
  - eapply node_defined; [exact H|lia].
Qed.

(** ** the discontinuous sets *)
Lemma dg_square : forall n, 4 + total (fun _ => 4 + n) n = (n + 2) * (n + 2).
Proof. intros n. rewrite total_const. lia. Qed.
Lemma dg_triangle : forall n, 2 * (3 + total (fun k => 3 + (if k + 3 <=? S n then k + 1 else 0)) n) = (n + 2) * (n + 3).
Proof.
  intros [|m]; [reflexivity|]. rewrite total_S. replace (m + 3 <=? S (S m)) with false by (symmetry; apply Nat.leb_gt; lia).
  rewrite (total_ext _ (fun k => 3 + (k + 1))).
  - induction m as [|m IH]; [reflexivity|]. rewrite total_S. lia.
  - intros i Hi. now rewrite (proj2 (Nat.leb_le (i + 3) _)) by lia.
Qed.
Lemma dg_tetrahedron : forall n, 6 * (4 + total (fun j => 6 + 4 * j + total S (j - 1)) n) = (n + 2) * (n + 3) * (n + 4).
Proof.
  induction n as [|n IH]; [reflexivity|]. rewrite total_S. destruct n as [|n]; [reflexivity|].
  pose proof (total_id n). replace (S n - 1) with n by lia. nia.
Qed.
Lemma dg_cube : forall n, 8 + total (fun j => 19 + total (fun i => 18 + 6 * i) j) n = (n + 2) * (n + 2) * (n + 2).
Proof.
  induction n as [|n IH]; [reflexivity|]. rewrite total_S.
  enough (total (fun i => 18 + 6 * i) n + 3 * n = 18 * n + 3 * n * n) by nia.
  clear IH. induction n as [|n IH]; [reflexivity|]. rewrite total_S. nia.
Qed.
Lemma flat_total : forall B (f : nat -> list B) n, length (flat_map f (seq 0 n)) = total (fun x => length (f x)) n.
Proof. intros. now rewrite flat_map_length. Qed.
Lemma dg_size : forall asserts s order l, default_DG_set asserts s order = Some l ->
  match s with TriangularPrism => order <= 2 | Pyramid => order <= 1 | _ => True end -> length l = space_dimension s order.
Proof.
  intros asserts s order l H Hs.
  destruct s; unfold default_DG_set in H; try discriminate H;
    unfold createDGBasisFunctionSet1DH1Line, createDGBasisFunctionSet2DH1Square, createDGBasisFunctionSet2DH1Triangle,
      createDGBasisFunctionSet3DH1Tetrahedron, createDGBasisFunctionSet3DH1Cube in H;
    (destruct order as [|n]; [destruct asserts; cbn in H; injection H as <-; reflexivity|]); cbn [Nat.ltb Nat.leb] in H.
  - apply all_size in H. rewrite H, app_length, map_length, loop_length. cbn. lia.
  - apply all_size in H. rewrite H, app_length, map_length, flat_loop, seq_length. replace (S (S n) - 2) with n by lia.
    cbn [space_dimension simplex_dimension]. apply half.
    transitivity ((n + 2) * (n + 3)); [|lia]. rewrite <- dg_triangle. f_equal. f_equal. apply total_ext.
    intros i Hi. rewrite app_length. f_equal. destruct (i + 3 <=? S n); [now rewrite map_length, seq_length|reflexivity].
  - apply all_size in H. rewrite H, app_length, map_length, flat_loop, seq_length. replace (S (S n) - 2) with n by lia.
    cbn [space_dimension]. replace ((S n + 1) * (S n + 1)) with ((n + 2) * (n + 2)) by lia. rewrite <- dg_square. f_equal. apply total_ext.
    intros i Hi. rewrite app_length, map_length, loop_length. cbn [length]. lia.
  - apply all_size in H. rewrite H, app_length, map_length, flat_loop, seq_length. replace (S (S n) - 2) with n by lia.
    cbn [space_dimension simplex_dimension]. apply sixth.
    transitivity ((n + 2) * (n + 3) * (n + 4)); [|lia]. rewrite <- dg_tetrahedron. f_equal. f_equal. apply total_ext.
    intros j Hj. rewrite !app_length, map_length, seq_length, <- Nat.add_assoc. f_equal. f_equal.
    + destruct j as [|j]; [reflexivity|]. cbn [Nat.ltb Nat.leb]. rewrite flat_total. rewrite (total_ext _ (fun _ => S j)); [now rewrite total_const|].
      intros i Hi. rewrite map_length, loop_length. lia.
    + destruct j as [|[|j]]; [reflexivity|reflexivity|]. cbn [Nat.ltb Nat.leb]. rewrite flat_loop.
      replace (S (S (S j)) - 2) with (S j) by lia. replace (S (S j) - 1) with (S j) by lia.
      rewrite (total_ext _ (fun i => S j - i)); [exact (total_down (fun i => i) _)|]. intros i Hi. rewrite map_length, loop_length. lia.
  - destruct n as [|n]; [|lia]. vm_compute in H. destruct asserts; injection H as <-; reflexivity.
  - destruct n as [|[|n]]; [| |lia]; vm_compute in H; destruct asserts; injection H as <-; reflexivity.
  - apply all_size in H. rewrite H, app_length, map_length, flat_loop, seq_length. replace (S (S n) - 2) with n by lia.
    cbn [space_dimension]. replace ((S n + 1) * (S n + 1) * (S n + 1)) with ((n + 2) * (n + 2) * (n + 2)) by lia. rewrite <- dg_cube. f_equal. apply total_ext.
    intros j Hj. rewrite !app_length, !map_length, !seq_length. cbn [length]. rewrite flat_total.
    rewrite (total_ext _ (fun i => 18 + 6 * i)); [lia|]. intros i Hi. rewrite app_length, flat_total. cbn [length]. rewrite total_const. lia.
Qed.
Lemma dg_defined : forall asserts s order,
  match s with Line | Triangle | Square | Tetrahedron | Cube => True | Pyramid => order <= 1 | _ => False end ->
  exists l, default_DG_set asserts s order = Some l.
Proof.
  intros asserts s order Hs.
  destruct s; try contradiction; unfold default_DG_set;
    unfold createDGBasisFunctionSet1DH1Line, createDGBasisFunctionSet2DH1Square, createDGBasisFunctionSet2DH1Triangle,
      createDGBasisFunctionSet3DH1Tetrahedron, createDGBasisFunctionSet3DH1Cube;
    (destruct order as [|n]; [destruct asserts; eexists; reflexivity|]); cbn [Nat.ltb Nat.leb].
  all: try (assert (n = 0) as -> by lia; destruct asserts; eexists; reflexivity).
  all: match goal with |- exists l, all ?x = Some l => destruct (all_ok x) as (r & E & _); [|eexists; exact E] end; intros o Ho.
  all: repeat first [apply in_app_or in Ho; destruct Ho as [Ho|Ho]
    | apply in_map_iff in Ho; let k := fresh "k" in destruct Ho as (k & <- & Ho); apply in_seq in Ho
    | apply in_flat_map in Ho; let k := fresh "k" in let Hk := fresh "Hk" in destruct Ho as (k & Hk & Ho); apply in_seq in Hk
    | match type of Ho with
      | In _ (if ?c then _ else _) => destruct c; [|destruct Ho]
      | In _ (_ :: _) => destruct Ho as [<-|Ho]
      | In _ [] => destruct Ho
      end].
  all: try (eexists; reflexivity).
  all: first [some_new asserts
    | do 12 (destruct k0 as [|k0]; [first [exfalso; lia|some_new asserts]|]); lia
    | do 12 (destruct k as [|k]; [first [exfalso; lia|some_new asserts]|]); lia].
Qed.

(** ** monomials *)
Lemma half_total : forall n, total S n = n * (n + 1) / 2.
Proof. intros n. apply half, total_id. Qed.
Lemma monomials_1 : forall n, length (assembleMonomialBasisFunctions1D n) = simplex_dimension 1 n.
Proof. intros n. unfold assembleMonomialBasisFunctions1D. rewrite map_length, loop_length. cbn. lia. Qed.
Lemma monomials_2 : forall n, length (assembleMonomialBasisFunctions2D n) = simplex_dimension 2 n.
Proof.
  intros n. unfold assembleMonomialBasisFunctions2D. rewrite flat_loop, Nat.sub_0_r.
  rewrite (total_ext _ (fun i => S n - i)) by (intros; now rewrite map_length, loop_length).
  rewrite (total_down (fun i => i)). change (fun i => S i) with S. apply half. pose proof (total_id (S n)). lia.
Qed.
Lemma monomials_3 : forall n, length (assembleMonomialBasisFunctions3D n) = simplex_dimension 3 n.
Proof.
  intros n. unfold assembleMonomialBasisFunctions3D. rewrite flat_loop, Nat.sub_0_r.
  rewrite (total_ext _ (fun i => total S (S n - i))).
  - rewrite (total_down (total S)). apply sixth. pose proof (total_total (S n)). lia.
  - intros i Hi. rewrite flat_loop. rewrite (total_ext _ (fun j => (S n - i) - j)); [exact (total_down (fun i => i) _)|].
    intros j Hj. rewrite map_length, loop_length. lia.
Qed.
Lemma total3 : forall n, 24 * total (fun m => total (fun i => total S (S i)) (S m)) n = n * (n + 1) * (n + 2) * (n + 3).
Proof. induction n as [|n IH]; [reflexivity|]. rewrite total_S. pose proof (total_total (S n)). nia. Qed.
Lemma monomials_4 : forall n, length (assembleMonomialBasisFunctions4D n) = simplex_dimension 4 n.
Proof.
  intros n. unfold assembleMonomialBasisFunctions4D. rewrite flat_loop, Nat.sub_0_r.
  rewrite (total_ext _ (fun i => total (fun a => total S (S a)) (S n - i))).
  - rewrite (total_down (total (fun a => total S (S a)))).
    assert (G : forall a b, 24 * a = b -> a = b / 24) by (intros a b <-; rewrite Nat.mul_comm, Nat.div_mul; lia).
    apply G. pose proof (total3 (S n)). lia.
  - intros i Hi. rewrite flat_loop. rewrite (total_ext _ (fun j => total S ((S n - i) - j))); [exact (total_down (total S) _)|].
    intros j Hj. rewrite flat_loop. replace (S n - (i + j)) with (S n - i - j) by lia.
    rewrite (total_ext _ (fun k => (S n - i - j) - k)); [exact (total_down (fun i => i) _)|].
    intros k Hk. rewrite map_length, loop_length. lia.
Qed.
Lemma monomials_size : forall n,
  length (assembleMonomialBasisFunctions1D n) = simplex_dimension 1 n /\ length (assembleMonomialBasisFunctions2D n) = simplex_dimension 2 n /\
  length (assembleMonomialBasisFunctions3D n) = simplex_dimension 3 n /\ length (assembleMonomialBasisFunctions4D n) = simplex_dimension 4 n.
Proof. intros n. split; [apply monomials_1|]. split; [apply monomials_2|]. split; [apply monomials_3|apply monomials_4]. Qed.
Lemma prism_dg_size : exists l, default_DG_set true TriangularPrism 3 = Some l /\ length l = S (space_dimension TriangularPrism 3).
Proof. eexists. split; reflexivity. Qed.
