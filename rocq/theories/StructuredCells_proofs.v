(** The elements that the reader of structured meshes makes. *)
From Coq Require Import String Ascii List Arith Bool ZArith Reals Lia.
From Verif Require Import Loop_model Loop_proofs Gmsh_model Structured_model Structured_spec Structured_proofs.
Import ListNotations.

(** * Turning the triangles *)
Definition turn (ts : list (list nat)) : list (list nat) := map (map (fun k => nth k rotate 0)) ts.
Definition bounded (b : nat) (ts : list (list nat)) : Prop := Forall (Forall (fun k => k < b)) ts.
Lemma mapM_some : forall {A B} (f : A -> option B) (v : A -> B) l, (forall a, In a l -> f a = Some (v a)) -> mapM f l = Some (map v l).
Proof.
  intros A B f v. induction l as [|a l IH]; intros H; cbn [mapM map]; [reflexivity|].
  rewrite H by now left. cbn [bind]. rewrite IH by (intros; apply H; now right). reflexivity.
Qed.
Lemma rotated_turn : forall ts, bounded 8 ts -> rotated ts = Some (turn ts).
Proof.
  intros ts H. unfold rotated, turn. apply mapM_some. intros t T. unfold bounded in H. rewrite Forall_forall in H.
  specialize (H t T). apply mapM_some. intros k K. rewrite Forall_forall in H. specialize (H k K).
  apply nth_error_nth'. exact H.
Qed.
Lemma turn_bounded : forall b ts, b = 4 \/ b = 8 -> bounded b ts -> bounded b (turn ts).
Proof.
  intros b ts B H. unfold bounded, turn in *. rewrite Forall_map. eapply Forall_impl; [|exact H]. intros t T.
  rewrite Forall_map. eapply Forall_impl; [|exact T]. intros k K. cbv beta in *.
  do 8 (destruct k as [|k]; [cbn; lia|]). lia.
Qed.
Lemma iter_turn_bounded : forall b ts n, b = 4 \/ b = 8 -> bounded b ts -> bounded b (Nat.iter n turn ts).
Proof. intros b ts n B H. induction n; cbn; [exact H|now apply turn_bounded]. Qed.
Lemma iter_turn_length : forall ts n, length (Nat.iter n turn ts) = length ts.
Proof. intros ts n. induction n; cbn; [reflexivity|]. unfold turn. now rewrite map_length. Qed.
Lemma iter_add : forall {A} (f : A -> A) m n x, Nat.iter m f (Nat.iter n f x) = Nat.iter (m + n) f x.
Proof. intros A f m n x. induction m as [|m IH]; [reflexivity|]. cbn [Nat.add]. change (f (Nat.iter m f (Nat.iter n f x)) = f (Nat.iter (m + n) f x)). now rewrite IH. Qed.

Fixpoint turns (xs : list axis) (l : list nat) : nat :=
  match xs, l with
  | x :: xs, k :: l => if S k <? numberOfElements x then 1 else 1 + S k mod 2 + turns xs l
  | _, _ => 0
  end.
Lemma nextCell_ok : forall xs l ts, length l = length xs -> bounded 8 ts ->
  nextCell xs l ts = Some (advance numberOfElements xs l, Nat.iter (turns xs l) turn ts).
Proof.
  induction xs as [|x xs IH]; intros [|k l] ts L B; try discriminate; [reflexivity|].
  cbn [nextCell advance turns]. rewrite rotated_turn by exact B. cbn [bind].
  pose proof (turn_bounded 8 ts ltac:(now right) B) as B1.
  destruct (S k <? numberOfElements x); [reflexivity|].
  destruct (Nat.eqb_spec (S k mod 2) 1) as [E|E].
  - rewrite rotated_turn by exact B1. cbn [bind]. rewrite IH by (try (cbn in L; lia); apply turn_bounded; auto). cbn [bind fst snd].
    rewrite E. do 2 f_equal. change (turn (turn ts)) with (Nat.iter 2 turn ts). rewrite iter_add. f_equal. lia.
  - cbn [bind]. rewrite IH by (try (cbn in L; lia); assumption). cbn [bind fst snd].
    pose proof (Nat.mod_upper_bound (S k) 2 ltac:(lia)). replace (S k mod 2) with 0 by lia. do 2 f_equal.
    change (turn ts) with (Nat.iter 1 turn ts). rewrite iter_add. f_equal. lia.
Qed.
(** the triangles are turned as often as the cell is away from the first one, but for even numbers *)
Definition parity (l : list nat) : bool := Nat.odd (list_sum l).
Lemma odd_mod : forall k, Nat.odd (k mod 2) = Nat.odd k.
Proof.
  intros k. pose proof (Nat.div_mod k 2 ltac:(lia)) as D. rewrite D at 2. rewrite Nat.add_comm, Nat.odd_add_mul_2. reflexivity.
Qed.
Lemma turns_parity : forall xs l, below numberOfElements xs l ->
  Nat.odd (turns xs l) = xorb (parity l) (parity (advance numberOfElements xs l)).
Proof.
  intros xs l H. induction H as [|x k xs l K H IH]; [reflexivity|]. unfold parity in *. cbn [turns advance].
  destruct (Nat.ltb_spec (S k) (numberOfElements x)) as [E|E].
  - cbn [list_sum fold_right]. rewrite !Nat.odd_add, (Nat.odd_succ k), <- (Nat.negb_odd k).
    destruct (Nat.odd k), (Nat.odd (fold_right Nat.add 0 l)); reflexivity.
  - cbn [list_sum fold_right Nat.add]. change (S (S k mod 2 + turns xs l)) with (1 + (S k mod 2 + turns xs l)).
    rewrite !Nat.odd_add, odd_mod, (Nat.odd_succ k), <- (Nat.negb_odd k), IH.
    change (list_sum l) with (fold_right Nat.add 0 l). change (list_sum (advance numberOfElements xs l)) with (fold_right Nat.add 0 (advance numberOfElements xs l)).
    destruct (Nat.odd k), (Nat.odd (fold_right Nat.add 0 l)), (Nat.odd (fold_right Nat.add 0 (advance numberOfElements xs l))); reflexivity.
Qed.
Fixpoint turned (xs : list axis) (e : nat) : nat :=
  match e with 0 => 0 | S e => turns xs (unrank numberOfElements xs e) + turned xs e end.
Lemma parity_zero : forall (xs : list axis), parity (map (fun _ => 0) xs) = false.
Proof. intros xs. unfold parity. induction xs as [|x xs IH]; [reflexivity|exact IH]. Qed.
Lemma turned_parity : forall xs e, Forall (fun x => 0 < numberOfElements x) xs ->
  Nat.odd (turned xs e) = parity (unrank numberOfElements xs e).
Proof.
  intros xs e H. induction e as [|e IH]; cbn [turned].
  - rewrite unrank_zero by exact H. now rewrite parity_zero.
  - rewrite Nat.odd_add, IH, turns_parity by now apply unrank_below. rewrite advance_unrank by exact H.
    destruct (parity (unrank numberOfElements xs e)), (parity (unrank numberOfElements xs (S e))); reflexivity.
Qed.

(** * The elements *)
Section Elements.
  Variable xs : list axis.
  Hypothesis G : Forall good xs.
  Notation table := (map (row xs) (seq 0 (prod numberOfNodes xs))).
  Notation at_cell := (unrank numberOfElements xs).
  Definition named (l : list nat) (s : list nat) : list nat := map (fun j => idOf xs (corner l j)) s.
  Definition triangles (e : nat) : list (list nat) := Nat.iter (turned xs e) turn (cornersOfTriangles xs).
  Lemma first_bounded : bounded 8 (cornersOfTriangles xs).
  Proof.
    unfold cornersOfTriangles, bounded. destruct (length xs) as [|[|[|[|]]]]; try apply Forall_nil;
      repeat (apply Forall_cons; [repeat constructor; lia|]); apply Forall_nil.
  Qed.
  Lemma triangles_bounded : forall e, bounded 8 (triangles e).
  Proof. intros e. apply iter_turn_bounded; [now right|apply first_bounded]. Qed.
  Lemma nextCell_at : forall e, nextCell xs (at_cell e) (triangles e) = Some (at_cell (S e), triangles (S e)).
  Proof.
    intros e. rewrite nextCell_ok by (try apply unrank_length; apply triangles_bounded).
    rewrite advance_unrank by now apply good_elements. unfold triangles. now rewrite iter_add.
  Qed.
  (** cells are elements *)
  Lemma rectangles_step : forall e, elementStep (Reader xs false) table (Tiling (at_cell e) 0 (triangles e)) =
    Some (named (at_cell e) (seq 0 (2 ^ length xs)), Tiling (at_cell (S e)) 0 (triangles (S e))).
  Proof.
    intros e. unfold elementStep. cbn [axes hasTriangles t_loop t_index t_corners].
    rewrite corners_ok by (try exact G; apply unrank_below; now apply good_elements). cbn [bind fst snd Nat.eqb].
    rewrite nextCell_at. reflexivity.
  Qed.
  (** the cells are cut *)
  Hypothesis D : length xs = 2 \/ length xs = 3.
  Notation m := (length (cornersOfTriangles xs)).
  Lemma m_pos : 0 < m.
  Proof. unfold cornersOfTriangles. destruct D as [-> | ->]; cbn; lia. Qed.
  Lemma triangles_corners : forall e, bounded (2 ^ length xs) (triangles e).
  Proof.
    intros e. apply iter_turn_bounded; [destruct D as [-> | ->]; cbn; auto|].
    unfold cornersOfTriangles, bounded. destruct D as [-> | ->]; repeat (apply Forall_cons; [repeat constructor; cbn; lia|]); apply Forall_nil.
  Qed.
  Lemma triangles_step : forall q, elementStep (Reader xs true) table (Tiling (at_cell (q / m)) (q mod m) (triangles (q / m))) =
    Some (named (at_cell (q / m)) (nth (q mod m) (triangles (q / m)) []),
          Tiling (at_cell (S q / m)) (S q mod m) (triangles (S q / m))).
  Proof.
    intros q. unfold elementStep. cbn [axes hasTriangles t_loop t_index t_corners].
    rewrite corners_ok by (try exact G; apply unrank_below; now apply good_elements). cbn [bind].
    pose proof m_pos as P. pose proof (Nat.mod_upper_bound q m ltac:(lia)) as U. pose proof (Nat.div_mod q m ltac:(lia)) as Q.
    assert (Lt : length (triangles (q / m)) = m) by (unfold triangles; apply iter_turn_length).
    rewrite (nth_error_nth' (triangles (q / m)) []) by lia. cbn [bind].
    rewrite (mapM_some _ (fun j => idOf xs (corner (at_cell (q / m)) j))).
    2:{ intros j J. pose proof (triangles_corners (q / m)) as B. unfold bounded in B. rewrite Forall_forall in B.
        specialize (B _ (nth_In (triangles (q / m)) [] ltac:(rewrite Lt; exact U))). rewrite Forall_forall in B. specialize (B j J).
        rewrite nth_error_map, (nth_error_nth' _ 0) by (rewrite seq_length; exact B). now rewrite seq_nth by exact B. }
    cbn [bind fst snd]. rewrite Lt. fold (named (at_cell (q / m)) (nth (q mod m) (triangles (q / m)) [])).
    destruct (Nat.eqb_spec (S (q mod m)) m) as [E|E].
    - cbn [Nat.eqb]. rewrite nextCell_at. cbn [bind fst snd].
      rewrite <- (Nat.mod_unique (S q) m (S (q / m)) 0) by lia. rewrite <- (Nat.div_unique (S q) m (S (q / m)) 0) by lia. reflexivity.
    - cbn [Nat.eqb bind fst snd].
      rewrite <- (Nat.mod_unique (S q) m (q / m) (S (q mod m))) by lia. rewrite <- (Nat.div_unique (S q) m (q / m) (S (q mod m))) by lia. reflexivity.
  Qed.
  Lemma chunks : forall {A} (out : nat -> A) (f : nat -> list A) n k,
    (forall e, length (f e) = m) -> (forall e i a, nth_error (f e) i = Some a -> out (e * m + i) = a) ->
    map out (seq (k * m) (n * m)) = flat_map f (seq k n).
  Proof.
    intros A out f n. induction n as [|n IH]; intros k L H; cbn [seq flat_map]; [reflexivity|].
    rewrite <- (IH (S k)) by assumption. cbn [Nat.mul]. rewrite seq_app, map_app, (Nat.add_comm (k * m) m). f_equal.
    apply nth_error_ext_le; rewrite ?map_length, ?seq_length; [now rewrite L|].
    intros i I. destruct (nth_error (f k) i) as [a|] eqn:E; [|apply nth_error_None in E; rewrite L in E; lia].
    rewrite nth_error_map, (nth_error_nth' _ 0) by (rewrite seq_length; exact I). rewrite seq_nth by exact I. cbn [option_map].
    f_equal. now apply H.
  Qed.
End Elements.

Definition listing (xs : list axis) (ss : nat -> list (list nat)) : list (list nat * list (list nat)) :=
  map (fun e => (unrank numberOfElements xs e, ss e)) (seq 0 (prod numberOfElements xs)).
Definition all_elements (xs : list axis) (cs : list (list nat * list (list nat))) : list (list nat * string) :=
  flat_map (fun p => map (fun s => (map (fun j => idOf xs (corner (fst p) j)) s, "Main"%string)) (snd p)) cs.
Definition whole (xs : list axis) (e : nat) : list (list nat) := [seq 0 (2 ^ length xs)].

Lemma rectangles_ok : forall xs, Forall good xs ->
  getElements (Reader xs false) (map (row xs) (seq 0 (prod numberOfNodes xs))) = Some (all_elements xs (listing xs (whole xs))).
Proof.
  intros xs G. unfold getElements. cbn [axes hasTriangles negb must].
  assert (U : match length xs with 2 | 3 => Some tt | _ => Some tt end = Some tt) by (destruct (length xs) as [|[|[|[|]]]]; reflexivity).
  rewrite U. clear U. cbn [bind]. rewrite total_prod, Nat.mul_1_r.
  pose proof (prod_pos _ _ (good_elements xs G)) as P. rewrite Nat.max_r by lia.
  rewrite <- (unrank_zero numberOfElements) by now apply good_elements.
  change (Tiling (unrank numberOfElements xs 0) 0 (cornersOfTriangles xs))
    with ((fun e => Tiling (unrank numberOfElements xs e) 0 (triangles xs e)) 0).
  rewrite (produce_seq _ _ (fun e => named xs (unrank numberOfElements xs e) (seq 0 (2 ^ length xs)))) by (intros e _; now apply rectangles_step).
  cbn [bind fst]. f_equal. unfold all_elements, listing, whole. rewrite map_map.
  rewrite flat_map_concat_map, map_map. cbn [fst snd map]. 
  generalize (seq 0 (prod numberOfElements xs)). intros es. induction es as [|e es IH]; cbn [map concat app]; [reflexivity|]. now rewrite IH.
Qed.
Lemma triangles_ok : forall xs, Forall good xs -> length xs = 2 \/ length xs = 3 ->
  getElements (Reader xs true) (map (row xs) (seq 0 (prod numberOfNodes xs))) = Some (all_elements xs (listing xs (triangles xs))).
Proof.
  intros xs G D. unfold getElements. cbn [axes hasTriangles negb must].
  assert (U : match length xs with 2 | 3 => Some tt | _ => None end = Some tt) by (destruct D as [-> | ->]; reflexivity).
  rewrite U. clear U. cbn [bind]. rewrite total_prod.
  pose proof (prod_pos _ _ (good_elements xs G)) as P. pose proof (m_pos xs D) as Pm. rewrite Nat.max_r by nia.
  rewrite <- (unrank_zero numberOfElements) by now apply good_elements.
  set (m := length (cornersOfTriangles xs)) in *.
  assert (S0 : Tiling (unrank numberOfElements xs 0) 0 (cornersOfTriangles xs)
    = (fun q => Tiling (unrank numberOfElements xs (q / m)) (q mod m) (triangles xs (q / m))) 0).
  { cbv beta. rewrite Nat.div_0_l, Nat.mod_0_l by lia. reflexivity. }
  rewrite S0.
  pose proof (produce_seq (elementStep (Reader xs true) (map (row xs) (seq 0 (prod numberOfNodes xs))))
    (fun q => Tiling (unrank numberOfElements xs (q / m)) (q mod m) (triangles xs (q / m)))
    (fun q => named xs (unrank numberOfElements xs (q / m)) (nth (q mod m) (triangles xs (q / m)) []))
    (prod numberOfElements xs * m) 0 (fun e _ => triangles_step xs G D e)) as X.
  cbv beta in X |- *. rewrite X. clear X.
  cbn [bind fst]. f_equal.
  rewrite (chunks xs D _ (fun e => map (named xs (unrank numberOfElements xs e)) (triangles xs e)) (prod numberOfElements xs) 0).
  - unfold all_elements, listing. rewrite !flat_map_concat_map, concat_map, !map_map. f_equal. apply map_ext. intros e. cbn [fst snd].
    rewrite map_map. reflexivity.
  - intros e. rewrite map_length. unfold triangles. apply iter_turn_length.
  - intros e i a H. fold m. rewrite nth_error_map in H. destruct (nth_error (triangles xs e) i) as [t|] eqn:T; [|discriminate].
    injection H as <-. assert (I : i < m) by (pose proof (iter_turn_length (cornersOfTriangles xs) (turned xs e)) as X; fold (triangles xs e) in X; fold m in X; rewrite <- X; apply nth_error_Some; congruence).
    rewrite <- (Nat.div_unique (e * m + i) m e i) by lia. rewrite <- (Nat.mod_unique (e * m + i) m e i) by lia.
    now rewrite (nth_error_nth _ _ _ T).
Qed.
