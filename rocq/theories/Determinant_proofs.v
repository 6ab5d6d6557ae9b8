From Coq Require Import List Arith Bool Lia Permutation Ring Setoid.
From Verif Require Import Loop_model Matrix_model Matrix_spec Matrix_proofs Determinant_model Determinant_spec.
Import ListNotations.

(** ** the specification's list of permutations *)
Lemma insertions_perm x l p : In p (insertions x l) -> Permutation (x :: l) p.
Proof.
  revert p; induction l as [|y l IH]; intros p H; cbn in H.
  - destruct H as [<-|[]]. reflexivity.
  - destruct H as [<-|H]; [reflexivity|]. apply in_map_iff in H as (q & <- & Hq).
    rewrite perm_swap. constructor. apply IH, Hq.
Qed.
Lemma insertions_split x l1 l2 : In (l1 ++ x :: l2) (insertions x (l1 ++ l2)).
Proof.
  induction l1 as [|y l1 IH]; cbn [app].
  - destruct l2; left; reflexivity.
  - right. apply in_map. exact IH.
Qed.
Lemma arrangements_spec l p : In p (arrangements l) <-> Permutation l p.
Proof.
  split.
  - revert p; induction l as [|x l IH]; intros p H; cbn in H.
    + destruct H as [<-|[]]. reflexivity.
    + apply in_flat_map in H as (q & Hq & Hp). apply insertions_perm in Hp. rewrite <- Hp. constructor. apply IH, Hq.
  - revert p; induction l as [|x l IH]; intros p H.
    + apply Permutation_nil in H. subst. left. reflexivity.
    + assert (Hx : In x p) by (eapply Permutation_in; [exact H|left; reflexivity]).
      apply in_split in Hx as (l1 & l2 & ->). apply Permutation_cons_app_inv in H.
      cbn. apply in_flat_map. exists (l1 ++ l2). split; [apply IH, H|apply insertions_split].
Qed.
Lemma insertions_nodup x l : ~ In x l -> NoDup (insertions x l).
Proof.
  induction l as [|y l IH]; intros H; cbn.
  - constructor; [intros []|constructor].
  - constructor.
    + intros Hin. apply in_map_iff in Hin as (q & Hq & _). inversion Hq; subst. apply H. left. reflexivity.
    + apply FinFun.Injective_map_NoDup; [intros a b E; congruence|]. apply IH. intros Hx. apply H. right. exact Hx.
Qed.
Lemma insertions_remove x l p : ~ In x l -> In p (insertions x l) -> remove Nat.eq_dec x p = l.
Proof.
  revert p; induction l as [|y l IH]; intros p H Hp; cbn in Hp.
  - destruct Hp as [<-|[]]. cbn. destruct (Nat.eq_dec x x); [reflexivity|tauto].
  - assert (Hy : x <> y) by (intros ->; apply H; left; reflexivity).
    assert (Hl : ~ In x l) by (intros Q; apply H; right; exact Q).
    destruct Hp as [<-|Hp].
    + cbn. destruct (Nat.eq_dec x x); [|tauto]. destruct (Nat.eq_dec x y); [tauto|]. f_equal. apply notin_remove. exact Hl.
    + apply in_map_iff in Hp as (q & <- & Hq). cbn. destruct (Nat.eq_dec x y); [tauto|]. f_equal. apply IH; assumption.
Qed.
Lemma nodup_flat_map {X Y} (f : X -> list Y) (g : Y -> X) l : NoDup l -> (forall x, In x l -> NoDup (f x)) ->
  (forall x y, In x l -> In y (f x) -> g y = x) -> NoDup (flat_map f l).
Proof.
  induction l as [|x l IH]; intros HN Hf Hg; cbn; [constructor|]. inversion HN; subst.
  assert (D : forall a, In a (f x) -> ~ In a (flat_map f l)).
  { intros a Ha Hb. apply in_flat_map in Hb as (x' & Hx' & Ha'). 
    assert (x = x') by (rewrite <- (Hg x a (or_introl eq_refl) Ha); apply (Hg x' a); [right; exact Hx'|exact Ha']).
    subst. tauto. }
  assert (N1 : NoDup (f x)) by (apply Hf; left; reflexivity).
  assert (N2 : NoDup (flat_map f l)) by (apply IH; [assumption|intros; apply Hf; right; assumption|intros x0 y0 H3 H4; apply (Hg x0 y0 (or_intror H3) H4)]).
  clear - D N1 N2. induction (f x) as [|a r IHr]; cbn; [exact N2|]. inversion N1; subst. constructor.
  - intros H. apply in_app_iff in H as [H|H]; [tauto|]. apply (D a); [left; reflexivity|exact H].
  - apply IHr; [|assumption]. intros b Hb. apply D. right. exact Hb.
Qed.
Lemma arrangements_nodup l : NoDup l -> NoDup (arrangements l).
Proof.
  induction l as [|x l IH]; intros H; cbn.
  - constructor; [intros []|constructor].
  - inversion H; subst.
    assert (P : forall q, In q (arrangements l) -> ~ In x q).
    { intros q Hq Hx. apply arrangements_spec in Hq. apply Permutation_sym in Hq. apply (Permutation_in x Hq) in Hx. tauto. }
    apply (nodup_flat_map _ (remove Nat.eq_dec x)); [apply IH; assumption| |].
    + intros q Hq. apply insertions_nodup. apply P, Hq.
    + intros q p Hq Hp. apply insertions_remove; [apply P, Hq|exact Hp].
Qed.

Lemma all_permutations n :
  NoDup (arrangements (seq 0 n)) /\ forall p, In p (arrangements (seq 0 n)) <-> Permutation (seq 0 n) p.
Proof. split; [apply arrangements_nodup, seq_NoDup|]. intros p. apply arrangements_spec. Qed.

Section Ring.
Context {A : Type} (zero one : A) (add mul sub : A -> A -> A) (opp : A -> A).
Variable Rth : ring_theory zero one add mul sub opp (@eq A).
Add Ring scalars : Rth.

Notation det := (determinant one add mul sub opp).
Notation wedge := (computeWedgeStuffVector add mul sub opp).
Notation leib := (leibniz zero one add mul opp).

Lemma read (M : matrix A) r c e i j : is_matrix M r c e -> i < r -> j < c -> mget M i j = Some (e i j).
Proof. intros (_ & _ & _ & H) Hi Hj. rewrite H, inr_true by assumption. reflexivity. Qed.

Ltac entries H := repeat match goal with
  | |- context [mget ?M ?i ?j] => rewrite (read M _ _ _ i j H) by lia
  end.
Ltac unspec := cbv [leibniz arrangements insertions flat_map map app seq fold_right signed product
  combine length inversions filter Nat.ltb Nat.leb Nat.add Nat.even fst snd].

Lemma determinant_ok M n e : is_matrix M n n e -> n <= 4 -> det M = Some (leib n e).
Proof.
  intros H Hn. pose proof H as (R & C & _). unfold determinant. rewrite R, C, Nat.eqb_refl.
  destruct n as [|[|[|[|[|n]]]]]; [| | | | |lia]; entries H; cbn [lift2 option_map]; unspec; f_equal; ring.
Qed.

Lemma determinant_unsupported M n e : is_matrix M n n e -> 4 < n -> det M = None.
Proof.
  intros H Hn. pose proof H as (R & C & _). unfold determinant. rewrite R, C, Nat.eqb_refl.
  destruct n as [|[|[|[|[|n]]]]]; lia || reflexivity.
Qed.

Lemma leib_identity n : n <= 4 -> leib n (fun i j => if i =? j then one else zero) = one.
Proof. intros. destruct n as [|[|[|[|[|n]]]]]; [| | | | |lia]; unspec; cbn [Nat.eqb]; ring. Qed.

Lemma leib_two_columns n e k l : n <= 4 -> k < n -> l < n -> k <> l -> (forall i, i < n -> e i k = e i l) -> leib n e = zero.
Proof.
  intros Hn Hk Hl Hkl H.
  destruct n as [|[|[|[|[|n]]]]]; [lia| | | | |lia];
  destruct k as [|[|[|[|k]]]]; try lia; destruct l as [|[|[|[|l]]]]; try lia;
  unspec; rewrite ?(H 0), ?(H 1), ?(H 2), ?(H 3) by lia; ring.
Qed.

Lemma leib_swap n e k l : n <= 4 -> k < n -> l < n -> k <> l -> leib n (swap_columns e k l) = opp (leib n e).
Proof.
  intros Hn Hk Hl Hkl.
  destruct n as [|[|[|[|[|n]]]]]; [lia| | | | |lia];
  destruct k as [|[|[|[|k]]]]; try lia; destruct l as [|[|[|[|l]]]]; try lia;
  unspec; cbv [swap_columns Nat.eqb]; ring.
Qed.

Lemma leib_linear n e k a b x y : n <= 4 -> k < n ->
  (forall i, i < n -> e i k = add (mul a (x i)) (mul b (y i))) ->
  leib n e = add (mul a (leib n (fun i j => if j =? k then x i else e i j)))
                 (mul b (leib n (fun i j => if j =? k then y i else e i j))).
Proof.
  intros Hn Hk H.
  destruct n as [|[|[|[|[|n]]]]]; [lia| | | | |lia];
  destruct k as [|[|[|[|k]]]]; try lia;
  unspec; cbv [Nat.eqb]; rewrite ?(H 0), ?(H 1), ?(H 2), ?(H 3) by lia; ring.
Qed.

Lemma leib_transpose n e : n <= 4 -> leib n (fun i j => e j i) = leib n e.
Proof. intros Hn. destruct n as [|[|[|[|[|n]]]]]; [| | | | |lia]; unspec; ring. Qed.

Lemma leib_mul n e f : n <= 4 ->
  leib n (fun i j => bigsum zero add n (fun l => mul (e i l) (f l j))) = mul (leib n e) (leib n f).
Proof.
  intros Hn. destruct n as [|[|[|[|[|n]]]]]; [| | | | |lia]; unspec; cbv [bigsum fold_left seq]; ring.
Qed.

Lemma product_det M N P n e f : is_matrix M n n e -> is_matrix N n n f -> n <= 4 ->
  mmul zero one add mul M N = Some P -> 0 < n ->
  exists a b, det M = Some a /\ det N = Some b /\ det P = Some (mul a b).
Proof.
  intros HM HN Hn HP H0. exists (leib n e), (leib n f).
  split; [apply determinant_ok; assumption|]. split; [apply determinant_ok; assumption|].
  destruct (mmul_ok zero one add mul (Rmul_1_l Rth) M N n n n e f HM HN H0) as (P' & E & HP').
  assert (P' = P) by congruence. subst P'. rewrite (determinant_ok P n _ HP' Hn). f_equal. apply leib_mul. exact Hn.
Qed.

Definition wvec (n : nat) (e : nat -> nat -> A) (i : nat) : A :=
  leib n (augmented (n - 1) e (unit_vector zero one i)).

Lemma cons_eq (x y : A) l m : x = y -> l = m -> x :: l = y :: m.
Proof. congruence. Qed.
Lemma wedge_ok M n e : is_matrix M n (n - 1) e -> 2 <= n <= 4 ->
  wedge M = Some (map (wvec n e) (seq 0 n)).
Proof.
  intros H Hn. pose proof H as (R & C & _). unfold computeWedgeStuffVector. rewrite R, C.
  destruct n as [|[|[|[|[|n]]]]]; [lia|lia| | | |lia]; cbn [Nat.eqb negb andb Nat.sub];
  entries H; cbn [lift2 option_map vector_of map seq]; cbv [wvec Nat.sub]; unspec;
  cbv [augmented unit_vector Nat.eqb]; apply f_equal; repeat (apply cons_eq; [ring|]); reflexivity.
Qed.

Lemma wedge_inner n e v : 2 <= n <= 4 ->
  inner zero add mul n (wvec n e) v = leib n (augmented (n - 1) e v).
Proof.
  intros Hn. destruct n as [|[|[|[|[|n]]]]]; [lia|lia| | | |lia];
  cbv [wvec Nat.sub inner]; unspec; cbv [augmented unit_vector Nat.eqb]; ring.
Qed.

Lemma wedge_orthogonal n e k : 2 <= n <= 4 -> k < n - 1 ->
  inner zero add mul n (wvec n e) (fun i => e i k) = zero.
Proof.
  intros Hn Hk. rewrite wedge_inner by exact Hn.
  apply (leib_two_columns n _ k (n - 1)); try lia. intros i Hi. unfold augmented.
  rewrite Nat.eqb_refl. replace (k =? n - 1) with false by (symmetry; apply Nat.eqb_neq; lia). reflexivity.
Qed.

Lemma leib_ext n e f : (forall i j, i < n -> j < n -> e i j = f i j) -> n <= 4 -> leib n e = leib n f.
Proof.
  intros H Hn. destruct n as [|[|[|[|[|n]]]]]; [| | | | |lia]; unspec; rewrite ?H by lia; reflexivity.
Qed.

Lemma wedge_swap n e k l : 2 <= n <= 4 -> k < n - 1 -> l < n - 1 -> k <> l ->
  forall i, wvec n (swap_columns e k l) i = opp (wvec n e i).
Proof.
  intros Hn Hk Hl Hkl i. unfold wvec. rewrite <- leib_swap with (k := k) (l := l) by lia.
  apply leib_ext; [|lia]. intros a b Ha Hb. unfold augmented, swap_columns.
  destruct (Nat.eqb_spec b (n - 1)) as [->|Hne].
  - replace (n - 1 =? k) with false by (symmetry; apply Nat.eqb_neq; lia).
    replace (n - 1 =? l) with false by (symmetry; apply Nat.eqb_neq; lia). rewrite Nat.eqb_refl. reflexivity.
  - destruct (Nat.eqb_spec b k).
    + replace (l =? n - 1) with false by (symmetry; apply Nat.eqb_neq; lia). reflexivity.
    + destruct (Nat.eqb_spec b l).
      * replace (k =? n - 1) with false by (symmetry; apply Nat.eqb_neq; lia). reflexivity.
      * replace (b =? n - 1) with false by (symmetry; apply Nat.eqb_neq; lia). reflexivity.
Qed.

(** applying a linear map [J] to the columns and to a vector *)
Lemma wedge_linear_map n J e v : 2 <= n <= 4 ->
  inner zero add mul n (wvec n (fun i j => bigsum zero add n (fun l => mul (J i l) (e l j))))
     (fun i => bigsum zero add n (fun l => mul (J i l) (v l)))
  = mul (leib n J) (inner zero add mul n (wvec n e) v).
Proof.
  intros Hn. rewrite !wedge_inner by exact Hn. rewrite <- leib_mul by lia. apply leib_ext; [|lia].
  intros i j Hi Hj. unfold augmented. destruct (j =? n - 1); reflexivity.
Qed.

Lemma wedge_unsupported M n e : is_matrix M n (n - 1) e -> ~ (2 <= n <= 4) -> wedge M = None.
Proof.
  intros H Hn. pose proof H as (R & C & _). unfold computeWedgeStuffVector. rewrite R, C.
  destruct n as [|[|[|[|[|n]]]]]; try lia; cbn [Nat.eqb negb andb Nat.sub]; try reflexivity.
  destruct (n =? n); reflexivity.
Qed.

Lemma wedge_shape M n m e : is_matrix M n m e -> n <> S m -> wedge M = None.
Proof.
  intros (R & C & _) Hn. unfold computeWedgeStuffVector. rewrite R, C.
  destruct n; [reflexivity|]. cbn [Nat.eqb negb andb].
  replace (m =? S n - 1) with false; [reflexivity|]. symmetry. apply Nat.eqb_neq. lia.
Qed.
Lemma determinant_identity M n : is_matrix M n n (fun i j => if i =? j then one else zero) -> n <= 4 -> det M = Some one.
Proof. intros H Hn. rewrite (determinant_ok M n _ H Hn), leib_identity by exact Hn. reflexivity. Qed.
Lemma determinant_transpose M N n e : is_matrix M n n e -> is_matrix N n n (fun i j => e j i) -> n <= 4 -> det M = det N.
Proof.
  intros HM HN Hn. rewrite (determinant_ok M n _ HM Hn), (determinant_ok N n _ HN Hn), leib_transpose by exact Hn. reflexivity.
Qed.
Lemma determinant_equal_columns M n e k l : is_matrix M n n e -> n <= 4 -> k < n -> l < n -> k <> l ->
  (forall i, i < n -> e i k = e i l) -> det M = Some zero.
Proof.
  intros H Hn Hk Hl Hkl He. rewrite (determinant_ok M n _ H Hn), (leib_two_columns n e k l); auto.
Qed.
Lemma determinant_swap M N n e k l : is_matrix M n n e -> is_matrix N n n (swap_columns e k l) ->
  n <= 4 -> k < n -> l < n -> k <> l -> exists d, det M = Some d /\ det N = Some (opp d).
Proof.
  intros HM HN Hn Hk Hl Hkl. exists (leib n e). split; [apply determinant_ok; assumption|].
  rewrite (determinant_ok N n _ HN Hn), leib_swap by assumption. reflexivity.
Qed.
Lemma determinant_linear M X Y n e k a b x y :
  is_matrix M n n e ->
  is_matrix X n n (fun i j => if j =? k then x i else e i j) ->
  is_matrix Y n n (fun i j => if j =? k then y i else e i j) ->
  n <= 4 -> k < n -> (forall i, i < n -> e i k = add (mul a (x i)) (mul b (y i))) ->
  exists p q, det X = Some p /\ det Y = Some q /\ det M = Some (add (mul a p) (mul b q)).
Proof.
  intros HM HX HY Hn Hk He. eexists. eexists. split; [apply (determinant_ok X n _ HX Hn)|].
  split; [apply (determinant_ok Y n _ HY Hn)|]. rewrite (determinant_ok M n _ HM Hn). f_equal. apply leib_linear; assumption.
Qed.

Lemma wedge_entries M n e : is_matrix M n (n - 1) e -> 2 <= n <= 4 ->
  exists w, wedge M = Some w /\ is_vector w n (fun i => leib n (augmented (n - 1) e (unit_vector zero one i))).
Proof. intros H Hn. eexists. split; [apply wedge_ok; eassumption|]. reflexivity. Qed.
Lemma wedge_inner_det M n e v : is_matrix M n (n - 1) e -> 2 <= n <= 4 ->
  exists w, wedge M = Some (map w (seq 0 n)) /\
    forall D, is_matrix D n n (augmented (n - 1) e v) -> det D = Some (inner zero add mul n w v).
Proof.
  intros H Hn. exists (wvec n e). split; [apply wedge_ok; assumption|]. intros D HD.
  rewrite wedge_inner by exact Hn. apply determinant_ok; [exact HD|apply Hn].
Qed.
Lemma wedge_orthogonal_to M n e : is_matrix M n (n - 1) e -> 2 <= n <= 4 ->
  exists w, wedge M = Some (map w (seq 0 n)) /\
    forall k, k < n - 1 -> inner zero add mul n w (fun i => e i k) = zero.
Proof.
  intros H Hn. exists (wvec n e). split; [apply wedge_ok; assumption|]. intros k Hk. apply wedge_orthogonal; assumption.
Qed.
Lemma wedge_swapped M N n e k l : is_matrix M n (n - 1) e -> is_matrix N n (n - 1) (swap_columns e k l) ->
  2 <= n <= 4 -> k < n - 1 -> l < n - 1 -> k <> l ->
  exists w, wedge M = Some w /\ wedge N = Some (map opp w).
Proof.
  intros HM HN Hn Hk Hl Hkl. eexists. split; [apply wedge_ok; eassumption|].
  rewrite (wedge_ok N n _ HN Hn), map_map. f_equal. apply map_ext. apply wedge_swap; assumption.
Qed.
Lemma wedge_mapped J M JM n j e v : is_matrix J n n j -> is_matrix M n (n - 1) e -> 2 <= n <= 4 ->
  mmul zero one add mul J M = Some JM ->
  exists d w w', det J = Some d /\ wedge M = Some (map w (seq 0 n)) /\ wedge JM = Some (map w' (seq 0 n)) /\
    inner zero add mul n w' (fun i => bigsum zero add n (fun l => mul (j i l) (v l)))
    = mul d (inner zero add mul n w v).
Proof.
  intros HJ HM Hn HP.
  destruct (mmul_ok zero one add mul (Rmul_1_l Rth) J M n n (n - 1) j e HJ HM) as (P' & E & HP'); [lia|].
  assert (P' = JM) by congruence. subst P'.
  eexists. exists (wvec n e). eexists. split; [apply determinant_ok; [exact HJ|lia]|].
  split; [apply wedge_ok; assumption|]. split; [apply (wedge_ok JM n _ HP' Hn)|]. apply wedge_linear_map. exact Hn.
Qed.
End Ring.

Lemma determinant_square A (one : A) add mul sub opp M : nrows M <> ncols M -> determinant one add mul sub opp M = None.
Proof. intros H. unfold determinant. apply Nat.eqb_neq in H. rewrite H. reflexivity. Qed.
Lemma wedge_refused A (add mul sub : A -> A -> A) opp M n m e :
  is_matrix M n m e -> ~ (n = S m /\ 2 <= n <= 4) -> computeWedgeStuffVector add mul sub opp M = None.
Proof.
  intros H Hn. destruct (Nat.eq_dec n (S m)) as [->|Hne].
  - apply (wedge_unsupported add mul sub opp M (S m) e); [cbn [Nat.sub]; rewrite Nat.sub_0_r; exact H|lia].
  - apply (wedge_shape add mul sub opp M n m e H Hne).
Qed.
