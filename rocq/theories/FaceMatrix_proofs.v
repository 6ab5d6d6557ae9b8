From Coq Require Import List Arith Bool Lia.
From Verif Require Import Loop_model Loop_proofs Matrix_model Matrix_spec Matrix_proofs FaceMatrix_model FaceMatrix_spec.
Import ListNotations.



Lemma inblock_spec di ni dj nj a b : inblock di ni dj nj a b = true <-> (di <= a < di + ni /\ dj <= b < dj + nj).
Proof.
  unfold inblock. rewrite !andb_true_iff, !Nat.leb_le, !Nat.ltb_lt. tauto.
Qed.

Lemma copy_ok {A} ni nj di dj si sj (src : matrix A) r c e (dst : matrix A) :
  is_matrix src r c e -> wf dst -> si + ni <= r -> sj + nj <= c -> di + ni <= nrows dst -> dj + nj <= ncols dst ->
  exists M, copy_loops ni nj di dj si sj src dst = Some M /\ nrows M = nrows dst /\ ncols M = ncols dst /\ wf M /\
    forall a b, a < nrows dst -> b < ncols dst ->
      mget M a b = if inblock di ni dj nj a b then Some (e (si + (a - di)) (sj + (b - dj))) else mget dst a b.
Proof.
  intros (R & C & W & E) Wd H1 H2 H3 H4. unfold copy_loops.
  destruct (assign_loops dst ni nj (fun i j => di + i) (fun i j => dj + j)
    (fun i j d => match mget src (si + i) (sj + j) with None => None | Some x => mset d (di + i) (dj + j) x end)
    (fun a b => e (si + (a - di)) (sj + (b - dj)))) as (M & EM & (R' & C' & W' & E')).
  - exact Wd.
  - intros i j Hi Hj. lia.
  - intros i j M Hi Hj. rewrite E, inr_true by lia.
    replace (di + i - di) with i by lia. replace (dj + j - dj) with j by lia. reflexivity.
  - exists M. split; [exact EM|]. split; [exact R'|]. split; [exact C'|]. split; [exact W'|].
    intros a b Ha Hb. rewrite E' by assumption. cbn beta.
    match goal with |- (if ?x then _ else _) = _ => assert (X : x = inblock di ni dj nj a b) end.
    { apply eq_true_iff_eq. rewrite existsb2, inblock_spec. split.
      - intros (i & j & Hi & Hj & H). bsplit. lia.
      - intros [Ha' Hb']. exists (a - di), (b - dj). split; [lia|]. split; [lia|].
        apply andb_true_intro. split; apply Nat.eqb_eq; lia. }
    rewrite X. reflexivity.
Qed.

Lemma fm_unique {A} (F G : FaceMatrix A) nl nr e e' : is_face_matrix F nl nr e -> is_face_matrix G nl nr e' ->
  (forall i j, i < nl + nr -> j < nl + nr -> e i j = e' i j) -> F = G.
Proof.
  intros HF HG H. destruct F as [a b c d], G as [a' b' c' d'].
  assert (B : forall s t, getElementMatrix (FM a b c d) s t = getElementMatrix (FM a' b' c' d') s t).
  { intros s t. eapply is_matrix_unique; [apply (HF s t)|apply (HG s t)|].
    intros i j Hi Hj. apply H; destruct s, t; cbn in *; lia. }
  pose proof (B LEFT LEFT) as E1. pose proof (B LEFT RIGHT) as E2. pose proof (B RIGHT LEFT) as E3. pose proof (B RIGHT RIGHT) as E4.
  cbn in E1, E2, E3, E4. congruence.
Qed.

Lemma fm_dofs_ok {A} (F : FaceMatrix A) nl nr e s : is_face_matrix F nl nr e -> fm_dofs F s = size_of nl nr s.
Proof. intros H. destruct s; [apply (H LEFT LEFT)|apply (H RIGHT RIGHT)]. Qed.

Lemma fm_new_ok {A} (zero : A) nl nr : is_face_matrix (fm_new zero nl nr) nl nr (fun _ _ => zero).
Proof. intros [] []; apply mfill_is. Qed.

(** sides of a face index *)
Definition side_of (nl i : nat) : Side := if i <? nl then LEFT else RIGHT.
Definition pos_of (nl i : nat) : nat := if i <? nl then i else i - nl.

Lemma locate_eq {A} (F : FaceMatrix A) nl nr e i j : is_face_matrix F nl nr e ->
  fm_locate F i j = (side_of nl i, side_of nl j, pos_of nl i, pos_of nl j).
Proof.
  intros H. unfold fm_locate. replace (nrows (LL F)) with nl by (symmetry; apply (H LEFT LEFT)).
  unfold side_of, pos_of. destruct (i <? nl), (j <? nl); reflexivity.
Qed.

Lemma pos_lt nl nr i : i < nl + nr -> pos_of nl i < size_of nl nr (side_of nl i).
Proof. unfold pos_of, side_of. intros. destruct (Nat.ltb_spec i nl); cbn; lia. Qed.
Lemma pos_glob nl i : first_of nl (side_of nl i) + pos_of nl i = i.
Proof. unfold pos_of, side_of. destruct (Nat.ltb_spec i nl); cbn; lia. Qed.
Lemma side_first nl nr s k : k < size_of nl nr s -> side_of nl (first_of nl s + k) = s.
Proof. unfold side_of. destruct s; cbn [first_of size_of Nat.add]; intros; [destruct (Nat.ltb_spec k nl)|destruct (Nat.ltb_spec (nl + k) nl)]; try lia; reflexivity. Qed.
Lemma pos_first nl nr s k : k < size_of nl nr s -> pos_of nl (first_of nl s + k) = k.
Proof. unfold pos_of. destruct s; cbn [first_of size_of Nat.add]; intros; [destruct (Nat.ltb_spec k nl)|destruct (Nat.ltb_spec (nl + k) nl)]; lia. Qed.
Lemma first_lt nl nr s k : k < size_of nl nr s -> first_of nl s + k < nl + nr.
Proof. destruct s; cbn; lia. Qed.

Lemma in_range_eq {A} (F : FaceMatrix A) nl nr e i j : is_face_matrix F nl nr e ->
  fm_in_range F i j = (i <? nl + nr) && (j <? nl + nr).
Proof. intros H. unfold fm_in_range. rewrite !(fm_dofs_ok _ _ _ _ _ H). reflexivity. Qed.

Lemma fm_get_ok {A} (F : FaceMatrix A) nl nr e : is_face_matrix F nl nr e ->
  forall i j, fm_get F i j = if (i <? nl + nr) && (j <? nl + nr) then Some (e i j) else None.
Proof.
  intros H i j. unfold fm_get. rewrite (in_range_eq _ _ _ _ _ _ H), (locate_eq _ _ _ _ _ _ H).
  destruct ((i <? nl + nr) && (j <? nl + nr)) eqn:E; [|reflexivity]. bsplit.
  destruct (H (side_of nl i) (side_of nl j)) as (_ & _ & _ & G). rewrite G.
  rewrite inr_true by (apply pos_lt; assumption). rewrite !pos_glob. reflexivity.
Qed.

Lemma fm_get_side_ok {A} (F : FaceMatrix A) nl nr e : is_face_matrix F nl nr e ->
  forall s t i j, fm_get_side F s t i j =
    if (i <? size_of nl nr s) && (j <? size_of nl nr t) then Some (e (first_of nl s + i) (first_of nl t + j)) else None.
Proof.
  intros H s t i j. unfold fm_get_side. rewrite !(fm_dofs_ok _ _ _ _ _ H).
  destruct ((i <? size_of nl nr s) && (j <? size_of nl nr t)) eqn:E; [|reflexivity].
  destruct (H s t) as (_ & _ & _ & G). rewrite G, E. reflexivity.
Qed.

Lemma put_block_same {A} (F : FaceMatrix A) s t M : getElementMatrix (put_block F s t M) s t = M.
Proof. destruct s, t; reflexivity. Qed.
Lemma put_block_other {A} (F : FaceMatrix A) s t s' t' M : (s, t) <> (s', t') ->
  getElementMatrix (put_block F s t M) s' t' = getElementMatrix F s' t'.
Proof. destruct s, t, s', t'; intros H; try reflexivity; congruence. Qed.

Lemma pair_dec (s t s' t' : Side) : {(s, t) = (s', t')} + {(s, t) <> (s', t')}.
Proof. destruct s, t, s', t'; (left; reflexivity) || (right; congruence). Qed.

Lemma fm_set_block {A} (F : FaceMatrix A) nl nr e s t k l x : is_face_matrix F nl nr e ->
  k < size_of nl nr s -> l < size_of nl nr t ->
  exists M, mset (getElementMatrix F s t) k l x = Some M /\
    is_face_matrix (put_block F s t M) nl nr
      (fun i j => if (i =? first_of nl s + k) && (j =? first_of nl t + l) then x else e i j).
Proof.
  intros H Hk Hl. destruct (H s t) as (R & C & W & G).
  destruct (mset_ok (getElementMatrix F s t) k l x W) as (M & E & R' & C' & W' & G'); [lia|lia|].
  exists M. split; [exact E|]. intros s' t'. destruct (pair_dec s t s' t') as [Heq|Hne].
  - inversion Heq; subst s' t'. rewrite put_block_same. split; [lia|]. split; [lia|]. split; [exact W'|].
    intros i j. rewrite G', G.
    replace (first_of nl s + i =? first_of nl s + k) with (i =? k) by (destruct (Nat.eqb_spec i k); symmetry; [apply Nat.eqb_eq|apply Nat.eqb_neq]; lia).
    replace (first_of nl t + j =? first_of nl t + l) with (j =? l) by (destruct (Nat.eqb_spec j l); symmetry; [apply Nat.eqb_eq|apply Nat.eqb_neq]; lia).
    destruct ((i =? k) && (j =? l)) eqn:D; [|reflexivity]. bsplit. subst.
    rewrite inr_true by assumption. reflexivity.
  - rewrite put_block_other by assumption. destruct (H s' t') as (R2 & C2 & W2 & G2).
    split; [exact R2|]. split; [exact C2|]. split; [exact W2|]. intros i j. rewrite G2.
    destruct ((i <? size_of nl nr s') && (j <? size_of nl nr t')) eqn:D; [|reflexivity]. bsplit.
    destruct ((first_of nl s' + i =? first_of nl s + k) && (first_of nl t' + j =? first_of nl t + l)) eqn:D2; [|reflexivity].
    bsplit. exfalso. apply Hne. destruct s, t, s', t'; cbn in *; try reflexivity; lia.
Qed.

Lemma fm_set_ok {A} (F : FaceMatrix A) nl nr e i j x : is_face_matrix F nl nr e -> i < nl + nr -> j < nl + nr ->
  exists F', fm_set F i j x = Some F' /\
    is_face_matrix F' nl nr (fun a b => if (a =? i) && (b =? j) then x else e a b).
Proof.
  intros H Hi Hj. unfold fm_set. rewrite (in_range_eq _ _ _ _ _ _ H), (locate_eq _ _ _ _ _ _ H), inr_true by assumption.
  destruct (fm_set_block F nl nr e (side_of nl i) (side_of nl j) (pos_of nl i) (pos_of nl j) x H) as (M & E & HM);
    [apply pos_lt; assumption|apply pos_lt; assumption|].
  rewrite !pos_glob in HM. rewrite E. eexists. split; [reflexivity|exact HM].
Qed.

Lemma fm_set_side_ok {A} (F : FaceMatrix A) nl nr e s t i j x : is_face_matrix F nl nr e ->
  i < size_of nl nr s -> j < size_of nl nr t ->
  exists F', fm_set_side F s t i j x = Some F' /\ fm_set F (first_of nl s + i) (first_of nl t + j) x = Some F' /\
    is_face_matrix F' nl nr (fun a b => if (a =? first_of nl s + i) && (b =? first_of nl t + j) then x else e a b).
Proof.
  intros H Hi Hj. destruct (fm_set_block F nl nr e s t i j x H Hi Hj) as (M & E & HM).
  exists (put_block F s t M). split; [|split; [|exact HM]].
  - unfold fm_set_side. rewrite !(fm_dofs_ok _ _ _ _ _ H), inr_true, E by assumption. reflexivity.
  - unfold fm_set. rewrite (in_range_eq _ _ _ _ _ _ H), (locate_eq _ _ _ _ _ _ H).
    rewrite inr_true by (apply first_lt; assumption).
    rewrite !(side_first nl nr), !(pos_first nl nr _ _ Hi), !(pos_first nl nr _ _ Hj), E by assumption. reflexivity.
Qed.

Lemma setElementMatrix_ok {A} (F : FaceMatrix A) nl nr e s t M m : is_face_matrix F nl nr e ->
  is_matrix M (size_of nl nr s) (size_of nl nr t) m ->
  exists F', setElementMatrix F M s t = Some F' /\ getElementMatrix F' s t = M /\
    (forall s' t', (s, t) <> (s', t') -> getElementMatrix F' s' t' = getElementMatrix F s' t') /\
    is_face_matrix F' nl nr (fun i j =>
      if inblock (first_of nl s) (size_of nl nr s) (first_of nl t) (size_of nl nr t) i j
      then m (i - first_of nl s) (j - first_of nl t) else e i j).
Proof.
  intros H HM. pose proof HM as (R & C & W & G). unfold setElementMatrix.
  rewrite !(fm_dofs_ok _ _ _ _ _ H), R, C, !Nat.eqb_refl. cbn [andb].
  eexists. split; [reflexivity|]. split; [apply put_block_same|]. split; [intros; apply put_block_other; assumption|].
  intros s' t'. destruct (pair_dec s t s' t') as [Heq|Hne].
  - inversion Heq; subst s' t'. rewrite put_block_same. split; [exact R|]. split; [exact C|]. split; [exact W|].
    intros i j. rewrite G. destruct ((i <? size_of nl nr s) && (j <? size_of nl nr t)) eqn:D; [|reflexivity]. bsplit.
    replace (inblock _ _ _ _ _ _) with true by (symmetry; apply inblock_spec; lia).
    replace (first_of nl s + i - first_of nl s) with i by lia.
    replace (first_of nl t + j - first_of nl t) with j by lia. reflexivity.
  - rewrite put_block_other by assumption. destruct (H s' t') as (R2 & C2 & W2 & G2).
    split; [exact R2|]. split; [exact C2|]. split; [exact W2|]. intros i j. rewrite G2.
    destruct ((i <? size_of nl nr s') && (j <? size_of nl nr t')) eqn:D; [|reflexivity]. bsplit.
    replace (inblock _ _ _ _ _ _) with false; [reflexivity|]. symmetry. apply not_true_iff_false.
    intros X. apply inblock_spec in X. apply Hne. destruct s, t, s', t'; cbn in *; try reflexivity; lia.
Qed.

Lemma fm_add_ok {A} (add : A -> A -> A) F G nl nr e e' : is_face_matrix F nl nr e -> is_face_matrix G nl nr e' ->
  exists P, fm_add add F G = Some P /\ is_face_matrix P nl nr (fun i j => add (e i j) (e' i j)).
Proof.
  intros HF HG. unfold fm_add, blockwise2.
  destruct (combine_ok add _ _ _ _ _ _ (HF LEFT LEFT) (HG LEFT LEFT)) as (a & Ea & Ha).
  destruct (combine_ok add _ _ _ _ _ _ (HF LEFT RIGHT) (HG LEFT RIGHT)) as (b & Eb & Hb).
  destruct (combine_ok add _ _ _ _ _ _ (HF RIGHT LEFT) (HG RIGHT LEFT)) as (c & Ec & Hc).
  destruct (combine_ok add _ _ _ _ _ _ (HF RIGHT RIGHT) (HG RIGHT RIGHT)) as (d & Ed & Hd).
  cbn [getElementMatrix] in *. rewrite Ea, Eb, Ec, Ed. eexists. split; [reflexivity|].
  intros [] []; assumption.
Qed.

Lemma fm_scale_ok {A} (mul : A -> A -> A) x F nl nr e : is_face_matrix F nl nr e ->
  exists P, fm_scale mul x F = Some P /\ is_face_matrix P nl nr (fun i j => mul (e i j) x).
Proof.
  intros HF. unfold fm_scale, blockwise. eexists. split; [reflexivity|].
  intros s t. pose proof (scale_ok mul x _ _ _ _ (HF s t)) as H. destruct s, t; exact H.
Qed.

Lemma fm_axpy_ok {A} (add mul : A -> A -> A) a x y nl nr e e' : is_face_matrix x nl nr e -> is_face_matrix y nl nr e' ->
  exists P, fm_axpy add mul a x y = Some P /\ is_face_matrix P nl nr (fun i j => add (mul a (e i j)) (e' i j)).
Proof.
  intros HF HG. unfold fm_axpy, blockwise2.
  destruct (axpy_ok add mul a _ _ _ _ _ _ (HF LEFT LEFT) (HG LEFT LEFT)) as (m1 & Ea & Ha).
  destruct (axpy_ok add mul a _ _ _ _ _ _ (HF LEFT RIGHT) (HG LEFT RIGHT)) as (m2 & Eb & Hb).
  destruct (axpy_ok add mul a _ _ _ _ _ _ (HF RIGHT LEFT) (HG RIGHT LEFT)) as (m3 & Ec & Hc).
  destruct (axpy_ok add mul a _ _ _ _ _ _ (HF RIGHT RIGHT) (HG RIGHT RIGHT)) as (m4 & Ed & Hd).
  cbn [getElementMatrix] in *. rewrite Ea, Eb, Ec, Ed. eexists. split; [reflexivity|].
  intros [] []; assumption.
Qed.

Ltac blk := repeat match goal with
  | |- context [inblock ?a ?b ?c ?d ?i ?j] =>
      let E := fresh "B" in destruct (inblock a b c d i j) eqn:E;
      [apply inblock_spec in E | apply not_true_iff_false in E; rewrite inblock_spec in E]
  end.

Lemma getEntire_ok {A} (zero : A) F nl nr e : is_face_matrix F nl nr e ->
  exists M, getEntireMatrix zero F = Some M /\ is_matrix M (nl + nr) (nl + nr) e.
Proof.
  intros H. unfold getEntireMatrix.
  replace (nrows (LL F)) with nl by (symmetry; apply (H LEFT LEFT)).
  replace (nrows (RR F)) with nr by (symmetry; apply (H RIGHT RIGHT)).
  pose proof (H LEFT LEFT) as H1. pose proof (H LEFT RIGHT) as H2. pose proof (H RIGHT LEFT) as H3. pose proof (H RIGHT RIGHT) as H4.
  cbn [getElementMatrix size_of first_of] in *.
  destruct (mfill_is (nl + nr) (nl + nr) zero) as (R0 & C0 & W0 & _).
  set (M0 := mfill (nl + nr) (nl + nr) zero) in *.
  destruct (copy_ok nl nl 0 0 0 0 (LL F) nl nl _ M0 H1 W0) as (M1 & E1 & R1 & C1 & W1 & G1); [lia|lia|lia|lia|].
  rewrite E1. cbn [andthen].
  destruct (copy_ok nl nr 0 nl 0 0 (LR F) nl nr _ M1 H2 W1) as (M2 & E2 & R2 & C2 & W2 & G2); [lia|lia|lia|lia|].
  rewrite E2. cbn [andthen].
  destruct (copy_ok nr nl nl 0 0 0 (RL F) nr nl _ M2 H3 W2) as (M3 & E3 & R3 & C3 & W3 & G3); [lia|lia|lia|lia|].
  rewrite E3. cbn [andthen].
  destruct (copy_ok nr nr nl nl 0 0 (RR F) nr nr _ M3 H4 W3) as (M4 & E4 & R4 & C4 & W4 & G4); [lia|lia|lia|lia|].
  exists M4. split; [exact E4|]. split; [lia|]. split; [lia|]. split; [exact W4|].
  intros i j. destruct ((i <? nl + nr) && (j <? nl + nr)) eqn:D.
  - bsplit. rewrite G4, G3, G2, G1 by lia. blk; try lia; f_equal; f_equal; lia.
  - unfold mget. rewrite R4, C4, R3, C3, R2, C2, R1, C1, R0, C0, D. reflexivity.
Qed.

Lemma block_from_copy {A} (B N : matrix A) r c si sj M R C e :
  is_matrix M R C e -> wf B -> nrows B = r -> ncols B = c -> si + r <= R -> sj + c <= C ->
  exists N, copy_loops r c 0 0 si sj M B = Some N /\ is_matrix N r c (fun i j => e (si + i) (sj + j)).
Proof.
  intros HM WB RB CB H1 H2.
  destruct (copy_ok r c 0 0 si sj M R C e B HM WB) as (N1 & E1 & R1 & C1 & W1 & G1); [lia|lia|lia|lia|].
  exists N1. split; [exact E1|]. split; [lia|]. split; [lia|]. split; [exact W1|]. intros i j.
  destruct ((i <? r) && (j <? c)) eqn:D.
  - bsplit. rewrite G1 by lia. blk; [f_equal; f_equal; lia|lia].
  - unfold mget. rewrite R1, C1, RB, CB, D. reflexivity.
Qed.

Lemma setEntire_ok {A} (F : FaceMatrix A) nl nr M e : fm_wf F nl nr -> is_matrix M (nl + nr) (nl + nr) e ->
  exists F', setEntireMatrix F M = Some F' /\ is_face_matrix F' nl nr e.
Proof.
  intros HF HM. unfold setEntireMatrix.
  replace (nrows (LL F)) with nl by (symmetry; apply (HF LEFT LEFT)).
  replace (nrows (RR F)) with nr by (symmetry; apply (HF RIGHT RIGHT)).
  pose proof HM as (R & C & _ & _). rewrite R, C, Nat.eqb_refl. cbn [andb].
  destruct (HF LEFT LEFT) as (w1 & r1 & c1). destruct (HF LEFT RIGHT) as (w2 & r2 & c2).
  destruct (HF RIGHT LEFT) as (w3 & r3 & c3). destruct (HF RIGHT RIGHT) as (w4 & r4 & c4).
  cbn [getElementMatrix size_of] in *.
  destruct (block_from_copy (LL F) (LL F) nl nl 0 0 M _ _ e HM w1 r1 c1) as (a & Ea & Ha); [lia|lia|].
  destruct (block_from_copy (LR F) (LL F) nl nr 0 nl M _ _ e HM w2 r2 c2) as (b & Eb & Hb); [lia|lia|].
  destruct (block_from_copy (RL F) (LL F) nr nl nl 0 M _ _ e HM w3 r3 c3) as (c & Ec & Hc); [lia|lia|].
  destruct (block_from_copy (RR F) (LL F) nr nr nl nl M _ _ e HM w4 r4 c4) as (d & Ed & Hd); [lia|lia|].
  rewrite Ea, Eb, Ec, Ed. cbn [andthen]. eexists. split; [reflexivity|].
  intros [] []; assumption.
Qed.

Lemma is_fm_wf {A} (F : FaceMatrix A) nl nr e : is_face_matrix F nl nr e -> fm_wf F nl nr.
Proof. intros H s t. destruct (H s t) as (R & C & W & _). auto. Qed.

Lemma fm_wf_is {A} (F : FaceMatrix A) (d : A) nl nr : fm_wf F nl nr ->
  exists e, is_face_matrix F nl nr e.
Proof.
  intros H.
  exists (fun i j => match mget (getElementMatrix F (side_of nl i) (side_of nl j)) (pos_of nl i) (pos_of nl j) with Some x => x | None => d end).
  intros s t. destruct (H s t) as (W & R & C). split; [exact R|]. split; [exact C|]. split; [exact W|].
  intros i j. destruct ((i <? size_of nl nr s) && (j <? size_of nl nr t)) eqn:D.
  - bsplit. rewrite !(side_first nl nr), !(pos_first nl nr s), !(pos_first nl nr t) by assumption.
    destruct (proj2 (mget_some (getElementMatrix F s t) i j W)) as (x & ->); [lia|reflexivity].
  - unfold mget. rewrite R, C, D. reflexivity.
Qed.

Lemma entire_roundtrip {A} (zero : A) F nl nr M : fm_wf F nl nr -> wf M -> nrows M = nl + nr -> ncols M = nl + nr ->
  exists F', setEntireMatrix F M = Some F' /\ fm_wf F' nl nr /\ getEntireMatrix zero F' = Some M.
Proof.
  intros HF W R C. pose proof (is_matrix_entries M zero W) as HM. rewrite R, C in HM.
  destruct (setEntire_ok F nl nr M _ HF HM) as (F' & E & HF').
  exists F'. split; [exact E|]. split; [eapply is_fm_wf; exact HF'|].
  destruct (getEntire_ok zero F' nl nr _ HF') as (M' & E' & HM'). rewrite E'. f_equal.
  eapply is_matrix_unique; [exact HM'|exact HM|reflexivity].
Qed.

Lemma entire_roundtrip' {A} (zero : A) F G nl nr : fm_wf F nl nr -> fm_wf G nl nr ->
  exists M, getEntireMatrix zero F = Some M /\ setEntireMatrix G M = Some F.
Proof.
  intros HF HG. destruct (fm_wf_is F zero nl nr HF) as (e & He).
  destruct (getEntire_ok zero F nl nr e He) as (M & E & HM). exists M. split; [exact E|].
  destruct (setEntire_ok G nl nr M e HG HM) as (F' & E' & HF'). rewrite E'. f_equal.
  eapply fm_unique; [exact HF'|exact He|reflexivity].
Qed.

(** ** FaceData *)
Lemma mresize_sizes {A} (zero : A) M r c : wf (mresize zero M r c) /\ nrows (mresize zero M r c) = r /\ ncols (mresize zero M r c) = c.
Proof. split; [unfold wf, mresize; cbn; apply vresize_length|split; reflexivity]. Qed.
Lemma fm_resize_wf {A} (zero : A) F nl nr : fm_wf (fm_resize zero F nl nr) nl nr.
Proof. intros [] []; apply mresize_sizes. Qed.

Lemma grow_nth {X} (l : list X) id d : exists x, nth_error (if length l <=? id then vresize l (id + 1) d else l) id = Some x.
Proof.
  match goal with |- exists x, ?t = _ => destruct t eqn:E end; [eauto|].
  apply nth_error_None in E. destruct (Nat.leb_spec (length l) id); [rewrite vresize_length in E|]; lia.
Qed.

Lemma grow_write {X} (l : list X) id d x :
  exists l', write (if length l <=? id then vresize l (id + 1) d else l) id x = Some l' /\
    length l' = Nat.max (length l) (id + 1) /\
    nth_error l' id = Some x /\
    (forall k, k < length l -> k <> id -> nth_error l' k = nth_error l k) /\
    (forall k, length l <= k -> k < id -> nth_error l' k = Some d).
Proof.
  set (g := if length l <=? id then vresize l (id + 1) d else l).
  assert (Lg : length g = Nat.max (length l) (id + 1)).
  { unfold g. destruct (Nat.leb_spec (length l) id); [rewrite vresize_length|]; lia. }
  destruct (write_ok g id x) as (l' & E & L & N); [lia|].
  exists l'. split; [exact E|]. split; [lia|]. split; [rewrite N, Nat.eqb_refl; reflexivity|]. split.
  - intros k Hk Hne. rewrite N. replace (k =? id) with false by (symmetry; apply Nat.eqb_neq; exact Hne).
    unfold g. destruct (Nat.leb_spec (length l) id); [|reflexivity]. rewrite vresize_nth by lia.
    replace (k <? length l) with true by (symmetry; apply Nat.ltb_lt; exact Hk). reflexivity.
  - intros k Hk Hki. rewrite N. replace (k =? id) with false by (symmetry; apply Nat.eqb_neq; lia).
    unfold g. replace (length l <=? id) with true by (symmetry; apply Nat.leb_le; lia). rewrite vresize_nth by lia.
    replace (k <? length l) with false by (symmetry; apply Nat.ltb_ge; exact Hk). reflexivity.
Qed.

Lemma setFaceMatrix_ok {A} (D : FaceData A) F id :
  exists D', setFaceMatrix D F id = Some D' /\ getFaceMatrix D' id = Some F /\
    (forall k, k < length (faceMatrix_ D) -> k <> id -> getFaceMatrix D' k = getFaceMatrix D k) /\
    (forall k, getFaceVector D' k = getFaceVector D k).
Proof.
  unfold setFaceMatrix. destruct (grow_write (faceMatrix_ D) id fm_empty F) as (l' & E & L & N & O & _).
  rewrite E. eexists. split; [reflexivity|]. split; [exact N|]. split; [exact O|]. reflexivity.
Qed.

Lemma setFaceVector_ok {A} (D : FaceData A) v id :
  exists D', setFaceVector D v id = Some D' /\ getFaceVector D' id = Some v /\
    (forall k, k < length (faceVector_ D) -> k <> id -> getFaceVector D' k = getFaceVector D k) /\
    (forall k, getFaceMatrix D' k = getFaceMatrix D k).
Proof.
  unfold setFaceVector. destruct (grow_write (faceVector_ D) id [] v) as (l' & E & L & N & O & _).
  rewrite E. eexists. split; [reflexivity|]. split; [exact N|]. split; [exact O|]. reflexivity.
Qed.

Lemma setFaceMatrix_dense_ok {A} (zero : A) (D : FaceData A) M n id : wf M -> nrows M = n -> ncols M = n ->
  exists D' F, setFaceMatrix_dense zero D M id = Some D' /\ getFaceMatrix D' id = Some F /\
    fm_wf F (n / 2) (n - n / 2) /\
    getFaceMatrixMatrix zero D' id = Some M /\
    (forall k, k < length (faceMatrix_ D) -> k <> id -> getFaceMatrix D' k = getFaceMatrix D k) /\
    (forall k, getFaceVector D' k = getFaceVector D k).
Proof.
  intros W R C. unfold setFaceMatrix_dense. rewrite R, C, Nat.eqb_refl.
  destruct (grow_nth (faceMatrix_ D) id fm_empty) as (F0 & EF0). rewrite EF0.
  assert (Hn : n / 2 <= n) by (apply Nat.div_le_upper_bound; lia).
  destruct (entire_roundtrip zero (fm_resize zero F0 (n / 2) (n - n / 2)) (n / 2) (n - n / 2) M) as (F & EF & WF & GF);
    [apply fm_resize_wf|exact W|lia|lia|].
  rewrite EF. destruct (grow_write (faceMatrix_ D) id fm_empty F) as (l' & E & L & N & O & _). rewrite E.
  eexists. exists F. split; [reflexivity|]. split; [exact N|]. split; [exact WF|].
  split; [unfold getFaceMatrixMatrix; cbn [faceMatrix_]; rewrite N; exact GF|]. split; [exact O|reflexivity].
Qed.
