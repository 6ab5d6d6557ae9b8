From Coq Require Import List Arith Bool Lia.
From Verif Require Import Loop_model Loop_proofs Matrix_model Matrix_spec.
Import ListNotations.

Lemma idx_lt r c i j : i < r -> j < c -> i + j * r < r * c.
Proof. intros. assert (j * r + r <= c * r) by (replace (j * r + r) with (S j * r) by lia; apply Nat.mul_le_mono_r; lia). lia. Qed.

Lemma idx_inj r i j i' j' : i < r -> i' < r -> i + j * r = i' + j' * r -> i = i' /\ j = j'.
Proof.
  intros Hi Hi' H. assert (j = j').
  { assert (E : (i + j * r) / r = (i' + j' * r) / r) by (rewrite H; reflexivity).
    rewrite !Nat.div_add in E by lia. rewrite (Nat.div_small i r Hi), (Nat.div_small i' r Hi') in E. lia. }
  subst. lia.
Qed.

Lemma idx_surj r c k : k < r * c -> exists i j, i < r /\ j < c /\ k = i + j * r.
Proof.
  intros H. assert (r <> 0) by (intros ->; cbn in H; lia).
  exists (k mod r), (k / r). split; [apply Nat.mod_upper_bound; exact H0|]. split.
  - apply Nat.div_lt_upper_bound; assumption.
  - rewrite (Nat.div_mod k r H0) at 1. lia.
Qed.

Ltac bsplit := repeat match goal with
  | H : (_ && _) = true |- _ => apply andb_prop in H as [? ?]
  | H : (_ <? _) = true |- _ => apply Nat.ltb_lt in H
  | H : (_ <? _) = false |- _ => apply Nat.ltb_ge in H
  | H : (_ =? _) = true |- _ => apply Nat.eqb_eq in H
  | H : (_ =? _) = false |- _ => apply Nat.eqb_neq in H
  end.

Lemma inr_true i j r c : i < r -> j < c -> (i <? r) && (j <? c) = true.
Proof. intros. apply andb_true_intro. split; apply Nat.ltb_lt; assumption. Qed.

Lemma mget_in {A} (M : matrix A) i j : i < nrows M -> j < ncols M ->
  mget M i j = nth_error (data M) (i + j * nrows M).
Proof. intros. unfold mget. rewrite inr_true by assumption. reflexivity. Qed.

Lemma mget_some {A} (M : matrix A) i j : wf M ->
  (exists x, mget M i j = Some x) <-> (i < nrows M /\ j < ncols M).
Proof.
  intros Hw. unfold mget. split.
  - intros [x H]. destruct ((i <? nrows M) && (j <? ncols M)) eqn:E; [|discriminate]. bsplit. auto.
  - intros [Hi Hj]. rewrite inr_true by assumption.
    destruct (nth_error (data M) (i + j * nrows M)) eqn:E; [eauto|].
    apply nth_error_None in E. rewrite Hw in E. pose proof (idx_lt _ _ _ _ Hi Hj). lia.
Qed.

Lemma mset_ok {A} (M : matrix A) n m x : wf M -> n < nrows M -> m < ncols M ->
  exists M', mset M n m x = Some M' /\ nrows M' = nrows M /\ ncols M' = ncols M /\ wf M' /\
    forall i j, mget M' i j = if (i =? n) && (j =? m) then Some x else mget M i j.
Proof.
  intros Hw Hn Hm. unfold mset. rewrite inr_true by assumption.
  destruct (write_ok (data M) (n + m * nrows M) x) as (d & E & L & N).
  { rewrite Hw. apply idx_lt; assumption. }
  rewrite E. eexists. split; [reflexivity|]. cbn [nrows ncols data]. split; [reflexivity|]. split; [reflexivity|].
  split; [unfold wf; cbn [nrows ncols data]; rewrite L; exact Hw|].
  intros i j. unfold mget. cbn [nrows ncols data].
  destruct ((i <? nrows M) && (j <? ncols M)) eqn:Eij.
  - bsplit. rewrite N. destruct (Nat.eqb_spec (i + j * nrows M) (n + m * nrows M)) as [Heq|Hne].
    + apply idx_inj in Heq as [-> ->]; [|assumption|assumption]. rewrite !Nat.eqb_refl. reflexivity.
    + destruct ((i =? n) && (j =? m)) eqn:E2; [|reflexivity]. bsplit. subst. contradiction.
  - destruct ((i =? n) && (j =? m)) eqn:E2; [|reflexivity]. bsplit. subst. rewrite inr_true in Eij by assumption. discriminate.
Qed.

Lemma mset_out {A} (M : matrix A) n m x : ~ (n < nrows M /\ m < ncols M) -> mset M n m x = None.
Proof.
  intros H. unfold mset. destruct ((n <? nrows M) && (m <? ncols M)) eqn:E; [|reflexivity].
  bsplit. tauto.
Qed.

Lemma mat_ext {A} (M N : matrix A) : wf M -> wf N -> nrows M = nrows N -> ncols M = ncols N ->
  (forall i j, i < nrows M -> j < ncols M -> mget M i j = mget N i j) -> M = N.
Proof.
  destruct M as [r c d], N as [r' c' d']. unfold wf. cbn [nrows ncols data]. intros Hw Hw' -> -> H.
  f_equal. apply nth_error_ext_le; [lia|]. intros k Hk. rewrite Hw in Hk.
  destruct (idx_surj _ _ _ Hk) as (i & j & Hi & Hj & ->).
  specialize (H i j Hi Hj). rewrite !mget_in in H by assumption. exact H.
Qed.

Lemma is_matrix_entries {A} (M : matrix A) (d : A) : wf M ->
  is_matrix M (nrows M) (ncols M) (fun i j => nth (i + j * nrows M) (data M) d).
Proof.
  intros Hw. split; [reflexivity|]. split; [reflexivity|]. split; [exact Hw|].
  intros i j. unfold mget. destruct ((i <? nrows M) && (j <? ncols M)) eqn:E; [|reflexivity].
  bsplit. apply nth_error_nth'. rewrite Hw. apply idx_lt; assumption.
Qed.

Lemma is_matrix_unique {A} (M N : matrix A) r c e e' : is_matrix M r c e -> is_matrix N r c e' ->
  (forall i j, i < r -> j < c -> e i j = e' i j) -> M = N.
Proof.
  intros (R & C & W & E) (R' & C' & W' & E') H. apply mat_ext; try assumption; try congruence.
  intros i j Hi Hj. rewrite R in Hi. rewrite C in Hj. rewrite E, E', inr_true by assumption.
  rewrite H by assumption. reflexivity.
Qed.

Lemma mfill_is {A} n m (c : A) : is_matrix (mfill n m c) n m (fun _ _ => c).
Proof.
  split; [reflexivity|]. split; [reflexivity|]. split; [unfold wf; cbn; apply repeat_length|].
  intros i j. unfold mget. cbn [nrows ncols data mfill].
  destruct ((i <? n) && (j <? m)) eqn:E; [|reflexivity]. bsplit.
  rewrite (nth_error_nth' _ c) by (rewrite repeat_length; apply idx_lt; assumption).
  rewrite nth_repeat. reflexivity.
Qed.

(** ** nested assignment loops *)
(** [done] says which positions have been assigned; [v] the assigned values. *)
Definition filled {A} (M0 M : matrix A) (done : nat -> nat -> bool) (v : nat -> nat -> A) : Prop :=
  nrows M = nrows M0 /\ ncols M = ncols M0 /\ wf M /\
  forall i j, i < nrows M0 -> j < ncols M0 -> mget M i j = if done i j then Some (v i j) else mget M0 i j.

Lemma filled_ext {A} (M0 M : matrix A) done done' v v' : filled M0 M done v ->
  (forall i j, i < nrows M0 -> j < ncols M0 -> done i j = done' i j) ->
  (forall i j, i < nrows M0 -> j < ncols M0 -> done i j = true -> v i j = v' i j) -> filled M0 M done' v'.
Proof.
  intros (R & C & W & E) H H'. split; [exact R|]. split; [exact C|]. split; [exact W|].
  intros i j Hi Hj. rewrite E by assumption. rewrite <- H by assumption.
  destruct (done i j) eqn:D; [|reflexivity]. rewrite H' by assumption. reflexivity.
Qed.

Lemma filled_start {A} (M0 : matrix A) v : wf M0 -> filled M0 M0 (fun _ _ => false) v.
Proof. intros W. split; [reflexivity|]. split; [reflexivity|]. split; [exact W|]. reflexivity. Qed.

Lemma filled_set {A} (M0 M : matrix A) done v n m : filled M0 M done v -> n < nrows M0 -> m < ncols M0 ->
  exists M', mset M n m (v n m) = Some M' /\ filled M0 M' (fun i j => ((i =? n) && (j =? m)) || done i j) v.
Proof.
  intros (R & C & W & E) Hn Hm. destruct (mset_ok M n m (v n m) W) as (M' & E' & R' & C' & W' & G); [lia|lia|].
  exists M'. split; [exact E'|]. split; [lia|]. split; [lia|]. split; [exact W'|].
  intros i j Hi Hj. rewrite G, E by assumption.
  destruct ((i =? n) && (j =? m)) eqn:D; [|reflexivity]. bsplit. subst. reflexivity.
Qed.

(** the two nested loops with positions [(p i j, q i j)] and values [v] *)
Lemma assign_loops {A} (M0 : matrix A) (ni nj : nat) (p q : nat -> nat -> nat)
  (body : nat -> nat -> matrix A -> option (matrix A)) (v : nat -> nat -> A) :
  wf M0 ->
  (forall i j, i < ni -> j < nj -> p i j < nrows M0 /\ q i j < ncols M0) ->
  (forall i j M, i < ni -> j < nj -> body i j M = mset M (p i j) (q i j) (v (p i j) (q i j))) ->
  exists M, for_loop ni (fun i M => for_loop nj (fun j M => body i j M) M) M0 = Some M /\
    filled M0 M (fun a b => existsb (fun i => existsb (fun j => (a =? p i j) && (b =? q i j)) (seq 0 nj)) (seq 0 ni)) v.
Proof.
  intros W Hr Hb.
  apply (for_loop_inv (fun i M => filled M0 M
    (fun a b => existsb (fun i => existsb (fun j => (a =? p i j) && (b =? q i j)) (seq 0 nj)) (seq 0 i)) v)).
  - apply filled_start. exact W.
  - intros i M Hi HM.
    destruct (for_loop_inv (fun j M => filled M0 M
      (fun a b => existsb (fun i => existsb (fun j => (a =? p i j) && (b =? q i j)) (seq 0 nj)) (seq 0 i)
                  || existsb (fun j => (a =? p i j) && (b =? q i j)) (seq 0 j)) v) (body i) nj M) as (M' & E & HM').
    + eapply filled_ext; [exact HM| |reflexivity]. intros. cbn. rewrite orb_false_r. reflexivity.
    + intros j M1 Hj H1. rewrite Hb by assumption. destruct (Hr i j Hi Hj) as [Hp Hq].
      destruct (filled_set _ _ _ _ _ _ H1 Hp Hq) as (M2 & E2 & F2). exists M2. split; [exact E2|].
      eapply filled_ext; [exact F2| |reflexivity]. intros a b _ _.
      rewrite seq_S, existsb_app. cbn [existsb Nat.add]. rewrite orb_false_r.
      symmetry. rewrite orb_assoc. apply orb_comm.
    + exists M'. split; [exact E|]. eapply filled_ext; [exact HM'| |reflexivity].
      intros a b _ _. rewrite seq_S, existsb_app. cbn [existsb Nat.add]. rewrite orb_false_r. reflexivity.
Qed.

Lemma existsb_seq_eq n (f : nat -> bool) : existsb f (seq 0 n) = true <-> exists i, i < n /\ f i = true.
Proof.
  rewrite existsb_exists. split; intros (i & H & E); exists i; (split; [|exact E]).
  - apply in_seq in H. lia.
  - apply in_seq. lia.
Qed.
Lemma existsb2 ni nj (f : nat -> nat -> bool) :
  existsb (fun i => existsb (f i) (seq 0 nj)) (seq 0 ni) = true <-> exists i j, i < ni /\ j < nj /\ f i j = true.
Proof.
  rewrite existsb_seq_eq. split.
  - intros (i & Hi & H). apply existsb_seq_eq in H as (j & Hj & H). eauto.
  - intros (i & j & Hi & Hj & H). exists i. split; [exact Hi|]. apply existsb_seq_eq. eauto.
Qed.

Lemma filled_all {A} (M0 M : matrix A) done v : filled M0 M done v ->
  (forall i j, i < nrows M0 -> j < ncols M0 -> done i j = true) -> is_matrix M (nrows M0) (ncols M0) v.
Proof.
  intros (R & C & W & E) H. split; [exact R|]. split; [exact C|]. split; [exact W|].
  intros i j. destruct ((i <? nrows M0) && (j <? ncols M0)) eqn:D.
  - bsplit. rewrite E, H by assumption. reflexivity.
  - unfold mget. rewrite R, C, D. reflexivity.
Qed.

(** ** transpose *)
Lemma transpose_ok {A} (zero : A) M r c e : is_matrix M r c e ->
  exists T, transpose zero M = Some T /\ is_matrix T c r (fun i j => e j i).
Proof.
  intros (R & C & W & E). unfold transpose. rewrite R, C.
  destruct (assign_loops (mfill c r zero) r c (fun i j => j) (fun i j => i)
    (fun i j R => match mget M i j with None => None | Some x => mset R j i x end) (fun a b => e b a)) as (T & ET & F).
  - apply mfill_is.
  - intros i j Hi Hj. cbn. auto.
  - intros i j T Hi Hj. rewrite E, inr_true by assumption. reflexivity.
  - exists T. split; [exact ET|]. apply (filled_all _ _ _ _ F). intros i j Hi Hj. cbn in Hi, Hj.
    apply existsb2. exists j, i. rewrite !Nat.eqb_refl. auto.
Qed.

Lemma transpose_involutive {A} (zero : A) M : wf M ->
  exists T, transpose zero M = Some T /\ nrows T = ncols M /\ ncols T = nrows M /\
    (forall i j, mget T j i = mget M i j) /\ transpose zero T = Some M.
Proof.
  intros W. pose proof (is_matrix_entries M zero W) as HM.
  destruct (transpose_ok zero _ _ _ _ HM) as (T & ET & HT).
  destruct (transpose_ok zero _ _ _ _ HT) as (M' & EM & HM').
  exists T. split; [exact ET|]. destruct HT as (R & C & WT & E). split; [exact R|]. split; [exact C|]. split.
  - intros i j. destruct HM as (_ & _ & _ & EM0). rewrite E, EM0. rewrite andb_comm. reflexivity.
  - rewrite EM. f_equal. apply (is_matrix_unique _ _ _ _ _ _ HM' HM). reflexivity.
Qed.

(** ** rows, columns *)
Lemma getColumn_ok {A} (M : matrix A) r c e j : is_matrix M r c e ->
  (j < c -> getColumn M j = Some (map (fun i => e i j) (seq 0 r))) /\ (c <= j -> getColumn M j = None).
Proof.
  intros (R & C & W & E). unfold getColumn. rewrite C. split; intros Hj.
  - replace (j <? c) with true by (symmetry; apply Nat.ltb_lt; exact Hj). rewrite R.
    apply collect_ok. intros i Hi. specialize (E i j). rewrite inr_true in E by assumption.
    rewrite mget_in in E by lia. rewrite <- E. f_equal. lia.
  - replace (j <? c) with false by (symmetry; apply Nat.ltb_ge; exact Hj). reflexivity.
Qed.
Lemma getRow_ok {A} (M : matrix A) r c e i : is_matrix M r c e ->
  (i < r -> getRow M i = Some (map (fun j => e i j) (seq 0 c))) /\ (r <= i -> getRow M i = None).
Proof.
  intros (R & C & W & E). unfold getRow. rewrite R. split; intros Hi.
  - replace (i <? r) with true by (symmetry; apply Nat.ltb_lt; exact Hi). rewrite C.
    apply collect_ok. intros j Hj. specialize (E i j). rewrite inr_true in E by assumption.
    rewrite mget_in in E by lia. rewrite <- E. f_equal. lia.
  - replace (i <? r) with false by (symmetry; apply Nat.ltb_ge; exact Hi). reflexivity.
Qed.

(** ** from columns *)
Lemma from_columns_ok {A} (zero : A) r c (e : nat -> nat -> A) :
  exists M, from_columns zero r c (map (fun j => map (fun i => e i j) (seq 0 r)) (seq 0 c)) = Some M /\
    is_matrix M r c e.
Proof.
  unfold from_columns. rewrite map_length, seq_length, Nat.eqb_refl.
  set (cols := map _ (seq 0 c)).
  destruct (assign_loops (mfill r c zero) c r (fun j i => i) (fun j i => j)
    (fun column i M => match nth_error cols column with
        | None => None
        | Some v => match nth_error v i with None => None | Some x => mset M i column x end end) e) as (M & E & F).
  - apply mfill_is.
  - cbn. auto.
  - intros j i M Hj Hi. unfold cols. rewrite nth_error_map_seq by exact Hj.
    rewrite nth_error_map_seq by exact Hi. reflexivity.
  - exists M. split; [exact E|]. apply (filled_all _ _ _ _ F). cbn. intros i j Hi Hj.
    apply existsb2. exists j, i. rewrite !Nat.eqb_refl. auto.
Qed.

(** ** concatenate *)
(** array-level loop used by concatenate *)
Lemma column_write_loop {A} (start n base : nat) (src : nat -> option A) (v : nat -> A) (d0 : list A) :
  (forall i, start <= i < start + n -> src i = Some (v i)) -> base + start + n <= length d0 ->
  exists d, for_from start n (fun row d => match src row with None => None | Some x => write d (row + base) x end) d0 = Some d /\
    length d = length d0 /\
    forall k, nth_error d k = if (base + start <=? k) && (k <? base + start + n) then Some (v (k - base)) else nth_error d0 k.
Proof.
  intros Hs Hl.
  destruct (for_from_inv (fun i d => length d = length d0 /\
     forall k, nth_error d k = if (base + start <=? k) && (k <? base + i) then Some (v (k - base)) else nth_error d0 k)
     (fun row d => match src row with None => None | Some x => write d (row + base) x end) n start d0) as (d & E & L & N).
  - split; [reflexivity|]. intros k. destruct ((base + start <=? k) && (k <? base + start)) eqn:E; [|reflexivity].
    apply andb_prop in E as [E1 E2]. apply Nat.leb_le in E1. apply Nat.ltb_lt in E2. lia.
  - intros i d Hi [L N]. rewrite Hs by exact Hi.
    destruct (write_ok d (i + base) (v i)) as (d' & E & L' & N'); [lia|].
    exists d'. split; [exact E|]. split; [lia|]. intros k. rewrite N'.
    destruct (Nat.eqb_spec k (i + base)) as [->|Hk].
    + replace (i + base - base) with i by lia.
      replace ((base + start <=? i + base) && (i + base <? base + S i)) with true; [reflexivity|].
      symmetry. apply andb_true_intro. split; [apply Nat.leb_le; lia|apply Nat.ltb_lt; lia].
    + rewrite N. replace (k <? base + S i) with (k <? base + i); [reflexivity|].
      destruct (Nat.ltb_spec k (base + i)), (Nat.ltb_spec k (base + S i)); auto; lia.
  - exists d. split; [exact E|]. split; [exact L|]. intros k. rewrite N, Nat.add_assoc. reflexivity.
Qed.

Lemma concatenate_ok {A} (zero : A) M N r1 r2 c e1 e2 : is_matrix M r1 c e1 -> is_matrix N r2 c e2 ->
  exists C, concatenate zero M N = Some C /\
    is_matrix C (r1 + r2) c (fun i j => if i <? r1 then e1 i j else e2 (i - r1) j).
Proof.
  intros (R1 & C1 & W1 & E1) (R2 & C2 & W2 & E2). unfold concatenate. rewrite C1, C2, Nat.eqb_refl, R1, R2.
  set (R := r1 + r2).
  set (v := fun i j => if i <? r1 then e1 i j else e2 (i - r1) j).
  destruct (for_loop_inv (fun col d => length d = c * R /\
     forall i j, i < R -> j < col -> nth_error d (i + j * R) = Some (v i j))
    (fun col d =>
        match
          for_loop r1 (fun row d =>
            match nth_error (data M) (row + col * r1) with
            | None => None
            | Some x => write d (row + col * R) x
            end) d
        with
        | None => None
        | Some d =>
            for_from r1 r2 (fun row d =>
              match nth_error (data N) ((row - r1) + col * r2) with
              | None => None
              | Some x => write d (row + col * R) x
              end) d
        end) c (repeat zero (c * R))) as (d & E & L & G).
  - split; [apply repeat_length|]. intros; lia.
  - intros col d Hc [L G].
    destruct (column_write_loop 0 r1 (col * R) (fun row => nth_error (data M) (row + col * r1)) (fun row => v row col) d) as (d1 & Ed1 & L1 & N1).
    { intros i Hi. unfold v. replace (i <? r1) with true by (symmetry; apply Nat.ltb_lt; lia).
      specialize (E1 i col). rewrite inr_true in E1 by lia. rewrite mget_in in E1 by lia. rewrite R1 in E1. exact E1. }
    { rewrite L. unfold R in *. assert (col * R + R <= c * R) by (replace (col * R + R) with (S col * R) by lia; apply Nat.mul_le_mono_r; lia). unfold R in *. lia. }
    unfold for_loop. rewrite Ed1.
    destruct (column_write_loop r1 r2 (col * R) (fun row => nth_error (data N) ((row - r1) + col * r2)) (fun row => v row col) d1) as (d2 & Ed2 & L2 & N2).
    { intros i Hi. unfold v. replace (i <? r1) with false by (symmetry; apply Nat.ltb_ge; lia).
      specialize (E2 (i - r1) col). rewrite inr_true in E2 by lia. rewrite mget_in in E2 by lia. rewrite R2 in E2. exact E2. }
    { rewrite L1, L. unfold R in *. assert (col * R + R <= c * R) by (replace (col * R + R) with (S col * R) by lia; apply Nat.mul_le_mono_r; lia). unfold R in *. lia. }
    exists d2. split; [exact Ed2|]. split; [lia|].
    intros i j Hi Hj. destruct (Nat.eq_dec j col) as [->|Hne].
    + rewrite N2. destruct (Nat.lt_ge_cases i r1) as [Hlt|Hge].
      * replace ((col * R + r1 <=? i + col * R) && (i + col * R <? col * R + r1 + r2)) with false.
        2:{ symmetry. apply andb_false_intro1. apply Nat.leb_gt. lia. }
        rewrite N1. replace ((col * R + 0 <=? i + col * R) && (i + col * R <? col * R + 0 + r1)) with true.
        2:{ symmetry. apply andb_true_intro. split; [apply Nat.leb_le|apply Nat.ltb_lt]; lia. }
        f_equal. f_equal. lia.
      * replace ((col * R + r1 <=? i + col * R) && (i + col * R <? col * R + r1 + r2)) with true.
        2:{ symmetry. unfold R in Hi. apply andb_true_intro. split; [apply Nat.leb_le|apply Nat.ltb_lt]; lia. }
        f_equal. f_equal. lia.
    + assert (Hj' : j < col) by lia.
      assert (i + j * R < col * R).
      { assert (j * R + R <= col * R) by (replace (j * R + R) with (S j * R) by lia; apply Nat.mul_le_mono_r; lia). lia. }
      rewrite N2. replace (col * R + r1 <=? i + j * R) with false by (symmetry; apply Nat.leb_gt; lia). cbn [andb].
      rewrite N1. replace (col * R + 0 <=? i + j * R) with false by (symmetry; apply Nat.leb_gt; lia). cbn [andb].
      apply G; assumption.
  - rewrite E. eexists. split; [reflexivity|]. split; [reflexivity|]. split; [reflexivity|].
    split; [unfold wf; cbn [nrows ncols data]; rewrite L; apply Nat.mul_comm|].
    intros i j. unfold mget. cbn [nrows ncols data]. fold R.
    destruct ((i <? R) && (j <? c)) eqn:D; [|reflexivity]. bsplit. apply G; assumption.
Qed.

(** ** glue *)
Lemma glue_ok {A} (l : list (matrix A)) r : l <> [] ->
  (forall M, In M l -> wf M /\ nrows M = r) ->
  exists G, glue l = Some G /\ wf G /\ nrows G = r /\ ncols G = columns_before l (length l) /\
    forall k M i j, nth_error l k = Some M -> j < ncols M ->
      mget G i (columns_before l k + j) = mget M i j.
Proof.
  intros Hne Hl.
  assert (Hex : exists M0 l0, l = M0 :: l0) by (destruct l; [contradiction|eauto]).
  destruct Hex as (M0 & l0 & El).
  assert (H0 : nrows M0 = r) by (apply Hl; rewrite El; left; reflexivity).
  assert (Eg : glue l = if forallb (fun M => nrows M =? nrows M0) l
      then Some (Mat (nrows M0) (list_sum (map ncols l)) (List.concat (map data l))) else None)
    by (rewrite El; reflexivity).
  rewrite Eg. clear Eg.
  replace (forallb (fun M => nrows M =? nrows M0) l) with true.
  2:{ symmetry. apply forallb_forall. intros M HM. apply Nat.eqb_eq. destruct (Hl M HM). lia. }
  assert (Hlen : length (List.concat (map data l)) = r * list_sum (map ncols l)).
  { clear El Hne. revert Hl. generalize l. clear l. induction l as [|M l IH]; intros Hl; cbn; [lia|].
    rewrite app_length, IH by (intros; apply Hl; right; assumption).
    destruct (Hl M (or_introl eq_refl)) as [W Hr]. unfold wf in W. unfold list_sum. nia. }
  eexists. split; [reflexivity|]. unfold columns_before. rewrite firstn_all.
  split; [unfold wf; cbn; rewrite H0; exact Hlen|]. split; [exact H0|]. split; [reflexivity|].
  intros k M i j Hk Hj.
  assert (Hd : exists pre post, List.concat (map data l) = pre ++ data M ++ post /\ length pre = r * list_sum (map ncols (firstn k l)) /\ list_sum (map ncols (firstn k l)) + ncols M <= list_sum (map ncols l)).
  { clear El Hne Hlen. revert k Hk Hl. generalize l. clear l. induction l as [|N l IH]; intros k Hk Hl; [destruct k; discriminate|].
    destruct k as [|k].
    - injection Hk as ->. exists [], (List.concat (map data l)). split; [reflexivity|]. split; [cbn; lia|]. cbn. lia.
    - destruct (IH k Hk) as (pre & post & E & L & S); [intros; apply Hl; right; assumption|].
      exists (data N ++ pre), post. cbn [map List.concat firstn]. rewrite E, app_assoc. split; [rewrite app_assoc; reflexivity|].
      destruct (Hl N (or_introl eq_refl)) as [W Hr]. unfold wf in W.
      rewrite app_length, L. cbn [list_sum fold_right]. unfold list_sum in *. split; [nia|lia]. }
  destruct Hd as (pre & post & E & L & S).
  assert (HM : wf M /\ nrows M = r) by (apply Hl; eapply nth_error_In; exact Hk). destruct HM as [W Hr].
  unfold mget. cbn [nrows ncols data]. rewrite H0, Hr.
  destruct (i <? r) eqn:Ei; [|reflexivity]. cbn [andb].
  replace (list_sum (map ncols (firstn k l)) + j <? list_sum (map ncols l)) with true by (symmetry; apply Nat.ltb_lt; lia).
  replace (j <? ncols M) with true by (symmetry; apply Nat.ltb_lt; exact Hj).
  bsplit. rewrite E. rewrite nth_error_app2 by lia. rewrite nth_error_app1.
  - f_equal. rewrite L. nia.
  - rewrite L. pose proof (idx_lt r (ncols M) i j Ei Hj). unfold wf in W. rewrite W, Hr. nia.
Qed.

(** ** resize *)
Lemma resize_same_rows {A} (zero : A) M c' : wf M ->
  let N := mresize zero M (nrows M) c' in
  wf N /\ nrows N = nrows M /\ ncols N = c' /\
  forall i j, i < nrows M -> j < c' -> mget N i j = if j <? ncols M then mget M i j else Some zero.
Proof.
  intros W N. unfold N, mresize. cbn [nrows ncols]. split; [unfold wf; cbn; apply vresize_length|].
  split; [reflexivity|]. split; [reflexivity|]. intros i j Hi Hj.
  unfold mget. cbn [nrows ncols data]. rewrite inr_true by assumption.
  rewrite vresize_nth by (apply idx_lt; assumption). rewrite W.
  replace (i <? nrows M) with true by (symmetry; apply Nat.ltb_lt; exact Hi). cbn [andb].
  destruct (Nat.ltb_spec j (ncols M)) as [H|H].
  - replace (i + j * nrows M <? nrows M * ncols M) with true; [reflexivity|].
    symmetry. apply Nat.ltb_lt. apply idx_lt; assumption.
  - replace (i + j * nrows M <? nrows M * ncols M) with false; [reflexivity|].
    symmetry. apply Nat.ltb_ge. nia.
Qed.

Lemma resize_keeps_array {A} (zero : A) M r c k : wf M ->
  k < r * c -> mget_linear (mresize zero M r c) k = if k <? nrows M * ncols M then mget_linear M k else Some zero.
Proof.
  intros W Hk. unfold mget_linear, mresize. cbn [nrows ncols data].
  replace (k <? r * c) with true by (symmetry; apply Nat.ltb_lt; exact Hk).
  rewrite vresize_nth by exact Hk. rewrite W. destruct (k <? nrows M * ncols M); reflexivity.
Qed.

Lemma linear_index {A} (M : matrix A) i j : wf M -> i < nrows M -> j < ncols M ->
  mget_linear M (i + j * nrows M) = mget M i j.
Proof.
  intros W Hi Hj. unfold mget_linear, mget. rewrite inr_true by assumption.
  replace (_ <? _) with true; [reflexivity|]. symmetry. apply Nat.ltb_lt, idx_lt; assumption.
Qed.

(** ** arithmetic *)
Lemma zip_with_ok {A} (f : A -> A -> A) l l' : length l = length l' ->
  exists t, zip_with f l l' = Some t /\ length t = length l /\
    forall k, nth_error t k = match nth_error l k, nth_error l' k with Some x, Some y => Some (f x y) | _, _ => None end.
Proof.
  revert l'; induction l as [|x l IH]; intros [|y l'] H; cbn in H; try lia.
  - exists []. split; [reflexivity|]. split; [reflexivity|]. intros [|k]; reflexivity.
  - destruct (IH l') as (t & E & L & N); [lia|]. cbn. rewrite E. exists (f x y :: t). split; [reflexivity|].
    split; [cbn; lia|]. intros [|k]; [reflexivity|]. apply N.
Qed.

Lemma combine_ok {A} (f : A -> A -> A) M N r c e e' : is_matrix M r c e -> is_matrix N r c e' ->
  exists P, mcombine f M N = Some P /\ is_matrix P r c (fun i j => f (e i j) (e' i j)).
Proof.
  intros (R & C & W & E) (R' & C' & W' & E'). unfold mcombine. rewrite R, C, R', C', !Nat.eqb_refl. cbn [andb].
  destruct (zip_with_ok f (data M) (data N)) as (t & Et & L & G); [unfold wf in *; congruence|].
  rewrite Et. eexists. split; [reflexivity|]. split; [reflexivity|]. split; [reflexivity|].
  split; [unfold wf in *; cbn; congruence|]. intros i j. unfold mget. cbn [nrows ncols data].
  destruct ((i <? r) && (j <? c)) eqn:D; [|reflexivity]. bsplit. rewrite G.
  specialize (E i j). specialize (E' i j). rewrite inr_true in E, E' by assumption.
  rewrite mget_in in E, E' by lia. rewrite R in E. rewrite R' in E'. rewrite E, E'. reflexivity.
Qed.

Lemma scale_ok {A} (mul : A -> A -> A) x M r c e : is_matrix M r c e ->
  is_matrix (mscale mul x M) r c (fun i j => mul (e i j) x).
Proof.
  intros (R & C & W & E). split; [exact R|]. split; [exact C|].
  split; [unfold wf, mscale in *; cbn; rewrite map_length; exact W|]. intros i j.
  unfold mget, mscale. cbn [nrows ncols data]. rewrite R, C.
  destruct ((i <? r) && (j <? c)) eqn:D; [|reflexivity]. bsplit. rewrite nth_error_map.
  specialize (E i j). rewrite inr_true in E by assumption. rewrite mget_in in E by lia. rewrite R in E.
  rewrite E. reflexivity.
Qed.

Lemma axpy_ok {A} (add mul : A -> A -> A) a x y r c e e' : is_matrix x r c e -> is_matrix y r c e' ->
  exists P, maxpy add mul a x y = Some P /\ is_matrix P r c (fun i j => add (mul a (e i j)) (e' i j)).
Proof.
  intros (R & C & W & E) (R' & C' & W' & E'). unfold maxpy. rewrite R, C, R', C', !Nat.eqb_refl. cbn [andb].
  destruct (zip_with_ok (fun yi xi => add (mul a xi) yi) (data y) (data x)) as (t & Et & L & G); [unfold wf in *; congruence|].
  rewrite Et. eexists. split; [reflexivity|]. split; [reflexivity|]. split; [reflexivity|].
  split; [unfold wf in *; cbn; congruence|]. intros i j. unfold mget. cbn [nrows ncols data].
  destruct ((i <? r) && (j <? c)) eqn:D; [|reflexivity]. bsplit. rewrite G.
  specialize (E i j). specialize (E' i j). rewrite inr_true in E, E' by assumption.
  rewrite mget_in in E, E' by lia. rewrite R in E. rewrite R' in E'. rewrite E, E'. reflexivity.
Qed.

Lemma sum_loop_ok {A} (zero : A) add K f g : (forall l, l < K -> f l = Some (g l)) ->
  sum_loop zero add K f = Some (bigsum zero add K g).
Proof.
  intros H. unfold sum_loop.
  destruct (for_loop_inv (fun l acc => acc = bigsum zero add l g)
    (fun l acc => match f l with None => None | Some x => Some (add acc x) end) K zero) as (s & E & ->).
  - reflexivity.
  - intros i s Hi ->. rewrite H by exact Hi. eexists. split; [reflexivity|].
    unfold bigsum. rewrite seq_S, fold_left_app. reflexivity.
  - exact E.
Qed.

Lemma for_from_ext {St} (f g : nat -> St -> option St) n : forall start s,
  (forall i s, start <= i < start + n -> f i s = g i s) -> for_from start n f s = for_from start n g s.
Proof.
  induction n as [|n IH]; intros start s H; cbn; [reflexivity|]. rewrite H by lia.
  destruct (g start s); [|reflexivity]. apply IH. intros. apply H. lia.
Qed.

Lemma array_loops {A} r c (v : nat -> nat -> A) (body : nat -> list A -> option (list A)) d0 :
  length d0 = r * c ->
  (forall j d, j < c -> body j d = for_loop r (fun i d => write d (i + j * r) (v i j)) d) ->
  exists d, for_loop c body d0 = Some d /\ length d = r * c /\
    forall i j, i < r -> j < c -> nth_error d (i + j * r) = Some (v i j).
Proof.
  intros L0 Hb.
  apply (for_loop_inv (fun j0 d => length d = r * c /\ forall i j, i < r -> j < j0 -> nth_error d (i + j * r) = Some (v i j))).
  - split; [exact L0|]. intros; lia.
  - intros j d Hj [L G]. rewrite Hb by exact Hj.
    destruct (column_write_loop 0 r (j * r) (fun i => Some (v i j)) (fun i => v i j) d) as (d' & E & L' & N).
    + reflexivity.
    + rewrite L. nia.
    + exists d'. split; [exact E|]. split; [lia|]. intros i j' Hi Hj'. rewrite N.
      destruct (Nat.eq_dec j' j) as [->|Hne].
      * replace ((j * r + 0 <=? i + j * r) && (i + j * r <? j * r + 0 + r)) with true.
        2:{ symmetry. apply andb_true_intro. split; [apply Nat.leb_le|apply Nat.ltb_lt]; lia. }
        f_equal. f_equal. lia.
      * replace (j * r + 0 <=? i + j' * r) with false by (symmetry; apply Nat.leb_gt; nia). cbn [andb].
        apply G; [exact Hi|lia].
Qed.

Lemma mmul_ok {A} (zero one : A) add mul (one_l : forall x, mul one x = x) M N r k c e e' :
  is_matrix M r k e -> is_matrix N k c e' -> 0 < r ->
  exists P, mmul zero one add mul M N = Some P /\
    is_matrix P r c (fun i j => bigsum zero add k (fun l => mul (e i l) (e' l j))).
Proof.
  intros (R & C & W & E) (R' & C' & W' & E') Hr. unfold mmul. rewrite C, R', Nat.eqb_refl, R, C'.
  destruct (Nat.eqb_spec k 0) as [->|Hk].
  - eexists. split; [reflexivity|]. apply mfill_is.
  - unfold dgemm.
    replace ((Nat.max 1 r <=? r) && (Nat.max 1 k <=? k) && (Nat.max 1 r <=? r)) with true.
    2:{ symmetry. repeat (apply andb_true_intro; split); apply Nat.leb_le; lia. }
    set (v := fun i j => bigsum zero add k (fun l => mul (e i l) (e' l j))).
    match goal with |- context [for_loop c ?body _] =>
      destruct (array_loops r c v body (repeat zero (r * c))) as (d & E0 & L & G) end.
    + apply repeat_length.
    + intros j d Hj. unfold for_loop. apply for_from_ext. intros i d' Hi.
      rewrite (sum_loop_ok zero add k _ (fun l => mul (e i l) (e' l j))).
      * rewrite one_l. reflexivity.
      * intros l Hl. specialize (E i l). specialize (E' l j). rewrite inr_true in E, E' by (assumption || lia).
        rewrite mget_in in E, E' by lia. rewrite R in E. rewrite R' in E'. rewrite E, E'. reflexivity.
    + rewrite E0. eexists. split; [reflexivity|]. split; [reflexivity|]. split; [reflexivity|].
      split; [exact L|]. intros i j. unfold mget. cbn [nrows ncols data].
      destruct ((i <? r) && (j <? c)) eqn:D; [|reflexivity]. bsplit. apply G; assumption.
Qed.

Lemma write_all_loop {A} n (g : nat -> A) body (y0 : list A) : length y0 = n ->
  (forall i y, i < n -> body i y = write y i (g i)) ->
  for_loop n body y0 = Some (map g (seq 0 n)).
Proof.
  intros L0 Hb.
  destruct (for_loop_inv (fun i y => length y = n /\ forall k, k < i -> nth_error y k = Some (g k)) body n y0) as (y & E & L & N).
  - split; [exact L0|]. intros; lia.
  - intros i y Hi [L N]. rewrite Hb by exact Hi. destruct (write_ok y i (g i)) as (y' & E & L' & N'); [lia|].
    exists y'. split; [exact E|]. split; [lia|]. intros k Hk. rewrite N'.
    destruct (Nat.eqb_spec k i) as [->|]; [reflexivity|]. apply N. lia.
  - rewrite E. f_equal. apply nth_error_ext_le; [rewrite map_length, seq_length; exact L|].
    intros k Hk. rewrite N by lia. rewrite nth_error_map_seq by lia. reflexivity.
Qed.

Lemma mat_vec_ok {A} (zero one : A) add mul (one_l : forall x, mul one x = x) M r c e v :
  is_matrix M r c e ->
  mat_vec zero one add mul M (map v (seq 0 c)) =
  Some (map (fun i => bigsum zero add c (fun j => mul (e i j) (v j))) (seq 0 r)).
Proof.
  intros (R & C & W & E). unfold mat_vec. rewrite R, C, map_length, seq_length, Nat.eqb_refl.
  destruct (Nat.eqb_spec r 0) as [->|Hr]; [reflexivity|].
  destruct (Nat.eqb_spec c 0) as [->|Hc].
  - f_equal. cbn. clear. generalize 0. induction r; intros; cbn; [reflexivity|]. f_equal. apply IHr.
  - unfold dgemv. replace (Nat.max 1 r <=? r) with true by (symmetry; apply Nat.leb_le; lia).
    apply write_all_loop; [apply repeat_length|]. intros i y Hi.
    rewrite (sum_loop_ok zero add c _ (fun j => mul (e i j) (v j))).
    + rewrite one_l. reflexivity.
    + intros j Hj. specialize (E i j). rewrite inr_true in E by assumption. rewrite mget_in in E by lia.
      rewrite R in E. rewrite E, nth_error_map_seq by exact Hj. reflexivity.
Qed.

Lemma vec_mat_ok {A} (zero one : A) add mul (one_l : forall x, mul one x = x) M r c e v :
  is_matrix M r c e -> 0 < r ->
  vec_mat zero one add mul (map v (seq 0 r)) M =
  Some (map (fun j => bigsum zero add r (fun i => mul (e i j) (v i))) (seq 0 c)).
Proof.
  intros (R & C & W & E) Hr. unfold vec_mat. rewrite R, C, map_length, seq_length, Nat.eqb_refl.
  destruct (Nat.eqb_spec c 0) as [->|Hc]; [reflexivity|].
  unfold dgemv. replace (Nat.max 1 r <=? r) with true by (symmetry; apply Nat.leb_le; lia).
  apply write_all_loop; [apply repeat_length|]. intros j y Hj.
  rewrite (sum_loop_ok zero add r _ (fun i => mul (e i j) (v i))).
  - rewrite one_l. reflexivity.
  - intros i Hi. specialize (E i j). rewrite inr_true in E by assumption. rewrite mget_in in E by lia.
    rewrite R in E. rewrite E, nth_error_map_seq by exact Hi. reflexivity.
Qed.

Lemma last_assigned_snoc {A} (h : list (nat * nat * A)) a b x i j :
  last_assigned (h ++ [(a, b, x)]) i j = if (a =? i) && (b =? j) then Some x else last_assigned h i j.
Proof. unfold last_assigned. rewrite fold_left_app. reflexivity. Qed.

Lemma assignments_snoc {A} (h : list (nat * nat * A)) : forall M a b x,
  assignments M (h ++ [(a, b, x)]) = match assignments M h with None => None | Some M' => mset M' a b x end.
Proof.
  induction h as [|[[i j] y] h IH]; intros M a b x; cbn.
  - destruct (mset M a b x); reflexivity.
  - destruct (mset M i j y); auto.
Qed.

Lemma assignments_ok {A} (M : matrix A) h : wf M ->
  (forall a b x, In (a, b, x) h -> a < nrows M /\ b < ncols M) ->
  exists M', assignments M h = Some M' /\ nrows M' = nrows M /\ ncols M' = ncols M /\ wf M' /\
    forall i j, mget M' i j = match last_assigned h i j with Some x => Some x | None => mget M i j end.
Proof.
  intros W. induction h as [|[[a b] x] h IH] using rev_ind; intros Hr.
  - exists M. repeat split; auto.
  - destruct IH as (M1 & E & R & C & W1 & G).
    { intros. apply (Hr a0 b0 x0). apply in_or_app. left. assumption. }
    assert (Hab : a < nrows M /\ b < ncols M) by (apply (Hr a b x); apply in_or_app; right; left; reflexivity).
    destruct (mset_ok M1 a b x W1) as (M2 & E2 & R2 & C2 & W2 & G2); [lia|lia|].
    exists M2. rewrite assignments_snoc, E. split; [exact E2|]. split; [lia|]. split; [lia|]. split; [exact W2|].
    intros i j. rewrite G2, G, last_assigned_snoc. rewrite (Nat.eqb_sym a i), (Nat.eqb_sym b j).
    destruct ((i =? a) && (j =? b)); reflexivity.
Qed.
