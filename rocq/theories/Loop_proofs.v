From Coq Require Import List Arith Lia.
From Verif Require Import Loop_model.
Import ListNotations.

Lemma for_from_inv {St} (P : nat -> St -> Prop) body n : forall start s,
  P start s ->
  (forall i s, start <= i < start + n -> P i s -> exists s', body i s = Some s' /\ P (S i) s') ->
  exists s', for_from start n body s = Some s' /\ P (start + n) s'.
Proof.
  induction n as [|n IH]; intros start s H0 Hs.
  - exists s. rewrite Nat.add_0_r. auto.
  - destruct (Hs start s) as (s1 & E & H1); [lia|exact H0|]. cbn [for_from]. rewrite E.
    destruct (IH (S start) s1 H1) as (s2 & E2 & H2).
    + intros i s' Hi. apply Hs. lia.
    + exists s2. split; [exact E2|]. replace (start + S n) with (S start + n) by lia. exact H2.
Qed.

Lemma for_loop_inv {St} (P : nat -> St -> Prop) body n s :
  P 0 s ->
  (forall i s, i < n -> P i s -> exists s', body i s = Some s' /\ P (S i) s') ->
  exists s', for_loop n body s = Some s' /\ P n s'.
Proof.
  intros H0 Hs. apply (for_from_inv P body n 0 s H0). intros i s' Hi. apply Hs. lia.
Qed.

Lemma write_ok {A} (v : list A) i x : i < length v -> exists v', write v i x = Some v' /\
  length v' = length v /\ forall j, nth_error v' j = if j =? i then Some x else nth_error v j.
Proof.
  revert i; induction v as [|y v IH]; intros [|i] H; cbn in H; try lia.
  - eexists. split; [reflexivity|]. split; [reflexivity|]. intros [|j]; reflexivity.
  - destruct (IH i) as (v' & E & L & N); [lia|]. cbn. rewrite E. eexists. split; [reflexivity|].
    split; [cbn; lia|]. intros [|j]; [reflexivity|]. apply N.
Qed.

Lemma write_inv {A} (v : list A) i x v' : write v i x = Some v' -> i < length v /\ length v' = length v /\
  forall j, nth_error v' j = if j =? i then Some x else nth_error v j.
Proof.
  intros H. assert (Hi : i < length v).
  { revert i v' H; induction v as [|y v IH]; intros [|i] v' H; cbn in *; try discriminate; try lia.
    destruct (write v i x) eqn:E; [|discriminate]. specialize (IH _ _ E). lia. }
  destruct (write_ok v i x Hi) as (w & E & R). rewrite H in E. injection E as <-. auto.
Qed.

Lemma collect_ok {A} n (f : nat -> option A) (g : nat -> A) :
  (forall i, i < n -> f i = Some (g i)) -> collect n f = Some (map g (seq 0 n)).
Proof.
  intros H. destruct (for_loop_inv (fun i acc => acc = map g (seq 0 i))
    (fun i acc => match f i with None => None | Some x => Some (acc ++ [x]) end) n []) as (s & E & ->).
  - reflexivity.
  - intros i s Hi ->. rewrite H by exact Hi. eexists. split; [reflexivity|].
    rewrite seq_S, map_app. reflexivity.
  - exact E.
Qed.

Lemma nth_error_map_seq {A} (g : nat -> A) n i : i < n -> nth_error (map g (seq 0 n)) i = Some (g i).
Proof.
  intros H. rewrite nth_error_map. rewrite (nth_error_nth' _ 0) by (rewrite seq_length; exact H).
  rewrite seq_nth by exact H. reflexivity.
Qed.

Lemma nth_error_ext_le {A} (l l' : list A) :
  length l = length l' -> (forall i, i < length l -> nth_error l i = nth_error l' i) -> l = l'.
Proof.
  revert l'; induction l as [|x l IH]; intros [|y l'] HL H; cbn in HL; try lia; [reflexivity|].
  f_equal.
  - specialize (H 0). cbn in H. assert (Some x = Some y) by (apply H; lia). congruence.
  - apply IH; [lia|]. intros i Hi. apply (H (S i)). cbn. lia.
Qed.

Lemma vresize_length {A} (l : list A) n x : length (vresize l n x) = n.
Proof. unfold vresize. rewrite app_length, firstn_length, repeat_length. lia. Qed.

Lemma vresize_nth {A} (l : list A) n x i : i < n ->
  nth_error (vresize l n x) i = if i <? length l then nth_error l i else Some x.
Proof.
  intros Hi. unfold vresize. destruct (Nat.ltb_spec i (length l)) as [H|H].
  - rewrite nth_error_app1 by (rewrite firstn_length; lia).
    clear H. revert n i Hi; induction l as [|y l IH]; intros [|n] [|i] Hi; cbn; auto; try lia.
    apply IH. lia.
  - rewrite nth_error_app2 by (rewrite firstn_length; lia). rewrite firstn_length.
    rewrite (nth_error_nth' _ x) by (rewrite repeat_length; lia). rewrite nth_repeat. reflexivity.
Qed.
