(** C70: a list of eigenpairs keeps its pairs together. *)
From Coq Require Import List Arith Lia.
From Verif Require Import Eigenpairs_model Eigenpairs_spec Eigenpairs_proofs.
Import ListNotations.

(** After every history of loading, reordering, moving and destroying lists of eigenpairs, every call is carried out, and
    every list answers with the pairs that it should have: the value and the vector at each place are of one pair; no
    others can be asked for. *)
Theorem C70_pairs : forall (K V : Type) (ps : list (op K V)) l, history ps l ->
  exists w, run start ps = Some w /\
    (forall k, nth_error l k = Some None -> object_at k w = None) /\
    forall k p, nth_error l k = Some (Some p) -> exists o, object_at k w = Some o /\ length (eigenvalues o) = length p /\
      (forall i x v, nth_error p i = Some (x, v) -> getEigenvalue i o = Some x /\ getEigenvector i o (arrays w) = Some (Some v)) /\
      (forall i, length p <= i -> getEigenvalue i o = None /\ getEigenvector i o (arrays w) = None).
Proof.
  intros K V ps l H. destruct (history_good ps l H) as [w [R G]]. exists w. split; [exact R|]. split.
  - intros k Hk. apply (g_gone _ _ G) in Hk. unfold object_at. now rewrite Hk.
  - intros k p Hp. destruct (at_object w l k p G Hp) as [o [Ho Ao]]. exists o. split; [exact Ao|].
    destruct (g_stands _ _ G k o p Ho Hp) as [S1 _]. split; [exact S1|]. split.
    + intros i x v Hi. exact (answers w l k o p i x v G Ho Hp Hi).
    + intros i Hi. unfold getEigenvalue, getEigenvector. rewrite S1. destruct (Nat.ltb_spec i (length p)); [lia|auto].
Qed.
Print Assumptions C70_pairs.

(** After every such history, every array of vectors that is still there belongs to one list and to no other; when all
    lists are gone, all arrays are. *)
Theorem C70_memory : forall (K V : Type) (ps : list (op K V)) l w, history ps l -> run start ps = Some w ->
  (forall a arr, nth_error (arrays w) a = Some (Some arr) ->
     exists k o, object_at k w = Some o /\ owns o a /\ forall k' o', object_at k' w = Some o' -> owns o' a -> k' = k) /\
  ((forall k, k < length l -> nth_error l k = Some None) -> forall a, a < length (arrays w) -> nth_error (arrays w) a = Some None).
Proof.
  intros K V ps l w H R. destruct (history_good ps l H) as [w' [R' G]]. rewrite R in R'. injection R' as <-.
  assert (At : forall k o, object_at k w = Some o -> nth_error (objects w) k = Some (Some o)).
  { intros k o. unfold object_at. destruct (nth_error (objects w) k) as [[q|]|]; congruence. }
  split.
  - intros a arr Ha. destruct (g_owned _ _ G a arr Ha) as [k [o [Ho Oo]]]. exists k, o. split; [unfold object_at; now rewrite Ho|]. split; [exact Oo|].
    intros k' o' Ho' Oo'. exact (g_one _ _ G k' k o' o a (At _ _ Ho') Ho Oo' Oo).
  - intros All a La. destruct (nth_error (arrays w) a) as [[arr|]|] eqn:Ea; [|reflexivity|apply nth_error_None in Ea; lia]. exfalso.
    destruct (g_owned _ _ G a arr Ea) as [k [o [Ho _]]]. pose proof (nth_lt _ _ _ Ho) as Lk. rewrite (g_same _ _ G) in Lk.
    specialize (All k Lk). apply (g_gone _ _ G) in All. congruence.
Qed.
Print Assumptions C70_memory.

Definition story : list (op nat nat) := [New; Store 0 [(5, 50); (3, 30); (4, 40)]; Reorder 0 [1; 2; 0]; New; MoveAssign 1 0; Reorder 1 [2; 0; 1]; Destroy 0].
Example C70_pairs_nonvacuous : history story [None; Some [(5, 50); (3, 30); (4, 40)]] /\
  exists w o, run start story = Some w /\ object_at 1 w = Some o /\ ordering o = [0; 1; 2] /\ getEigenvector 1 o (arrays w) = Some (Some 30).
Proof.
  split.
  - unfold story.
    assert (H0 : @history nat nat [] []) by constructor.
    assert (H1 := history_snoc _ _ _ _ H0 (does_new _)). cbn [app] in H1.
    assert (H2 := history_snoc _ _ _ _ H1 (does_load [Some []] 0 [] [(5, 50); (3, 30); (4, 40)] eq_refl)). cbn in H2.
    assert (H3 := history_snoc _ _ _ _ H2 (does_reorder [Some [(5, 50); (3, 30); (4, 40)]] 0 _ [1; 2; 0] [(3, 30); (4, 40); (5, 50)] eq_refl eq_refl ltac:(repeat constructor))). cbn in H3.
    assert (H4 := history_snoc _ _ _ _ H3 (does_new _)). cbn in H4.
    assert (H5 := history_snoc _ _ _ _ H4 (does_move_assign [Some [(3, 30); (4, 40); (5, 50)]; Some []] 1 0 _ _ eq_refl eq_refl)). cbn in H5.
    assert (H6 := history_snoc _ _ _ _ H5 (does_reorder [Some []; Some [(3, 30); (4, 40); (5, 50)]] 1 _ [2; 0; 1] [(5, 50); (3, 30); (4, 40)] eq_refl eq_refl ltac:(repeat constructor))). cbn in H6.
    exact (history_snoc _ _ _ _ H6 (does_destroy [Some []; Some [(5, 50); (3, 30); (4, 40)]] 0 _ eq_refl)).
  - eexists. eexists. repeat split; reflexivity.
Qed.
Example C70_memory_nonvacuous : exists w, run start (story ++ [Destroy 1]) = Some w /\ arrays w = [None].
Proof. eexists. split; reflexivity. Qed.

(** Refuted: space for more pairs can be reserved without harm.  If pairs have been loaded, their number and values stay,
    but the vectors are gone: those that the list answers with have never been written. *)
Theorem C70_reserve_refuted : forall (K V : Type) (s : list (K * V)) n, 0 < length s < n ->
  exists w o, run start [New; Store 0 s; Reserve 0 n] = Some w /\ object_at 0 w = Some o /\ length (eigenvalues o) = length s /\
    forall i x v, nth_error s i = Some (x, v) -> getEigenvalue i o = Some x /\ getEigenvector i o (arrays w) = Some None.
Proof.
  intros K V s n [P L].
  assert (H0 : @history K V [] []) by constructor.
  assert (H1 := history_snoc _ _ _ _ H0 (does_new _)). cbn [app] in H1.
  assert (H2 := history_snoc _ _ _ _ H1 (does_load [Some []] 0 [] s eq_refl)). cbn in H2.
  destruct (history_good _ _ H2) as [w [R G]].
  destruct (at_object w _ 0 s G eq_refl) as [o [Ho Ao]]. destruct (g_stands _ _ G 0 o s Ho eq_refl) as [S1 [S2 S3]].
  destruct (destroy_ok w _ 0 o G Ho) as [h [E [Lh _]]].
  assert (Cap : numberOfEigenvectors o = length s).
  { clear - R Ao P. cbn in R. unfold loadEigenpairs, reserve in R. cbn [numberOfEigenvectors empty eigenvectors VecDestroyVecs VecDuplicateVecs] in R.
    destruct (Nat.leb_spec (length s) 0); [lia|]. destruct s as [|e s]; [cbn in P; lia|]. cbn [eigenvectors VecDuplicateVecs length app nth_error] in R.
    destruct (getEigenpairs 0 (e :: s) _); [|discriminate]. injection R as <-. cbn in Ao. injection Ao as <-. reflexivity. }
  exists (World (set 0 (Some (Object n (Some (length h)) (eigenvalues o) (ordering o))) (objects w)) (h ++ [Some (repeat None n)])), (Object n (Some (length h)) (eigenvalues o) (ordering o)).
  split; [|split; [|split]].
  - change [New; Store 0 s; Reserve 0 n] with ([New; Store 0 s] ++ [Reserve 0 n]).
    assert (A : forall ps (w0 w1 : world K V), run w0 ps = Some w1 -> run w0 (ps ++ [Reserve 0 n]) = step w1 (Reserve 0 n)).
    { clear. induction ps as [|x ps IH]; intros w0 w1; cbn [run app]; [intros H; injection H as ->; destruct (step w1 _); reflexivity|]. destruct (step w0 x); [apply IH|discriminate]. }
    rewrite (A _ _ _ R). cbn [step]. rewrite Ao. unfold reserve. destruct (Nat.leb_spec n (numberOfEigenvectors o)); [lia|]. rewrite E. reflexivity.
  - unfold object_at. cbn [objects]. rewrite set_nth by exact (nth_lt _ _ _ Ho). reflexivity.
  - exact S1.
  - intros i x v Hi. destruct (S3 i x v Hi) as [q [a [arr [X1 [X2 _]]]]]. unfold getEigenvalue, getEigenvector. cbn [eigenvalues ordering eigenvectors arrays]. rewrite S1.
    pose proof (nth_lt _ _ _ Hi). destruct (Nat.ltb_spec i (length s)); [|lia]. rewrite X1. split; [exact X2|]. rewrite snoc_nth, Nat.eqb_refl.
    pose proof (nth_lt _ _ _ X2). apply nth_error_repeat. lia.
Qed.
Print Assumptions C70_reserve_refuted.
Example C70_reserve_refuted_nonvacuous : 0 < length [(5, 50); (3, 30)] < 3. Proof. cbn. lia. Qed.
