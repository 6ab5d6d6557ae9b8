(** C05: the exchange of indices between processes. *)
From Coq Require Import List Arith Sorting.Sorted.
From Verif Require Import GlobalIndexing_model GlobalIndexing_spec IndexExchange_model IndexExchange_spec IndexExchange_proofs.
Import ListNotations.

(** In every interleaving, no process throws, fails an assertion or reads a missing offset. *)
Theorem C05_no_error : forall m n layout unknowns r,
  valid_mesh n m -> NoDup (included m unknowns) -> valid_unknowns m unknowns -> indexing m n layout unknowns r ->
  forall eager s p, reachable m n eager r s -> p < n -> phase (proc s p) <> Failed.
Proof. exact exchange_no_error. Qed.
Print Assumptions C05_no_error.

(** No deadlock, whether or not MPI buffers the messages. *)
Theorem C05_no_deadlock : forall m n layout unknowns r,
  valid_mesh n m -> NoDup (included m unknowns) -> valid_unknowns m unknowns -> indexing m n layout unknowns r ->
  forall eager s, reachable m n eager r s -> finished n s \/ exists t, step m n eager s t.
Proof. exact exchange_progress. Qed.
Print Assumptions C05_no_deadlock.

Theorem C05_terminates : forall m n layout unknowns r,
  valid_mesh n m -> NoDup (included m unknowns) -> valid_unknowns m unknowns -> indexing m n layout unknowns r ->
  forall eager k s, run m n eager k (initial m n r) s -> k <= n * (4 * n + 9).
Proof. exact exchange_terminates. Qed.
Print Assumptions C05_terminates.

(** A process that has returned gives the owner's index for every object of every element it
    sees. *)
Theorem C05_agree : forall m n layout unknowns r,
  valid_mesh n m -> NoDup (included m unknowns) -> valid_unknowns m unknowns -> indexing m n layout unknowns r ->
  forall eager s p, reachable m n eager r s -> p < n -> phase (proc s p) = Done -> agree m r s p.
Proof. exact exchange_agree. Qed.
Print Assumptions C05_agree.

Theorem C05_informed : forall m n layout unknowns r,
  valid_mesh n m -> NoDup (included m unknowns) -> valid_unknowns m unknowns -> indexing m n layout unknowns r ->
  forall eager s p, reachable m n eager r s -> p < n -> phase (proc s p) = Done -> informed m r p (indexing_ (proc s p)).
Proof. exact exchange_informed. Qed.
Print Assumptions C05_informed.

(** The index list of an element, shadow elements included, after the exchange. *)
Theorem C05_element_indices : forall m n layout unknowns r,
  valid_mesh n m -> NoDup (included m unknowns) -> valid_unknowns m unknowns -> indexing m n layout unknowns r ->
  forall eager s p total e old, reachable m n eager r s -> p < n -> phase (proc s p) = Done ->
  counts_all m total -> In e (elements m) -> visible m p e = true ->
  exists indices, getGlobalIndicesOfElement m (indexing_ (proc s p)) total e old = Some indices /\ NoDup indices /\
    exists us, StronglySorted lt us /\ (forall u, In u us <-> In u (included m unknowns)) /\
      Forall2 (numbered m r) (dofs_of_element m us e) indices.
Proof. exact exchange_element. Qed.
Print Assumptions C05_element_indices.

(** Three intervals on three processes: the second round is needed, and runs to the end. *)
Example C05_nonvacuous :
  let r := answer threeIntervals 3 SEQUENTIAL None in
  valid_mesh 3 threeIntervals /\ NoDup (included threeIntervals None) /\ valid_unknowns threeIntervals None /\
  indexing threeIntervals 3 SEQUENTIAL None r /\
  createInitialMessage threeIntervals 1 (r 1) 2 (pushElements threeIntervals 1 2) =
    Some ([tagOf KElement 1; 4; tagOf KFace 2; 6], [tagOf KFace 1]) /\
  getGlobalIndex (r 2) KFace 1 0 = None /\
  forall eager, exists s, reachable threeIntervals 3 eager r s /\ finished 3 s /\
    getGlobalIndex (indexing_ (proc s 2)) KFace 1 0 = Some 3.
Proof. exact three_example. Qed.
Print Assumptions C05_nonvacuous.
