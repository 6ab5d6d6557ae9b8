(** C13: identifiers handed out by the process-wide index generator. *)
From Coq Require Import List NArith.
From Verif Require Import UniqueIndex_model UniqueIndex_spec UniqueIndex_proofs.
Import ListNotations.

(** Whatever the interleaving of requests, the requests of one kind receive
    0, 1, 2, ... in order (as long as there are at most 2^64 of them). *)
Theorem C13_ids_consecutive : forall h k,
  (N.of_nat (requests k h) <= 2 ^ 64)%N ->
  handed_out k (calls initial h) = first_numbers (requests k h).
Proof. exact unique_index. Qed.
Print Assumptions C13_ids_consecutive.

Theorem C13_ids_unique : forall h k,
  (N.of_nat (requests k h) <= 2 ^ 64)%N -> NoDup (handed_out k (calls initial h)).
Proof. exact unique_index_nodup. Qed.
Print Assumptions C13_ids_unique.

Example C13_ids_nonvacuous :
  let h := [Element; Face; Element; Node; Face; Element] in
  (N.of_nat (requests Element h) <= 2 ^ 64)%N /\
  handed_out Element (calls initial h) = [0; 1; 2]%N /\
  handed_out Face (calls initial h) = [0; 1]%N.
Proof. repeat split; vm_compute; discriminate. Qed.
