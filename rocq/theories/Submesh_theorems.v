(** C14, C54: lists of elements to exchange, and their exchange. *)
From Coq Require Import List Arith Bool Lia.
From Verif Require Import Submesh_model Submesh_spec Submesh_proofs SubmeshMore_proofs Sync_model Sync_proofs.
Import ListNotations.

(** After reading a mesh and any requests, process p receives from q exactly what q sends to p, in the same order;
    q owns these elements, and p is not q.  No call fails. *)
Theorem C14_symmetric : forall n top first lines ops, valid_file n lines -> first + length lines <= top -> valid_ops n top ops ->
  exists system, history top ops (read n first lines) = Some system /\
    forall p q, pulls system p q = pushes system q p /\ forall e, In e (pulls system p q) -> p <> q /\ owns system q e.
Proof. exact exchange_symmetric. Qed.
Print Assumptions C14_symmetric.

(** A process owns what the file says, always. *)
Theorem C14_owner : forall n top first lines ops system, valid_file n lines -> first + length lines <= top -> valid_ops n top ops ->
  history top ops (read n first lines) = Some system ->
  forall q e, owns system q e <-> exists i l, nth_error lines i = Some l /\ e = first + i /\ partition l = q.
Proof. exact exchange_owner. Qed.
Print Assumptions C14_owner.

(** Processing adds exactly the requested elements of other processes and leaves no requests. *)
Theorem C14_requests : forall n top first lines ops system, valid_file n lines -> first + length lines <= top -> valid_ops n top ops ->
  history top ops (read n first lines) = Some system ->
  exists system', processPullRequests top system = Some system' /\
    (forall p e, ~ requests system' p e) /\ (forall q e, owns system' q e <-> owns system q e) /\
    forall p q, exists new, pulls system' p q = pulls system p q ++ new /\ NoDup new /\
      forall e, In e new <-> p <> q /\ requests system p e /\ owns system q e.
Proof.
  intros n top first lines ops system V T O H. destruct (history_good n top first lines ops _ (read_good n top first lines V T) O) as (system' & E & G).
  rewrite H in E. injection E as <-. exact (process_requests n top first lines system G).
Qed.
Print Assumptions C14_requests.

Definition a_file := [Line 0 [1]; Line 1 [0; 2]; Line 2 [1]; Line 0 []].
Lemma a_file_valid : valid_file 3 a_file.
Proof.
  intros l [<-|[<-|[<-|[<-|[]]]]]; cbn; (split; [lia|]; split; [repeat constructor; cbn; intuition lia|]; split; [intuition lia|intuition lia]).
Qed.
Example C14_nonvacuous : valid_file 3 a_file /\ valid_ops 3 100 [Request 2 10; Request 2 13; Process; Request 0 12; Request 0 10; Process] /\
  exists system, history 100 [Request 2 10; Request 2 13; Process; Request 0 12; Request 0 10; Process] (read 3 10 a_file) = Some system /\
    pulls system 2 0 = [10; 13] /\ pushes system 0 2 = [10; 13] /\ pulls system 0 2 = [12] /\ pulls system 0 1 = [11].
Proof.
  split; [exact a_file_valid|]. split; [intros p e H; cbn in H; intuition (try discriminate; match goal with E : Request _ _ = _ |- _ => injection E as <- <-; lia end)|].
  eexists. split; [vm_compute; reflexivity|]. repeat split.
Qed.

(** Nothing is received twice if nobody asks for what is received already ... *)
Theorem C14_once_partial : forall n top first lines system, valid_file n lines -> first + length lines <= top -> careful n top first lines system ->
  forall p q, NoDup (pulls system p q) /\ forall q' e, In e (pulls system p q) -> In e (pulls system p q') -> q = q'.
Proof. exact careful_once. Qed.
Print Assumptions C14_once_partial.
Example C14_once_nonvacuous : exists system, careful 3 100 10 a_file system /\ pulls system 2 0 = [13].
Proof.
  eexists. split; [eapply careful_process; [eapply (careful_request 3 100 10 a_file _ 2 13); [constructor|lia|lia| |vm_compute; reflexivity]|vm_compute; reflexivity]|reflexivity].
  intros [|[|[|q]]] H; vm_compute in H; intuition discriminate.
Qed.
(** ... but an element that is requested again, or that is received by default, is then received twice. *)
Theorem C14_twice_refuted : exists n top first lines ops system p q, valid_file n lines /\ first + length lines <= top /\ valid_ops n top ops /\
  history top ops (read n first lines) = Some system /\ ~ NoDup (pulls system p q).
Proof.
  exists 3, 100, 10, a_file, [Request 0 11; Process]. eexists. exists 0, 1. split; [exact a_file_valid|]. split; [cbn; lia|].
  split; [intros p e [H|[H|[]]]; [injection H as <- <-; lia|discriminate]|]. split; [vm_compute; reflexivity|].
  intros H. vm_compute in H. inversion H as [|? ? N _]; subst. apply N. left. reflexivity.
Qed.
Print Assumptions C14_twice_refuted.

(** synchronize: whatever the order of calls and transfers, there is no deadlock and no infinite run, no message is too
    long, and in the end the vectors of received elements are those of their owners and all others are unchanged. *)
Theorem C54_synchronize : forall (A : Type) n top first lines ops system (m : @memory A),
  valid_file n lines -> first + length lines <= top -> valid_ops n top ops -> history top ops (read n first lines) = Some system ->
  (forall p q e, In e (pulls system p q) -> length (m p e) = length (m q e)) ->
  exists bound, forall k c, steps k (start system m) c ->
    k <= bound /\ ~ truncated c /\ ((exists c', step c c') \/ finished c) /\
    (finished c -> (forall p q e, In e (pulls system p q) -> data c p e = m q e) /\ (forall p e, (forall q, ~ In e (pulls system p q)) -> data c p e = m p e)).
Proof. exact @synchronized. Qed.
Print Assumptions C54_synchronize.
Example C54_nonvacuous : exists system, history 100 [Request 2 10; Process] (read 3 10 a_file) = Some system /\
  let m := fun p e => [p; e] in
  (forall p q e, In e (pulls system p q) -> length (m p e) = length (m q e)) /\ In 10 (pulls system 2 0) /\ In (Receive 2 0 10) (todo (start system m)) /\ In (Send 0 2 10) (todo (start system m)).
Proof. eexists. split; [vm_compute; reflexivity|]. cbn zeta. split; [reflexivity|]. split; [left; reflexivity|]. split; vm_compute; intuition congruence. Qed.
