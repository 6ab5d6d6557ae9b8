(** Model of HpgemAPIBase::synchronize (kernel/Base/HpgemAPIBase_Impl.h:92-140) with MPIContainer::send, receive and sync
    (kernel/Base/MpiContainer.h:138-146, 204-220, 282-298, MpiContainer.cpp:90-102) on all processes.
    [A] is the type of the numbers.  The debug assertion on the sizes of the vectors is left out.
    The tag, the id of the element, is not cut to an int. *)
From Coq Require Import List Arith Bool.
From Verif Require Import Submesh_model.
Import ListNotations.

Section Sync.
Context {A : Type}.
(** the time integration vector of element [e] on process [p] *)
Definition memory := nat -> nat -> list A.
Definition update (m : memory) (p e : nat) (v : list A) : memory := fun p' e' => if (p' =? p) && (e' =? e) then v else m p' e'.

(** Process [p] receives from [q], or sends to [q], with tag [e]. *)
Inductive action := Receive (p q e : nat) | Send (p q e : nat).
Definition process_of (a : action) : nat := match a with Receive p _ _ => p | Send p _ _ => p end.

(** HpgemAPIBase_Impl.h:103-137: the calls of MPI_Irecv and MPI_Isend of process [p], in order; vectors of size 0 are
    skipped (MpiContainer.h:215, 293) *)
Definition calls (m : memory) (p : nat) (s : submesh) : list action :=
  flat_map (fun '(q, l) => flat_map (fun e => if length (m p e) =? 0 then [] else [Receive p q e]) l) (pullElements s) ++
  flat_map (fun '(q, l) => flat_map (fun e => if length (m p e) =? 0 then [] else [Send p q e]) l) (pushElements s).

(** Calls that are still to be made, receives (receiver, sender, tag) and sends (sender, receiver, tag) in flight; MPI
    may copy the data when the send is called, or when it is received. *)
Record state := State { todo : list action; receives : list (nat * nat * nat); sends : list (nat * nat * nat * option (list A)); data : memory }.
Definition start (system : list submesh) (m : memory) : state :=
  State (flat_map (fun '(p, s) => calls m p s) (combine (seq 0 (length system)) system)) [] [] m.

(** What MPI copies; a message may not be longer than the buffer of the receiver. *)
Definition sent (c : state) (q e : nat) (d : option (list A)) : list A := match d with Some v => v | None => data c q e end.
Inductive step : state -> state -> Prop :=
| step_receive c before p q e after : todo c = before ++ Receive p q e :: after -> (forall a, In a before -> process_of a <> p) ->
    step c (State (before ++ after) (receives c ++ [(p, q, e)]) (sends c) (data c))
| step_send c before p q e after d : todo c = before ++ Send p q e :: after -> (forall a, In a before -> process_of a <> p) ->
    d = None \/ d = Some (data c p e) ->
    step c (State (before ++ after) (receives c) (sends c ++ [(p, q, e, d)]) (data c))
| step_transfer c p q e d r1 r2 s1 s2 : receives c = r1 ++ (p, q, e) :: r2 -> sends c = s1 ++ (q, p, e, d) :: s2 ->
    length (sent c q e d) <= length (data c p e) ->
    step c (State (todo c) (r1 ++ r2) (s1 ++ s2) (update (data c) p e (sent c q e d ++ skipn (length (sent c q e d)) (data c p e)))).
(** MPI reports a message that is too long. *)
Definition truncated (c : state) : Prop := exists p q e d, In (p, q, e) (receives c) /\ In (q, p, e, d) (sends c) /\ length (data c p e) < length (sent c q e d).
(** All calls are made and completed: MPI_Waitall and MPI_Barrier return on all processes. *)
Definition finished (c : state) : Prop := todo c = [] /\ receives c = [] /\ sends c = [].
Inductive steps : nat -> state -> state -> Prop :=
| steps_none c : steps 0 c c
| steps_more k c c' c'' : steps k c c' -> step c' c'' -> steps (S k) c c''.
End Sync.
