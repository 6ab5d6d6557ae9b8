(** What the exchange lists of the submeshes promise. *)
From Coq Require Import List Arith.
From Verif Require Import Loop_model StdMap_model Submesh_model.
Import ListNotations.

(** the elements process [p] receives from process [q], and those [q] sends to [p] *)
Definition entry (m : list (nat * list nat)) (k : nat) : list nat := match mfind Nat.ltb k m with Some l => l | None => [] end.
Definition pulls (system : list submesh) (p q : nat) : list nat :=
  match nth_error system p with Some s => entry (pullElements s) q | None => [] end.
Definition pushes (system : list submesh) (q p : nat) : list nat :=
  match nth_error system q with Some s => entry (pushElements s) p | None => [] end.
Definition owns (system : list submesh) (q e : nat) : Prop := exists s, nth_error system q = Some s /\ In e (elements s).
Definition requests (system : list submesh) (p e : nat) : Prop := exists s, nth_error system p = Some s /\ In e (otherPulls s).

(** The mesh file: partitions exist, the shadow partitions of an element are different and not its own. *)
Definition valid_file (n : nat) (lines : list line) : Prop := forall l, In l lines ->
  partition l < n /\ NoDup (shadowPartitions l) /\ ~ In (partition l) (shadowPartitions l) /\ forall p, In p (shadowPartitions l) -> p < n.
(** All [n] processes have read the file. *)
Definition read (n first : nat) (lines : list line) : list submesh := map (readMesh first lines) (seq 0 n).

(** What can happen then: process [p] asks for element [e], or all processes look at their lists. *)
Inductive op := Request (p e : nat) | Process.
Definition perform (top : nat) (o : op) (system : list submesh) : option (list submesh) :=
  match o with
  | Request p e => s <- nth_error system p; write system p (addPullElement s e)
  | Process => processPullRequests top system
  end.
Fixpoint history (top : nat) (ops : list op) (system : list submesh) : option (list submesh) :=
  match ops with [] => Some system | o :: r => system <- perform top o system; history top r system end.
(** processes and elements exist; [top] is larger than every element id *)
Definition valid_ops (n top : nat) (ops : list op) : Prop := forall p e, In (Request p e) ops -> p < n /\ e < top.
(** Nobody asks for an element that is already received. *)
Inductive careful (n top first : nat) (lines : list line) : list submesh -> Prop :=
| careful_read : careful n top first lines (read n first lines)
| careful_request system p e system' : careful n top first lines system -> p < n -> e < top -> (forall q, ~ In e (pulls system p q)) ->
    perform top (Request p e) system = Some system' -> careful n top first lines system'
| careful_process system system' : careful n top first lines system -> perform top Process system = Some system' -> careful n top first lines system'.
