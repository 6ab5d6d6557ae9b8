(** Histories of assignments of basis function sets to the places of an element. *)
From Coq Require Import List Arith Bool.
From Verif Require Import BasisPlaces_model.
Import ListNotations.

(** Calls on ElementBasisFunctions. *)
Inductive op := Register (u place pos : nat) | Clear (u : nat).
Definition do_op (sz : list nat) (s : positions) (o : op) : option positions :=
  match o with
  | Register u place pos => registerBasisFunctionPosition sz s u place pos
  | Clear u => clearBasisFunctionPosition s u
  end.
Fixpoint ops (sz : list nat) (s : positions) (h : list op) : option positions :=
  match h with
  | [] => Some s
  | o :: h' => match do_op sz s o with None => None | Some s' => ops sz s' h' end
  end.

(** The set that is in use for unknown [u] at [place] after the history: the one
    registered last, unless the unknown was cleared later. *)
Definition in_use (h : list op) (u place : nat) : option nat :=
  fold_left (fun cur o =>
    match o with
    | Register u' place' pos => if (u' =? u) && (place' =? place) then Some pos else cur
    | Clear u' => if u' =? u then None else cur
    end) h None.

(** Its number of functions (0 without a set). *)
Definition functions_at (sz : list nat) (h : list op) (u place : nat) : nat :=
  match in_use h u place with Some pos => nth pos sz 0 | None => 0 end.

(** Number of functions in the places before [place]. *)
Definition functions_before (sz : list nat) (h : list op) (u place : nat) : nat :=
  list_sum (map (functions_at sz h u) (seq 0 place)).

(** All places used in the history are below [P]; all positions and unknowns exist. *)
Definition within (sz : list nat) (unknowns P : nat) (h : list op) : Prop :=
  forall o, In o h ->
    match o with
    | Register u place pos => u < unknowns /\ place < P /\ pos < length sz
    | Clear u => u < unknowns
    end.

(** The calls that an element makes. *)
Definition element_ops (nf ne : nat) (c : edit) : list op :=
  match c with
  | SetDefault pos u => [Clear u; Register u 0 pos]
  | SetFace pos f u => [Register u (1 + f) pos]
  | SetEdge pos d u => [Register u (1 + nf + d) pos]
  | SetVertex pos v u => [Register u (1 + nf + ne + v) pos]
  end.

(** Calls to an existing set, unknown, face, edge, node. *)
Definition legal_edit (sz : list nat) (nf ne nn unknowns : nat) (c : edit) : Prop :=
  match c with
  | SetDefault pos u => pos < length sz /\ u < unknowns
  | SetFace pos f u => pos < length sz /\ u < unknowns /\ f < nf
  | SetEdge pos d u => pos < length sz /\ u < unknowns /\ d < ne
  | SetVertex pos v u => pos < length sz /\ u < unknowns /\ v < nn
  end.

(** Discontinuous bases: functions of the element only. *)
Definition only_default (h : list edit) : Prop :=
  forall c, In c h -> match c with SetDefault _ _ => True | _ => False end.

(** The unknown that a call is about. *)
Definition about (o : op) : nat := match o with Register u _ _ => u | Clear u => u end.
