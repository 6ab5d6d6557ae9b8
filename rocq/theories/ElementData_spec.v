(** The coefficients as a table indexed by (bank, vector, unknown, basis function),
    where the two banks are the time levels and the time integration vectors. *)
From Coq Require Import List Arith Bool.
From Verif Require Import ElementData_model.
Import ListNotations.

Section Spec.
Context {A : Type} (zero : A) (counts : list nat).

Inductive bank := Level | Integration.

(** [u] is an unknown and [b] one of its basis functions *)
Definition valid (u b : nat) : Prop := exists n, nth_error counts u = Some n /\ b < n.

(** number of coefficients of the unknowns before [u] *)
Definition before (u : nat) : nat := list_sum (firstn u counts).

(** What a call does to one cell of the table.  A cell of a vector that has never
    been written is [None]; the first write to a vector makes its other cells 0. *)
Definition touched (old : option A) : option A := match old with None => Some zero | Some x => Some x end.
Definition effect (c : call A) (k : bank) (t u b : nat) (old : option A) : option A :=
  match c, k with
  | SetData t' u' b' x, Level | SetTimeIntegrationData t' u' b' x, Integration =>
      if t =? t' then (if (u =? u') && (b =? b') then Some x else touched old) else old
  | SetTimeLevelData t' u' v, Level | SetTimeIntegrationSubvector t' u' v, Integration =>
      if t =? t' then (if u =? u' then nth_error v b else touched old) else old
  | SetTimeLevelDataSingle t' v, Level =>
      if t =? t' then (if u =? 0 then nth_error v b else touched old) else old
  | SetTimeLevelDataVector t' v, Level | SetTimeIntegrationVector t' v, Integration =>
      if t =? t' then nth_error v (before u + b) else old
  | OpenTimeLevelDataVector t', Level => if t =? t' then touched old else old
  | SetNumberOfTimeIntegrationVectors n, Integration => if t <? n then old else None
  | _, _ => old
  end.
Definition cell (h : list (call A)) (k : bank) (t u b : nat) : option A :=
  fold_left (fun old c => effect c k t u b old) h None.

(** Number of time integration vectors after a history. *)
Definition vectors_after (h : list (call A)) : nat :=
  fold_left (fun n c => match c with SetNumberOfTimeIntegrationVectors m => m | _ => n end) h 0.

(** Calls with arguments in range and vectors of the right size. *)
Definition in_range (levels vectors : nat) (c : call A) : Prop :=
  match c with
  | SetData t u b _ => t < levels /\ valid u b
  | SetTimeLevelData t u v => t < levels /\ nth_error counts u = Some (length v)
  | SetTimeLevelDataSingle t v =>
      t < levels /\ nth_error counts 0 = Some (length v) /\ (forall n, In n counts -> n = length v)
  | SetTimeLevelDataVector t v => t < levels /\ length v = list_sum counts
  | OpenTimeLevelDataVector t => t < levels
  | SetNumberOfTimeIntegrationVectors _ => True
  | SetTimeIntegrationVector i v => i < vectors /\ length v = list_sum counts
  | SetTimeIntegrationSubvector i u v => i < vectors /\ nth_error counts u = Some (length v)
  | SetTimeIntegrationData i u b _ => i < vectors /\ valid u b
  end.
Definition legal (levels : nat) (h : list (call A)) : Prop :=
  forall h1 c h2, h = h1 ++ c :: h2 -> in_range levels (vectors_after h1) c.

(** The cells of unknown [u] of one vector, in order; [None] if one has no value. *)
Fixpoint row (f : nat -> option A) (n : nat) : option (list A) :=
  match n with
  | 0 => Some []
  | S n' => match row f n', f n' with Some l, Some x => Some (l ++ [x]) | _, _ => None end
  end.
End Spec.
