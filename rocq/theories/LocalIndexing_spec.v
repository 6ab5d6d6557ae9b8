(** What the documentation of ElementLocalIndexing/FaceLocalIndexing promises, in
    terms of the list of unknowns [us] that was requested last and the element
    [e] (list of numbers of basis functions) that was set last. *)
From Coq Require Import List NArith Arith Bool Permutation.
From Verif Require Import LocalIndexing_model.
Import ListNotations.
Open Scope N_scope.

Definition unknowns_after (h : list call) : list nat :=
  fold_left (fun us c => match c with Unknowns us' => us' | _ => us end) h [].
Definition element_after (h : list call) : option elem :=
  fold_left (fun e c => match c with Elem e' => e' | _ => e end) h None.

(** every list of unknowns is free of duplicates, and every element that is in use
    together with a list of unknowns has these unknowns *)
Definition covers (us : list nat) (e : option elem) : Prop :=
  match e with None => True | Some el => forall u, In u us -> (u < length el)%nat end.
Definition legal (h : list call) : Prop :=
  (forall us, In (Unknowns us) h -> NoDup us) /\
  (forall h1 h2, h = h1 ++ h2 -> covers (unknowns_after h1) (element_after h1)).
(** when assertions are compiled in, additionally no empty list *)
Definition nonempty_lists (h : list call) : Prop := ~ In (Unknowns []) h.

Definition count (e : elem) (u : nat) : N := nth u e 0.
Definition sum (l : list N) : N := fold_right N.add 0 l.

(** the DoFs of the unknowns in [us] with a smaller number than [u] *)
Definition dofs_before (e : elem) (us : list nat) (u : nat) : N :=
  sum (map (count e) (filter (fun v => Nat.ltb v u) us)).
Definition dofs_total (e : elem) (us : list nat) : N := sum (map (count e) us).

Definition expected_offset (e : option elem) (us : list nat) (u : nat) : N :=
  match e with
  | Some el => if existsb (Nat.eqb u) us then dofs_before el us u else 2 ^ 64 - 1
  | None => 2 ^ 64 - 1
  end.
Definition expected_size (e : option elem) (us : list nat) (u : nat) : N :=
  match e with
  | Some el => if existsb (Nat.eqb u) us then count el u else 0
  | None => 0
  end.
Definition expected_total (e : option elem) (us : list nat) : N :=
  match e with Some el => dofs_total el us | None => 0 end.

(** faces *)
Definition left_calls (h : list fcall) : list call :=
  map (fun c => match c with FUnknowns us => Unknowns us | FFace l _ => Elem (Some l) end) h.
Definition right_calls (h : list fcall) : list call :=
  map (fun c => match c with FUnknowns us => Unknowns us | FFace _ r => Elem r end) h.

(** 0, 1, ..., n-1 *)
Definition numbers (n : N) : list N := map N.of_nat (seq 0 (N.to_nat n)).
