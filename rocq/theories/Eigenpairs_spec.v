(** Specification: an object is a list of eigenpairs. *)
From Coq Require Import List Arith.
From Verif Require Import Eigenpairs_model.
Import ListNotations.

Section Spec.
Context {K V : Type}.
Definition pairs := list (K * V).
(** what a call does to the lists of all objects, when it may be made: [None] in the list is an object that is gone *)
Inductive does : list (option pairs) -> op K V -> list (option pairs) -> Prop :=
| does_new l : does l New (l ++ [Some []])
| does_destroy l k p : nth_error l k = Some (Some p) -> does l (Destroy k) (set k None l)
| does_load l k p s : nth_error l k = Some (Some p) -> does l (Store k s) (set k (Some s) l)
(** space is reserved before anything has been loaded *)
| does_reserve l k n : nth_error l k = Some (Some []) -> does l (Reserve k n) l
(** [q] is the list that has, at each place, the pair of [p] that [new] names *)
| does_reorder l k p new q : nth_error l k = Some (Some p) -> length new = length p ->
    Forall2 (fun i x => nth_error p i = Some x) new q -> does l (Reorder k new) (set k (Some q) l)
(** the new object has the pairs, the old one none *)
| does_move_new l k p : nth_error l k = Some (Some p) -> does l (MoveNew k) (set k (Some []) l ++ [Some p])
| does_move_assign l k j p q : nth_error l k = Some (Some p) -> nth_error l j = Some (Some q) ->
    does l (MoveAssign k j) (set j (Some p) (set k (Some q) l)).
Inductive history : list (op K V) -> list (option pairs) -> Prop :=
| history_nil : history [] []
| history_snoc ps l p l' : history ps l -> does l p l' -> history (ps ++ [p]) l'.

Definition owns (o : object K) (a : nat) : Prop := 0 < numberOfEigenvectors o /\ eigenvectors o = Some a.
End Spec.
