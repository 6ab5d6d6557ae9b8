(** Counting loops and array writes as they occur everywhere in the C++ code. *)
From Coq Require Import List Arith.
Import ListNotations.

(** [for (i = start; i < start + n; ++i) body], where [body] may fail. *)
Fixpoint for_from {St} (start n : nat) (body : nat -> St -> option St) (s : St) : option St :=
  match n with
  | 0 => Some s
  | S n' => match body start s with
            | None => None
            | Some s' => for_from (S start) n' body s'
            end
  end.
Definition for_loop {St} (n : nat) (body : nat -> St -> option St) (s : St) : option St :=
  for_from 0 n body s.

(** [v[i] = x]; [None] when out of range *)
Fixpoint write {A} (v : list A) (i : nat) (x : A) : option (list A) :=
  match v, i with
  | [], _ => None
  | _ :: r, 0 => Some (x :: r)
  | y :: r, S i' => match write r i' x with Some r' => Some (y :: r') | None => None end
  end.

(** The vector [f 0, ..., f (n-1)], filled by a loop [ret[i] = f i]. *)
Definition collect {A} (n : nat) (f : nat -> option A) : option (list A) :=
  for_loop n (fun i acc => match f i with None => None | Some x => Some (acc ++ [x]) end) [].

(** std::vector::resize(n) with fill value [x] *)
Definition vresize {A} (l : list A) (n : nat) (x : A) : list A :=
  firstn n l ++ repeat x (n - length l).
