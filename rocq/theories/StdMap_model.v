(** std::map and std::set, ordered by [ltb], as sorted association lists: iteration
    from begin() to end() is the list from left to right. *)
From Coq Require Import List Arith Bool.
Import ListNotations.

Section Map.
Context {K V : Type} (ltb : K -> K -> bool).

(** m.find(k) *)
Fixpoint mfind (k : K) (m : list (K * V)) : option V :=
  match m with
  | [] => None
  | (k', v) :: r => if ltb k k' then mfind k r else if ltb k' k then mfind k r else Some v
  end.
(** m[k] = v *)
Fixpoint mput (k : K) (v : V) (m : list (K * V)) : list (K * V) :=
  match m with
  | [] => [(k, v)]
  | (k', v') :: r =>
      if ltb k k' then (k, v) :: m
      else if ltb k' k then (k', v') :: mput k v r
      else (k', v) :: r
  end.
(** m.erase(k) *)
Fixpoint merase (k : K) (m : list (K * V)) : list (K * V) :=
  match m with
  | [] => []
  | (k', v') :: r => if ltb k k' then m else if ltb k' k then (k', v') :: merase k r else r
  end.
End Map.

(** s.insert(k) *)
Fixpoint sinsert {K} (ltb : K -> K -> bool) (k : K) (s : list K) : list K :=
  match s with
  | [] => [k]
  | k' :: r => if ltb k k' then k :: s else if ltb k' k then k' :: sinsert ltb k r else s
  end.

(** operator< of std::set and std::vector: lexicographic *)
Fixpoint lex_ltb {K} (ltb : K -> K -> bool) (a b : list K) : bool :=
  match a, b with
  | [], [] => false
  | [], _ :: _ => true
  | _ :: _, [] => false
  | x :: a', y :: b' => if ltb x y then true else if ltb y x then false else lex_ltb ltb a' b'
  end.
