(** Model of Preprocessor::SparseUnionFind
    (applications/Preprocessor/lib/utils/SparseUnionFind.h/.cpp) and of
    MergePlan::groupMerges (applications/Preprocessor/lib/MergePlan.h:294-331).

    std::size_t is [nat].  findSetPresent is recursive without a bound; the model
    limits the depth of the recursion to [fuel] and returns [None] when that is not
    enough, so a recursion that never returns is [None] for every [fuel]. *)
From Coq Require Import List Arith Bool.
From Verif Require Import Loop_model StdMap_model.
Import ListNotations.

(** SparseUnionFind.h:158 storage_: element -> (parent, rank) *)
Definition storage := list (nat * (nat * nat)).
Notation sfind := (mfind Nat.ltb).
Notation sput := (mput Nat.ltb).

(** std::map::operator[] on an absent key inserts a zero-initialised pair. *)
Definition at_ (s : storage) (x : nat) : storage * (nat * nat) :=
  match sfind x s with
  | Some e => (s, e)
  | None => (sput x (0, 0) s, (0, 0))
  end.
(** std::get<0>(storage_[x]) = p, through a reference obtained earlier or now *)
Definition set_parent (s : storage) (x p : nat) : storage :=
  let '(s, (_, r)) := at_ s x in sput x (p, r) s.
(** ++std::get<1>(storage_[x]) *)
Definition inc_rank (s : storage) (x : nat) : storage :=
  let '(s, (p, r)) := at_ s x in sput x (p, S r) s.

(** SparseUnionFind.cpp:55-64 findSetPresent *)
Fixpoint findSetPresent (fuel : nat) (s : storage) (elem : nat) : option (storage * nat) :=
  match fuel with
  | 0 => None
  | S fuel' =>
      let '(s, (target, _)) := at_ s elem in
      if target =? elem then Some (s, target)
      else match findSetPresent fuel' s target with
           | None => None
           | Some (s', t) => Some (set_parent s' elem t, t)
           end
  end.

(** SparseUnionFind.cpp:42-53 findSet *)
Definition findSet (fuel : nat) (s : storage) (elem : nat) : option (storage * nat) :=
  match sfind elem s with
  | None => Some (s, elem)
  | Some (p, _) =>
      match findSetPresent fuel s p with
      | None => None
      | Some (s', target) => Some (set_parent s' elem target, target)
      end
  end.

(** SparseUnionFind.h:113-115 inSameSet.  The order of the two calls is unspecified in
    C++; here the left operand is evaluated first. *)
Definition inSameSet (fuel : nat) (s : storage) (elem1 elem2 : nat) : option (storage * bool) :=
  match findSet fuel s elem1 with
  | None => None
  | Some (s1, r1) =>
      match findSet fuel s1 elem2 with
      | None => None
      | Some (s2, r2) => Some (s2, r1 =? r2)
      end
  end.

(** SparseUnionFind.cpp:66-99 unionSets *)
Definition unionSets (fuel : nat) (s : storage) (elem1 elem2 : nat) : option storage :=
  if elem1 =? elem2 then Some s
  else
    let s := match sfind elem1 s with None => sput elem1 (elem1, 0) s | Some _ => s end in
    let s := match sfind elem2 s with None => sput elem2 (elem2, 0) s | Some _ => s end in
    match findSetPresent fuel s elem1 with
    | None => None
    | Some (s, target1) =>
        match findSetPresent fuel s elem2 with
        | None => None
        | Some (s, target2) =>
            if target1 =? target2 then Some s
            else
              let '(s, (_, rank1)) := at_ s target1 in
              let '(s, (_, rank2)) := at_ s target2 in
              if rank2 <? rank1 then Some (set_parent s target2 target1)
              else
                let s := set_parent s target1 target2 in
                if rank1 =? rank2 then Some (inc_rank s target2) else Some s
        end
    end.

(** SparseUnionFind.h:129-135 begin()/end(): the keys of the map in order *)
Definition items (s : storage) : list nat := map fst s.

(** MergePlan.h:302-304: one unionSets per pair *)
Fixpoint unionAll (fuel : nat) (s : storage) (pairs : list (nat * nat)) : option storage :=
  match pairs with
  | [] => Some s
  | (a, b) :: r => match unionSets fuel s a b with None => None | Some s' => unionAll fuel s' r end
  end.

(** MergePlan.h:314-329: the loop over the items.  The loop runs over the map while
    findSet assigns to values of the map; no key is added or removed (lemma
    [findSet_items]), so the items visited are those at the start of the loop. *)
Fixpoint groupLoop (fuel : nat) (s : storage) (todo : list nat)
    (merges : list (list nat)) (mergeGroup : list (nat * nat)) : option (list (list nat)) :=
  match todo with
  | [] => Some merges
  | e :: r =>
      match findSet fuel s e with
      | None => None
      | Some (s', representative) =>
          match mfind Nat.ltb representative mergeGroup with
          | Some i =>
              match nth_error merges i with
              | None => None
              | Some g => match write merges i (g ++ [e]) with
                          | None => None
                          | Some merges' => groupLoop fuel s' r merges' mergeGroup
                          end
              end
          | None =>
              groupLoop fuel s' r (merges ++ [[e]]) (mput Nat.ltb representative (length merges) mergeGroup)
          end
      end
  end.

(** MergePlan.h:294-331 groupMerges *)
Definition groupMerges (fuel : nat) (pairs : list (nat * nat)) : option (list (list nat)) :=
  match unionAll fuel [] pairs with
  | None => None
  | Some s => groupLoop fuel s (items s) [] []
  end.
