(** C34, C35: union-find and merge groups.
    [fuel] limits the depth of findSetPresent's recursion in the model; all calls of a
    history return as soon as it exceeds log2 of twice the number of merges: the recursion
    terminates in every reachable state and is at most logarithmically deep. *)
From Coq Require Import List Arith Sorted.
From Verif Require Import StdMap_model UnionFind_model UnionFind_spec UnionFind_proofs.
Import ListNotations.

Theorem C34_all_calls_return : forall h fuel, depth (length (merged h)) < fuel ->
  exists s, history fuel [] h = Some s.
Proof. exact history_returns. Qed.
Print Assumptions C34_all_calls_return.

(** After any history of calls, inSameSet tells whether the merged pairs connect. *)
Theorem C34_same_set_iff_connected : forall h fuel s a b,
  depth (length (merged h)) < fuel -> history fuel [] h = Some s ->
  exists s' r, inSameSet fuel s a b = Some (s', r) /\ (r = true <-> connected (merged h) a b).
Proof. exact same_set_correct. Qed.
Print Assumptions C34_same_set_iff_connected.

(** findSet returns a member of the set, the same for all members of the set, also
    when it is called after other lookups. *)
Theorem C34_representative : forall h fuel s,
  depth (length (merged h)) < fuel -> history fuel [] h = Some s ->
  forall a, exists s' r, findSet fuel s a = Some (s', r) /\ connected (merged h) a r /\
    (forall b s'' q, connected (merged h) a b -> findSet fuel s b = Some (s'', q) -> q = r) /\
    (forall b s'' q, findSet fuel s' b = Some (s'', q) -> (q = r <-> connected (merged h) a b)).
Proof. exact find_correct. Qed.
Print Assumptions C34_representative.

(** Iteration lists the items in sets of two or more, each once and in order. *)
Theorem C34_iteration : forall h fuel s,
  depth (length (merged h)) < fuel -> history fuel [] h = Some s ->
  StronglySorted lt (items s) /\ forall a, In a (items s) <-> exists b, b <> a /\ connected (merged h) a b.
Proof. exact items_correct. Qed.
Print Assumptions C34_iteration.

(** Lookups do not disturb an iteration. *)
Theorem C34_find_keeps_items : forall h fuel s a s' r,
  depth (length (merged h)) < fuel -> history fuel [] h = Some s ->
  findSet fuel s a = Some (s', r) -> items s' = items s.
Proof. exact findSet_items. Qed.
Print Assumptions C34_find_keeps_items.

Example C34_nonvacuous :
  exists s, history 6 [] [Union 5 3; Union 8 9; Find 5; Union 3 9; Union 7 7; Same 5 8; Union 1 2] = Some s /\
    items s = [1; 2; 3; 5; 8; 9] /\ option_map snd (inSameSet 6 s 5 8) = Some true /\
    option_map snd (inSameSet 6 s 1 8) = Some false /\ option_map snd (findSet 6 s 7) = Some 7.
Proof. eexists. repeat split. Qed.

(** groupMerges: disjoint groups of at least two, equal to the connected components. *)
Theorem C35_groups_are_components : forall pairs fuel, depth (length pairs) < fuel ->
  exists gs, groupMerges fuel pairs = Some gs /\ NoDup (List.concat gs) /\
    (forall g, In g gs -> 2 <= length g /\ StronglySorted lt g) /\
    (forall a b, a <> b -> ((exists g, In g gs /\ In a g /\ In b g) <-> connected pairs a b)).
Proof. exact groupMerges_ok. Qed.
Print Assumptions C35_groups_are_components.

Example C35_nonvacuous :
  groupMerges 6 [(5, 3); (8, 9); (9, 8); (4, 4); (3, 1)] = Some [[1; 3; 5]; [8; 9]].
Proof. reflexivity. Qed.
