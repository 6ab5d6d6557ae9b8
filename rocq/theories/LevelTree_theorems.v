(** C09 to C12: traversals of a LevelTree and the positions that a mesh records. *)
From Coq Require Import List Arith Permutation Lia.
From Verif Require Import LevelTree_model LevelTree_spec LevelTree_proofs.
Import ListNotations.

(** ** C09 *)
(** The iteration ends, and visits the entries of the level from left to right. *)
Theorem C09_single_level_visit : forall V (lt : LevelTree V) L,
  built lt -> onLevel L (entries_ lt) <> [] ->
  returns (fun n => visit n (SingleLevel L) (entries_ lt)) (map data (onLevel L (entries_ lt))).
Proof. exact (fun V lt L => single_level_built lt L). Qed.
Print Assumptions C09_single_level_visit.

(** maxLevel() is the number of levels with entries, when no levels are given to addChild(ren)
    and fillToLevel is not used. *)
Theorem C09_levels : forall V (lt : LevelTree V) L,
  builtPlain lt -> (L < maxLevel_ lt <-> onLevel L (entries_ lt) <> []).
Proof. exact (fun V lt L H => plain_maxLevel lt L H). Qed.
Print Assumptions C09_levels.

(** Entries are never above maxLevel(), and children are always directly below their parent. *)
Theorem C09_built_consistent : forall V (lt : LevelTree V), built lt ->
  consistentForest (entries_ lt) /\
  Forall (fun t => level t + depth t <= maxLevel_ lt) (allEntries (entries_ lt)).
Proof. exact (fun V lt H => built_consistent lt H). Qed.
Print Assumptions C09_built_consistent.

(** Giving a level to addChildren for a parent that has children already: the child 2 of the
    entry 1 is still on level 1 and is not visited any more. *)
Theorem C09_add_children_at_level_refuted :
  exists lt lt' : LevelTree nat, built lt /\ addChildrenAtLevel [0] [3] 2 lt = Some lt' /\
    map data (onLevel 1 (entries_ lt)) = [2] /\ map data (onLevel 1 (entries_ lt')) = [1; 2] /\
    returns (fun n => visit n (SingleLevel 1) (entries_ lt')) [1].
Proof.
  exists {| entries_ := [Node 1 0 1 [Node 2 1 1 []]]; maxLevel_ := 2 |}.
  exists {| entries_ := [Node 1 0 2 [Node 2 1 1 []; Node 3 2 1 []]]; maxLevel_ := 3 |}.
  split; [|split; [reflexivity|split; [reflexivity|split; [reflexivity|]]]].
  - apply (Built_children (addRootEntry 1 emptyTree) [0] [2]); [repeat constructor|reflexivity].
  - exists 4. intros fuel H. do 4 (destruct fuel as [|fuel]; [lia|]). reflexivity.
Qed.
Print Assumptions C09_add_children_at_level_refuted.

(** maxLevel() keeps a level that no entry is on. *)
Theorem C09_max_level_refuted :
  exists lt : LevelTree nat, built lt /\ maxLevel_ lt = 4 /\ onLevel 3 (entries_ lt) = [].
Proof.
  exists {| entries_ := [Node 1 0 1 [Node 2 1 1 []]]; maxLevel_ := 4 |}.
  split; [|split; reflexivity].
  apply (Built_childrenAt (fillToLevel 3 (addRootEntry 1 emptyTree)) [0] [2] 1 _ (Node 1 0 4 []));
    try reflexivity. apply Built_fill; [repeat constructor|discriminate].
Qed.
Print Assumptions C09_max_level_refuted.

(** The forest 1 (2 (3), 4), 5 where 5 is extended to level 2. *)
Definition sample : LevelTree nat :=
  {| entries_ := [Node 1 0 1 [Node 2 1 1 [Node 3 2 1 []]; Node 4 1 2 []]; Node 5 0 3 []];
     maxLevel_ := 3 |}.
Example C09_nonvacuous : built sample /\ onLevel 1 (entries_ sample) <> [] /\
  visit 30 (SingleLevel 1) (entries_ sample) = Some [2; 4; 5] /\
  visit 30 (SingleLevel 2) (entries_ sample) = Some [3; 4; 5].
Proof.
  split; [|split; [discriminate|split; reflexivity]].
  apply (Built_fill {| entries_ := [Node 1 0 1 [Node 2 1 1 [Node 3 2 1 []]; Node 4 1 1 []]; Node 5 0 1 []];
     maxLevel_ := 3 |} 2); [|discriminate].
  apply (Built_root {| entries_ := [Node 1 0 1 [Node 2 1 1 [Node 3 2 1 []]; Node 4 1 1 []]];
     maxLevel_ := 3 |} 5).
  apply (Built_children {| entries_ := [Node 1 0 1 [Node 2 1 1 []; Node 4 1 1 []]];
     maxLevel_ := 2 |} [0; 0] [3]); [|reflexivity].
  apply (Built_children (addRootEntry 1 emptyTree) [0] [2; 4]); [repeat constructor|reflexivity].
Qed.
Example C09_levels_nonvacuous : exists lt : LevelTree nat, builtPlain lt /\ maxLevel_ lt = 2 /\
  entries_ lt = [Node 1 0 1 []; Node 2 0 1 [Node 3 1 1 []]].
Proof.
  exists {| entries_ := [Node 1 0 1 []; Node 2 0 1 [Node 3 1 1 []]]; maxLevel_ := 2 |}.
  split; [|split; reflexivity].
  apply (Plain_children {| entries_ := [Node 1 0 1 []; Node 2 0 1 []]; maxLevel_ := 1 |} [1] [3]);
    [|reflexivity].
  apply (Plain_root {| entries_ := [Node 1 0 1 []]; maxLevel_ := 1 |} 2).
  apply (Plain_root emptyTree 1). constructor.
Qed.

(** ** C10 *)
(** What is visited in general: the levels up to that of the last entry z. *)
Theorem C10_all_levels_visit_partial : forall V (f : list (Tree V)) D z,
  plainForest f -> allEntries f = D ++ [z] ->
  returns (fun n => visit n AllLevel f) (map data (byLevels (S (level z)) f)).
Proof. exact (fun V f D z => all_level_visit f D z). Qed.
Print Assumptions C10_all_levels_visit_partial.

(** So everything, level by level, if the last entry is on the last level. *)
Theorem C10_all_levels_complete_partial : forall V (lt : LevelTree V) D z,
  builtPlain lt -> allEntries (entries_ lt) = D ++ [z] -> S (level z) = maxLevel_ lt ->
  returns (fun n => visit n AllLevel (entries_ lt)) (map data (byLevels (maxLevel_ lt) (entries_ lt))) /\
  Permutation (byLevels (maxLevel_ lt) (entries_ lt)) (allEntries (entries_ lt)).
Proof. exact (fun V lt D z => all_level_built lt D z). Qed.
Print Assumptions C10_all_levels_complete_partial.

(** Otherwise entries are missed: 1 (2), 3. *)
Theorem C10_misses_entries_refuted : exists lt : LevelTree nat, builtPlain lt /\
  map data (allEntries (entries_ lt)) = [1; 2; 3] /\
  returns (fun n => visit n AllLevel (entries_ lt)) [1; 3].
Proof.
  exists {| entries_ := [Node 1 0 1 [Node 2 1 1 []]; Node 3 0 1 []]; maxLevel_ := 2 |}.
  split; [|split; [reflexivity|]].
  - apply (Plain_root {| entries_ := [Node 1 0 1 [Node 2 1 1 []]]; maxLevel_ := 2 |} 3).
    apply (Plain_children (addRootEntry 1 emptyTree) [0] [2]); [repeat constructor|reflexivity].
  - exists 4. intros fuel H. do 4 (destruct fuel as [|fuel]; [lia|]). reflexivity.
Qed.
Print Assumptions C10_misses_entries_refuted.

Definition sampleAll : LevelTree nat :=
  {| entries_ := [Node 1 0 1 [Node 2 1 1 [Node 3 2 1 []]; Node 4 1 1 []];
                  Node 5 0 1 [Node 6 1 1 [Node 7 2 1 []]]]; maxLevel_ := 3 |}.
Example C10_nonvacuous : builtPlain sampleAll /\
  (exists D z, allEntries (entries_ sampleAll) = D ++ [z] /\ S (level z) = maxLevel_ sampleAll) /\
  visit 30 AllLevel (entries_ sampleAll) = Some [1; 5; 2; 4; 6; 3; 7].
Proof.
  split; [|split; [|reflexivity]].
  - apply (Plain_children {| entries_ := [Node 1 0 1 [Node 2 1 1 [Node 3 2 1 []]; Node 4 1 1 []];
                  Node 5 0 1 [Node 6 1 1 []]]; maxLevel_ := 3 |} [1; 0] [7]); [|reflexivity].
    apply (Plain_children {| entries_ := [Node 1 0 1 [Node 2 1 1 [Node 3 2 1 []]; Node 4 1 1 []];
                  Node 5 0 1 []]; maxLevel_ := 3 |} [1] [6]); [|reflexivity].
    apply (Plain_root {| entries_ := [Node 1 0 1 [Node 2 1 1 [Node 3 2 1 []]; Node 4 1 1 []]];
                         maxLevel_ := 3 |} 5).
    apply (Plain_children {| entries_ := [Node 1 0 1 [Node 2 1 1 []; Node 4 1 1 []]];
                             maxLevel_ := 2 |} [0; 0] [3]); [|reflexivity].
    apply (Plain_children (addRootEntry 1 emptyTree) [0] [2; 4]); [repeat constructor|reflexivity].
  - eexists (_ :: _ :: _ :: _ :: _ :: _ :: nil), _. split; reflexivity.
Qed.

(** ** C11 *)
Theorem C11_preorder_visit : forall V (lt : LevelTree V), builtPlain lt ->
  returns (fun n => visit n PreOrder (entries_ lt)) (map data (allEntries (entries_ lt))).
Proof. exact (fun V lt H => preorder_visit (entries_ lt) (built_plain lt H)). Qed.
Print Assumptions C11_preorder_visit.

Theorem C11_postorder_visit : forall V (lt : LevelTree V), builtPlain lt ->
  returns (fun n => visit n PostOrder (entries_ lt)) (map data (allEntriesPost (entries_ lt))).
Proof. exact (fun V lt H => postorder_visit (entries_ lt) (built_plain lt H)). Qed.
Print Assumptions C11_postorder_visit.

Theorem C11_decrement_undoes_increment : forall V (lt : LevelTree V) m i,
  m = PreOrder \/ m = PostOrder -> builtPlain lt -> reached m (entries_ lt) i -> atEnd i = false ->
  exists j, returns (fun n => increment n m i) j /\ returns (fun n => decrement n m j) i.
Proof. exact (fun V lt m i Hm H => undo m (entries_ lt) i Hm (built_plain lt H)). Qed.
Print Assumptions C11_decrement_undoes_increment.

(** An entry that occupies two levels: nothing is visited in pre-order. *)
Theorem C11_deep_entries_refuted : exists lt : LevelTree nat, built lt /\
  map data (allEntries (entries_ lt)) = [1] /\ returns (fun n => visit n PreOrder (entries_ lt)) [].
Proof.
  exists (fillToLevel 1 (addRootEntry 1 emptyTree)). split; [|split; [reflexivity|]].
  - apply Built_fill; [repeat constructor|discriminate].
  - exists 1. intros fuel H. destruct fuel as [|fuel]; [lia|]. reflexivity.
Qed.
Print Assumptions C11_deep_entries_refuted.

Example C11_nonvacuous : builtPlain sampleAll /\
  visit 30 PreOrder (entries_ sampleAll) = Some [1; 2; 3; 4; 5; 6; 7] /\
  visit 30 PostOrder (entries_ sampleAll) = Some [3; 2; 4; 1; 7; 6; 5] /\
  (exists i, reached PostOrder (entries_ sampleAll) i /\ atEnd i = false).
Proof.
  split; [apply C10_nonvacuous|split; [reflexivity|split; [reflexivity|]]].
  eexists. split; [|shelve].
  apply Reached_begin. exists 3. intros fuel H. do 3 (destruct fuel as [|fuel]; [lia|]). reflexivity.
  Unshelve. reflexivity.
Qed.

(** ** C12 *)
(** Adding an element, a face or an edge records the place of its own entry, unless the traversal
    of the list was set to a level above 0. *)
Theorem C12_recorded_position : forall V (m : Method) v (lt : LevelTree V),
  builtPlain lt -> (forall L, m <> SingleLevel (S L)) ->
  returns (fun n => addEntity n m v lt) (addRootEntry v lt, [length (entries_ lt)]) /\
  entryAt [length (entries_ lt)] (entries_ (addRootEntry v lt)) = Some (newEntry 0 v).
Proof. exact (fun V m v lt => addEntity_root m v lt). Qed.
Print Assumptions C12_recorded_position.

(** Adding the sub-elements of an element that has none. *)
Theorem C12_sub_positions : forall V p vs (lt : LevelTree V) t,
  entryAt p (entries_ lt) = Some t -> children t = [] -> vs <> [] ->
  exists lt' ps, addSubEntities p vs lt = Some (lt', ps) /\ addChildren p vs lt = Some lt' /\
    map fst ps = vs /\ NoDup (map snd ps) /\
    forall v q, In (v, q) ps -> exists e, entryAt q (entries_ lt') = Some e /\ data e = v.
Proof. exact (fun V p vs lt t => addSub_first p vs lt t). Qed.
Print Assumptions C12_sub_positions.

(** With the traversal set to level 1 the recorded place is that of another entry. *)
Theorem C12_recorded_position_refuted : exists lt : LevelTree nat, builtPlain lt /\
  returns (fun n => addEntity n (SingleLevel 1) 9 lt) (addRootEntry 9 lt, [0; 0]) /\
  option_map data (entryAt [0; 0] (entries_ (addRootEntry 9 lt))) = Some 2.
Proof.
  exists {| entries_ := [Node 1 0 1 [Node 2 1 1 []]]; maxLevel_ := 2 |}. split; [|split; [|reflexivity]].
  - apply (Plain_children (addRootEntry 1 emptyTree) [0] [2]); [repeat constructor|reflexivity].
  - exists 4. intros fuel H. do 4 (destruct fuel as [|fuel]; [lia|]). reflexivity.
Qed.
Print Assumptions C12_recorded_position_refuted.

(** Refining an element that has sub-elements already reads past the end of the list of new
    sub-elements. *)
Theorem C12_second_refinement_refuted : forall V p vs (lt : LevelTree V) t,
  entryAt p (entries_ lt) = Some t -> children t <> [] -> addSubEntities p vs lt = None.
Proof. exact (fun V p vs lt t => addSub_again p vs lt t). Qed.
Print Assumptions C12_second_refinement_refuted.

Example C12_nonvacuous : builtPlain sampleAll /\
  addEntity 30 AllLevel 8 sampleAll = Some (addRootEntry 8 sampleAll, [2]) /\
  (exists t, entryAt [0; 1] (entries_ sampleAll) = Some t /\ children t = []) /\
  option_map snd (addSubEntities [0; 1] [8; 9] sampleAll) = Some [(8, [0; 1; 0]); (9, [0; 1; 1])] /\
  (exists t, entryAt [0] (entries_ sampleAll) = Some t /\ children t <> []).
Proof.
  split; [apply C10_nonvacuous|split; [reflexivity|split; [|split; [reflexivity|]]]];
    eexists; (split; [reflexivity|]); [reflexivity|discriminate].
Qed.
