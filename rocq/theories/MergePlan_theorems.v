(** C42: merge plans of the preprocessor.  [fuel] limits the depth of the recursion of union-find. *)
From Coq Require Import List Arith Relations Sorted Lia.
From Verif Require Import UnionFind_model PreMesh_model PreShapes_model PreMesh_spec PreMesh_proofs PreMeshShare_proofs PreMeshMore_proofs
  MergePlan_model MergePlan_spec MergePlan_proofs MergePlanMore_proofs.
Import ListNotations.

(** The plan for an injective pairing has, for every dimension, disjoint groups; two entities are in one group
    if and only if the pairing connects them. *)
Theorem C42_plan : forall m pairing, ready m -> valid_pairing m pairing -> injective pairing ->
  exists k, forall fuel, k < fuel -> exists merges, computeMergePlan fuel m pairing = Some merges /\ length merges = length (meshEntities m) /\
    forall d gs, nth_error merges d = Some gs ->
      NoDup (List.concat gs) /\ (forall g, In g gs -> 2 <= length g /\ StronglySorted lt g) /\
      forall a b, a <> b -> ((exists g, In g gs /\ In a g /\ In b g) <-> connects m pairing d a b).
Proof. intros m pairing (C & W & P & S). exact (plan_ok m pairing C W P S). Qed.
Print Assumptions C42_plan.

(** Computing and executing the plan: two parts are the same entity afterwards if and only if the pairing connects
    them, the elements keep their coordinates, and the next plan can be computed. *)
Theorem C42_merged : forall m pairing, ready m -> valid_pairing m pairing -> injective pairing ->
  exists k, forall fuel, k < fuel -> exists merges m',
    computeMergePlan fuel m pairing = Some merges /\ executeMerge merges m = Some m' /\ ready m' /\ same_elements m m' /\
    (forall d el l x, part_of m d el l = Some x -> exists y, part_of m' d el l = Some y /\ connects m pairing d x y) /\
    (forall d el l x el' l' x', part_of m d el l = Some x -> part_of m d el' l' = Some x' ->
       (part_of m' d el l = part_of m' d el' l' <-> connects m pairing d x x')).
Proof. exact merged_ok. Qed.
Print Assumptions C42_merged.
(** Every mesh made by adding fitting elements qualifies. *)
Theorem C42_built_ready : forall dimension m, 1 <= dimension -> built dimension m -> ready m.
Proof. exact built_ready. Qed.
Print Assumptions C42_built_ready.
Example C42_nonvacuous : exists m, built 2 m /\ valid_pairing m [(0, 1); (2, 3)] /\ injective [(0, 1); (2, 3)] /\
  part_of m 1 0 1 = Some 1 /\ part_of m 1 1 1 = Some 3 /\ identified m [(0, 1); (2, 3)] 1 1 3 /\
  computeMergePlan 5 m [(0, 1); (2, 3)] = Some [[[0; 1]; [2; 3]]; [[1; 3]]].
Proof.
  eexists. split; [eapply (buildable_built 2 two_triangles (empty 2)); [constructor|vm_compute; reflexivity|vm_compute; reflexivity]|].
  split; [apply validb_sound; [apply ksortedb_sound; reflexivity|vm_compute; reflexivity]|].
  split; [intros a b c [E|[E|[]]] [F|[F|[]]]; congruence|].
  split; [reflexivity|]. split; [reflexivity|]. split; [|vm_compute; reflexivity].
  exists 0, 1, 1, 1, [0; 2], [1; 3]. split; [reflexivity|]. split; [reflexivity|].
  split; [exists triangle, [0; 2]; split; [reflexivity|]; split; [reflexivity|repeat constructor]|].
  split; [exists triangle, [0; 2]; split; [reflexivity|]; split; [reflexivity|repeat constructor]|].
  split.
  - intros c [<-|[<-|[]]]; [exists 1|exists 3]; cbn; auto.
  - intros c'. cbn. split.
    + intros [<-|[<-|[]]]; [exists 0|exists 2]; auto.
    + intros (c & [<-|[<-|[]]] & [E|[E|[]]]); injection E; intros; subst; auto; discriminate.
Qed.

(** For every pairing, also one that is not injective: a plan, if there is one, groups only what the pairing connects. *)
Theorem C42_sound : forall m pairing, consistent m -> whole m -> valid_pairing m pairing ->
  exists k, forall fuel merges, k < fuel -> computeMergePlan fuel m pairing = Some merges -> length merges = length (meshEntities m) /\
    forall d gs, nth_error merges d = Some gs -> NoDup (List.concat gs) /\ forall g a b, In g gs -> In a g -> In b g -> connects m pairing d a b.
Proof. exact plan_sound. Qed.
Print Assumptions C42_sound.
Example C42_sound_nonvacuous : built 2 three /\ valid_pairing three onto /\ ~ injective onto /\
  computeMergePlan 9 three onto = Some [[[0; 3; 6]; [1; 4; 7]]; [[3; 6]]].
Proof.
  split; [apply three_built|]. split; [apply validb_sound; [apply ksortedb_sound; reflexivity|vm_compute; reflexivity]|].
  split; [intros I; specialize (I 0 3 6); cbn in I; specialize (I ltac:(auto) ltac:(auto)); discriminate|vm_compute; reflexivity].
Qed.

(** A pairing that is not injective can miss entities: two edges with the same image, of which only one is merged. *)
Theorem C42_refuted : exists m pairing, ready m /\ valid_pairing m pairing /\ exists k, forall fuel, k < fuel -> exists merges gs x y,
  computeMergePlan fuel m pairing = Some merges /\ identified m pairing 1 x y /\ nth_error merges 1 = Some gs /\ x <> y /\ ~ exists g, In g gs /\ In x g /\ In y g.
Proof. exact missed. Qed.
Print Assumptions C42_refuted.
