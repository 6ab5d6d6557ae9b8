(** Examples for C61. *)
From Coq Require Import List Arith Bool Lia Permutation Sorted.
From Verif Require Import Loop_model StdMap_model GlobalIndexing_model GlobalIndexing_spec GlobalIndexing_proofs GlobalVector_model GlobalVector_spec
  GlobalVector_proofs GlobalVectorWrite_proofs GlobalVectorOne_proofs.
Import ListNotations.

Ltac informed_cases us :=
  let p := fresh "p" in let Hp := fresh in intros p Hp; unfold informed; split; [reflexivity|]; split; [reflexivity|]; split; [reflexivity|];
  let e := fresh "e" in let k := fresh "k" in let x := fresh "x" in let u := fresh "u" in
  intros e k x u He _ Ho Hu;
  let P := fresh in assert (P : p = 0 \/ p = 1) by lia;
  match type of Hu with In _ ?t => replace t with us in Hu by (destruct P as [->| ->]; reflexivity) end;
  destruct P as [->| ->]; destruct He as [<-|[<-|[]]]; cbn in Ho; cbn in Hu;
  repeat match goal with H : _ \/ _ |- _ => destruct H as [H|H] end; try contradiction;
  repeat match goal with H : (_, _) = (_, _) |- _ => injection H as <- <- end; subst;
  first [exists 0; split; [exists 0; split; reflexivity|reflexivity] | exists 1; split; [exists 1; split; reflexivity|reflexivity]].
Lemma two_informed : forall p, p < 2 -> informed twoElements (answer twoElements 2 BLOCKED_GLOBAL None) p (together (answer twoElements 2 BLOCKED_GLOBAL None) p).
Proof. informed_cases [0; 1]. Qed.
Lemma subset_informed : forall p, p < 2 -> informed twoElements (answer twoElements 2 SEQUENTIAL (Some [0])) p (together (answer twoElements 2 SEQUENTIAL (Some [0])) p).
Proof. informed_cases [0]. Qed.
Lemma equal_informed : forall p, p < 2 -> informed twoEqual (answer twoEqual 2 BLOCKED_PROCESSOR (Some [1; 0])) p (together (answer twoEqual 2 BLOCKED_PROCESSOR (Some [1; 0])) p).
Proof. informed_cases [0; 1]. Qed.
Lemma equal_valid : valid_mesh 2 twoEqual.
Proof.
  constructor.
  - exact (vm_owner _ _ two_valid).
  - exact (vm_local _ _ two_valid).
  - exact (vm_local_distinct _ _ two_valid).
  - exact (vm_objects_distinct _ _ two_valid).
  - exact (vm_adjacency _ _ two_valid).
  - exact (vm_adjacent_exist _ _ two_valid).
  - exact (vm_sees_own _ _ two_valid).
  - exact (vm_shadow _ _ two_valid).
Qed.
Lemma elements_distinct : NoDup [0; 1].
Proof. repeat constructor; cbn; intuition discriminate. Qed.
Lemma two_indexed : let r := answer twoElements 2 BLOCKED_GLOBAL None in indexed 2 twoElements None BLOCKED_GLOBAL r (together r) (numbersOf twoElements).
Proof.
  constructor; [lia|apply two_valid|exact elements_distinct|apply seq_NoDup|exact I| |exact two_informed|intros e u _; reflexivity].
  apply answer_indexing; [apply two_valid|apply seq_NoDup|exact I].
Qed.
Lemma subset_valid : valid_unknowns twoElements (Some [0]).
Proof. split; [discriminate|]. intros u [<-|[]]. cbn. lia. Qed.
Lemma one_distinct : NoDup [0].
Proof. repeat constructor; cbn; tauto. Qed.
Lemma subset_indexed : let r := answer twoElements 2 SEQUENTIAL (Some [0]) in indexed 2 twoElements (Some [0]) SEQUENTIAL r (together r) (numbersOf twoElements).
Proof.
  constructor; [lia|apply two_valid|exact elements_distinct|exact one_distinct|exact subset_valid| |exact subset_informed|intros e u _; reflexivity].
  apply answer_indexing; [apply two_valid|exact one_distinct|exact subset_valid].
Qed.
Lemma equal_unknowns : valid_unknowns twoEqual (Some [1; 0]) /\ NoDup [1; 0].
Proof. split; [split; [discriminate|intros u [<-|[<-|[]]]; cbn; lia]|repeat constructor; cbn; intuition discriminate]. Qed.
Lemma equal_indexed : let r := answer twoEqual 2 BLOCKED_PROCESSOR (Some [1; 0]) in indexed 2 twoEqual (Some [1; 0]) BLOCKED_PROCESSOR r (together r) (numbersOf twoEqual).
Proof.
  constructor; [lia|apply equal_valid|exact elements_distinct|apply equal_unknowns|apply equal_unknowns| |exact equal_informed|intros e u _; reflexivity].
  apply answer_indexing; [apply equal_valid|apply equal_unknowns|apply equal_unknowns].
Qed.
Lemma two_faces : valid_faces 2 twoElements [0; 1; 2] (fun _ => [2; 0; 1]).
Proof.
  constructor.
  - repeat constructor; cbn; intuition discriminate.
  - intros p _. repeat constructor; cbn; intuition discriminate.
  - intros p f _. cbn. intuition.
  - intros f [<-|[<-|[<-|[]]]]; [exists 1; right; exists 0|exists 0; left|exists 1; left]; reflexivity.
  - intros p f e _ H _ _. cbn in *. intuition.
Qed.
Lemma by_dof {A} m us (f : dof -> A) : complete m us (fun e => map f (dofs_of_element m us e)) /\ agree m us (fun e => map f (dofs_of_element m us e)).
Proof.
  split; [intros e _; apply map_length|]. intros e e' k k' d _ _ H H'. rewrite !nth_error_map, H, H'. reflexivity.
Qed.
