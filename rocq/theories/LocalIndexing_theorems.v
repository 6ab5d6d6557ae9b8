(** C06, C07: numbering of the degrees of freedom local to an element or a face. *)
From Coq Require Import List NArith Arith Bool Permutation.
From Verif Require Import Std_model Std_proofs LocalIndexing_model LocalIndexing_spec
  LocalIndexing_proofs.
Import ListNotations.
Open Scope N_scope.

(** After any sequence of reinit calls the offsets, sizes and total are those of
    the last element and the last list of unknowns: nothing is left over from
    earlier calls. *)
Theorem C06_history_independent : forall asserts h,
  legal h -> (asserts = true -> nonempty_lists h) ->
  exists s, calls asserts eli_new h = Some s /\
    (forall u, getDoFOffset s u = expected_offset (element_after h) (unknowns_after h) u) /\
    (forall u, getNumberOfDoFs s u = expected_size (element_after h) (unknowns_after h) u) /\
    getTotalDoFs s = Some (expected_total (element_after h) (unknowns_after h)) /\
    Permutation (included s) (unknowns_after h) /\ sorted_from 0 (included s).
Proof. exact element_history. Qed.
Print Assumptions C06_history_independent.

(** The ranges [offset(u), offset(u) + size(u)) of the included unknowns tile
    0..total-1. *)
Theorem C06_ranges_tile : forall asserts h e,
  legal h -> (asserts = true -> nonempty_lists h) -> element_after h = Some e ->
  exists s t, calls asserts eli_new h = Some s /\ getTotalDoFs s = Some t /\
    Permutation (concat (map (fun u => iota (getDoFOffset s u) (getNumberOfDoFs s u)) (unknowns_after h)))
                (numbers t).
Proof. exact element_tiles. Qed.
Print Assumptions C06_ranges_tile.

(** With assertions compiled in, the duplicate check reads outside of the vector
    when an empty list of unknowns is given, whatever happened before. *)
Theorem C06_empty_unknown_list_with_asserts_refuted :
  (exists h, legal h /\ calls true eli_new h = None /\ calls false eli_new h <> None) /\
  forall s, reinitUnknowns true [] s = None.
Proof.
  split; [|reflexivity].
  exists [Unknowns []]. split; [|split; [reflexivity|discriminate]].
  split.
  - intros us [E|[]]. injection E as <-. constructor.
  - intros h1 h2 E. destruct h1 as [|c [|c' h1]]; inversion E; subst; try exact I.
Qed.
Print Assumptions C06_empty_unknown_list_with_asserts_refuted.

Example C06_nonvacuous :
  let h := [Unknowns [2; 0]%nat; Elem (Some [3; 4; 5]); Unknowns [1; 2]%nat] in
  legal h /\ nonempty_lists h /\
  exists s, calls true eli_new h = Some s /\ getDoFOffset s 2 = 4 /\ getDoFOffset s 0 = 2 ^ 64 - 1 /\
            getTotalDoFs s = Some 9.
Proof.
  split; [split|split].
  - intros us H. simpl in H. decompose [or] H; try contradiction; try discriminate;
      match goal with E : Unknowns _ = _ |- _ => injection E as <- end;
      repeat constructor; simpl; intuition discriminate.
  - intros h1 h2 E.
    destruct h1 as [|c1 [|c2 [|c3 [|c4 h1]]]]; inversion E; subst; cbn; auto;
      intros u Hu; intuition; subst; auto with arith.
  - intros H. simpl in H. intuition discriminate.
  - eexists. split; [reflexivity|]. repeat split.
Qed.

(** Face numbering: left DoFs come first, right DoFs follow without a gap; the
    mappings of the included unknowns together list every face DoF once; other
    unknowns have an empty mapping. *)
Theorem C07_face_offsets : forall asserts h el er,
  legal (left_calls h) -> legal (right_calls h) ->
  (asserts = true -> nonempty_lists (left_calls h)) ->
  element_after (left_calls h) = Some el -> element_after (right_calls h) = Some er ->
  let us := unknowns_after (left_calls h) in
  dofs_total el us + dofs_total er us < 2 ^ 64 ->
  exists s, fcalls asserts fli_new h = Some s /\
    (forall u, In u us -> fDoFOffset s u LEFT = Some (dofs_before el us u) /\
       fDoFOffset s u RIGHT = Some (dofs_total el us + dofs_before er us u)) /\
    (forall u, fNumberOfDoFs s u LEFT = Some (if existsb (Nat.eqb u) us then count el u else 0) /\
               fNumberOfDoFs s u RIGHT = Some (if existsb (Nat.eqb u) us then count er u else 0)) /\
    fTotalDoFs s = Some (dofs_total el us + dofs_total er us) /\
    element (right_ s) = Some er /\ NoDup us /\
    (forall u, ~ In u us -> fDoFOffset s u LEFT = Some (2 ^ 64 - 1) /\
       fDoFOffset s u RIGHT = Some ((dofs_total el us + (2 ^ 64 - 1)) mod 2 ^ 64)).
Proof. exact face_offsets. Qed.
Print Assumptions C07_face_offsets.

Theorem C07_face_mapping_tiles : forall asserts h el er,
  legal (left_calls h) -> legal (right_calls h) ->
  (asserts = true -> nonempty_lists (left_calls h)) ->
  element_after (left_calls h) = Some el -> element_after (right_calls h) = Some er ->
  let us := unknowns_after (left_calls h) in
  dofs_total el us + dofs_total er us < 2 ^ 64 ->
  exists s maps, fcalls asserts fli_new h = Some s /\
    map (getDoFMapping s) us = map Some maps /\
    Permutation (concat maps) (numbers (dofs_total el us + dofs_total er us)) /\
    fTotalDoFs s = Some (dofs_total el us + dofs_total er us) /\
    (forall u, ~ In u us -> getDoFMapping s u = Some []).
Proof. exact face_mapping. Qed.
Print Assumptions C07_face_mapping_tiles.

Theorem C07_boundary_face_mapping : forall asserts h el,
  legal (left_calls h) -> legal (right_calls h) ->
  (asserts = true -> nonempty_lists (left_calls h)) ->
  element_after (left_calls h) = Some el -> element_after (right_calls h) = None ->
  let us := unknowns_after (left_calls h) in
  exists s, fcalls asserts fli_new h = Some s /\
    fTotalDoFs s = Some (dofs_total el us) /\
    (forall u, getDoFMapping s u =
       Some (if existsb (Nat.eqb u) us then iota (dofs_before el us u) (count el u) else [])).
Proof. exact face_boundary. Qed.
Print Assumptions C07_boundary_face_mapping.

(** The documented sentinel for unknowns that are not included is not returned on
    the right side of a face. *)
Theorem C07_right_sentinel_refuted :
  exists h s u, fcalls true fli_new h = Some s /\
    legal (left_calls h) /\ legal (right_calls h) /\ ~ In u (unknowns_after (left_calls h)) /\
    fDoFOffset s u RIGHT = Some 2 /\ fDoFOffset s u RIGHT <> Some (2 ^ 64 - 1).
Proof.
  exists [FUnknowns [0%nat]; FFace [3; 4] (Some [5; 6])].
  eexists. exists 1%nat. split; [vm_compute; reflexivity|].
  assert (L : forall e : elem, length e = 2%nat -> legal [Unknowns [0%nat]; Elem (Some e)]).
  { intros e He. split.
    - intros us [E|[E|[]]]; [injection E as <-; repeat constructor; intros []|discriminate].
    - intros h1 h2 E.
      destruct h1 as [|c1 [|c2 [|c3 h1]]]; inversion E; subst; cbn; auto.
      intros u [<-|[]]. rewrite He. auto with arith. }
  split; [apply L; reflexivity|]. split; [apply L; reflexivity|].
  split; [simpl; intuition discriminate|].
  split; [vm_compute; reflexivity|vm_compute; discriminate].
Qed.
Print Assumptions C07_right_sentinel_refuted.

Example C07_nonvacuous :
  let h := [FUnknowns [1; 0]%nat; FFace [3; 4] (Some [5; 6])] in
  legal (left_calls h) /\ legal (right_calls h) /\ nonempty_lists (left_calls h) /\
  exists s, fcalls true fli_new h = Some s /\ fDoFOffset s 1 RIGHT = Some 12 /\
            getDoFMapping s 0 = Some [0; 1; 2; 7; 8; 9; 10; 11].
Proof.
  assert (L : forall e : elem, length e = 2%nat -> legal [Unknowns [1; 0]%nat; Elem (Some e)]).
  { intros e He. split.
    - intros us [E|[E|[]]]; [injection E as <-; repeat constructor; simpl; intuition discriminate|discriminate].
    - intros h1 h2 E.
      destruct h1 as [|c1 [|c2 [|c3 h1]]]; inversion E; subst; cbn; auto.
      rewrite He. intros u [<-|[<-|[]]]; auto with arith. }
  split; [apply L; reflexivity|]. split; [apply L; reflexivity|].
  split; [intros H; simpl in H; intuition discriminate|].
  eexists. split; [vm_compute; reflexivity|]. split; vm_compute; reflexivity.
Qed.
