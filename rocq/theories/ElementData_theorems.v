(** C15: data stored on an element. *)
From Coq Require Import List Arith Bool ZArith.
From Verif Require Import Loop_model Matrix_model ElementData_model ElementData_spec ElementData_proofs.
Import ListNotations.

(** After any history of legal calls on a new element, all readers return the values
    of the table of [ElementData_spec]. *)
Theorem C15_readers_return_last_values : forall A (zero : A) counts levels m v h, legal counts levels h ->
  exists D, run zero (ed_new levels counts m v) h = Some D /\
    (forall t u b, t < levels -> valid counts u b -> getData D t u b = cell zero counts h Level t u b) /\
    (forall t u n, t < levels -> nth_error counts u = Some n ->
       getTimeLevelData D t u = row (fun b => cell zero counts h Level t u b) n) /\
    (forall t w, t < levels -> getTimeLevelDataVector D t = Some w ->
       length w = list_sum counts /\
       forall u b, valid counts u b -> nth_error w (before counts u + b) = cell zero counts h Level t u b) /\
    (forall i u b, i < vectors_after h -> valid counts u b ->
       getTimeIntegrationData D i u b = cell zero counts h Integration i u b) /\
    (forall i u w, i < vectors_after h -> getTimeIntegrationSubvector D i u = Some w ->
       nth_error counts u = Some (length w) /\
       forall b, b < length w -> nth_error w b = cell zero counts h Integration i u b) /\
    (forall i w, i < vectors_after h -> getTimeIntegrationVector D i = Some w ->
       length w = list_sum counts /\
       forall u b, valid counts u b -> nth_error w (before counts u + b) = cell zero counts h Integration i u b).
Proof. exact @readers_ok. Qed.
Print Assumptions C15_readers_return_last_values.

(** The readers that may refuse do not do so for a vector that has been written to. *)
Theorem C15_written_vectors_readable : forall A (zero : A) counts levels m v h D, legal counts levels h ->
  run zero (ed_new levels counts m v) h = Some D ->
  (forall t u b, t < levels -> valid counts u b -> cell zero counts h Level t u b <> None ->
     getTimeLevelDataVector D t <> None) /\
  (forall i u b, i < vectors_after h -> valid counts u b -> cell zero counts h Integration i u b <> None ->
     getTimeIntegrationVector D i <> None /\
     forall u', u' < length counts -> getTimeIntegrationSubvector D i u' <> None).
Proof. exact @readers_defined. Qed.
Print Assumptions C15_written_vectors_readable.

(** Calls outside of the range, or with a vector of the wrong size, are refused. *)
Theorem C15_other_calls_refused : forall A (zero : A) counts levels m v h c D,
  legal counts levels h -> run zero (ed_new levels counts m v) h = Some D ->
  ~ in_range counts levels (vectors_after h) c -> run1 zero D c = None.
Proof. exact @refuse. Qed.
Print Assumptions C15_other_calls_refused.

(** The position of (unknown, basis function) is a bijection onto 0 .. total-1. *)
Theorem C15_index_bijection : forall A (D : ElementData A),
  (forall u b, valid (nb D) u b -> exists k, convertToSingleIndex D b u = Some k /\ k < total D) /\
  (forall u b u' b' k, convertToSingleIndex D b u = Some k -> convertToSingleIndex D b' u' = Some k -> u = u' /\ b = b') /\
  (forall k, k < total D -> exists u b, convertToSingleIndex D b u = Some k) /\
  (forall u b, ~ valid (nb D) u b -> convertToSingleIndex D b u = None).
Proof. exact @index_bijection. Qed.
Print Assumptions C15_index_bijection.

(** Element matrices and vectors. *)
Theorem C15_element_matrix : forall A (D : ElementData A) M id,
  exists D', setElementMatrix D M id = Some D' /\ getElementMatrix D' id = Some M /\
    (forall k, k < length (elementMatrix_ D) -> k <> id -> getElementMatrix D' k = getElementMatrix D k) /\
    (forall k, getElementVector D' k = getElementVector D k) /\ nb D' = nb D /\ tl D' = tl D /\ ti D' = ti D.
Proof. exact @setElementMatrix_ok. Qed.
Print Assumptions C15_element_matrix.

Theorem C15_element_vector : forall A (D : ElementData A) v id,
  exists D', setElementVector D v id = Some D' /\ getElementVector D' id = Some v /\
    (forall k, k < length (elementVector_ D) -> k <> id -> getElementVector D' k = getElementVector D k) /\
    (forall k, getElementMatrix D' k = getElementMatrix D k) /\ nb D' = nb D /\ tl D' = tl D /\ ti D' = ti D.
Proof. exact @setElementVector_ok. Qed.
Print Assumptions C15_element_vector.

(** Changing the number of basis functions of one unknown keeps the time integration
    data of the unknowns before it ... *)
Theorem C15_change_count_keeps_earlier_unknowns : forall A (zero : A) (D : ElementData A) n u D',
  setNumberOfBasisFunctions zero D n u = Some D' ->
  (forall i v, nth_error (ti D) i = Some v -> length v = total D) ->
  forall i u' b, u' < u -> i < length (ti D) -> valid (nb D) u' b ->
    getTimeIntegrationData D' i u' b = getTimeIntegrationData D i u' b.
Proof. exact @change_count. Qed.
Print Assumptions C15_change_count_keeps_earlier_unknowns.

(** ... but not that of the unknowns after it: with unknown 0 growing from 1 to 2 basis
    functions the coefficient of unknown 1 reads as 0 and its old value appears at
    unknown 0. *)
Theorem C15_change_count_refuted :
  exists (D D' : ElementData Z), setNumberOfBasisFunctions 0%Z D 2 0 = Some D' /\
    getTimeIntegrationData D 0 1 0 = Some 7%Z /\
    getTimeIntegrationData D' 0 1 0 = Some 0%Z /\ getTimeIntegrationData D' 0 0 1 = Some 7%Z.
Proof.
  exists (ED [1; 1] [] [[5; 7]%Z] [] []). eexists. repeat split.
Qed.
Print Assumptions C15_change_count_refuted.

Example C15_nonvacuous :
  let h := [SetData 1 1 0 5%Z; SetNumberOfTimeIntegrationVectors 2; SetTimeIntegrationSubvector 1 0 [3; 4]%Z;
            SetTimeLevelDataVector 0 [1; 2; 3]%Z; SetData 0 0 1 9%Z] in
  legal [2; 1] 2 h /\ valid [2; 1] 1 0 /\
  cell 0%Z [2; 1] h Level 0 0 1 = Some 9%Z /\ cell 0%Z [2; 1] h Level 0 1 0 = Some 3%Z /\
  cell 0%Z [2; 1] h Level 1 0 0 = Some 0%Z /\ cell 0%Z [2; 1] h Integration 1 0 1 = Some 4%Z /\
  cell 0%Z [2; 1] h Integration 0 0 1 = None.
Proof.
  split; [|split; [exists 1; auto|repeat split]].
  intros h1 c h2 E.
  destruct h1 as [|c1 [|c2 [|c3 [|c4 [|c5 h1]]]]]; cbn in E; inversion E; subst; clear E.
  - split; [auto|exists 1; auto].
  - exact I.
  - split; [auto|reflexivity].
  - split; [auto|reflexivity].
  - split; [auto|exists 2; auto].
  - destruct h1; discriminate.
Qed.
