(** C08: the sparsity estimate is the exact number of coupled degrees of freedom, and assembly stays within it. *)
From Coq Require Import List Arith ZArith Lia Bool.
From Verif Require Import GlobalIndexing_model GlobalIndexing_spec GlobalIndexing_proofs Sparsity_model Sparsity_spec SparsityMain_proofs SparsityExamples_proofs.
From Verif Require IndexExchange_model IndexExchange_spec IndexExchange_proofs.
Import ListNotations.

(** Whenever the estimate is given and the process sees the elements that matter, every row has exactly the number of
    coupled columns of the process itself and of the other processes. *)
Theorem C08_exact : forall m n p lr lc ur uc rr rc gr gc faceCoupling allElements faces est,
  valid_mesh n m -> NoDup (included m ur) -> NoDup (included m uc) -> valid_unknowns m ur -> valid_unknowns m uc ->
  indexing m n lr ur rr -> indexing m n lc uc rc -> p < n -> informed m rr p gr -> informed m rc p gc -> keeps_local (rr p) gr ->
  two_sided m -> local_lists m p allElements faces ->
  let may := allowed (includedUnknowns_ gr) (includedUnknowns_ gc) faceCoupling in
  computeSparsityEstimate m p gr gc (length (includedUnknowns_ gr)) (length (includedUnknowns_ gc)) faceCoupling allElements faces = Some est ->
  sees_coupled m p may -> exact_estimate m p may (included m ur) (included m uc) gr est.
Proof. intros. apply (exact_if_sees m n p lr lc ur uc rr rc gr gc faceCoupling allElements faces); assumption. Qed.
Print Assumptions C08_exact.

(** Unknowns on elements only, like those of a discontinuous Galerkin method, may couple through any face. *)
Theorem C08_element_based : forall m n p lr lc ur uc rr rc gr gc faceCoupling allElements faces est,
  valid_mesh n m -> NoDup (included m ur) -> NoDup (included m uc) -> valid_unknowns m ur -> valid_unknowns m uc ->
  indexing m n lr ur rr -> indexing m n lc uc rc -> p < n -> informed m rr p gr -> informed m rc p gc -> keeps_local (rr p) gr ->
  two_sided m -> local_lists m p allElements faces ->
  let may := allowed (includedUnknowns_ gr) (includedUnknowns_ gc) faceCoupling in
  (forall u v, may u v -> element_based m u) ->
  computeSparsityEstimate m p gr gc (length (includedUnknowns_ gr)) (length (includedUnknowns_ gc)) faceCoupling allElements faces = Some est ->
  exact_estimate m p may (included m ur) (included m uc) gr est.
Proof. intros. apply (exact_if_sees m n p lr lc ur uc rr rc gr gc faceCoupling allElements faces); try assumption. apply (sees_element_based m n); assumption. Qed.
Print Assumptions C08_element_based.

(** With all unknowns in the rows there is then no error. *)
Theorem C08_no_error : forall m n p lr lc ur uc rr rc gr gc faceCoupling allElements faces,
  valid_mesh n m -> NoDup (included m ur) -> NoDup (included m uc) -> valid_unknowns m ur -> valid_unknowns m uc ->
  indexing m n lr ur rr -> indexing m n lc uc rc -> p < n -> informed m rr p gr -> informed m rc p gc -> keeps_local (rr p) gr ->
  two_sided m -> local_lists m p allElements faces ->
  ur = None -> (forall u v, allowed (includedUnknowns_ gr) (includedUnknowns_ gc) faceCoupling u v -> element_based m u) ->
  exists est, computeSparsityEstimate m p gr gc (length (includedUnknowns_ gr)) (length (includedUnknowns_ gc)) faceCoupling allElements faces = Some est.
Proof. intros. apply (succeeds_if_element_based m n p lr lc ur uc rr rc gr gc faceCoupling allElements faces); assumption. Qed.
Print Assumptions C08_no_error.

(** Conforming unknowns: with all unknowns in the rows the check rejects what the process cannot count, provided it
    shares a face with another process. *)
Theorem C08_checked : forall m n p lr lc ur uc rr rc gr gc faceCoupling allElements faces est,
  valid_mesh n m -> NoDup (included m ur) -> NoDup (included m uc) -> valid_unknowns m ur -> valid_unknowns m uc ->
  indexing m n lr ur rr -> indexing m n lc uc rc -> p < n -> informed m rr p gr -> informed m rc p gc -> keeps_local (rr p) gr ->
  two_sided m -> local_lists m p allElements faces ->
  ur = None -> meets_along_face m p ->
  computeSparsityEstimate m p gr gc (length (includedUnknowns_ gr)) (length (includedUnknowns_ gc)) faceCoupling allElements faces = Some est ->
  exact_estimate m p (allowed (includedUnknowns_ gr) (includedUnknowns_ gc) faceCoupling) (included m ur) (included m uc) gr est.
Proof. intros. apply (exact_if_checked m n p lr lc ur uc rr rc gr gc faceCoupling allElements faces); assumption. Qed.
Print Assumptions C08_checked.

(** On one process the estimate is always given and always right. *)
Theorem C08_one_process : forall m lr lc ur uc rr rc faceCoupling allElements faces,
  valid_mesh 1 m -> NoDup (included m ur) -> NoDup (included m uc) -> valid_unknowns m ur -> valid_unknowns m uc ->
  indexing m 1 lr ur rr -> indexing m 1 lc uc rc -> two_sided m -> local_lists m 0 allElements faces ->
  exists est, computeSparsityEstimate m 0 (rr 0) (rc 0) (length (includedUnknowns_ (rr 0))) (length (includedUnknowns_ (rc 0))) faceCoupling allElements faces = Some est /\
    exact_estimate m 0 (allowed (includedUnknowns_ (rr 0)) (includedUnknowns_ (rc 0)) faceCoupling) (included m ur) (included m uc) (rr 0) est.
Proof. exact one_process. Qed.
Print Assumptions C08_one_process.

(** The entries that assembly adds to are those of the coupled degrees of freedom. *)
Theorem C08_assembly : forall m n lr lc ur uc rr rc gr gc total,
  valid_mesh n m -> NoDup (included m ur) -> NoDup (included m uc) -> valid_unknowns m ur -> valid_unknowns m uc ->
  indexing m n lr ur rr -> indexing m n lc uc rc ->
  (forall q, q < n -> informed m rr q (gr q)) -> (forall q, q < n -> informed m rc q (gc q)) -> counts_all m total -> two_sided m ->
  forall may d d', is_dof m (included m ur) d -> is_dof m (included m uc) d' ->
  (inserted m n rr rc gr gc total may d d' <-> coupled m may d d').
Proof. intros. apply (inserted_iff m n lr lc ur uc); assumption. Qed.
Print Assumptions C08_assembly.

(** Assembly finds the indices of every element and face it visits. *)
Theorem C08_assembly_no_error : forall m n lr lc ur uc rr rc gr gc total,
  valid_mesh n m -> NoDup (included m ur) -> NoDup (included m uc) -> valid_unknowns m ur -> valid_unknowns m uc ->
  indexing m n lr ur rr -> indexing m n lc uc rc ->
  (forall q, q < n -> informed m rr q (gr q)) -> (forall q, q < n -> informed m rc q (gc q)) -> counts_all m total -> two_sided m ->
  forall q, q < n ->
  (forall e, In e (elements m) -> visible m q e = true -> exists rows columns, insertsElement m (gr q) (gc q) total e = Some (rows, columns)) /\
  (forall x e, In e (elementsOf m KFace x) -> visible m q e = true -> exists rows columns, insertsFace m q (gr q) (gc q) total x = Some (rows, columns)).
Proof. intros m n lr lc ur uc rr rc gr gc total VM N1 N2 V1 V2 I1 I2 A B CA TS q Hq. split.
  - intros e. apply (inserts_element m n lr lc ur uc rr rc); assumption.
  - intros x e. apply (inserts_face m n lr lc ur uc rr rc); assumption.
 Qed.
Print Assumptions C08_assembly_no_error.

(** The exchange of indices establishes what the estimate needs to know about an indexing. *)
Theorem C08_after_exchange : forall m n layout unknowns r,
  valid_mesh n m -> NoDup (included m unknowns) -> valid_unknowns m unknowns -> indexing m n layout unknowns r ->
  forall eager s p, IndexExchange_model.reachable m n eager r s -> p < n ->
  IndexExchange_model.phase (IndexExchange_model.proc s p) = IndexExchange_model.Done ->
  informed m r p (IndexExchange_model.indexing_ (IndexExchange_model.proc s p)) /\
  keeps_local (r p) (IndexExchange_model.indexing_ (IndexExchange_model.proc s p)).
Proof. exact after_exchange. Qed.
Print Assumptions C08_after_exchange.

(** The check of the unknowns uses the row of the table instead of the unknown.  With only unknown 1 in the matrix it
    lets a row that is too short pass. *)
Theorem C08_check_misses_refuted :
  exists m n p unknowns r g faceCoupling allElements faces est,
    valid_mesh n m /\ NoDup (included m unknowns) /\ valid_unknowns m unknowns /\ indexing m n SEQUENTIAL unknowns r /\ p < n /\
    informed m r p g /\ keeps_local (r p) g /\ two_sided m /\ local_lists m p allElements faces /\ meets_along_face m p /\
    computeSparsityEstimate m p g g (length (includedUnknowns_ g)) (length (includedUnknowns_ g)) faceCoupling allElements faces = Some est /\
    ~ exact_estimate m p (allowed (includedUnknowns_ g) (includedUnknowns_ g) faceCoupling) (included m unknowns) (included m unknowns) g est.
Proof.
  assert (ND : NoDup (included intervals3 (Some [1]))) by (cbn; nodup).
  assert (VU : valid_unknowns intervals3 (Some [1])) by (split; [discriminate|cbn; intuition lia]).
  destruct (informed3_ok (Some [1]) [1]) as (A & B); [cbn; tauto|]. destruct check_misses as (C & E).
  exists intervals3, 2, 0, (Some [1]), (answer intervals3 2 SEQUENTIAL (Some [1])), (informed3 (Some [1]) [1]), (fun _ _ => true), [0; 1], [0; 1; 2], ([3; 3; 3], [2; 2; 2]).
  exact (conj intervals3_valid (conj ND (conj VU (conj (answer_indexing _ _ _ _ intervals3_valid ND VU) (conj Nat.lt_0_2 (conj A (conj B
    (conj intervals3_two_sided (conj intervals3_lists (conj intervals3_meets (conj C E))))))))))).
Qed.
Print Assumptions C08_check_misses_refuted.

(** With unknowns 1 and 2, of which only 2 couples through faces, it raises an error without reason. *)
Theorem C08_spurious_error_refuted :
  exists m n p unknowns r g faceCoupling allElements faces,
    valid_mesh n m /\ NoDup (included m unknowns) /\ valid_unknowns m unknowns /\ indexing m n SEQUENTIAL unknowns r /\ p < n /\
    informed m r p g /\ keeps_local (r p) g /\ two_sided m /\ local_lists m p allElements faces /\
    (forall u v, allowed (includedUnknowns_ g) (includedUnknowns_ g) faceCoupling u v -> element_based m u) /\
    computeSparsityEstimate m p g g (length (includedUnknowns_ g)) (length (includedUnknowns_ g)) faceCoupling allElements faces = None.
Proof.
  assert (ND : NoDup (included intervals3 (Some [1; 2]))) by (cbn; nodup).
  assert (VU : valid_unknowns intervals3 (Some [1; 2])) by (split; [discriminate|cbn; intuition lia]).
  destruct (informed3_ok (Some [1; 2]) [1; 2]) as (A & B); [cbn; tauto|]. destruct check_spurious as (C & E).
  exists intervals3, 2, 0, (Some [1; 2]), (answer intervals3 2 SEQUENTIAL (Some [1; 2])), (informed3 (Some [1; 2]) [1; 2]), (fun i j => (i =? 1) && (j =? 1)), [0; 1], [0; 1; 2].
  exact (conj intervals3_valid (conj ND (conj VU (conj (answer_indexing _ _ _ _ intervals3_valid ND VU) (conj Nat.lt_0_2 (conj A (conj B
    (conj intervals3_two_sided (conj intervals3_lists (conj C E)))))))))).
Qed.
Print Assumptions C08_spurious_error_refuted.

(** Processes that meet in a node only count as not distributed: the row of that node is too short. *)
Theorem C08_node_contact_refuted :
  exists m n p r g faceCoupling allElements faces est,
    valid_mesh n m /\ indexing m n SEQUENTIAL None r /\ p < n /\
    informed m r p g /\ keeps_local (r p) g /\ two_sided m /\ local_lists m p allElements faces /\
    computeSparsityEstimate m p g g (length (includedUnknowns_ g)) (length (includedUnknowns_ g)) faceCoupling allElements faces = Some est /\
    ~ exact_estimate m p (allowed (includedUnknowns_ g) (includedUnknowns_ g) faceCoupling) (included m None) (included m None) g est.
Proof.
  destruct informedCorner_ok as (A & B). destruct corner_misses as (C & E).
  exists corner, 2, 0, (answer corner 2 SEQUENTIAL None), informedCorner, (fun _ _ => true), [0; 1], [0], ([2; 2], [0; 1]).
  exact (conj corner_valid (conj (answer_indexing corner 2 SEQUENTIAL None corner_valid (seq_NoDup _ _) I) (conj Nat.lt_0_2 (conj A (conj B
    (conj corner_two_sided (conj corner_lists (conj C E)))))))).
Qed.
Print Assumptions C08_node_contact_refuted.

(** Three intervals on two processes: unknowns 0 and 2 are on elements only and couple through faces; unknown 1 has basis
    functions on faces and does not. *)
Example C08_nonvacuous :
  let r := answer intervals3 2 SEQUENTIAL None in let g := informed3 None [0; 1; 2] in let fc := fun i _ => negb (i =? 1) in
  valid_mesh 2 intervals3 /\ NoDup (included intervals3 None) /\ indexing intervals3 2 SEQUENTIAL None r /\ informed intervals3 r 0 g /\
  keeps_local (r 0) g /\ two_sided intervals3 /\ local_lists intervals3 0 [0; 1] [0; 1; 2] /\ meets_along_face intervals3 0 /\
  (forall u v, allowed (includedUnknowns_ g) (includedUnknowns_ g) fc u v -> element_based intervals3 u) /\
  sees_coupled intervals3 0 (allowed (includedUnknowns_ g) (includedUnknowns_ g) fc) /\
  computeSparsityEstimate intervals3 0 g g 3 3 fc [0; 1] [0; 1; 2] = Some ([5; 5; 5; 5; 5], [4; 0; 4; 0; 4]).
Proof.
  cbv zeta. destruct (informed3_ok None [0; 1; 2]) as (A & B); [cbn; tauto|].
  assert (EB : forall u v, allowed (includedUnknowns_ (informed3 None [0; 1; 2])) (includedUnknowns_ (informed3 None [0; 1; 2])) (fun i _ => negb (i =? 1)) u v ->
    element_based intervals3 u) by exact intervals3_based.
  exact (conj intervals3_valid (conj nd3 (conj (answer_indexing intervals3 2 SEQUENTIAL None intervals3_valid nd3 I) (conj A (conj B (conj intervals3_two_sided
    (conj intervals3_lists (conj intervals3_meets (conj EB (conj (sees_element_based intervals3 2 0 _ _ _ intervals3_valid Nat.lt_0_2 EB) eq_refl)))))))))).
Qed.

(** Assembly on one process: two elements of a face. *)
Example C08_assembly_nonvacuous :
  let r := answer twoOnOne 1 SEQUENTIAL None in
  valid_mesh 1 twoOnOne /\ NoDup (included twoOnOne None) /\ indexing twoOnOne 1 SEQUENTIAL None r /\ informed twoOnOne r 0 (r 0) /\
  counts_all twoOnOne (fun e u => length (dofs_of_element twoOnOne [u] e)) /\
  is_dof twoOnOne (included twoOnOne None) (D KElement 0 0) /\ is_dof twoOnOne (included twoOnOne None) (D KElement 1 0).
Proof.
  pose proof (answer_indexing twoOnOne 1 SEQUENTIAL None twoOnOne_valid (seq_NoDup _ _) I) as A.
  refine (conj twoOnOne_valid (conj (seq_NoDup _ _) (conj A (conj (informed_one_process _ _ None _ twoOnOne_valid (seq_NoDup _ _) I A) (conj _ (conj _ _)))))).
  - intros e u _. reflexivity.
  - split; [split; [exact I|exists 0; cbn; tauto]|cbn; lia].
  - split; [split; [exact I|exists 1; cbn; tauto]|cbn; lia].
Qed.
