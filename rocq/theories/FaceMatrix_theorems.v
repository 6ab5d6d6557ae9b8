(** C16: face matrices. *)
From Coq Require Import List Arith Bool ZArith.
From Verif Require Import Loop_model Matrix_model Matrix_spec FaceMatrix_model FaceMatrix_spec FaceMatrix_proofs.
Import ListNotations.

(** Every face matrix with fitting block sizes holds one value per pair of face DoFs. *)
Theorem C16_holds_a_matrix : forall A (F : FaceMatrix A) (d : A) nl nr, fm_wf F nl nr ->
  exists e, is_face_matrix F nl nr e.
Proof. exact @fm_wf_is. Qed.
Print Assumptions C16_holds_a_matrix.

Theorem C16_new_matrix : forall A (zero : A) nl nr, is_face_matrix (fm_new zero nl nr) nl nr (fun _ _ => zero).
Proof. exact @fm_new_ok. Qed.
Print Assumptions C16_new_matrix.

(** operator()(i,j), operator()(side,side,i,j) and the blocks address the same entries. *)
Theorem C16_read : forall A (F : FaceMatrix A) nl nr e, is_face_matrix F nl nr e ->
  forall i j, fm_get F i j = if (i <? nl + nr) && (j <? nl + nr) then Some (e i j) else None.
Proof. exact @fm_get_ok. Qed.
Print Assumptions C16_read.

Theorem C16_read_side : forall A (F : FaceMatrix A) nl nr e, is_face_matrix F nl nr e ->
  forall s t i j, fm_get_side F s t i j =
    if (i <? size_of nl nr s) && (j <? size_of nl nr t) then Some (e (first_of nl s + i) (first_of nl t + j)) else None.
Proof. exact @fm_get_side_ok. Qed.
Print Assumptions C16_read_side.

(** Assigning through them changes one value. *)
Theorem C16_write : forall A (F : FaceMatrix A) nl nr e i j x,
  is_face_matrix F nl nr e -> i < nl + nr -> j < nl + nr ->
  exists F', fm_set F i j x = Some F' /\
    is_face_matrix F' nl nr (fun a b => if (a =? i) && (b =? j) then x else e a b).
Proof. exact @fm_set_ok. Qed.
Print Assumptions C16_write.

Theorem C16_write_side : forall A (F : FaceMatrix A) nl nr e s t i j x, is_face_matrix F nl nr e ->
  i < size_of nl nr s -> j < size_of nl nr t ->
  exists F', fm_set_side F s t i j x = Some F' /\ fm_set F (first_of nl s + i) (first_of nl t + j) x = Some F' /\
    is_face_matrix F' nl nr (fun a b => if (a =? first_of nl s + i) && (b =? first_of nl t + j) then x else e a b).
Proof. exact @fm_set_side_ok. Qed.
Print Assumptions C16_write_side.

Theorem C16_set_element_matrix : forall A (F : FaceMatrix A) nl nr e s t M m, is_face_matrix F nl nr e ->
  is_matrix M (size_of nl nr s) (size_of nl nr t) m ->
  exists F', setElementMatrix F M s t = Some F' /\ getElementMatrix F' s t = M /\
    (forall s' t', (s, t) <> (s', t') -> getElementMatrix F' s' t' = getElementMatrix F s' t') /\
    is_face_matrix F' nl nr (fun i j =>
      if inblock (first_of nl s) (size_of nl nr s) (first_of nl t) (size_of nl nr t) i j
      then m (i - first_of nl s) (j - first_of nl t) else e i j).
Proof. exact @setElementMatrix_ok. Qed.
Print Assumptions C16_set_element_matrix.

(** setEntireMatrix and getEntireMatrix are inverse to each other. *)
Theorem C16_set_then_get_entire : forall A (zero : A) F nl nr M,
  fm_wf F nl nr -> wf M -> nrows M = nl + nr -> ncols M = nl + nr ->
  exists F', setEntireMatrix F M = Some F' /\ fm_wf F' nl nr /\ getEntireMatrix zero F' = Some M.
Proof. exact @entire_roundtrip. Qed.
Print Assumptions C16_set_then_get_entire.

Theorem C16_get_then_set_entire : forall A (zero : A) F G nl nr, fm_wf F nl nr -> fm_wf G nl nr ->
  exists M, getEntireMatrix zero F = Some M /\ setEntireMatrix G M = Some F.
Proof. exact @entire_roundtrip'. Qed.
Print Assumptions C16_get_then_set_entire.

Theorem C16_entire_entries : forall A (zero : A) F nl nr e, is_face_matrix F nl nr e ->
  exists M, getEntireMatrix zero F = Some M /\ is_matrix M (nl + nr) (nl + nr) e.
Proof. exact @getEntire_ok. Qed.
Print Assumptions C16_entire_entries.

(** Arithmetic is entry by entry. *)
Theorem C16_sum : forall A (add : A -> A -> A) F G nl nr e e',
  is_face_matrix F nl nr e -> is_face_matrix G nl nr e' ->
  exists P, fm_add add F G = Some P /\ is_face_matrix P nl nr (fun i j => add (e i j) (e' i j)).
Proof. exact @fm_add_ok. Qed.
Print Assumptions C16_sum.

Theorem C16_multiple : forall A (mul : A -> A -> A) x F nl nr e, is_face_matrix F nl nr e ->
  exists P, fm_scale mul x F = Some P /\ is_face_matrix P nl nr (fun i j => mul (e i j) x).
Proof. exact @fm_scale_ok. Qed.
Print Assumptions C16_multiple.

Theorem C16_axpy : forall A (add mul : A -> A -> A) a x y nl nr e e',
  is_face_matrix x nl nr e -> is_face_matrix y nl nr e' ->
  exists P, fm_axpy add mul a x y = Some P /\ is_face_matrix P nl nr (fun i j => add (mul a (e i j)) (e' i j)).
Proof. exact @fm_axpy_ok. Qed.
Print Assumptions C16_axpy.

(** Storing face matrices and vectors under an ID, also one not allocated yet. *)
Theorem C16_store_matrix : forall A (D : FaceData A) F id,
  exists D', setFaceMatrix D F id = Some D' /\ getFaceMatrix D' id = Some F /\
    (forall k, k < length (faceMatrix_ D) -> k <> id -> getFaceMatrix D' k = getFaceMatrix D k) /\
    (forall k, getFaceVector D' k = getFaceVector D k).
Proof. exact @setFaceMatrix_ok. Qed.
Print Assumptions C16_store_matrix.

Theorem C16_store_vector : forall A (D : FaceData A) v id,
  exists D', setFaceVector D v id = Some D' /\ getFaceVector D' id = Some v /\
    (forall k, k < length (faceVector_ D) -> k <> id -> getFaceVector D' k = getFaceVector D k) /\
    (forall k, getFaceMatrix D' k = getFaceMatrix D k).
Proof. exact @setFaceVector_ok. Qed.
Print Assumptions C16_store_vector.

(** A dense matrix is stored without loss, whatever was stored before, but with
    blocks of sizes n/2 and n - n/2 ... *)
Theorem C16_store_dense_matrix : forall A (zero : A) (D : FaceData A) M n id, wf M -> nrows M = n -> ncols M = n ->
  exists D' F, setFaceMatrix_dense zero D M id = Some D' /\ getFaceMatrix D' id = Some F /\
    fm_wf F (n / 2) (n - n / 2) /\
    getFaceMatrixMatrix zero D' id = Some M /\
    (forall k, k < length (faceMatrix_ D) -> k <> id -> getFaceMatrix D' k = getFaceMatrix D k) /\
    (forall k, getFaceVector D' k = getFaceVector D k).
Proof. exact @setFaceMatrix_dense_ok. Qed.
Print Assumptions C16_store_dense_matrix.

(** ... so that the blocks are not those of the two elements if these have different
    numbers of DoFs: here 1 on the left and 3 on the right. *)
Theorem C16_dense_blocks_refuted :
  exists (M : matrix Z) (nl nr : nat) D' F, wf M /\ nrows M = nl + nr /\ ncols M = nl + nr /\
    setFaceMatrix_dense 0%Z (fd_new 1 0) M 0 = Some D' /\ getFaceMatrix D' 0 = Some F /\
    ~ fm_wf F nl nr /\ fm_get_side F RIGHT LEFT 2 0 <> mget M (nl + 2) 0.
Proof.
  exists (Mat 4 4 (map Z.of_nat (seq 0 16))), 1, 3. eexists. eexists.
  split; [reflexivity|]. split; [reflexivity|]. split; [reflexivity|]. split; [reflexivity|]. split; [reflexivity|].
  split; [|discriminate]. intros H. destruct (H LEFT LEFT) as (_ & R & _). discriminate R.
Qed.
Print Assumptions C16_dense_blocks_refuted.

Example C16_nonvacuous :
  let F := FM (Mat 1 1 [11%Z]) (Mat 1 2 [12; 13]%Z) (Mat 2 1 [21; 31]%Z) (Mat 2 2 [22; 32; 23; 33]%Z) in
  is_face_matrix F 1 2 (fun i j => 11 + 10 * Z.of_nat i + Z.of_nat j)%Z /\
  fm_get F 2 1 = Some 32%Z /\ fm_get_side F RIGHT LEFT 1 0 = Some 31%Z /\
  option_map data (getEntireMatrix 0%Z F) = Some [11; 21; 31; 12; 22; 32; 13; 23; 33]%Z.
Proof.
  split.
  - intros [] []; (split; [reflexivity|]); (split; [reflexivity|]); (split; [reflexivity|]);
      intros [|[|i]] [|[|j]]; reflexivity.
  - repeat split.
Qed.
