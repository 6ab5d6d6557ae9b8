(** C20: dense matrices. *)
From Coq Require Import List Arith Bool ZArith.
From Verif Require Import Loop_model Matrix_model Matrix_spec Matrix_proofs.
Import ListNotations.

(** Positions inside the sizes, and only these, can be read; after any history of
    assignments each position holds the value assigned last, or its old value. *)
Theorem C20_read_back : forall A (M : matrix A) h, wf M ->
  (forall a b x, In (a, b, x) h -> a < nrows M /\ b < ncols M) ->
  exists M', assignments M h = Some M' /\ nrows M' = nrows M /\ ncols M' = ncols M /\ wf M' /\
    forall i j, mget M' i j = match last_assigned h i j with Some x => Some x | None => mget M i j end.
Proof. exact @assignments_ok. Qed.
Print Assumptions C20_read_back.

Theorem C20_readable_positions : forall A (M : matrix A) i j, wf M ->
  (exists x, mget M i j = Some x) <-> (i < nrows M /\ j < ncols M).
Proof. exact @mget_some. Qed.
Print Assumptions C20_readable_positions.

(** Assignments outside are errors. *)
Theorem C20_no_write_outside : forall A (M : matrix A) n m x,
  ~ (n < nrows M /\ m < ncols M) -> mset M n m x = None.
Proof. exact @mset_out. Qed.
Print Assumptions C20_no_write_outside.

(** The array has no other content than the entries: a matrix is determined by them. *)
Theorem C20_entries_determine_matrix : forall A (M N : matrix A),
  wf M -> wf N -> nrows M = nrows N -> ncols M = ncols N ->
  (forall i j, i < nrows M -> j < ncols M -> mget M i j = mget N i j) -> M = N.
Proof. exact @mat_ext. Qed.
Print Assumptions C20_entries_determine_matrix.

(** operator[] runs down the columns. *)
Theorem C20_linear_index : forall A (M : matrix A) i j, wf M -> i < nrows M -> j < ncols M ->
  mget_linear M (i + j * nrows M) = mget M i j.
Proof. exact @linear_index. Qed.
Print Assumptions C20_linear_index.

Theorem C20_transpose : forall A (zero : A) M, wf M ->
  exists T, transpose zero M = Some T /\ nrows T = ncols M /\ ncols T = nrows M /\
    (forall i j, mget T j i = mget M i j) /\ transpose zero T = Some M.
Proof. exact @transpose_involutive. Qed.
Print Assumptions C20_transpose.

Theorem C20_constant : forall A n m (c : A), is_matrix (mfill n m c) n m (fun _ _ => c).
Proof. exact @mfill_is. Qed.
Print Assumptions C20_constant.

Theorem C20_column : forall A (M : matrix A) r c e j, is_matrix M r c e ->
  (j < c -> getColumn M j = Some (map (fun i => e i j) (seq 0 r))) /\ (c <= j -> getColumn M j = None).
Proof. exact @getColumn_ok. Qed.
Print Assumptions C20_column.

Theorem C20_row : forall A (M : matrix A) r c e i, is_matrix M r c e ->
  (i < r -> getRow M i = Some (map (fun j => e i j) (seq 0 c))) /\ (r <= i -> getRow M i = None).
Proof. exact @getRow_ok. Qed.
Print Assumptions C20_row.

Theorem C20_from_columns : forall A (zero : A) r c (e : nat -> nat -> A),
  exists M, from_columns zero r c (map (fun j => map (fun i => e i j) (seq 0 r)) (seq 0 c)) = Some M /\
    is_matrix M r c e.
Proof. exact @from_columns_ok. Qed.
Print Assumptions C20_from_columns.

(** [concatenate] puts the other matrix below this one. *)
Theorem C20_concatenate : forall A (zero : A) M N r1 r2 c e1 e2,
  is_matrix M r1 c e1 -> is_matrix N r2 c e2 ->
  exists C, concatenate zero M N = Some C /\
    is_matrix C (r1 + r2) c (fun i j => if i <? r1 then e1 i j else e2 (i - r1) j).
Proof. exact @concatenate_ok. Qed.
Print Assumptions C20_concatenate.

(** The constructor from a list of matrices puts them side by side. *)
Theorem C20_side_by_side : forall A (l : list (matrix A)) r, l <> [] ->
  (forall M, In M l -> wf M /\ nrows M = r) ->
  exists G, glue l = Some G /\ wf G /\ nrows G = r /\ ncols G = columns_before l (length l) /\
    forall k M i j, nth_error l k = Some M -> j < ncols M ->
      mget G i (columns_before l k + j) = mget M i j.
Proof. exact @glue_ok. Qed.
Print Assumptions C20_side_by_side.

(** Resizing keeps the array; the entries keep their positions if the number of rows
    stays the same. *)
Theorem C20_resize_same_rows : forall A (zero : A) M c', wf M ->
  let N := mresize zero M (nrows M) c' in
  wf N /\ nrows N = nrows M /\ ncols N = c' /\
  forall i j, i < nrows M -> j < c' -> mget N i j = if j <? ncols M then mget M i j else Some zero.
Proof. exact @resize_same_rows. Qed.
Print Assumptions C20_resize_same_rows.

Theorem C20_resize_keeps_array : forall A (zero : A) M r c k, wf M ->
  k < r * c -> mget_linear (mresize zero M r c) k = if k <? nrows M * ncols M then mget_linear M k else Some zero.
Proof. exact @resize_keeps_array. Qed.
Print Assumptions C20_resize_keeps_array.

(** Sum (difference), multiple and axpy act entry by entry. *)
Theorem C20_entrywise : forall A (f : A -> A -> A) M N r c e e',
  is_matrix M r c e -> is_matrix N r c e' ->
  exists P, mcombine f M N = Some P /\ is_matrix P r c (fun i j => f (e i j) (e' i j)).
Proof. exact @combine_ok. Qed.
Print Assumptions C20_entrywise.

Theorem C20_multiple : forall A (mul : A -> A -> A) x M r c e, is_matrix M r c e ->
  is_matrix (mscale mul x M) r c (fun i j => mul (e i j) x).
Proof. exact @scale_ok. Qed.
Print Assumptions C20_multiple.

Theorem C20_axpy : forall A (add mul : A -> A -> A) a x y r c e e',
  is_matrix x r c e -> is_matrix y r c e' ->
  exists P, maxpy add mul a x y = Some P /\ is_matrix P r c (fun i j => add (mul a (e i j)) (e' i j)).
Proof. exact @axpy_ok. Qed.
Print Assumptions C20_axpy.

(** Matrix product, matrix times vector, vector times matrix, for matrices with at
    least one row. *)
Theorem C20_product : forall A (zero one : A) add mul, (forall x, mul one x = x) ->
  forall M N r k c e e', is_matrix M r k e -> is_matrix N k c e' -> 0 < r ->
  exists P, mmul zero one add mul M N = Some P /\
    is_matrix P r c (fun i j => bigsum zero add k (fun l => mul (e i l) (e' l j))).
Proof. exact @mmul_ok. Qed.
Print Assumptions C20_product.

Theorem C20_matrix_vector : forall A (zero one : A) add mul, (forall x, mul one x = x) ->
  forall M r c e v, is_matrix M r c e ->
  mat_vec zero one add mul M (map v (seq 0 c)) =
  Some (map (fun i => bigsum zero add c (fun j => mul (e i j) (v j))) (seq 0 r)).
Proof. exact @mat_vec_ok. Qed.
Print Assumptions C20_matrix_vector.

Theorem C20_vector_matrix : forall A (zero one : A) add mul, (forall x, mul one x = x) ->
  forall M r c e v, is_matrix M r c e -> 0 < r ->
  vec_mat zero one add mul (map v (seq 0 r)) M =
  Some (map (fun j => bigsum zero add r (fun i => mul (e i j) (v i))) (seq 0 c)).
Proof. exact @vec_mat_ok. Qed.
Print Assumptions C20_vector_matrix.

(** Without the restriction on the rows this fails: the product of a 0 x k matrix
    with a k x c matrix, which is the 0 x c matrix, and the product of the empty
    vector with a 0 x c matrix, which is the zero vector, call BLAS with leading
    dimension 0, an illegal argument. *)
Theorem C20_product_no_rows_refuted :
  exists (M N : matrix Z), wf M /\ wf N /\ ncols M = nrows N /\
    mmul 0%Z 1%Z Z.add Z.mul M N = None /\ vec_mat 0%Z 1%Z Z.add Z.mul [] M = None.
Proof.
  exists (Mat 0 2 []), (Mat 2 1 [3; 4]%Z). repeat split.
Qed.
Print Assumptions C20_product_no_rows_refuted.

Example C20_nonvacuous :
  let M := Mat 2 3 [1; 2; 3; 4; 5; 6]%Z in
  wf M /\ is_matrix M 2 3 (fun i j => Z.of_nat (1 + i + 2 * j)) /\ mget M 1 2 = Some 6%Z /\
  option_map data (transpose 0%Z M) = Some [1; 3; 5; 2; 4; 6]%Z /\
  option_map data (concatenate 0%Z M (Mat 1 3 [7; 8; 9]%Z)) = Some [1; 2; 7; 3; 4; 8; 5; 6; 9]%Z /\
  option_map data (mmul 0%Z 1%Z Z.add Z.mul M (Mat 3 1 [1; 1; 2]%Z)) = Some [14; 18]%Z.
Proof.
  split; [reflexivity|]. split.
  - split; [reflexivity|]. split; [reflexivity|]. split; [reflexivity|].
    intros [|[|i]] [|[|[|j]]]; reflexivity.
  - repeat split.
Qed.
