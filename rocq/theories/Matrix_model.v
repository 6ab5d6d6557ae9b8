(** Model of the dense matrices: kernel/LinearAlgebra/MiddleSizeMatrix.{h,cpp},
    SmallMatrix.h / SmallMatrix_impl.h (storage and entry-wise part) and
    kernel/Utilities/Table2D.h.

    All three keep the entries in one array, column after column.  A SmallMatrix has
    its sizes as template arguments; here sizes are always fields.  Entries come
    from an arbitrary type with operations, so that the model covers [double] (as
    exact numbers) and [std::complex<double>].  A failed debug assertion, an access
    outside of an array or an illegal BLAS argument is [None].  The assertions that
    sizes fit into an [int] are not modelled. *)
From Coq Require Import List Arith Bool.
From Verif Require Import Loop_model.
Import ListNotations.

Record matrix (A : Type) := Mat { nrows : nat; ncols : nat; data : list A }.
Arguments Mat {A}.
Arguments nrows {A}.
Arguments ncols {A}.
Arguments data {A}.

(** MiddleSizeMatrix.h:111-136, SmallMatrix.h:129-154, Table2D.h:87-112 operator()(n, m),
    reading *)
Definition mget {A} (M : matrix A) (n m : nat) : option A :=
  if (n <? nrows M) && (m <? ncols M) then nth_error (data M) (n + m * nrows M) else None.
(** the same operator, writing *)
Definition mset {A} (M : matrix A) (n m : nat) (x : A) : option (matrix A) :=
  if (n <? nrows M) && (m <? ncols M) then
    match write (data M) (n + m * nrows M) x with
    | None => None
    | Some d => Some (Mat (nrows M) (ncols M) d)
    end
  else None.
(** MiddleSizeMatrix.cpp:201-215, SmallMatrix.h:156-170, Table2D.h:115-119 operator[] *)
Definition mget_linear {A} (M : matrix A) (i : nat) : option A :=
  if i <? nrows M * ncols M then nth_error (data M) i else None.

(** MiddleSizeMatrix.cpp:150-157, SmallMatrix.h:75, Table2D.h:61-64: constructor with a
    fill value; MiddleSizeMatrix.cpp:135-141, SmallMatrix.h:64, Table2D.h:56-59 fill
    with zero *)
Definition mfill {A} (n m : nat) (c : A) : matrix A := Mat n m (repeat c (n * m)).

(** MiddleSizeMatrix.cpp:167-174: constructor from a vector *)
Definition from_vector {A} (v : list A) : matrix A := Mat (length v) 1 v.

(** MiddleSizeMatrix.cpp:175-194: gluing matrices with the same number of rows.
    [list.begin()->] of an empty list is undefined behaviour. *)
Definition glue {A} (l : list (matrix A)) : option (matrix A) :=
  match l with
  | [] => None
  | M0 :: _ =>
      if forallb (fun M => nrows M =? nrows M0) l
      then Some (Mat (nrows M0) (list_sum (map ncols l)) (List.concat (map data l)))
      else None
  end.

(** SmallMatrix.h:77-91: constructor from a list of column vectors, and
    SmallMatrix.h:115-122 from an array of them.  [r] and [c] are the template
    arguments, [zero] the initial value of the array. *)
Definition from_columns {A} (zero : A) (r c : nat) (cols : list (list A)) : option (matrix A) :=
  if length cols =? c then
    for_loop c (fun column M =>
      for_loop r (fun i M =>
        match nth_error cols column with
        | None => None
        | Some v => match nth_error v i with None => None | Some x => mset M i column x end
        end) M) (mfill r c zero)
  else None.

(** MiddleSizeMatrix.cpp:561-571 [resize], Table2D.h:72-77: the entries stay where they
    are in the array *)
Definition mresize {A} (zero : A) (M : matrix A) (n m : nat) : matrix A :=
  Mat n m (vresize (data M) (n * m) zero).

(** MiddleSizeMatrix.cpp:575-601 [concatenate] *)
Definition concatenate {A} (zero : A) (M N : matrix A) : option (matrix A) :=
  if ncols M =? ncols N then
    match
      for_loop (ncols M) (fun col d =>
        match
          for_loop (nrows M) (fun row d =>
            match nth_error (data M) (row + col * nrows M) with
            | None => None
            | Some x => write d (row + col * (nrows M + nrows N)) x
            end) d
        with
        | None => None
        | Some d =>
            for_from (nrows M) (nrows N) (fun row d =>
              match nth_error (data N) ((row - nrows M) + col * nrows N) with
              | None => None
              | Some x => write d (row + col * (nrows M + nrows N)) x
              end) d
        end) (repeat zero (ncols M * (nrows M + nrows N)))
    with
    | None => None
    | Some d => Some (Mat (nrows M + nrows N) (ncols M) d)
    end
  else None.

(** MiddleSizeMatrix.cpp:617-627, SmallMatrix.h:292-297 [getColumn] *)
Definition getColumn {A} (M : matrix A) (j : nat) : option (list A) :=
  if j <? ncols M then collect (nrows M) (fun i => nth_error (data M) (j * nrows M + i)) else None.
(** MiddleSizeMatrix.cpp:629-638, SmallMatrix.h:300-309 [getRow] *)
Definition getRow {A} (M : matrix A) (i : nat) : option (list A) :=
  if i <? nrows M then collect (ncols M) (fun j => nth_error (data M) (j * nrows M + i)) else None.

(** MiddleSizeMatrix.cpp:690-698, SmallMatrix.h:320-328 [transpose] *)
Definition transpose {A} (zero : A) (M : matrix A) : option (matrix A) :=
  for_loop (nrows M) (fun i R =>
    for_loop (ncols M) (fun j R =>
      match mget M i j with None => None | Some x => mset R j i x end) R)
    (mfill (ncols M) (nrows M) zero).

(** element-wise combination of two arrays; fails when the second is too short *)
Fixpoint zip_with {A} (f : A -> A -> A) (l l' : list A) : option (list A) :=
  match l, l' with
  | [], _ => Some []
  | x :: r, y :: r' => match zip_with f r r' with Some t => Some (f x y :: t) | None => None end
  | _ :: _, [] => None
  end.

Section Arithmetic.
Context {A : Type} (zero one : A) (add mul : A -> A -> A).

(** MiddleSizeMatrix.cpp:218-230 operator+= (operator-= 232-243 likewise with minus;
    SmallMatrix.h:195-221).  The assertion compares the number of entries and of
    columns. *)
Definition mcombine (f : A -> A -> A) (M N : matrix A) : option (matrix A) :=
  if (nrows M * ncols M =? nrows N * ncols N) && (ncols M =? ncols N) then
    match zip_with f (data M) (data N) with
    | None => None
    | Some d => Some (Mat (nrows M) (ncols M) d)
    end
  else None.

(** MiddleSizeMatrix.cpp:252-255 operator*= with a scalar, SmallMatrix.h:224-229 *)
Definition mscale (c : A) (M : matrix A) : matrix A :=
  Mat (nrows M) (ncols M) (map (fun d => mul d c) (data M)).

(** MiddleSizeMatrix.cpp:543-557 [axpy]: y += a x through BLAS daxpy, which computes
    [a * x[i] + y[i]]; SmallMatrix.h:270-274 *)
Definition maxpy (a : A) (x y : matrix A) : option (matrix A) :=
  if (nrows y =? nrows x) && (ncols y =? ncols x) then
    match zip_with (fun yi xi => add (mul a xi) yi) (data y) (data x) with
    | None => None
    | Some d => Some (Mat (nrows y) (ncols y) d)
    end
  else None.

(** sum over [l < K] of an expression that may fail; BLAS accumulates from zero *)
Definition sum_loop (K : nat) (f : nat -> option A) : option A :=
  for_loop K (fun l acc => match f l with None => None | Some x => Some (add acc x) end) zero.

Definition times (x y : option A) : option A :=
  match x, y with Some x, Some y => Some (mul x y) | _, _ => None end.

(** BLAS dgemm with transA = transB = "N" and beta = 0, from its documentation:
    C(i,j) = alpha * sum_l A(i,l) B(l,j) with leading dimensions lda, ldb, ldc.
    Illegal arguments stop the program. *)
Definition dgemm (M N K : nat) (alpha : A) (a : list A) (lda : nat) (b : list A) (ldb : nat)
  (c : list A) (ldc : nat) : option (list A) :=
  if (Nat.max 1 M <=? lda) && (Nat.max 1 K <=? ldb) && (Nat.max 1 M <=? ldc) then
    for_loop N (fun j c =>
      for_loop M (fun i c =>
        match sum_loop K (fun l => times (nth_error a (i + l * lda)) (nth_error b (l + j * ldb))) with
        | None => None
        | Some x => write c (i + j * ldc) (mul alpha x)
        end) c) c
  else None.

(** MiddleSizeMatrix.cpp:365-395 and 397-433 operator* (matrix), SmallMatrix_impl.h:132-186 *)
Definition mmul (M N : matrix A) : option (matrix A) :=
  if ncols M =? nrows N then
    if ncols M =? 0 then Some (mfill (nrows M) (ncols N) zero)
    else
      let i := nrows M in let j := ncols M in let k := ncols N in
      match dgemm i k j one (data M) i (data N) j (repeat zero (i * k)) i with
      | None => None
      | Some d => Some (Mat i k d)
      end
  else None.

(** BLAS dgemv with beta = 0 and increments 1: y = alpha A x for trans = false and
    y = alpha A^T x for trans = true, A being m x n with leading dimension lda *)
Definition dgemv (trans : bool) (m n : nat) (alpha : A) (a : list A) (lda : nat) (x y : list A)
  : option (list A) :=
  if Nat.max 1 m <=? lda then
    if trans then
      for_loop n (fun j y =>
        match sum_loop m (fun i => times (nth_error a (i + j * lda)) (nth_error x i)) with
        | None => None
        | Some s => write y j (mul alpha s)
        end) y
    else
      for_loop m (fun i y =>
        match sum_loop n (fun j => times (nth_error a (i + j * lda)) (nth_error x j)) with
        | None => None
        | Some s => write y i (mul alpha s)
        end) y
  else None.

(** MiddleSizeMatrix.cpp:281-355 operator* (vector), SmallMatrix_impl.h:72-130 *)
Definition mat_vec (M : matrix A) (right : list A) : option (list A) :=
  if ncols M =? length right then
    if nrows M =? 0 then Some []
    else if ncols M =? 0 then Some (repeat zero (nrows M))
    else dgemv false (nrows M) (ncols M) one (data M) (nrows M) right (repeat zero (nrows M))
  else None.

(** MiddleSizeMatrix.cpp:938-967 operator*(vector, matrix), SmallMatrix_impl.h:397-421 *)
Definition vec_mat (left : list A) (M : matrix A) : option (list A) :=
  if nrows M =? length left then
    if ncols M =? 0 then Some []
    else dgemv true (nrows M) (ncols M) one (data M) (nrows M) left (repeat zero (ncols M))
  else None.
End Arithmetic.
