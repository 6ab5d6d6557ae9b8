(** Model of kernel/Base/FaceMatrix.{h,cpp} and of the matrix and vector storage of
    kernel/Base/FaceData.cpp.  Failed debug assertions are [None]. *)
From Coq Require Import List Arith Bool.
From Verif Require Import Loop_model Matrix_model.
Import ListNotations.

(** Side.h:48 *)
Inductive Side := LEFT | RIGHT.

(** FaceMatrix.h:134-142: the four blocks *)
Record FaceMatrix (A : Type) := FM { LL : matrix A; LR : matrix A; RL : matrix A; RR : matrix A }.
Arguments FM {A}.
Arguments LL {A}.
Arguments LR {A}.
Arguments RL {A}.
Arguments RR {A}.

(** FaceMatrix.h:65: default constructor, four matrices without entries *)
Definition fm_empty {A} : FaceMatrix A := FM (Mat 0 0 []) (Mat 0 0 []) (Mat 0 0 []) (Mat 0 0 []).
(** FaceMatrix.cpp:52-56 *)
Definition fm_new {A} (zero : A) (nl nr : nat) : FaceMatrix A :=
  FM (mfill nl nl zero) (mfill nl nr zero) (mfill nr nl zero) (mfill nr nr zero).

(** FaceMatrix.h:93-97 getNumberOfDegreesOfFreedom *)
Definition fm_dofs {A} (F : FaceMatrix A) (s : Side) : nat :=
  match s with LEFT => nrows (LL F) | RIGHT => nrows (RR F) end.

(** FaceMatrix.cpp:169-199 getElementMatrix *)
Definition getElementMatrix {A} (F : FaceMatrix A) (i j : Side) : matrix A :=
  match i, j with LEFT, LEFT => LL F | LEFT, RIGHT => LR F | RIGHT, LEFT => RL F | RIGHT, RIGHT => RR F end.

Definition put_block {A} (F : FaceMatrix A) (i j : Side) (M : matrix A) : FaceMatrix A :=
  match i, j with
  | LEFT, LEFT => FM M (LR F) (RL F) (RR F)
  | LEFT, RIGHT => FM (LL F) M (RL F) (RR F)
  | RIGHT, LEFT => FM (LL F) (LR F) M (RR F)
  | RIGHT, RIGHT => FM (LL F) (LR F) (RL F) M
  end.
(** FaceMatrix.cpp:205-232 setElementMatrix *)
Definition setElementMatrix {A} (F : FaceMatrix A) (M : matrix A) (i j : Side) : option (FaceMatrix A) :=
  if (nrows M =? fm_dofs F i) && (ncols M =? fm_dofs F j) then Some (put_block F i j M) else None.

(** FaceMatrix.cpp:69-92 operator()(iSide, jSide, i, j), reading and writing *)
Definition fm_get_side {A} (F : FaceMatrix A) (iSide jSide : Side) (i j : nat) : option A :=
  if (i <? fm_dofs F iSide) && (j <? fm_dofs F jSide)
  then mget (getElementMatrix F iSide jSide) i j else None.
Definition fm_set_side {A} (F : FaceMatrix A) (iSide jSide : Side) (i j : nat) (x : A) : option (FaceMatrix A) :=
  if (i <? fm_dofs F iSide) && (j <? fm_dofs F jSide)
  then match mset (getElementMatrix F iSide jSide) i j x with
       | None => None
       | Some M => Some (put_block F iSide jSide M)
       end
  else None.

(** FaceMatrix.cpp:102-131 operator()(i, j): the block and the position in it *)
Definition fm_locate {A} (F : FaceMatrix A) (i j : nat) : Side * Side * nat * nat :=
  let nl := nrows (LL F) in
  if i <? nl then
    if j <? nl then (LEFT, LEFT, i, j) else (LEFT, RIGHT, i, j - nl)
  else
    if j <? nl then (RIGHT, LEFT, i - nl, j) else (RIGHT, RIGHT, i - nl, j - nl).
Definition fm_in_range {A} (F : FaceMatrix A) (i j : nat) : bool :=
  (i <? fm_dofs F LEFT + fm_dofs F RIGHT) && (j <? fm_dofs F LEFT + fm_dofs F RIGHT).
Definition fm_get {A} (F : FaceMatrix A) (i j : nat) : option A :=
  if fm_in_range F i j then
    match fm_locate F i j with (a, b, k, l) => mget (getElementMatrix F a b) k l end
  else None.
Definition fm_set {A} (F : FaceMatrix A) (i j : nat) (x : A) : option (FaceMatrix A) :=
  if fm_in_range F i j then
    match fm_locate F i j with
    | (a, b, k, l) => match mset (getElementMatrix F a b) k l x with
                      | None => None
                      | Some M => Some (put_block F a b M)
                      end
    end
  else None.

(** apply an operation to the four blocks *)
Definition blockwise {A} (f : matrix A -> option (matrix A)) (F : FaceMatrix A) : option (FaceMatrix A) :=
  match f (LL F), f (LR F), f (RL F), f (RR F) with
  | Some a, Some b, Some c, Some d => Some (FM a b c d)
  | _, _, _, _ => None
  end.
Definition blockwise2 {A} (f : matrix A -> matrix A -> option (matrix A)) (F G : FaceMatrix A) : option (FaceMatrix A) :=
  match f (LL F) (LL G), f (LR F) (LR G), f (RL F) (RL G), f (RR F) (RR G) with
  | Some a, Some b, Some c, Some d => Some (FM a b c d)
  | _, _, _, _ => None
  end.

(** FaceMatrix.cpp:137-143 operator+= *)
Definition fm_add {A} (add : A -> A -> A) (F G : FaceMatrix A) : option (FaceMatrix A) :=
  blockwise2 (mcombine add) F G.
(** FaceMatrix.cpp:146-153 operator*= *)
Definition fm_scale {A} (mul : A -> A -> A) (x : A) (F : FaceMatrix A) : option (FaceMatrix A) :=
  blockwise (fun M => Some (mscale mul x M)) F.
(** FaceMatrix.cpp:307-313 axpy: y += a x *)
Definition fm_axpy {A} (add mul : A -> A -> A) (a : A) (x y : FaceMatrix A) : option (FaceMatrix A) :=
  blockwise2 (fun My Mx => maxpy add mul a Mx My) y x.
(** FaceMatrix.cpp:159-165 resize *)
Definition fm_resize {A} (zero : A) (F : FaceMatrix A) (nl nr : nat) : FaceMatrix A :=
  FM (mresize zero (LL F) nl nl) (mresize zero (LR F) nl nr)
     (mresize zero (RL F) nr nl) (mresize zero (RR F) nr nr).

(** the loop nest [for i < ni, for j < nj: dst(di + i, dj + j) = src(si + i, sj + j)] *)
Definition copy_loops {A} (ni nj di dj si sj : nat) (src dst : matrix A) : option (matrix A) :=
  for_loop ni (fun i dst =>
    for_loop nj (fun j dst =>
      match mget src (si + i) (sj + j) with
      | None => None
      | Some x => mset dst (di + i) (dj + j) x
      end) dst) dst.

Definition andthen {X Y} (x : option X) (f : X -> option Y) : option Y :=
  match x with None => None | Some x => f x end.

(** FaceMatrix.cpp:236-265 getEntireMatrix *)
Definition getEntireMatrix {A} (zero : A) (F : FaceMatrix A) : option (matrix A) :=
  let nl := nrows (LL F) in
  let nr := nrows (RR F) in
  andthen (copy_loops nl nl 0 0 0 0 (LL F) (mfill (nl + nr) (nl + nr) zero)) (fun M =>
  andthen (copy_loops nl nr 0 nl 0 0 (LR F) M) (fun M =>
  andthen (copy_loops nr nl nl 0 0 0 (RL F) M) (fun M =>
  copy_loops nr nr nl nl 0 0 (RR F) M))).

(** FaceMatrix.cpp:270-303 setEntireMatrix *)
Definition setEntireMatrix {A} (F : FaceMatrix A) (M : matrix A) : option (FaceMatrix A) :=
  let nl := nrows (LL F) in
  let nr := nrows (RR F) in
  if (nrows M =? nl + nr) && (ncols M =? nl + nr) then
    andthen (copy_loops nl nl 0 0 0 0 M (LL F)) (fun a =>
    andthen (copy_loops nl nr 0 0 0 nl M (LR F)) (fun b =>
    andthen (copy_loops nr nl 0 0 nl 0 M (RL F)) (fun c =>
    andthen (copy_loops nr nr 0 0 nl nl M (RR F)) (fun d =>
    Some (FM a b c d)))))
  else None.

(** FaceData.h: the stored matrices and vectors *)
Record FaceData (A : Type) := FD { faceMatrix_ : list (FaceMatrix A); faceVector_ : list (list A) }.
Arguments FD {A}.
Arguments faceMatrix_ {A}.
Arguments faceVector_ {A}.

(** FaceData.cpp:48-59 constructor *)
Definition fd_new {A} (nMatrices nVectors : nat) : FaceData A := FD (repeat fm_empty nMatrices) (repeat [] nVectors).

(** FaceData.cpp:70-90 setFaceMatrix(MiddleSizeMatrix) *)
Definition setFaceMatrix_dense {A} (zero : A) (D : FaceData A) (M : matrix A) (id : nat) : option (FaceData A) :=
  let l := if length (faceMatrix_ D) <=? id then vresize (faceMatrix_ D) (id + 1) fm_empty else faceMatrix_ D in
  if nrows M =? ncols M then
    let nl := nrows M / 2 in
    let nr := nrows M - nl in
    match nth_error l id with
    | None => None
    | Some F =>
        match setEntireMatrix (fm_resize zero F nl nr) M with
        | None => None
        | Some F' => match write l id F' with
                     | None => None
                     | Some l' => Some (FD l' (faceVector_ D))
                     end
        end
    end
  else None.

(** FaceData.cpp:92-107 setFaceMatrix(FaceMatrix); the resize before the assignment
    has no effect on its result and is left out *)
Definition setFaceMatrix {A} (D : FaceData A) (F : FaceMatrix A) (id : nat) : option (FaceData A) :=
  let l := if length (faceMatrix_ D) <=? id then vresize (faceMatrix_ D) (id + 1) fm_empty else faceMatrix_ D in
  match write l id F with
  | None => None
  | Some l' => Some (FD l' (faceVector_ D))
  end.

(** FaceData.cpp:123-138 getFaceMatrix *)
Definition getFaceMatrix {A} (D : FaceData A) (id : nat) : option (FaceMatrix A) := nth_error (faceMatrix_ D) id.
(** FaceData.cpp:114-121 getFaceMatrixMatrix *)
Definition getFaceMatrixMatrix {A} (zero : A) (D : FaceData A) (id : nat) : option (matrix A) :=
  andthen (nth_error (faceMatrix_ D) id) (getEntireMatrix zero).

(** FaceData.cpp:141-152 setFaceVector *)
Definition setFaceVector {A} (D : FaceData A) (v : list A) (id : nat) : option (FaceData A) :=
  let l := if length (faceVector_ D) <=? id then vresize (faceVector_ D) (id + 1) [] else faceVector_ D in
  match write l id v with
  | None => None
  | Some l' => Some (FD (faceMatrix_ D) l')
  end.
(** FaceData.cpp:154-159 getFaceVector *)
Definition getFaceVector {A} (D : FaceData A) (id : nat) : option (list A) := nth_error (faceVector_ D) id.
