(** What a face matrix stands for. *)
From Coq Require Import List Arith Bool.
From Verif Require Import Matrix_model Matrix_spec FaceMatrix_model.
Import ListNotations.

(** The DoFs of the face: those of the left element come first. *)
Definition size_of (nl nr : nat) (s : Side) : nat := match s with LEFT => nl | RIGHT => nr end.
Definition first_of (nl : nat) (s : Side) : nat := match s with LEFT => 0 | RIGHT => nl end.

(** [F] holds the (nl+nr) x (nl+nr) matrix with entries [e]: every block holds its
    part of [e]. *)
Definition is_face_matrix {A} (F : FaceMatrix A) (nl nr : nat) (e : nat -> nat -> A) : Prop :=
  forall a b, is_matrix (getElementMatrix F a b) (size_of nl nr a) (size_of nl nr b)
                (fun i j => e (first_of nl a + i) (first_of nl b + j)).

(** The sizes of the four blocks fit together. *)
Definition fm_wf {A} (F : FaceMatrix A) (nl nr : nat) : Prop :=
  forall a b, wf (getElementMatrix F a b) /\
    nrows (getElementMatrix F a b) = size_of nl nr a /\ ncols (getElementMatrix F a b) = size_of nl nr b.

(** Position (a,b) lies in the ni x nj block that begins at (di,dj). *)
Definition inblock di ni dj nj a b : bool := ((di <=? a) && (a <? di + ni)) && ((dj <=? b) && (b <? dj + nj)).
