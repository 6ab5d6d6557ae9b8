(** Model of the rotation between the two sides of a face that is glued by a periodic boundary condition:
    kernel/Base/PhysicalFace_Impl.h:1077-1187.

    Numbers are real numbers; rounding is not modelled. *)
From Coq Require Import List Arith Bool Reals.
From Verif Require Import Matrix_model Determinant_model RefGeometry_model Curvilinear_model PhysMapping_model Transformation_model.
Import ListNotations.
Local Open Scope R_scope.

(** an r x c matrix of which a double loop has written all entries *)
Definition matrix_by (r c : nat) (f : nat -> nat -> R) : matrix R :=
  Mat r c (flat_map (fun j => map (fun i => f i j) (seq 0 r)) (seq 0 c)).

(** PhysicalFace_Impl.h:1105-1111: the origin for i = 0, the unit vector e_(i-1) otherwise *)
Definition facePoint (d i : nat) : point := map (fun j => if (i =? S j)%nat then 1 else 0) (seq 0 (d - 1)).

(** 1103-1123: the images of the face points.  [toPhysical] is the map from the reference face to the reference element
    followed by referenceToPhysical of the element; its results are SmallVector<DIM>s and have d coordinates. *)
Definition face_points (d : nat) (toPhysical : point -> option point) : option (list point) :=
  vector_of (map (fun i =>
    match toPhysical (facePoint d i) with
    | Some p => if (length p =? d)%nat then Some p else None
    | None => None
    end) (seq 0 d)).

(** coordinate j of point i *)
Definition coord (points : list point) (i j : nat) : R := nth j (nth i points []) 0.

(** 1125-1128: all distances below 1e-12 *)
Definition identical (d : nat) (leftPoints rightPoints : list point) : bool :=
  forallb (fun i =>
    if Rlt_dec (norm_squared (vsub (nth i leftPoints []) (nth i rightPoints []))) (/ 10 ^ 24) then true else false) (seq 0 d).

(** 1164-1187 computeDirectionVectors *)
Definition computeDirectionVectors (d : nat) (points : list point) : option (matrix R) :=
  let value i j := coord points (i + 1) j - coord points 0 j in
  match computeWedgeStuffVector Rplus Rmult Rminus Ropp (matrix_by d (d - 1) (fun j i => value i j)) with
  | Some normal => Some (matrix_by d d (fun i j => if (i <? d - 1)%nat then value i j else nth j normal 0))
  | None => None
  end.

(** SmallMatrix_impl.h:365-379 solve(SmallMatrix): dgesv_ solves for every column of the right hand side *)
Definition column (M : matrix R) (j : nat) : list R := firstn (nrows M) (skipn (j * nrows M) (data M)).
Definition solve_matrix (M B : matrix R) : option (matrix R) :=
  match vector_of (map (fun j => solve M (column B j)) (seq 0 (ncols B))) with
  | Some cols => Some (Mat (nrows B) (ncols B) (List.concat cols))
  | None => None
  end.

(** 1147-1154: some entry differs from that of the identity matrix by more than 1e-8 *)
Definition requires (d : nat) (M : matrix R) : option bool :=
  match vector_of (flat_map (fun i => map (fun j => mget M i j) (seq 0 d)) (seq 0 d)) with
  | Some entries =>
      Some (existsb (fun xv => if Rlt_dec (/ 10 ^ 8) (Rabs (fst xv - snd xv)) then true else false)
        (combine entries (flat_map (fun i => map (fun j => if (i =? j)%nat then 1 else 0) (seq 0 d)) (seq 0 d))))
  | None => None
  end.

(** 1077-1162 updateLeftRightTransform.  [None] is a failed assertion; [Some None] means that no transformation is required. *)
Definition updateLeftRightTransform (d : nat) (isInternal : bool) (leftMap rightMap : point -> option point)
    : option (option transformation_data) :=
  if negb isInternal || (d =? 1)%nat then Some None
  else
    match face_points d leftMap, face_points d rightMap with
    | Some leftPoints, Some rightPoints =>
        if identical d leftPoints rightPoints then Some None
        else
          match computeDirectionVectors d leftPoints, computeDirectionVectors d rightPoints with
          | Some leftMatrix, Some rightMatrix =>
              match solve_matrix leftMatrix rightMatrix with
              | None => None
              | Some rightMatrix =>
                  match requires d rightMatrix with
                  | None => None
                  | Some false => Some None
                  | Some true =>
                      match rdet rightMatrix with
                      | Some det =>
                          if Rlt_dec (Rabs (det - 1)) (/ 10 ^ 8) then
                            match setJacobian rightMatrix with Some data => Some (Some data) | None => None end
                          else None
                      | None => None
                      end
                  end
              end
          | _, _ => None
          end
    | _, _ => None
    end.
