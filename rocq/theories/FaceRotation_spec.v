(** What is expected of the rotation between the two sides of a face. *)
From Coq Require Import List Arith Reals.
From Verif Require Import Matrix_model Matrix_spec Determinant_model Determinant_spec RefGeometry_model Curvilinear_model PhysMapping_model
  Transformation_model Transformation_spec.
Import ListNotations.
Local Open Scope R_scope.

(** the origin of the reference face and the ends of its unit vectors *)
Definition corner (d i : nat) : point :=
  match d, i with
  | 2%nat, 0%nat => [0]
  | 2%nat, 1%nat => [1]
  | 3%nat, 0%nat => [0; 0]
  | 3%nat, 1%nat => [1; 0]
  | 3%nat, 2%nat => [0; 1]
  | _, _ => []
  end.
(** [points] are their images on a side of the face *)
Definition images (d : nat) (toPhysical : point -> option point) (points : list point) : Prop :=
  length points = d /\
  forall i, (i < d)%nat -> toPhysical (corner d i) = Some (nth i points []) /\ length (nth i points []) = d.

Definition distance_squared (d : nat) (p q : point) : R := total d (fun k => (nth k p 0 - nth k q 0) * (nth k p 0 - nth k q 0)).
(** The two sides have the same size and shape. *)
Definition congruent (d : nat) (lp rp : list point) : Prop :=
  forall i j, (i < d)%nat -> (j < d)%nat ->
    distance_squared d (nth i lp []) (nth j lp []) = distance_squared d (nth i rp []) (nth j rp []).
(** The side is not degenerate: its directions are linearly independent. *)
Definition proper (d : nat) (points : list point) : Prop :=
  forall c : nat -> R,
    (forall k, (k < d)%nat -> total (d - 1) (fun i => c i * (nth k (nth (S i) points []) 0 - nth k (nth 0 points []) 0)) = 0) ->
    forall i, (i < d - 1)%nat -> c i = 0.

Definition kronecker (i j : nat) : R := if Nat.eq_dec i j then 1 else 0.
Definition orthogonal (d : nat) (Q : nat -> nat -> R) : Prop :=
  forall i j, (i < d)%nat -> (j < d)%nat -> total d (fun k => Q k i * Q k j) = kronecker i j.
Definition determinant_of (d : nat) (Q : nat -> nat -> R) : R := leibniz 0 1 Rplus Rmult Ropp d Q.
Definition is_rotation (d : nat) (Q : nat -> nat -> R) : Prop := orthogonal d Q /\ determinant_of d Q = 1.

Definition rotate (d : nat) (Q : nat -> nat -> R) (v : list R) : list R :=
  map (fun i => total d (fun k => Q i k * nth k v 0)) (seq 0 d).
(** The rigid motion with linear part [Q] that takes [r0] to [l0], and its inverse *)
Definition to_left (d : nat) (Q : nat -> nat -> R) (l0 r0 x : point) : point :=
  map (fun i => nth i l0 0 + total d (fun k => Q i k * (nth k x 0 - nth k r0 0))) (seq 0 d).
Definition to_right (d : nat) (Q : nat -> nat -> R) (l0 r0 y : point) : point :=
  map (fun i => nth i r0 0 + total d (fun k => Q k i * (nth k y 0 - nth k l0 0))) (seq 0 d).

(** A function [u] on the right of the face, carried to the left *)
Definition carried_scalar (d : nat) (Q : nat -> nat -> R) (l0 r0 : point) (u : point -> R) (y : point) : R :=
  u (to_right d Q l0 r0 y).
Definition carried_vector (d : nat) (Q : nat -> nat -> R) (l0 r0 : point) (u : point -> list R) (y : point) : list R :=
  rotate d Q (u (to_right d Q l0 r0 y)).

(** The face has [lp] on the left and [rp] on the right, and the rigid motion with rotation [Q] glues the right side to the left. *)
Definition glued (d : nat) (leftMap rightMap : point -> option point) (lp rp : list point) (Q : nat -> nat -> R) : Prop :=
  images d leftMap lp /\ images d rightMap rp /\ proper d lp /\
  forall i, (i < d)%nat -> to_left d Q (nth 0 lp []) (nth 0 rp []) (nth i rp []) = nth i lp [].

(** On which side of the face a point is: the sign of this volume. *)
Definition side (d : nat) (points : list point) (p : point) : R :=
  determinant_of d (fun i j => nth j (if Nat.eq_dec (S i) d then p else nth (S i) points []) 0 - nth j (nth 0 points []) 0).
