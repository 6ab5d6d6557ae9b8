(** What an integral over an element or a face must be: the sum over the points of the rule of the weight, times the scale
    factor in the point, times the integrand in the point.  What a physical element or face answers in a point is said in
    PhysicalElement_spec and PhysicalFace_spec. *)
From Coq Require Import List Arith Bool.
From Verif Require Import Matrix_model ElementData_model PhysicalElement_model PhysicalElement_spec PhysicalFace_model PhysicalFace_spec Integral_model.
Import ListNotations.

(** the value of an integrand when [right g r] says that [r] is the right answer to [g] *)
Inductive yields {G R Y} (right : G -> R -> Prop) : program G R Y -> Y -> Prop :=
| yields_return y : yields right (Return y) y
| yields_ask g r k y : right g r -> yields right (k r) y -> yields right (Ask g k) y.
(** all questions of an integrand are allowed *)
Inductive only {G R Y} (allowed : G -> Prop) : program G R Y -> Prop :=
| only_return y : only allowed (Return y)
| only_fail : only allowed Fail
| only_ask g k : allowed g -> (forall r, only allowed (k r)) -> only allowed (Ask g k).

Section Spec.
Context {A V P X J D Q M N Y : Type}.
Variable zero : A.
Variable vzero : V.
Variable vadd : V -> V -> V.
Variable vscale : A -> V -> V.
Variable transposed inverse : J -> J.
Variable determinant : J -> D.
Variable absolute : D -> D.
Variable getPoint : Q -> nat -> option P.
Variable mapPoint : M -> P -> P.
Variable l2Norm : V -> V.
Variable divide : V -> V -> V.
Variable negate : V -> V.
Variable product : normalKind -> V -> V -> V.
Variable getNumberOfPoints : Q -> nat.
Variable weight : Q -> nat -> option N.
Variable one : N.
Variable times : N -> N -> N.
Variable ofDet : D -> N.
Variable ofValue : V -> N.
Variable scaleBy : N -> Y -> Y.
Variable axpy : N -> Y -> Y -> option Y.
Notation memory := (@memory A V P X J Q M).
Notation face := (@face V P J M).
Notation event := (@event A V P X J D Q M).
Notation answer := (@answer A V P X J D).
Notation settings := (@settings V P J D Q M).
Notation face_settings := (@face_settings V P J D Q M).
Notation transformation := (@transformation V J D).

(** a1 * y1 + a2 * y2 + ..., from left to right; [None] when two values cannot be added *)
Definition weighted_sum (l : list (N * Y)) : option Y :=
  match l with
  | [] => None
  | (a, y) :: r => fold_left (fun sum ay => match sum with Some v => axpy (fst ay) (snd ay) v | None => None end) r (Some (scaleBy a y))
  end.
(** the rule [q] applied to an integrand that has value [y] in point [i] when [value i y], with factor [a] when [factor i a] *)
Definition rule_sum (q : Q) (value : nat -> Y -> Prop) (factor : nat -> N -> Prop) (v : Y) : Prop :=
  0 < getNumberOfPoints q /\ (forall i, i < getNumberOfPoints q -> getPoint q i <> None) /\
  exists l, length l = getNumberOfPoints q /\ (forall i a y, nth_error l i = Some (a, y) -> factor i a /\ value i y) /\ weighted_sum l = Some v.

(** ** Elements *)
(** a physical element at point [i] of rule [q] on element [a], with the transformations [ts] *)
Definition at_point (a : nat) (q : Q) (ts : nat -> option transformation) (i : nat) : settings := Settings (Some a) (Some (Rule q i)) ts true.
(** the right answers for an integrand; a result matrix or vector is zero when it is handed out *)
Definition right_response (m : memory) (c : settings) (o : event) (r : option answer) : Prop :=
  match o with
  | Get_ GetResultMatrix => exists b e, on c = Some b /\ m b = Some e /\
      let n := list_sum (nb (edata e)) in r = Some (AMatrix (Mat n n (repeat zero (n * n))))
  | Get_ GetResultVector => exists b e, on c = Some b /\ m b = Some e /\ r = Some (AVector (repeat zero (list_sum (nb (edata e)))))
  | Get_ g => exists a, r = Some a /\ answers vzero vadd vscale transposed inverse determinant absolute getPoint mapPoint m c g a
  | FillMatrix _ | FillVector _ => r = None
  | _ => False
  end.
(** what an integrand may ask: for the solution, all unknowns must use the same functions and transformation *)
Definition sound_question (m : memory) (c : settings) (o : event) : Prop :=
  match o with
  | Get_ GetSolution => forall b e, on c = Some b -> m b = Some e -> interchangeable c e Value
  | Get_ GetSolutionDeriv => forall b e, on c = Some b -> m b = Some e -> interchangeable c e Deriv
  | Get_ _ | FillMatrix _ | FillVector _ => True
  | _ => False
  end.
(** ... and is sure to get an answer *)
Definition sure_question (m : memory) (c : settings) (o : event) : Prop :=
  sound_question m c o /\ match o with Get_ g => asks g /\ legal m c g | _ => False end.
(** the determinant of the Jacobian in the point, or 1 *)
Definition element_factor (m : memory) (scaling : bool) (a : nat) (q : Q) (i : nat) (x : N) : Prop :=
  exists w, weight q i = Some w /\
  if scaling then exists e p, m a = Some e /\ getPoint q i = Some p /\ x = times w (ofDet (absolute (determinant (calcJacobian e p))))
  else x = times w one.
Definition element_integral (m : memory) (ts : nat -> option transformation) (scaling : bool) (a : nat) (f : program event (option answer) Y) (q : Q) (v : Y) : Prop :=
  rule_sum q (fun i => yields (right_response m (at_point a q ts i)) f) (element_factor m scaling a q) v.
Definition reference_integral (m : memory) (ts : nat -> option transformation) (a : nat) (f : program event (option answer) Y) (q : Q) (v : Y) : Prop :=
  rule_sum q (fun i => yields (right_response m (at_point a q ts i)) f) (fun i w => weight q i = Some w) v.

(** the transformations and the element that is set after some operations, and whether the element is still as it was when it was set *)
Definition following (c : settings) (o : @operation A V P X J D Q M Y) : settings :=
  match o with
  | Other o => follow c o
  | Integrate _ a _ _ => Settings (Some a) None (transforms c) true
  | ReferenceIntegral _ _ => Settings (on c) None (transforms c) (unchanged c)
  end.
Definition after (h1 : transformation) (l : list (@operation A V P X J D Q M Y)) : settings := fold_left following l (initially h1).

(** ** Faces *)
Definition on_face (f first : face) (q : Q) (ts : nat -> option transformation) (i : nat) : face_settings :=
  FaceSettings (Some f) (Some first) (Some (AtRule q i f)) (Some (q, f)) ts.
(** the length of the normal vector in the point, or 1 *)
Definition face_factor (scaling : bool) (f : face) (q : Q) (i : nat) (x : N) : Prop :=
  exists w, weight q i = Some w /\
  if scaling then exists p, getPoint q i = Some p /\ x = times w (ofValue (l2Norm (normalVector f p))) else x = times w one.
Definition face_integral (m : memory) (ts : nat -> option transformation) (scaling : bool) (f : face) (p : program (@fgetter) (@fanswer V P X) Y) (q : Q) (v : Y) : Prop :=
  rule_sum q (fun i => yields (face_answers vzero vadd vscale transposed inverse determinant absolute getPoint mapPoint l2Norm divide negate product m (on_face f f q ts i)) p)
    (face_factor scaling f q) v.
(** the transformations after some operations *)
Definition face_transforms (h1 : transformation) (l : list (@faceOperation V P X J D Q M Y)) : nat -> option transformation :=
  fold_left (fun ts o => match o with SetFaceTransformation t u => fun v => if v =? u then Some t else ts v | _ => ts end) l
    (fun u => match u with 0 => Some h1 | _ => None end).
(** the elements of a face exist, its gluing is known, and the right element has no more unknowns than the left *)
Definition face_present (m : memory) (f : face) : Prop :=
  leftRightTransform f <> None /\ exists e, m (ptrElementLeft f) = Some e /\
  match ptrElementRight f with None => True | Some r => exists e', m r = Some e' /\ length (nb (edata e')) <= length (nb (edata e)) end.
(** what an integrand over a face may ask to be sure of an answer *)
Definition sure_face_question (m : memory) (c : face_settings) (g : @fgetter) : Prop := fine mapPoint m c g /\ (needs_even g = true -> even m c).
(** all faces of the same kind that were integrated over had as many functions *)
Definition same_functions (m : memory) (l : list (@faceOperation V P X J D Q M Y)) (f : face) : Prop :=
  forall scaling f' p rule, In (IntegrateFace scaling f' p rule) l -> isInternal f' = isInternal f -> same_sizes m f' f.
End Spec.
