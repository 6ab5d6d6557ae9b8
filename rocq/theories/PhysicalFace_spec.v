(** What a physical face should answer: the current settings are those of the last calls, and
    an answer is computed from the settings alone.  What a function of the element on one
    side is at a point is said in PhysicalElement_spec. *)
From Coq Require Import List Arith Bool.
From Verif Require Import ElementData_model PhysicalElement_model PhysicalElement_spec PhysicalFace_model.
Import ListNotations.

Section Spec.
Context {A V P X J D Q M : Type}.
Variable vzero : V.
Variable vadd : V -> V -> V.
Variable vscale : A -> V -> V.
Variable transposed inverse : J -> J.
Variable determinant : J -> D.
Variable absolute : D -> D.
Variable getPoint : Q -> nat -> option P.
Variable mapPoint : M -> P -> P.
Variable l2Norm : V -> V.
Variable divide : V -> V -> V.
Variable negate : V -> V.
Variable product : normalKind -> V -> V -> V.
Notation face := (@face V P J M).
Notation transformation := (@transformation V J D).
Notation fevent := (@fevent V P J D Q M).
Notation element := (@element A V P X J Q M).
Notation memory := (@memory A V P X J Q M).
Notation pe_settings := (@settings V P J D Q M).

(** where the face is looked at: a point on it, or a point of a quadrature rule; [f] is the
    face for which the rule was set *)
Inductive face_place := AtPoint (p : P) | AtRule (q : Q) (i : nat) (f : face).
Record face_settings := FaceSettings {
  the_face : option face;
  first_face : option face;
  place_on : option face_place;
  rule_for : option (Q * face);
  by_unknown : nat -> option transformation }.

Definition face_point (w : face_place) : option P :=
  match w with AtPoint p => Some p | AtRule q i _ => getPoint q i end.

Definition face_initially (h1 : transformation) : face_settings :=
  FaceSettings None None None None (fun u => match u with 0 => Some h1 | _ => None end).
Definition face_follow (c : face_settings) (o : fevent) : face_settings :=
  match o with
  | FSet_ (SetFace f) =>
      FaceSettings (Some f) (match first_face c with None => Some f | x => x end)
        (match place_on c with Some w => option_map AtPoint (face_point w) | None => None end) (rule_for c) (by_unknown c)
  | FSet_ (FSetPointReference p) => FaceSettings (the_face c) (first_face c) (Some (AtPoint p)) (rule_for c) (by_unknown c)
  | FSet_ (SetTransform t u) =>
      FaceSettings (the_face c) (first_face c) (place_on c) (rule_for c) (fun v => if v =? u then Some t else by_unknown c v)
  | FSet_ (FSetQuadratureRule q) =>
      match the_face c with
      | Some f => FaceSettings (the_face c) (first_face c) (Some (AtRule q 0 f)) (Some (q, f)) (by_unknown c)
      | None => c
      end
  | FSet_ (FSetQuadraturePointIndex i) =>
      match rule_for c with
      | Some (q, f) => FaceSettings (the_face c) (first_face c) (Some (AtRule q i f)) (rule_for c) (by_unknown c)
      | None => c
      end
  | FGet_ _ => c
  end.
Definition face_settings_after (h1 : transformation) (l : list fevent) : face_settings := fold_left face_follow l (face_initially h1).

(** the settings of the physical element on a side of face [f] *)
Definition place_of_side (f : face) (d : side) (w : face_place) : @place P Q M :=
  let m := match d with LeftSide => refFaceToRefElemMapL f | RightSide => refFaceToRefElemMapR f end in
  match w with AtPoint p => Point (mapPoint m p) | AtRule q i _ => FaceRule q i m end.
Definition element_of_side (f : face) (d : side) : option nat :=
  match d with LeftSide => Some (ptrElementLeft f) | RightSide => ptrElementRight f end.
Definition settings_of_side (c : face_settings) (f : face) (d : side) : pe_settings :=
  Settings (element_of_side f d) (option_map (place_of_side f d) (place_on c)) (by_unknown c) true.

(** [y] is function [i] of unknown [u] of the element on side [d], in the coordinates of the
    left element *)
Definition side_function (m : memory) (c : face_settings) (f : face) (k : kind) (u : nat) (d : side) (i : nat) (y : V) : Prop :=
  let c' := settings_of_side c f d in
  exists b e w p l v, on c' = Some b /\ m b = Some e /\ where_ c' = Some w /\ point_of getPoint mapPoint w = Some p /\
  function_values transposed determinant c' e p w k u l /\ nth_error l i = Some v /\
  match d, leftRightTransform f with
  | RightSide, Some (Some j) => exists t, by_unknown c u = Some t /\ solves transposed determinant j (t k v) y
  | _, _ => y = v
  end.
(** the functions of the left element come before those of the right element *)
Definition left_number (m : memory) (f : face) (u n : nat) : Prop :=
  exists e, m (ptrElementLeft f) = Some e /\ nth_error (nb (edata e)) u = Some n.
Definition right_number (m : memory) (f : face) (u n : nat) : Prop :=
  match ptrElementRight f with
  | None => n = 0
  | Some r => exists e, m r = Some e /\ nth_error (nb (edata e)) u = Some n
  end.
Definition face_function m c f k u i y : Prop :=
  exists n, left_number m f u n /\
  if i <? n then side_function m c f k u LeftSide i y else side_function m c f k u RightSide (i - n) y.
(** all functions of both sides *)
Definition all_functions m f u (R : nat -> V -> Prop) (l : list V) : Prop :=
  exists n n', left_number m f u n /\ right_number m f u n' /\ length l = n + n' /\
  forall i y, nth_error l i = Some y -> R i y.

(** the normal vector or the unit normal vector *)
Definition normal_at (c : face_settings) (f : face) (nk : normalKind) (v : V) : Prop :=
  exists w p, place_on c = Some w /\ face_point w = Some p /\
  v = match nk with
      | Normal | NormalCross => normalVector f p
      | UnitNormal | UnitNormalCross => divide (normalVector f p) (l2Norm (normalVector f p))
      end.
(** product with the outward normal of the side the function belongs to *)
Definition normal_function m c f nk u i y : Prop :=
  exists n v b, left_number m f u n /\ normal_at c f nk v /\ face_function m c f (kind_of nk) u i b /\
  y = if n <=? i then negate (product nk v b) else product nk v b.

(** the number of a function of side [d] among the functions of both sides *)
Definition face_index m f u (d : side) (i j : nat) : Prop :=
  match d with LeftSide => j = i | RightSide => exists n, left_number m f u n /\ j = i + n end.

(** the right answers.  Derivatives and products with the normal are computed for all functions
    of both sides together. *)
Definition face_answers (m : memory) (c : face_settings) (g : fgetter) (a : @fanswer V P X) : Prop :=
  exists f w p, the_face c = Some f /\ place_on c = Some w /\ face_point w = Some p /\
  match g with
  | FaceFunction uo k i =>
      match k with
      | Value | VectorValue => exists y, face_function m c f k (index uo) i y /\ a = FValue y
      | _ => exists l y, all_functions m f (index uo) (face_function m c f k (index uo)) l /\ nth_error l i = Some y /\ a = FValue y
      end
  | SideFunction d uo k i =>
      match k with
      | Value | VectorValue => exists y, side_function m c f k (index uo) d i y /\ a = FValue y
      | _ => exists l y j, all_functions m f (index uo) (face_function m c f k (index uo)) l /\
             face_index m f (index uo) d i j /\ nth_error l j = Some y /\ a = FValue y
      end
  | NormalFunction nk uo i =>
      exists l y, all_functions m f (index uo) (normal_function m c f nk (index uo)) l /\ nth_error l i = Some y /\ a = FValue y
  | NormalSideFunction d nk uo i =>
      exists l y j, all_functions m f (index uo) (normal_function m c f nk (index uo)) l /\
      face_index m f (index uo) d i j /\ nth_error l j = Some y /\ a = FValue y
  | SideSolution d derivative =>
      exists l, answers vzero vadd vscale transposed inverse determinant absolute getPoint mapPoint m (settings_of_side c f d)
                  (if derivative then GetSolutionDeriv else GetSolution) (ASolution l) /\ a = FSolution l
  | FPointReference => a = FPoint p
  | FPointPhysical => exists e, m (ptrElementLeft f) = Some e /\ a = FPhysical (referenceToPhysical e (mapPoint (refFaceToRefElemMapL f) p))
  | NormalVector => a = FValue (normalVector f p)
  | UnitNormalVector => a = FValue (divide (normalVector f p) (l2Norm (normalVector f p)))
  | RelativeSurfaceArea => a = FValue (l2Norm (normalVector f p))
  end.

(** the numbers of functions are those of the first face that was set *)
Definition same_sizes (m : memory) (f f' : face) : Prop :=
  forall u n, (left_number m f u n <-> left_number m f' u n) /\ (right_number m f u n <-> right_number m f' u n).
(** the rule that is in use was set for the current face, and the numbers of functions did not change *)
Definition orderly (m : memory) (c : face_settings) : Prop :=
  (forall q i f, place_on c = Some (AtRule q i f) -> the_face c = Some f) /\
  (forall f f', first_face c = Some f -> the_face c = Some f' -> same_sizes m f f').

(** all unknowns have the same number of functions; the overloads without unknown assert this,
    but not when the values are already there *)
Definition even (m : memory) (c : face_settings) : Prop :=
  forall f b e n n' d, the_face c = Some f -> element_of_side f d = Some b -> m b = Some e ->
  In n (nb (edata e)) -> In n' (nb (edata e)) -> n = n'.
(** unknown [u] has the same functions as unknown 0 *)
Definition alike (m : memory) (c : face_settings) (k : kind) (u : nat) : Prop :=
  by_unknown c u = by_unknown c 0 /\
  forall f b e d, the_face c = Some f -> element_of_side f d = Some b -> m b = Some e ->
  nth_error (nb (edata e)) u = nth_error (nb (edata e)) 0 /\ forall i w, evaluate e k u i w = evaluate e k 0 i w.
(** all unknowns use the same functions, and the right side is not rotated *)
Definition plain (m : memory) (c : face_settings) (k : kind) (d : side) : Prop :=
  forall f, the_face c = Some f ->
  (d = RightSide -> leftRightTransform f = Some None) /\
  forall b e, element_of_side f d = Some b -> m b = Some e -> interchangeable (settings_of_side c f d) e k.

(** the getters of which the answer is right *)
Definition fine (m : memory) (c : face_settings) (g : fgetter) : Prop :=
  match g with
  | NormalFunction Normal (Some u) _ | NormalFunction UnitNormal (Some u) _
  | NormalSideFunction _ Normal (Some u) _ | NormalSideFunction _ UnitNormal (Some u) _ => alike m c Value u
  | NormalSideFunction _ NormalCross _ _ | NormalSideFunction _ UnitNormalCross _ _ => False
  | SideSolution d derivative => plain m c (if derivative then Deriv else Value) d
  | _ => True
  end.
(** the getters that rely on equal numbers of functions *)
Definition needs_even (g : fgetter) : bool :=
  match g with
  | FaceFunction None _ _ | SideFunction _ None _ _ | NormalFunction _ None _ | NormalSideFunction _ _ None _
  | NormalFunction Normal _ _ | NormalFunction UnitNormal _ _
  | NormalSideFunction _ Normal _ _ | NormalSideFunction _ UnitNormal _ _ | SideSolution _ _ => true
  | _ => false
  end.
End Spec.
