(** What a physical element should answer: the current settings are those of the last
    calls, and an answer is computed from the settings alone. *)
From Coq Require Import List Arith.
From Verif Require Import Matrix_model ElementData_model PhysicalElement_model.
Import ListNotations.

Section Spec.
Context {A V P X J D Q M : Type}.
Variable vzero : V.
Variable vadd : V -> V -> V.
Variable vscale : A -> V -> V.
Variable transposed inverse : J -> J.
Variable determinant : J -> D.
Variable absolute : D -> D.
Variable getPoint : Q -> nat -> option P.
Variable mapPoint : M -> P -> P.
Notation element := (@element A V P X J Q M).
Notation event := (@event A V P X J D Q M).
Notation transformation := (@transformation V J D).
Notation place := (@place P Q M).

(** the settings: element, place of evaluation, transformation of each unknown, and
    whether the element is still as it was when it was set *)
Record settings := Settings {
  on : option nat;
  where_ : option place;
  transforms : nat -> option transformation;
  unchanged : bool }.

Definition initially (h1 : transformation) : settings :=
  Settings None None (fun u => match u with 0 => Some h1 | _ => None end) false.
Definition follow (c : settings) (o : event) : settings :=
  match o with
  | Set_ (SetPointReference p) => Settings (on c) (Some (Point p)) (transforms c) (unchanged c)
  | Set_ (SetElement a) => Settings (Some a) (where_ c) (transforms c) true
  | Set_ (SetTransformation t u) =>
      Settings (on c) (where_ c) (fun v => if v =? u then Some t else transforms c v) (unchanged c)
  | Set_ (SetQuadratureRule q) => Settings (on c) (Some (Rule q 0)) (transforms c) (unchanged c)
  | Set_ (SetFaceQuadratureRule q m) => Settings (on c) (Some (FaceRule q 0 m)) (transforms c) (unchanged c)
  | Set_ (SetQuadraturePointIndex i) =>
      Settings (on c) (match where_ c with
                       | Some (Rule q _) => Some (Rule q i)
                       | Some (FaceRule q _ m) => Some (FaceRule q i m)
                       | w => w
                       end) (transforms c) (unchanged c)
  | Change a _ => Settings (on c) (where_ c) (transforms c)
                    (match on c with Some b => if b =? a then false else unchanged c | None => unchanged c end)
  | Get_ _ | FillMatrix _ | FillVector _ => c
  end.
Definition settings_after (h1 : transformation) (l : list event) : settings := fold_left follow l (initially h1).

(** the point in the reference element *)
Definition point_of (w : place) : option P :=
  match w with
  | Point p => Some p
  | Rule q i => getPoint q i
  | FaceRule q i m => option_map (mapPoint m) (getPoint q i)
  end.

(** the answer of a transformation when the Jacobian is [j] *)
Inductive solves (j : J) : @request V J D -> V -> Prop :=
| solves_answer v : solves j (Answer v) v
| solves_jacobian f v : solves j (f j) v -> solves j (AskJacobian f) v
| solves_transpose f v : solves j (f (transposed j)) v -> solves j (AskTranspose f) v
| solves_det f v : solves j (f (determinant j)) v -> solves j (AskDet f) v.

(** [y] is function [i] of unknown [u], transformed to physical space *)
Definition function_value (c : settings) (e : element) (p : P) (w : place) (k : kind) (u i : nat) (y : V) : Prop :=
  exists v t, evaluate e k u i w = Some v /\ transforms c u = Some t /\ solves (calcJacobian e p) (t k v) y.

(** all functions of unknown [u]; they are computed together, so one that cannot be
    computed makes all of them fail *)
Definition function_values c e p w k u (l : list V) : Prop :=
  nth_error (nb (edata e)) u = Some (length l) /\
  forall i y, nth_error l i = Some y -> function_value c e p w k u i y.

(** sum of coefficient times function *)
Definition combination (cs : list A) (vs : list V) : V :=
  fold_left (fun sum cv => vadd sum (vscale (fst cv) (snd cv))) (combine cs vs) vzero.
(** the coefficients of unknown [u] are stored after those of the unknowns before it *)
Definition coefficients_of (e : element) (u : nat) (l : list A) : Prop :=
  exists n all, nth_error (nb (edata e)) u = Some n /\ nth_error (ti (edata e)) 0 = Some all /\
  length l = n /\ forall i, i < n -> nth_error l i = nth_error all (list_sum (firstn u (nb (edata e))) + i).
Definition solution_value c e p w k (l : list V) : Prop :=
  length l = unknowns e /\ nth_error (ti (edata e)) 0 <> None /\
  forall u y, nth_error l u = Some y ->
  exists cs vs, coefficients_of e u cs /\ function_values c e p w k u vs /\ y = combination cs vs.

(** all unknowns use the same functions and the same transformation *)
Definition interchangeable c (e : element) k : Prop :=
  forall u, u < unknowns e -> nth_error (nb (edata e)) u = nth_error (nb (edata e)) 0 /\
    transforms c u = transforms c 0 /\ forall i w, evaluate e k u i w = evaluate e k 0 i w.

(** the right answers *)
Definition answers (m : @memory A V P X J Q M) (c : settings) (g : getter) (a : @answer A V P X J D) : Prop :=
  match g with
  | GetPointReference => exists w p, where_ c = Some w /\ point_of w = Some p /\ a = APoint p
  | _ =>
      exists b e w p, on c = Some b /\ m b = Some e /\ where_ c = Some w /\ point_of w = Some p /\
      let j := calcJacobian e p in
      match g with
      | BasisFunction k i =>
          exists l y, function_values c e p w k 0 l /\ nth_error l i = Some y /\ a = AValue y
      | BasisFunctionOf k i u =>
          exists l y, function_values c e p w k u l /\ nth_error l i = Some y /\ a = AValue y
      | GetSolution => exists l, solution_value c e p w Value l /\ a = ASolution l
      | GetSolutionDeriv => exists l, solution_value c e p w Deriv l /\ a = ASolution l
      | GetPointReference => False
      | GetPointPhysical => a = APhysical (referenceToPhysical e p)
      | GetJacobian => a = AJacobian j
      | GetTransposeJacobian => a = AJacobian (transposed j)
      | GetInverseTransposeJacobian => a = AJacobian (inverse (transposed j))
      | GetJacobianDet => a = ADet (determinant j)
      | GetJacobianAbsDet => a = ADet (absolute (determinant j))
      | GetResultMatrix | GetResultVector => False
      end
  end.

(** the number of functions is the same for all unknowns: the overloads without unknown
    assert this (but not when the values are already there) *)
Definition equal_counts (m : @memory A V P X J Q M) (c : settings) : Prop :=
  forall b e n n', on c = Some b -> m b = Some e -> In n (nb (edata e)) -> In n' (nb (edata e)) -> n = n'.
Definition legal m c (g : @getter) : Prop :=
  match g with BasisFunction _ _ | GetSolution | GetSolutionDeriv => equal_counts m c | _ => True end.

(** the getters whose answer is a function of the settings *)
Definition asks (g : @getter) : Prop := match g with GetResultMatrix | GetResultVector => False | _ => True end.
Definition asks_no_solution (g : @getter) : Prop := match g with GetSolution | GetSolutionDeriv => False | _ => asks g end.
End Spec.
