(** Integrals over the reference elements and polynomials, stated without the quadrature rules. *)
From Coq Require Import List NArith Reals.
From Verif Require Import RefGeometry_model Quadrature_model.
Import ListNotations.
Local Open Scope R_scope.

(** [v] is the integral of [f] from [a] to [b]: the difference of an antiderivative *)
Definition newton (f : R -> R) (a b v : R) : Prop :=
  exists F, (forall x, a <= x <= b -> derivable_pt_lim F x (f x)) /\ v = F b - F a.

(** an iterated integral: the inner integrals have values [G x], whose integral is [v] *)
Definition over (a b : R) (inner : R -> R -> Prop) (v : R) : Prop :=
  exists G, (forall x, a <= x <= b -> inner x (G x)) /\ newton G a b v.

(** [v] is the integral of [f] over the reference element *)
Definition integral (s : shape) (f : point -> R) (v : R) : Prop :=
  match s with
  | Point => v = f []
  | Line => over (-1) 1 (fun x u => u = f [x]) v
  | Square => over (-1) 1 (fun x => over (-1) 1 (fun y u => u = f [x; y])) v
  | Triangle => over 0 1 (fun x => over 0 (1 - x) (fun y u => u = f [x; y])) v
  | Cube => over (-1) 1 (fun x => over (-1) 1 (fun y => over (-1) 1 (fun z u => u = f [x; y; z]))) v
  | Tetrahedron => over 0 1 (fun x => over 0 (1 - x) (fun y => over 0 (1 - x - y) (fun z u => u = f [x; y; z]))) v
  | TriangularPrism => over 0 1 (fun x => over 0 (1 - x) (fun y => over (-1) 1 (fun z u => u = f [x; y; z]))) v
  | Pyramid => over 0 1 (fun z => over (- (1 - z)) (1 - z) (fun x => over (- (1 - z)) (1 - z) (fun y u => u = f [x; y; z]))) v
  | Hypercube =>
      over (-1) 1 (fun x => over (-1) 1 (fun y => over (-1) 1 (fun z => over (-1) 1 (fun t u => u = f [x; y; z; t])))) v
  end.

(** a polynomial: a list of coefficients with the exponents of the coordinates *)
Definition polynomial := list (R * list nat).

Fixpoint monomial (e : list nat) (p : point) : R :=
  match e, p with
  | k :: e', x :: p' => x ^ k * monomial e' p'
  | _, _ => 1
  end.

Fixpoint peval (q : polynomial) (p : point) : R :=
  match q with
  | [] => 0
  | (c, e) :: q' => c * monomial e p + peval q' p
  end.

(** the sum of the absolute values of the coefficients *)
Fixpoint size (q : polynomial) : R :=
  match q with
  | [] => 0
  | (c, _) :: q' => Rabs c + size q'
  end.

(** degree at most [k]: per coordinate for lines, squares, cubes and hypercubes (this includes the polynomials of
    total degree [k]), in total for the other shapes *)
Definition monomial_of_degree (s : shape) (k : N) (e : list nat) : Prop :=
  length e = dimension s /\
  match s with
  | Line | Square | Cube | Hypercube => Forall (fun a => (N.of_nat a <= k)%N) e
  | _ => (N.of_nat (list_sum e) <= k)%N
  end.
Definition of_degree (s : shape) (k : N) (q : polynomial) : Prop :=
  Forall (fun t => monomial_of_degree s k (snd t)) q.

(** the accuracy of the tabulated decimals: 10 decimals for pyramids and prisms, 15 for the other shapes *)
Definition tolerance (s : shape) : R :=
  match s with
  | Pyramid | TriangularPrism => / 10 ^ 9
  | _ => / 10 ^ 13
  end.

(** the sum of the weights times the values in the points, through the interface of the rule; [None] if the rule
    does not have as many weights and points as it says *)
Fixpoint partial_sum (r : rule) (f : point -> R) (n : nat) : option R :=
  match n with
  | O => Some 0
  | S i => match partial_sum r f i, weight r i, getPoint r i with
           | Some v, Some w, Some p => Some (v + w * f p)
           | _, _, _ => None
           end
  end.
Definition quadrature (r : rule) (f : point -> R) : option R := partial_sum r f (getNumberOfPoints r).

(** the rule integrates all polynomials of degree at most [k], up to the accuracy of its decimals *)
Definition integrates (r : rule) (k : N) : Prop :=
  forall q, of_degree (forReferenceGeometry r) k q ->
  exists u v, quadrature r (peval q) = Some u /\ integral (forReferenceGeometry r) (peval q) v /\
    Rabs (u - v) <= tolerance (forReferenceGeometry r) * size q.
