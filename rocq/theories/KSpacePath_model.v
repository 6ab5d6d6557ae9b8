(** Model of KSpacePath (applications/DG-Max/Utils/KSpacePath.{h,cpp}), the walk of the eigenvalue solvers of DG-Max
    through k-space, and of the driver that follows it (applications/DG-Max/Programs/DGMaxEigen.cpp).
    A point has three real coordinates; the last one is 0 in two dimensions.  Simplifications: exact arithmetic, and
    numbers that do not exceed std::size_t. *)
From Coq Require Import List Arith Bool Reals.
Import ListNotations.

(** The outcomes of a call: a value, a failed assertion, or undefined behaviour (access out of range, division by 0). *)
Inductive outcome (A : Type) := Value (x : A) | Refused | Undefined.
Arguments Value {A}. Arguments Refused {A}. Arguments Undefined {A}.
Definition at_ {A : Type} (l : list A) (i : nat) : outcome A := match nth_error l i with Some x => Value x | None => Undefined end.
Definition bind {A B : Type} (a : outcome A) (f : A -> outcome B) : outcome B :=
  match a with Value x => f x | Refused => Refused | Undefined => Undefined end.

Definition point := (R * R * R)%type.
Definition origin : point := (0, 0, 0)%R.
Definition add (a b : point) : point := let '(x, y, z) := a in let '(u, v, w) := b in (x + u, y + v, z + w)%R.
Definition sub (a b : point) : point := let '(x, y, z) := a in let '(u, v, w) := b in (x - u, y - v, z - w)%R.
Definition scale (c : R) (a : point) : point := let '(x, y, z) := a in (c * x, c * y, c * z)%R.
Definition over (a : point) (c : R) : point := let '(x, y, z) := a in (x / c, y / c, z / c)%R.

(** KSpacePath.h:62-63, the members *)
Record path := Path { points : list point; steps : nat }.
(** KSpacePath.cpp:12-16 totalNumberOfSteps; a path without points, for which the subtraction wraps, is [Undefined] *)
Definition totalNumberOfSteps (p : path) : outcome nat :=
  match points p with [] => Undefined | _ => Value (1 + (length (points p) - 1) * steps p) end.
(** KSpacePath.cpp:18-32 k; [asserts] tells whether the program was built with assert_debug *)
Definition k (asserts : bool) (p : path) (index : nat) : outcome point :=
  bind (totalNumberOfSteps p) (fun total =>
  if asserts && negb (index <=? total) then Refused
  else if steps p =? 0 then Undefined
  else if index mod steps p =? 0 then at_ (points p) (index / steps p)
  else
    let pointOffset := index / steps p in
    let stepOffset := index mod steps p in
    let alpha := (1 * INR stepOffset / INR (steps p))%R in
    bind (at_ (points p) (pointOffset + 1)) (fun b => bind (at_ (points p) pointOffset) (fun a =>
    Value (add (scale alpha b) (scale (1 - alpha) a))))).
(** KSpacePath.cpp:34-45 dk *)
Definition dk (asserts : bool) (p : path) (index : nat) : outcome point :=
  bind (totalNumberOfSteps p) (fun total =>
  if asserts && negb (index <=? total) then Refused
  else if index =? 0 then at_ (points p) 0
  else if steps p =? 0 then Undefined
  else
    let pointOffset := (index - 1) / steps p in
    bind (at_ (points p) (pointOffset + 1)) (fun b => bind (at_ (points p) pointOffset) (fun a =>
    Value (over (sub b a) (INR (steps p)))))).
(** KSpacePath.cpp:47-56 dkDidChange, with assert_always *)
Definition dkDidChange (p : path) (index : nat) : outcome bool :=
  bind (totalNumberOfSteps p) (fun total =>
  if negb (index <? total) then Refused
  else if index =? 0 then Value true
  else if steps p =? 0 then Undefined
  else Value ((index - 1) mod steps p =? 0)).
(** KSpacePath.cpp:70-76 singleStepPath *)
Definition singleStepPath (x : point) : path := Path [x] 1.
(** KSpacePath.cpp:79-104 cubePath; [three] for DIM = 3 *)
Definition set_ (i : nat) (x : point) (l : list point) : list point := firstn i l ++ x :: skipn (S i) l.
Definition cubePath (three : bool) (n : nat) (back : bool) : path :=
  let DIM := if three then 3 else 2 in
  let l := repeat origin (DIM + (if back then 2 else 1)) in
  let x := origin in
  let l := set_ 0 x l in
  let l := if back then set_ (DIM + 1) x l else l in
  let x := let '(a, b, c) := x in (PI, b, c) in
  let l := set_ 1 x l in
  let x := let '(a, b, c) := x in (a, PI, c) in
  let l := set_ 2 x l in
  let x := let '(a, b, c) := x in (a, b, if three then PI else c) in
  let l := if three then set_ 3 x l else l in
  Path l n.

(** DGMaxEigen.cpp:153-163, and the loop of the solvers over it: while not stop(), getCurrentKPoint() and nextKPoint();
    the points in their order.  The number of turns is bounded by [fuel]; more of them is [Undefined]. *)
Fixpoint visit (fuel : nat) (asserts : bool) (p : path) (currentPoint : nat) : outcome (list point) :=
  bind (totalNumberOfSteps p) (fun total =>
  if total <=? currentPoint then Value []
  else match fuel with
  | O => Undefined
  | S fuel => bind (k asserts p currentPoint) (fun x => bind (visit fuel asserts p (S currentPoint)) (fun r => Value (x :: r)))
  end).
