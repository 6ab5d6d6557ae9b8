(** What a right-hand side and a Runge-Kutta step should be. *)
From Coq Require Import List Arith.
From Verif Require Import Tableau_model TimeStep_model.
Import ListNotations.

Section Spec.
Context {A : Type}.
Variables (add mul : A -> A -> A).
Variables (app : @Application A) (elements : list nat) (faces : list Face) (both : bool).

(** entrywise operations on vectors of the same size *)
Definition vplus (v w : list A) : list A := map (fun p => add (fst p) (snd p)) (combine v w).
Definition vtimes (s : A) (v : list A) : list A := map (mul s) v.
(** u + c1*v1 + c2*v2 + ... *)
Definition lincomb (u : list A) (terms : list (A * list A)) : list A :=
  fold_left (fun acc p => vplus acc (vtimes (fst p) (snd p))) terms u.

(** what face [f] contributes to element [e]; both when it is a face of [e] on two sides *)
Definition face_terms (t : A) (u : nat -> list A) (e : nat) (f : Face) : list (list A) :=
  let l := ptrElementLeft f in
  match ptrElementRight f with
  | None => if l =? e then [computeRightHandSideAtBoundary app f (u l) t] else []
  | Some r =>
      let p := if both then computeBothRightHandSidesAtFace app f (u l) (u r) t
               else (computeRightHandSideAtFace app f LEFT (u l) (u r) t,
                     computeRightHandSideAtFace app f RIGHT (u l) (u r) t) in
      (if l =? e then [fst p] else []) ++ (if r =? e then [snd p] else [])
  end.
(** element term plus all face terms *)
Definition right_hand_side (t : A) (u : nat -> list A) (e : nat) : list A :=
  fold_left vplus (flat_map (face_terms t u e) faces) (computeRightHandSideAtElement app e (u e) t).
Definition derivative (t : A) (u : nat -> list A) (e : nat) : list A :=
  solveMassMatrixEquationsAtElement app e (right_hand_side t u e).

(** The mesh lists every element once, faces lie between its elements, and the
    application's functions return vectors of the size of the element they belong to. *)
Record consistent (n : nat -> nat) : Prop := {
  elements_once : NoDup elements;
  left_listed : forall f, In f faces -> In (ptrElementLeft f) elements;
  right_listed : forall f r, In f faces -> ptrElementRight f = Some r -> In r elements;
  element_size : forall e u t, length u = n e -> length (computeRightHandSideAtElement app e u t) = n e;
  boundary_size : forall f u t, In f faces -> ptrElementRight f = None -> length u = n (ptrElementLeft f) ->
    length (computeRightHandSideAtBoundary app f u t) = n (ptrElementLeft f);
  face_size : forall f r u v t, In f faces -> ptrElementRight f = Some r ->
    length u = n (ptrElementLeft f) -> length v = n r ->
    length (computeRightHandSideAtFace app f LEFT u v t) = n (ptrElementLeft f) /\
    length (computeRightHandSideAtFace app f RIGHT u v t) = n r /\
    length (fst (computeBothRightHandSidesAtFace app f u v t)) = n (ptrElementLeft f) /\
    length (snd (computeBothRightHandSidesAtFace app f u v t)) = n r;
  mass_size : forall e u, length u = n e -> length (solveMassMatrixEquationsAtElement app e u) = n e
}.

(** The tableau answers all queries of an explicit method with [a], [b], [c]. *)
Definition answers (T : Tableau A) (a : nat -> nat -> A) (b c : nat -> A) : Prop :=
  forall i, i < numberOfStages T ->
    getB T i = Some (b i) /\ getC T i = Some (c i) /\ forall j, j < i -> getA T i j = Some (a i j).

(** k_i = f(t + c_i dt, u + sum_{j<i} dt a_ij k_j) on every element, and
    u' = u + sum_j dt b_j k_j *)
Definition runge_kutta (s : nat) (a : nat -> nat -> A) (b c : nat -> A) (t dt : A)
    (u : nat -> list A) (k : nat -> nat -> list A) (u' : nat -> list A) : Prop :=
  (forall i e, i < s -> In e elements ->
     k i e = derivative (add t (mul (c i) dt))
               (fun e' => lincomb (u e') (map (fun j => (mul dt (a i j), k j e')) (seq 0 i))) e) /\
  (forall e, In e elements -> u' e = lincomb (u e) (map (fun j => (mul dt (b j), k j e)) (seq 0 s))).
End Spec.

(** Totals over the mesh of a quantity [q] that is additive in the coefficients, e.g. the
    integral of an unknown. *)
Section Totals.
Context {A : Type}.
Variables (zero : A) (add : A -> A -> A).
Definition total (l : list A) : A := fold_right add zero l.
Definition additive (q : list A -> A) : Prop :=
  forall v w, length v = length w -> q (vplus add v w) = add (q v) (q w).
(** what a face gives to the elements on its sides *)
Definition given (app : @Application A) (both : bool) (q : list A -> A) (t : A) (u : nat -> list A) (f : Face) : A :=
  let l := ptrElementLeft f in
  match ptrElementRight f with
  | None => q (computeRightHandSideAtBoundary app f (u l) t)
  | Some r =>
      if both then let p := computeBothRightHandSidesAtFace app f (u l) (u r) t in add (q (fst p)) (q (snd p))
      else add (q (computeRightHandSideAtFace app f LEFT (u l) (u r) t))
               (q (computeRightHandSideAtFace app f RIGHT (u l) (u r) t))
  end.
End Totals.
