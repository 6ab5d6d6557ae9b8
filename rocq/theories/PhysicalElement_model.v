(** Model of kernel/Base/PhysicalElement{.h,_Impl.h}: an element together with a point in
    it, with caches for everything that was already computed at that point.

    One type [V] stands for the numbers and vectors a basis function can give; which of
    them is meant follows from the kind.  Failed debug assertions, logger(ERROR, ..),
    null pointers and accesses outside of a vector are [None].  The type [J] stands for
    matrices and [D] for determinants.  vectorSolution, solutionCurl and solutionDiv are
    left out: their getters only report an error (PhysicalElement_Impl.h:468-489). *)
From Coq Require Import List Arith Bool.
From Verif Require Import Loop_model Matrix_model ElementData_model.
Import ListNotations.

Definition bind {X Y} (o : option X) (f : X -> option Y) : option Y := match o with None => None | Some x => f x end.
Notation "x <- o ; e" := (bind o (fun x => e)) (at level 61, o at next level, right associativity).

(** basisFunction (number), basisFunction (vector), basisFunctionDeriv, basisFunctionCurl,
    basisFunctionDiv and the caches for them *)
Inductive kind := Value | VectorValue | Deriv | Curl | Div.
Definition kind_eqb (k l : kind) : bool :=
  match k, l with
  | Value, Value | VectorValue, VectorValue | Deriv, Deriv | Curl, Curl | Div, Div => true
  | _, _ => false
  end.
Definition at_kind {X} (f : kind -> X) (k : kind) (x : X) : kind -> X := fun l => if kind_eqb l k then x else f l.

Section PhysicalElement.
(** coefficients, values of basis functions, points in the reference element, points in
    physical space, Jacobians, determinants, quadrature rules, maps from a face *)
Context {A V P X J D Q M : Type}.
Variable zero : A.
Variable mul : A -> A -> A.
Variable vzero : V.
Variable vadd : V -> V -> V.
Variable vscale : A -> V -> V.
Variable transposed inverse : J -> J.       (* SmallMatrix::transpose, inverse *)
Variable determinant : J -> D.              (* SmallMatrix::determinant *)
Variable absolute : D -> D.                 (* std::abs *)
Variable getPoint : Q -> nat -> option P.   (* GaussQuadratureRule::getPoint *)
Variable mapPoint : M -> P -> P.            (* MappingReferenceToReference<1>::transform *)

(** where basis functions are evaluated: the three branches in
    PhysicalElement_Impl.h:66-85 and its copies *)
Inductive place := Point (p : P) | Rule (q : Q) (i : nat) | FaceRule (q : Q) (i : nat) (m : M).

(** kernel/Base/Element.h: the parts of an element that are used *)
Record element := Element {
  edata : @ElementData A;                                   (* numbers of functions, coefficients *)
  evaluate : kind -> nat -> nat -> place -> option V;      (* kind, unknown, function *)
  referenceToPhysical : P -> X;
  calcJacobian : P -> J }.

(** ElementData.h:181 getNumberOfUnknowns *)
Definition unknowns (e : element) : nat := length (nb (edata e)).
(** ElementData.cpp:167-174 getNumberOfBasisFunctions() *)
Definition sharedNumber (e : element) : option nat :=
  match nb (edata e) with
  | [] => None
  | n :: l => if forallb (Nat.eqb n) (n :: l) then Some n else None
  end.

(** kernel/Base/CoordinateTransformation.h: a transformation gets a value and may ask the
    physical element for the Jacobian, its transpose and its determinant, any number of
    times and in any order, before it answers or reports an error *)
Inductive request :=
| Answer (v : V) | Error
| AskJacobian (f : J -> request) | AskTranspose (f : J -> request) | AskDet (f : D -> request).
Definition transformation := kind -> V -> request.

(** PhysicalElement.h:227-275 the data members.  The element is a pointer: the number of
    the element in the memory [elements].  transform_ has null pointers where it was
    resized (PhysicalElement_Impl.h:721). *)
Record state := State {
  theElement_ : option nat;                 (* None: hasElement is false *)
  pointReference_ : option P;               (* None: hasPointReference is false *)
  quadratureRule_ : option Q;               (* None: never set *)
  faceToElementMap_ : option M;
  quadraturePointIndex_ : nat;
  hasQuadratureRule : bool;
  doesMap : bool;                           (* doesMapQuadraturePointFromFace *)
  transform_ : list (option transformation);
  values : kind -> list (list V);           (* basisFunctionValue, .., basisFunctionDiv_ *)
  hasFunction : kind -> list bool;          (* hasFunctionValue, .., hasFunctionDiv *)
  solution : list V; hasSolution : bool;
  solutionDeriv : list V; hasSolutionDeriv : bool;
  pointPhysical : option X; hasPointPhysical : bool;
  jacobian : option J; hasJacobian : bool;
  transposeJacobian : option J; hasTransposeJacobian : bool;
  inverseTransposeJacobian : option J; hasInverseTransposeJacobian : bool;
  jacobianDet : option D; hasJacobianDet : bool;
  jacobianAbsDet : option D; hasJacobianAbsDet : bool;
  resultMatrix : matrix A; hasElementMatrix : bool;
  resultVector : list A; hasElementVector : bool }.

(** the elements of the mesh by number *)
Definition memory := nat -> option element.

Section Getters.
Variable elements : memory.

Definition ready (s : state) : option (element * P) :=
  e <- theElement_ s; e <- elements e; p <- pointReference_ s; Some (e, p).

(** PhysicalElement_Impl.h:512-523 *)
Definition getJacobian (s : state) : option (state * J) :=
  ep <- ready s;
  if hasJacobian s then j <- jacobian s; Some (s, j)
  else
    let j := calcJacobian (fst ep) (snd ep) in
    Some (State (theElement_ s) (pointReference_ s) (quadratureRule_ s) (faceToElementMap_ s) (quadraturePointIndex_ s)
            (hasQuadratureRule s) (doesMap s) (transform_ s) (values s) (hasFunction s) (solution s) (hasSolution s)
            (solutionDeriv s) (hasSolutionDeriv s) (pointPhysical s) (hasPointPhysical s) (Some j) true
            (transposeJacobian s) (hasTransposeJacobian s) (inverseTransposeJacobian s) (hasInverseTransposeJacobian s)
            (jacobianDet s) (hasJacobianDet s) (jacobianAbsDet s) (hasJacobianAbsDet s)
            (resultMatrix s) (hasElementMatrix s) (resultVector s) (hasElementVector s), j).

(** PhysicalElement_Impl.h:538-549 *)
Definition getTransposeJacobian (s : state) : option (state * J) :=
  _ <- ready s;
  if hasTransposeJacobian s then j <- transposeJacobian s; Some (s, j)
  else
    r <- getJacobian s;
    let s := fst r in let j := transposed (snd r) in
    Some (State (theElement_ s) (pointReference_ s) (quadratureRule_ s) (faceToElementMap_ s) (quadraturePointIndex_ s)
            (hasQuadratureRule s) (doesMap s) (transform_ s) (values s) (hasFunction s) (solution s) (hasSolution s)
            (solutionDeriv s) (hasSolutionDeriv s) (pointPhysical s) (hasPointPhysical s) (jacobian s) (hasJacobian s)
            (Some j) true (inverseTransposeJacobian s) (hasInverseTransposeJacobian s)
            (jacobianDet s) (hasJacobianDet s) (jacobianAbsDet s) (hasJacobianAbsDet s)
            (resultMatrix s) (hasElementMatrix s) (resultVector s) (hasElementVector s), j).

(** PhysicalElement_Impl.h:525-536 *)
Definition getInverseTransposeJacobian (s : state) : option (state * J) :=
  _ <- ready s;
  if hasInverseTransposeJacobian s then j <- inverseTransposeJacobian s; Some (s, j)
  else
    r <- getTransposeJacobian s;
    let s := fst r in let j := inverse (snd r) in
    Some (State (theElement_ s) (pointReference_ s) (quadratureRule_ s) (faceToElementMap_ s) (quadraturePointIndex_ s)
            (hasQuadratureRule s) (doesMap s) (transform_ s) (values s) (hasFunction s) (solution s) (hasSolution s)
            (solutionDeriv s) (hasSolutionDeriv s) (pointPhysical s) (hasPointPhysical s) (jacobian s) (hasJacobian s)
            (transposeJacobian s) (hasTransposeJacobian s) (Some j) true
            (jacobianDet s) (hasJacobianDet s) (jacobianAbsDet s) (hasJacobianAbsDet s)
            (resultMatrix s) (hasElementMatrix s) (resultVector s) (hasElementVector s), j).

(** PhysicalElement_Impl.h:563-573 *)
Definition getJacobianDet (s : state) : option (state * D) :=
  _ <- ready s;
  if hasJacobianDet s then d <- jacobianDet s; Some (s, d)
  else
    r <- getJacobian s;
    let s := fst r in let d := determinant (snd r) in
    Some (State (theElement_ s) (pointReference_ s) (quadratureRule_ s) (faceToElementMap_ s) (quadraturePointIndex_ s)
            (hasQuadratureRule s) (doesMap s) (transform_ s) (values s) (hasFunction s) (solution s) (hasSolution s)
            (solutionDeriv s) (hasSolutionDeriv s) (pointPhysical s) (hasPointPhysical s) (jacobian s) (hasJacobian s)
            (transposeJacobian s) (hasTransposeJacobian s) (inverseTransposeJacobian s) (hasInverseTransposeJacobian s)
            (Some d) true (jacobianAbsDet s) (hasJacobianAbsDet s)
            (resultMatrix s) (hasElementMatrix s) (resultVector s) (hasElementVector s), d).

(** PhysicalElement_Impl.h:551-561 *)
Definition getJacobianAbsDet (s : state) : option (state * D) :=
  _ <- ready s;
  if hasJacobianAbsDet s then d <- jacobianAbsDet s; Some (s, d)
  else
    r <- getJacobianDet s;
    let s := fst r in let d := absolute (snd r) in
    Some (State (theElement_ s) (pointReference_ s) (quadratureRule_ s) (faceToElementMap_ s) (quadraturePointIndex_ s)
            (hasQuadratureRule s) (doesMap s) (transform_ s) (values s) (hasFunction s) (solution s) (hasSolution s)
            (solutionDeriv s) (hasSolutionDeriv s) (pointPhysical s) (hasPointPhysical s) (jacobian s) (hasJacobian s)
            (transposeJacobian s) (hasTransposeJacobian s) (inverseTransposeJacobian s) (hasInverseTransposeJacobian s)
            (jacobianDet s) (hasJacobianDet s) (Some d) true
            (resultMatrix s) (hasElementMatrix s) (resultVector s) (hasElementVector s), d).

(** PhysicalElement_Impl.h:491-497 *)
Definition getPointReference (s : state) : option P := pointReference_ s.

(** PhysicalElement_Impl.h:499-510 *)
Definition getPointPhysical (s : state) : option (state * X) :=
  ep <- ready s;
  if hasPointPhysical s then x <- pointPhysical s; Some (s, x)
  else
    let x := referenceToPhysical (fst ep) (snd ep) in
    Some (State (theElement_ s) (pointReference_ s) (quadratureRule_ s) (faceToElementMap_ s) (quadraturePointIndex_ s)
            (hasQuadratureRule s) (doesMap s) (transform_ s) (values s) (hasFunction s) (solution s) (hasSolution s)
            (solutionDeriv s) (hasSolutionDeriv s) (Some x) true (jacobian s) (hasJacobian s)
            (transposeJacobian s) (hasTransposeJacobian s) (inverseTransposeJacobian s) (hasInverseTransposeJacobian s)
            (jacobianDet s) (hasJacobianDet s) (jacobianAbsDet s) (hasJacobianAbsDet s)
            (resultMatrix s) (hasElementMatrix s) (resultVector s) (hasElementVector s), x).

(** a transformation working with *this *)
Fixpoint perform (r : request) (s : state) : option (state * V) :=
  match r with
  | Answer v => Some (s, v)
  | Error => None
  | AskJacobian f => q <- getJacobian s; perform (f (snd q)) (fst q)
  | AskTranspose f => q <- getTransposeJacobian s; perform (f (snd q)) (fst q)
  | AskDet f => q <- getJacobianDet s; perform (f (snd q)) (fst q)
  end.

Definition with_values (s : state) (v : kind -> list (list V)) (h : kind -> list bool) : state :=
  State (theElement_ s) (pointReference_ s) (quadratureRule_ s) (faceToElementMap_ s) (quadraturePointIndex_ s)
    (hasQuadratureRule s) (doesMap s) (transform_ s) v h (solution s) (hasSolution s)
    (solutionDeriv s) (hasSolutionDeriv s) (pointPhysical s) (hasPointPhysical s) (jacobian s) (hasJacobian s)
    (transposeJacobian s) (hasTransposeJacobian s) (inverseTransposeJacobian s) (hasInverseTransposeJacobian s)
    (jacobianDet s) (hasJacobianDet s) (jacobianAbsDet s) (hasJacobianAbsDet s)
    (resultMatrix s) (hasElementMatrix s) (resultVector s) (hasElementVector s).

(** which overload of Element::basisFunction is called, PhysicalElement_Impl.h:67-84 *)
Definition current (s : state) : option place :=
  if hasQuadratureRule s then
    q <- quadratureRule_ s;
    if doesMap s then m <- faceToElementMap_ s; Some (FaceRule q (quadraturePointIndex_ s) m)
    else Some (Rule q (quadraturePointIndex_ s))
  else p <- pointReference_ s; Some (Point p).

Definition get2 {Y} (l : list (list Y)) (u i : nat) : option Y := r <- nth_error l u; nth_error r i.
Definition set2 {Y} (l : list (list Y)) (u i : nat) (y : Y) : option (list (list Y)) :=
  r <- nth_error l u; r' <- write r i y; write l u r'.

(** the loop which fills the values of all [n] functions of unknown [u] *)
Definition fill (e : element) (k : kind) (u n : nat) (s : state) : option state :=
  for_loop n (fun j s =>
    w <- current s;
    v <- evaluate e k u j w;
    t <- nth_error (transform_ s) u;
    t <- t;
    q <- perform (t k v) s;
    let s := fst q in
    l <- set2 (values s k) u j (snd q);
    Some (with_values s (at_kind (values s) k l) (hasFunction s))) s.

(** the body shared by the two overloads below *)
Definition lookup (e : element) (k : kind) (i u : nat) (n : option nat) (s : state) : option (state * V) :=
  h <- nth_error (hasFunction s k) u;
  if h : bool then v <- get2 (values s k) u i; Some (s, v)
  else
    l <- write (hasFunction s k) u true;
    let s := with_values s (values s) (at_kind (hasFunction s) k l) in
    n <- n;
    s <- fill e k u n s;
    v <- get2 (values s k) u i; Some (s, v).

(** PhysicalElement_Impl.h:58-86, 122-151, 193-227, 273-302, 342-370: without unknown, all
    unknowns must have the same number of functions *)
Definition basisFunction (k : kind) (i : nat) (s : state) : option (state * V) :=
  ep <- ready s; lookup (fst ep) k i 0 (sharedNumber (fst ep)) s.
(** PhysicalElement_Impl.h:88-120, 153-191, 229-271, 304-340, 372-405.
    basisFunctionDiv has no assertion on the unknown, but accesses hasFunctionDiv[unknown]. *)
Definition basisFunctionOf (k : kind) (i u : nat) (s : state) : option (state * V) :=
  ep <- ready s; if u <? unknowns (fst ep) then lookup (fst ep) k i u (nth_error (nb (edata (fst ep))) u) s else None.

(** the loops of PhysicalElement_Impl.h:407-436 getSolution and 438-466 getSolutionDeriv *)
Definition sum_up (e : element) (k : kind) (s : state) : option (state * list V) :=
  let m := unknowns e in
  coefficients <- nth_error (ti (edata e)) 0;
  for_loop m (fun iV q =>
    n <- nth_error (nb (edata e)) iV;
    for_loop n (fun iB (q : state * list V) =>
      iVB <- convertToSingleIndex (edata e) iB iV;
      c <- nth_error coefficients iVB;
      r <- basisFunction k iB (fst q);
      x <- nth_error (snd q) iV;
      l <- write (snd q) iV (vadd x (vscale c (snd r)));
      Some (fst r, l)) q) (s, repeat vzero m).

Definition getSolution (s : state) : option (state * list V) :=
  ep <- ready s;
  if hasSolution s then Some (s, solution s)
  else
    q <- sum_up (fst ep) Value s;
    let s := fst q in
    Some (State (theElement_ s) (pointReference_ s) (quadratureRule_ s) (faceToElementMap_ s) (quadraturePointIndex_ s)
            (hasQuadratureRule s) (doesMap s) (transform_ s) (values s) (hasFunction s) (snd q) true
            (solutionDeriv s) (hasSolutionDeriv s) (pointPhysical s) (hasPointPhysical s) (jacobian s) (hasJacobian s)
            (transposeJacobian s) (hasTransposeJacobian s) (inverseTransposeJacobian s) (hasInverseTransposeJacobian s)
            (jacobianDet s) (hasJacobianDet s) (jacobianAbsDet s) (hasJacobianAbsDet s)
            (resultMatrix s) (hasElementMatrix s) (resultVector s) (hasElementVector s), snd q).
Definition getSolutionDeriv (s : state) : option (state * list V) :=
  ep <- ready s;
  if hasSolutionDeriv s then Some (s, solutionDeriv s)
  else
    q <- sum_up (fst ep) Deriv s;
    let s := fst q in
    Some (State (theElement_ s) (pointReference_ s) (quadratureRule_ s) (faceToElementMap_ s) (quadraturePointIndex_ s)
            (hasQuadratureRule s) (doesMap s) (transform_ s) (values s) (hasFunction s) (solution s) (hasSolution s)
            (snd q) true (pointPhysical s) (hasPointPhysical s) (jacobian s) (hasJacobian s)
            (transposeJacobian s) (hasTransposeJacobian s) (inverseTransposeJacobian s) (hasInverseTransposeJacobian s)
            (jacobianDet s) (hasJacobianDet s) (jacobianAbsDet s) (hasJacobianAbsDet s)
            (resultMatrix s) (hasElementMatrix s) (resultVector s) (hasElementVector s), snd q).

Definition with_results (s : state) (m : matrix A) (hm : bool) (v : list A) (hv : bool) : state :=
  State (theElement_ s) (pointReference_ s) (quadratureRule_ s) (faceToElementMap_ s) (quadraturePointIndex_ s)
    (hasQuadratureRule s) (doesMap s) (transform_ s) (values s) (hasFunction s) (solution s) (hasSolution s)
    (solutionDeriv s) (hasSolutionDeriv s) (pointPhysical s) (hasPointPhysical s) (jacobian s) (hasJacobian s)
    (transposeJacobian s) (hasTransposeJacobian s) (inverseTransposeJacobian s) (hasInverseTransposeJacobian s)
    (jacobianDet s) (hasJacobianDet s) (jacobianAbsDet s) (hasJacobianAbsDet s) m hm v hv.

(** PhysicalElement_Impl.h:575-584 *)
Definition getResultMatrix (s : state) : option (state * matrix A) :=
  _ <- ready s;
  if hasElementMatrix s
  then Some (with_results s (resultMatrix s) false (resultVector s) (hasElementVector s), resultMatrix s)
  else None.
(** PhysicalElement_Impl.h:586-595 *)
Definition getResultVector (s : state) : option (state * list A) :=
  _ <- ready s;
  if hasElementVector s
  then Some (with_results s (resultMatrix s) (hasElementMatrix s) (resultVector s) false, resultVector s)
  else None.
(** the caller fills the matrix or vector it got a reference to; it does not resize it *)
Definition fillMatrix (m : matrix A) (s : state) : option state :=
  let old := resultMatrix s in
  if hasElementMatrix s then None
  else if (nrows m =? nrows old) && (ncols m =? ncols old) && (length (data m) =? length (data old))
  then Some (with_results s m false (resultVector s) (hasElementVector s)) else None.
Definition fillVector (v : list A) (s : state) : option state :=
  if hasElementVector s then None
  else if length v =? length (resultVector s)
  then Some (with_results s (resultMatrix s) (hasElementMatrix s) v false) else None.

(** "if (!hasElementMatrix) resultMatrix *= 0;" and the same for the vector,
    MiddleSizeMatrix.cpp:252-255 *)
Definition zero_results (s : state) : state :=
  let m := resultMatrix s in
  with_results s
    (if hasElementMatrix s then m else Mat (nrows m) (ncols m) (map (fun x => mul x zero) (data m))) true
    (if hasElementVector s then resultVector s else map (fun x => mul x zero) (resultVector s)) true.

(** PhysicalElement_Impl.h:622-654 setPointReference: reads the number of unknowns from the
    element, so the element must have been set *)
Definition setPointReference (p : P) (s : state) : option state :=
  e <- theElement_ s; e <- elements e;
  let n := unknowns e in
  let assign k := fun h : kind -> list bool => at_kind h k (repeat false n) in
  Some (zero_results
    (State (theElement_ s) (Some p) (quadratureRule_ s) (faceToElementMap_ s) (quadraturePointIndex_ s)
      false (doesMap s) (transform_ s) (values s)
      (assign Div (assign Curl (assign Deriv (assign VectorValue (assign Value (hasFunction s))))))
      (solution s) false (solutionDeriv s) false (pointPhysical s) false (jacobian s) false
      (transposeJacobian s) false (inverseTransposeJacobian s) false (jacobianDet s) false (jacobianAbsDet s) false
      (resultMatrix s) (hasElementMatrix s) (resultVector s) (hasElementVector s))).

(** PhysicalElement_Impl.h:656-707 setElement.  The vectors of values are resized and keep
    what fits; the entries of a new vector are [vzero]. *)
Definition resize_values (e : element) (l : list (list V)) : list (list V) :=
  map (fun rn => vresize (fst rn) (snd rn) vzero) (combine (vresize l (unknowns e) []) (nb (edata e))).
Definition setElement (a : nat) (s : state) : option state :=
  e <- elements a;
  let n := unknowns e in
  let size := total (edata e) in
  let assign k := fun h : kind -> list bool => at_kind h k (repeat false n) in
  let resize k := fun v : kind -> list (list V) => at_kind v k (resize_values e (v k)) in
  Some (zero_results
    (State (Some a) (pointReference_ s) (quadratureRule_ s) (faceToElementMap_ s) (quadraturePointIndex_ s)
      (hasQuadratureRule s) (doesMap s) (transform_ s)
      (resize Div (resize Curl (resize Deriv (resize VectorValue (resize Value (values s))))))
      (assign Div (assign Curl (assign Deriv (assign VectorValue (assign Value (hasFunction s))))))
      (solution s) false (solutionDeriv s) false (pointPhysical s) false (jacobian s) false
      (transposeJacobian s) false (inverseTransposeJacobian s) false (jacobianDet s) false (jacobianAbsDet s) false
      (mresize zero (resultMatrix s) size size) (hasElementMatrix s)
      (vresize (resultVector s) size zero) (hasElementVector s))).

(** PhysicalElement_Impl.h:709-745 setTransformation *)
Definition setTransformation (t : transformation) (u : nat) (s : state) : option state :=
  let assign k := fun h : kind -> list bool => at_kind h k (repeat false (length (h k))) in
  l <- (if length (transform_ s) <=? u
        then match theElement_ s with
             | Some _ => None
             | None => write (vresize (transform_ s) (S u) None) u (Some t)
             end
        else write (transform_ s) u (Some t));
  Some (zero_results
    (State (theElement_ s) (pointReference_ s) (quadratureRule_ s) (faceToElementMap_ s) (quadraturePointIndex_ s)
      (hasQuadratureRule s) (doesMap s) l (values s)
      (assign Div (assign Curl (assign Deriv (assign VectorValue (assign Value (hasFunction s))))))
      (solution s) false (solutionDeriv s) false (pointPhysical s) (hasPointPhysical s) (jacobian s) (hasJacobian s)
      (transposeJacobian s) (hasTransposeJacobian s) (inverseTransposeJacobian s) (hasInverseTransposeJacobian s)
      (jacobianDet s) (hasJacobianDet s) (jacobianAbsDet s) (hasJacobianAbsDet s)
      (resultMatrix s) (hasElementMatrix s) (resultVector s) (hasElementVector s))).

Definition with_rule (s : state) (q : option Q) (m : option M) (i : nat) (has does : bool) : state :=
  State (theElement_ s) (pointReference_ s) q m i has does (transform_ s) (values s) (hasFunction s)
    (solution s) (hasSolution s) (solutionDeriv s) (hasSolutionDeriv s) (pointPhysical s) (hasPointPhysical s)
    (jacobian s) (hasJacobian s) (transposeJacobian s) (hasTransposeJacobian s)
    (inverseTransposeJacobian s) (hasInverseTransposeJacobian s)
    (jacobianDet s) (hasJacobianDet s) (jacobianAbsDet s) (hasJacobianAbsDet s)
    (resultMatrix s) (hasElementMatrix s) (resultVector s) (hasElementVector s).

(** PhysicalElement_Impl.h:767-781 setQuadraturePointIndex *)
Definition setQuadraturePointIndex (i : nat) (s : state) : option state :=
  if hasQuadratureRule s then
    let s := with_rule s (quadratureRule_ s) (faceToElementMap_ s) i (hasQuadratureRule s) (doesMap s) in
    q <- quadratureRule_ s;
    p <- getPoint q i;
    s <- (if doesMap s then m <- faceToElementMap_ s; setPointReference (mapPoint m p) s
          else setPointReference p s);
    Some (with_rule s (quadratureRule_ s) (faceToElementMap_ s) (quadraturePointIndex_ s) true (doesMap s))
  else None.
(** PhysicalElement_Impl.h:747-754 setQuadratureRule *)
Definition setQuadratureRule (q : Q) (s : state) : option state :=
  setQuadraturePointIndex 0 (with_rule s (Some q) (faceToElementMap_ s) (quadraturePointIndex_ s) true false).
(** PhysicalElement_Impl.h:756-765 setQuadratureRule with a map *)
Definition setFaceQuadratureRule (q : Q) (m : M) (s : state) : option state :=
  setQuadraturePointIndex 0 (with_rule s (Some q) (Some m) (quadraturePointIndex_ s) true true).
End Getters.

(** PhysicalElement_Impl.h:43-56 the constructor; [h1] is the H1ConformingTransformation *)
Definition newPhysicalElement (h1 : transformation) : state :=
  State None None None None 0 false false [Some h1] (fun _ => []) (fun _ => []) [] false [] false None false None false
    None false None false None false None false (Mat 0 0 []) false [] false.

(** the calls *)
Inductive setter :=
| SetPointReference (p : P) | SetElement (a : nat) | SetTransformation (t : transformation) (u : nat)
| SetQuadratureRule (q : Q) | SetFaceQuadratureRule (q : Q) (m : M) | SetQuadraturePointIndex (i : nat).
Inductive getter :=
| BasisFunction (k : kind) (i : nat) | BasisFunctionOf (k : kind) (i u : nat)
| GetSolution | GetSolutionDeriv | GetPointReference | GetPointPhysical
| GetJacobian | GetTransposeJacobian | GetInverseTransposeJacobian | GetJacobianDet | GetJacobianAbsDet
| GetResultMatrix | GetResultVector.
Inductive answer :=
| AValue (v : V) | ASolution (l : list V) | APoint (p : P) | APhysical (x : X) | AJacobian (j : J) | ADet (d : D)
| AMatrix (m : matrix A) | AVector (v : list A).

Definition set (elements : memory) (o : setter) (s : state) : option state :=
  match o with
  | SetPointReference p => setPointReference elements p s
  | SetElement a => setElement elements a s
  | SetTransformation t u => setTransformation t u s
  | SetQuadratureRule q => setQuadratureRule elements q s
  | SetFaceQuadratureRule q m => setFaceQuadratureRule elements q m s
  | SetQuadraturePointIndex i => setQuadraturePointIndex elements i s
  end.
Definition answered {Y} (f : Y -> answer) (o : option (state * Y)) : option (state * answer) :=
  option_map (fun q => (fst q, f (snd q))) o.
Definition get (elements : memory) (g : getter) (s : state) : option (state * answer) :=
  match g with
  | BasisFunction k i => answered AValue (basisFunction elements k i s)
  | BasisFunctionOf k i u => answered AValue (basisFunctionOf elements k i u s)
  | GetSolution => answered ASolution (getSolution elements s)
  | GetSolutionDeriv => answered ASolution (getSolutionDeriv elements s)
  | GetPointReference => answered APoint (option_map (pair s) (getPointReference s))
  | GetPointPhysical => answered APhysical (getPointPhysical elements s)
  | GetJacobian => answered AJacobian (getJacobian elements s)
  | GetTransposeJacobian => answered AJacobian (getTransposeJacobian elements s)
  | GetInverseTransposeJacobian => answered AJacobian (getInverseTransposeJacobian elements s)
  | GetJacobianDet => answered ADet (getJacobianDet elements s)
  | GetJacobianAbsDet => answered ADet (getJacobianAbsDet elements s)
  | GetResultMatrix => answered AMatrix (getResultMatrix elements s)
  | GetResultVector => answered AVector (getResultVector elements s)
  end.

(** everything that can happen to a physical element: calls, the caller writing in the
    matrix or vector it was given, and changes of the elements of the mesh *)
Inductive event :=
| Set_ (o : setter) | Get_ (g : getter) | FillMatrix (m : matrix A) | FillVector (v : list A)
| Change (a : nat) (e : option element).
Definition change (m : memory) (a : nat) (e : option element) : memory := fun b => if b =? a then e else m b.

Definition step (o : event) (w : memory * state) : option (memory * state) :=
  match o with
  | Set_ o => s <- set (fst w) o (snd w); Some (fst w, s)
  | Get_ g => q <- get (fst w) g (snd w); Some (fst w, fst q)
  | FillMatrix m => s <- fillMatrix m (snd w); Some (fst w, s)
  | FillVector v => s <- fillVector v (snd w); Some (fst w, s)
  | Change a e => Some (change (fst w) a e, snd w)
  end.
Fixpoint run (l : list event) (w : memory * state) : option (memory * state) :=
  match l with [] => Some w | o :: l => w <- step o w; run l w end.
End PhysicalElement.
