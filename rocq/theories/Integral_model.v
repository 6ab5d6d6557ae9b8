(** Model of kernel/Integration/ElementIntegral{.h,_Impl.h} and FaceIntegral{.h,_Impl.h}: quadrature over an element or a
    face, with the physical elements and faces of PhysicalElement_model and PhysicalFace_model.

    The numbers [N] are double, [Y] is the type that the integrand returns.  An integrand is a program that asks the physical
    element or face for anything it wants, in an order that may depend on the answers, writes in the result matrix or vector
    it was given, and returns a value or fails.  It does not call the functions that change the settings. *)
From Coq Require Import List Arith Bool.
From Verif Require Import Loop_model Matrix_model ElementData_model PhysicalElement_model PhysicalFace_model.
Import ListNotations.

Inductive program {G R Y : Type} := Return (y : Y) | Fail | Ask (g : G) (k : R -> program).
Arguments program : clear implicits.
Fixpoint execute {G R Y S} (respond : G -> S -> option (S * R)) (p : program G R Y) (s : S) : option (S * Y) :=
  match p with
  | Return y => Some (s, y)
  | Fail => None
  | Ask g k => r <- respond g s; execute respond (k (snd r)) (fst r)
  end.

Section Integrals.
Context {A V P X J D Q M N Y : Type}.
Variable zero : A.
Variable mul : A -> A -> A.
Variable vzero : V.
Variable vadd : V -> V -> V.
Variable vscale : A -> V -> V.
Variable transposed inverse : J -> J.
Variable determinant : J -> D.
Variable absolute : D -> D.
Variable getPoint : Q -> nat -> option P.
Variable mapPoint : M -> P -> P.
Variable l2Norm : V -> V.
Variable divide : V -> V -> V.
Variable negate : V -> V.
Variable product : normalKind -> V -> V -> V.
Variable getNumberOfPoints : Q -> nat.         (* GaussQuadratureRule::getNumberOfPoints *)
Variable weight : Q -> nat -> option N.        (* GaussQuadratureRule::weight *)
Variable one : N.
Variable times : N -> N -> N.
Variable ofDet : D -> N.                       (* a determinant is a number *)
Variable ofValue : V -> N.                     (* the relative surface area is a number *)
Variable scaleBy : N -> Y -> Y.                (* result *= a *)
Variable axpy : N -> Y -> Y -> option Y.       (* LinearAlgebra::axpy(a, x, y); None when the sizes differ *)
Notation memory := (@memory A V P X J Q M).
Notation estate := (@PhysicalElement_model.state A V P X J D Q M).
Notation fstate := (@fstate A V P X J D Q M).
Notation face := (@face V P J M).
Notation event := (@event A V P X J D Q M).
Notation answer := (@answer A V P X J D).

(** ElementIntegral_Impl.h:133-149, 198-206 and FaceIntegral_Impl.h:103-121, 172-192: the loop over the points.  The factor of
    a point is the weight, times the scale factor.  In integratePair the result is a pair and the scale factor is asked twice. *)
Definition quadratureLoop {S} (numberOfPoints : nat) (goto : nat -> S -> option S) (integrand : S -> option (S * Y))
  (factor : nat -> S -> option (S * N)) (s : S) : option (S * Y) :=
  r <- integrand s;
  a <- factor 0 (fst r);
  for_from 1 (numberOfPoints - 1) (fun i q =>
    s <- goto i (fst q);
    r <- integrand s;
    a <- factor i (fst r);
    result <- axpy (snd a) (snd r) (snd q);
    Some (fst a, result)) (fst a, scaleBy (snd a) (snd r)).

Section Element.
Variable elements : memory.
Variable elementRule : nat -> option Q.        (* Element::getGaussQuadratureRule *)
Variable fits : Q -> nat -> bool.              (* the rule is for the reference geometry of the element *)

(** what the integrand can do with the physical element *)
Definition respond (o : event) (s : estate) : option (estate * option answer) :=
  match o with
  | Get_ g => q <- get vzero vadd vscale transposed inverse determinant absolute elements g s; Some (fst q, Some (snd q))
  | FillMatrix m => s <- fillMatrix m s; Some (s, None)
  | FillVector v => s <- fillVector v s; Some (s, None)
  | _ => None
  end.
Notation integrand := (program event (option answer) Y).

(** ElementIntegral.h:121-127 getScaleFactor, with the weight *)
Definition scaleFactor (scaling : bool) (q : Q) (i : nat) (s : estate) : option (estate * N) :=
  w <- weight q i;
  if scaling then d <- getJacobianAbsDet determinant absolute elements s; Some (fst d, times w (ofDet (snd d)))
  else Some (s, times w one).
(** ElementIntegral_Impl.h:95-150 integrate; [scaling] is jacobianScaling_ *)
Definition integrate (scaling : bool) (a : nat) (f : integrand) (rule : option Q) (s : estate) : option (estate * Y) :=
  s <- setElement zero mul vzero elements a s;
  q <- (match rule with Some q => Some q | None => elementRule a end);
  if (fits q a && (0 <? getNumberOfPoints q))%bool then
    s <- setQuadratureRule zero mul getPoint mapPoint elements q s;
    quadratureLoop (getNumberOfPoints q) (setQuadraturePointIndex zero mul getPoint mapPoint elements) (execute respond f) (scaleFactor scaling q) s
  else None.
(** ElementIntegral_Impl.h:187-207 referenceElementIntegral, on the element that was set before *)
Definition referenceElementIntegral (q : Q) (f : integrand) (s : estate) : option (estate * Y) :=
  s <- setQuadratureRule zero mul getPoint mapPoint elements q s;
  quadratureLoop (getNumberOfPoints q) (setQuadraturePointIndex zero mul getPoint mapPoint elements) (execute respond f)
    (fun i s => w <- weight q i; Some (s, w)) s.
End Element.

(** everything that can happen to an ElementIntegral: integrals, also of the base class ElementIntegrandBase
    (ElementIntegral_Impl.h:68-82), calls of setTransformation (215-219) and calls on getPhysicalElement() (227-230), while
    the elements of the mesh may change in between *)
Inductive operation :=
| Other (o : event)
| Integrate (scaling : bool) (a : nat) (f : program event (option answer) Y) (rule : option Q)
| ReferenceIntegral (q : Q) (f : program event (option answer) Y).
Definition operate elementRule fits (o : operation) (w : memory * estate) : option (memory * estate) :=
  match o with
  | Other o => step zero mul vzero vadd vscale transposed inverse determinant absolute getPoint mapPoint o w
  | Integrate scaling a f rule => r <- integrate (fst w) elementRule fits scaling a f rule (snd w); Some (fst w, fst r)
  | ReferenceIntegral q f => r <- referenceElementIntegral (fst w) q f (snd w); Some (fst w, fst r)
  end.
Fixpoint operateAll elementRule fits (l : list operation) (w : memory * estate) : option (memory * estate) :=
  match l with [] => Some w | o :: l => w <- operate elementRule fits o w; operateAll elementRule fits l w end.

Section Face.
Variable elements : memory.
Variable faceRule : face -> option Q.          (* Face::getGaussQuadratureRule *)
Variable faceFits : Q -> face -> bool.         (* the rule is for the reference geometry of the face *)
Notation fintegrand := (program (@fgetter) (@fanswer V P X) Y).

(** FaceIntegral.h:128-130 the data members *)
Record faceIntegral := FaceIntegral { internalFace_ : fstate; boundaryFace_ : fstate }.
(** FaceIntegral_Impl.h:252-254 *)
Definition newFaceIntegral (h1 : @transformation V J D) : faceIntegral := FaceIntegral (newPhysicalFace h1 true) (newPhysicalFace h1 false).
(** FaceIntegral.h:120-126 getScaleFactor, with the weight *)
Definition faceScaleFactor (scaling : bool) (q : Q) (i : nat) (s : fstate) : option (fstate * N) :=
  w <- weight q i;
  if scaling then d <- getRelativeSurfaceArea l2Norm s; Some (fst d, times w (ofValue (snd d)))
  else Some (s, times w one).
(** FaceIntegral_Impl.h:68-122 integrate and 128-193 integratePair *)
Definition integrateFace (scaling : bool) (f : face) (p : fintegrand) (rule : option Q) (t : faceIntegral) : option (faceIntegral * Y) :=
  s <- setFace zero mul vzero mapPoint elements f (if isInternal f then internalFace_ t else boundaryFace_ t);
  q <- (match rule with Some q => Some q | None => faceRule f end);
  if faceFits q f then
    s <- fsetQuadratureRule zero mul getPoint mapPoint elements q s;
    r <- quadratureLoop (getNumberOfPoints q) (fsetQuadraturePointIndex zero mul getPoint mapPoint elements)
           (execute (fget vzero vadd vscale transposed determinant l2Norm divide negate product elements) p) (faceScaleFactor scaling q) s;
    Some (if isInternal f then FaceIntegral (fst r) (boundaryFace_ t) else FaceIntegral (internalFace_ t) (fst r), snd r)
  else None.
(** FaceIntegral_Impl.h:260-266 setTransformation *)
Definition setFaceTransformation (t : @transformation V J D) (u : nat) (i : faceIntegral) : option faceIntegral :=
  a <- setTransform zero mul t u (internalFace_ i); b <- setTransform zero mul t u (boundaryFace_ i); Some (FaceIntegral a b).

(** everything that can happen to a FaceIntegral *)
Inductive faceOperation := SetFaceTransformation (t : @transformation V J D) (u : nat) | IntegrateFace (scaling : bool) (f : face) (p : fintegrand) (rule : option Q).
Definition operateFace (o : faceOperation) (t : faceIntegral) : option faceIntegral :=
  match o with
  | SetFaceTransformation h u => setFaceTransformation h u t
  | IntegrateFace scaling f p rule => r <- integrateFace scaling f p rule t; Some (fst r)
  end.
Fixpoint operateFaces (l : list faceOperation) (t : faceIntegral) : option faceIntegral :=
  match l with [] => Some t | o :: l => t <- operateFace o t; operateFaces l t end.
End Face.
End Integrals.
