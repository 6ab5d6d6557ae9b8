(** Model of the limiters of the shallow granular flow application: applications/SavageHutter/HelperFunctions.{h,cpp},
    HeightLimiters, SlopeLimiters and the loop over the elements in SavageHutterBase_Impl.h, in one dimension.

    doubles are real numbers.  An element is a line with its basis functions, quadrature rule (weights and points),
    the coordinates of its nodes and, for each unknown, the coefficients of the solution in the time integration vector
    0 (the single vector indexed by convertToSingleIndex is modelled in LocalIndexing).  The callers pass this same
    vector to the limiters (SavageHutterBase_Impl.h:202-205), so reads of element->getSolution(0, p) and of the passed
    coefficients agree.  [None]: an assertion fails, a subscript is out of range or a coefficient becomes NaN. *)
From Coq Require Import List Arith Bool Reals.
Import ListNotations.
Local Open Scope R_scope.

Definition bind {A B} (o : option A) (f : A -> option B) : option B := match o with Some a => f a | None => None end.
Notation "x <- e ; k" := (bind e (fun x => k)) (at level 61, e at next level, right associativity).

Definition ltb (x y : R) : bool := if Rlt_dec x y then true else false.
Definition eqb (x y : R) : bool := if Req_EM_T x y then true else false.

Record element := Element {
  getID : nat;
  basisFunctions : list (R -> R);
  quadratureRule : list (R * R);
  node0 : R;
  node1 : R;
  coefficients : list (list R)
}.

Definition rsum (l : list R) : R := fold_right Rplus 0 l.

(** one unknown in a point: Element::getSolution, HelperFunctions.h:57-92 *)
Fixpoint expand (bs : list (R -> R)) (cs : list R) (x : R) : R :=
  match bs, cs with
  | b :: bs', c :: cs' => b x * c + expand bs' cs' x
  | _, _ => 0
  end.
Definition getSolution (e : element) (var : nat) (x : R) : option R :=
  cs <- nth_error (coefficients e) var;
  Some (expand (basisFunctions e) cs x).

(** the Jacobian of the linear mapping of the reference line [-1, 1] onto the element
    (MappingToPhysHypercubeLinear_Impl.h; calcJacobian(pRefL).determinant()) *)
Definition jacobian (e : element) : R := (node1 e - node0 e) / 2.

(** ElementIntegral_Impl.h:97-160 with the Gauss rule of the element *)
Definition integrate (e : element) (f : R -> R) : R :=
  rsum (map (fun q => f (snd q) * (fst q * Rabs (jacobian e))) (quadratureRule e)).

(** HelperFunctions.h:94-130 for DIM = 1; the assertion is about the first unknown *)
Definition averageOf (e : element) (cs : list R) : R :=
  integrate e (expand (basisFunctions e) cs) / Rabs (node1 e - node0 e).
Definition computeAverageOfSolution (e : element) : option (list R) :=
  let average := map (averageOf e) (coefficients e) in
  height <- nth_error average 0;
  if ltb (- / 10 ^ 16) height then Some average else None.

(** HelperFunctions.h:132-162. [solve A b] is the vector that MiddleSizeMatrix::solve (LAPACK dgesv) leaves in b. *)
Definition solver := list (list R) -> list R -> list R.
Definition massMatrix (e : element) : list (list R) :=
  map (fun bi => map (fun bj => integrate e (fun x => bj x * bi x)) (basisFunctions e)) (basisFunctions e).
Definition projectOnBasisFuns (solve : solver) (e : element) (f : R -> R) : list R :=
  solve (massMatrix e) (map (fun bi => integrate e (fun x => f x * bi x)) (basisFunctions e)).

(** setTimeIntegrationSubvector; the loops that store the new coefficients *)
Fixpoint replace {A} (l : list A) (i : nat) (a : A) : option (list A) :=
  match l, i with
  | [], _ => None
  | _ :: l', O => Some (a :: l')
  | x :: l', S i' => l'' <- replace l' i' a; Some (x :: l'')
  end.
Definition setCoefficients (e : element) (var : nat) (cs : list R) : option element :=
  l <- replace (coefficients e) var cs;
  Some (Element (getID e) (basisFunctions e) (quadratureRule e) (node0 e) (node1 e) l).

(** the nodes of the reference line and the quadrature points *)
Definition pRefL : R := -1.
Definition pRefR : R := 1.
Definition checkedPoints (e : element) : list R := [pRefL; pRefR] ++ map snd (quadratureRule e).

(** PositiveLayerLimiter_Impl.h:108-132, SqueezeLimiterWithLayer_Impl.h:114-139,
    AverageValuesNonNegativeLimiter_Impl.h:95-121, SavageHutterBase_Impl.h:221-244 *)
Definition getMinimumHeight (e : element) : option R :=
  cs <- nth_error (coefficients e) 0;
  let h := expand (basisFunctions e) cs in
  Some (fold_left (fun minimum x => Rmin minimum (h x)) (pRefR :: map snd (quadratureRule e)) (h pRefL)).

(** a height limiter and a slope limiter; the height limiters need no other elements *)
Definition height_limiter := element -> option element.

(** PositiveLayerLimiter_Impl.h:45-106 *)
Definition PositiveLayerLimiter (solve : solver) (minH : R) : height_limiter := fun e =>
  minimum <- getMinimumHeight e;
  if negb (ltb minimum minH) then Some e
  else
    averages <- computeAverageOfSolution e;
    averageHeight <- nth_error averages 0;
    averageDischarge <- nth_error averages 1;
    if ltb averageHeight minH then
      e1 <- setCoefficients e 0 (projectOnBasisFuns solve e (fun _ => averageHeight));
      setCoefficients e1 1 (projectOnBasisFuns solve e (fun _ => 0))
    else
      solutionLeft <- getSolution e 0 pRefL;
      solutionRight <- getSolution e 0 pRefR;
      let slopeDischarge := averageDischarge in
      let slopeHeight := Rmin ((solutionLeft + solutionRight - 2 * minH) / 2) (averageHeight - minH) in
      let (slopeHeight, slopeDischarge) :=
        if ltb solutionRight solutionLeft then (slopeHeight * -1, slopeDischarge * -1) else (slopeHeight, slopeDischarge) in
      e1 <- setCoefficients e 0 (projectOnBasisFuns solve e (fun x => averageHeight + slopeHeight * x));
      setCoefficients e1 1 (projectOnBasisFuns solve e (fun x => averageDischarge + slopeDischarge * x)).

(** SqueezeLimiterWithLayer_Impl.h:141-171 *)
Definition getMinimumHeightPoint (e : element) : option R :=
  solutionLeft <- getSolution e 0 pRefL;
  solutionRight <- getSolution e 1 pRefL;
  cs <- nth_error (coefficients e) 0;
  let start := if ltb solutionRight solutionLeft then (solutionRight, pRefR) else (solutionLeft, pRefL) in
  Some (snd (fold_left (fun s x => let h := expand (basisFunctions e) cs x in if ltb h (fst s) then (h, x) else s)
    (map snd (quadratureRule e)) start)).

(** std::min(1., a / b), SqueezeLimiterWithLayer_Impl.h:77-79: for b = 0 the quotient is infinite or NaN;
    std::min(1., NaN) is 1. [None]: minus infinity, which makes the coefficients NaN *)
Definition minOneQuotient (a b : R) : option R :=
  if eqb b 0 then (if ltb a 0 then None else Some 1) else Some (Rmin 1 (a / b)).

(** SqueezeLimiterWithLayer_Impl.h:43-112; averageHeight - minimumHeight is positive where it divides *)
Definition SqueezeLimiterWithLayer (solve : solver) (minH : R) : height_limiter := fun e =>
  minimumHeight <- getMinimumHeight e;
  if negb (ltb minimumHeight minH) then Some e
  else
    averages <- computeAverageOfSolution e;
    averageHeight <- nth_error averages 0;
    averageDischarge <- nth_error averages 1;
    if ltb averageHeight minH then
      e1 <- setCoefficients e 0 (projectOnBasisFuns solve e (fun _ => averageHeight));
      setCoefficients e1 1 (projectOnBasisFuns solve e (fun _ => 0))
    else
      let squeezeFactorH := (averageHeight - minH) / (averageHeight - minimumHeight) in
      pRef <- getMinimumHeightPoint e;
      discharge <- getSolution e 1 pRef;
      squeezeFactorHu <- minOneQuotient averageDischarge (averageDischarge - discharge);
      hs <- nth_error (coefficients e) 0;
      us <- nth_error (coefficients e) 1;
      let height := expand (basisFunctions e) hs in
      let discharge := expand (basisFunctions e) us in
      e1 <- setCoefficients e 0 (projectOnBasisFuns solve e (fun x => averageHeight + squeezeFactorH * (height x - averageHeight)));
      setCoefficients e1 1 (projectOnBasisFuns solve e (fun x => averageDischarge + squeezeFactorHu * (discharge x - averageDischarge))).

(** AverageValuesNonNegativeLimiter_Impl.h:45-93 for DIM = 1 *)
Definition AverageValuesNonNegativeLimiter (solve : solver) (minH : R) : height_limiter := fun e =>
  minimumHeight <- getMinimumHeight e;
  if negb (ltb minimumHeight minH) then Some e
  else
    averages <- computeAverageOfSolution e;
    averageHeight <- nth_error averages 0;
    averageDischarge <- nth_error averages 1;
    e1 <- setCoefficients e 0 (projectOnBasisFuns solve e (fun _ => averageHeight));
    setCoefficients e1 1 (projectOnBasisFuns solve e (fun _ => averageDischarge)).

(** BidispersedLimiter1D.cpp:110-135 *)
Definition smallHeightDoesNotFitBetweenHeightAndZero (minH : R) (e : element) : option bool :=
  hs <- nth_error (coefficients e) 0;
  ss <- nth_error (coefficients e) 2;
  let height := expand (basisFunctions e) hs in
  let small := expand (basisFunctions e) ss in
  Some (existsb (fun x => ltb (height x + minH) (small x) || ltb (small x) (- minH)) (checkedPoints e)).

(** BidispersedLimiter1D.cpp:45-108, 137-145: the height and discharge are limited first; squeezeSmallHeight does not use its
    squeeze factor *)
Definition BidispersedLimiter (solve : solver) (minH : R) : height_limiter := fun e =>
  e1 <- PositiveLayerLimiter solve minH e;
  averages <- computeAverageOfSolution e1;
  averageHeight <- nth_error averages 0;
  averageSmall <- nth_error averages 2;
  if ltb (averageHeight + minH) averageSmall then
    hs <- nth_error (coefficients e1) 0; setCoefficients e1 2 hs
  else if ltb averageSmall (- minH) then
    setCoefficients e1 2 (map (fun _ => 0) (basisFunctions e1))
  else
    misfit <- smallHeightDoesNotFitBetweenHeightAndZero minH e1;
    if misfit then setCoefficients e1 2 (projectOnBasisFuns solve e1 (fun _ => averageSmall)) else Some e1.

(** EmptyHeightLimiter.h *)
Definition EmptyHeightLimiter : height_limiter := fun e => Some e.

(** HelperFunctions.cpp:44-47 *)
Definition sign (x : R) : Z := if ltb (Rabs x) (/ 10 ^ 16) then 0%Z else if ltb x 0 then (-1)%Z else 1%Z.

(** a / b < 1 in IEEE arithmetic: for b = 0 the quotient is infinite, with the sign of a, or NaN *)
Definition quotientBelowOne (a b : R) : bool := if eqb b 0 then ltb a 0 else ltb (a / b) 1.

(** TvbLimiter1D.cpp:116-129; TvbLimiterWithDetector1D.cpp:164-178 has M = 10 *)
Definition hasSmallSlope (M : R) (e : element) (var : nat) : option bool :=
  uPlus <- getSolution e var pRefR;
  uMinus <- getSolution e var pRefL;
  Some (ltb (Rabs (uPlus - uMinus)) (M * (2 * jacobian e) * (2 * jacobian e))).

(** the values that TvbLimiter1D.cpp:92-111 gives to the first two coefficients *)
Definition minmod (uElemL u0 uElemR : R) : R * R :=
  if negb (Z.eqb (sign (uElemR - u0)) (sign (u0 - uElemL))) then (u0, u0)
  else if quotientBelowOne (u0 - uElemL) (uElemR - u0) then (/ 2 * u0 + / 2 * uElemL, 3 / 2 * u0 - / 2 * uElemL)
  else (3 / 2 * u0 - / 2 * uElemR, / 2 * u0 + / 2 * uElemR).

(** TvbLimiter1D.cpp:60-114. The mesh is the list of elements; the neighbours of element [i] across its faces 0 and 1
    are the elements before and after it (the assertion on the identifiers demands this), the first and the last
    element have a boundary face. [n] coefficients of which the others are zero. *)
Definition newCoeffs (n : nat) (l r : R) : option (list R) :=
  match n with S (S k) => Some (l :: r :: map (fun _ => 0) (seq 0 k)) | _ => None end.
Definition limitWithMinMod (mesh : list element) (i var : nat) : option (list element) :=
  if Nat.eqb i 0 || Nat.leb (length mesh) (i + 1) then Some mesh
  else
    e <- nth_error mesh i;
    elemL <- nth_error mesh (i - 1);
    elemR <- nth_error mesh (i + 1);
    if negb (Nat.eqb (getID elemR) (getID e + 1) && Nat.eqb (getID e) (getID elemL + 1)) then None
    else
      a0 <- computeAverageOfSolution e; u0 <- nth_error a0 var;
      aR <- computeAverageOfSolution elemR; uElemR <- nth_error aR var;
      aL <- computeAverageOfSolution elemL; uElemL <- nth_error aL var;
      let (l, r) := minmod uElemL u0 uElemR in
      cs <- newCoeffs (length (basisFunctions e)) l r;
      e' <- setCoefficients e var cs;
      replace mesh i e'.

Definition slope_limiter := list element -> nat -> option (list element).
Definition for_each {A B} (l : list A) (f : B -> A -> option B) (b : B) : option B :=
  fold_left (fun b a => match b with Some b => f b a | None => None end) l (Some b).

(** TvbLimiter1D.cpp:47-53 *)
Definition TvbLimiter1D (numberOfVariables : nat) : slope_limiter := fun mesh i =>
  for_each (seq 0 numberOfVariables) (fun mesh var =>
    e <- nth_error mesh i;
    small <- hasSmallSlope 1 e var;
    if small then Some mesh else limitWithMinMod mesh i var) mesh.

(** TvbLimiterWithDetector1D.cpp:180-257: the branch that would compute a slope is disabled by [false &&], the slope is
    0; [detect] is the result of detectDiscontinuity (lines 56-152), about which nothing is assumed. The assertions of
    debug builds on the reference nodes and on the order of the neighbours are not modelled. *)
Definition replaceByAverage (solve : solver) (mesh : list element) (i var : nat) : option (list element) :=
  if Nat.eqb i 0 || Nat.leb (length mesh) (i + 1) then Some mesh
  else
    e <- nth_error mesh i;
    elemL <- nth_error mesh (i - 1);
    elemR <- nth_error mesh (i + 1);
    uPlus <- getSolution e var pRefR;
    uMinus <- getSolution e var pRefL;
    a0 <- computeAverageOfSolution e; u0 <- nth_error a0 var;
    aR <- computeAverageOfSolution elemR;
    aL <- computeAverageOfSolution elemL;
    let slope := 0 in
    if ltb (/ 10 ^ 16) (Rabs (Rabs slope - Rabs (uPlus - uMinus))) then
      e' <- setCoefficients e var (projectOnBasisFuns solve e (fun x => u0 + slope * x));
      replace mesh i e'
    else Some mesh.
(** TvbLimiterWithDetector1D.cpp:45-51 *)
Definition TvbLimiterWithDetector1D (solve : solver) (numberOfVariables : nat) (detect : list element -> nat -> nat -> bool) : slope_limiter :=
  fun mesh i =>
  for_each (seq 0 numberOfVariables) (fun mesh var =>
    e <- nth_error mesh i;
    small <- hasSmallSlope 10 e var;
    if detect mesh i var && negb small then replaceByAverage solve mesh i var else Some mesh) mesh.

(** EmptySlopeLimiter.h *)
Definition EmptySlopeLimiter : slope_limiter := fun mesh _ => Some mesh.

(** SavageHutterBase_Impl.h:191-215 without the synchronisation of the shadow elements (see Sync) *)
Definition limitElement (dryLimit : R) (heightLimiter : height_limiter) (slopeLimiter : slope_limiter)
    (mesh : list element) (i : nat) : option (list element) :=
  e <- nth_error mesh i;
  minimum <- getMinimumHeight e;
  if ltb minimum dryLimit then e' <- heightLimiter e; replace mesh i e'
  else if Nat.ltb 1 (length (basisFunctions e)) then slopeLimiter mesh i
  else Some mesh.
Definition limitSolutionOuterLoop (dryLimit : R) (heightLimiter : height_limiter) (slopeLimiter : slope_limiter)
    (mesh : list element) : option (list element) :=
  for_each (seq 0 (length mesh)) (limitElement dryLimit heightLimiter slopeLimiter) mesh.
