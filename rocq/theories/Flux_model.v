(** Model of the numerical fluxes of the applications: the Roe flux of applications/Euler/Euler_Impl.h and of
    applications/NavierStokes/CompressibleNavierStokes/Inviscid.cpp, the fluxes of applications/SavageHutter, and the
    integrands on faces and elements that use them.

    doubles are real numbers; MiddleSizeVector and SmallVector are lists.  [None]: an assertion fails, a subscript is
    out of range, vectors of different sizes are added, a divisor is zero or a square root has a negative argument
    (in C++ the last two give an infinity or NaN). *)
From Coq Require Import List Arith Reals.
From Verif Require Import Loop_model.
Import ListNotations.
Local Open Scope R_scope.

Definition bind {A B} (o : option A) (f : A -> option B) : option B := match o with Some a => f a | None => None end.
Notation "x <- e ; k" := (bind e (fun x => k)) (at level 61, e at next level, right associativity).

Definition div (x y : R) : option R := if Req_EM_T y 0 then None else Some (x / y).
Definition root (x : R) : option R := if Rlt_dec x 0 then None else Some (sqrt x).

(** operator() and operator[]: MiddleSizeVector.h, SmallVector.h *)
Definition get (v : list R) (i : nat) : option R := nth_error v i.
(** MiddleSizeVector.cpp:96-120 *)
Definition plus (v w : list R) : option (list R) :=
  if length v =? length w
  then collect (length v) (fun i => x <- get v i; y <- get w i; Some (x + y)) else None.
Definition minus (v w : list R) : option (list R) :=
  if length v =? length w
  then collect (length v) (fun i => x <- get v i; y <- get w i; Some (x - y)) else None.
(** MiddleSizeVector.cpp:122-127, 219-226 *)
Definition scale (s : R) (v : list R) : list R := map (fun x => x * s) v.
Definition negate (v : list R) : list R := scale (-1) v.
(** MiddleSizeVector.cpp:140-149 *)
Definition divide (v : list R) (s : R) : option (list R) :=
  collect (length v) (fun i => x <- get v i; div x s).
(** [acc = init; for (i = 0; i < n; i++) acc += f(i);] *)
Definition accumulate (init : R) (n : nat) (f : nat -> option R) : option R :=
  for_loop n (fun i acc => x <- f i; Some (acc + x)) init.

(** Euler_Impl.h:369-500 after the normal has been normalised, and Inviscid.cpp:113-249, before the last statement:
    the text is the same.  A loop that computes several sums is written as one loop per sum. *)
Section Roe.
  Variable gamma : R.
  Variable DIM : nat.

  (** the entropy correction *)
  Definition epsilon : R := / 100.
  Definition entropyCorrection (lam : R) : option R :=
    if Rlt_dec lam epsilon then div (lam * lam + epsilon * epsilon) (2 * epsilon) else Some lam.

  Definition pressureOf (q : list R) (rhoInverse : R) : option R :=
    ruSquared <- accumulate 0 DIM (fun iD => m <- get q (iD + 1); Some (m * m));
    e <- get q (DIM + 1);
    Some ((gamma - 1) * (e - / 2 * ruSquared * rhoInverse)).

  Definition roeTwice (qL qR normal : list R) : option (list R) :=
    qDifference <- minus qR qL;
    rhoL <- get qL 0; rhoR <- get qR 0;
    zL <- root rhoL; zR <- root rhoR;
    tmp1 <- div 1 (rhoL + zL * zR);
    tmp2 <- div 1 (rhoR + zL * zR);
    rhoInverseLeft <- div 1 rhoL;
    rhoInverseRight <- div 1 rhoR;
    qAverage <- collect DIM (fun iD => l <- get qL (iD + 1); r <- get qR (iD + 1); Some (l * tmp1 + r * tmp2));
    pressureLeft <- pressureOf qL rhoInverseLeft;
    pressureRight <- pressureOf qR rhoInverseRight;
    eL <- get qL (DIM + 1); eR <- get qR (DIM + 1);
    let hAverage := (eL + pressureLeft) * tmp1 + (eR + pressureRight) * tmp2 in
    alphaSum <- accumulate 0 DIM (fun iD => u <- get qAverage iD; Some (u * u));
    unAvg <- accumulate 0 DIM (fun iD => u <- get qAverage iD; n <- get normal iD; Some (u * n));
    let alphaAvg := alphaSum * / 2 in
    let a2Avg := Rabs ((gamma - 1) * (hAverage - alphaAvg)) in
    aAvg <- root a2Avg;
    ovaAvg <- div 1 aAvg;
    ova2Avg <- div 1 a2Avg;
    lam1 <- entropyCorrection (Rabs (unAvg + aAvg));
    lam2 <- entropyCorrection (Rabs (unAvg - aAvg));
    lam3 <- entropyCorrection (Rabs unAvg);
    let abv1 := / 2 * (lam1 + lam2) in
    let abv2 := / 2 * (lam1 - lam2) in
    let abv3 := abv1 - lam3 in
    d0 <- get qDifference 0;
    abv4a <- accumulate (alphaAvg * d0) DIM
               (fun iD => u <- get qAverage iD; d <- get qDifference (iD + 1); Some (- u * d));
    abv5 <- accumulate (- unAvg * d0) DIM
               (fun iD => n <- get normal iD; d <- get qDifference (iD + 1); Some (n * d));
    dE <- get qDifference (DIM + 1);
    let abv4 := (abv4a + dE) * (gamma - 1) in
    let abv6 := abv3 * abv4 * ova2Avg + abv2 * abv5 * ovaAvg in
    let abv7 := abv2 * abv4 * ovaAvg + abv3 * abv5 in
    let pLR := pressureLeft + pressureRight in
    runL <- accumulate 0 DIM (fun iD => m <- get qL (iD + 1); n <- get normal iD; Some (m * n));
    runR <- accumulate 0 DIM (fun iD => m <- get qR (iD + 1); n <- get normal iD; Some (m * n));
    let unL := runL * rhoInverseLeft in
    let unR := runR * rhoInverseRight in
    let flux0 := runL + runR - (lam3 * d0 + abv6) in
    fluxM <- collect DIM (fun iD =>
      l <- get qL (iD + 1); r <- get qR (iD + 1); n <- get normal iD; d <- get qDifference (iD + 1);
      u <- get qAverage iD;
      Some (runL * l * rhoInverseLeft + runR * r * rhoInverseRight + pLR * n - (lam3 * d + u * abv6 + n * abv7)));
    let fluxE := unL * (eL + pressureLeft) + unR * (eR + pressureRight)
                 - (lam3 * dE + hAverage * abv6 + unAvg * abv7) in
    Some (flux0 :: fluxM ++ [fluxE]).

  (** Euler_Impl.h:360-501; SmallVector.h:393 [l2Norm]. The normal is a local variable of the callers, which do not
      use it after the call; that it is normalised in place is not modelled. *)
  Definition eulerFlux (qL qR normal : list R) : option (list R) :=
    square <- accumulate 0 DIM (fun iD => n <- get normal iD; Some (n * n));
    area <- root square;
    unit <- divide normal area;
    flux <- roeTwice qL qR unit;
    Some (scale area (scale (/ 2) flux)).

  (** Inviscid.cpp:113-252 *)
  Definition inviscidFlux (qL qR unitNormal : list R) : option (list R) :=
    flux <- roeTwice qL qR unitNormal;
    Some (scale (/ 2) flux).

  (** Inviscid.cpp:254-290 [FluxFunction]. The loops over the directions are written as one loop per component; the
      pressure is added to component iD + 1 in round iD. *)
  Definition fluxFunction (q : list R) (pressure : R) (normal : list R) : option (list R) :=
    rho <- get q 0;
    densityInverse <- div 1 rho;
    e <- get q (DIM + 1);
    mass <- accumulate 0 DIM (fun iD => m <- get q (iD + 1); n <- get normal iD; Some (m * n));
    momentum <- collect DIM (fun iD2 =>
      accumulate 0 DIM (fun iD =>
        m2 <- get q (iD2 + 1); m <- get q (iD + 1); n <- get normal iD;
        Some (m2 * m * densityInverse * n + (if iD2 =? iD then pressure * n else 0))));
    energy <- accumulate 0 DIM (fun iD =>
      m <- get q (iD + 1); n <- get normal iD; Some ((e + pressure) * m * densityInverse * n));
    Some (mass :: momentum ++ [energy]).

  (** Euler_Impl.h:536-541: the state behind a solid wall *)
  Definition wallState (q : list R) : option (list R) :=
    rho <- get q 0;
    m <- collect DIM (fun iD => x <- get q (iD + 1); Some (- x));
    e <- get q (DIM + 1);
    Some (rho :: m ++ [e]).
  (** Euler_Impl.h:536-551: the arguments of the flux are in this order *)
  Definition eulerWallFlux (q normal : list R) : option (list R) :=
    ghost <- wallState q;
    eulerFlux ghost q normal.
End Roe.

(** ElementData.h:209-224 for unknowns with the same number nB of basis functions *)
Definition singleIndex (nB iB iV : nat) : nat := (nB * iV + iB)%nat.

(** The solution at a point: Euler_Impl.h:521-532 and 600-620, HelperFunctions.h:57-72 *)
Definition reconstruct (nV : nat) (phi : list R) (coefficients : list R) : option (list R) :=
  let nB := length phi in
  collect nV (fun jV => accumulate 0 nB (fun jB =>
    p <- get phi jB; c <- get coefficients (singleIndex nB jB jV); Some (p * c))).

(** [integrand(convertToSingleIndex(iB, iV)) = factor * flux(iV) * phi(iB)] for every iB and iV: Euler_Impl.h:558-568 and
    641-650, SavageHutter2DBase.cpp:109-117, Inviscid.cpp:310-319; [factor * flux(iV) * phi(iB)] is there
    [-flux(iV) * phi(iB)] or [flux(iV) * phi(iB)]. The vector has one entry per unknown and basis function. *)
Definition testWith (nV : nat) (flux : list R) (factor : R) (phi : list R) : option (list R) :=
  let nB := length phi in
  for_loop nB (fun iB v =>
    for_loop nV (fun iV v =>
      f <- get flux iV; p <- get phi iB;
      write v (singleIndex nB iB iV) (factor * f * p)) v) (repeat 0 (nV * nB)).

Inductive side := LEFT | RIGHT.

(** Euler_Impl.h:575-656 *)
Definition eulerFace (gamma : R) (DIM : nat) (iSide : side) (phiL phiR cL cR normal : list R) : option (list R) :=
  let nV := (DIM + 2)%nat in
  qL <- reconstruct nV phiL cL;
  qR <- reconstruct nV phiR cR;
  flux <- eulerFlux gamma DIM qL qR normal;
  match iSide with
  | RIGHT => testWith nV (negate flux) (-1) phiR
  | LEFT => testWith nV flux (-1) phiL
  end.

(** Euler_Impl.h:503-571 *)
Definition eulerWall (gamma : R) (DIM : nat) (phi c normal : list R) : option (list R) :=
  let nV := (DIM + 2)%nat in
  q <- reconstruct nV phi c;
  flux <- eulerWallFlux gamma DIM q normal;
  testWith nV flux (-1) phi.

(** Euler_Impl.h:259-333 without the source term, which is added at the end; [gradients iB] is the gradient of basis
    function iB, of nB functions. The result vector is zero at the start (PhysicalElement_Impl.h:649-653). *)
Definition add_at (v : list R) (i : nat) (x : R) : option (list R) :=
  y <- get v i; write v i (y + x).
Definition eulerElement (gamma : R) (DIM nB : nat) (q : list R) (gradients : list (list R)) : option (list R) :=
  rho <- get q 0;
  q1Inverse <- div 1 rho;
  ruSquared <- accumulate 0 DIM (fun iD => m <- get q (iD + 1); Some (m * m));
  e <- get q (DIM + 1);
  let pressureTerm := (gamma - 1) * (e - / 2 * q1Inverse * ruSquared) in
  if Rlt_dec 0 pressureTerm then
    for_loop nB (fun iB v =>
      gradient <- nth_error gradients iB;
      for_loop DIM (fun iD v =>
        m <- get q (iD + 1); g <- get gradient iD;
        let integrandTerm := m * g * q1Inverse in
        v <- add_at v (singleIndex nB iB 0) (m * g);
        v <- for_loop DIM (fun jD v => mj <- get q (jD + 1);
               add_at v (singleIndex nB iB (jD + 1)) (mj * integrandTerm)) v;
        v <- add_at v (singleIndex nB iB (DIM + 1)) ((e + pressureTerm) * integrandTerm);
        add_at v (singleIndex nB iB (iD + 1)) (pressureTerm * g)) v) (repeat 0 ((DIM + 2) * nB))
  else None.

(** Inviscid.cpp:292-324 [integrandAtFace]: called for each side with the state and normal of that side. The result is
    the negation of the vector that is filled. *)
Definition inviscidFace (gamma : R) (DIM : nat) (phi stateInternal stateExternal unitNormalInternal : list R)
    : option (list R) :=
  let nV := (DIM + 2)%nat in
  flux <- inviscidFlux gamma DIM stateInternal stateExternal unitNormalInternal;
  v <- testWith nV flux 1 phi;
  Some (negate v).

(** Inviscid.cpp:362-400 [integrandsAtFace]: one loop over the basis functions of the LEFT element fills both
    vectors, with the indices of the left element. *)
Definition inviscidFaces (gamma : R) (DIM : nat) (phiL phiR stateLeft stateRight unitNormal : list R)
    : option (list R * list R) :=
  let nV := (DIM + 2)%nat in
  let nL := length phiL in
  flux <- inviscidFlux gamma DIM stateLeft stateRight unitNormal;
  for_loop nL (fun iB st =>
    for_loop nV (fun iV st =>
      f <- get flux iV; pL <- get phiL iB;
      first <- write (fst st) (singleIndex nL iB iV) (- f * pL);
      pR <- get phiR iB;
      second <- write (snd st) (singleIndex nL iB iV) (f * pR);
      Some (first, second)) st)
    (repeat 0 (nV * nL), repeat 0 (nV * length phiR)).

(** Shallow granular flow. [cosine] is std::cos(chuteAngle_). *)
Section SavageHutter.
  Variables dryLimit epsilon cosine alpha : R.

  (** [(h > dryLimit_) ? m / h : 0] *)
  Definition velocity (h m : R) : option R := if Rlt_dec dryLimit h then div m h else Some 0.

  (** SavageHutter1DBasic.cpp:192-208 *)
  Definition physicalFlux1D (q : list R) : option (list R) :=
    h <- get q 0;
    if Rlt_dec (- / 10 ^ 16) h then
      hu <- get q 1;
      u <- velocity h hu;
      Some [hu; hu * u * alpha + epsilon / 2 * cosine * h * h]
    else None.

  (** SavageHutter1DBase.cpp:310-324, SavageHutter2DBase.cpp:359-375: from the speeds to the flux *)
  Definition betweenSpeeds (qL qR fluxL fluxR : list R) (speedL speedR phaseL phaseR : R) : option (list R) :=
    let sl := Rmin (speedL - phaseL) (speedR - phaseR) in
    let sr := Rmax (speedL + phaseL) (speedR + phaseR) in
    if Rle_dec 0 sl then Some fluxL
    else if Rle_dec sr 0 then Some fluxR
    else
      d <- minus qR qL;
      a <- minus (scale sr fluxL) (scale sl fluxR);
      b <- plus a (scale (sl * sr) d);
      divide b (sr - sl).

  (** SavageHutter1DBase.cpp:285-325; computePhysicalFlux is virtual *)
  Definition hllc1D (physicalFlux : list R -> option (list R)) (qL qR : list R) (normal : R) : option (list R) :=
    hL <- get qL 0; hR <- get qR 0;
    mL <- get qL 1; mR <- get qR 1;
    speedL <- velocity hL (normal * mL);
    speedR <- velocity hR (normal * mR);
    fL <- physicalFlux qL;
    fR <- physicalFlux qR;
    phaseL <- root (epsilon * cosine * hL);
    phaseR <- root (epsilon * cosine * hR);
    betweenSpeeds qL qR (scale normal fL) (scale normal fR) speedL speedR phaseL phaseR.

  (** SavageHutter1DWidthAveraged.cpp:246-257 *)
  Definition getWidth (x : R) : R := if Rlt_dec 1 x then 1 - 2 * (x - 1) / 25 else 1.

  (** SavageHutter1DWidthAveraged.cpp:173-194 *)
  Definition physicalFluxWidth (x : R) (q : list R) : option (list R) :=
    let width := getWidth x in
    hW <- get q 0;
    h <- div hW width;
    if Rlt_dec (- / 10 ^ 16) h then
      m <- get q 1;
      hu <- div m width;
      u <- velocity h hu;
      Some [m; m * u + epsilon / 2 * cosine * h * h * width]
    else None.

  (** SavageHutter1DWidthAveraged.cpp:277-313 *)
  Definition hllcWidth (x : R) (qL qR : list R) (normal : R) : option (list R) :=
    let width := getWidth x in
    hwL <- get qL 0; hwR <- get qR 0;
    hL <- div hwL width; hR <- div hwR width;
    mL <- get qL 1; mR <- get qR 1;
    speedL <- velocity hwL (normal * mL);
    speedR <- velocity hwR (normal * mR);
    fL <- physicalFluxWidth x qL;
    fR <- physicalFluxWidth x qR;
    phaseL <- root (epsilon * cosine * hL);
    phaseR <- root (epsilon * cosine * hR);
    betweenSpeeds qL qR (scale normal fL) (scale normal fR) speedL speedR phaseL phaseR.

  (** SavageHutter2DBasic.cpp:171-194 *)
  Definition physicalFlux2D (q : list R) : option (list R) :=
    h <- get q 0;
    if Rlt_dec (- / 10 ^ 16) h then
      hu <- get q 1; hv <- get q 2;
      u <- velocity h hu; v <- velocity h hv;
      Some [hu; hv;
            hu * u + epsilon / 2 * cosine * h * h; hu * v;
            hu * v; hv * v + epsilon / 2 * cosine * h * h]
    else None.

  (** SavageHutter2DBase.cpp:344-351 *)
  Definition normalFlux2D (f normal : list R) : option (list R) :=
    nx <- get normal 0; ny <- get normal 1;
    collect 3 (fun i => a <- get f (2 * i); b <- get f (2 * i + 1); Some (a * nx + b * ny)).

  (** SavageHutter2DBase.cpp:316-375; the assertion about the length of the normal is a hypothesis of the theorems
      (it is true up to 1e-14 of a unit vector) *)
  Definition hllc2D (qL qR normal : list R) : option (list R) :=
    nx <- get normal 0; ny <- get normal 1;
    hL <- get qL 0; hR <- get qR 0;
    huL <- get qL 1; hvL <- get qL 2;
    huR <- get qR 1; hvR <- get qR 2;
    uL <- velocity hL huL; vL <- velocity hL hvL;
    uR <- velocity hR huR; vR <- velocity hR hvR;
    fL <- physicalFlux2D qL;
    fR <- physicalFlux2D qR;
    fnL <- normalFlux2D fL normal;
    fnR <- normalFlux2D fR normal;
    phaseL <- root (epsilon * cosine * hL);
    phaseR <- root (epsilon * cosine * hR);
    betweenSpeeds qL qR fnL fnR (uL * nx + vL * ny) (uR * nx + vR * ny) phaseL phaseR.

  (** SavageHutter2DBase.cpp:219-233: the flux through a solid wall *)
  Definition wallFlux2D (q normal : list R) : option (list R) :=
    nx <- get normal 0; ny <- get normal 1;
    h <- get q 0; hu <- get q 1; hv <- get q 2;
    u <- div hu h; v <- div hv h;
    let un := u * nx + v * ny in
    let ur := u - 2 * un * nx in
    let vr := v - 2 * un * ny in
    hllc2D q [h; ur * h; vr * h] normal.

  (** SavageHutter2DBase.cpp:241-312 *)
  Definition laxFriedrichs2D (qL qR normal : list R) : option (list R) :=
    hL <- get qL 0; hR <- get qR 0;
    huL <- get qL 1; hvL <- get qL 2;
    huR <- get qR 1; hvR <- get qR 2;
    uL <- velocity hL huL; vL <- velocity hL hvL;
    uR <- velocity hR huR; vR <- velocity hR hvR;
    phaseL <- root (epsilon * cosine * hL);
    phaseR <- root (epsilon * cosine * hR);
    let eigenSpeed1 := Rmax (Rabs (uL + phaseL)) (Rabs (uL - phaseL)) in
    let eigenSpeed2 := Rmax (Rabs (vL + phaseL)) (Rabs (vL - phaseL)) in
    let eigenSpeed3 := Rmax (Rabs (uR + phaseR)) (Rabs (uR - phaseR)) in
    let eigenSpeed4 := Rmax (Rabs (vR + phaseR)) (Rabs (vR - phaseR)) in
    let a := Rmax (Rmax (Rmax eigenSpeed1 eigenSpeed2) eigenSpeed3) eigenSpeed4 in
    fL <- physicalFlux2D qL;
    fR <- physicalFlux2D qR;
    fnL <- normalFlux2D fL normal;
    fnR <- normalFlux2D fR normal;
    s <- plus fnL fnR;
    d <- minus qR qL;
    t <- minus s (scale a d);
    Some (scale (/ 2) t).

  (** SavageHutter2DBase.cpp:79-118 *)
  Definition savageHutterFace2D (iSide : side) (phiL phiR cL cR normal : list R) : option (list R) :=
    qL <- reconstruct 3 phiL cL;
    qR <- reconstruct 3 phiR cR;
    flux <- hllc2D qL qR normal;
    match iSide with
    | RIGHT => testWith 3 (scale (-1) flux) (-1) phiR
    | LEFT => testWith 3 flux (-1) phiL
    end.

  (** SavageHutter2DBase.cpp:120-165 *)
  Definition savageHutterFaces2D (phiL phiR cL cR normal : list R) : option (list R * list R) :=
    qL <- reconstruct 3 phiL cL;
    qR <- reconstruct 3 phiR cR;
    flux <- hllc2D qL qR normal;
    first <- testWith 3 flux (-1) phiL;
    second <- testWith 3 flux 1 phiR;
    Some (first, second).

  (** SavageHutter1DBase.cpp:85-117. [normal] is the only component of the unit normal of the left element;
      basisFunctionNormal(side, i) is the value of the basis function times the outward normal of the element on that
      side (PhysicalFace_model). *)
  Definition savageHutterFace1D (iSide : side) (phiL phiR cL cR : list R) (normal : R) : option (list R) :=
    qL <- reconstruct 2 phiL cL;
    qR <- reconstruct 2 phiR cR;
    flux <- hllc1D physicalFlux1D qL qR normal;
    match iSide with
    | LEFT => testWith 2 flux (-1) (map (fun p => normal * p) phiL)
    | RIGHT => testWith 2 flux (-1) (map (fun p => - normal * p) phiR)
    end.
End SavageHutter.
