(** Model of the curl conforming basis functions on triangles and tetrahedra: kernel/FE/BasisFunctions2DNedelec.cpp,
    BasisFunctions3DNedelec.cpp and BasisFunctions3DAinsworthCoyle.cpp.

    doubles are real numbers; std::size_t is nat where no subtraction can wrap around.  [None]: an index out of range, a failed
    assertion, a point of the wrong dimension or a loop that does not end. *)
From Coq Require Import List Arith Bool ZArith Reals.
From Verif Require Import Legendre_model RefGeometry_model BasisFunctions_model BasisSets_model.
Import ListNotations.
Local Open Scope R_scope.

(** LinearAlgebra::SmallVector<3> with its +=, -=, *= (SmallVector.h) *)
Definition vec := (R * R * R)%type.
Definition vadd (a b : vec) : vec := let '(a0, a1, a2) := a in let '(b0, b1, b2) := b in (a0 + b0, a1 + b1, a2 + b2).
Definition vsub (a b : vec) : vec := let '(a0, a1, a2) := a in let '(b0, b1, b2) := b in (a0 - b0, a1 - b1, a2 - b2).
Definition vmul (a : vec) (s : R) : vec := let '(a0, a1, a2) := a in (a0 * s, a1 * s, a2 * s).

(** BasisFunctions3DNedelec.cpp:48-56, BasisFunctions3DAinsworthCoyle.cpp:48-56 *)
Definition OuterProduct (a b : vec) : vec :=
  let '(a0, a1, a2) := a in let '(b0, b1, b2) := b in (a1 * b2 - a2 * b1, a2 * b0 - a0 * b2, a0 * b1 - a1 * b0).
(** the vector with ret[k] = 1 and zeros elsewhere *)
Definition unit (k : nat) : option vec := nth_error [(1, 0, 0); (0, 1, 0); (0, 0, 1)] k.
(** BasisFunctions3DNedelec.cpp:58-74, BasisFunctions3DAinsworthCoyle.cpp:58-74 *)
Definition gradient (node : nat) : option vec :=
  match node with O => Some (-1, -1, -1) | S k => unit k end.

(** the functions; the numbers are the arguments of the constructors *)
Inductive curl_function :=
| EdgeNedelec2D (side : nat) (modulator : basis_function)
| InteriorNedelec2D (type : nat) (modulator : basis_function)
| EdgeNedelec (deg1 deg2 i j : nat)
| Face1Nedelec (deg1 deg2 deg3 d : nat)
| Face2Nedelec (deg1 deg2 deg3 d : nat)
| Interior1Nedelec (deg1 deg2 deg3 deg4 : nat)
| Interior2Nedelec (deg1 deg2 deg3 deg4 : nat)
| Interior3Nedelec (deg1 deg2 deg3 deg4 : nat)
| EdgeAinsworthCoyle (deg o i : nat)
| EdgeFaceAinsworthCoyle (deg opposing c : nat)
| FaceAinsworthCoyle (deg1 deg2 opposing direction : nat)
| FaceInteriorAinsworthCoyle (deg1 deg2 d : nat)
| InteriorAinsworthCoyle (deg1 deg2 deg3 direction : nat).

(** a, b, c of the faces: BasisFunctions3DNedelec.cpp:119-130, 186-197; AinsworthCoyle.cpp:201-213, 291-302 *)
Definition skip (d n : nat) : nat := if Nat.eqb d n then S n else n.
Definition face_vertices (d : nat) : nat * nat * nat :=
  let a := skip d 0 in let b := skip d (S a) in let c := skip d (S b) in (a, b, c).
(** the while loops of BasisFunctions3DAinsworthCoyle.cpp:158-165: the first number from [n] on that is neither *)
Definition skip2 (c d n : nat) : nat :=
  let bad k := Nat.eqb c k || Nat.eqb d k in if bad n then (if bad (S n) then S (S n) else S n) else n.
Definition edge_vertices (opposing c : nat) : nat * nat :=
  let a := skip2 c opposing 0 in (a, skip2 c opposing (S a)).
(** BasisFunctions3DAinsworthCoyle.cpp:214-219 *)
Definition directed_vertices (opposing direction : nat) : nat * nat * nat :=
  let '(a, b, c) := face_vertices opposing in if Nat.eqb direction 2 then (a, c, b) else (a, b, c).
(** BasisFunctions3DAinsworthCoyle.cpp:227-229: ret[0] = (b == 1 - a == 1); with the precedence of C++ this is
    (b == (1 - a)) == 1, and 1 - a wraps around for a > 1 *)
Definition truth (b : bool) : R := if b then 1 else 0.
Definition face_direction (a b : nat) : vec :=
  (truth (Nat.leb a 1 && Nat.eqb b (1 - a)), truth (Nat.eqb b 2), truth (Nat.eqb b 3)).

(** BasisFunctions2DNedelec.cpp:81-112 *)
Definition sideFunction (side : nat) (x y : R) : R * R :=
  match side with O => (y - 1, - x) | S O => (y, - x) | _ => (y, 1 - x) end.
Definition modulatorCoord (side : nat) (x y : R) : R := match side with O => x | S O => y | _ => 1 - y end.
(** BasisFunctions2DNedelec.cpp:175-188 *)
Definition typePart (type : nat) (x y : R) : R * R :=
  match type with O => (y * x, (1 - x) * x) | _ => ((1 - y) * y, x * y) end.

Section At.
Variables (x y z : R).
Definition bary (n : nat) : option R := baricentric_3D n x y z.

(** l dg_i - ... : the common part "ret = grad i; dummy = grad j; ret *= valJ; dummy *= valI; ret -= dummy" of
    BasisFunctions3DNedelec.cpp:87-96 and its copies *)
Definition whitney (i j : nat) : option vec :=
  gi <- gradient i; gj <- gradient j; valI <- bary i; valJ <- bary j;
  Some (vsub (vmul gi valJ) (vmul gj valI)).

(** BasisFunctions3DNedelec.cpp:84-99 *)
Definition EdgeNedelec_eval (deg1 deg2 i j : nat) : option vec :=
  w <- whitney i j; valI <- bary i; valJ <- bary j;
  Some (vmul w (valI ^ deg1 * valJ ^ deg2)).
(** BasisFunctions3DNedelec.cpp:101-114 *)
Definition EdgeNedelec_curl (deg1 deg2 i j : nat) : option vec :=
  dummy <- gradient i; dummy2 <- gradient j; valI <- bary i; valJ <- bary j;
  Some (vmul (OuterProduct dummy2 dummy) (INR (deg1 + deg2 + 2) * valI ^ deg1 * valJ ^ deg2)).

(** BasisFunctions3DNedelec.cpp:133-149 *)
Definition Face1Nedelec_eval (deg1 deg2 deg3 d : nat) : option vec :=
  let '(a, b, c) := face_vertices d in
  valI <- bary a; valJ <- bary b; valK <- bary c; w <- whitney a b;
  Some (vmul w (valI ^ deg1 * valJ ^ deg2 * valK ^ (deg3 + 1))).
(** BasisFunctions3DNedelec.cpp:151-175 *)
Definition Face1Nedelec_curl (deg1 deg2 deg3 d : nat) : option vec :=
  let '(a, b, c) := face_vertices d in
  valI <- bary a; valJ <- bary b; valK <- bary c;
  dummy <- gradient a; dummy2 <- gradient b; dummy3 <- gradient c;
  let ret := vmul (OuterProduct dummy2 dummy) (INR (deg1 + deg2 + 2) * valI ^ deg1 * valJ ^ deg2 * valK ^ (deg3 + 1)) in
  let dummy := vsub (vmul dummy valJ) (vmul dummy2 valI) in
  let dummy2 := vmul (OuterProduct dummy3 dummy) (INR (1 + deg3) * valI ^ deg1 * valJ ^ deg2 * valK ^ deg3) in
  Some (vadd ret dummy2).

(** BasisFunctions3DNedelec.cpp:200-216 *)
Definition Face2Nedelec_eval (deg1 deg2 deg3 d : nat) : option vec :=
  let '(a, b, c) := face_vertices d in
  valI <- bary a; valJ <- bary b; valK <- bary c; w <- whitney b c;
  Some (vmul w (valI ^ (deg1 + 1) * valJ ^ deg2 * valK ^ deg3)).
(** BasisFunctions3DNedelec.cpp:218-242 *)
Definition Face2Nedelec_curl (deg1 deg2 deg3 d : nat) : option vec :=
  let '(a, b, c) := face_vertices d in
  valI <- bary a; valJ <- bary b; valK <- bary c;
  dummy3 <- gradient a; dummy <- gradient b; dummy2 <- gradient c;
  let ret := vmul (OuterProduct dummy2 dummy) (INR (deg2 + deg3 + 2) * valI ^ (deg1 + 1) * valJ ^ deg2 * valK ^ deg3) in
  let dummy := vsub (vmul dummy valK) (vmul dummy2 valJ) in
  let dummy2 := vmul (OuterProduct dummy3 dummy) (INR (1 + deg1) * valI ^ deg1 * valJ ^ deg2 * valK ^ deg3) in
  Some (vadd ret dummy2).

(** BasisFunctions3DNedelec.cpp:250-267 *)
Definition Interior1Nedelec_eval (deg1 deg2 deg3 deg4 : nat) : option vec :=
  val0 <- bary 0; val1 <- bary 1; val2 <- bary 2; val3 <- bary 3; w <- whitney 0 1;
  Some (vmul w (val0 ^ deg1 * val1 ^ deg2 * val2 ^ (deg3 + 1) * val3 ^ (deg4 + 1))).
(** BasisFunctions3DNedelec.cpp:269-301 *)
Definition Interior1Nedelec_curl (deg1 deg2 deg3 deg4 : nat) : option vec :=
  val0 <- bary 0; val1 <- bary 1; val2 <- bary 2; val3 <- bary 3;
  dummy <- gradient 0; dummy2 <- gradient 1; dummy3 <- gradient 2; dummy4 <- gradient 3;
  let ret := OuterProduct dummy2 dummy in
  let dummy := vsub (vmul dummy val1) (vmul dummy2 val0) in
  let dummy2 := OuterProduct dummy3 dummy in
  let dummy3 := OuterProduct dummy4 dummy in
  let dummy2 := vmul dummy2 (INR (1 + deg3) * val0 ^ deg1 * val1 ^ deg2 * val2 ^ deg3 * val3 ^ (deg4 + 1)) in
  let dummy3 := vmul dummy3 (INR (1 + deg4) * val0 ^ deg1 * val1 ^ deg2 * val2 ^ (deg3 + 1) * val3 ^ deg4) in
  let ret := vmul ret (INR (deg1 + deg2 + 2) * val0 ^ deg1 * val1 ^ deg2 * val2 ^ (deg3 + 1) * val3 ^ (deg4 + 1)) in
  Some (vadd ret (vadd dummy2 dummy3)).
(** BasisFunctions3DNedelec.cpp:309-326 *)
Definition Interior2Nedelec_eval (deg1 deg2 deg3 deg4 : nat) : option vec :=
  val0 <- bary 0; val1 <- bary 1; val2 <- bary 2; val3 <- bary 3; w <- whitney 1 2;
  Some (vmul w (val0 ^ (deg1 + 1) * val1 ^ deg2 * val2 ^ deg3 * val3 ^ (deg4 + 1))).
(** BasisFunctions3DNedelec.cpp:328-361 *)
Definition Interior2Nedelec_curl (deg1 deg2 deg3 deg4 : nat) : option vec :=
  val0 <- bary 0; val1 <- bary 1; val2 <- bary 2; val3 <- bary 3;
  dummy <- gradient 1; dummy2 <- gradient 2; dummy3 <- gradient 0; dummy4 <- gradient 3;
  let ret := OuterProduct dummy2 dummy in
  let dummy := vsub (vmul dummy val2) (vmul dummy2 val1) in
  let dummy2 := OuterProduct dummy3 dummy in
  let dummy3 := OuterProduct dummy4 dummy in
  let dummy2 := vmul dummy2 (INR (1 + deg1) * val0 ^ deg1 * val1 ^ deg2 * val2 ^ deg3 * val3 ^ (deg4 + 1)) in
  let dummy3 := vmul dummy3 (INR (1 + deg4) * val0 ^ (deg1 + 1) * val1 ^ deg2 * val2 ^ deg3 * val3 ^ deg4) in
  let ret := vmul ret (INR (deg2 + deg3 + 2) * val0 ^ (deg1 + 1) * val1 ^ deg2 * val2 ^ deg3 * val3 ^ (deg4 + 1)) in
  Some (vadd ret (vadd dummy2 dummy3)).
(** BasisFunctions3DNedelec.cpp:369-386 *)
Definition Interior3Nedelec_eval (deg1 deg2 deg3 deg4 : nat) : option vec :=
  val0 <- bary 0; val1 <- bary 1; val2 <- bary 2; val3 <- bary 3; w <- whitney 2 3;
  Some (vmul w (val0 ^ (deg1 + 1) * val1 ^ (deg2 + 1) * val2 ^ deg3 * val3 ^ deg4)).
(** BasisFunctions3DNedelec.cpp:388-421 *)
Definition Interior3Nedelec_curl (deg1 deg2 deg3 deg4 : nat) : option vec :=
  val0 <- bary 0; val1 <- bary 1; val2 <- bary 2; val3 <- bary 3;
  dummy <- gradient 2; dummy2 <- gradient 3; dummy3 <- gradient 0; dummy4 <- gradient 1;
  let ret := OuterProduct dummy2 dummy in
  let dummy := vsub (vmul dummy val3) (vmul dummy2 val2) in
  let dummy2 := OuterProduct dummy3 dummy in
  let dummy3 := OuterProduct dummy4 dummy in
  let dummy2 := vmul dummy2 (INR (1 + deg1) * val0 ^ deg1 * val1 ^ (deg2 + 1) * val2 ^ deg3 * val3 ^ deg4) in
  let dummy3 := vmul dummy3 (INR (1 + deg2) * val0 ^ (deg1 + 1) * val1 ^ deg2 * val2 ^ deg3 * val3 ^ deg4) in
  let ret := vmul ret (INR (deg3 + deg4 + 2) * val0 ^ (deg1 + 1) * val1 ^ (deg2 + 1) * val2 ^ deg3 * val3 ^ deg4) in
  Some (vadd ret (vadd dummy2 dummy3)).

(** BasisFunctions3DAinsworthCoyle.cpp:84-118 *)
Definition EdgeAinsworthCoyle_eval (deg o i : nat) : option vec :=
  ret <- gradient o; dummy <- gradient i; valI <- bary i; valO <- bary o;
  let ret := vmul ret valI in
  let dummy := vmul dummy valO in
  match deg with
  | O => Some (vsub ret dummy)
  | S O => Some (vadd ret dummy)
  | _ =>
      let ret := vsub ret dummy in
      let dummy := vmul dummy 2 in
      let dummy := vadd dummy ret in
      let ret := vmul ret (- INR (deg - 1) / INR deg * LegendrePolynomial (deg - 2) (valI - valO)) in
      let dummy := vmul dummy (INR (2 * deg - 1) / INR deg * LegendrePolynomial (deg - 1) (valI - valO)) in
      Some (vadd ret dummy)
  end.
(** BasisFunctions3DAinsworthCoyle.cpp:120-150 *)
Definition EdgeAinsworthCoyle_curl (deg o i : nat) : option vec :=
  match deg with
  | O => dummy <- gradient o; dummy2 <- gradient i; Some (vmul (OuterProduct dummy2 dummy) 2)
  | S O => Some (0, 0, 0)
  | _ =>
      dummy <- gradient o; dummy2 <- gradient i;
      let dummy4 := vsub dummy2 dummy in
      valI <- bary i; valO <- bary o;
      let ret := vmul (OuterProduct dummy2 dummy) (- INR (deg - 1) / INR deg * LegendrePolynomial (deg - 2) (valI - valO) * 2) in
      let dummy := vmul dummy valI in
      let dummy2 := vmul dummy2 valO in
      let dummy := vadd dummy dummy2 in
      let dummy3 := vmul (OuterProduct dummy4 dummy) (INR (2 * deg - 1) / INR deg * LegendrePolynomialDerivative (deg - 1) (valI - valO)) in
      let ret := vadd ret dummy3 in
      let dummy2 := vmul dummy2 2 in
      let dummy := vsub dummy dummy2 in
      let dummy3 := vmul (OuterProduct dummy4 dummy) (INR (deg - 1) / INR deg * LegendrePolynomialDerivative (deg - 2) (valI - valO)) in
      Some (vsub ret dummy3)
  end.

(** BasisFunctions3DAinsworthCoyle.cpp:168-174; deg - 2 wraps around for deg < 2 *)
Definition EdgeFaceAinsworthCoyle_eval (deg opposing c : nat) : option vec :=
  if deg <? 2 then None
  else
    let '(a, b) := edge_vertices opposing c in
    ret <- gradient c; valA <- bary a; valB <- bary b;
    Some (vmul ret (valA * valB * LegendrePolynomial (deg - 2) (valB - valA))).
(** BasisFunctions3DAinsworthCoyle.cpp:176-192 *)
Definition EdgeFaceAinsworthCoyle_curl (deg opposing c : nat) : option vec :=
  if deg <? 2 then None
  else
    let '(a, b) := edge_vertices opposing c in
    valA <- bary a; valB <- bary b;
    dummy <- gradient a; dummy2 <- gradient b; dummy3 <- gradient c;
    let ret := OuterProduct dummy dummy3 in
    let dummy := OuterProduct dummy2 dummy3 in
    let ret := vmul ret (valB * LegendrePolynomial (deg - 2) (valB - valA) - valA * valB * LegendrePolynomialDerivative (deg - 2) (valB - valA)) in
    let dummy := vmul dummy (valA * LegendrePolynomial (deg - 2) (valB - valA) + valA * valB * LegendrePolynomialDerivative (deg - 2) (valB - valA)) in
    Some (vadd ret dummy).

(** the body shared by BasisFunctions3DAinsworthCoyle.cpp:222-232 and 304-312 *)
Definition bubble (w : vec) (deg1 deg2 a b c : nat) : option vec :=
  valA <- bary a; valB <- bary b; valC <- bary c;
  Some (vmul w (valA * valB * valC * LegendrePolynomial deg1 (valB - valA) * LegendrePolynomial deg2 (valC - valA))).
(** and by 234-276 and 314-350 *)
Definition bubble_curl (dummy : vec) (deg1 deg2 a b c : nat) : option vec :=
  valA <- bary a; valB <- bary b; valC <- bary c;
  dummy2 <- gradient a;
  let ret := vmul (OuterProduct dummy2 dummy)
    (valB * valC * LegendrePolynomial deg1 (valB - valA) * LegendrePolynomial deg2 (valC - valA)
     - valA * valB * valC * (LegendrePolynomialDerivative deg1 (valB - valA) * LegendrePolynomial deg2 (valC - valA)
                             + LegendrePolynomial deg1 (valB - valA) * LegendrePolynomialDerivative deg2 (valC - valA))) in
  dummy2 <- gradient b;
  let dummy3 := vmul (OuterProduct dummy2 dummy)
    (valA * valC * LegendrePolynomial deg1 (valB - valA) * LegendrePolynomial deg2 (valC - valA)
     + valA * valB * valC * LegendrePolynomialDerivative deg1 (valB - valA) * LegendrePolynomial deg2 (valC - valA)) in
  let ret := vadd ret dummy3 in
  dummy2 <- gradient c;
  let dummy3 := vmul (OuterProduct dummy2 dummy)
    (valA * valB * LegendrePolynomial deg1 (valB - valA) * LegendrePolynomial deg2 (valC - valA)
     + valA * valB * valC * LegendrePolynomial deg1 (valB - valA) * LegendrePolynomialDerivative deg2 (valC - valA)) in
  Some (vadd ret dummy3).
Definition FaceAinsworthCoyle_eval (deg1 deg2 opposing direction : nat) : option vec :=
  let '(a, b, c) := directed_vertices opposing direction in bubble (face_direction a b) deg1 deg2 a b c.
Definition FaceAinsworthCoyle_curl (deg1 deg2 opposing direction : nat) : option vec :=
  let '(a, b, c) := directed_vertices opposing direction in bubble_curl (face_direction a b) deg1 deg2 a b c.
Definition FaceInteriorAinsworthCoyle_eval (deg1 deg2 d : nat) : option vec :=
  let '(a, b, c) := face_vertices d in w <- gradient d; bubble w deg1 deg2 a b c.
Definition FaceInteriorAinsworthCoyle_curl (deg1 deg2 d : nat) : option vec :=
  let '(a, b, c) := face_vertices d in w <- gradient d; bubble_curl w deg1 deg2 a b c.

(** BasisFunctions3DAinsworthCoyle.cpp:359-372; direction - 1 wraps around for 0 *)
Definition direction_vector (direction : nat) : option vec := match direction with O => None | S k => unit k end.
Definition InteriorAinsworthCoyle_eval (deg1 deg2 deg3 direction : nat) : option vec :=
  ret <- direction_vector direction;
  val0 <- bary 0; val1 <- bary 1; val2 <- bary 2; val3 <- bary 3;
  Some (vmul ret (val0 * val1 * val2 * val3 * LegendrePolynomial deg1 (val1 - val0) * LegendrePolynomial deg2 (val2 - val0)
                  * LegendrePolynomial deg3 (val3 - val0))).
(** BasisFunctions3DAinsworthCoyle.cpp:374-429 *)
Definition InteriorAinsworthCoyle_curl (deg1 deg2 deg3 direction : nat) : option vec :=
  val0 <- bary 0; val1 <- bary 1; val2 <- bary 2; val3 <- bary 3;
  dummy <- direction_vector direction;
  let P1 := LegendrePolynomial deg1 (val1 - val0) in
  let P2 := LegendrePolynomial deg2 (val2 - val0) in
  let P3 := LegendrePolynomial deg3 (val3 - val0) in
  let D1 := LegendrePolynomialDerivative deg1 (val1 - val0) in
  let D2 := LegendrePolynomialDerivative deg2 (val2 - val0) in
  let D3 := LegendrePolynomialDerivative deg3 (val3 - val0) in
  dummy2 <- gradient 0;
  let ret := vmul (OuterProduct dummy2 dummy)
    (val1 * val2 * val3 * P1 * P2 * P3 - val0 * val1 * val2 * val3 * (D1 * P2 * P3 + P1 * D2 * P3 + P1 * P2 * D3)) in
  dummy2 <- gradient 1;
  let ret := vadd ret (vmul (OuterProduct dummy2 dummy) (val0 * val2 * val3 * P1 * P2 * P3 + val0 * val1 * val2 * val3 * D1 * P2 * P3)) in
  dummy2 <- gradient 2;
  let ret := vadd ret (vmul (OuterProduct dummy2 dummy) (val0 * val1 * val3 * P1 * P2 * P3 + val0 * val1 * val2 * val3 * P1 * D2 * P3)) in
  dummy2 <- gradient 3;
  Some (vadd ret (vmul (OuterProduct dummy2 dummy) (val0 * val1 * val2 * P1 * P2 * P3 + val0 * val1 * val2 * val3 * P1 * P2 * D3))).
End At.

(** BasisFunctions2DNedelec.cpp:72-78 *)
Definition EdgeNedelec2D_eval (side : nat) (modulator : basis_function) (x y : R) : option (R * R) :=
  let F := sideFunction side x y in
  m <- eval modulator [modulatorCoord side x y];
  Some (fst F * m, snd F * m).
(** BasisFunctions2DNedelec.cpp:120-149 *)
Definition EdgeNedelec2D_curl (side : nat) (modulator : basis_function) (x y : R) : option (R * R) :=
  modulatorVal <- eval modulator [modulatorCoord side x y];
  let sideVal := sideFunction side x y in
  let result := -2 * modulatorVal in
  d <- evalDeriv 0 modulator [modulatorCoord side x y];
  let result := match side with
                | O => result + d * snd sideVal
                | S O => result - d * fst sideVal
                | _ => result + d * fst sideVal
                end in
  Some (result, 0).
(** BasisFunctions2DNedelec.cpp:165-170 *)
Definition InteriorNedelec2D_eval (type : nat) (modulator : basis_function) (x y : R) : option (R * R) :=
  let F := typePart type x y in
  m <- eval modulator [x; y];
  Some (fst F * m, snd F * m).
(** BasisFunctions2DNedelec.cpp:195-223 *)
Definition InteriorNedelec2D_curl (type : nat) (modulator : basis_function) (x y : R) : option (R * R) :=
  let typeValue := typePart type x y in
  let '(typeFydx, typeFxdy) := match type with O => (1 - 2 * x, x) | _ => (y, 1 - 2 * y) end in
  modulatorValue <- eval modulator [x; y];
  g0 <- evalDeriv 0 modulator [x; y];
  g1 <- evalDeriv 1 modulator [x; y];
  let result := typeFydx * modulatorValue + snd typeValue * g0 in
  let result := result - (typeFxdy * modulatorValue + fst typeValue * g1) in
  Some (result, 0).

(** eval and evalCurl of all the functions; a vector is the list of its entries *)
Definition entries (o : option vec) : option (list R) := option_map (fun v => let '(a, b, c) := v in [a; b; c]) o.
Definition entries2 (o : option (R * R)) : option (list R) := option_map (fun v => [fst v; snd v]) o.
Definition curl_eval (f : curl_function) (p : point) : option (list R) :=
  match f, p with
  | EdgeNedelec2D s m, [x; y] => entries2 (EdgeNedelec2D_eval s m x y)
  | InteriorNedelec2D t m, [x; y] => entries2 (InteriorNedelec2D_eval t m x y)
  | EdgeNedelec d1 d2 i j, [x; y; z] => entries (EdgeNedelec_eval x y z d1 d2 i j)
  | Face1Nedelec d1 d2 d3 d, [x; y; z] => entries (Face1Nedelec_eval x y z d1 d2 d3 d)
  | Face2Nedelec d1 d2 d3 d, [x; y; z] => entries (Face2Nedelec_eval x y z d1 d2 d3 d)
  | Interior1Nedelec d1 d2 d3 d4, [x; y; z] => entries (Interior1Nedelec_eval x y z d1 d2 d3 d4)
  | Interior2Nedelec d1 d2 d3 d4, [x; y; z] => entries (Interior2Nedelec_eval x y z d1 d2 d3 d4)
  | Interior3Nedelec d1 d2 d3 d4, [x; y; z] => entries (Interior3Nedelec_eval x y z d1 d2 d3 d4)
  | EdgeAinsworthCoyle d o i, [x; y; z] => entries (EdgeAinsworthCoyle_eval x y z d o i)
  | EdgeFaceAinsworthCoyle d o c, [x; y; z] => entries (EdgeFaceAinsworthCoyle_eval x y z d o c)
  | FaceAinsworthCoyle d1 d2 o dir, [x; y; z] => entries (FaceAinsworthCoyle_eval x y z d1 d2 o dir)
  | FaceInteriorAinsworthCoyle d1 d2 d, [x; y; z] => entries (FaceInteriorAinsworthCoyle_eval x y z d1 d2 d)
  | InteriorAinsworthCoyle d1 d2 d3 dir, [x; y; z] => entries (InteriorAinsworthCoyle_eval x y z d1 d2 d3 dir)
  | _, _ => None
  end.
Definition evalCurl (f : curl_function) (p : point) : option (list R) :=
  match f, p with
  | EdgeNedelec2D s m, [x; y] => entries2 (EdgeNedelec2D_curl s m x y)
  | InteriorNedelec2D t m, [x; y] => entries2 (InteriorNedelec2D_curl t m x y)
  | EdgeNedelec d1 d2 i j, [x; y; z] => entries (EdgeNedelec_curl x y z d1 d2 i j)
  | Face1Nedelec d1 d2 d3 d, [x; y; z] => entries (Face1Nedelec_curl x y z d1 d2 d3 d)
  | Face2Nedelec d1 d2 d3 d, [x; y; z] => entries (Face2Nedelec_curl x y z d1 d2 d3 d)
  | Interior1Nedelec d1 d2 d3 d4, [x; y; z] => entries (Interior1Nedelec_curl x y z d1 d2 d3 d4)
  | Interior2Nedelec d1 d2 d3 d4, [x; y; z] => entries (Interior2Nedelec_curl x y z d1 d2 d3 d4)
  | Interior3Nedelec d1 d2 d3 d4, [x; y; z] => entries (Interior3Nedelec_curl x y z d1 d2 d3 d4)
  | EdgeAinsworthCoyle d o i, [x; y; z] => entries (EdgeAinsworthCoyle_curl x y z d o i)
  | EdgeFaceAinsworthCoyle d o c, [x; y; z] => entries (EdgeFaceAinsworthCoyle_curl x y z d o c)
  | FaceAinsworthCoyle d1 d2 o dir, [x; y; z] => entries (FaceAinsworthCoyle_curl x y z d1 d2 o dir)
  | FaceInteriorAinsworthCoyle d1 d2 d, [x; y; z] => entries (FaceInteriorAinsworthCoyle_curl x y z d1 d2 d)
  | InteriorAinsworthCoyle d1 d2 d3 dir, [x; y; z] => entries (InteriorAinsworthCoyle_curl x y z d1 d2 d3 dir)
  | _, _ => None
  end.

(** BasisFunctions2DNedelec.cpp:225-250; for order 0, order - 1 wraps around and the loop over the line functions does not end *)
Definition createDGBasisFunctionSet2DNedelec (asserts : bool) (order : nat) : option (list curl_function) :=
  if Nat.eqb order 0 then None
  else
    lineFunctions <- createDGBasisFunctionSet1DH1Line asserts (order - 1);
    let result := flat_map (fun i => [EdgeNedelec2D 0 i; EdgeNedelec2D 1 i; EdgeNedelec2D 2 i]) lineFunctions in
    if Nat.ltb 1 order then
      triangleFunctions <- createDGBasisFunctionSet2DH1Triangle asserts (order - 2);
      Some (result ++ flat_map (fun i => [InteriorNedelec2D 0 i; InteriorNedelec2D 1 i]) triangleFunctions)
    else Some result.

(** for (l = 0; l + k <= order; ++l) is [loop k order] (BasisSets_model).
    BasisFunctions3DNedelec.cpp:423-470 *)
Definition createDGBasisFunctionSet3DNedelec (order : nat) : list curl_function :=
  flat_map (fun l => let m := ((order - 1) - l)%nat in
      [EdgeNedelec l m 0 1; EdgeNedelec l m 0 2; EdgeNedelec l m 0 3; EdgeNedelec l m 2 3; EdgeNedelec l m 1 3; EdgeNedelec l m 1 2])
    (loop 1 order)
  ++ (if Nat.ltb 1 order then
        flat_map (fun l => flat_map (fun m => let n := ((order - 2) - (l + m))%nat in
            [Face1Nedelec l m n 0; Face1Nedelec l m n 1; Face1Nedelec l m n 2; Face1Nedelec l m n 3;
             Face2Nedelec l m n 0; Face2Nedelec l m n 1; Face2Nedelec l m n 2; Face2Nedelec l m n 3])
          (loop (l + 2) order)) (loop 2 order)
      else [])
  ++ (if Nat.ltb 2 order then
        flat_map (fun l => flat_map (fun m => flat_map (fun n => let o := ((order - 3) - (l + m + n))%nat in
            [Interior1Nedelec l m n o; Interior2Nedelec l m n o; Interior3Nedelec l m n o])
          (loop (m + l + 3) order)) (loop (l + 3) order)) (loop 3 order)
      else []).

(** BasisFunctions3DAinsworthCoyle.cpp:431-500 *)
Definition createDGBasisFunctionSet3DAinsworthCoyle (order : nat) : list curl_function :=
  flat_map (fun p => [EdgeAinsworthCoyle p 0 1; EdgeAinsworthCoyle p 0 2; EdgeAinsworthCoyle p 0 3;
                      EdgeAinsworthCoyle p 2 3; EdgeAinsworthCoyle p 1 3; EdgeAinsworthCoyle p 1 2]) (loop 0 order)
  ++ flat_map (fun p => [EdgeFaceAinsworthCoyle p 3 0; EdgeFaceAinsworthCoyle p 3 1; EdgeFaceAinsworthCoyle p 3 2;
                         EdgeFaceAinsworthCoyle p 2 0; EdgeFaceAinsworthCoyle p 2 1; EdgeFaceAinsworthCoyle p 2 3;
                         EdgeFaceAinsworthCoyle p 1 0; EdgeFaceAinsworthCoyle p 1 2; EdgeFaceAinsworthCoyle p 1 3;
                         EdgeFaceAinsworthCoyle p 0 1; EdgeFaceAinsworthCoyle p 0 2; EdgeFaceAinsworthCoyle p 0 3])
       (map (fun p => p + 2)%nat (loop 2 order))
  ++ flat_map (fun l => flat_map (fun m =>
         [FaceAinsworthCoyle l m 3 1; FaceAinsworthCoyle l m 3 2; FaceAinsworthCoyle l m 2 1; FaceAinsworthCoyle l m 2 2;
          FaceAinsworthCoyle l m 1 1; FaceAinsworthCoyle l m 1 2; FaceAinsworthCoyle l m 0 1; FaceAinsworthCoyle l m 0 2;
          FaceInteriorAinsworthCoyle l m 3; FaceInteriorAinsworthCoyle l m 2; FaceInteriorAinsworthCoyle l m 1; FaceInteriorAinsworthCoyle l m 0])
       (loop (l + 3) order)) (loop 3 order)
  ++ flat_map (fun l => flat_map (fun m => flat_map (fun n =>
         [InteriorAinsworthCoyle l m n 1; InteriorAinsworthCoyle l m n 2; InteriorAinsworthCoyle l m n 3])
       (loop (m + l + 4) order)) (loop (l + 4) order)) (loop 4 order).
