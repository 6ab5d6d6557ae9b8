(** The Gauss quadrature rules (kernel/Integration/QuadratureRules).

    The tables are transcribed literal by literal from the constructors of the rules (by a script). Every
    number is kept as the expression that is written in the source; a decimal literal stands for the decimal
    itself: the rounding of literals to doubles and of +, -, *, /, sqrt on doubles is not modelled. *)
From Coq Require Import List ZArith NArith Reals.
From Verif Require Import RefGeometry_model.
Import ListNotations.

(** the expressions that occur in the tables; [Lit m e] is the decimal literal m / 10^e *)
Inductive num :=
| Lit (m : Z) (e : nat)
| Neg (a : num)
| Add (a b : num)
| Sub (a b : num)
| Mul (a b : num)
| Div (a b : num)
| Sqrt (a : num).

Declare Scope num_scope.
Delimit Scope num_scope with num.
Bind Scope num_scope with num.
Notation "a + b" := (Add a b) : num_scope.
Notation "a - b" := (Sub a b) : num_scope.
Notation "a * b" := (Mul a b) : num_scope.
Notation "a / b" := (Div a b) : num_scope.

(** the value of an expression; unary plus is left out *)
Fixpoint value (n : num) : R :=
  match n with
  | Lit m e => IZR m / 10 ^ e
  | Neg a => - value a
  | Add a b => value a + value b
  | Sub a b => value a - value b
  | Mul a b => value a * value b
  | Div a b => value a / value b
  | Sqrt a => sqrt (value a)
  end.

(** GaussQuadratureRule.h:106-140: the constants returned by forReferenceGeometry (as its geometry type), order
    and getNumberOfPoints, and the arrays weight_ and gp_ after the constructor, entry by entry.
    StandardQaussQuadratureRule.h:56-92 stores the two arrays as one. *)
Record rule := Rule {
  forReferenceGeometry : shape;
  order : N;
  getNumberOfPoints : nat;
  entries : list (num * list num) }.

(** weight and getPoint, e.g. GaussQuadratureRulesForLine.cpp:62-72: the index is checked against the number of points *)
Definition weight (r : rule) (i : nat) : option R :=
  if i <? getNumberOfPoints r then option_map (fun e => value (fst e)) (nth_error (entries r) i) else None.
Definition getPoint (r : rule) (i : nat) : option point :=
  if i <? getNumberOfPoints r then option_map (fun e => map value (snd e)) (nth_error (entries r) i) else None.

Local Open Scope num_scope.

(** GaussQuadratureRulesForPoint.h:66-68, GaussQuadratureRulesForPoint.cpp:62-67; the order is the largest size_t *)
Definition Cn0_inf_1 : rule := Rule Point 18446744073709551615 1 [(Lit 1 0, [])].

(** GaussQuadratureRulesForTetrahedron.cpp:57 *)
Definition TET_VOLUME : num := Lit 16666666666666663 17.

(** the loops over the points of a rule for the line: GaussQuadratureRulesForSquare.cpp:305-318, 348-361 *)
Definition product2 (l : list (num * list num)) : list (num * list num) :=
  flat_map (fun i => map (fun j => (fst i * fst j, snd i ++ snd j)) l) l.
(** GaussQuadratureRulesForCube.cpp:286-303, 334-351, 382-399 *)
Definition product3 (l : list (num * list num)) : list (num * list num) :=
  flat_map (fun i => flat_map (fun j => map (fun k =>
    (fst i * fst j * fst k, snd i ++ snd j ++ snd k)) l) l) l.

(** GaussQuadratureRulesForLine.cpp:56, 78-84 *)
Definition Cn1_1_1 : rule := Rule Line 1 1 [
   (Lit 2 0, [Lit 0 0])].

(** GaussQuadratureRulesForLine.cpp:90, 112-121 *)
Definition Cn1_3_2 : rule := Rule Line 3 2 [
   (Lit 1 0, [Neg (Sqrt (Lit 3 0)) / Lit 3 0]);
   (Lit 1 0, [Sqrt (Lit 3 0) / Lit 3 0])].

(** GaussQuadratureRulesForLine.cpp:127, 149-161 *)
Definition Cn1_5_3 : rule := Rule Line 5 3 [
   (Lit 5 0 / Lit 9 0, [Neg (Sqrt (Lit 3 0 / Lit 5 0))]);
   (Lit 8 0 / Lit 9 0, [Lit 0 0]);
   (Lit 5 0 / Lit 9 0, [Sqrt (Lit 3 0 / Lit 5 0)])].

(** GaussQuadratureRulesForLine.cpp:167, 189-204 *)
Definition C1_7_4 : rule := Rule Line 7 4 [
   (Lit 347854845137453 15, [Neg (Lit 861136311594053 15)]);
   (Lit 652145154862546 15, [Neg (Lit 339981043584856 15)]);
   (Lit 652145154862546 15, [Lit 339981043584856 15]);
   (Lit 347854845137453 15, [Lit 861136311594053 15])].

(** GaussQuadratureRulesForLine.cpp:210, 232-250 *)
Definition C1_9_5 : rule := Rule Line 9 5 [
   (Lit 236926885056189 15, [Neg (Lit 906179845938663 15)]);
   (Lit 478628670499366 15, [Neg (Lit 538469310105683 15)]);
   (Lit 56888888888888888888888888 26, [Lit 0 0]);
   (Lit 478628670499366 15, [Lit 538469310105683 15]);
   (Lit 236926885056189 15, [Lit 906179845938663 15])].

(** GaussQuadratureRulesForLine.cpp:256, 278-299 *)
Definition C1_11_6 : rule := Rule Line 11 6 [
   (Lit 17132449237917 14, [Neg (Lit 932469514203152 15)]);
   (Lit 360761573048138 15, [Neg (Lit 661209386466264 15)]);
   (Lit 467913934572691 15, [Neg (Lit 238619186083196 15)]);
   (Lit 467913934572691 15, [Lit 238619186083196 15]);
   (Lit 360761573048138 15, [Lit 661209386466264 15]);
   (Lit 17132449237917 14, [Lit 932469514203152 15])].

(** GaussQuadratureRulesForSquare.cpp:55, 77-83 *)
Definition Cn2_1_1 : rule := Rule Square 1 1 [
   (Lit 2 0 * Lit 2 0, [Lit 0 0; Lit 0 0])].

(** GaussQuadratureRulesForSquare.cpp:88, 110-125 *)
Definition Cn2_3_4 : rule := Rule Square 3 4 [
   (Lit 1 0 * Lit 1 0, [Neg (Sqrt (Lit 3 0)) / Lit 3 0; Neg (Sqrt (Lit 3 0)) / Lit 3 0]);
   (Lit 1 0 * Lit 1 0, [Sqrt (Lit 3 0) / Lit 3 0; Neg (Sqrt (Lit 3 0)) / Lit 3 0]);
   (Lit 1 0 * Lit 1 0, [Neg (Sqrt (Lit 3 0)) / Lit 3 0; Sqrt (Lit 3 0) / Lit 3 0]);
   (Lit 1 0 * Lit 1 0, [Sqrt (Lit 3 0) / Lit 3 0; Sqrt (Lit 3 0) / Lit 3 0])].

(** GaussQuadratureRulesForSquare.cpp:130, 152-182 *)
Definition Cn2_5_9 : rule := Rule Square 5 9 [
   (Lit 5 0 / Lit 9 0 * (Lit 5 0 / Lit 9 0), [Neg (Sqrt (Lit 3 0 / Lit 5 0)); Neg (Sqrt (Lit 3 0 / Lit 5 0))]);
   (Lit 8 0 / Lit 9 0 * (Lit 5 0 / Lit 9 0), [Lit 0 0; Neg (Sqrt (Lit 3 0 / Lit 5 0))]);
   (Lit 5 0 / Lit 9 0 * (Lit 5 0 / Lit 9 0), [Sqrt (Lit 3 0 / Lit 5 0); Neg (Sqrt (Lit 3 0 / Lit 5 0))]);
   (Lit 5 0 / Lit 9 0 * (Lit 8 0 / Lit 9 0), [Neg (Sqrt (Lit 3 0 / Lit 5 0)); Lit 0 0]);
   (Lit 8 0 / Lit 9 0 * (Lit 8 0 / Lit 9 0), [Lit 0 0; Lit 0 0]);
   (Lit 5 0 / Lit 9 0 * (Lit 8 0 / Lit 9 0), [Sqrt (Lit 3 0 / Lit 5 0); Lit 0 0]);
   (Lit 5 0 / Lit 9 0 * (Lit 5 0 / Lit 9 0), [Neg (Sqrt (Lit 3 0 / Lit 5 0)); Sqrt (Lit 3 0 / Lit 5 0)]);
   (Lit 8 0 / Lit 9 0 * (Lit 5 0 / Lit 9 0), [Lit 0 0; Sqrt (Lit 3 0 / Lit 5 0)]);
   (Lit 5 0 / Lit 9 0 * (Lit 5 0 / Lit 9 0), [Sqrt (Lit 3 0 / Lit 5 0); Sqrt (Lit 3 0 / Lit 5 0)])].

(** GaussQuadratureRulesForSquare.cpp:187, 209-276 *)
Definition C2_7_4 : rule := Rule Square 7 16 [
   ((Lit 59 0 + Lit 6 0 * Sqrt (Lit 30 0)) / Lit 216 0, [Sqrt ((Lit 15 0 - Lit 2 0 * Sqrt (Lit 30 0)) / Lit 35 0); Sqrt ((Lit 15 0 - Lit 2 0 * Sqrt (Lit 30 0)) / Lit 35 0)]);
   ((Lit 59 0 + Lit 6 0 * Sqrt (Lit 30 0)) / Lit 216 0, [Neg (Sqrt ((Lit 15 0 - Lit 2 0 * Sqrt (Lit 30 0)) / Lit 35 0)); Sqrt ((Lit 15 0 - Lit 2 0 * Sqrt (Lit 30 0)) / Lit 35 0)]);
   ((Lit 59 0 + Lit 6 0 * Sqrt (Lit 30 0)) / Lit 216 0, [Sqrt ((Lit 15 0 - Lit 2 0 * Sqrt (Lit 30 0)) / Lit 35 0); Neg (Sqrt ((Lit 15 0 - Lit 2 0 * Sqrt (Lit 30 0)) / Lit 35 0))]);
   ((Lit 59 0 + Lit 6 0 * Sqrt (Lit 30 0)) / Lit 216 0, [Neg (Sqrt ((Lit 15 0 - Lit 2 0 * Sqrt (Lit 30 0)) / Lit 35 0)); Neg (Sqrt ((Lit 15 0 - Lit 2 0 * Sqrt (Lit 30 0)) / Lit 35 0))]);
   ((Lit 59 0 - Lit 6 0 * Sqrt (Lit 30 0)) / Lit 216 0, [Sqrt ((Lit 15 0 + Lit 2 0 * Sqrt (Lit 30 0)) / Lit 35 0); Sqrt ((Lit 15 0 + Lit 2 0 * Sqrt (Lit 30 0)) / Lit 35 0)]);
   ((Lit 59 0 - Lit 6 0 * Sqrt (Lit 30 0)) / Lit 216 0, [Neg (Sqrt ((Lit 15 0 + Lit 2 0 * Sqrt (Lit 30 0)) / Lit 35 0)); Sqrt ((Lit 15 0 + Lit 2 0 * Sqrt (Lit 30 0)) / Lit 35 0)]);
   ((Lit 59 0 - Lit 6 0 * Sqrt (Lit 30 0)) / Lit 216 0, [Sqrt ((Lit 15 0 + Lit 2 0 * Sqrt (Lit 30 0)) / Lit 35 0); Neg (Sqrt ((Lit 15 0 + Lit 2 0 * Sqrt (Lit 30 0)) / Lit 35 0))]);
   ((Lit 59 0 - Lit 6 0 * Sqrt (Lit 30 0)) / Lit 216 0, [Neg (Sqrt ((Lit 15 0 + Lit 2 0 * Sqrt (Lit 30 0)) / Lit 35 0)); Neg (Sqrt ((Lit 15 0 + Lit 2 0 * Sqrt (Lit 30 0)) / Lit 35 0))]);
   (Lit 49 0 / Lit 216 0, [Sqrt ((Lit 15 0 - Lit 2 0 * Sqrt (Lit 30 0)) / Lit 35 0); Sqrt ((Lit 15 0 + Lit 2 0 * Sqrt (Lit 30 0)) / Lit 35 0)]);
   (Lit 49 0 / Lit 216 0, [Neg (Sqrt ((Lit 15 0 - Lit 2 0 * Sqrt (Lit 30 0)) / Lit 35 0)); Sqrt ((Lit 15 0 + Lit 2 0 * Sqrt (Lit 30 0)) / Lit 35 0)]);
   (Lit 49 0 / Lit 216 0, [Sqrt ((Lit 15 0 - Lit 2 0 * Sqrt (Lit 30 0)) / Lit 35 0); Neg (Sqrt ((Lit 15 0 + Lit 2 0 * Sqrt (Lit 30 0)) / Lit 35 0))]);
   (Lit 49 0 / Lit 216 0, [Neg (Sqrt ((Lit 15 0 - Lit 2 0 * Sqrt (Lit 30 0)) / Lit 35 0)); Neg (Sqrt ((Lit 15 0 + Lit 2 0 * Sqrt (Lit 30 0)) / Lit 35 0))]);
   (Lit 49 0 / Lit 216 0, [Sqrt ((Lit 15 0 + Lit 2 0 * Sqrt (Lit 30 0)) / Lit 35 0); Sqrt ((Lit 15 0 - Lit 2 0 * Sqrt (Lit 30 0)) / Lit 35 0)]);
   (Lit 49 0 / Lit 216 0, [Neg (Sqrt ((Lit 15 0 + Lit 2 0 * Sqrt (Lit 30 0)) / Lit 35 0)); Sqrt ((Lit 15 0 - Lit 2 0 * Sqrt (Lit 30 0)) / Lit 35 0)]);
   (Lit 49 0 / Lit 216 0, [Sqrt ((Lit 15 0 + Lit 2 0 * Sqrt (Lit 30 0)) / Lit 35 0); Neg (Sqrt ((Lit 15 0 - Lit 2 0 * Sqrt (Lit 30 0)) / Lit 35 0))]);
   (Lit 49 0 / Lit 216 0, [Neg (Sqrt ((Lit 15 0 + Lit 2 0 * Sqrt (Lit 30 0)) / Lit 35 0)); Neg (Sqrt ((Lit 15 0 - Lit 2 0 * Sqrt (Lit 30 0)) / Lit 35 0))])].

(** GaussQuadratureRulesForSquare.cpp:281, 303-319 *)
Definition C2_9_5 : rule := Rule Square 9 25 (product2 (entries C1_9_5)).

(** GaussQuadratureRulesForSquare.cpp:324, 346-362 *)
Definition C2_11_6 : rule := Rule Square 11 36 (product2 (entries C1_11_6)).

(** GaussQuadratureRulesForTriangle.cpp:54, 76-82 *)
Definition Tn2_1_1 : rule := Rule Triangle 1 1 [
   (Lit 5 1, [Lit 33333333333333348 17; Lit 33333333333333348 17])].

(** GaussQuadratureRulesForTriangle.cpp:87, 109-121 *)
Definition Tn2_2_3 : rule := Rule Triangle 2 3 [
   (Lit 16666666666666674 17, [Lit 16666666666666652 17; Lit 16666666666666652 17]);
   (Lit 16666666666666674 17, [Lit 16666666666666652 17; Lit 66666666666666652 17]);
   (Lit 16666666666666674 17, [Lit 66666666666666652 17; Lit 16666666666666652 17])].

(** GaussQuadratureRulesForTriangle.cpp:126, 148-169 *)
Definition Tn2_4_6 : rule := Rule Triangle 4 6 [
   (Lit 1116907948390055 16, [Lit 445948490915965 15; Lit 445948490915965 15]);
   (Lit 1116907948390055 16, [Lit 445948490915965 15; Lit 10810301816807 14]);
   (Lit 1116907948390055 16, [Lit 10810301816807 14; Lit 445948490915965 15]);
   (Lit 54975871827660998 18, [Lit 91576213509771021 18; Lit 91576213509771021 18]);
   (Lit 54975871827660998 18, [Lit 91576213509771021 18; Lit 81684757298045896 17]);
   (Lit 54975871827660998 18, [Lit 81684757298045896 17; Lit 91576213509771021 18])].

(** GaussQuadratureRulesForTriangle.cpp:174, 196-220 *)
Definition T2_5_7 : rule := Rule Triangle 5 7 [
   (Lit 1125 4, [Lit 33333333333333348 17; Lit 33333333333333348 17]);
   (Lit 66197076394252999 18, [Lit 470142064105115 15; Lit 470142064105115 15]);
   (Lit 66197076394252999 18, [Lit 470142064105115 15; Lit 59715871789770003 18]);
   (Lit 66197076394252999 18, [Lit 59715871789770003 18; Lit 470142064105115 15]);
   (Lit 629695902724135 16, [Lit 10128650732345601 17; Lit 10128650732345601 17]);
   (Lit 629695902724135 16, [Lit 10128650732345601 17; Lit 79742698535308698 17]);
   (Lit 629695902724135 16, [Lit 79742698535308698 17; Lit 10128650732345601 17])].

(** GaussQuadratureRulesForTriangle.cpp:225, 247-286 *)
Definition T2_6_12 : rule := Rule Triangle 6 12 [
   (Lit 58393137863189497 18, [Lit 24928674517090998 17; Lit 24928674517090998 17]);
   (Lit 58393137863189497 18, [Lit 24928674517090998 17; Lit 50142650965817903 17]);
   (Lit 58393137863189497 18, [Lit 50142650965817903 17; Lit 24928674517090998 17]);
   (Lit 254224531851035 16, [Lit 63089014491502005 18; Lit 63089014491502005 18]);
   (Lit 254224531851035 16, [Lit 63089014491502005 18; Lit 87382197101699599 17]);
   (Lit 254224531851035 16, [Lit 87382197101699599 17; Lit 63089014491502005 18]);
   (Lit 41425537809187001 18, [Lit 310352451033784 15; Lit 636502499121399 15]);
   (Lit 41425537809187001 18, [Lit 636502499121399 15; Lit 53145049844816994 18]);
   (Lit 41425537809187001 18, [Lit 53145049844816994 18; Lit 310352451033784 15]);
   (Lit 41425537809187001 18, [Lit 310352451033784 15; Lit 53145049844816994 18]);
   (Lit 41425537809187001 18, [Lit 636502499121399 15; Lit 310352451033784 15]);
   (Lit 41425537809187001 18, [Lit 53145049844816994 18; Lit 636502499121399 15])].

(** GaussQuadratureRulesForTriangle.cpp:291, 313-364 *)
Definition T2_8_16 : rule := Rule Triangle 8 16 [
   (Lit 72157803838893503 18, [Lit 33333333333333348 17; Lit 33333333333333348 17]);
   (Lit 47545817133642497 18, [Lit 45929258829272301 17; Lit 45929258829272301 17]);
   (Lit 47545817133642497 18, [Lit 45929258829272301 17; Lit 81414823414554027 18]);
   (Lit 47545817133642497 18, [Lit 81414823414554027 18; Lit 45929258829272301 17]);
   (Lit 51608685267358997 18, [Lit 17056930775175999 17; Lit 17056930775175999 17]);
   (Lit 51608685267358997 18, [Lit 17056930775175999 17; Lit 65886138449648002 17]);
   (Lit 51608685267358997 18, [Lit 65886138449648002 17; Lit 17056930775175999 17]);
   (Lit 16229248811599001 18, [Lit 50547228317031012 18; Lit 50547228317031012 18]);
   (Lit 16229248811598752 18, [Lit 50547228317031012 18; Lit 89890554336593798 17]);
   (Lit 16229248811599001 18, [Lit 89890554336593798 17; Lit 50547228317031012 18]);
   (Lit 136151570872175 16, [Lit 263112829634638 15; Lit 72849239295540402 17]);
   (Lit 136151570872175 16, [Lit 72849239295540402 17; Lit 83947774099579764 19]);
   (Lit 136151570872175 16, [Lit 83947774099579764 19; Lit 263112829634638 15]);
   (Lit 136151570872175 16, [Lit 263112829634638 15; Lit 83947774099579764 19]);
   (Lit 136151570872175 16, [Lit 72849239295540402 17; Lit 263112829634638 15]);
   (Lit 136151570872175 16, [Lit 83947774099579764 19; Lit 72849239295540402 17])].

(** GaussQuadratureRulesForTriangle.cpp:369, 391-451 *)
Definition T2_9_19 : rule := Rule Triangle 9 19 [
   (Lit 48567898141399501 18, [Lit 33333333333333348 17; Lit 33333333333333348 17]);
   (Lit 15667350113569501 18, [Lit 48968251919873801 17; Lit 48968251919873801 17]);
   (Lit 15667350113569501 18, [Lit 48968251919873801 17; Lit 20634961602524982 18]);
   (Lit 15667350113569501 18, [Lit 20634961602524982 18; Lit 48968251919873801 17]);
   (Lit 38913770502387 15, [Lit 43708959149293702 17; Lit 43708959149293702 17]);
   (Lit 38913770502387 15, [Lit 43708959149293702 17; Lit 12582081701412701 17]);
   (Lit 38913770502387 15, [Lit 12582081701412701 17; Lit 43708959149293702 17]);
   (Lit 39823869463604999 18, [Lit 18820353561903302 17; Lit 18820353561903302 17]);
   (Lit 39823869463604999 18, [Lit 18820353561903302 17; Lit 62359292876193506 17]);
   (Lit 39823869463604999 18, [Lit 62359292876193506 17; Lit 18820353561903302 17]);
   (Lit 12788837829349 15, [Lit 44729513394453024 18; Lit 44729513394453024 18]);
   (Lit 12788837829349 15, [Lit 44729513394453024 18; Lit 91054097321109495 17]);
   (Lit 12788837829349 15, [Lit 91054097321109495 17; Lit 44729513394453024 18]);
   (Lit 21641769688644501 18, [Lit 22196298916076601 17; Lit 74119859878449801 17]);
   (Lit 21641769688644501 18, [Lit 74119859878449801 17; Lit 36838412054735981 18]);
   (Lit 21641769688644501 18, [Lit 36838412054735981 18; Lit 22196298916076601 17]);
   (Lit 21641769688644501 18, [Lit 22196298916076601 17; Lit 36838412054735981 18]);
   (Lit 21641769688644501 18, [Lit 74119859878449801 17; Lit 22196298916076601 17]);
   (Lit 21641769688644501 18, [Lit 36838412054735981 18; Lit 74119859878449801 17])].

(** GaussQuadratureRulesForTriangle.cpp:456, 478-556 *)
Definition T2_10_25 : rule := Rule Triangle 10 25 [
   (Lit 45408995191376998 18, [Lit 33333333333333348 17; Lit 33333333333333348 17]);
   (Lit 18362978878233498 18, [Lit 485577633383657 15; Lit 485577633383657 15]);
   (Lit 18362978878233498 18, [Lit 485577633383657 15; Lit 28844733232684994 18]);
   (Lit 18362978878233498 18, [Lit 28844733232684994 18; Lit 485577633383657 15]);
   (Lit 22660529717764 15, [Lit 10948157548503701 17; Lit 10948157548503701 17]);
   (Lit 22660529717764 15, [Lit 10948157548503701 17; Lit 78103684902992598 17]);
   (Lit 22660529717764 15, [Lit 78103684902992598 17; Lit 10948157548503701 17]);
   (Lit 36378958422710002 18, [Lit 30793983876412101 17; Lit 55035294182099903 17]);
   (Lit 36378958422710002 18, [Lit 55035294182099903 17; Lit 14170721941488001 17]);
   (Lit 36378958422710002 18, [Lit 14170721941488001 17; Lit 30793983876412101 17]);
   (Lit 36378958422710002 18, [Lit 30793983876412101 17; Lit 14170721941488001 17]);
   (Lit 36378958422710002 18, [Lit 55035294182099903 17; Lit 30793983876412101 17]);
   (Lit 36378958422710002 18, [Lit 14170721941488001 17; Lit 55035294182099903 17]);
   (Lit 141636212655285 16, [Lit 246672560639903 15; Lit 72832390459741103 17]);
   (Lit 141636212655285 16, [Lit 72832390459741103 17; Lit 25003534762686019 18]);
   (Lit 141636212655285 16, [Lit 25003534762686019 18; Lit 246672560639903 15]);
   (Lit 141636212655285 16, [Lit 246672560639903 15; Lit 25003534762686019 18]);
   (Lit 141636212655285 16, [Lit 72832390459741103 17; Lit 246672560639903 15]);
   (Lit 141636212655285 16, [Lit 25003534762686019 18; Lit 72832390459741103 17]);
   (Lit 47108334818665 16, [Lit 66803251012200027 18; Lit 92365593358749998 17]);
   (Lit 47108334818665 16, [Lit 92365593358749998 17; Lit 95408154002989964 19]);
   (Lit 47108334818665 16, [Lit 95408154002989964 19; Lit 66803251012200027 18]);
   (Lit 47108334818665 16, [Lit 66803251012200027 18; Lit 95408154002989964 19]);
   (Lit 47108334818665 16, [Lit 92365593358749998 17; Lit 66803251012200027 18]);
   (Lit 47108334818665 16, [Lit 95408154002989964 19; Lit 92365593358749998 17])].

(** GaussQuadratureRulesForTriangle.cpp:561, 583-690 *)
Definition T2_11_28 : rule := Rule Triangle 11 28 [
   (Lit 8005121009414541471823946 26 / Lit 2 0, [Lit 33333333333333333 17; Lit 33333333333333333 17]);
   (Lit 671206859217794936920366 25 / Lit 2 0, [Lit 2154717529698554 16; Lit 2154717529698554 16]);
   (Lit 671206859217794936920366 25 / Lit 2 0, [Lit 2154717529698554 16; Lit 1 0 - Lit 2 0 * Lit 2154717529698554 16]);
   (Lit 671206859217794936920366 25 / Lit 2 0, [Lit 1 0 - Lit 2 0 * Lit 2154717529698554 16; Lit 2154717529698554 16]);
   (Lit 1260585310278218701321 23 / Lit 2 0, [Lit 312795522110139299208957 25; Lit 312795522110139299208957 25]);
   (Lit 1260585310278218701321 23 / Lit 2 0, [Lit 312795522110139299208957 25; Lit 1 0 - Lit 2 0 * Lit 312795522110139299208957 25]);
   (Lit 1260585310278218701321 23 / Lit 2 0, [Lit 1 0 - Lit 2 0 * Lit 312795522110139299208957 25; Lit 312795522110139299208957 25]);
   (Lit 405824609257477118939 22 / Lit 2 0, [Lit 1155035357737921489271 22; Lit 1155035357737921489271 22]);
   (Lit 405824609257477118939 22 / Lit 2 0, [Lit 1155035357737921489271 22; Lit 1 0 - Lit 2 0 * Lit 1155035357737921489271 22]);
   (Lit 405824609257477118939 22 / Lit 2 0, [Lit 1 0 - Lit 2 0 * Lit 1155035357737921489271 22; Lit 1155035357737921489271 22]);
   (Lit 617123685629664404606197 25 / Lit 2 0, [Lit 4357774152823301051418 22; Lit 4357774152823301051418 22]);
   (Lit 617123685629664404606197 25 / Lit 2 0, [Lit 4357774152823301051418 22; Lit 1 0 - Lit 2 0 * Lit 4357774152823301051418 22]);
   (Lit 617123685629664404606197 25 / Lit 2 0, [Lit 1 0 - Lit 2 0 * Lit 4357774152823301051418 22; Lit 4357774152823301051418 22]);
   (Lit 112084059305228051993 22 / Lit 2 0, [Lit 49988403867731539816248 23; Lit 49988403867731539816248 23]);
   (Lit 112084059305228051993 22 / Lit 2 0, [Lit 49988403867731539816248 23; Lit 1 0 - Lit 2 0 * Lit 49988403867731539816248 23]);
   (Lit 112084059305228051993 22 / Lit 2 0, [Lit 1 0 - Lit 2 0 * Lit 49988403867731539816248 23; Lit 49988403867731539816248 23]);
   (Lit 4115295964681454289321412 26 / Lit 2 0, [Lit 3164262022308527 16; Lit 48055796920866524676254359 27]);
   (Lit 4115295964681454289321412 26 / Lit 2 0, [Lit 48055796920866524676254359 27; Lit 3164262022308527 16]);
   (Lit 4115295964681454289321412 26 / Lit 2 0, [Lit 3164262022308527 16; Lit 1 0 - Lit 48055796920866524676254359 27 - Lit 3164262022308527 16]);
   (Lit 4115295964681454289321412 26 / Lit 2 0, [Lit 1 0 - Lit 48055796920866524676254359 27 - Lit 3164262022308527 16; Lit 3164262022308527 16]);
   (Lit 4115295964681454289321412 26 / Lit 2 0, [Lit 48055796920866524676254359 27; Lit 1 0 - Lit 48055796920866524676254359 27 - Lit 3164262022308527 16]);
   (Lit 4115295964681454289321412 26 / Lit 2 0, [Lit 1 0 - Lit 48055796920866524676254359 27 - Lit 3164262022308527 16; Lit 48055796920866524676254359 27]);
   (Lit 155569514489285688575 22 / Lit 2 0, [Lit 1614188489108937 16; Lit 156544537223683037837 22]);
   (Lit 155569514489285688575 22 / Lit 2 0, [Lit 156544537223683037837 22; Lit 1614188489108937 16]);
   (Lit 155569514489285688575 22 / Lit 2 0, [Lit 1614188489108937 16; Lit 1 0 - Lit 1614188489108937 16 - Lit 156544537223683037837 22]);
   (Lit 155569514489285688575 22 / Lit 2 0, [Lit 1 0 - Lit 1614188489108937 16 - Lit 156544537223683037837 22; Lit 1614188489108937 16]);
   (Lit 155569514489285688575 22 / Lit 2 0, [Lit 156544537223683037837 22; Lit 1 0 - Lit 1614188489108937 16 - Lit 156544537223683037837 22]);
   (Lit 155569514489285688575 22 / Lit 2 0, [Lit 1 0 - Lit 1614188489108937 16 - Lit 156544537223683037837 22; Lit 156544537223683037837 22])].

(** GaussQuadratureRulesForCube.cpp:51, 71-77 *)
Definition Cn3_1_1 : rule := Rule Cube 1 1 [
   (Lit 2 0 * Lit 2 0 * Lit 2 0, [Lit 0 0; Lit 0 0; Lit 0 0])].

(** GaussQuadratureRulesForCube.cpp:83, 103-138 *)
Definition Cn3_3_4 : rule := Rule Cube 3 8 [
   (Lit 1 0 * Lit 1 0 * Lit 1 0, [Neg (Sqrt (Lit 3 0)) / Lit 3 0; Neg (Sqrt (Lit 3 0)) / Lit 3 0; Neg (Sqrt (Lit 3 0)) / Lit 3 0]);
   (Lit 1 0 * Lit 1 0 * Lit 1 0, [Sqrt (Lit 3 0) / Lit 3 0; Neg (Sqrt (Lit 3 0)) / Lit 3 0; Neg (Sqrt (Lit 3 0)) / Lit 3 0]);
   (Lit 1 0 * Lit 1 0 * Lit 1 0, [Neg (Sqrt (Lit 3 0)) / Lit 3 0; Sqrt (Lit 3 0) / Lit 3 0; Neg (Sqrt (Lit 3 0)) / Lit 3 0]);
   (Lit 1 0 * Lit 1 0 * Lit 1 0, [Sqrt (Lit 3 0) / Lit 3 0; Sqrt (Lit 3 0) / Lit 3 0; Neg (Sqrt (Lit 3 0)) / Lit 3 0]);
   (Lit 1 0 * Lit 1 0 * Lit 1 0, [Neg (Sqrt (Lit 3 0)) / Lit 3 0; Neg (Sqrt (Lit 3 0)) / Lit 3 0; Sqrt (Lit 3 0) / Lit 3 0]);
   (Lit 1 0 * Lit 1 0 * Lit 1 0, [Sqrt (Lit 3 0) / Lit 3 0; Neg (Sqrt (Lit 3 0)) / Lit 3 0; Sqrt (Lit 3 0) / Lit 3 0]);
   (Lit 1 0 * Lit 1 0 * Lit 1 0, [Neg (Sqrt (Lit 3 0)) / Lit 3 0; Sqrt (Lit 3 0) / Lit 3 0; Sqrt (Lit 3 0) / Lit 3 0]);
   (Lit 1 0 * Lit 1 0 * Lit 1 0, [Sqrt (Lit 3 0) / Lit 3 0; Sqrt (Lit 3 0) / Lit 3 0; Sqrt (Lit 3 0) / Lit 3 0])].

(** GaussQuadratureRulesForCube.cpp:144, 164-256 *)
Definition Cn3_5_9 : rule := Rule Cube 5 27 [
   (Lit 5 0 / Lit 9 0 * (Lit 5 0 / Lit 9 0) * (Lit 5 0 / Lit 9 0), [Neg (Sqrt (Lit 3 0 / Lit 5 0)); Neg (Sqrt (Lit 3 0 / Lit 5 0)); Neg (Sqrt (Lit 3 0 / Lit 5 0))]);
   (Lit 8 0 / Lit 9 0 * (Lit 5 0 / Lit 9 0) * (Lit 5 0 / Lit 9 0), [Lit 0 0; Neg (Sqrt (Lit 3 0 / Lit 5 0)); Neg (Sqrt (Lit 3 0 / Lit 5 0))]);
   (Lit 5 0 / Lit 9 0 * (Lit 5 0 / Lit 9 0) * (Lit 5 0 / Lit 9 0), [Sqrt (Lit 3 0 / Lit 5 0); Neg (Sqrt (Lit 3 0 / Lit 5 0)); Neg (Sqrt (Lit 3 0 / Lit 5 0))]);
   (Lit 5 0 / Lit 9 0 * (Lit 8 0 / Lit 9 0) * (Lit 5 0 / Lit 9 0), [Neg (Sqrt (Lit 3 0 / Lit 5 0)); Lit 0 0; Neg (Sqrt (Lit 3 0 / Lit 5 0))]);
   (Lit 8 0 / Lit 9 0 * (Lit 8 0 / Lit 9 0) * (Lit 5 0 / Lit 9 0), [Lit 0 0; Lit 0 0; Neg (Sqrt (Lit 3 0 / Lit 5 0))]);
   (Lit 5 0 / Lit 9 0 * (Lit 8 0 / Lit 9 0) * (Lit 5 0 / Lit 9 0), [Sqrt (Lit 3 0 / Lit 5 0); Lit 0 0; Neg (Sqrt (Lit 3 0 / Lit 5 0))]);
   (Lit 5 0 / Lit 9 0 * (Lit 5 0 / Lit 9 0) * (Lit 5 0 / Lit 9 0), [Neg (Sqrt (Lit 3 0 / Lit 5 0)); Sqrt (Lit 3 0 / Lit 5 0); Neg (Sqrt (Lit 3 0 / Lit 5 0))]);
   (Lit 8 0 / Lit 9 0 * (Lit 5 0 / Lit 9 0) * (Lit 5 0 / Lit 9 0), [Lit 0 0; Sqrt (Lit 3 0 / Lit 5 0); Neg (Sqrt (Lit 3 0 / Lit 5 0))]);
   (Lit 5 0 / Lit 9 0 * (Lit 5 0 / Lit 9 0) * (Lit 5 0 / Lit 9 0), [Sqrt (Lit 3 0 / Lit 5 0); Sqrt (Lit 3 0 / Lit 5 0); Neg (Sqrt (Lit 3 0 / Lit 5 0))]);
   (Lit 5 0 / Lit 9 0 * (Lit 5 0 / Lit 9 0) * (Lit 8 0 / Lit 9 0), [Neg (Sqrt (Lit 3 0 / Lit 5 0)); Neg (Sqrt (Lit 3 0 / Lit 5 0)); Lit 0 0]);
   (Lit 8 0 / Lit 9 0 * (Lit 5 0 / Lit 9 0) * (Lit 8 0 / Lit 9 0), [Lit 0 0; Neg (Sqrt (Lit 3 0 / Lit 5 0)); Lit 0 0]);
   (Lit 5 0 / Lit 9 0 * (Lit 5 0 / Lit 9 0) * (Lit 8 0 / Lit 9 0), [Sqrt (Lit 3 0 / Lit 5 0); Neg (Sqrt (Lit 3 0 / Lit 5 0)); Lit 0 0]);
   (Lit 5 0 / Lit 9 0 * (Lit 8 0 / Lit 9 0) * (Lit 8 0 / Lit 9 0), [Neg (Sqrt (Lit 3 0 / Lit 5 0)); Lit 0 0; Lit 0 0]);
   (Lit 8 0 / Lit 9 0 * (Lit 8 0 / Lit 9 0) * (Lit 8 0 / Lit 9 0), [Lit 0 0; Lit 0 0; Lit 0 0]);
   (Lit 5 0 / Lit 9 0 * (Lit 8 0 / Lit 9 0) * (Lit 8 0 / Lit 9 0), [Sqrt (Lit 3 0 / Lit 5 0); Lit 0 0; Lit 0 0]);
   (Lit 5 0 / Lit 9 0 * (Lit 5 0 / Lit 9 0) * (Lit 8 0 / Lit 9 0), [Neg (Sqrt (Lit 3 0 / Lit 5 0)); Sqrt (Lit 3 0 / Lit 5 0); Lit 0 0]);
   (Lit 8 0 / Lit 9 0 * (Lit 5 0 / Lit 9 0) * (Lit 8 0 / Lit 9 0), [Lit 0 0; Sqrt (Lit 3 0 / Lit 5 0); Lit 0 0]);
   (Lit 5 0 / Lit 9 0 * (Lit 5 0 / Lit 9 0) * (Lit 8 0 / Lit 9 0), [Sqrt (Lit 3 0 / Lit 5 0); Sqrt (Lit 3 0 / Lit 5 0); Lit 0 0]);
   (Lit 5 0 / Lit 9 0 * (Lit 5 0 / Lit 9 0) * (Lit 5 0 / Lit 9 0), [Neg (Sqrt (Lit 3 0 / Lit 5 0)); Neg (Sqrt (Lit 3 0 / Lit 5 0)); Sqrt (Lit 3 0 / Lit 5 0)]);
   (Lit 8 0 / Lit 9 0 * (Lit 5 0 / Lit 9 0) * (Lit 5 0 / Lit 9 0), [Lit 0 0; Neg (Sqrt (Lit 3 0 / Lit 5 0)); Sqrt (Lit 3 0 / Lit 5 0)]);
   (Lit 5 0 / Lit 9 0 * (Lit 5 0 / Lit 9 0) * (Lit 5 0 / Lit 9 0), [Sqrt (Lit 3 0 / Lit 5 0); Neg (Sqrt (Lit 3 0 / Lit 5 0)); Sqrt (Lit 3 0 / Lit 5 0)]);
   (Lit 5 0 / Lit 9 0 * (Lit 8 0 / Lit 9 0) * (Lit 5 0 / Lit 9 0), [Neg (Sqrt (Lit 3 0 / Lit 5 0)); Lit 0 0; Sqrt (Lit 3 0 / Lit 5 0)]);
   (Lit 8 0 / Lit 9 0 * (Lit 8 0 / Lit 9 0) * (Lit 5 0 / Lit 9 0), [Lit 0 0; Lit 0 0; Sqrt (Lit 3 0 / Lit 5 0)]);
   (Lit 5 0 / Lit 9 0 * (Lit 8 0 / Lit 9 0) * (Lit 5 0 / Lit 9 0), [Sqrt (Lit 3 0 / Lit 5 0); Lit 0 0; Sqrt (Lit 3 0 / Lit 5 0)]);
   (Lit 5 0 / Lit 9 0 * (Lit 5 0 / Lit 9 0) * (Lit 5 0 / Lit 9 0), [Neg (Sqrt (Lit 3 0 / Lit 5 0)); Sqrt (Lit 3 0 / Lit 5 0); Sqrt (Lit 3 0 / Lit 5 0)]);
   (Lit 8 0 / Lit 9 0 * (Lit 5 0 / Lit 9 0) * (Lit 5 0 / Lit 9 0), [Lit 0 0; Sqrt (Lit 3 0 / Lit 5 0); Sqrt (Lit 3 0 / Lit 5 0)]);
   (Lit 5 0 / Lit 9 0 * (Lit 5 0 / Lit 9 0) * (Lit 5 0 / Lit 9 0), [Sqrt (Lit 3 0 / Lit 5 0); Sqrt (Lit 3 0 / Lit 5 0); Sqrt (Lit 3 0 / Lit 5 0)])].

(** GaussQuadratureRulesForCube.cpp:262, 282-304 *)
Definition C3_7_2 : rule := Rule Cube 7 64 (product3 (entries C1_7_4)).

(** GaussQuadratureRulesForCube.cpp:310, 330-352 *)
Definition C3_9_2 : rule := Rule Cube 9 125 (product3 (entries C1_9_5)).

(** GaussQuadratureRulesForCube.cpp:358, 378-400 *)
Definition C3_11_2 : rule := Rule Cube 11 216 (product3 (entries C1_11_6)).

(** GaussQuadratureRulesForPyramid.cpp:54, 76-95 *)
Definition Pyramid_1_4 : rule := Rule Pyramid 1 4 [
   (Lit 2 0 * Lit 2 0 * Lit 1108884156 10, [Lit 0 0 * (Lit 1 0 - Lit 4850054945 11); Lit 0 0 * (Lit 1 0 - Lit 4850054945 11); Lit 4850054945 11]);
   (Lit 2 0 * Lit 2 0 * Lit 1434587898 10, [Lit 0 0 * (Lit 1 0 - Lit 2386007376 10); Lit 0 0 * (Lit 1 0 - Lit 2386007376 10); Lit 2386007376 10]);
   (Lit 2 0 * Lit 2 0 * Lit 6863388717 11, [Lit 0 0 * (Lit 1 0 - Lit 5170472951 10); Lit 0 0 * (Lit 1 0 - Lit 5170472951 10); Lit 5170472951 10]);
   (Lit 2 0 * Lit 2 0 * Lit 1035224075 11, [Lit 0 0 * (Lit 1 0 - Lit 7958514179 10); Lit 0 0 * (Lit 1 0 - Lit 7958514179 10); Lit 7958514179 10])].

(** GaussQuadratureRulesForPyramid.cpp:100, 123-206 *)
Definition Pyramid_3_16 : rule := Rule Pyramid 3 16 [
   (Lit 1 0 * Lit 1 0 * Lit 1108884156 10, [Neg (Sqrt (Lit 3 0)) / Lit 3 0 * (Lit 1 0 - Lit 4850054945 11); Neg (Sqrt (Lit 3 0)) / Lit 3 0 * (Lit 1 0 - Lit 4850054945 11); Lit 4850054945 11]);
   (Lit 1 0 * Lit 1 0 * Lit 1108884156 10, [Sqrt (Lit 3 0) / Lit 3 0 * (Lit 1 0 - Lit 4850054945 11); Neg (Sqrt (Lit 3 0)) / Lit 3 0 * (Lit 1 0 - Lit 4850054945 11); Lit 4850054945 11]);
   (Lit 1 0 * Lit 1 0 * Lit 1108884156 10, [Neg (Sqrt (Lit 3 0)) / Lit 3 0 * (Lit 1 0 - Lit 4850054945 11); Sqrt (Lit 3 0) / Lit 3 0 * (Lit 1 0 - Lit 4850054945 11); Lit 4850054945 11]);
   (Lit 1 0 * Lit 1 0 * Lit 1108884156 10, [Sqrt (Lit 3 0) / Lit 3 0 * (Lit 1 0 - Lit 4850054945 11); Sqrt (Lit 3 0) / Lit 3 0 * (Lit 1 0 - Lit 4850054945 11); Lit 4850054945 11]);
   (Lit 1 0 * Lit 1 0 * Lit 1434587898 10, [Neg (Sqrt (Lit 3 0)) / Lit 3 0 * (Lit 1 0 - Lit 2386007376 10); Neg (Sqrt (Lit 3 0)) / Lit 3 0 * (Lit 1 0 - Lit 2386007376 10); Lit 2386007376 10]);
   (Lit 1 0 * Lit 1 0 * Lit 1434587898 10, [Sqrt (Lit 3 0) / Lit 3 0 * (Lit 1 0 - Lit 2386007376 10); Neg (Sqrt (Lit 3 0)) / Lit 3 0 * (Lit 1 0 - Lit 2386007376 10); Lit 2386007376 10]);
   (Lit 1 0 * Lit 1 0 * Lit 1434587898 10, [Neg (Sqrt (Lit 3 0)) / Lit 3 0 * (Lit 1 0 - Lit 2386007376 10); Sqrt (Lit 3 0) / Lit 3 0 * (Lit 1 0 - Lit 2386007376 10); Lit 2386007376 10]);
   (Lit 1 0 * Lit 1 0 * Lit 1434587898 10, [Sqrt (Lit 3 0) / Lit 3 0 * (Lit 1 0 - Lit 2386007376 10); Sqrt (Lit 3 0) / Lit 3 0 * (Lit 1 0 - Lit 2386007376 10); Lit 2386007376 10]);
   (Lit 1 0 * Lit 1 0 * Lit 6863388717 11, [Neg (Sqrt (Lit 3 0)) / Lit 3 0 * (Lit 1 0 - Lit 5170472951 10); Neg (Sqrt (Lit 3 0)) / Lit 3 0 * (Lit 1 0 - Lit 5170472951 10); Lit 5170472951 10]);
   (Lit 1 0 * Lit 1 0 * Lit 6863388717 11, [Sqrt (Lit 3 0) / Lit 3 0 * (Lit 1 0 - Lit 5170472951 10); Neg (Sqrt (Lit 3 0)) / Lit 3 0 * (Lit 1 0 - Lit 5170472951 10); Lit 5170472951 10]);
   (Lit 1 0 * Lit 1 0 * Lit 6863388717 11, [Neg (Sqrt (Lit 3 0)) / Lit 3 0 * (Lit 1 0 - Lit 5170472951 10); Sqrt (Lit 3 0) / Lit 3 0 * (Lit 1 0 - Lit 5170472951 10); Lit 5170472951 10]);
   (Lit 1 0 * Lit 1 0 * Lit 6863388717 11, [Sqrt (Lit 3 0) / Lit 3 0 * (Lit 1 0 - Lit 5170472951 10); Sqrt (Lit 3 0) / Lit 3 0 * (Lit 1 0 - Lit 5170472951 10); Lit 5170472951 10]);
   (Lit 1 0 * Lit 1 0 * Lit 1035224075 11, [Neg (Sqrt (Lit 3 0)) / Lit 3 0 * (Lit 1 0 - Lit 7958514179 10); Neg (Sqrt (Lit 3 0)) / Lit 3 0 * (Lit 1 0 - Lit 7958514179 10); Lit 7958514179 10]);
   (Lit 1 0 * Lit 1 0 * Lit 1035224075 11, [Sqrt (Lit 3 0) / Lit 3 0 * (Lit 1 0 - Lit 7958514179 10); Neg (Sqrt (Lit 3 0)) / Lit 3 0 * (Lit 1 0 - Lit 7958514179 10); Lit 7958514179 10]);
   (Lit 1 0 * Lit 1 0 * Lit 1035224075 11, [Neg (Sqrt (Lit 3 0)) / Lit 3 0 * (Lit 1 0 - Lit 7958514179 10); Sqrt (Lit 3 0) / Lit 3 0 * (Lit 1 0 - Lit 7958514179 10); Lit 7958514179 10]);
   (Lit 1 0 * Lit 1 0 * Lit 1035224075 11, [Sqrt (Lit 3 0) / Lit 3 0 * (Lit 1 0 - Lit 7958514179 10); Sqrt (Lit 3 0) / Lit 3 0 * (Lit 1 0 - Lit 7958514179 10); Lit 7958514179 10])].

(** GaussQuadratureRulesForPyramid.cpp:211, 234-405 *)
Definition Pyramid_5_36 : rule := Rule Pyramid 5 36 [
   (Lit 5 0 / Lit 9 0 * (Lit 5 0 / Lit 9 0) * Lit 1108884156 10, [Neg (Sqrt (Lit 3 0 / Lit 5 0)) * (Lit 1 0 - Lit 4850054945 11); Neg (Sqrt (Lit 3 0 / Lit 5 0)) * (Lit 1 0 - Lit 4850054945 11); Lit 4850054945 11]);
   (Lit 8 0 / Lit 9 0 * (Lit 5 0 / Lit 9 0) * Lit 1108884156 10, [Lit 0 0 * (Lit 1 0 - Lit 4850054945 11); Neg (Sqrt (Lit 3 0 / Lit 5 0)) * (Lit 1 0 - Lit 4850054945 11); Lit 4850054945 11]);
   (Lit 5 0 / Lit 9 0 * (Lit 5 0 / Lit 9 0) * Lit 1108884156 10, [Sqrt (Lit 3 0 / Lit 5 0) * (Lit 1 0 - Lit 4850054945 11); Neg (Sqrt (Lit 3 0 / Lit 5 0)) * (Lit 1 0 - Lit 4850054945 11); Lit 4850054945 11]);
   (Lit 5 0 / Lit 9 0 * (Lit 8 0 / Lit 9 0) * Lit 1108884156 10, [Neg (Sqrt (Lit 3 0 / Lit 5 0)) * (Lit 1 0 - Lit 4850054945 11); Lit 0 0 * (Lit 1 0 - Lit 4850054945 11); Lit 4850054945 11]);
   (Lit 8 0 / Lit 9 0 * (Lit 8 0 / Lit 9 0) * Lit 1108884156 10, [Lit 0 0 * (Lit 1 0 - Lit 4850054945 11); Lit 0 0 * (Lit 1 0 - Lit 4850054945 11); Lit 4850054945 11]);
   (Lit 5 0 / Lit 9 0 * (Lit 8 0 / Lit 9 0) * Lit 1108884156 10, [Sqrt (Lit 3 0 / Lit 5 0) * (Lit 1 0 - Lit 4850054945 11); Lit 0 0 * (Lit 1 0 - Lit 4850054945 11); Lit 4850054945 11]);
   (Lit 5 0 / Lit 9 0 * (Lit 5 0 / Lit 9 0) * Lit 1108884156 10, [Neg (Sqrt (Lit 3 0 / Lit 5 0)) * (Lit 1 0 - Lit 4850054945 11); Sqrt (Lit 3 0 / Lit 5 0) * (Lit 1 0 - Lit 4850054945 11); Lit 4850054945 11]);
   (Lit 8 0 / Lit 9 0 * (Lit 5 0 / Lit 9 0) * Lit 1108884156 10, [Lit 0 0 * (Lit 1 0 - Lit 4850054945 11); Sqrt (Lit 3 0 / Lit 5 0) * (Lit 1 0 - Lit 4850054945 11); Lit 4850054945 11]);
   (Lit 5 0 / Lit 9 0 * (Lit 5 0 / Lit 9 0) * Lit 1108884156 10, [Sqrt (Lit 3 0 / Lit 5 0) * (Lit 1 0 - Lit 4850054945 11); Sqrt (Lit 3 0 / Lit 5 0) * (Lit 1 0 - Lit 4850054945 11); Lit 4850054945 11]);
   (Lit 5 0 / Lit 9 0 * (Lit 5 0 / Lit 9 0) * Lit 1434587898 10, [Neg (Sqrt (Lit 3 0 / Lit 5 0)) * (Lit 1 0 - Lit 2386007376 10); Neg (Sqrt (Lit 3 0 / Lit 5 0)) * (Lit 1 0 - Lit 2386007376 10); Lit 2386007376 10]);
   (Lit 8 0 / Lit 9 0 * (Lit 5 0 / Lit 9 0) * Lit 1434587898 10, [Lit 0 0 * (Lit 1 0 - Lit 2386007376 10); Neg (Sqrt (Lit 3 0 / Lit 5 0)) * (Lit 1 0 - Lit 2386007376 10); Lit 2386007376 10]);
   (Lit 5 0 / Lit 9 0 * (Lit 5 0 / Lit 9 0) * Lit 1434587898 10, [Sqrt (Lit 3 0 / Lit 5 0) * (Lit 1 0 - Lit 2386007376 10); Neg (Sqrt (Lit 3 0 / Lit 5 0)) * (Lit 1 0 - Lit 2386007376 10); Lit 2386007376 10]);
   (Lit 5 0 / Lit 9 0 * (Lit 8 0 / Lit 9 0) * Lit 1434587898 10, [Neg (Sqrt (Lit 3 0 / Lit 5 0)) * (Lit 1 0 - Lit 2386007376 10); Lit 0 0 * (Lit 1 0 - Lit 2386007376 10); Lit 2386007376 10]);
   (Lit 8 0 / Lit 9 0 * (Lit 8 0 / Lit 9 0) * Lit 1434587898 10, [Lit 0 0 * (Lit 1 0 - Lit 2386007376 10); Lit 0 0 * (Lit 1 0 - Lit 2386007376 10); Lit 2386007376 10]);
   (Lit 5 0 / Lit 9 0 * (Lit 8 0 / Lit 9 0) * Lit 1434587898 10, [Sqrt (Lit 3 0 / Lit 5 0) * (Lit 1 0 - Lit 2386007376 10); Lit 0 0 * (Lit 1 0 - Lit 2386007376 10); Lit 2386007376 10]);
   (Lit 5 0 / Lit 9 0 * (Lit 5 0 / Lit 9 0) * Lit 1434587898 10, [Neg (Sqrt (Lit 3 0 / Lit 5 0)) * (Lit 1 0 - Lit 2386007376 10); Sqrt (Lit 3 0 / Lit 5 0) * (Lit 1 0 - Lit 2386007376 10); Lit 2386007376 10]);
   (Lit 8 0 / Lit 9 0 * (Lit 5 0 / Lit 9 0) * Lit 1434587898 10, [Lit 0 0 * (Lit 1 0 - Lit 2386007376 10); Sqrt (Lit 3 0 / Lit 5 0) * (Lit 1 0 - Lit 2386007376 10); Lit 2386007376 10]);
   (Lit 5 0 / Lit 9 0 * (Lit 5 0 / Lit 9 0) * Lit 1434587898 10, [Sqrt (Lit 3 0 / Lit 5 0) * (Lit 1 0 - Lit 2386007376 10); Sqrt (Lit 3 0 / Lit 5 0) * (Lit 1 0 - Lit 2386007376 10); Lit 2386007376 10]);
   (Lit 5 0 / Lit 9 0 * (Lit 5 0 / Lit 9 0) * Lit 6863388717 11, [Neg (Sqrt (Lit 3 0 / Lit 5 0)) * (Lit 1 0 - Lit 5170472951 10); Neg (Sqrt (Lit 3 0 / Lit 5 0)) * (Lit 1 0 - Lit 5170472951 10); Lit 5170472951 10]);
   (Lit 8 0 / Lit 9 0 * (Lit 5 0 / Lit 9 0) * Lit 6863388717 11, [Lit 0 0 * (Lit 1 0 - Lit 5170472951 10); Neg (Sqrt (Lit 3 0 / Lit 5 0)) * (Lit 1 0 - Lit 5170472951 10); Lit 5170472951 10]);
   (Lit 5 0 / Lit 9 0 * (Lit 5 0 / Lit 9 0) * Lit 6863388717 11, [Sqrt (Lit 3 0 / Lit 5 0) * (Lit 1 0 - Lit 5170472951 10); Neg (Sqrt (Lit 3 0 / Lit 5 0)) * (Lit 1 0 - Lit 5170472951 10); Lit 5170472951 10]);
   (Lit 5 0 / Lit 9 0 * (Lit 8 0 / Lit 9 0) * Lit 6863388717 11, [Neg (Sqrt (Lit 3 0 / Lit 5 0)) * (Lit 1 0 - Lit 5170472951 10); Lit 0 0 * (Lit 1 0 - Lit 5170472951 10); Lit 5170472951 10]);
   (Lit 8 0 / Lit 9 0 * (Lit 8 0 / Lit 9 0) * Lit 6863388717 11, [Lit 0 0 * (Lit 1 0 - Lit 5170472951 10); Lit 0 0 * (Lit 1 0 - Lit 5170472951 10); Lit 5170472951 10]);
   (Lit 5 0 / Lit 9 0 * (Lit 8 0 / Lit 9 0) * Lit 6863388717 11, [Sqrt (Lit 3 0 / Lit 5 0) * (Lit 1 0 - Lit 5170472951 10); Lit 0 0 * (Lit 1 0 - Lit 5170472951 10); Lit 5170472951 10]);
   (Lit 5 0 / Lit 9 0 * (Lit 5 0 / Lit 9 0) * Lit 6863388717 11, [Neg (Sqrt (Lit 3 0 / Lit 5 0)) * (Lit 1 0 - Lit 5170472951 10); Sqrt (Lit 3 0 / Lit 5 0) * (Lit 1 0 - Lit 5170472951 10); Lit 5170472951 10]);
   (Lit 8 0 / Lit 9 0 * (Lit 5 0 / Lit 9 0) * Lit 6863388717 11, [Lit 0 0 * (Lit 1 0 - Lit 5170472951 10); Sqrt (Lit 3 0 / Lit 5 0) * (Lit 1 0 - Lit 5170472951 10); Lit 5170472951 10]);
   (Lit 5 0 / Lit 9 0 * (Lit 5 0 / Lit 9 0) * Lit 6863388717 11, [Sqrt (Lit 3 0 / Lit 5 0) * (Lit 1 0 - Lit 5170472951 10); Sqrt (Lit 3 0 / Lit 5 0) * (Lit 1 0 - Lit 5170472951 10); Lit 5170472951 10]);
   (Lit 5 0 / Lit 9 0 * (Lit 5 0 / Lit 9 0) * Lit 1035224075 11, [Neg (Sqrt (Lit 3 0 / Lit 5 0)) * (Lit 1 0 - Lit 7958514179 10); Neg (Sqrt (Lit 3 0 / Lit 5 0)) * (Lit 1 0 - Lit 7958514179 10); Lit 7958514179 10]);
   (Lit 8 0 / Lit 9 0 * (Lit 5 0 / Lit 9 0) * Lit 1035224075 11, [Lit 0 0 * (Lit 1 0 - Lit 7958514179 10); Neg (Sqrt (Lit 3 0 / Lit 5 0)) * (Lit 1 0 - Lit 7958514179 10); Lit 7958514179 10]);
   (Lit 5 0 / Lit 9 0 * (Lit 5 0 / Lit 9 0) * Lit 1035224075 11, [Sqrt (Lit 3 0 / Lit 5 0) * (Lit 1 0 - Lit 7958514179 10); Neg (Sqrt (Lit 3 0 / Lit 5 0)) * (Lit 1 0 - Lit 7958514179 10); Lit 7958514179 10]);
   (Lit 5 0 / Lit 9 0 * (Lit 8 0 / Lit 9 0) * Lit 1035224075 11, [Neg (Sqrt (Lit 3 0 / Lit 5 0)) * (Lit 1 0 - Lit 7958514179 10); Lit 0 0 * (Lit 1 0 - Lit 7958514179 10); Lit 7958514179 10]);
   (Lit 8 0 / Lit 9 0 * (Lit 8 0 / Lit 9 0) * Lit 1035224075 11, [Lit 0 0 * (Lit 1 0 - Lit 7958514179 10); Lit 0 0 * (Lit 1 0 - Lit 7958514179 10); Lit 7958514179 10]);
   (Lit 5 0 / Lit 9 0 * (Lit 8 0 / Lit 9 0) * Lit 1035224075 11, [Sqrt (Lit 3 0 / Lit 5 0) * (Lit 1 0 - Lit 7958514179 10); Lit 0 0 * (Lit 1 0 - Lit 7958514179 10); Lit 7958514179 10]);
   (Lit 5 0 / Lit 9 0 * (Lit 5 0 / Lit 9 0) * Lit 1035224075 11, [Neg (Sqrt (Lit 3 0 / Lit 5 0)) * (Lit 1 0 - Lit 7958514179 10); Sqrt (Lit 3 0 / Lit 5 0) * (Lit 1 0 - Lit 7958514179 10); Lit 7958514179 10]);
   (Lit 8 0 / Lit 9 0 * (Lit 5 0 / Lit 9 0) * Lit 1035224075 11, [Lit 0 0 * (Lit 1 0 - Lit 7958514179 10); Sqrt (Lit 3 0 / Lit 5 0) * (Lit 1 0 - Lit 7958514179 10); Lit 7958514179 10]);
   (Lit 5 0 / Lit 9 0 * (Lit 5 0 / Lit 9 0) * Lit 1035224075 11, [Sqrt (Lit 3 0 / Lit 5 0) * (Lit 1 0 - Lit 7958514179 10); Sqrt (Lit 3 0 / Lit 5 0) * (Lit 1 0 - Lit 7958514179 10); Lit 7958514179 10])].

(** GaussQuadratureRulesForPyramid.cpp:410, 433-764 *)
Definition Pyramid_7_48 : rule := Rule Pyramid 7 48 [
   (Lit 98 0 / Lit 405 0 * Lit 1108884156 10, [Sqrt (Lit 6 0 / Lit 7 0) * (Lit 1 0 - Lit 4850054945 11); Lit 0 0 * (Lit 1 0 - Lit 4850054945 11); Lit 4850054945 11]);
   (Lit 98 0 / Lit 405 0 * Lit 1108884156 10, [Neg (Sqrt (Lit 6 0 / Lit 7 0)) * (Lit 1 0 - Lit 4850054945 11); Lit 0 0 * (Lit 1 0 - Lit 4850054945 11); Lit 4850054945 11]);
   (Lit 98 0 / Lit 405 0 * Lit 1108884156 10, [Lit 0 0 * (Lit 1 0 - Lit 4850054945 11); Sqrt (Lit 6 0 / Lit 7 0) * (Lit 1 0 - Lit 4850054945 11); Lit 4850054945 11]);
   (Lit 98 0 / Lit 405 0 * Lit 1108884156 10, [Lit 0 0 * (Lit 1 0 - Lit 4850054945 11); Neg (Sqrt (Lit 6 0 / Lit 7 0)) * (Lit 1 0 - Lit 4850054945 11); Lit 4850054945 11]);
   ((Lit 178981 0 + Lit 2769 0 * Sqrt (Lit 583 0)) / Lit 472230 0 * Lit 1108884156 10, [Sqrt ((Lit 114 0 - Lit 3 0 * Sqrt (Lit 583 0)) / Lit 287 0) * (Lit 1 0 - Lit 4850054945 11); Sqrt ((Lit 114 0 - Lit 3 0 * Sqrt (Lit 583 0)) / Lit 287 0) * (Lit 1 0 - Lit 4850054945 11); Lit 4850054945 11]);
   ((Lit 178981 0 + Lit 2769 0 * Sqrt (Lit 583 0)) / Lit 472230 0 * Lit 1108884156 10, [Sqrt ((Lit 114 0 - Lit 3 0 * Sqrt (Lit 583 0)) / Lit 287 0) * (Lit 1 0 - Lit 4850054945 11); Neg (Sqrt ((Lit 114 0 - Lit 3 0 * Sqrt (Lit 583 0)) / Lit 287 0)) * (Lit 1 0 - Lit 4850054945 11); Lit 4850054945 11]);
   ((Lit 178981 0 + Lit 2769 0 * Sqrt (Lit 583 0)) / Lit 472230 0 * Lit 1108884156 10, [Neg (Sqrt ((Lit 114 0 - Lit 3 0 * Sqrt (Lit 583 0)) / Lit 287 0)) * (Lit 1 0 - Lit 4850054945 11); Sqrt ((Lit 114 0 - Lit 3 0 * Sqrt (Lit 583 0)) / Lit 287 0) * (Lit 1 0 - Lit 4850054945 11); Lit 4850054945 11]);
   ((Lit 178981 0 + Lit 2769 0 * Sqrt (Lit 583 0)) / Lit 472230 0 * Lit 1108884156 10, [Neg (Sqrt ((Lit 114 0 - Lit 3 0 * Sqrt (Lit 583 0)) / Lit 287 0)) * (Lit 1 0 - Lit 4850054945 11); Neg (Sqrt ((Lit 114 0 - Lit 3 0 * Sqrt (Lit 583 0)) / Lit 287 0)) * (Lit 1 0 - Lit 4850054945 11); Lit 4850054945 11]);
   ((Lit 178981 0 - Lit 2769 0 * Sqrt (Lit 583 0)) / Lit 472230 0 * Lit 1108884156 10, [Sqrt ((Lit 114 0 + Lit 3 0 * Sqrt (Lit 583 0)) / Lit 287 0) * (Lit 1 0 - Lit 4850054945 11); Sqrt ((Lit 114 0 + Lit 3 0 * Sqrt (Lit 583 0)) / Lit 287 0) * (Lit 1 0 - Lit 4850054945 11); Lit 4850054945 11]);
   ((Lit 178981 0 - Lit 2769 0 * Sqrt (Lit 583 0)) / Lit 472230 0 * Lit 1108884156 10, [Sqrt ((Lit 114 0 + Lit 3 0 * Sqrt (Lit 583 0)) / Lit 287 0) * (Lit 1 0 - Lit 4850054945 11); Neg (Sqrt ((Lit 114 0 + Lit 3 0 * Sqrt (Lit 583 0)) / Lit 287 0)) * (Lit 1 0 - Lit 4850054945 11); Lit 4850054945 11]);
   ((Lit 178981 0 - Lit 2769 0 * Sqrt (Lit 583 0)) / Lit 472230 0 * Lit 1108884156 10, [Neg (Sqrt ((Lit 114 0 + Lit 3 0 * Sqrt (Lit 583 0)) / Lit 287 0)) * (Lit 1 0 - Lit 4850054945 11); Sqrt ((Lit 114 0 + Lit 3 0 * Sqrt (Lit 583 0)) / Lit 287 0) * (Lit 1 0 - Lit 4850054945 11); Lit 4850054945 11]);
   ((Lit 178981 0 - Lit 2769 0 * Sqrt (Lit 583 0)) / Lit 472230 0 * Lit 1108884156 10, [Neg (Sqrt ((Lit 114 0 + Lit 3 0 * Sqrt (Lit 583 0)) / Lit 287 0)) * (Lit 1 0 - Lit 4850054945 11); Neg (Sqrt ((Lit 114 0 + Lit 3 0 * Sqrt (Lit 583 0)) / Lit 287 0)) * (Lit 1 0 - Lit 4850054945 11); Lit 4850054945 11]);
   (Lit 98 0 / Lit 405 0 * Lit 1434587898 10, [Sqrt (Lit 6 0 / Lit 7 0) * (Lit 1 0 - Lit 2386007376 10); Lit 0 0 * (Lit 1 0 - Lit 2386007376 10); Lit 2386007376 10]);
   (Lit 98 0 / Lit 405 0 * Lit 1434587898 10, [Neg (Sqrt (Lit 6 0 / Lit 7 0)) * (Lit 1 0 - Lit 2386007376 10); Lit 0 0 * (Lit 1 0 - Lit 2386007376 10); Lit 2386007376 10]);
   (Lit 98 0 / Lit 405 0 * Lit 1434587898 10, [Lit 0 0 * (Lit 1 0 - Lit 2386007376 10); Sqrt (Lit 6 0 / Lit 7 0) * (Lit 1 0 - Lit 2386007376 10); Lit 2386007376 10]);
   (Lit 98 0 / Lit 405 0 * Lit 1434587898 10, [Lit 0 0 * (Lit 1 0 - Lit 2386007376 10); Neg (Sqrt (Lit 6 0 / Lit 7 0)) * (Lit 1 0 - Lit 2386007376 10); Lit 2386007376 10]);
   ((Lit 178981 0 + Lit 2769 0 * Sqrt (Lit 583 0)) / Lit 472230 0 * Lit 1434587898 10, [Sqrt ((Lit 114 0 - Lit 3 0 * Sqrt (Lit 583 0)) / Lit 287 0) * (Lit 1 0 - Lit 2386007376 10); Sqrt ((Lit 114 0 - Lit 3 0 * Sqrt (Lit 583 0)) / Lit 287 0) * (Lit 1 0 - Lit 2386007376 10); Lit 2386007376 10]);
   ((Lit 178981 0 + Lit 2769 0 * Sqrt (Lit 583 0)) / Lit 472230 0 * Lit 1434587898 10, [Sqrt ((Lit 114 0 - Lit 3 0 * Sqrt (Lit 583 0)) / Lit 287 0) * (Lit 1 0 - Lit 2386007376 10); Neg (Sqrt ((Lit 114 0 - Lit 3 0 * Sqrt (Lit 583 0)) / Lit 287 0)) * (Lit 1 0 - Lit 2386007376 10); Lit 2386007376 10]);
   ((Lit 178981 0 + Lit 2769 0 * Sqrt (Lit 583 0)) / Lit 472230 0 * Lit 1434587898 10, [Neg (Sqrt ((Lit 114 0 - Lit 3 0 * Sqrt (Lit 583 0)) / Lit 287 0)) * (Lit 1 0 - Lit 2386007376 10); Sqrt ((Lit 114 0 - Lit 3 0 * Sqrt (Lit 583 0)) / Lit 287 0) * (Lit 1 0 - Lit 2386007376 10); Lit 2386007376 10]);
   ((Lit 178981 0 + Lit 2769 0 * Sqrt (Lit 583 0)) / Lit 472230 0 * Lit 1434587898 10, [Neg (Sqrt ((Lit 114 0 - Lit 3 0 * Sqrt (Lit 583 0)) / Lit 287 0)) * (Lit 1 0 - Lit 2386007376 10); Neg (Sqrt ((Lit 114 0 - Lit 3 0 * Sqrt (Lit 583 0)) / Lit 287 0)) * (Lit 1 0 - Lit 2386007376 10); Lit 2386007376 10]);
   ((Lit 178981 0 - Lit 2769 0 * Sqrt (Lit 583 0)) / Lit 472230 0 * Lit 1434587898 10, [Sqrt ((Lit 114 0 + Lit 3 0 * Sqrt (Lit 583 0)) / Lit 287 0) * (Lit 1 0 - Lit 2386007376 10); Sqrt ((Lit 114 0 + Lit 3 0 * Sqrt (Lit 583 0)) / Lit 287 0) * (Lit 1 0 - Lit 2386007376 10); Lit 2386007376 10]);
   ((Lit 178981 0 - Lit 2769 0 * Sqrt (Lit 583 0)) / Lit 472230 0 * Lit 1434587898 10, [Sqrt ((Lit 114 0 + Lit 3 0 * Sqrt (Lit 583 0)) / Lit 287 0) * (Lit 1 0 - Lit 2386007376 10); Neg (Sqrt ((Lit 114 0 + Lit 3 0 * Sqrt (Lit 583 0)) / Lit 287 0)) * (Lit 1 0 - Lit 2386007376 10); Lit 2386007376 10]);
   ((Lit 178981 0 - Lit 2769 0 * Sqrt (Lit 583 0)) / Lit 472230 0 * Lit 1434587898 10, [Neg (Sqrt ((Lit 114 0 + Lit 3 0 * Sqrt (Lit 583 0)) / Lit 287 0)) * (Lit 1 0 - Lit 2386007376 10); Sqrt ((Lit 114 0 + Lit 3 0 * Sqrt (Lit 583 0)) / Lit 287 0) * (Lit 1 0 - Lit 2386007376 10); Lit 2386007376 10]);
   ((Lit 178981 0 - Lit 2769 0 * Sqrt (Lit 583 0)) / Lit 472230 0 * Lit 1434587898 10, [Neg (Sqrt ((Lit 114 0 + Lit 3 0 * Sqrt (Lit 583 0)) / Lit 287 0)) * (Lit 1 0 - Lit 2386007376 10); Neg (Sqrt ((Lit 114 0 + Lit 3 0 * Sqrt (Lit 583 0)) / Lit 287 0)) * (Lit 1 0 - Lit 2386007376 10); Lit 2386007376 10]);
   (Lit 98 0 / Lit 405 0 * Lit 6863388717 11, [Sqrt (Lit 6 0 / Lit 7 0) * (Lit 1 0 - Lit 5170472951 10); Lit 0 0 * (Lit 1 0 - Lit 5170472951 10); Lit 5170472951 10]);
   (Lit 98 0 / Lit 405 0 * Lit 6863388717 11, [Neg (Sqrt (Lit 6 0 / Lit 7 0)) * (Lit 1 0 - Lit 5170472951 10); Lit 0 0 * (Lit 1 0 - Lit 5170472951 10); Lit 5170472951 10]);
   (Lit 98 0 / Lit 405 0 * Lit 6863388717 11, [Lit 0 0 * (Lit 1 0 - Lit 5170472951 10); Sqrt (Lit 6 0 / Lit 7 0) * (Lit 1 0 - Lit 5170472951 10); Lit 5170472951 10]);
   (Lit 98 0 / Lit 405 0 * Lit 6863388717 11, [Lit 0 0 * (Lit 1 0 - Lit 5170472951 10); Neg (Sqrt (Lit 6 0 / Lit 7 0)) * (Lit 1 0 - Lit 5170472951 10); Lit 5170472951 10]);
   ((Lit 178981 0 + Lit 2769 0 * Sqrt (Lit 583 0)) / Lit 472230 0 * Lit 6863388717 11, [Sqrt ((Lit 114 0 - Lit 3 0 * Sqrt (Lit 583 0)) / Lit 287 0) * (Lit 1 0 - Lit 5170472951 10); Sqrt ((Lit 114 0 - Lit 3 0 * Sqrt (Lit 583 0)) / Lit 287 0) * (Lit 1 0 - Lit 5170472951 10); Lit 5170472951 10]);
   ((Lit 178981 0 + Lit 2769 0 * Sqrt (Lit 583 0)) / Lit 472230 0 * Lit 6863388717 11, [Sqrt ((Lit 114 0 - Lit 3 0 * Sqrt (Lit 583 0)) / Lit 287 0) * (Lit 1 0 - Lit 5170472951 10); Neg (Sqrt ((Lit 114 0 - Lit 3 0 * Sqrt (Lit 583 0)) / Lit 287 0)) * (Lit 1 0 - Lit 5170472951 10); Lit 5170472951 10]);
   ((Lit 178981 0 + Lit 2769 0 * Sqrt (Lit 583 0)) / Lit 472230 0 * Lit 6863388717 11, [Neg (Sqrt ((Lit 114 0 - Lit 3 0 * Sqrt (Lit 583 0)) / Lit 287 0)) * (Lit 1 0 - Lit 5170472951 10); Sqrt ((Lit 114 0 - Lit 3 0 * Sqrt (Lit 583 0)) / Lit 287 0) * (Lit 1 0 - Lit 5170472951 10); Lit 5170472951 10]);
   ((Lit 178981 0 + Lit 2769 0 * Sqrt (Lit 583 0)) / Lit 472230 0 * Lit 6863388717 11, [Neg (Sqrt ((Lit 114 0 - Lit 3 0 * Sqrt (Lit 583 0)) / Lit 287 0)) * (Lit 1 0 - Lit 5170472951 10); Neg (Sqrt ((Lit 114 0 - Lit 3 0 * Sqrt (Lit 583 0)) / Lit 287 0)) * (Lit 1 0 - Lit 5170472951 10); Lit 5170472951 10]);
   ((Lit 178981 0 - Lit 2769 0 * Sqrt (Lit 583 0)) / Lit 472230 0 * Lit 6863388717 11, [Sqrt ((Lit 114 0 + Lit 3 0 * Sqrt (Lit 583 0)) / Lit 287 0) * (Lit 1 0 - Lit 5170472951 10); Sqrt ((Lit 114 0 + Lit 3 0 * Sqrt (Lit 583 0)) / Lit 287 0) * (Lit 1 0 - Lit 5170472951 10); Lit 5170472951 10]);
   ((Lit 178981 0 - Lit 2769 0 * Sqrt (Lit 583 0)) / Lit 472230 0 * Lit 6863388717 11, [Sqrt ((Lit 114 0 + Lit 3 0 * Sqrt (Lit 583 0)) / Lit 287 0) * (Lit 1 0 - Lit 5170472951 10); Neg (Sqrt ((Lit 114 0 + Lit 3 0 * Sqrt (Lit 583 0)) / Lit 287 0)) * (Lit 1 0 - Lit 5170472951 10); Lit 5170472951 10]);
   ((Lit 178981 0 - Lit 2769 0 * Sqrt (Lit 583 0)) / Lit 472230 0 * Lit 6863388717 11, [Neg (Sqrt ((Lit 114 0 + Lit 3 0 * Sqrt (Lit 583 0)) / Lit 287 0)) * (Lit 1 0 - Lit 5170472951 10); Sqrt ((Lit 114 0 + Lit 3 0 * Sqrt (Lit 583 0)) / Lit 287 0) * (Lit 1 0 - Lit 5170472951 10); Lit 5170472951 10]);
   ((Lit 178981 0 - Lit 2769 0 * Sqrt (Lit 583 0)) / Lit 472230 0 * Lit 6863388717 11, [Neg (Sqrt ((Lit 114 0 + Lit 3 0 * Sqrt (Lit 583 0)) / Lit 287 0)) * (Lit 1 0 - Lit 5170472951 10); Neg (Sqrt ((Lit 114 0 + Lit 3 0 * Sqrt (Lit 583 0)) / Lit 287 0)) * (Lit 1 0 - Lit 5170472951 10); Lit 5170472951 10]);
   (Lit 98 0 / Lit 405 0 * Lit 1035224075 11, [Sqrt (Lit 6 0 / Lit 7 0) * (Lit 1 0 - Lit 7958514179 10); Lit 0 0 * (Lit 1 0 - Lit 7958514179 10); Lit 7958514179 10]);
   (Lit 98 0 / Lit 405 0 * Lit 1035224075 11, [Neg (Sqrt (Lit 6 0 / Lit 7 0)) * (Lit 1 0 - Lit 7958514179 10); Lit 0 0 * (Lit 1 0 - Lit 7958514179 10); Lit 7958514179 10]);
   (Lit 98 0 / Lit 405 0 * Lit 1035224075 11, [Lit 0 0 * (Lit 1 0 - Lit 7958514179 10); Sqrt (Lit 6 0 / Lit 7 0) * (Lit 1 0 - Lit 7958514179 10); Lit 7958514179 10]);
   (Lit 98 0 / Lit 405 0 * Lit 1035224075 11, [Lit 0 0 * (Lit 1 0 - Lit 7958514179 10); Neg (Sqrt (Lit 6 0 / Lit 7 0)) * (Lit 1 0 - Lit 7958514179 10); Lit 7958514179 10]);
   ((Lit 178981 0 + Lit 2769 0 * Sqrt (Lit 583 0)) / Lit 472230 0 * Lit 1035224075 11, [Sqrt ((Lit 114 0 - Lit 3 0 * Sqrt (Lit 583 0)) / Lit 287 0) * (Lit 1 0 - Lit 7958514179 10); Sqrt ((Lit 114 0 - Lit 3 0 * Sqrt (Lit 583 0)) / Lit 287 0) * (Lit 1 0 - Lit 7958514179 10); Lit 7958514179 10]);
   ((Lit 178981 0 + Lit 2769 0 * Sqrt (Lit 583 0)) / Lit 472230 0 * Lit 1035224075 11, [Sqrt ((Lit 114 0 - Lit 3 0 * Sqrt (Lit 583 0)) / Lit 287 0) * (Lit 1 0 - Lit 7958514179 10); Neg (Sqrt ((Lit 114 0 - Lit 3 0 * Sqrt (Lit 583 0)) / Lit 287 0)) * (Lit 1 0 - Lit 7958514179 10); Lit 7958514179 10]);
   ((Lit 178981 0 + Lit 2769 0 * Sqrt (Lit 583 0)) / Lit 472230 0 * Lit 1035224075 11, [Neg (Sqrt ((Lit 114 0 - Lit 3 0 * Sqrt (Lit 583 0)) / Lit 287 0)) * (Lit 1 0 - Lit 7958514179 10); Sqrt ((Lit 114 0 - Lit 3 0 * Sqrt (Lit 583 0)) / Lit 287 0) * (Lit 1 0 - Lit 7958514179 10); Lit 7958514179 10]);
   ((Lit 178981 0 + Lit 2769 0 * Sqrt (Lit 583 0)) / Lit 472230 0 * Lit 1035224075 11, [Neg (Sqrt ((Lit 114 0 - Lit 3 0 * Sqrt (Lit 583 0)) / Lit 287 0)) * (Lit 1 0 - Lit 7958514179 10); Neg (Sqrt ((Lit 114 0 - Lit 3 0 * Sqrt (Lit 583 0)) / Lit 287 0)) * (Lit 1 0 - Lit 7958514179 10); Lit 7958514179 10]);
   ((Lit 178981 0 - Lit 2769 0 * Sqrt (Lit 583 0)) / Lit 472230 0 * Lit 1035224075 11, [Sqrt ((Lit 114 0 + Lit 3 0 * Sqrt (Lit 583 0)) / Lit 287 0) * (Lit 1 0 - Lit 7958514179 10); Sqrt ((Lit 114 0 + Lit 3 0 * Sqrt (Lit 583 0)) / Lit 287 0) * (Lit 1 0 - Lit 7958514179 10); Lit 7958514179 10]);
   ((Lit 178981 0 - Lit 2769 0 * Sqrt (Lit 583 0)) / Lit 472230 0 * Lit 1035224075 11, [Sqrt ((Lit 114 0 + Lit 3 0 * Sqrt (Lit 583 0)) / Lit 287 0) * (Lit 1 0 - Lit 7958514179 10); Neg (Sqrt ((Lit 114 0 + Lit 3 0 * Sqrt (Lit 583 0)) / Lit 287 0)) * (Lit 1 0 - Lit 7958514179 10); Lit 7958514179 10]);
   ((Lit 178981 0 - Lit 2769 0 * Sqrt (Lit 583 0)) / Lit 472230 0 * Lit 1035224075 11, [Neg (Sqrt ((Lit 114 0 + Lit 3 0 * Sqrt (Lit 583 0)) / Lit 287 0)) * (Lit 1 0 - Lit 7958514179 10); Sqrt ((Lit 114 0 + Lit 3 0 * Sqrt (Lit 583 0)) / Lit 287 0) * (Lit 1 0 - Lit 7958514179 10); Lit 7958514179 10]);
   ((Lit 178981 0 - Lit 2769 0 * Sqrt (Lit 583 0)) / Lit 472230 0 * Lit 1035224075 11, [Neg (Sqrt ((Lit 114 0 + Lit 3 0 * Sqrt (Lit 583 0)) / Lit 287 0)) * (Lit 1 0 - Lit 7958514179 10); Neg (Sqrt ((Lit 114 0 + Lit 3 0 * Sqrt (Lit 583 0)) / Lit 287 0)) * (Lit 1 0 - Lit 7958514179 10); Lit 7958514179 10])].

(** GaussQuadratureRulesForTetrahedron.cpp:65, 87-94 *)
Definition Tn3_1_1 : rule := Rule Tetrahedron 1 1 [
   (Lit 16666666666666663 17, [Lit 25 2; Lit 25 2; Lit 25 2])].

(** GaussQuadratureRulesForTetrahedron.cpp:99, 121-140 *)
Definition Tn3_2_4 : rule := Rule Tetrahedron 2 4 [
   (Lit 41666666666666623 18, [Lit 13819660112501048 17; Lit 13819660112501048 17; Lit 13819660112501048 17]);
   (Lit 41666666666666623 18, [Lit 58541019662496852 17; Lit 13819660112501048 17; Lit 13819660112501048 17]);
   (Lit 41666666666666623 18, [Lit 13819660112501048 17; Lit 58541019662496852 17; Lit 13819660112501048 17]);
   (Lit 41666666666666623 18, [Lit 13819660112501048 17; Lit 13819660112501048 17; Lit 58541019662496852 17])].

(** GaussQuadratureRulesForTetrahedron.cpp:146-161 *)
Definition Tn3_3_10 : rule := Rule Tetrahedron 3 10 [
   (Lit 2177650698804054 16 * TET_VOLUME, [Lit 5684305841968444 16; Lit 1438564719343852 16; Lit 1438564719343852 16]);
   (Lit 2177650698804054 16 * TET_VOLUME, [Lit 1438564719343852 16; Lit 1438564719343852 16; Lit 1438564719343852 16]);
   (Lit 2177650698804054 16 * TET_VOLUME, [Lit 1438564719343852 16; Lit 1438564719343852 16; Lit 5684305841968444 16]);
   (Lit 2177650698804054 16 * TET_VOLUME, [Lit 1438564719343852 16; Lit 5684305841968444 16; Lit 1438564719343852 16]);
   (Lit 214899534130631 16 * TET_VOLUME, [Lit 0 0; Lit 5 1; Lit 5 1]);
   (Lit 214899534130631 16 * TET_VOLUME, [Lit 5 1; Lit 0 0; Lit 5 1]);
   (Lit 214899534130631 16 * TET_VOLUME, [Lit 5 1; Lit 5 1; Lit 0 0]);
   (Lit 214899534130631 16 * TET_VOLUME, [Lit 5 1; Lit 0 0; Lit 0 0]);
   (Lit 214899534130631 16 * TET_VOLUME, [Lit 0 0; Lit 5 1; Lit 0 0]);
   (Lit 214899534130631 16 * TET_VOLUME, [Lit 0 0; Lit 0 0; Lit 5 1])].

(** GaussQuadratureRulesForTetrahedron.cpp:166-185 *)
Definition Tn3_4_14 : rule := Rule Tetrahedron 4 14 [
   (Lit 19047619047619 15 * TET_VOLUME, [Lit 0 0; Lit 5 1; Lit 5 1]);
   (Lit 19047619047619 15 * TET_VOLUME, [Lit 5 1; Lit 0 0; Lit 5 1]);
   (Lit 19047619047619 15 * TET_VOLUME, [Lit 5 1; Lit 5 1; Lit 0 0]);
   (Lit 19047619047619 15 * TET_VOLUME, [Lit 5 1; Lit 0 0; Lit 0 0]);
   (Lit 19047619047619 15 * TET_VOLUME, [Lit 0 0; Lit 5 1; Lit 0 0]);
   (Lit 19047619047619 15 * TET_VOLUME, [Lit 0 0; Lit 0 0; Lit 5 1]);
   (Lit 885898247429807 16 * TET_VOLUME, [Lit 6984197043243866 16; Lit 1005267652252045 16; Lit 1005267652252045 16]);
   (Lit 885898247429807 16 * TET_VOLUME, [Lit 1005267652252045 16; Lit 1005267652252045 16; Lit 1005267652252045 16]);
   (Lit 885898247429807 16 * TET_VOLUME, [Lit 1005267652252045 16; Lit 1005267652252045 16; Lit 6984197043243866 16]);
   (Lit 885898247429807 16 * TET_VOLUME, [Lit 1005267652252045 16; Lit 6984197043243866 16; Lit 1005267652252045 16]);
   (Lit 1328387466855907 16 * TET_VOLUME, [Lit 568813795204234 16; Lit 3143728734931922 16; Lit 3143728734931922 16]);
   (Lit 1328387466855907 16 * TET_VOLUME, [Lit 3143728734931922 16; Lit 3143728734931922 16; Lit 3143728734931922 16]);
   (Lit 1328387466855907 16 * TET_VOLUME, [Lit 3143728734931922 16; Lit 3143728734931922 16; Lit 568813795204234 16]);
   (Lit 1328387466855907 16 * TET_VOLUME, [Lit 3143728734931922 16; Lit 568813795204234 16; Lit 3143728734931922 16])].

(** GaussQuadratureRulesForTetrahedron.cpp:190, 212-271 *)
Definition T3_5_14 : rule := Rule Tetrahedron 5 14 [
   (Lit 12248840519393626 18, [Lit 92735250310891026 18; Lit 92735250310891026 18; Lit 92735250310891026 18]);
   (Lit 12248840519393626 18, [Lit 72179424906732648 17; Lit 92735250310891026 18; Lit 92735250310891026 18]);
   (Lit 12248840519393626 18, [Lit 92735250310891026 18; Lit 72179424906732648 17; Lit 92735250310891026 18]);
   (Lit 12248840519393626 18, [Lit 92735250310891026 18; Lit 92735250310891026 18; Lit 72179424906732648 17]);
   (Lit 18781320953002625 18, [Lit 3108859192633005 16; Lit 3108859192633005 16; Lit 3108859192633005 16]);
   (Lit 18781320953002625 18, [Lit 67342242210097991 18; Lit 3108859192633005 16; Lit 3108859192633005 16]);
   (Lit 18781320953002625 18, [Lit 3108859192633005 16; Lit 67342242210097991 18; Lit 3108859192633005 16]);
   (Lit 18781320953002625 18, [Lit 3108859192633005 16; Lit 3108859192633005 16; Lit 67342242210097991 18]);
   (Lit 70910034628468748 19, [Lit 45449629587435048 17; Lit 45449629587435048 17; Lit 45503704125649524 18]);
   (Lit 70910034628468748 19, [Lit 45449629587435048 17; Lit 45503704125649524 18; Lit 45449629587435048 17]);
   (Lit 70910034628468748 19, [Lit 45503704125649524 18; Lit 45449629587435048 17; Lit 45449629587435048 17]);
   (Lit 70910034628468748 19, [Lit 45449629587435048 17; Lit 45503704125649524 18; Lit 45503704125649524 18]);
   (Lit 70910034628468748 19, [Lit 45503704125649524 18; Lit 45449629587435048 17; Lit 45503704125649524 18]);
   (Lit 70910034628468748 19, [Lit 45503704125649524 18; Lit 45503704125649524 18; Lit 45449629587435048 17])].

(** GaussQuadratureRulesForTetrahedron.cpp:276, 298-397 *)
Definition T3_6_24 : rule := Rule Tetrahedron 6 24 [
   (Lit 66537917096946252 19, [Lit 21460287125915201 17; Lit 21460287125915201 17; Lit 21460287125915201 17]);
   (Lit 66537917096946252 19, [Lit 35619138622254398 17; Lit 21460287125915201 17; Lit 21460287125915201 17]);
   (Lit 66537917096946252 19, [Lit 21460287125915201 17; Lit 35619138622254398 17; Lit 21460287125915201 17]);
   (Lit 66537917096946252 19, [Lit 21460287125915201 17; Lit 21460287125915201 17; Lit 35619138622254398 17]);
   (Lit 16795351758867501 19, [Lit 40673958534611476 18; Lit 40673958534611476 18; Lit 40673958534611476 18]);
   (Lit 16795351758867501 19, [Lit 87797812439616596 17; Lit 40673958534611476 18; Lit 40673958534611476 18]);
   (Lit 16795351758867501 19, [Lit 40673958534611476 18; Lit 87797812439616596 17; Lit 40673958534611476 18]);
   (Lit 16795351758867501 19, [Lit 40673958534611476 18; Lit 40673958534611476 18; Lit 87797812439616596 17]);
   (Lit 92261969239424996 19, [Lit 32233789014227554 17; Lit 32233789014227554 17; Lit 32233789014227554 17]);
   (Lit 92261969239424996 19, [Lit 3298632957317349 17; Lit 32233789014227554 17; Lit 32233789014227554 17]);
   (Lit 92261969239424996 19, [Lit 32233789014227554 17; Lit 3298632957317349 17; Lit 32233789014227554 17]);
   (Lit 92261969239424996 19, [Lit 32233789014227554 17; Lit 32233789014227554 17; Lit 3298632957317349 17]);
   (Lit 80357142857142502 19, [Lit 63661001875017498 18; Lit 63661001875017498 18; Lit 26967233145831604 17]);
   (Lit 80357142857142502 19, [Lit 63661001875017498 18; Lit 26967233145831604 17; Lit 63661001875017498 18]);
   (Lit 80357142857142502 19, [Lit 63661001875017498 18; Lit 63661001875017498 18; Lit 60300566479164897 17]);
   (Lit 80357142857142502 19, [Lit 63661001875017498 18; Lit 60300566479164897 17; Lit 63661001875017498 18]);
   (Lit 80357142857142502 19, [Lit 63661001875017498 18; Lit 26967233145831604 17; Lit 60300566479164897 17]);
   (Lit 80357142857142502 19, [Lit 63661001875017498 18; Lit 60300566479164897 17; Lit 26967233145831604 17]);
   (Lit 80357142857142502 19, [Lit 26967233145831604 17; Lit 63661001875017498 18; Lit 63661001875017498 18]);
   (Lit 80357142857142502 19, [Lit 26967233145831604 17; Lit 63661001875017498 18; Lit 60300566479164897 17]);
   (Lit 80357142857142502 19, [Lit 26967233145831604 17; Lit 60300566479164897 17; Lit 63661001875017498 18]);
   (Lit 80357142857142502 19, [Lit 60300566479164897 17; Lit 63661001875017498 18; Lit 26967233145831604 17]);
   (Lit 80357142857142502 19, [Lit 60300566479164897 17; Lit 63661001875017498 18; Lit 63661001875017498 18]);
   (Lit 80357142857142502 19, [Lit 60300566479164897 17; Lit 26967233145831604 17; Lit 63661001875017498 18])].

(** GaussQuadratureRulesForTetrahedron.cpp:400-439 *)
Definition T3_7_31 : rule := Rule Tetrahedron 7 35 [
   (Lit 21900463965388 16 * TET_VOLUME, [Lit 267367755543735 16; Lit 267367755543735 16; Lit 267367755543735 16]);
   (Lit 21900463965388 16 * TET_VOLUME, [Lit 91978967333688 14; Lit 267367755543735 16; Lit 267367755543735 16]);
   (Lit 21900463965388 16 * TET_VOLUME, [Lit 267367755543735 16; Lit 91978967333688 14; Lit 267367755543735 16]);
   (Lit 21900463965388 16 * TET_VOLUME, [Lit 267367755543735 16; Lit 267367755543735 16; Lit 91978967333688 14]);
   (Lit 143395670177665 16 * TET_VOLUME, [Lit 747759888481809 15; Lit 391022406356488 16; Lit 391022406356488 16]);
   (Lit 143395670177665 16 * TET_VOLUME, [Lit 174035630246894 15; Lit 391022406356488 16; Lit 391022406356488 16]);
   (Lit 143395670177665 16 * TET_VOLUME, [Lit 391022406356488 16; Lit 747759888481809 15; Lit 391022406356488 16]);
   (Lit 143395670177665 16 * TET_VOLUME, [Lit 391022406356488 16; Lit 174035630246894 15; Lit 391022406356488 16]);
   (Lit 143395670177665 16 * TET_VOLUME, [Lit 391022406356488 16; Lit 391022406356488 16; Lit 747759888481809 15]);
   (Lit 143395670177665 16 * TET_VOLUME, [Lit 391022406356488 16; Lit 391022406356488 16; Lit 174035630246894 15]);
   (Lit 143395670177665 16 * TET_VOLUME, [Lit 174035630246894 15; Lit 747759888481809 15; Lit 391022406356488 16]);
   (Lit 143395670177665 16 * TET_VOLUME, [Lit 747759888481809 15; Lit 174035630246894 15; Lit 391022406356488 16]);
   (Lit 143395670177665 16 * TET_VOLUME, [Lit 174035630246894 15; Lit 391022406356488 16; Lit 747759888481809 15]);
   (Lit 143395670177665 16 * TET_VOLUME, [Lit 747759888481809 15; Lit 391022406356488 16; Lit 174035630246894 15]);
   (Lit 143395670177665 16 * TET_VOLUME, [Lit 391022406356488 16; Lit 174035630246894 15; Lit 747759888481809 15]);
   (Lit 143395670177665 16 * TET_VOLUME, [Lit 391022406356488 16; Lit 747759888481809 15; Lit 174035630246894 15]);
   (Lit 250305395686746 16 * TET_VOLUME, [Lit 454754599984483 15; Lit 452454000155172 16; Lit 452454000155172 16]);
   (Lit 250305395686746 16 * TET_VOLUME, [Lit 452454000155172 16; Lit 454754599984483 15; Lit 452454000155172 16]);
   (Lit 250305395686746 16 * TET_VOLUME, [Lit 452454000155172 16; Lit 452454000155172 16; Lit 454754599984483 15]);
   (Lit 250305395686746 16 * TET_VOLUME, [Lit 454754599984483 15; Lit 454754599984483 15; Lit 452454000155172 16]);
   (Lit 250305395686746 16 * TET_VOLUME, [Lit 454754599984483 15; Lit 452454000155172 16; Lit 454754599984483 15]);
   (Lit 250305395686746 16 * TET_VOLUME, [Lit 452454000155172 16; Lit 454754599984483 15; Lit 454754599984483 15]);
   (Lit 479839333057554 16 * TET_VOLUME, [Lit 223201037962315 15; Lit 223201037962315 15; Lit 50479279060772 15]);
   (Lit 479839333057554 16 * TET_VOLUME, [Lit 503118645014598 15; Lit 223201037962315 15; Lit 50479279060772 15]);
   (Lit 479839333057554 16 * TET_VOLUME, [Lit 223201037962315 15; Lit 503118645014598 15; Lit 50479279060772 15]);
   (Lit 479839333057554 16 * TET_VOLUME, [Lit 223201037962315 15; Lit 50479279060772 15; Lit 223201037962315 15]);
   (Lit 479839333057554 16 * TET_VOLUME, [Lit 503118645014598 15; Lit 50479279060772 15; Lit 223201037962315 15]);
   (Lit 479839333057554 16 * TET_VOLUME, [Lit 223201037962315 15; Lit 50479279060772 15; Lit 503118645014598 15]);
   (Lit 479839333057554 16 * TET_VOLUME, [Lit 50479279060772 15; Lit 223201037962315 15; Lit 223201037962315 15]);
   (Lit 479839333057554 16 * TET_VOLUME, [Lit 50479279060772 15; Lit 503118645014598 15; Lit 223201037962315 15]);
   (Lit 479839333057554 16 * TET_VOLUME, [Lit 50479279060772 15; Lit 223201037962315 15; Lit 503118645014598 15]);
   (Lit 479839333057554 16 * TET_VOLUME, [Lit 503118645014598 15; Lit 223201037962315 15; Lit 223201037962315 15]);
   (Lit 479839333057554 16 * TET_VOLUME, [Lit 223201037962315 15; Lit 503118645014598 15; Lit 223201037962315 15]);
   (Lit 479839333057554 16 * TET_VOLUME, [Lit 223201037962315 15; Lit 223201037962315 15; Lit 503118645014598 15]);
   (Lit 93174573119534 15 * TET_VOLUME, [Lit 25 2; Lit 25 2; Lit 25 2])].

(** GaussQuadratureRulesForTetrahedron.cpp:444, 466-641 *)
Definition T3_8_43 : rule := Rule Tetrahedron 8 43 [
   (Neg (Lit 20500188658639874 18), [Lit 25 2; Lit 25 2; Lit 25 2]);
   (Lit 14250305822866875 18, [Lit 20682993161067298 17; Lit 20682993161067298 17; Lit 20682993161067298 17]);
   (Lit 14250305822866875 18, [Lit 20682993161067298 17; Lit 20682993161067298 17; Lit 37951020516798051 17]);
   (Lit 14250305822866875 18, [Lit 20682993161067298 17; Lit 37951020516798051 17; Lit 20682993161067298 17]);
   (Lit 14250305822866875 18, [Lit 37951020516798051 17; Lit 20682993161067298 17; Lit 20682993161067298 17]);
   (Lit 19670333131338751 19, [Lit 82103588310546483 18; Lit 82103588310546483 18; Lit 82103588310546483 18]);
   (Lit 19670333131338751 19, [Lit 82103588310546483 18; Lit 82103588310546483 18; Lit 75368923506835994 17]);
   (Lit 19670333131338751 19, [Lit 82103588310546483 18; Lit 75368923506835994 17; Lit 82103588310546483 18]);
   (Lit 19670333131338751 19, [Lit 75368923506835994 17; Lit 82103588310546483 18; Lit 82103588310546483 18]);
   (Lit 16983410909287501 20, [Lit 57819505051979747 19; Lit 57819505051979747 19; Lit 57819505051979747 19]);
   (Lit 16983410909287501 20, [Lit 57819505051979747 19; Lit 57819505051979747 19; Lit 98265414848440602 17]);
   (Lit 16983410909287501 20, [Lit 57819505051979747 19; Lit 98265414848440602 17; Lit 57819505051979747 19]);
   (Lit 16983410909287501 20, [Lit 98265414848440602 17; Lit 57819505051979747 19; Lit 57819505051979747 19]);
   (Lit 45796838244672499 19, [Lit 50532740018894018 18; Lit 50532740018894018 18; Lit 44946725998110598 17]);
   (Lit 45796838244672499 19, [Lit 50532740018894018 18; Lit 44946725998110598 17; Lit 50532740018894018 18]);
   (Lit 45796838244672499 19, [Lit 44946725998110598 17; Lit 50532740018894018 18; Lit 50532740018894018 18]);
   (Lit 45796838244672499 19, [Lit 50532740018894018 18; Lit 44946725998110598 17; Lit 44946725998110598 17]);
   (Lit 45796838244672499 19, [Lit 44946725998110598 17; Lit 50532740018894018 18; Lit 44946725998110598 17]);
   (Lit 45796838244672499 19, [Lit 44946725998110598 17; Lit 44946725998110598 17; Lit 50532740018894018 18]);
   (Lit 57044858086818754 19, [Lit 22906653611681099 17; Lit 22906653611681099 17; Lit 35639582788534019 18]);
   (Lit 57044858086818754 19, [Lit 22906653611681099 17; Lit 35639582788534019 18; Lit 22906653611681099 17]);
   (Lit 57044858086818754 19, [Lit 22906653611681099 17; Lit 22906653611681099 17; Lit 5062273449778435 16]);
   (Lit 57044858086818754 19, [Lit 22906653611681099 17; Lit 5062273449778435 16; Lit 22906653611681099 17]);
   (Lit 57044858086818754 19, [Lit 22906653611681099 17; Lit 35639582788534019 18; Lit 5062273449778435 16]);
   (Lit 57044858086818754 19, [Lit 22906653611681099 17; Lit 5062273449778435 16; Lit 35639582788534019 18]);
   (Lit 57044858086818754 19, [Lit 35639582788534019 18; Lit 22906653611681099 17; Lit 22906653611681099 17]);
   (Lit 57044858086818754 19, [Lit 35639582788534019 18; Lit 22906653611681099 17; Lit 5062273449778435 16]);
   (Lit 57044858086818754 19, [Lit 35639582788534019 18; Lit 5062273449778435 16; Lit 22906653611681099 17]);
   (Lit 57044858086818754 19, [Lit 5062273449778435 16; Lit 22906653611681099 17; Lit 35639582788534019 18]);
   (Lit 57044858086818754 19, [Lit 5062273449778435 16; Lit 22906653611681099 17; Lit 22906653611681099 17]);
   (Lit 57044858086818754 19, [Lit 5062273449778435 16; Lit 35639582788534019 18; Lit 22906653611681099 17]);
   (Lit 2140519141162125 18, [Lit 36607749553197511 18; Lit 36607749553197511 18; Lit 19048604193463348 17]);
   (Lit 2140519141162125 18, [Lit 36607749553197511 18; Lit 19048604193463348 17; Lit 36607749553197511 18]);
   (Lit 2140519141162125 18, [Lit 36607749553197511 18; Lit 36607749553197511 18; Lit 7362984589589715 16]);
   (Lit 2140519141162125 18, [Lit 36607749553197511 18; Lit 7362984589589715 16; Lit 36607749553197511 18]);
   (Lit 2140519141162125 18, [Lit 36607749553197511 18; Lit 19048604193463348 17; Lit 7362984589589715 16]);
   (Lit 2140519141162125 18, [Lit 36607749553197511 18; Lit 7362984589589715 16; Lit 19048604193463348 17]);
   (Lit 2140519141162125 18, [Lit 19048604193463348 17; Lit 36607749553197511 18; Lit 36607749553197511 18]);
   (Lit 2140519141162125 18, [Lit 19048604193463348 17; Lit 36607749553197511 18; Lit 7362984589589715 16]);
   (Lit 2140519141162125 18, [Lit 19048604193463348 17; Lit 7362984589589715 16; Lit 36607749553197511 18]);
   (Lit 2140519141162125 18, [Lit 7362984589589715 16; Lit 36607749553197511 18; Lit 19048604193463348 17]);
   (Lit 2140519141162125 18, [Lit 7362984589589715 16; Lit 36607749553197511 18; Lit 36607749553197511 18]);
   (Lit 2140519141162125 18, [Lit 7362984589589715 16; Lit 19048604193463348 17; Lit 36607749553197511 18])].

(** GaussQuadratureRulesForTetrahedron.cpp:645-706 *)
Definition T3_9_53 : rule := Rule Tetrahedron 9 56 [
   (Lit 1037311233614 15 * TET_VOLUME, [Lit 149520651530592 16; Lit 149520651530592 16; Lit 149520651530592 16]);
   (Lit 1037311233614 15 * TET_VOLUME, [Lit 955143804540822 15; Lit 149520651530592 16; Lit 149520651530592 16]);
   (Lit 1037311233614 15 * TET_VOLUME, [Lit 149520651530592 16; Lit 955143804540822 15; Lit 149520651530592 16]);
   (Lit 1037311233614 15 * TET_VOLUME, [Lit 149520651530592 16; Lit 149520651530592 16; Lit 955143804540822 15]);
   (Lit 9601664539948 15 * TET_VOLUME, [Lit 151831949165937 15; Lit 340960211962615 16; Lit 340960211962615 16]);
   (Lit 9601664539948 15 * TET_VOLUME, [Lit 77997600844154 14; Lit 340960211962615 16; Lit 340960211962615 16]);
   (Lit 9601664539948 15 * TET_VOLUME, [Lit 340960211962615 16; Lit 151831949165937 15; Lit 340960211962615 16]);
   (Lit 9601664539948 15 * TET_VOLUME, [Lit 340960211962615 16; Lit 77997600844154 14; Lit 340960211962615 16]);
   (Lit 9601664539948 15 * TET_VOLUME, [Lit 340960211962615 16; Lit 340960211962615 16; Lit 151831949165937 15]);
   (Lit 9601664539948 15 * TET_VOLUME, [Lit 340960211962615 16; Lit 340960211962615 16; Lit 77997600844154 14]);
   (Lit 9601664539948 15 * TET_VOLUME, [Lit 77997600844154 14; Lit 151831949165937 15; Lit 340960211962615 16]);
   (Lit 9601664539948 15 * TET_VOLUME, [Lit 151831949165937 15; Lit 77997600844154 14; Lit 340960211962615 16]);
   (Lit 9601664539948 15 * TET_VOLUME, [Lit 77997600844154 14; Lit 340960211962615 16; Lit 151831949165937 15]);
   (Lit 9601664539948 15 * TET_VOLUME, [Lit 151831949165937 15; Lit 340960211962615 16; Lit 77997600844154 14]);
   (Lit 9601664539948 15 * TET_VOLUME, [Lit 340960211962615 16; Lit 77997600844154 14; Lit 151831949165937 15]);
   (Lit 9601664539948 15 * TET_VOLUME, [Lit 340960211962615 16; Lit 151831949165937 15; Lit 77997600844154 14]);
   (Lit 164493976798232 16 * TET_VOLUME, [Lit 552655643106017 15; Lit 462051504150017 16; Lit 462051504150017 16]);
   (Lit 164493976798232 16 * TET_VOLUME, [Lit 354934056063979 15; Lit 462051504150017 16; Lit 462051504150017 16]);
   (Lit 164493976798232 16 * TET_VOLUME, [Lit 462051504150017 16; Lit 552655643106017 15; Lit 462051504150017 16]);
   (Lit 164493976798232 16 * TET_VOLUME, [Lit 462051504150017 16; Lit 354934056063979 15; Lit 462051504150017 16]);
   (Lit 164493976798232 16 * TET_VOLUME, [Lit 462051504150017 16; Lit 462051504150017 16; Lit 552655643106017 15]);
   (Lit 164493976798232 16 * TET_VOLUME, [Lit 462051504150017 16; Lit 462051504150017 16; Lit 354934056063979 15]);
   (Lit 164493976798232 16 * TET_VOLUME, [Lit 354934056063979 15; Lit 552655643106017 15; Lit 462051504150017 16]);
   (Lit 164493976798232 16 * TET_VOLUME, [Lit 552655643106017 15; Lit 354934056063979 15; Lit 462051504150017 16]);
   (Lit 164493976798232 16 * TET_VOLUME, [Lit 354934056063979 15; Lit 462051504150017 16; Lit 552655643106017 15]);
   (Lit 164493976798232 16 * TET_VOLUME, [Lit 552655643106017 15; Lit 462051504150017 16; Lit 354934056063979 15]);
   (Lit 164493976798232 16 * TET_VOLUME, [Lit 462051504150017 16; Lit 354934056063979 15; Lit 552655643106017 15]);
   (Lit 164493976798232 16 * TET_VOLUME, [Lit 462051504150017 16; Lit 552655643106017 15; Lit 354934056063979 15]);
   (Lit 15374776651331 15 * TET_VOLUME, [Lit 228190461068761 15; Lit 228190461068761 15; Lit 55147549744775 16]);
   (Lit 15374776651331 15 * TET_VOLUME, [Lit 538104322888002 15; Lit 228190461068761 15; Lit 55147549744775 16]);
   (Lit 15374776651331 15 * TET_VOLUME, [Lit 228190461068761 15; Lit 538104322888002 15; Lit 55147549744775 16]);
   (Lit 15374776651331 15 * TET_VOLUME, [Lit 228190461068761 15; Lit 55147549744775 16; Lit 228190461068761 15]);
   (Lit 15374776651331 15 * TET_VOLUME, [Lit 538104322888002 15; Lit 55147549744775 16; Lit 228190461068761 15]);
   (Lit 15374776651331 15 * TET_VOLUME, [Lit 228190461068761 15; Lit 55147549744775 16; Lit 538104322888002 15]);
   (Lit 15374776651331 15 * TET_VOLUME, [Lit 55147549744775 16; Lit 228190461068761 15; Lit 228190461068761 15]);
   (Lit 15374776651331 15 * TET_VOLUME, [Lit 55147549744775 16; Lit 538104322888002 15; Lit 228190461068761 15]);
   (Lit 15374776651331 15 * TET_VOLUME, [Lit 55147549744775 16; Lit 228190461068761 15; Lit 538104322888002 15]);
   (Lit 15374776651331 15 * TET_VOLUME, [Lit 538104322888002 15; Lit 228190461068761 15; Lit 228190461068761 15]);
   (Lit 15374776651331 15 * TET_VOLUME, [Lit 228190461068761 15; Lit 538104322888002 15; Lit 228190461068761 15]);
   (Lit 15374776651331 15 * TET_VOLUME, [Lit 228190461068761 15; Lit 228190461068761 15; Lit 538104322888002 15]);
   (Lit 29352011837523 15 * TET_VOLUME, [Lit 352305260087994 15; Lit 352305260087994 15; Lit 99205720249453 15]);
   (Lit 29352011837523 15 * TET_VOLUME, [Lit 19618375957456 14; Lit 352305260087994 15; Lit 99205720249453 15]);
   (Lit 29352011837523 15 * TET_VOLUME, [Lit 352305260087994 15; Lit 19618375957456 14; Lit 99205720249453 15]);
   (Lit 29352011837523 15 * TET_VOLUME, [Lit 352305260087994 15; Lit 99205720249453 15; Lit 352305260087994 15]);
   (Lit 29352011837523 15 * TET_VOLUME, [Lit 19618375957456 14; Lit 99205720249453 15; Lit 352305260087994 15]);
   (Lit 29352011837523 15 * TET_VOLUME, [Lit 352305260087994 15; Lit 99205720249453 15; Lit 19618375957456 14]);
   (Lit 29352011837523 15 * TET_VOLUME, [Lit 99205720249453 15; Lit 352305260087994 15; Lit 352305260087994 15]);
   (Lit 29352011837523 15 * TET_VOLUME, [Lit 99205720249453 15; Lit 19618375957456 14; Lit 352305260087994 15]);
   (Lit 29352011837523 15 * TET_VOLUME, [Lit 99205720249453 15; Lit 352305260087994 15; Lit 19618375957456 14]);
   (Lit 29352011837523 15 * TET_VOLUME, [Lit 19618375957456 14; Lit 352305260087994 15; Lit 352305260087994 15]);
   (Lit 29352011837523 15 * TET_VOLUME, [Lit 352305260087994 15; Lit 19618375957456 14; Lit 352305260087994 15]);
   (Lit 29352011837523 15 * TET_VOLUME, [Lit 352305260087994 15; Lit 352305260087994 15; Lit 19618375957456 14]);
   (Lit 366291366405108 16 * TET_VOLUME, [Lit 134478334792994 15; Lit 134478334792994 15; Lit 134478334792994 15]);
   (Lit 366291366405108 16 * TET_VOLUME, [Lit 596564995621017 15; Lit 134478334792994 15; Lit 134478334792994 15]);
   (Lit 366291366405108 16 * TET_VOLUME, [Lit 134478334792994 15; Lit 596564995621017 15; Lit 134478334792994 15]);
   (Lit 366291366405108 16 * TET_VOLUME, [Lit 134478334792994 15; Lit 134478334792994 15; Lit 596564995621017 15])].

(** GaussQuadratureRulesForTetrahedron.cpp:711, 733-1240 *)
Definition T3_10_126 : rule := Rule Tetrahedron 11 126 [
   (Lit 45362824065080999 18, [Lit 71428571428571508 18; Lit 71428571428571508 18; Lit 78571428571428548 17]);
   (Lit 45362824065080999 18, [Lit 71428571428571508 18; Lit 21428571428571452 17; Lit 64285714285714302 17]);
   (Lit 45362824065080999 18, [Lit 71428571428571508 18; Lit 35714285714285698 17; Lit 5 1]);
   (Lit 45362824065080999 18, [Lit 71428571428571508 18; Lit 5 1; Lit 35714285714285698 17]);
   (Lit 45362824065080999 18, [Lit 71428571428571508 18; Lit 64285714285714302 17; Lit 21428571428571452 17]);
   (Lit 45362824065080999 18, [Lit 71428571428571508 18; Lit 78571428571428548 17; Lit 71428571428571508 18]);
   (Lit 45362824065080999 18, [Lit 21428571428571452 17; Lit 71428571428571508 18; Lit 64285714285714302 17]);
   (Lit 45362824065080999 18, [Lit 21428571428571452 17; Lit 21428571428571452 17; Lit 5 1]);
   (Lit 45362824065080999 18, [Lit 21428571428571452 17; Lit 35714285714285698 17; Lit 35714285714285698 17]);
   (Lit 45362824065080999 18, [Lit 21428571428571452 17; Lit 5 1; Lit 21428571428571452 17]);
   (Lit 45362824065080999 18, [Lit 21428571428571452 17; Lit 64285714285714302 17; Lit 71428571428571508 18]);
   (Lit 45362824065080999 18, [Lit 35714285714285698 17; Lit 71428571428571508 18; Lit 5 1]);
   (Lit 45362824065080999 18, [Lit 35714285714285698 17; Lit 21428571428571452 17; Lit 35714285714285698 17]);
   (Lit 45362824065080999 18, [Lit 35714285714285698 17; Lit 35714285714285698 17; Lit 21428571428571452 17]);
   (Lit 45362824065080999 18, [Lit 35714285714285698 17; Lit 5 1; Lit 71428571428571508 18]);
   (Lit 45362824065080999 18, [Lit 5 1; Lit 71428571428571508 18; Lit 35714285714285698 17]);
   (Lit 45362824065080999 18, [Lit 5 1; Lit 21428571428571452 17; Lit 21428571428571452 17]);
   (Lit 45362824065080999 18, [Lit 5 1; Lit 35714285714285698 17; Lit 71428571428571508 18]);
   (Lit 45362824065080999 18, [Lit 64285714285714302 17; Lit 71428571428571508 18; Lit 21428571428571452 17]);
   (Lit 45362824065080999 18, [Lit 64285714285714302 17; Lit 21428571428571452 17; Lit 71428571428571508 18]);
   (Lit 45362824065080999 18, [Lit 78571428571428548 17; Lit 71428571428571508 18; Lit 71428571428571508 18]);
   (Lit 45362824065080999 18, [Lit 71428571428571508 18; Lit 71428571428571508 18; Lit 64285714285714302 17]);
   (Lit 45362824065080999 18, [Lit 71428571428571508 18; Lit 21428571428571452 17; Lit 5 1]);
   (Lit 45362824065080999 18, [Lit 71428571428571508 18; Lit 35714285714285698 17; Lit 35714285714285698 17]);
   (Lit 45362824065080999 18, [Lit 71428571428571508 18; Lit 5 1; Lit 21428571428571452 17]);
   (Lit 45362824065080999 18, [Lit 71428571428571508 18; Lit 64285714285714302 17; Lit 71428571428571508 18]);
   (Lit 45362824065080999 18, [Lit 21428571428571452 17; Lit 71428571428571508 18; Lit 5 1]);
   (Lit 45362824065080999 18, [Lit 21428571428571452 17; Lit 21428571428571452 17; Lit 35714285714285698 17]);
   (Lit 45362824065080999 18, [Lit 21428571428571452 17; Lit 35714285714285698 17; Lit 21428571428571452 17]);
   (Lit 45362824065080999 18, [Lit 21428571428571452 17; Lit 5 1; Lit 71428571428571508 18]);
   (Lit 45362824065080999 18, [Lit 35714285714285698 17; Lit 71428571428571508 18; Lit 35714285714285698 17]);
   (Lit 45362824065080999 18, [Lit 35714285714285698 17; Lit 21428571428571452 17; Lit 21428571428571452 17]);
   (Lit 45362824065080999 18, [Lit 35714285714285698 17; Lit 35714285714285698 17; Lit 71428571428571508 18]);
   (Lit 45362824065080999 18, [Lit 5 1; Lit 71428571428571508 18; Lit 21428571428571452 17]);
   (Lit 45362824065080999 18, [Lit 5 1; Lit 21428571428571452 17; Lit 71428571428571508 18]);
   (Lit 45362824065080999 18, [Lit 64285714285714302 17; Lit 71428571428571508 18; Lit 71428571428571508 18]);
   (Lit 45362824065080999 18, [Lit 71428571428571508 18; Lit 71428571428571508 18; Lit 5 1]);
   (Lit 45362824065080999 18, [Lit 71428571428571508 18; Lit 21428571428571452 17; Lit 35714285714285698 17]);
   (Lit 45362824065080999 18, [Lit 71428571428571508 18; Lit 35714285714285698 17; Lit 21428571428571452 17]);
   (Lit 45362824065080999 18, [Lit 71428571428571508 18; Lit 5 1; Lit 71428571428571508 18]);
   (Lit 45362824065080999 18, [Lit 21428571428571452 17; Lit 71428571428571508 18; Lit 35714285714285698 17]);
   (Lit 45362824065080999 18, [Lit 21428571428571452 17; Lit 21428571428571452 17; Lit 21428571428571452 17]);
   (Lit 45362824065080999 18, [Lit 21428571428571452 17; Lit 35714285714285698 17; Lit 71428571428571508 18]);
   (Lit 45362824065080999 18, [Lit 35714285714285698 17; Lit 71428571428571508 18; Lit 21428571428571452 17]);
   (Lit 45362824065080999 18, [Lit 35714285714285698 17; Lit 21428571428571452 17; Lit 71428571428571508 18]);
   (Lit 45362824065080999 18, [Lit 5 1; Lit 71428571428571508 18; Lit 71428571428571508 18]);
   (Lit 45362824065080999 18, [Lit 71428571428571508 18; Lit 71428571428571508 18; Lit 35714285714285698 17]);
   (Lit 45362824065080999 18, [Lit 71428571428571508 18; Lit 21428571428571452 17; Lit 21428571428571452 17]);
   (Lit 45362824065080999 18, [Lit 71428571428571508 18; Lit 35714285714285698 17; Lit 71428571428571508 18]);
   (Lit 45362824065080999 18, [Lit 21428571428571452 17; Lit 71428571428571508 18; Lit 21428571428571452 17]);
   (Lit 45362824065080999 18, [Lit 21428571428571452 17; Lit 21428571428571452 17; Lit 71428571428571508 18]);
   (Lit 45362824065080999 18, [Lit 35714285714285698 17; Lit 71428571428571508 18; Lit 71428571428571508 18]);
   (Lit 45362824065080999 18, [Lit 71428571428571508 18; Lit 71428571428571508 18; Lit 21428571428571452 17]);
   (Lit 45362824065080999 18, [Lit 71428571428571508 18; Lit 21428571428571452 17; Lit 71428571428571508 18]);
   (Lit 45362824065080999 18, [Lit 21428571428571452 17; Lit 71428571428571508 18; Lit 71428571428571508 18]);
   (Lit 45362824065080999 18, [Lit 71428571428571508 18; Lit 71428571428571508 18; Lit 71428571428571508 18]);
   (Neg (Lit 1165234765234765 16), [Lit 83333333333333481 18; Lit 83333333333333481 18; Lit 75 2]);
   (Neg (Lit 1165234765234765 16), [Lit 83333333333333481 18; Lit 25 2; Lit 58333333333333348 17]);
   (Neg (Lit 1165234765234765 16), [Lit 83333333333333481 18; Lit 41666666666666652 17; Lit 41666666666666652 17]);
   (Neg (Lit 1165234765234765 16), [Lit 83333333333333481 18; Lit 58333333333333348 17; Lit 25 2]);
   (Neg (Lit 1165234765234765 16), [Lit 83333333333333481 18; Lit 75 2; Lit 83333333333333481 18]);
   (Neg (Lit 1165234765234765 16), [Lit 25 2; Lit 83333333333333481 18; Lit 58333333333333348 17]);
   (Neg (Lit 1165234765234765 16), [Lit 25 2; Lit 25 2; Lit 41666666666666652 17]);
   (Neg (Lit 1165234765234765 16), [Lit 25 2; Lit 41666666666666652 17; Lit 25 2]);
   (Neg (Lit 1165234765234765 16), [Lit 25 2; Lit 58333333333333348 17; Lit 83333333333333481 18]);
   (Neg (Lit 1165234765234765 16), [Lit 41666666666666652 17; Lit 83333333333333481 18; Lit 41666666666666652 17]);
   (Neg (Lit 1165234765234765 16), [Lit 41666666666666652 17; Lit 25 2; Lit 25 2]);
   (Neg (Lit 1165234765234765 16), [Lit 41666666666666652 17; Lit 41666666666666652 17; Lit 83333333333333481 18]);
   (Neg (Lit 1165234765234765 16), [Lit 58333333333333348 17; Lit 83333333333333481 18; Lit 25 2]);
   (Neg (Lit 1165234765234765 16), [Lit 58333333333333348 17; Lit 25 2; Lit 83333333333333481 18]);
   (Neg (Lit 1165234765234765 16), [Lit 75 2; Lit 83333333333333481 18; Lit 83333333333333481 18]);
   (Neg (Lit 1165234765234765 16), [Lit 83333333333333481 18; Lit 83333333333333481 18; Lit 58333333333333348 17]);
   (Neg (Lit 1165234765234765 16), [Lit 83333333333333481 18; Lit 25 2; Lit 41666666666666652 17]);
   (Neg (Lit 1165234765234765 16), [Lit 83333333333333481 18; Lit 41666666666666652 17; Lit 25 2]);
   (Neg (Lit 1165234765234765 16), [Lit 83333333333333481 18; Lit 58333333333333348 17; Lit 83333333333333481 18]);
   (Neg (Lit 1165234765234765 16), [Lit 25 2; Lit 83333333333333481 18; Lit 41666666666666652 17]);
   (Neg (Lit 1165234765234765 16), [Lit 25 2; Lit 25 2; Lit 25 2]);
   (Neg (Lit 1165234765234765 16), [Lit 25 2; Lit 41666666666666652 17; Lit 83333333333333481 18]);
   (Neg (Lit 1165234765234765 16), [Lit 41666666666666652 17; Lit 83333333333333481 18; Lit 25 2]);
   (Neg (Lit 1165234765234765 16), [Lit 41666666666666652 17; Lit 25 2; Lit 83333333333333481 18]);
   (Neg (Lit 1165234765234765 16), [Lit 58333333333333348 17; Lit 83333333333333481 18; Lit 83333333333333481 18]);
   (Neg (Lit 1165234765234765 16), [Lit 83333333333333481 18; Lit 83333333333333481 18; Lit 41666666666666652 17]);
   (Neg (Lit 1165234765234765 16), [Lit 83333333333333481 18; Lit 25 2; Lit 25 2]);
   (Neg (Lit 1165234765234765 16), [Lit 83333333333333481 18; Lit 41666666666666652 17; Lit 83333333333333481 18]);
   (Neg (Lit 1165234765234765 16), [Lit 25 2; Lit 83333333333333481 18; Lit 25 2]);
   (Neg (Lit 1165234765234765 16), [Lit 25 2; Lit 25 2; Lit 83333333333333481 18]);
   (Neg (Lit 1165234765234765 16), [Lit 41666666666666652 17; Lit 83333333333333481 18; Lit 83333333333333481 18]);
   (Neg (Lit 1165234765234765 16), [Lit 83333333333333481 18; Lit 83333333333333481 18; Lit 25 2]);
   (Neg (Lit 1165234765234765 16), [Lit 83333333333333481 18; Lit 25 2; Lit 83333333333333481 18]);
   (Neg (Lit 1165234765234765 16), [Lit 25 2; Lit 83333333333333481 18; Lit 83333333333333481 18]);
   (Neg (Lit 1165234765234765 16), [Lit 83333333333333481 18; Lit 83333333333333481 18; Lit 83333333333333481 18]);
   (Lit 10193728997982475 17, [Lit 99999999999999978 18; Lit 99999999999999978 18; Lit 69999999999999996 17]);
   (Lit 10193728997982475 17, [Lit 99999999999999978 18; Lit 29999999999999999 17; Lit 5 1]);
   (Lit 10193728997982475 17, [Lit 99999999999999978 18; Lit 5 1; Lit 29999999999999999 17]);
   (Lit 10193728997982475 17, [Lit 99999999999999978 18; Lit 69999999999999996 17; Lit 99999999999999978 18]);
   (Lit 10193728997982475 17, [Lit 29999999999999999 17; Lit 99999999999999978 18; Lit 5 1]);
   (Lit 10193728997982475 17, [Lit 29999999999999999 17; Lit 29999999999999999 17; Lit 29999999999999999 17]);
   (Lit 10193728997982475 17, [Lit 29999999999999999 17; Lit 5 1; Lit 99999999999999978 18]);
   (Lit 10193728997982475 17, [Lit 5 1; Lit 99999999999999978 18; Lit 29999999999999999 17]);
   (Lit 10193728997982475 17, [Lit 5 1; Lit 29999999999999999 17; Lit 99999999999999978 18]);
   (Lit 10193728997982475 17, [Lit 69999999999999996 17; Lit 99999999999999978 18; Lit 99999999999999978 18]);
   (Lit 10193728997982475 17, [Lit 99999999999999978 18; Lit 99999999999999978 18; Lit 5 1]);
   (Lit 10193728997982475 17, [Lit 99999999999999978 18; Lit 29999999999999999 17; Lit 29999999999999999 17]);
   (Lit 10193728997982475 17, [Lit 99999999999999978 18; Lit 5 1; Lit 99999999999999978 18]);
   (Lit 10193728997982475 17, [Lit 29999999999999999 17; Lit 99999999999999978 18; Lit 29999999999999999 17]);
   (Lit 10193728997982475 17, [Lit 29999999999999999 17; Lit 29999999999999999 17; Lit 99999999999999978 18]);
   (Lit 10193728997982475 17, [Lit 5 1; Lit 99999999999999978 18; Lit 99999999999999978 18]);
   (Lit 10193728997982475 17, [Lit 99999999999999978 18; Lit 99999999999999978 18; Lit 29999999999999999 17]);
   (Lit 10193728997982475 17, [Lit 99999999999999978 18; Lit 29999999999999999 17; Lit 99999999999999978 18]);
   (Lit 10193728997982475 17, [Lit 29999999999999999 17; Lit 99999999999999978 18; Lit 99999999999999978 18]);
   (Lit 10193728997982475 17, [Lit 99999999999999978 18; Lit 99999999999999978 18; Lit 99999999999999978 18]);
   (Neg (Lit 3502538613649725 17), [Lit 125 3; Lit 125 3; Lit 625 3]);
   (Neg (Lit 3502538613649725 17), [Lit 125 3; Lit 375 3; Lit 375 3]);
   (Neg (Lit 3502538613649725 17), [Lit 125 3; Lit 625 3; Lit 125 3]);
   (Neg (Lit 3502538613649725 17), [Lit 375 3; Lit 125 3; Lit 375 3]);
   (Neg (Lit 3502538613649725 17), [Lit 375 3; Lit 375 3; Lit 125 3]);
   (Neg (Lit 3502538613649725 17), [Lit 625 3; Lit 125 3; Lit 125 3]);
   (Neg (Lit 3502538613649725 17), [Lit 125 3; Lit 125 3; Lit 375 3]);
   (Neg (Lit 3502538613649725 17), [Lit 125 3; Lit 375 3; Lit 125 3]);
   (Neg (Lit 3502538613649725 17), [Lit 375 3; Lit 125 3; Lit 125 3]);
   (Neg (Lit 3502538613649725 17), [Lit 125 3; Lit 125 3; Lit 125 3]);
   (Lit 40680803571428751 19, [Lit 16666666666666652 17; Lit 16666666666666652 17; Lit 5 1]);
   (Lit 40680803571428751 19, [Lit 16666666666666652 17; Lit 5 1; Lit 16666666666666652 17]);
   (Lit 40680803571428751 19, [Lit 5 1; Lit 16666666666666652 17; Lit 16666666666666652 17]);
   (Lit 40680803571428751 19, [Lit 16666666666666652 17; Lit 16666666666666652 17; Lit 16666666666666652 17]);
   (Neg (Lit 94062316284499996 21), [Lit 25 2; Lit 25 2; Lit 25 2])].

(** GaussQuadratureRulesForTriangularPrism.cpp:54, 77-83 *)
Definition TriPrism_1_1 : rule := Rule TriangularPrism 1 1 [
   (Lit 5 1 * Lit 2 0, [Lit 1 0 / Lit 3 0; Lit 1 0 / Lit 3 0; Lit 0 0])].

(** GaussQuadratureRulesForTriangularPrism.cpp:88, 111-195 *)
Definition TriPrism_5_21 : rule := Rule TriangularPrism 5 21 [
   (Lit 9 0 / Lit 80 0 * (Lit 5 0 / Lit 9 0), [Lit 1 0 / Lit 3 0; Lit 1 0 / Lit 3 0; Neg (Sqrt (Lit 3 0 / Lit 5 0))]);
   ((Lit 155 0 - Sqrt (Lit 15 0)) / Lit 2400 0 * (Lit 5 0 / Lit 9 0), [(Lit 6 0 - Sqrt (Lit 15 0)) / Lit 21 0; (Lit 6 0 - Sqrt (Lit 15 0)) / Lit 21 0; Neg (Sqrt (Lit 3 0 / Lit 5 0))]);
   ((Lit 155 0 - Sqrt (Lit 15 0)) / Lit 2400 0 * (Lit 5 0 / Lit 9 0), [(Lit 9 0 + Lit 2 0 * Sqrt (Lit 15 0)) / Lit 21 0; (Lit 6 0 - Sqrt (Lit 15 0)) / Lit 21 0; Neg (Sqrt (Lit 3 0 / Lit 5 0))]);
   ((Lit 155 0 - Sqrt (Lit 15 0)) / Lit 2400 0 * (Lit 5 0 / Lit 9 0), [(Lit 6 0 - Sqrt (Lit 15 0)) / Lit 21 0; (Lit 9 0 + Lit 2 0 * Sqrt (Lit 15 0)) / Lit 21 0; Neg (Sqrt (Lit 3 0 / Lit 5 0))]);
   ((Lit 155 0 + Sqrt (Lit 15 0)) / Lit 2400 0 * (Lit 5 0 / Lit 9 0), [(Lit 6 0 + Sqrt (Lit 15 0)) / Lit 21 0; (Lit 6 0 + Sqrt (Lit 15 0)) / Lit 21 0; Neg (Sqrt (Lit 3 0 / Lit 5 0))]);
   ((Lit 155 0 + Sqrt (Lit 15 0)) / Lit 2400 0 * (Lit 5 0 / Lit 9 0), [(Lit 9 0 - Lit 2 0 * Sqrt (Lit 15 0)) / Lit 21 0; (Lit 6 0 + Sqrt (Lit 15 0)) / Lit 21 0; Neg (Sqrt (Lit 3 0 / Lit 5 0))]);
   ((Lit 155 0 + Sqrt (Lit 15 0)) / Lit 2400 0 * (Lit 5 0 / Lit 9 0), [(Lit 6 0 + Sqrt (Lit 15 0)) / Lit 21 0; (Lit 9 0 - Lit 2 0 * Sqrt (Lit 15 0)) / Lit 21 0; Neg (Sqrt (Lit 3 0 / Lit 5 0))]);
   (Lit 9 0 / Lit 80 0 * (Lit 8 0 / Lit 9 0), [Lit 1 0 / Lit 3 0; Lit 1 0 / Lit 3 0; Lit 0 0]);
   ((Lit 155 0 - Sqrt (Lit 15 0)) / Lit 2400 0 * (Lit 8 0 / Lit 9 0), [(Lit 6 0 - Sqrt (Lit 15 0)) / Lit 21 0; (Lit 6 0 - Sqrt (Lit 15 0)) / Lit 21 0; Lit 0 0]);
   ((Lit 155 0 - Sqrt (Lit 15 0)) / Lit 2400 0 * (Lit 8 0 / Lit 9 0), [(Lit 9 0 + Lit 2 0 * Sqrt (Lit 15 0)) / Lit 21 0; (Lit 6 0 - Sqrt (Lit 15 0)) / Lit 21 0; Lit 0 0]);
   ((Lit 155 0 - Sqrt (Lit 15 0)) / Lit 2400 0 * (Lit 8 0 / Lit 9 0), [(Lit 6 0 - Sqrt (Lit 15 0)) / Lit 21 0; (Lit 9 0 + Lit 2 0 * Sqrt (Lit 15 0)) / Lit 21 0; Lit 0 0]);
   ((Lit 155 0 + Sqrt (Lit 15 0)) / Lit 2400 0 * (Lit 8 0 / Lit 9 0), [(Lit 6 0 + Sqrt (Lit 15 0)) / Lit 21 0; (Lit 6 0 + Sqrt (Lit 15 0)) / Lit 21 0; Lit 0 0]);
   ((Lit 155 0 + Sqrt (Lit 15 0)) / Lit 2400 0 * (Lit 8 0 / Lit 9 0), [(Lit 9 0 - Lit 2 0 * Sqrt (Lit 15 0)) / Lit 21 0; (Lit 6 0 + Sqrt (Lit 15 0)) / Lit 21 0; Lit 0 0]);
   ((Lit 155 0 + Sqrt (Lit 15 0)) / Lit 2400 0 * (Lit 8 0 / Lit 9 0), [(Lit 6 0 + Sqrt (Lit 15 0)) / Lit 21 0; (Lit 9 0 - Lit 2 0 * Sqrt (Lit 15 0)) / Lit 21 0; Lit 0 0]);
   (Lit 9 0 / Lit 80 0 * (Lit 5 0 / Lit 9 0), [Lit 1 0 / Lit 3 0; Lit 1 0 / Lit 3 0; Sqrt (Lit 3 0 / Lit 5 0)]);
   ((Lit 155 0 - Sqrt (Lit 15 0)) / Lit 2400 0 * (Lit 5 0 / Lit 9 0), [(Lit 6 0 - Sqrt (Lit 15 0)) / Lit 21 0; (Lit 6 0 - Sqrt (Lit 15 0)) / Lit 21 0; Sqrt (Lit 3 0 / Lit 5 0)]);
   ((Lit 155 0 - Sqrt (Lit 15 0)) / Lit 2400 0 * (Lit 5 0 / Lit 9 0), [(Lit 9 0 + Lit 2 0 * Sqrt (Lit 15 0)) / Lit 21 0; (Lit 6 0 - Sqrt (Lit 15 0)) / Lit 21 0; Sqrt (Lit 3 0 / Lit 5 0)]);
   ((Lit 155 0 - Sqrt (Lit 15 0)) / Lit 2400 0 * (Lit 5 0 / Lit 9 0), [(Lit 6 0 - Sqrt (Lit 15 0)) / Lit 21 0; (Lit 9 0 + Lit 2 0 * Sqrt (Lit 15 0)) / Lit 21 0; Sqrt (Lit 3 0 / Lit 5 0)]);
   ((Lit 155 0 + Sqrt (Lit 15 0)) / Lit 2400 0 * (Lit 5 0 / Lit 9 0), [(Lit 6 0 + Sqrt (Lit 15 0)) / Lit 21 0; (Lit 6 0 + Sqrt (Lit 15 0)) / Lit 21 0; Sqrt (Lit 3 0 / Lit 5 0)]);
   ((Lit 155 0 + Sqrt (Lit 15 0)) / Lit 2400 0 * (Lit 5 0 / Lit 9 0), [(Lit 9 0 - Lit 2 0 * Sqrt (Lit 15 0)) / Lit 21 0; (Lit 6 0 + Sqrt (Lit 15 0)) / Lit 21 0; Sqrt (Lit 3 0 / Lit 5 0)]);
   ((Lit 155 0 + Sqrt (Lit 15 0)) / Lit 2400 0 * (Lit 5 0 / Lit 9 0), [(Lit 6 0 + Sqrt (Lit 15 0)) / Lit 21 0; (Lit 9 0 - Lit 2 0 * Sqrt (Lit 15 0)) / Lit 21 0; Sqrt (Lit 3 0 / Lit 5 0)])].

(** GaussQuadratureRulesForTriangularPrism.cpp:200, 223-482 *)
Definition TriPrism_7_64 : rule := Rule TriangularPrism 7 64 [
   (Lit 1739274226 10 * Lit 1355069134 10 * (Lit 2 0 * Lit 1739274226 10), [(Neg (Lit 861136312 9) + Lit 1 0) / Lit 2 0 * (Lit 1 0 - Lit 571041961 10); Lit 571041961 10; Neg (Lit 861136312 9)]);
   (Lit 3260725774 10 * Lit 1355069134 10 * (Lit 2 0 * Lit 1739274226 10), [(Neg (Lit 3399810436 10) + Lit 1 0) / Lit 2 0 * (Lit 1 0 - Lit 571041961 10); Lit 571041961 10; Neg (Lit 861136312 9)]);
   (Lit 3260725774 10 * Lit 1355069134 10 * (Lit 2 0 * Lit 1739274226 10), [(Lit 3399810436 10 + Lit 1 0) / Lit 2 0 * (Lit 1 0 - Lit 571041961 10); Lit 571041961 10; Neg (Lit 861136312 9)]);
   (Lit 1739274226 10 * Lit 1355069134 10 * (Lit 2 0 * Lit 1739274226 10), [(Lit 861136312 9 + Lit 1 0) / Lit 2 0 * (Lit 1 0 - Lit 571041961 10); Lit 571041961 10; Neg (Lit 861136312 9)]);
   (Lit 1739274226 10 * Lit 203464568 9 * (Lit 2 0 * Lit 1739274226 10), [(Neg (Lit 861136312 9) + Lit 1 0) / Lit 2 0 * (Lit 1 0 - Lit 2768430136 10); Lit 2768430136 10; Neg (Lit 861136312 9)]);
   (Lit 3260725774 10 * Lit 203464568 9 * (Lit 2 0 * Lit 1739274226 10), [(Neg (Lit 3399810436 10) + Lit 1 0) / Lit 2 0 * (Lit 1 0 - Lit 2768430136 10); Lit 2768430136 10; Neg (Lit 861136312 9)]);
   (Lit 3260725774 10 * Lit 203464568 9 * (Lit 2 0 * Lit 1739274226 10), [(Lit 3399810436 10 + Lit 1 0) / Lit 2 0 * (Lit 1 0 - Lit 2768430136 10); Lit 2768430136 10; Neg (Lit 861136312 9)]);
   (Lit 1739274226 10 * Lit 203464568 9 * (Lit 2 0 * Lit 1739274226 10), [(Lit 861136312 9 + Lit 1 0) / Lit 2 0 * (Lit 1 0 - Lit 2768430136 10); Lit 2768430136 10; Neg (Lit 861136312 9)]);
   (Lit 1739274226 10 * Lit 1298475476 10 * (Lit 2 0 * Lit 1739274226 10), [(Neg (Lit 861136312 9) + Lit 1 0) / Lit 2 0 * (Lit 1 0 - Lit 5835904324 10); Lit 5835904324 10; Neg (Lit 861136312 9)]);
   (Lit 3260725774 10 * Lit 1298475476 10 * (Lit 2 0 * Lit 1739274226 10), [(Neg (Lit 3399810436 10) + Lit 1 0) / Lit 2 0 * (Lit 1 0 - Lit 5835904324 10); Lit 5835904324 10; Neg (Lit 861136312 9)]);
   (Lit 3260725774 10 * Lit 1298475476 10 * (Lit 2 0 * Lit 1739274226 10), [(Lit 3399810436 10 + Lit 1 0) / Lit 2 0 * (Lit 1 0 - Lit 5835904324 10); Lit 5835904324 10; Neg (Lit 861136312 9)]);
   (Lit 1739274226 10 * Lit 1298475476 10 * (Lit 2 0 * Lit 1739274226 10), [(Lit 861136312 9 + Lit 1 0) / Lit 2 0 * (Lit 1 0 - Lit 5835904324 10); Lit 5835904324 10; Neg (Lit 861136312 9)]);
   (Lit 1739274226 10 * Lit 311809709 10 * (Lit 2 0 * Lit 1739274226 10), [(Neg (Lit 861136312 9) + Lit 1 0) / Lit 2 0 * (Lit 1 0 - Lit 8602401357 10); Lit 8602401357 10; Neg (Lit 861136312 9)]);
   (Lit 3260725774 10 * Lit 311809709 10 * (Lit 2 0 * Lit 1739274226 10), [(Neg (Lit 3399810436 10) + Lit 1 0) / Lit 2 0 * (Lit 1 0 - Lit 8602401357 10); Lit 8602401357 10; Neg (Lit 861136312 9)]);
   (Lit 3260725774 10 * Lit 311809709 10 * (Lit 2 0 * Lit 1739274226 10), [(Lit 3399810436 10 + Lit 1 0) / Lit 2 0 * (Lit 1 0 - Lit 8602401357 10); Lit 8602401357 10; Neg (Lit 861136312 9)]);
   (Lit 1739274226 10 * Lit 311809709 10 * (Lit 2 0 * Lit 1739274226 10), [(Lit 861136312 9 + Lit 1 0) / Lit 2 0 * (Lit 1 0 - Lit 8602401357 10); Lit 8602401357 10; Neg (Lit 861136312 9)]);
   (Lit 1739274226 10 * Lit 1355069134 10 * (Lit 2 0 * Lit 3260725774 10), [(Neg (Lit 861136312 9) + Lit 1 0) / Lit 2 0 * (Lit 1 0 - Lit 571041961 10); Lit 571041961 10; Neg (Lit 3399810436 10)]);
   (Lit 3260725774 10 * Lit 1355069134 10 * (Lit 2 0 * Lit 3260725774 10), [(Neg (Lit 3399810436 10) + Lit 1 0) / Lit 2 0 * (Lit 1 0 - Lit 571041961 10); Lit 571041961 10; Neg (Lit 3399810436 10)]);
   (Lit 3260725774 10 * Lit 1355069134 10 * (Lit 2 0 * Lit 3260725774 10), [(Lit 3399810436 10 + Lit 1 0) / Lit 2 0 * (Lit 1 0 - Lit 571041961 10); Lit 571041961 10; Neg (Lit 3399810436 10)]);
   (Lit 1739274226 10 * Lit 1355069134 10 * (Lit 2 0 * Lit 3260725774 10), [(Lit 861136312 9 + Lit 1 0) / Lit 2 0 * (Lit 1 0 - Lit 571041961 10); Lit 571041961 10; Neg (Lit 3399810436 10)]);
   (Lit 1739274226 10 * Lit 203464568 9 * (Lit 2 0 * Lit 3260725774 10), [(Neg (Lit 861136312 9) + Lit 1 0) / Lit 2 0 * (Lit 1 0 - Lit 2768430136 10); Lit 2768430136 10; Neg (Lit 3399810436 10)]);
   (Lit 3260725774 10 * Lit 203464568 9 * (Lit 2 0 * Lit 3260725774 10), [(Neg (Lit 3399810436 10) + Lit 1 0) / Lit 2 0 * (Lit 1 0 - Lit 2768430136 10); Lit 2768430136 10; Neg (Lit 3399810436 10)]);
   (Lit 3260725774 10 * Lit 203464568 9 * (Lit 2 0 * Lit 3260725774 10), [(Lit 3399810436 10 + Lit 1 0) / Lit 2 0 * (Lit 1 0 - Lit 2768430136 10); Lit 2768430136 10; Neg (Lit 3399810436 10)]);
   (Lit 1739274226 10 * Lit 203464568 9 * (Lit 2 0 * Lit 3260725774 10), [(Lit 861136312 9 + Lit 1 0) / Lit 2 0 * (Lit 1 0 - Lit 2768430136 10); Lit 2768430136 10; Neg (Lit 3399810436 10)]);
   (Lit 1739274226 10 * Lit 1298475476 10 * (Lit 2 0 * Lit 3260725774 10), [(Neg (Lit 861136312 9) + Lit 1 0) / Lit 2 0 * (Lit 1 0 - Lit 5835904324 10); Lit 5835904324 10; Neg (Lit 3399810436 10)]);
   (Lit 3260725774 10 * Lit 1298475476 10 * (Lit 2 0 * Lit 3260725774 10), [(Neg (Lit 3399810436 10) + Lit 1 0) / Lit 2 0 * (Lit 1 0 - Lit 5835904324 10); Lit 5835904324 10; Neg (Lit 3399810436 10)]);
   (Lit 3260725774 10 * Lit 1298475476 10 * (Lit 2 0 * Lit 3260725774 10), [(Lit 3399810436 10 + Lit 1 0) / Lit 2 0 * (Lit 1 0 - Lit 5835904324 10); Lit 5835904324 10; Neg (Lit 3399810436 10)]);
   (Lit 1739274226 10 * Lit 1298475476 10 * (Lit 2 0 * Lit 3260725774 10), [(Lit 861136312 9 + Lit 1 0) / Lit 2 0 * (Lit 1 0 - Lit 5835904324 10); Lit 5835904324 10; Neg (Lit 3399810436 10)]);
   (Lit 1739274226 10 * Lit 311809709 10 * (Lit 2 0 * Lit 3260725774 10), [(Neg (Lit 861136312 9) + Lit 1 0) / Lit 2 0 * (Lit 1 0 - Lit 8602401357 10); Lit 8602401357 10; Neg (Lit 3399810436 10)]);
   (Lit 3260725774 10 * Lit 311809709 10 * (Lit 2 0 * Lit 3260725774 10), [(Neg (Lit 3399810436 10) + Lit 1 0) / Lit 2 0 * (Lit 1 0 - Lit 8602401357 10); Lit 8602401357 10; Neg (Lit 3399810436 10)]);
   (Lit 3260725774 10 * Lit 311809709 10 * (Lit 2 0 * Lit 3260725774 10), [(Lit 3399810436 10 + Lit 1 0) / Lit 2 0 * (Lit 1 0 - Lit 8602401357 10); Lit 8602401357 10; Neg (Lit 3399810436 10)]);
   (Lit 1739274226 10 * Lit 311809709 10 * (Lit 2 0 * Lit 3260725774 10), [(Lit 861136312 9 + Lit 1 0) / Lit 2 0 * (Lit 1 0 - Lit 8602401357 10); Lit 8602401357 10; Neg (Lit 3399810436 10)]);
   (Lit 1739274226 10 * Lit 1355069134 10 * (Lit 2 0 * Lit 3260725774 10), [(Neg (Lit 861136312 9) + Lit 1 0) / Lit 2 0 * (Lit 1 0 - Lit 571041961 10); Lit 571041961 10; Lit 3399810436 10]);
   (Lit 3260725774 10 * Lit 1355069134 10 * (Lit 2 0 * Lit 3260725774 10), [(Neg (Lit 3399810436 10) + Lit 1 0) / Lit 2 0 * (Lit 1 0 - Lit 571041961 10); Lit 571041961 10; Lit 3399810436 10]);
   (Lit 3260725774 10 * Lit 1355069134 10 * (Lit 2 0 * Lit 3260725774 10), [(Lit 3399810436 10 + Lit 1 0) / Lit 2 0 * (Lit 1 0 - Lit 571041961 10); Lit 571041961 10; Lit 3399810436 10]);
   (Lit 1739274226 10 * Lit 1355069134 10 * (Lit 2 0 * Lit 3260725774 10), [(Lit 861136312 9 + Lit 1 0) / Lit 2 0 * (Lit 1 0 - Lit 571041961 10); Lit 571041961 10; Lit 3399810436 10]);
   (Lit 1739274226 10 * Lit 203464568 9 * (Lit 2 0 * Lit 3260725774 10), [(Neg (Lit 861136312 9) + Lit 1 0) / Lit 2 0 * (Lit 1 0 - Lit 2768430136 10); Lit 2768430136 10; Lit 3399810436 10]);
   (Lit 3260725774 10 * Lit 203464568 9 * (Lit 2 0 * Lit 3260725774 10), [(Neg (Lit 3399810436 10) + Lit 1 0) / Lit 2 0 * (Lit 1 0 - Lit 2768430136 10); Lit 2768430136 10; Lit 3399810436 10]);
   (Lit 3260725774 10 * Lit 203464568 9 * (Lit 2 0 * Lit 3260725774 10), [(Lit 3399810436 10 + Lit 1 0) / Lit 2 0 * (Lit 1 0 - Lit 2768430136 10); Lit 2768430136 10; Lit 3399810436 10]);
   (Lit 1739274226 10 * Lit 203464568 9 * (Lit 2 0 * Lit 3260725774 10), [(Lit 861136312 9 + Lit 1 0) / Lit 2 0 * (Lit 1 0 - Lit 2768430136 10); Lit 2768430136 10; Lit 3399810436 10]);
   (Lit 1739274226 10 * Lit 1298475476 10 * (Lit 2 0 * Lit 3260725774 10), [(Neg (Lit 861136312 9) + Lit 1 0) / Lit 2 0 * (Lit 1 0 - Lit 5835904324 10); Lit 5835904324 10; Lit 3399810436 10]);
   (Lit 3260725774 10 * Lit 1298475476 10 * (Lit 2 0 * Lit 3260725774 10), [(Neg (Lit 3399810436 10) + Lit 1 0) / Lit 2 0 * (Lit 1 0 - Lit 5835904324 10); Lit 5835904324 10; Lit 3399810436 10]);
   (Lit 3260725774 10 * Lit 1298475476 10 * (Lit 2 0 * Lit 3260725774 10), [(Lit 3399810436 10 + Lit 1 0) / Lit 2 0 * (Lit 1 0 - Lit 5835904324 10); Lit 5835904324 10; Lit 3399810436 10]);
   (Lit 1739274226 10 * Lit 1298475476 10 * (Lit 2 0 * Lit 3260725774 10), [(Lit 861136312 9 + Lit 1 0) / Lit 2 0 * (Lit 1 0 - Lit 5835904324 10); Lit 5835904324 10; Lit 3399810436 10]);
   (Lit 1739274226 10 * Lit 311809709 10 * (Lit 2 0 * Lit 3260725774 10), [(Neg (Lit 861136312 9) + Lit 1 0) / Lit 2 0 * (Lit 1 0 - Lit 8602401357 10); Lit 8602401357 10; Lit 3399810436 10]);
   (Lit 3260725774 10 * Lit 311809709 10 * (Lit 2 0 * Lit 3260725774 10), [(Neg (Lit 3399810436 10) + Lit 1 0) / Lit 2 0 * (Lit 1 0 - Lit 8602401357 10); Lit 8602401357 10; Lit 3399810436 10]);
   (Lit 3260725774 10 * Lit 311809709 10 * (Lit 2 0 * Lit 3260725774 10), [(Lit 3399810436 10 + Lit 1 0) / Lit 2 0 * (Lit 1 0 - Lit 8602401357 10); Lit 8602401357 10; Lit 3399810436 10]);
   (Lit 1739274226 10 * Lit 311809709 10 * (Lit 2 0 * Lit 3260725774 10), [(Lit 861136312 9 + Lit 1 0) / Lit 2 0 * (Lit 1 0 - Lit 8602401357 10); Lit 8602401357 10; Lit 3399810436 10]);
   (Lit 1739274226 10 * Lit 1355069134 10 * (Lit 2 0 * Lit 1739274226 10), [(Neg (Lit 861136312 9) + Lit 1 0) / Lit 2 0 * (Lit 1 0 - Lit 571041961 10); Lit 571041961 10; Lit 861136312 9]);
   (Lit 3260725774 10 * Lit 1355069134 10 * (Lit 2 0 * Lit 1739274226 10), [(Neg (Lit 3399810436 10) + Lit 1 0) / Lit 2 0 * (Lit 1 0 - Lit 571041961 10); Lit 571041961 10; Lit 861136312 9]);
   (Lit 3260725774 10 * Lit 1355069134 10 * (Lit 2 0 * Lit 1739274226 10), [(Lit 3399810436 10 + Lit 1 0) / Lit 2 0 * (Lit 1 0 - Lit 571041961 10); Lit 571041961 10; Lit 861136312 9]);
   (Lit 1739274226 10 * Lit 1355069134 10 * (Lit 2 0 * Lit 1739274226 10), [(Lit 861136312 9 + Lit 1 0) / Lit 2 0 * (Lit 1 0 - Lit 571041961 10); Lit 571041961 10; Lit 861136312 9]);
   (Lit 1739274226 10 * Lit 203464568 9 * (Lit 2 0 * Lit 1739274226 10), [(Neg (Lit 861136312 9) + Lit 1 0) / Lit 2 0 * (Lit 1 0 - Lit 2768430136 10); Lit 2768430136 10; Lit 861136312 9]);
   (Lit 3260725774 10 * Lit 203464568 9 * (Lit 2 0 * Lit 1739274226 10), [(Neg (Lit 3399810436 10) + Lit 1 0) / Lit 2 0 * (Lit 1 0 - Lit 2768430136 10); Lit 2768430136 10; Lit 861136312 9]);
   (Lit 3260725774 10 * Lit 203464568 9 * (Lit 2 0 * Lit 1739274226 10), [(Lit 3399810436 10 + Lit 1 0) / Lit 2 0 * (Lit 1 0 - Lit 2768430136 10); Lit 2768430136 10; Lit 861136312 9]);
   (Lit 1739274226 10 * Lit 203464568 9 * (Lit 2 0 * Lit 1739274226 10), [(Lit 861136312 9 + Lit 1 0) / Lit 2 0 * (Lit 1 0 - Lit 2768430136 10); Lit 2768430136 10; Lit 861136312 9]);
   (Lit 1739274226 10 * Lit 1298475476 10 * (Lit 2 0 * Lit 1739274226 10), [(Neg (Lit 861136312 9) + Lit 1 0) / Lit 2 0 * (Lit 1 0 - Lit 5835904324 10); Lit 5835904324 10; Lit 861136312 9]);
   (Lit 3260725774 10 * Lit 1298475476 10 * (Lit 2 0 * Lit 1739274226 10), [(Neg (Lit 3399810436 10) + Lit 1 0) / Lit 2 0 * (Lit 1 0 - Lit 5835904324 10); Lit 5835904324 10; Lit 861136312 9]);
   (Lit 3260725774 10 * Lit 1298475476 10 * (Lit 2 0 * Lit 1739274226 10), [(Lit 3399810436 10 + Lit 1 0) / Lit 2 0 * (Lit 1 0 - Lit 5835904324 10); Lit 5835904324 10; Lit 861136312 9]);
   (Lit 1739274226 10 * Lit 1298475476 10 * (Lit 2 0 * Lit 1739274226 10), [(Lit 861136312 9 + Lit 1 0) / Lit 2 0 * (Lit 1 0 - Lit 5835904324 10); Lit 5835904324 10; Lit 861136312 9]);
   (Lit 1739274226 10 * Lit 311809709 10 * (Lit 2 0 * Lit 1739274226 10), [(Neg (Lit 861136312 9) + Lit 1 0) / Lit 2 0 * (Lit 1 0 - Lit 8602401357 10); Lit 8602401357 10; Lit 861136312 9]);
   (Lit 3260725774 10 * Lit 311809709 10 * (Lit 2 0 * Lit 1739274226 10), [(Neg (Lit 3399810436 10) + Lit 1 0) / Lit 2 0 * (Lit 1 0 - Lit 8602401357 10); Lit 8602401357 10; Lit 861136312 9]);
   (Lit 3260725774 10 * Lit 311809709 10 * (Lit 2 0 * Lit 1739274226 10), [(Lit 3399810436 10 + Lit 1 0) / Lit 2 0 * (Lit 1 0 - Lit 8602401357 10); Lit 8602401357 10; Lit 861136312 9]);
   (Lit 1739274226 10 * Lit 311809709 10 * (Lit 2 0 * Lit 1739274226 10), [(Lit 861136312 9 + Lit 1 0) / Lit 2 0 * (Lit 1 0 - Lit 8602401357 10); Lit 8602401357 10; Lit 861136312 9])].

(** GaussQuadratureRulesForHypercube.cpp:52, 72-78 *)
Definition Cn4_1_1 : rule := Rule Hypercube 1 1 [
   (Lit 16 0, [Lit 0 0; Lit 0 0; Lit 0 0; Lit 0 0])].

(** GaussQuadratureRulesForHypercube.cpp:84, 104-171 *)
Definition Cn4_3_16 : rule := Rule Hypercube 3 16 [
   (Lit 1 0, [Neg (Sqrt (Lit 3 0)) / Lit 3 0; Neg (Sqrt (Lit 3 0)) / Lit 3 0; Neg (Sqrt (Lit 3 0)) / Lit 3 0; Neg (Sqrt (Lit 3 0)) / Lit 3 0]);
   (Lit 1 0, [Sqrt (Lit 3 0) / Lit 3 0; Neg (Sqrt (Lit 3 0)) / Lit 3 0; Neg (Sqrt (Lit 3 0)) / Lit 3 0; Neg (Sqrt (Lit 3 0)) / Lit 3 0]);
   (Lit 1 0, [Neg (Sqrt (Lit 3 0)) / Lit 3 0; Sqrt (Lit 3 0) / Lit 3 0; Neg (Sqrt (Lit 3 0)) / Lit 3 0; Neg (Sqrt (Lit 3 0)) / Lit 3 0]);
   (Lit 1 0, [Sqrt (Lit 3 0) / Lit 3 0; Sqrt (Lit 3 0) / Lit 3 0; Neg (Sqrt (Lit 3 0)) / Lit 3 0; Neg (Sqrt (Lit 3 0)) / Lit 3 0]);
   (Lit 1 0, [Neg (Sqrt (Lit 3 0)) / Lit 3 0; Neg (Sqrt (Lit 3 0)) / Lit 3 0; Sqrt (Lit 3 0) / Lit 3 0; Neg (Sqrt (Lit 3 0)) / Lit 3 0]);
   (Lit 1 0, [Sqrt (Lit 3 0) / Lit 3 0; Neg (Sqrt (Lit 3 0)) / Lit 3 0; Sqrt (Lit 3 0) / Lit 3 0; Neg (Sqrt (Lit 3 0)) / Lit 3 0]);
   (Lit 1 0, [Neg (Sqrt (Lit 3 0)) / Lit 3 0; Sqrt (Lit 3 0) / Lit 3 0; Sqrt (Lit 3 0) / Lit 3 0; Neg (Sqrt (Lit 3 0)) / Lit 3 0]);
   (Lit 1 0, [Sqrt (Lit 3 0) / Lit 3 0; Sqrt (Lit 3 0) / Lit 3 0; Sqrt (Lit 3 0) / Lit 3 0; Neg (Sqrt (Lit 3 0)) / Lit 3 0]);
   (Lit 1 0, [Neg (Sqrt (Lit 3 0)) / Lit 3 0; Neg (Sqrt (Lit 3 0)) / Lit 3 0; Neg (Sqrt (Lit 3 0)) / Lit 3 0; Sqrt (Lit 3 0) / Lit 3 0]);
   (Lit 1 0, [Sqrt (Lit 3 0) / Lit 3 0; Neg (Sqrt (Lit 3 0)) / Lit 3 0; Neg (Sqrt (Lit 3 0)) / Lit 3 0; Sqrt (Lit 3 0) / Lit 3 0]);
   (Lit 1 0, [Neg (Sqrt (Lit 3 0)) / Lit 3 0; Sqrt (Lit 3 0) / Lit 3 0; Neg (Sqrt (Lit 3 0)) / Lit 3 0; Sqrt (Lit 3 0) / Lit 3 0]);
   (Lit 1 0, [Sqrt (Lit 3 0) / Lit 3 0; Sqrt (Lit 3 0) / Lit 3 0; Neg (Sqrt (Lit 3 0)) / Lit 3 0; Sqrt (Lit 3 0) / Lit 3 0]);
   (Lit 1 0, [Neg (Sqrt (Lit 3 0)) / Lit 3 0; Neg (Sqrt (Lit 3 0)) / Lit 3 0; Sqrt (Lit 3 0) / Lit 3 0; Sqrt (Lit 3 0) / Lit 3 0]);
   (Lit 1 0, [Sqrt (Lit 3 0) / Lit 3 0; Neg (Sqrt (Lit 3 0)) / Lit 3 0; Sqrt (Lit 3 0) / Lit 3 0; Sqrt (Lit 3 0) / Lit 3 0]);
   (Lit 1 0, [Neg (Sqrt (Lit 3 0)) / Lit 3 0; Sqrt (Lit 3 0) / Lit 3 0; Sqrt (Lit 3 0) / Lit 3 0; Sqrt (Lit 3 0) / Lit 3 0]);
   (Lit 1 0, [Sqrt (Lit 3 0) / Lit 3 0; Sqrt (Lit 3 0) / Lit 3 0; Sqrt (Lit 3 0) / Lit 3 0; Sqrt (Lit 3 0) / Lit 3 0])].

Local Close Scope num_scope.

Definition shape_eq_dec (s t : shape) : {s = t} + {s <> t}.
Proof. decide equality. Defined.

(** AllGaussQuadratureRules.h listOfRules_: a map from the geometry type to a vector of rules; operator[] gives
    an empty vector for a type that is not in the map *)
Definition rule_map := shape -> list rule.

(** AllGaussQuadratureRules.cpp:130-136: the position after the rules of a lower order *)
Fixpoint insert_rule (r : rule) (l : list rule) : list rule :=
  match l with
  | [] => [r]
  | x :: l' => if (order x <? order r)%N then x :: insert_rule r l' else r :: l
  end.

(** AllGaussQuadratureRules.cpp:125-137 *)
Definition addRule (m : rule_map) (r : rule) : rule_map :=
  fun s => if shape_eq_dec s (forReferenceGeometry r) then insert_rule r (m s) else m s.

(** AllGaussQuadratureRules.cpp:58-118: the rules in the order in which they are added *)
Definition registered : list rule := [
   Cn0_inf_1; Cn1_1_1; Cn1_3_2; Cn1_5_3; C1_7_4; C1_9_5; C1_11_6; Cn2_1_1;
   Cn2_3_4; Cn2_5_9; C2_7_4; C2_9_5; C2_11_6; Tn2_1_1; Tn2_2_3; Tn2_4_6;
   T2_5_7; T2_6_12; T2_8_16; T2_9_19; T2_10_25; T2_11_28; Cn3_1_1; Cn3_3_4;
   Cn3_5_9; C3_7_2; C3_9_2; C3_11_2; Pyramid_1_4; Pyramid_3_16; Pyramid_5_36; Pyramid_7_48;
   Tn3_1_1; Tn3_2_4; Tn3_3_10; Tn3_4_14; T3_5_14; T3_6_24; T3_7_31; T3_8_43;
   T3_9_53; T3_10_126; TriPrism_1_1; TriPrism_5_21; TriPrism_7_64; Cn4_1_1; Cn4_3_16].
Definition listOfRules_ : rule_map := fold_left addRule registered (fun _ => []).

(** AllGaussQuadratureRules.cpp:139-158; the reference geometry is given by its type and, for a curvilinear element,
    its order (ReferenceCurvilinearElement_Impl.h:54 passes on the type of the base geometry). The sum
    getOrder() + 1 is not reduced modulo 2^64. [None]: the assertion that a rule has been found fails. *)
Definition getRule (geometry : shape) (curvilinear : option N) (o : N) : option rule :=
  let o := match curvilinear with Some c => N.max o (c + 1) | None => o end in
  find (fun r => (o <=? order r)%N) (listOfRules_ geometry).
