(** Model of the time integrators (kernel/Base/TimeIntegration).
    The coefficients are the rational numbers that the C++ expressions denote; rounding
    to double is not modelled.  A failed assertion or an index outside an array is
    [None]. *)
From Coq Require Import List Arith Bool QArith Qcanon.
Import ListNotations.

(** ButcherTableau.h:56-78; the arrays a_, b_, c_, error_ of the derived classes *)
Record Tableau (A : Type) := {
  order : nat;
  numberOfStages : nat;
  totalVariationDiminishing : bool;
  a_ : list (list A);
  b_ : list A;
  c_ : list A;
  error_ : option (list A)     (* Some iff hasErrorEstimate() *)
}.
Arguments order {A}. Arguments numberOfStages {A}. Arguments totalVariationDiminishing {A}.
Arguments a_ {A}. Arguments b_ {A}. Arguments c_ {A}. Arguments error_ {A}.

(** getA, getB, getC, getErrorCoefficient (e.g. RK4Methods.cpp:73-96, DormandPrince.cpp:92-123).
    BogackiShampine.cpp:81-99 has no assertions; its accesses are the same inside the
    arrays. *)
Definition getA {A} (T : Tableau A) (i j : nat) : option A :=
  if (i <? numberOfStages T) && (j <? i)
  then match nth_error (a_ T) i with None => None | Some row => nth_error row j end
  else None.
Definition getB {A} (T : Tableau A) (i : nat) : option A :=
  if i <? numberOfStages T then nth_error (b_ T) i else None.
Definition getC {A} (T : Tableau A) (i : nat) : option A :=
  if i <? numberOfStages T then nth_error (c_ T) i else None.
Definition getErrorCoefficient {A} (T : Tableau A) (i : nat) : option A :=
  match error_ T with
  | None => None
  | Some e => if i <? numberOfStages T then nth_error e i else None
  end.

Local Notation "n '/.' d" := (Q2Qc (Qmake n d)) (at level 40, d at level 9).
Local Notation Z0 := (Q2Qc (Qmake 0 1)).
Local Notation Z1 := (Q2Qc (Qmake 1 1)).
Local Open Scope Qc_scope.

(** ForwardEuler.cpp:44-56 *)
Definition ForwardEuler : Tableau Qc :=
  {| order := 1; numberOfStages := 1; totalVariationDiminishing := true;
     a_ := [[]]; b_ := [Z1]; c_ := [Z0]; error_ := None |}.
(** MidPoint.cpp:44-58 *)
Definition MidPoint : Tableau Qc :=
  {| order := 2; numberOfStages := 2; totalVariationDiminishing := false;
     a_ := [[]; [1 /. 2]]; b_ := [Z0; Z1]; c_ := [Z0; 1 /. 2]; error_ := None |}.
(** RK2TVD.cpp:45-62 *)
Definition RK2TVD : Tableau Qc :=
  {| order := 2; numberOfStages := 2; totalVariationDiminishing := true;
     a_ := [[]; [Z1]]; b_ := [1 /. 2; 1 /. 2]; c_ := [Z0; Z0];
     error_ := Some [-1 /. 2; 1 /. 2] |}.
(** RK3TVD.cpp:45-62 *)
Definition RK3TVD : Tableau Qc :=
  {| order := 3; numberOfStages := 3; totalVariationDiminishing := true;
     a_ := [[]; [Z1]; [1 /. 4; 1 /. 4]];
     b_ := [1 /. 6; 1 /. 6; 2 /. 3]; c_ := [Z0; Z0; Z0]; error_ := None |}.
(** RK4Methods.cpp:44-62 *)
Definition RK4_4 : Tableau Qc :=
  {| order := 4; numberOfStages := 4; totalVariationDiminishing := false;
     a_ := [[]; [1 /. 2]; [Z0; 1 /. 2]; [Z0; Z0; Z1]];
     b_ := [1 /. 6; 1 /. 3; 1 /. 3; 1 /. 6]; c_ := [Z0; 1 /. 2; 1 /. 2; Z1]; error_ := None |}.
(** DormandPrince.cpp:45-82 *)
Definition DormandPrince : Tableau Qc :=
  {| order := 5; numberOfStages := 7; totalVariationDiminishing := false;
     a_ := [[]; [1 /. 5]; [3 /. 40; 9 /. 40]; [44 /. 45; -56 /. 15; 32 /. 9];
            [19372 /. 6561; -25360 /. 2187; 64448 /. 6561; -212 /. 729];
            [9017 /. 3168; -355 /. 33; 46732 /. 5247; 49 /. 176; -5103 /. 18656];
            [35 /. 384; Z0; 500 /. 1113; 125 /. 192; -2187 /. 6784; 11 /. 84]];
     b_ := [35 /. 384; Z0; 500 /. 1113; 125 /. 192; -2187 /. 6784; 11 /. 84; Z0];
     c_ := [Z0; 1 /. 5; 3 /. 10; 4 /. 5; 8 /. 9; Z1; Z1];
     error_ := Some [35 /. 384 - 5179 /. 57600; Z0 - Z0; 500 /. 1113 - 7571 /. 16695;
                     125 /. 192 - 393 /. 640; -2187 /. 6784 - -92097 /. 339200;
                     11 /. 84 - 187 /. 2100; Z0 - 1 /. 40] |}.
(** BogackiShampine.cpp:43-69 *)
Definition BogackiShampine : Tableau Qc :=
  {| order := 3; numberOfStages := 4; totalVariationDiminishing := false;
     a_ := [[]; [1 /. 2]; [Z0; 3 /. 4]; [2 /. 9; 1 /. 3; 4 /. 9]];
     b_ := [2 /. 9; 1 /. 3; 4 /. 9; Z0];
     c_ := [Z0; 1 /. 5; 3 /. 10; 4 /. 5; 8 /. 9; Z1; Z1];
     error_ := Some [2 /. 9 - 7 /. 24; 1 /. 3 - 1 /. 4; 4 /. 9 - 1 /. 3; Z0 - 1 /. 8] |}.

(** AllTimeIntegrators.cpp:53-60: the registered integrators, in this order *)
Definition vecOfIntegrators_ : list (Tableau Qc) :=
  [ForwardEuler; MidPoint; RK2TVD; RK3TVD; RK4_4; DormandPrince; BogackiShampine].

(** AllTimeIntegrators.cpp:68-97 getRule.  [None]: logger(ERROR), nullptr. *)
Definition getRule {A} (rules : list (Tableau A)) (ord stages : nat) (tvd : bool) : option (Tableau A) :=
  match find (fun r => (order r =? ord) && (numberOfStages r =? stages) && eqb (totalVariationDiminishing r) tvd) rules with
  | Some r => Some r
  | None =>
      find (fun r => (order r =? ord) && (numberOfStages r =? stages) && negb (eqb (totalVariationDiminishing r) tvd)) rules
  end.
