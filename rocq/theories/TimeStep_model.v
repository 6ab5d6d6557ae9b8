(** Model of the explicit Runge-Kutta time stepping and the assembly of the right-hand
    side (kernel/Base/HpgemAPISimplified_Impl.h), on one process ([synchronize] does
    nothing there).

    The numbers are an arbitrary type with the ring operations.  A MiddleSizeVector is the
    list of its entries; adding vectors of different size fails an assertion: [None].
    A "memory" gives the content of each time integration vector on each element.  The
    virtual functions that an application overrides are parameters. *)
From Coq Require Import List Arith Bool.
From Verif Require Import Tableau_model.
Import ListNotations.

Section TimeStep.
Context {A : Type}.
Variables (zero one : A) (add mul : A -> A -> A) (opp : A -> A).

Local Notation vec := (list A).
(** Element ids and time integration vector ids *)
Definition memory := nat -> nat -> vec.   (* vector id, element *)
Definition mset (m : memory) (id e : nat) (v : vec) : memory :=
  fun id' e' => if (id' =? id) && (e' =? e) then v else m id' e'.

(** MiddleSizeVector.cpp:207-212 operator*= *)
Definition vscale (s : A) (v : vec) : vec := map (fun x => mul x s) v.
(** MiddleSizeVector.cpp:151-164 axpy: y + s*x.  operator+= (MiddleSizeVector.cpp:193-200)
    is the case without factor. *)
Definition axpy (s : A) (x y : vec) : option vec :=
  if length x =? length y then Some (map (fun p => add (snd p) (mul s (fst p))) (combine x y)) else None.
Definition vplusEq (y x : vec) : option vec :=
  if length x =? length y then Some (map (fun p => add (fst p) (snd p)) (combine y x)) else None.

(** a C++ range-based for loop whose body may fail *)
Fixpoint each {X M : Type} (l : list X) (body : X -> M -> option M) (m : M) : option M :=
  match l with
  | [] => Some m
  | x :: l => match body x m with None => None | Some m' => each l body m' end
  end.

(** Base::Face: its left element, and its right element if it is internal *)
Record Face := { faceId : nat; ptrElementLeft : nat; ptrElementRight : option nat }.
Inductive Side := LEFT | RIGHT.

(** what the application overrides *)
Record Application := {
  computeRightHandSideAtElement : nat -> vec -> A -> vec;
  computeRightHandSideAtFace : Face -> Side -> vec -> vec -> A -> vec;      (* internal faces *)
  computeRightHandSideAtBoundary : Face -> vec -> A -> vec;                (* boundary faces *)
  computeBothRightHandSidesAtFace : Face -> vec -> vec -> A -> vec * vec;
  solveMassMatrixEquationsAtElement : nat -> vec -> vec
}.
Variable app : Application.
Variables (elements : list nat) (faces : list Face).
Variable computeBothFaces_ : bool.

(** HpgemAPISimplified_Impl.h:601-620 getLinearCombinationOfVectors *)
Definition getLinearCombinationOfVectors (m : memory) (e : nat) (ids : list nat) (coefs : list A) : option vec :=
  if length ids =? length coefs then
    match ids, coefs with
    | id0 :: ids', c0 :: coefs' =>
        each (combine ids' coefs') (fun p acc => axpy (snd p) (m (fst p) e) acc) (vscale c0 (m id0 e))
    | _, _ => None
    end
  else None.

(** result += contribution on element [e] *)
Definition addTo (id e : nat) (v : vec) (m : memory) : option memory :=
  match vplusEq (m id e) v with None => None | Some w => Some (mset m id e w) end.

(** HpgemAPISimplified_Impl.h:626-695 computeRightHandSide with a list of input vectors;
    [input m e]: the input coefficients on element [e]. The version with one input vector
    (533-598) has the same text with [input m e] the vector itself. *)
Definition computeRightHandSideWith (input : memory -> nat -> option vec) (result : nat) (time : A) (m : memory)
  : option memory :=
  match each elements (fun e m =>
          match input m e with
          | None => None
          | Some u => Some (mset m result e (computeRightHandSideAtElement app e u time))
          end) m with
  | None => None
  | Some m =>
      each faces (fun f m =>
        let l := ptrElementLeft f in
        match ptrElementRight f with
        | Some r =>
            match input m l, input m r with
            | Some uL, Some uR =>
                if negb computeBothFaces_ then
                  match addTo result l (computeRightHandSideAtFace app f LEFT uL uR time) m with
                  | None => None
                  | Some m => addTo result r (computeRightHandSideAtFace app f RIGHT uL uR time) m
                  end
                else
                  let p := computeBothRightHandSidesAtFace app f uL uR time in
                  match addTo result l (fst p) m with
                  | None => None
                  | Some m => addTo result r (snd p) m
                  end
            | _, _ => None
            end
        | None =>
            match input m l with
            | Some u => addTo result l (computeRightHandSideAtBoundary app f u time) m
            | None => None
            end
        end) m
  end.
Definition computeRightHandSideList (ids : list nat) (coefs : list A) (result : nat) (time : A) (m : memory) : option memory :=
  computeRightHandSideWith (fun m e => getLinearCombinationOfVectors m e ids coefs) result time m.
Definition computeRightHandSide (inputId result : nat) (time : A) (m : memory) : option memory :=
  computeRightHandSideWith (fun m e => Some (m inputId e)) result time m.

(** HpgemAPISimplified_Impl.h:215-225 solveMassMatrixEquations: one solve per element *)
Definition solveMassMatrixEquations (id : nat) (m : memory) : option memory :=
  each elements (fun e m => Some (mset m id e (solveMassMatrixEquationsAtElement app e (m id e)))) m.

(** HpgemAPISimplified_Impl.h:777-786 computeTimeDerivative *)
Definition computeTimeDerivative (ids : list nat) (coefs : list A) (result : nat) (time : A) (m : memory) : option memory :=
  match computeRightHandSideList ids coefs result time m with
  | None => None
  | Some m => solveMassMatrixEquations result m
  end.

(** HpgemAPISimplified_Impl.h:697-705 scaleVector, 708-717 scaleAndAddVector *)
Definition scaleVector (id : nat) (s : A) (m : memory) : option memory :=
  each elements (fun e m => Some (mset m id e (vscale s (m id e)))) m.
Definition scaleAndAddVector (changeId addId : nat) (s : A) (m : memory) : option memory :=
  each elements (fun e m => match axpy s (m addId e) (m changeId e) with
                            | None => None | Some w => Some (mset m changeId e w) end) m.

(** HpgemAPISimplified_Impl.h:80-105 constructor: the vector ids *)
Definition solutionVectorId_ : nat := 0.
Definition auxiliaryVectorIds_ (T : Tableau A) : list nat := seq 1 (numberOfStages T).

(** HpgemAPISimplified_Impl.h:799-808: the lists built for one stage *)
Fixpoint stageInputs (T : Tableau A) (dt : A) (i : nat) (js : list nat) : option (list nat * list A) :=
  match js with
  | [] => Some ([], [])
  | j :: js =>
      match nth_error (auxiliaryVectorIds_ T) j, getA T i j, stageInputs T dt i js with
      | Some id, Some a, Some (ids, cs) => Some (id :: ids, mul dt a :: cs)
      | _, _, _ => None
      end
  end.

(** HpgemAPISimplified_Impl.h:789-820 computeOneTimeStep *)
Definition updateSolution (T : Tableau A) (dt : A) (m : memory) : option memory :=
  each (seq 0 (numberOfStages T)) (fun j m =>
    match nth_error (auxiliaryVectorIds_ T) j, getB T j with
    | Some id, Some b => scaleAndAddVector solutionVectorId_ id (mul dt b) m
    | _, _ => None
    end) m.
Definition computeOneTimeStep (T : Tableau A) (time dt : A) (m : memory) : option (memory * A) :=
  match each (seq 0 (numberOfStages T)) (fun i m =>
          match getC T i, nth_error (auxiliaryVectorIds_ T) i, stageInputs T dt i (seq 0 i) with
          | Some c, Some out, Some (ids, cs) =>
              computeTimeDerivative (solutionVectorId_ :: ids) (one :: cs) out (add time (mul c dt)) m
          | _, _, _ => None
          end) m with
  | None => None
  | Some m =>
      match updateSolution T dt m with
      | None => None
      | Some m => Some (m, add time dt)
      end
  end.

(** HpgemAPISimplified_Impl.h:823-861, the adaptive computeOneTimeStep: the loop that
    tries steps until one is accepted.  [control m dt] stands for the error estimate and
    the step size formula: [None] accepts the step, [Some dt'] rejects it and retries with
    [dt'].  Running out of fuel is [None].  Returns the accepted dt as well. *)
Fixpoint computeOneTimeStepAdaptive (control : memory -> A -> option A) (T : Tableau A) (fuel : nat)
    (time dt : A) (m : memory) : option (memory * A * A) :=
  match fuel with
  | 0 => None
  | S fuel =>
      match computeOneTimeStep T time dt m with
      | None => None
      | Some (m, _) =>
          match control m dt with
          | None => Some (m, add time dt, dt)
          | Some dt' =>
              match each (seq 0 (numberOfStages T)) (fun j m =>
                      match nth_error (auxiliaryVectorIds_ T) j, getB T j with
                      | Some id, Some b => scaleAndAddVector solutionVectorId_ id (mul (opp dt) b) m
                      | _, _ => None
                      end) m with
              | None => None
              | Some m => computeOneTimeStepAdaptive control T fuel time dt' m
              end
          end
      end
  end.
End TimeStep.
