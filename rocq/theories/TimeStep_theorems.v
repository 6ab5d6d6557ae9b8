(** C31, C43 and C44: Runge-Kutta steps and right-hand side assembly. *)
From Coq Require Import List Arith Bool ZArith Lia Ring_theory.
From Verif Require Import Tableau_model TimeStep_model TimeStep_spec TimeStep_proofs.
Import ListNotations.

(** One step of an explicit tableau advances solution and time by the Runge-Kutta formula;
    the stages are left in the auxiliary vectors and other vectors are not touched. *)
Theorem C31_one_step : forall (A : Type) (zero one : A) add mul sub opp,
  ring_theory zero one add mul sub opp (@eq A) ->
  forall (app : @Application A) elements faces both n, consistent app elements faces n ->
  forall T a b c, answers T a b c ->
  forall t dt (m : memory), (forall e, In e elements -> length (m 0 e) = n e) ->
  exists m', computeOneTimeStep one add mul app elements faces both T t dt m = Some (m', add t dt) /\
    runge_kutta add mul app elements faces both (numberOfStages T) a b c t dt (m 0) (fun i => m' (S i)) (m' 0) /\
    (forall id e, numberOfStages T < id -> m' id e = m id e) /\
    (forall i e, i < numberOfStages T -> In e elements -> length (m' (S i) e) = n e) /\
    (forall e, In e elements -> length (m' 0 e) = n e).
Proof. exact @step_ok. Qed.
Print Assumptions C31_one_step.

(** An adaptive step, however often it was rejected, is one step with the accepted step
    size from the original solution and time. *)
Theorem C31_adaptive_step : forall (A : Type) (zero one : A) add mul sub opp,
  ring_theory zero one add mul sub opp (@eq A) ->
  forall (app : @Application A) elements faces both n, consistent app elements faces n ->
  forall T a b c, answers T a b c ->
  forall control fuel t dt (m : memory) m' t' dt',
  (forall e, In e elements -> length (m 0 e) = n e) ->
  computeOneTimeStepAdaptive one add mul opp app elements faces both control T fuel t dt m = Some (m', t', dt') ->
  t' = add t dt' /\ control m' dt' = None /\
  runge_kutta add mul app elements faces both (numberOfStages T) a b c t dt' (m 0) (fun i => m' (S i)) (m' 0).
Proof. exact @adaptive_ok. Qed.
Print Assumptions C31_adaptive_step.

(** It does not fail when rejections cannot go on for ever. *)
Theorem C31_adaptive_completes : forall (A : Type) (zero one : A) add mul sub opp,
  ring_theory zero one add mul sub opp (@eq A) ->
  forall (app : @Application A) elements faces both n, consistent app elements faces n ->
  forall T a b c, answers T a b c ->
  forall control (rank : A -> nat),
  (forall m dt dt', control m dt = Some dt' -> rank dt' < rank dt) ->
  forall fuel t dt (m : memory), (forall e, In e elements -> length (m 0 e) = n e) -> rank dt < fuel ->
  exists r, computeOneTimeStepAdaptive one add mul opp app elements faces both control T fuel t dt m = Some r.
Proof. exact @adaptive_total. Qed.
Print Assumptions C31_adaptive_completes.

(** The right-hand side on every element is its element term plus the terms of all its
    faces; nothing but the result vector changes. *)
Theorem C43_right_hand_side : forall (A : Type) (add : A -> A -> A),
  forall (app : @Application A) elements faces both n, consistent app elements faces n ->
  forall inputId result t (m : memory), inputId <> result ->
  (forall e, In e elements -> length (m inputId e) = n e) ->
  exists m', computeRightHandSide add app elements faces both inputId result t m = Some m' /\
    (forall id e, id <> result -> m' id e = m id e) /\
    (forall e, In e elements -> m' result e = right_hand_side add app faces both t (m inputId) e).
Proof. exact @rhs_single_ok. Qed.
Print Assumptions C43_right_hand_side.

Theorem C43_right_hand_side_combination : forall (A : Type) (zero one : A) add mul sub opp,
  ring_theory zero one add mul sub opp (@eq A) ->
  forall (app : @Application A) elements faces both n, consistent app elements faces n ->
  forall id0 c0 ids cs result t (m : memory), length ids = length cs ->
  ~ In result (id0 :: ids) ->
  (forall e id, In e elements -> In id (id0 :: ids) -> length (m id e) = n e) ->
  exists m', computeRightHandSideList add mul app elements faces both (id0 :: ids) (c0 :: cs) result t m = Some m' /\
    (forall id e, id <> result -> m' id e = m id e) /\
    (forall e, In e elements -> m' result e =
       right_hand_side add app faces both t
         (fun e => lincomb add mul (vtimes mul c0 (m id0 e)) (map (fun p => (snd p, m (fst p) e)) (combine ids cs))) e).
Proof. exact @rhs_list_ok. Qed.
Print Assumptions C43_right_hand_side_combination.

(** Conservation: the total of an additive quantity in the result is what the elements
    produce plus what the faces give, each face counted once for each of its sides. *)
Theorem C44_conservation : forall (A : Type) (zero one : A) add mul sub opp,
  ring_theory zero one add mul sub opp (@eq A) ->
  forall (app : @Application A) elements faces both n, consistent app elements faces n ->
  forall q, additive add q ->
  forall inputId result t (m : memory), inputId <> result ->
  (forall e, In e elements -> length (m inputId e) = n e) ->
  exists m', computeRightHandSide add app elements faces both inputId result t m = Some m' /\
  total zero add (map (fun e => q (m' result e)) elements) =
  add (total zero add (map (fun e => q (computeRightHandSideAtElement app e (m inputId e) t)) elements))
      (total zero add (map (given add app both q t (m inputId)) faces)).
Proof. exact @rhs_conserves. Qed.
Print Assumptions C44_conservation.

(** A periodic mesh of three cells with an upwind flux, a source and a boundary-like face
    on cell 7, stepped with a two-stage tableau over the integers. *)
Local Open Scope Z_scope.
Definition ex_app : @Application Z := {|
  computeRightHandSideAtElement := fun e u t => map (fun x => x * 0 + t) u;
  computeRightHandSideAtFace := fun f s u v t => match s with LEFT => map Z.opp u | RIGHT => u end;
  computeRightHandSideAtBoundary := fun f u t => map (fun x => - 2 * x) u;
  computeBothRightHandSidesAtFace := fun f u v t => (map Z.opp u, u);
  solveMassMatrixEquationsAtElement := fun e u => map (fun x => 3 * x) u |}.
Definition ex_faces : list Face :=
  [Build_Face 0 4 (Some 7%nat); Build_Face 1 7 (Some 2%nat); Build_Face 2 2 (Some 4%nat); Build_Face 3 7 None].
Definition ex_T : Tableau Z := {| order := 2; numberOfStages := 2; totalVariationDiminishing := false;
  a_ := [[]; [2]]; b_ := [1; 3]; c_ := [0; 2]; error_ := None |}.
Definition ex_m : @memory Z := fun id e => match id with O => [Z.of_nat e; 1] | _ => [] end.

Example C31_nonvacuous :
  consistent ex_app [4; 7; 2]%nat ex_faces (fun _ => 2%nat) /\
  answers ex_T (fun _ _ => 2) (fun i => if (i =? 0)%nat then 1 else 3) (fun i => if (i =? 0)%nat then 0 else 2) /\
  (forall e, In e [4; 7; 2]%nat -> length (ex_m O e) = 2%nat) /\
  option_map (fun p => (map (fst p O) [4; 7; 2]%nat, snd p))
    (computeOneTimeStep 1 Z.add Z.mul ex_app [4; 7; 2]%nat ex_faces false ex_T 5 1 ex_m)
  = Some ([[436; 79]; [1987; -161]; [-1048; -29]], 6) /\
  option_map (fun p => (snd p, map (fst (fst p) O) [4; 7; 2]%nat))
    (computeOneTimeStepAdaptive 1 Z.add Z.mul Z.opp ex_app [4; 7; 2]%nat ex_faces false
       (fun _ dt => if dt =? 1 then None else Some (dt - 1)) ex_T 5 5 4 ex_m)
  = Some (1, [[436; 79]; [1987; -161]; [-1048; -29]]).
Proof.
  split; [|split; [|split; [|split]]].
  - constructor; try (intros; cbn; rewrite ?map_length; auto; fail).
    + repeat constructor; cbn; intuition discriminate.
    + intros f H. cbn in H. intuition subst; cbn; auto.
    + intros f r H. cbn in H. intuition subst; cbn in *; try discriminate;
        match goal with H : Some _ = Some _ |- _ => injection H as <- end; auto.
  - intros [|[|i]] H; cbn in *; [| |lia]; repeat split; intros [|j] Hj; try reflexivity; lia.
  - intros e _. reflexivity.
  - vm_compute. reflexivity.
  - vm_compute. reflexivity.
Qed.

Example C44_nonvacuous :
  additive Z.add (fun v => nth 0 v 0) /\
  option_map (fun m' : memory => (map (m' 1%nat) [4; 7; 2]%nat, total 0 Z.add (map (fun e => nth 0 (m' 1%nat e) 0) [4; 7; 2]%nat)))
    (computeRightHandSide Z.add ex_app [4; 7; 2]%nat ex_faces true 0 1 5 ex_m) =
  Some ([[3; 5]; [-12; 3]; [10; 5]], 1).
Proof.
  split; [|vm_compute; reflexivity].
  intros [|x v] [|y w] H; cbn in *; try discriminate; lia.
Qed.
