(** C41: the caches of a physical element. *)
From Coq Require Import List Arith Floats.SpecFloat.
From Verif Require Import Loop_model Matrix_model ElementData_model PhysicalElement_model PhysicalElement_spec
  PhysicalElement_proofs PhysicalElementRefuted_proofs.
Import ListNotations.

(** After any history of calls, as long as the element itself was not changed since it was
    set, a getter returns what follows from the last settings alone.  It also answers
    whenever there is an answer; the overload without unknown needs the same number of
    functions for all unknowns for that (see [C41_uneven_refuted]). *)
Theorem C41_answers : forall (A V P X J D Q M : Type) (zero : A) (mul : A -> A -> A) (vzero : V) (vadd : V -> V -> V)
  (vscale : A -> V -> V) (transposed inverse : J -> J) (determinant : J -> D) (absolute : D -> D)
  (getPoint : Q -> nat -> option P) (mapPoint : M -> P -> P)
  (h1 : @transformation V J D) (m0 : @memory A V P X J Q M) (history : list (@event A V P X J D Q M)) m s g a,
  run zero mul vzero vadd vscale transposed inverse determinant absolute getPoint mapPoint history (m0, newPhysicalElement h1) = Some (m, s) ->
  unchanged (settings_after h1 history) = true -> asks_no_solution g ->
  ((exists s', get vzero vadd vscale transposed inverse determinant absolute m g s = Some (s', a)) ->
   answers vzero vadd vscale transposed inverse determinant absolute getPoint mapPoint m (settings_after h1 history) g a) /\
  (legal m (settings_after h1 history) g ->
   answers vzero vadd vscale transposed inverse determinant absolute getPoint mapPoint m (settings_after h1 history) g a ->
   exists s', get vzero vadd vscale transposed inverse determinant absolute m g s = Some (s', a)).
Proof. exact @answers_right. Qed.
Print Assumptions C41_answers.

(** a history with three elements, a rule, a mapped rule and transformations; every value
    is asked for before and after the settings changed *)
Example C41_answers_nonvacuous :
  let e0 := n_element [2; 2] [5; 6; 7; 8] n_evaluate in
  let e1 := n_element [1] [9] n_evaluate in
  let h := [Change 0 (Some e0); Change 1 (Some e1); Set_ (SetTransformation n_other 1); Set_ (SetElement 1); Set_ (SetPointReference 3);
            Get_ (BasisFunction Deriv 0); Get_ GetJacobianAbsDet; Get_ GetInverseTransposeJacobian; Get_ GetPointPhysical;
            Set_ (SetElement 0); Get_ (BasisFunctionOf Deriv 1 0); Set_ (SetQuadratureRule 4); Get_ (BasisFunctionOf Value 1 1);
            Set_ (SetFaceQuadratureRule 1 3); Get_ (BasisFunctionOf Deriv 1 0); Change 1 None; Set_ (SetQuadraturePointIndex 2)] : list n_event in
  unchanged (settings_after n_h1 h) = true /\ where_ (settings_after n_h1 h) = Some (FaceRule 1 2 3) /\
  (forall g, legal (memory_after h) (settings_after n_h1 h) g) /\
  asked h (BasisFunctionOf Deriv 1 0) = Some (AValue ((2 * 72 + 3) * 82)) /\
  asked h (BasisFunctionOf VectorValue 0 0) = None /\
  asked h GetPointPhysical = Some (APhysical 79) /\
  asked h GetJacobianAbsDet = Some (ADet (2 * 72 + 7)).
Proof.
  cbv zeta. split; [reflexivity|]. split; [reflexivity|]. split.
  { assert (L : forall m c, (forall b e, on c = Some b -> m b = Some e -> nb (edata e) = [2; 2]) -> @equal_counts nat nat nat nat nat nat nat nat m c).
    { intros m c H b e n n' E1 E2. rewrite (H b e E1 E2). cbn. intros [<-|[<-|[]]] [<-|[<-|[]]]; reflexivity. }
    intros []; try exact I; apply L; intros b e E1 E2; cbn in E1; injection E1 as <-; cbn in E2; injection E2 as <-; reflexivity. }
  repeat split; vm_compute; reflexivity.
Qed.

(** The solution and its derivative are right when all unknowns use the same functions and
    transformation ([C41_solution_refuted] shows that this is needed). *)
Theorem C41_solution_partial : forall (A V P X J D Q M : Type) (zero : A) (mul : A -> A -> A) (vzero : V) (vadd : V -> V -> V)
  (vscale : A -> V -> V) (transposed inverse : J -> J) (determinant : J -> D) (absolute : D -> D)
  (getPoint : Q -> nat -> option P) (mapPoint : M -> P -> P)
  (h1 : @transformation V J D) (m0 : @memory A V P X J Q M) (history : list (@event A V P X J D Q M)) m s (derivative : bool) a,
  run zero mul vzero vadd vscale transposed inverse determinant absolute getPoint mapPoint history (m0, newPhysicalElement h1) = Some (m, s) ->
  let c := settings_after h1 history in
  let g := if derivative then GetSolutionDeriv else GetSolution in
  unchanged c = true ->
  (forall b e, on c = Some b -> m b = Some e -> interchangeable c e (if derivative then Deriv else Value)) ->
  (exists s', get vzero vadd vscale transposed inverse determinant absolute m g s = Some (s', a)) <->
  answers vzero vadd vscale transposed inverse determinant absolute getPoint mapPoint m c g a.
Proof. exact @solutions_right. Qed.
Print Assumptions C41_solution_partial.

(** two unknowns with the same two functions, with another element and point in between *)
Example C41_solution_nonvacuous :
  let same := fun k (u : nat) i w => n_evaluate k 0 i w in
  let e0 := n_element [2; 2] [5; 6; 7; 8] same in
  let h := [Change 0 (Some e0); Change 1 (Some (n_element [1] [9] same)); Set_ (SetTransformation n_h1 1); Set_ (SetElement 1); Set_ (SetPointReference 3);
            Get_ GetSolution; Set_ (SetElement 0); Get_ GetSolution; Set_ (SetPointReference 4)] : list n_event in
  unchanged (settings_after n_h1 h) = true /\
  (forall b e, on (settings_after n_h1 h) = Some b -> memory_after h b = Some e -> interchangeable (settings_after n_h1 h) e Value) /\
  asked h GetSolution = Some (ASolution [5 * 4 + 6 * 14; 7 * 4 + 8 * 14]).
Proof.
  cbv zeta. split; [reflexivity|]. split; [|vm_compute; reflexivity].
  intros b e E1 E2. cbn in E1. injection E1 as <-. cbn in E2. injection E2 as <-. intros [|[|u]] H; [repeat split|repeat split|].
  cbn in H. exfalso. do 2 apply le_S_n in H. inversion H.
Qed.

(** Two histories which end in the same settings give the same answers; the second may be
    that of a physical element that was just created. *)
Theorem C41_history_independent : forall (A V P X J D Q M : Type) (zero : A) (mul : A -> A -> A) (vzero : V) (vadd : V -> V -> V)
  (vscale : A -> V -> V) (transposed inverse : J -> J) (determinant : J -> D) (absolute : D -> D)
  (getPoint : Q -> nat -> option P) (mapPoint : M -> P -> P)
  (h1 : @transformation V J D) (m1 m2 : @memory A V P X J Q M) (l1 l2 : list (@event A V P X J D Q M)) m1' m2' s1 s2 g,
  let run := run zero mul vzero vadd vscale transposed inverse determinant absolute getPoint mapPoint in
  let get := get vzero vadd vscale transposed inverse determinant absolute in
  run l1 (m1, newPhysicalElement h1) = Some (m1', s1) -> run l2 (m2, newPhysicalElement h1) = Some (m2', s2) ->
  let c1 := settings_after h1 l1 in let c2 := settings_after h1 l2 in
  unchanged c1 = true -> unchanged c2 = true ->
  on c1 = on c2 -> where_ c1 = where_ c2 -> (forall u, transforms c1 u = transforms c2 u) ->
  (forall b, on c1 = Some b -> m1' b = m2' b) -> asks g ->
  (forall a1 a2 s1' s2', get m1' g s1 = Some (s1', a1) -> get m2' g s2 = Some (s2', a2) -> a1 = a2) /\
  (legal m1' c1 g -> forall a, (exists s', get m1' g s1 = Some (s', a)) <-> (exists s', get m2' g s2 = Some (s', a))).
Proof. exact @history_independent. Qed.
Print Assumptions C41_history_independent.

Example C41_history_independent_nonvacuous :
  let e0 := n_element [2] [5; 6] n_evaluate in
  let h := [Change 0 (Some e0); Change 1 (Some (n_element [1] [9] n_evaluate)); Set_ (SetElement 1); Set_ (SetPointReference 3);
            Get_ GetSolutionDeriv; Set_ (SetElement 0); Get_ GetSolutionDeriv; Set_ (SetTransformation n_other 0); Get_ GetSolutionDeriv;
            Set_ (SetTransformation n_h1 0); Set_ (SetQuadratureRule 1)] : list n_event in
  let h' := [Change 0 (Some e0); Set_ (SetElement 0); Set_ (SetQuadratureRule 1)] : list n_event in
  let c := settings_after n_h1 h in let c' := settings_after n_h1 h' in
  unchanged c = true /\ unchanged c' = true /\ on c = on c' /\ where_ c = where_ c' /\ (forall u, transforms c u = transforms c' u) /\
  (forall b, on c = Some b -> memory_after h b = memory_after h' b) /\
  asked h GetSolutionDeriv = Some (ASolution [5 * 230 + 6 * 460]) /\ asked h' GetSolutionDeriv = Some (ASolution [5 * 230 + 6 * 460]).
Proof.
  cbv zeta. split; [reflexivity|]. split; [reflexivity|].
  split; [reflexivity|]. split; [reflexivity|]. split; [intros [|u]; reflexivity|]. split; [|split; vm_compute; reflexivity].
  intros b E. cbn in E. injection E as <-. reflexivity.
Qed.

(** The matrix that is given to the caller is zero and has the size of the element,
    whatever was written in it before, in arithmetic in which x * 0 = 0. *)
Theorem C41_result_matrix : forall (A V P X J D Q M : Type) (zero : A) (mul : A -> A -> A) (vzero : V) (vadd : V -> V -> V)
  (vscale : A -> V -> V) (transposed inverse : J -> J) (determinant : J -> D) (absolute : D -> D)
  (getPoint : Q -> nat -> option P) (mapPoint : M -> P -> P) (mul_zero : forall x, mul x zero = zero)
  (h1 : @transformation V J D) (m0 : @memory A V P X J Q M) (history : list (@event A V P X J D Q M)) m s s' r,
  run zero mul vzero vadd vscale transposed inverse determinant absolute getPoint mapPoint history (m0, newPhysicalElement h1) = Some (m, s) ->
  get vzero vadd vscale transposed inverse determinant absolute m GetResultMatrix s = Some (s', AMatrix r) ->
  (forall x, In x (data r) -> x = zero) /\
  forall b e, unchanged (settings_after h1 history) = true -> on (settings_after h1 history) = Some b -> m b = Some e ->
  let n := list_sum (nb (edata e)) in nrows r = n /\ ncols r = n /\ length (data r) = n * n.
Proof. exact @matrix_right. Qed.
Print Assumptions C41_result_matrix.

Theorem C41_result_vector : forall (A V P X J D Q M : Type) (zero : A) (mul : A -> A -> A) (vzero : V) (vadd : V -> V -> V)
  (vscale : A -> V -> V) (transposed inverse : J -> J) (determinant : J -> D) (absolute : D -> D)
  (getPoint : Q -> nat -> option P) (mapPoint : M -> P -> P) (mul_zero : forall x, mul x zero = zero)
  (h1 : @transformation V J D) (m0 : @memory A V P X J Q M) (history : list (@event A V P X J D Q M)) m s s' r,
  run zero mul vzero vadd vscale transposed inverse determinant absolute getPoint mapPoint history (m0, newPhysicalElement h1) = Some (m, s) ->
  get vzero vadd vscale transposed inverse determinant absolute m GetResultVector s = Some (s', AVector r) ->
  (forall x, In x r -> x = zero) /\
  forall b e, unchanged (settings_after h1 history) = true -> on (settings_after h1 history) = Some b -> m b = Some e ->
  length r = list_sum (nb (edata e)).
Proof. exact @vector_right. Qed.
Print Assumptions C41_result_vector.

Example C41_result_nonvacuous :
  let e0 := n_element [1; 1] [5; 6] n_evaluate in
  let h := [Change 0 (Some e0); Change 1 (Some (n_element [1] [9] n_evaluate)); Set_ (SetElement 1); Set_ (SetPointReference 3);
            Get_ GetResultMatrix; FillMatrix (Mat 1 1 [8]); Get_ GetResultVector; FillVector [4]; Set_ (SetElement 0)] : list n_event in
  unchanged (settings_after n_h1 h) = true /\
  asked h GetResultMatrix = Some (AMatrix (Mat 2 2 [0; 0; 0; 0])) /\ asked h GetResultVector = Some (AVector [0; 0]).
Proof. cbv zeta. repeat split; vm_compute; reflexivity. Qed.

(** What does not hold. *)

(** When the coefficients of the current element change, the solution is not computed again. *)
Theorem C41_changed_refuted :
  let h := [Change 0 (Some (n_element [1] [5] n_evaluate)); Set_ (SetElement 0); Set_ (SetPointReference 3); Get_ GetSolution;
            Change 0 (Some (n_element [1] [6] n_evaluate))] : list n_event in
  (exists s s', n_run h (no_memory, newPhysicalElement n_h1) = Some (memory_after h, s) /\
     n_get (memory_after h) GetSolution s = Some (s', ASolution [15])) /\
  forall a, n_answers (memory_after h) (settings_after n_h1 h) GetSolution a -> a = ASolution [18].
Proof. exact stale. Qed.
Print Assumptions C41_changed_refuted.

(** The solution of the second unknown is computed with the functions of the first. *)
Theorem C41_solution_refuted :
  let h := [Change 0 (Some (n_element [1; 1] [5; 6] n_evaluate)); Set_ (SetTransformation n_h1 1); Set_ (SetElement 0); Set_ (SetPointReference 3)] : list n_event in
  unchanged (settings_after n_h1 h) = true /\ legal (memory_after h) (settings_after n_h1 h) GetSolution /\
  (exists s s', n_run h (no_memory, newPhysicalElement n_h1) = Some (memory_after h, s) /\
     n_get (memory_after h) GetSolution s = Some (s', ASolution [15; 18])) /\
  forall a, n_answers (memory_after h) (settings_after n_h1 h) GetSolution a -> a = ASolution [15; 618].
Proof. exact wrong_functions. Qed.
Print Assumptions C41_solution_refuted.

(** With different numbers of functions, whether the overload without unknown reports an
    error depends on what was asked before. *)
Theorem C41_uneven_refuted :
  let h := [Change 0 (Some (n_element [1; 2] [5; 6; 7] n_evaluate)); Set_ (SetElement 0); Set_ (SetPointReference 3)] : list n_event in
  let h' := h ++ [Get_ (BasisFunctionOf Value 0 0)] in
  (exists s, n_run h (no_memory, newPhysicalElement n_h1) = Some (memory_after h, s) /\ n_get (memory_after h) (BasisFunction Value 0) s = None) /\
  (exists s s', n_run h' (no_memory, newPhysicalElement n_h1) = Some (memory_after h', s) /\
     n_get (memory_after h') (BasisFunction Value 0) s = Some (s', AValue 3)).
Proof. exact uneven. Qed.
Print Assumptions C41_uneven_refuted.

(** With IEEE numbers the result matrix is not zero after an infinity was written in it. *)
Theorem C41_result_refuted :
  match f_run [Change 0 (Some f_element); Set_ (SetElement 0); Set_ (SetPointReference 3); Get_ GetResultMatrix;
     FillMatrix (Mat 1 1 [S754_infinity false]); Set_ (SetPointReference 4)] ((fun _ => None), newPhysicalElement n_h1) with
  | Some (m, s) => option_map snd (f_get m GetResultMatrix s) = Some (AMatrix (Mat 1 1 [S754_nan]))
  | None => False
  end.
Proof. exact not_zero. Qed.
Print Assumptions C41_result_refuted.
