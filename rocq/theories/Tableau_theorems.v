(** C30 and C32: the registered time integrators. *)
From Coq Require Import List Arith Bool QArith Qcanon.
From Verif Require Import Tableau_model Tableau_spec Tableau_proofs.
Import ListNotations.
Local Open Scope nat_scope.

(** Every registered tableau answers all queries an explicit method makes. *)
Theorem C30_explicit_and_complete : forall T, In T vecOfIntegrators_ -> exists a b c, coefficients T a b c.
Proof. intros T H. exact (ex_intro _ _ (ex_intro _ _ (ex_intro _ _ (rules_complete T H)))). Qed.
Print Assumptions C30_explicit_and_complete.

(** ... satisfies the order conditions of all rooted trees up to its order ... *)
Theorem C30_order : forall T a b c, In T vecOfIntegrators_ -> coefficients T a b c ->
  has_order (numberOfStages T) a b (order T).
Proof. exact rules_order_spec. Qed.
Print Assumptions C30_order.

(** ... and not those of the next order. *)
Theorem C30_order_is_exact : forall T a b c, In T vecOfIntegrators_ -> coefficients T a b c ->
  ~ has_order (numberOfStages T) a b (S (order T)).
Proof. exact rules_order_sharp. Qed.
Print Assumptions C30_order_is_exact.

(** The stage times of these four match the stage values ... *)
Theorem C30_stage_times_partial : forall T a b c,
  In T [ForwardEuler; MidPoint; RK4_4; DormandPrince] -> coefficients T a b c ->
  forall i, i < numberOfStages T -> c i = sum (map (a i) (seq 0 (numberOfStages T))).
Proof. exact rules_times. Qed.
Print Assumptions C30_stage_times_partial.

(** ... but the other three fail even sum b_i c_i = 1/2, so u' = f(t) is integrated with
    first order accuracy only. *)
Theorem C30_stage_times_refuted : forall T a b c,
  In T [RK2TVD; RK3TVD; BogackiShampine] -> coefficients T a b c ->
  sum (map (fun i => (b i * c i)%Qc) (seq 0 (numberOfStages T))) <> Q2Qc (1 # 2).
Proof. exact rules_times_refuted. Qed.
Print Assumptions C30_stage_times_refuted.

(** Embedded rules: subtracting the error coefficients gives a method of exactly one
    order less. *)
Theorem C30_error_estimate : forall T a b c, In T vecOfIntegrators_ -> coefficients T a b c ->
  error_ T <> None ->
  exists e, (forall i, i < numberOfStages T -> getErrorCoefficient T i = Some (e i)) /\
    has_order (numberOfStages T) a (fun i => (b i - e i)%Qc) (order T - 1) /\
    ~ has_order (numberOfStages T) a (fun i => (b i - e i)%Qc) (order T).
Proof. exact rules_error. Qed.
Print Assumptions C30_error_estimate.

(** The rules that claim to be total variation diminishing do not increase any convex
    functional that no Euler step of the same size increases. *)
Theorem C30_tvd : forall (X : Type) (N : (X -> Qc) -> Qc) f dt, convex N -> euler_decreases N f dt ->
  forall T a b c t u k u',
  In T vecOfIntegrators_ -> totalVariationDiminishing T = true -> coefficients T a b c ->
  rk_equations (numberOfStages T) a b c f t dt u k u' -> (N u' <= N u)%Qc.
Proof. exact @tvd_rules. Qed.
Print Assumptions C30_tvd.

(** Hypotheses are met: three integrators are TVD and three have an error estimate; there
    are 23 ordered trees with at most five nodes. *)
Example C30_nonvacuous :
  length (filter (fun T => totalVariationDiminishing T) vecOfIntegrators_) = 3 /\
  length (filter (fun T => match error_ T with Some _ => true | None => false end) vecOfIntegrators_) = 3 /\
  length (trees_upto 5) = 23 /\
  weight 7 (ca DormandPrince) (cb DormandPrince) (Node [Node [Node []]; Node [Node []]]) = Q2Qc (1 # 20).
Proof. repeat split. Qed.

Example C30_tvd_nonvacuous :
  let N := fun u : unit -> Qc => (u tt)%Qc in
  let f := fun (_ : Qc) (u : unit -> Qc) (_ : unit) => (- Q2Qc 1)%Qc in
  convex N /\ euler_decreases N f (Q2Qc (1 # 2)) /\
  rk_equations 2 (ca RK2TVD) (cb RK2TVD) (cc RK2TVD) f (Q2Qc 0) (Q2Qc (1 # 2)) (fun _ => Q2Qc 1)
    (fun _ _ => (- Q2Qc 1)%Qc) (fun _ => Q2Qc (1 # 2)).
Proof.
  cbn zeta. split; [|split].
  - split; [intros u v H; apply H|]. intros. apply Qcle_refl.
  - split; [reflexivity|]. intros t u. apply Qcle_minus_iff. unfold Qcle.
    replace (u tt + - (u tt + Q2Qc (1 # 2) * - Q2Qc 1))%Qc with (Q2Qc (1 # 2)) by ring.
    vm_compute. discriminate.
  - split.
    + intros. reflexivity.
    + intros x. apply Qc_is_canon. vm_compute. reflexivity.
Qed.

(** The rule found has the requested order and number of stages, and the requested TVD
    flag whenever some rule has all three. *)
Theorem C32_getRule_sound : forall (A : Type) (rules : list (Tableau A)) o s v r,
  getRule rules o s v = Some r ->
  In r rules /\ order r = o /\ numberOfStages r = s /\
  (totalVariationDiminishing r = v \/
   forall r', In r' rules -> order r' = o -> numberOfStages r' = s -> totalVariationDiminishing r' <> v).
Proof. exact @getRule_sound. Qed.
Print Assumptions C32_getRule_sound.

(** It fails exactly when no rule has the requested order and number of stages. *)
Theorem C32_getRule_fails : forall (A : Type) (rules : list (Tableau A)) o s v,
  getRule rules o s v = None <-> forall r, In r rules -> order r = o -> numberOfStages r = s -> False.
Proof. exact @getRule_fails. Qed.
Print Assumptions C32_getRule_fails.

(** Each registered integrator is the answer to the query for its own properties. *)
Theorem C32_every_rule_reachable : forall T, In T vecOfIntegrators_ ->
  getRule vecOfIntegrators_ (order T) (numberOfStages T) (totalVariationDiminishing T) = Some T.
Proof. exact getRule_self. Qed.
Print Assumptions C32_every_rule_reachable.

Example C32_nonvacuous :
  getRule vecOfIntegrators_ 4 4 true = Some RK4_4 /\ getRule vecOfIntegrators_ 2 2 true = Some RK2TVD /\
  getRule vecOfIntegrators_ 2 2 false = Some MidPoint /\ getRule vecOfIntegrators_ 4 5 false = None.
Proof. repeat split. Qed.
