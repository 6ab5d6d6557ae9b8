(** C19: lazily computed caches. *)
From Coq Require Import List Arith.
From Verif Require Import Lazy_model Lazy_spec Lazy_proofs.
Import ListNotations.

(** The first request for entry [i] after a reset runs the computation with the
    state the program has at that moment. *)
Theorem C19_first_get_computes : forall (Env T : Type) (compute : Env -> nat -> T -> T) dflt,
  (forall e i t t', compute e i t = compute e i t') ->
  forall e pre o mid i t,
  legal (pre ++ o :: mid) -> is_reset o -> no_reset mid -> no_get i mid ->
  i < size_after (pre ++ o :: mid) ->
  get_after compute dflt e (pre ++ o :: mid) i =
  Some (compute (env_after e (pre ++ o :: mid)) i t, true).
Proof. exact @get_fresh. Qed.
Print Assumptions C19_first_get_computes.

(** Until the next reset the same value is returned without computing again,
    whatever is requested in between. *)
Theorem C19_later_gets_cached : forall (Env T : Type) (compute : Env -> nat -> T -> T) dflt
  e pre i mid v ran,
  legal (pre ++ Get i :: mid) -> no_reset mid ->
  get_after compute dflt e pre i = Some (v, ran) ->
  get_after compute dflt e (pre ++ Get i :: mid) i = Some (v, false).
Proof. exact @get_cached. Qed.
Print Assumptions C19_later_gets_cached.

(** A client that resets after every change of the inputs always sees the value
    for the current inputs and the requested index. *)
Theorem C19_value_is_current : forall (Env T : Type) (compute : Env -> nat -> T -> T) dflt,
  (forall e i t t', compute e i t = compute e i t') ->
  forall e pre o mid i t,
  legal (pre ++ o :: mid) -> is_reset o -> no_reset mid -> no_change mid ->
  i < size_after (pre ++ o :: mid) ->
  exists ran, get_after compute dflt e (pre ++ o :: mid) i =
              Some (compute (env_after e (pre ++ o :: mid)) i t, ran).
Proof. exact @get_current. Qed.
Print Assumptions C19_value_is_current.

(** the same for the single-value cache *)
Theorem C19_single_first_get : forall (Env T : Type) (compute : Env -> nat -> T -> T) dflt,
  (forall e i t t', compute e i t = compute e i t') ->
  forall e pre mid t,
  pre = [] \/ (exists p, pre = p ++ [Reset1]) -> (forall o, In o mid -> o <> Get1) ->
  get1_after compute dflt e (pre ++ mid) = (compute (env_after1 e (pre ++ mid)) 0 t, true).
Proof. exact @get1_fresh. Qed.
Print Assumptions C19_single_first_get.

Theorem C19_single_later_gets : forall (Env T : Type) (compute : Env -> nat -> T -> T) dflt e pre mid,
  (forall o, In o mid -> o <> Reset1) ->
  get1_after compute dflt e (pre ++ Get1 :: mid) = (fst (get1_after compute dflt e pre), false).
Proof. exact @get1_cached. Qed.
Print Assumptions C19_single_later_gets.

Example C19_nonvacuous :
  let compute := fun (e i _ : nat) => 10 * e + i in
  let pre := [ResetSize 2; Get 1; SetEnv 5] in
  let mid := [Get 0; Get 2; Get 0] in
  get_after compute 0 3 (pre ++ ResetSize 4 :: mid) 2 = Some (52, false) /\
  get_after compute 0 3 (pre ++ ResetSize 4 :: mid) 3 = Some (53, true) /\
  legal (pre ++ ResetSize 4 :: mid).
Proof.
  split; [reflexivity|]. split; [reflexivity|].
  intros h1 i h2 E.
  repeat (destruct h1 as [|? h1]; [inversion E; subst; cbn; auto with arith; fail|];
          inversion E; subst; clear E;
          match goal with H : _ = h1 ++ _ |- _ => rename H into E end).
Qed.
