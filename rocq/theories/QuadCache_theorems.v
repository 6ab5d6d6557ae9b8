(** C51: pre-evaluated basis functions of a quadrature rule. *)
From Coq Require Import List Arith.
From Verif Require Import Loop_model QuadCache_model QuadCache_spec QuadCache_proofs.
Import ListNotations.

(** Whatever sets are created, extended and deleted, also at addresses that were used
    before, and whatever was evaluated by any rule in any order: the program returns
    exactly the values the current functions of the sets have at the points of the rule
    (mapped to the element), and it fails exactly when a call is illegal. *)
Theorem C51_values_are_current : forall (F P V : Type) (value : F -> table -> P -> V)
  (rules : nat -> @rule P) (transform1 transform0 : nat -> P -> P) (program : list op) (outputs : list V),
  run value rules transform1 transform0 program start = Some outputs <->
  does_all value rules (transform transform1 transform0) program empty outputs.
Proof. exact @coherent. Qed.
Print Assumptions C51_values_are_current.

(** two rules, a set that grows, is deleted and replaced at its address, and two face maps
    of which one is a concatenation *)
Example C51_nonvacuous :
  let value := fun (f : nat) (t : table) (p : nat) => (f, t, p) in
  let rules := fun r => match r with 0 => Rule 2 [5; 6] | _ => Rule 1 [7; 8; 9] end in
  let transform1 := fun a p => 100 * a + p in
  let transform0 := fun a p => 10 * a + p in
  run value rules transform1 transform0
    [New 4; Add 4 1; Eval 0 Values 4 0 1; Add 4 2; Eval 0 Values 4 1 1; EvalFace 1 Grads 4 1 2 (Direct 3);
     EvalFace 1 Grads 4 1 2 (Concatenated 3 3); EvalFace 1 Grads 4 1 2 (Direct 3); Delete 4; New 4; Add 4 9;
     Eval 0 Values 4 0 1; EvalFace 1 Grads 4 0 2 (Direct 3)] start =
  Some [(1, Values, 6); (2, Values, 6); (2, Grads, 309); (2, Grads, 339); (2, Grads, 309);
        (9, Values, 6); (9, Grads, 309)] /\
  (* the second function does not exist after the set was replaced *)
  run value rules transform1 transform0 [New 4; Add 4 1; Add 4 2; Eval 0 Values 4 1 0; Delete 4; New 4; Add 4 9; Eval 0 Values 4 1 0] start = None /\
  (* a rule on lines cannot evaluate a divergence on lines, but it can on the sides of squares *)
  run value rules transform1 transform0 [New 4; Add 4 1; Eval 1 Divs 4 0 0] start = None /\
  run value rules transform1 transform0 [New 4; Add 4 1; EvalFace 1 Divs 4 0 0 (Direct 0)] start = Some [(1, Divs, 7)].
Proof. repeat split. Qed.
