(** Butcher's order conditions: a Runge-Kutta method has order p exactly when, for every
    rooted tree with at most p nodes, its elementary weight is one over the density of
    the tree. *)
From Coq Require Import List Arith QArith Qcanon.
From Verif Require Import Tableau_model.
Import ListNotations.

(** Rooted trees; the children are listed in some order. *)
Inductive tree := Node (children : list tree).
(** number of nodes *)
Fixpoint nodes (t : tree) : nat := match t with Node l => S (list_sum (map nodes l)) end.
(** density: product over all nodes of the size of the subtree below it *)
Fixpoint density (t : tree) : nat :=
  match t with Node l => (nodes t * fold_right Nat.mul 1 (map density l))%nat end.

Local Open Scope Qc_scope.
Definition sum (l : list Qc) : Qc := fold_right Qcplus 0 l.
Definition prod (l : list Qc) : Qc := fold_right Qcmult 1 l.
Definition of_nat (n : nat) : Qc := Q2Qc (inject_Z (Z.of_nat n)).

(** [a i j], [b i]: coefficients of a method with [s] stages. *)
Section Weights.
Variables (s : nat) (a : nat -> nat -> Qc) (b : nat -> Qc).
(** weight of a tree hanging below stage [i]: product over the children of
    sum_j a_ij * weight of the child at stage j *)
Fixpoint weight_at (i : nat) (t : tree) : Qc :=
  match t with
  | Node l => prod (map (fun u => sum (map (fun j => a i j * weight_at j u) (seq 0 s))) l)
  end.
Definition weight (t : tree) : Qc := sum (map (fun i => b i * weight_at i t) (seq 0 s)).
Definition has_order (p : nat) : Prop := forall t, (nodes t <= p)%nat -> weight t * of_nat (density t) = 1.
End Weights.

(** The tableau is explicit with complete tables: [a], [b], [c] are what the getters return. *)
Definition coefficients (T : Tableau Qc) (a : nat -> nat -> Qc) (b c : nat -> Qc) : Prop :=
  (forall i j, getA T i j = if ((i <? numberOfStages T) && (j <? i))%nat%bool then Some (a i j) else None) /\
  (forall i j, (i <= j)%nat -> a i j = 0) /\
  (forall i, getB T i = if (i <? numberOfStages T)%nat then Some (b i) else None) /\
  (forall i, getC T i = if (i <? numberOfStages T)%nat then Some (c i) else None).

(** The Runge-Kutta equations for u' = f(t, u), the unknowns being indexed by [X]:
    k_i = f(t + c_i dt, u + dt sum_{j<i} a_ij k_j) and the new solution is
    u + dt sum_i b_i k_i. *)
Section Equations.
Context {X : Type}.
Variables (s : nat) (a : nat -> nat -> Qc) (b c : nat -> Qc).
Variables (f : Qc -> (X -> Qc) -> X -> Qc) (t dt : Qc) (u : X -> Qc).
Definition rk_equations (k : nat -> X -> Qc) (u' : X -> Qc) : Prop :=
  (forall i x, (i < s)%nat ->
     k i x = f (t + c i * dt) (fun y => u y + dt * sum (map (fun j => a i j * k j y) (seq 0 i))) x) /\
  (forall x, u' x = u x + dt * sum (map (fun i => b i * k i x) (seq 0 s))).
End Equations.

(** A functional on states that is convex, e.g. the total variation or a maximum norm. *)
Definition convex {X : Type} (N : (X -> Qc) -> Qc) : Prop :=
  (forall u v, (forall x, u x = v x) -> N u = N v) /\
  (forall th u v, 0 <= th -> th <= 1 ->
     N (fun x => th * u x + (1 - th) * v x) <= th * N u + (1 - th) * N v).
(** Every forward Euler step of size [dt] does not increase [N]. *)
Definition euler_decreases {X : Type} (N : (X -> Qc) -> Qc) (f : Qc -> (X -> Qc) -> X -> Qc) (dt : Qc) : Prop :=
  (forall t u v, (forall x, u x = v x) -> forall x, f t u x = f t v x) /\
  (forall t u, N (fun x => u x + dt * f t u x) <= N u).
