(** What the evaluations should return, without any table: the current function of the
    set, evaluated at the point of the rule. *)
From Coq Require Import List Arith Bool.
From Verif Require Import QuadCache_model.
Import ListNotations.

Section Spec.
Context {F P V : Type}.
Variable value : F -> table -> P -> V.
Variable rules : nat -> @rule P.
(** what each face map does with a point *)
Variable transform : face_map -> P -> P.

(** the functions in the set at each address *)
Definition memory := nat -> option (list F).

(** quantities a rule of dimension [d] can evaluate in elements of its own dimension, and
    on the faces of elements of one dimension higher: elements have dimension 1 to 4, the
    three dimensional curl needs dimension 3, the two dimensional curl dimension 2 and the
    divergence at least dimension 2 *)
Definition sensible (t : table) (element_dimension : nat) : Prop :=
  match t with
  | Values | Grads => 1 <= element_dimension <= 4
  | VectorValues => True
  | Curls => element_dimension = 3
  | Curls2D => element_dimension = 2
  | Divs => 2 <= element_dimension <= 4
  end.

(** [does o M M' out]: a legal call [o] with memory [M] leaves [M'] and returns [out] *)
Inductive does : op -> memory -> memory -> list V -> Prop :=
| does_new a M M' : M a = None -> M' a = Some [] -> (forall b, b <> a -> M' b = M b) -> does (New a) M M' []
| does_delete a M M' : M a <> None -> M' a = None -> (forall b, b <> a -> M' b = M b) -> does (Delete a) M M' []
| does_add a f l M M' : M a = Some l -> M' a = Some (l ++ [f]) -> (forall b, b <> a -> M' b = M b) ->
    does (Add a f) M M' []
| does_eval r t a j i l f p M : M a = Some l -> nth_error l j = Some f -> nth_error (points (rules r)) i = Some p ->
    sensible t (dimension (rules r)) -> does (Eval r t a j i) M M [value f t p]
| does_eval_face r t a j i m l f p M : M a = Some l -> nth_error l j = Some f -> nth_error (points (rules r)) i = Some p ->
    sensible t (S (dimension (rules r))) -> does (EvalFace r t a j i m) M M [value f t (transform m p)].

Inductive does_all : list op -> memory -> list V -> Prop :=
| done M : does_all [] M []
| more o l M M' out rest : does o M M' out -> does_all l M' rest -> does_all (o :: l) M (out ++ rest).

Definition empty : memory := fun _ => None.
End Spec.
