(** Vocabulary about histories of cache operations. *)
From Coq Require Import List Arith.
From Verif Require Import Lazy_model.
Import ListNotations.

Section Spec.
Context {Env : Type}.

(** the state of the rest of the program after a history *)
Definition env_after (e : Env) (h : list (op Env)) : Env :=
  fold_left (fun e o => match o with SetEnv e' => e' | _ => e end) h e.

(** the size that was last requested *)
Definition size_after (h : list (op Env)) : nat :=
  fold_left (fun n o => match o with ResetSize n' => n' | _ => n end) h 0.

Definition is_reset (o : op Env) : Prop :=
  match o with Reset => True | ResetSize _ => True | _ => False end.
Definition no_reset (h : list (op Env)) : Prop := forall o, In o h -> ~ is_reset o.
Definition no_get (i : nat) (h : list (op Env)) : Prop := ~ In (Get i) h.
Definition no_change (h : list (op Env)) : Prop := forall e, ~ In (SetEnv e) h.

(** every [get] in the history is within the size requested before it *)
Definition legal (h : list (op Env)) : Prop :=
  forall h1 i h2, h = h1 ++ Get i :: h2 -> i < size_after h1.

Definition env_after1 (e : Env) (h : list (op1 Env)) : Env :=
  fold_left (fun e o => match o with SetEnv1 e' => e' | _ => e end) h e.
End Spec.
