(** Rules of differentiation for functions written as [fun t => ...], and a tactic
    applying them.  No definitions. *)
From Coq Require Import Reals Lra.
Local Open Scope R_scope.

Lemma D_eq : forall f x l l', derivable_pt_lim f x l -> l = l' -> derivable_pt_lim f x l'.
Proof. intros. subst. assumption. Qed.
Lemma D_const : forall c x, derivable_pt_lim (fun _ => c) x 0.
Proof. exact derivable_pt_lim_const. Qed.
Lemma D_id : forall x, derivable_pt_lim (fun t => t) x 1.
Proof. exact derivable_pt_lim_id. Qed.
Lemma D_plus : forall f g x a b, derivable_pt_lim f x a -> derivable_pt_lim g x b ->
  derivable_pt_lim (fun t => f t + g t) x (a + b).
Proof. exact derivable_pt_lim_plus. Qed.
Lemma D_minus : forall f g x a b, derivable_pt_lim f x a -> derivable_pt_lim g x b ->
  derivable_pt_lim (fun t => f t - g t) x (a - b).
Proof. exact derivable_pt_lim_minus. Qed.
Lemma D_opp : forall f x a, derivable_pt_lim f x a -> derivable_pt_lim (fun t => - f t) x (- a).
Proof. exact derivable_pt_lim_opp. Qed.
Lemma D_mult : forall f g x a b, derivable_pt_lim f x a -> derivable_pt_lim g x b ->
  derivable_pt_lim (fun t => f t * g t) x (a * g x + f x * b).
Proof. exact derivable_pt_lim_mult. Qed.
Lemma D_div : forall f g x a b, derivable_pt_lim f x a -> derivable_pt_lim g x b -> g x <> 0 ->
  derivable_pt_lim (fun t => f t / g t) x ((a * g x - b * f x) / (g x * g x)).
Proof. exact derivable_pt_lim_div. Qed.
Lemma D_pow : forall f n x a, derivable_pt_lim f x a ->
  derivable_pt_lim (fun t => f t ^ n) x (INR n * f x ^ pred n * a).
Proof.
  intros f n x a H. apply (derivable_pt_lim_comp f (fun u => u ^ n) x a); [exact H|apply derivable_pt_lim_pow].
Qed.

Ltac derive_rule :=
  match goal with
  | |- derivable_pt_lim (fun _ => ?c) _ _ => apply (D_const c)
  | |- derivable_pt_lim (fun t => t) _ _ => apply D_id
  | |- derivable_pt_lim (fun t => @?f t + @?g t) _ _ => apply (D_plus f g)
  | |- derivable_pt_lim (fun t => @?f t - @?g t) _ _ => apply (D_minus f g)
  | |- derivable_pt_lim (fun t => - @?f t) _ _ => apply (D_opp f)
  | |- derivable_pt_lim (fun t => @?f t * @?g t) _ _ => apply (D_mult f g)
  | |- derivable_pt_lim (fun t => @?f t / @?g t) _ _ => apply (D_div f g)
  | |- derivable_pt_lim (fun t => @?f t ^ ?n) _ _ => apply (D_pow f n)
  end.
(** leaves the side conditions of divisions and, last, the equation of the derivatives *)
Ltac derive_with tac := eapply D_eq; [repeat derive_rule | cbv beta; tac].
Ltac derive := derive_with ltac:(try field).
