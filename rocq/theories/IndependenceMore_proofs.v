(** Independence of monomials and of the conforming functions of an element. *)
From Coq Require Import List Arith Lia ZArith Reals Lra Bool.
From Verif Require Import Legendre_model RefGeometry_model RefGeometry_spec RefGeometry_proofs BasisFunctions_model BasisSets_model BasisSets_proofs
  BasisSizes_spec FreeFamilies_proofs Independence_spec Independence_proofs IndependenceSets_proofs IndependenceDG_proofs.
Import ListNotations.
Local Open Scope R_scope.

(** ** Monomials *)
Lemma ipow_degree : forall n, poly n (fun x => ipow x n) 1.
Proof.
  induction n; [intros x; reflexivity|]. eapply poly_ext; [apply poly_x; exact IHn| |reflexivity]. intros x. cbn. ring.
Qed.
Lemma evalDIM_scale : forall p ps r, evalDIM r p ps = r * evalDIM 1 p ps.
Proof.
  induction p as [|x p IH]; intros [|n ps] r; cbn; try ring. rewrite IH, (IH _ (1 * _)). ring.
Qed.
Definition small_box (d : nat) (p : point) : Prop := length p = d /\ Forall (fun x => 0 < x < 1/8) p.
Lemma monomials_free : forall d, free (fun ps p => evalDIM 1 p ps) (small_box d) (fun ps => length ps = d).
Proof.
  induction d as [|d IH].
  - apply free_single with (i0 := []) (x0 := []); [intros [|]; [reflexivity|discriminate]|split; [reflexivity|constructor]|cbn; lra].
  - apply free_map with (chi := product (fun n x => ipow x n) (fun ps p => evalDIM 1 p ps))
      (E := fun xp => 0 < fst xp < 1/8 /\ small_box d (snd xp)) (Q := fun nps => True /\ length (snd nps) = d)
      (kappa := fun ps => (hd 0%nat ps, tl ps)) (a := fun _ => 1) (s := fun _ => 1) (g := fun xp => fst xp :: snd xp).
    + apply (free_product Nat.eq_dec (fun n x => ipow x n) (fun ps p => evalDIM 1 p ps) (fun x => 0 < x < 1/8) (small_box d)
        (fun _ => True) (fun ps => length ps = d)); [|exact IH].
      apply free_graded; [lra|]. intros k _. exists 1. split; [apply ipow_degree|lra].
    + intros [|n ps] H; [discriminate|]. cbn in *. split; [exact I|lia].
    + intros [|n ps] [|m qs] H H' E; try discriminate. cbn in E. congruence.
    + intros [x p] [H1 [H2 H3]]. cbn [fst snd] in *. split; [cbn; lia|constructor; assumption].
    + intros; lra.
    + intros; lra.
    + intros [|n ps] [x p] H _; [discriminate|]. unfold product. cbn [fst snd hd tl evalDIM]. rewrite evalDIM_scale. ring.
Qed.
Definition powers_of (f : basis_function) : list nat := match f with Monomial ps => ps | _ => [] end.
Lemma monomials_independent : forall s d l, dimension s = d -> (1 <= d)%nat ->
  (forall f, In f l -> exists ps, f = Monomial ps /\ length ps = d) -> NoDup (map powers_of l) -> independent s l.
Proof.
  intros s d l Hd D H N.
  apply (independent_from s l (fun ps p => evalDIM 1 p ps) (small_box d) (fun ps => length ps = d) powers_of (fun _ => 1) (fun p => p)).
  - apply monomials_free.
  - exact N.
  - intros f Hf. destruct (H f Hf) as [ps [-> E]]. exact E.
  - intros; lra.
  - intros p [L F]. rewrite <- Hd in L. destruct s; cbn in Hd; try lia; cbn in L;
      repeat match goal with F : Forall _ ?p |- _ => destruct p; cbn in L; try lia; inversion F; clear F; subst end;
      unfold internal; cbn; apply f_equal; repeat (apply andb_true_iff; split); apply leb_true; rewrite ?Rabs_pos_eq by lra; lra.
  - intros f p Hf [L F]. destruct (H f Hf) as [ps [-> E]]. cbn [eval powers_of]. unfold Monomial_eval. rewrite L, E, Nat.eqb_refl, Rmult_1_l. reflexivity.
Qed.
Lemma map_flat_map : forall {A B C} (g : B -> C) (f : A -> list B) l, map g (flat_map f l) = flat_map (fun x => map g (f x)) l.
Proof. induction l; cbn; [reflexivity|]. rewrite map_app, IHl. reflexivity. Qed.
Lemma nodup_flat : forall k (f : nat -> list (list nat)) l, NoDup l -> (forall i, In i l -> NoDup (f i)) ->
  (forall i p, In p (f i) -> nth_error p k = Some i) -> NoDup (flat_map f l).
Proof.
  intros k f l N H1 H2. induction l as [|i l IH]; [constructor|]. apply NoDup_cons_iff in N. destruct N as [Ni N]. cbn.
  assert (A : NoDup (flat_map f l)) by (apply IH; [exact N|intros; apply H1; right; assumption]).
  assert (B : forall p, In p (f i) -> ~ In p (flat_map f l)).
  { intros p Hp Hq. apply in_flat_map in Hq. destruct Hq as [j [Hj Hq]]. apply H2 in Hp. apply H2 in Hq. assert (i = j) by congruence. subst. contradiction. }
  assert (C := H1 i (or_introl eq_refl)). revert A B C. generalize (flat_map f l). induction (f i) as [|p q IHq]; intros m A B C; [exact A|].
  apply NoDup_cons_iff in C. destruct C as [C1 C2]. cbn. constructor.
  - intros H. apply in_app_or in H. destruct H as [H|H]; [contradiction|]. apply (B p); [left; reflexivity|exact H].
  - apply IHq; [exact A|intros; apply B; right; assumption|exact C2].
Qed.
Lemma loop_nodup : forall k n, NoDup (loop k n).
Proof. intros. apply seq_NoDup. Qed.
Ltac members := intros f Hf; unfold assembleMonomialBasisFunctions1D, assembleMonomialBasisFunctions2D, assembleMonomialBasisFunctions3D, assembleMonomialBasisFunctions4D in Hf;
  repeat match goal with H : In _ (flat_map _ _) |- _ => apply in_flat_map in H; destruct H as [? [_ H]] end;
  apply in_map_iff in Hf; destruct Hf as [? [<- _]]; eexists; split; reflexivity.
Ltac distinct k := first
  [ rewrite map_flat_map; apply (nodup_flat k); [apply loop_nodup|intros ? _; distinct (S k)|
      intros ? ? Hp; rewrite ?map_flat_map in Hp; repeat match goal with H : In _ (flat_map _ _) |- _ =>
        apply in_flat_map in H; destruct H as [? [_ H]]; rewrite ?map_flat_map in H end;
      rewrite map_map in Hp; apply in_map_iff in Hp; destruct Hp as [? [<- _]]; reflexivity]
  | rewrite map_map; apply FinFun.Injective_map_NoDup; [intros ? ? E; cbn in E; congruence|apply loop_nodup] ].
Lemma all_monomials_independent : forall s n,
  match dimension s with
  | 1 => independent s (assembleMonomialBasisFunctions1D n)
  | 2 => independent s (assembleMonomialBasisFunctions2D n)
  | 3 => independent s (assembleMonomialBasisFunctions3D n)
  | 4 => independent s (assembleMonomialBasisFunctions4D n)
  | _ => True
  end%nat.
Proof.
  intros s n.
  destruct (dimension s) as [|[|[|[|[|]]]]] eqn:D; try exact I.
  - apply (monomials_independent s 1); [exact D|lia|members|]. unfold assembleMonomialBasisFunctions1D. distinct 0%nat.
  - apply (monomials_independent s 2); [exact D|lia|members|]. unfold assembleMonomialBasisFunctions2D. distinct 0%nat.
  - apply (monomials_independent s 3); [exact D|lia|members|]. unfold assembleMonomialBasisFunctions3D. distinct 0%nat.
  - apply (monomials_independent s 4); [exact D|lia|members|]. unfold assembleMonomialBasisFunctions4D. distinct 0%nat.
Qed.
