From Coq Require Import List Arith Bool Lia Permutation Reals Lra Field.
From Verif Require Import Matrix_model Matrix_spec RefGeometry_model RefGeometry_spec RefGeometry_proofs
  Curvilinear_model Curvilinear_spec Curvilinear_proofs PhysMapping_model PhysMapping_spec PhysMapping_proofs.
Import ListNotations.
Local Open Scope R_scope.

(** the nodes of the sides of a quadratic element *)
Definition quadratic_side (s : shape) (f : nat) : list nat :=
  match s, f with
  | Triangle, 0 => [0;1;2] | Triangle, 1 => [0;3;5] | Triangle, 2 => [2;4;5]
  | Tetrahedron, 0 => [0;6;9;3;8;5] | Tetrahedron, 1 => [0;1;2;6;7;9]
  | Tetrahedron, 2 => [0;3;5;1;4;2] | Tetrahedron, 3 => [2;4;5;7;8;9]
  | _, _ => []
  end%nat.
Lemma two_small : INR 2 <= 10 ^ 8.
Proof. cbn. lra. Qed.
Lemma node_unique : forall s i j p, has_curved_version s ->
  nth_error (geometry_points (Curvilinear s 2)) i = Some p -> nth_error (geometry_points (Curvilinear s 2)) j = Some p -> i = j.
Proof.
  intros s i j p Hs Hi Hj. assert (D := nodes_distinct s 2 Hs ltac:(lia)).
  apply (proj1 (NoDup_nth_error _) D); [apply nth_error_Some; congruence|congruence].
Qed.
Lemma quadratic_sides : forall s f m, s = Triangle \/ s = Tetrahedron -> getCodim1MappingPtr s f = Some m ->
  codim1_indices (Curvilinear s 2) f = Some (quadratic_side s f).
Proof.
  intros s f m Hs Hm.
  assert (Hs' : has_curved_version s) by (destruct Hs; subst; unfold has_curved_version; tauto).
  destruct (codim1_geometry (Curvilinear s 2) f) as [cg|] eqn:Hc;
    [|destruct Hs; subst; enum 5%nat f; cbn in Hm, Hc; try discriminate Hm; discriminate Hc].
  destruct (sides_ok s 2 f m cg Hs ltac:(lia) two_small Hm Hc) as (ns & E & L & H). rewrite E. apply f_equal.
  assert (K : forall k p i q, nth_error (geometry_points cg) k = Some p -> transform m p = Some q ->
    nth_error (geometry_points (Curvilinear s 2)) i = Some q -> nth_error ns k = Some i).
  { intros k p i q Hp Hq Hi. destruct (nth_error_combined _ ns k) as (j & Hj).
    { rewrite L. apply nth_error_Some. congruence. }
    destruct (H k p j Hp Hj) as (q' & Hj' & Hq'). rewrite Hq in Hq'. injection Hq' as <-.
    rewrite Hj. apply f_equal. eapply node_unique; eassumption. }
  clear E H.
  destruct Hs; subst; enum 5%nat f; cbn in Hm, Hc; try discriminate Hm; injs; cbn in L;
    repeat (destruct ns as [|? ns]; [discriminate L|cbn [length] in L; apply eq_add_S in L]);
    (destruct ns; [|discriminate L]); cbn [quadratic_side];
    repeat match goal with
    | |- ?x :: _ = ?i :: _ => apply cons_eq
    | |- [] = [] => reflexivity
    end.
  all: match goal with |- ?x = ?i => idtac end.
  Ltac position k := match goal with
    | K : forall k p i q, _ |- ?x = ?i =>
        assert (some_inj' : Some x = Some i); [|injection some_inj'; intros; assumption];
        apply (K k _ i _ eq_refl eq_refl); cbn; apply f_equal; point_eq ltac:(field)
    end.
  Ltac find_position := first [solve [position 0%nat]|solve [position 1%nat]|solve [position 2%nat]|solve [position 3%nat]
    |solve [position 4%nat]|solve [position 5%nat]].
  all: find_position.
Qed.

Lemma agree_cons : forall i r a b, agree_on (i :: r) a b -> nth_error a i = nth_error b i /\ agree_on r a b.
Proof. intros i r a b H. split; [apply H; left; reflexivity|intros j Hj; apply H; right; exact Hj]. Qed.
Lemma quadratic_faces : forall s f m ns nodes nodes', s = Triangle \/ s = Tetrahedron ->
  getCodim1MappingPtr s f = Some m -> codim1_indices (Curvilinear s 2) f = Some ns ->
  are_nodes_of (Curvilinear s 2) nodes -> are_nodes_of (Curvilinear s 2) nodes' -> agree_on ns nodes nodes' ->
  forall p q, transform m p = Some q ->
  phys_transform (Curvilinear s 2) nodes q = phys_transform (Curvilinear s 2) nodes' q.
Proof.
  intros s f m ns nodes nodes' Hs Hm Hn H H' A p q T.
  rewrite (quadratic_sides s f m Hs Hm) in Hn. injection Hn as <-.
  destruct Hs; subst; enum 5%nat f; cbn in Hm; try discriminate Hm; injs; cbn [quadratic_side] in A;
    repeat (destruct p as [|? p]; cbn in T; try discriminate T); injs;
    coordinates_of H; coordinates_of H';
    repeat match type of A with agree_on (_ :: _) _ _ =>
      let B := fresh in apply agree_cons in A; destruct A as [B A]; cbn [nth_error] in B;
      injection B; clear B; intros; subst
    end; clear A; cbn; point_eq ltac:(field).
Qed.
