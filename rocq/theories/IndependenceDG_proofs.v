(** Independence of the sets that the mesh uses, up to order 6, and of monomials. *)
From Coq Require Import List Arith Lia ZArith Reals Lra Bool.
From Verif Require Import Legendre_model RefGeometry_model RefGeometry_spec RefGeometry_proofs BasisFunctions_model BasisSets_model BasisSets_proofs
  BasisSizes_spec FreeFamilies_proofs Independence_spec Independence_proofs IndependenceSets_proofs.
Import ListNotations.
Local Open Scope R_scope.

Section NoDupb.
Context {A : Type}.
Variable dec : forall a b : A, {a = b} + {a <> b}.
Fixpoint nodupb (l : list A) : bool := match l with [] => true | a :: l' => if in_dec dec a l' then false else nodupb l' end.
Lemma nodupb_true : forall l, nodupb l = true -> NoDup l.
Proof. induction l; cbn; intros H; [constructor|]. destruct (in_dec dec a l); [discriminate|]. constructor; auto. Qed.
End NoDupb.

Definition partb (d : nat) (J : list nat) : bool :=
  nodupb Nat.eq_dec J && (1 <=? length J)%nat && (length J <=? 4)%nat && nodes_below d J.
Definition proper_partsb (d : nat) (parts : list (list nat)) : bool :=
  forallb (partb d) parts && forallb (fun J => forallb (apartb J) parts) parts.
Lemma partb_true : forall d J, partb d J = true -> NoDup J /\ (1 <= length J <= 4)%nat /\ forall n, In n J -> (n <= d)%nat.
Proof.
  intros d J H. unfold partb in H. bools. split; [eapply nodupb_true; eassumption|].
  repeat match goal with H : (_ <=? _)%nat = true |- _ => apply Nat.leb_le in H end. split; [lia|].
  intros n Hn. match goal with H : nodes_below _ _ = true |- _ => unfold nodes_below in H; rewrite forallb_forall in H; apply H in Hn end.
  apply Nat.leb_le. exact Hn.
Qed.
Lemma proper_partsb_true : forall d parts, proper_partsb d parts = true -> proper_parts d parts.
Proof.
  intros d parts H. unfold proper_partsb in H. apply andb_true_iff in H. destruct H as [H1 H2]. rewrite forallb_forall in H1, H2. split.
  - intros J HJ. apply partb_true. apply H1. exact HJ.
  - intros J K HJ HK. apply apartb_true. specialize (H2 J HJ). rewrite forallb_forall in H2. apply H2. exact HK.
Qed.
Definition prism_index_dec (a b : (list nat * list nat) * nat) : {a = b} + {a <> b}.
Proof. decide equality; [apply Nat.eq_dec|apply index_dec]. Defined.

Definition check (s : shape) (l : list basis_function) : bool :=
  match s with
  | Line => forallb line_good l && nodupb Nat.eq_dec (map line_index l)
  | Square => forallb square_good l && nodupb pair_eq_dec (map square_index l)
  | Cube => forallb cube_good l && nodupb triple_eq_dec (map cube_index l)
  | Triangle => forallb triangle_good l && proper_partsb 2 (parts_of l) && nodupb index_dec (map simplex_index l)
  | Tetrahedron => forallb tetrahedron_good l && proper_partsb 3 (parts_of l) && nodupb index_dec (map simplex_index l)
  | TriangularPrism => forallb prism_good l && proper_partsb 2 (level_parts l 0) && proper_partsb 2 (level_parts l 1)
      && proper_partsb 2 (level_parts l 2) && nodupb prism_index_dec (map prism_index l)
  | _ => false
  end.
Lemma check_independent : forall s l, check s l = true -> independent s l.
Proof.
  intros s l H. destruct s; cbn in H; try discriminate; bools;
    repeat match goal with H : nodupb _ _ = true |- _ => apply nodupb_true in H | H : proper_partsb _ _ = true |- _ => apply proper_partsb_true in H end.
  - apply line_independent; assumption.
  - apply triangle_independent; assumption.
  - apply square_independent; assumption.
  - apply tetrahedron_independent; assumption.
  - apply prism_independent; [assumption| |assumption]. intros [|[|[|j]]]; try assumption.
    assert (level_parts l (S (S (S j))) = []) as ->; [|split; [intros ? []|intros ? ? []]].
    unfold level_parts. clear. induction l as [|f l IH]; [reflexivity|]. cbn [filter].
    assert (Nat.eqb (level (snd (prism_index f))) (S (S (S j))) = false) as -> by (destruct (snd (prism_index f)) as [|[|]]; reflexivity).
    exact IH.
  - apply cube_independent; assumption.
Qed.

(** a single constant *)
Lemma constant_independent : forall s, (1 <= dimension s)%nat -> independent s [PiecewiseConstant (dimension s)].
Proof.
  intros s Hd [|c [|]] L Z; try discriminate.
  assert (exists p, internal s p /\ length p = dimension s) as [p [H1 H2]].
  { destruct s; cbn in Hd; try lia; [exists [0]|exists [0; 0]|exists [0; 0]|exists [0; 0; 0]|exists [0; 0; 0]|exists [0; 0; 0]|exists [0; 0; 0]|exists [0; 0; 0; 0]];
    (split; [|reflexivity]); unfold internal; cbn; rewrite ?Rabs_R0; apply f_equal; repeat (apply andb_true_iff; split); apply leb_true; lra. }
  specialize (Z p [1] H1). constructor; [|constructor].
  assert (combination [c] [1] = 0) as E.
  { apply Z. cbn. unfold PiecewiseConstant_eval. rewrite H2, Nat.eqb_refl. reflexivity. }
  unfold combination, sum in E. cbn in E. lra.
Qed.

(** pyramids *)
Lemma pyramid_independent : independent Pyramid [VertexPyramid 0; VertexPyramid 1; VertexPyramid 2; VertexPyramid 3; VertexPyramid 4].
Proof.
  pose (chi := fun n p => match VertexPyramid_eval n p with Some v => v | None => 0 end).
  pose (node := fun n => nth n (points Pyramid) []).
  assert (V : forall i j, (i < 5)%nat -> (j < 5)%nat -> VertexPyramid_eval i (node j) = Some (if Nat.eqb i j then 1 else 0)).
  { intros i j Hi Hj. destruct i as [|[|[|[|[|]]]]]; try lia; (destruct j as [|[|[|[|[|]]]]]; try lia); cbn [node points nth VertexPyramid_eval Nat.eqb]; unfold node;
      cbn [points nth VertexPyramid_eval Nat.eqb]; f_equal;
      first [reflexivity | solve [field; apply plus_tiny_nonzero] | rewrite plus_tiny_same by lra; field; lra]. }
  apply (independent_from Pyramid _ chi (fun p => exists j, (j < 5)%nat /\ p = node j) (fun n => n < 5)%nat
    (fun f => match f with VertexPyramid n => n | _ => 0%nat end) (fun _ => 1) (fun p => p)).
  - apply (free_parts Nat.eq_dec) with (part := fun i : nat => i) (rank := fun _ => 0%nat) (DJ := fun j p => p = node j).
    + intros i p Hi ->. exists i. auto.
    + intros i k p Hi Hk -> N _. unfold chi. rewrite V by assumption. destruct (Nat.eqb_spec i k); [contradiction|reflexivity].
    + intros k Hk. apply free_single with (i0 := k) (x0 := node k); [tauto|reflexivity|]. unfold chi. rewrite V by assumption.
      rewrite Nat.eqb_refl. lra.
  - cbn. repeat (constructor; [cbn; intuition discriminate|]). constructor.
  - intros f Hf. cbn in Hf. intuition subst; cbn; lia.
  - intros; lra.
  - intros p [j [Hj ->]]. destruct j as [|[|[|[|[|]]]]]; try lia; unfold node, internal; cbn; apply f_equal;
      repeat (apply andb_true_iff; split); apply leb_true; repeat (unfold Rabs; destruct (Rcase_abs _)); lra.
  - intros f p Hf [j [Hj ->]]. rewrite Rmult_1_l. cbn in Hf.
    assert (E : forall n, (n < 5)%nat -> VertexPyramid_eval n (node j) = Some (chi n (node j))).
    { intros n Hn. unfold chi. rewrite V by assumption. reflexivity. }
    intuition subst; cbn [eval]; apply E; lia.
Qed.

Lemma dg_check : forall asserts s order l, (1 <= order <= 6)%nat -> s <> Pyramid -> default_DG_set asserts s order = Some l -> check s l = true.
Proof.
  intros asserts s order l H N E.
  assert (G : match default_DG_set asserts s order with Some l => check s l | None => true end = true); [|rewrite E in G; exact G].
  clear E. destruct order as [|[|[|[|[|[|[|]]]]]]]; try lia; destruct s; try contradiction; destruct asserts; vm_compute; reflexivity.
Qed.
Lemma dg_independent : forall asserts s order l, (order <= 6)%nat -> default_DG_set asserts s order = Some l -> independent s l.
Proof.
  intros asserts s order l L E. destruct order as [|order].
  - destruct s; cbn in E; try discriminate; try (injection E as <-; apply constant_independent; cbn; lia).
    destruct asserts; cbn in E; injection E as <-; apply (constant_independent Pyramid); cbn; lia.
  - assert (s = Pyramid \/ s <> Pyramid) as [->|N] by (destruct s; (left; reflexivity) || (right; discriminate)).
    + cbn in E. unfold createDGBasisFunctionSet3DH1ConformingPyramid in E.
      destruct (asserts && negb (S order <? 2)); [discriminate|]. destruct (S order =? 1).
      * destruct asserts; cbn in E; injection E as <-; apply pyramid_independent.
      * injection E as <-. apply (constant_independent Pyramid); cbn; lia.
    + apply check_independent. apply (dg_check asserts s (S order)); [lia|exact N|exact E].
Qed.
